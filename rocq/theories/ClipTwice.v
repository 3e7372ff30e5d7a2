(** * ClipTwice: clipping a clipped topology with the same mask *)
From Coq Require Import Permutation.
From Verif Require Import ClipTwiceSpec GeoProofs TopoProofs BuildProofs ClipEdgeProofs ClipTopoProofs ClipTopoLaws ClipTrace.

(** ** Removing repetitions of points *)
Inductive thin : list point -> list point -> Prop :=
| thin_nil : thin [] []
| thin_keep p l l' : thin l l' -> thin (p :: l) (p :: l')
| thin_drop p l l' : thin (p :: l) l' -> thin (p :: p :: l) l'.

Lemma thin_refl l : thin l l.
Proof. induction l; constructor; assumption. Qed.

Lemma dedup_cons_ne p q l : p <> q -> dedup (p :: q :: l) = p :: dedup (q :: l).
Proof. intros H. cbn [dedup]. rewrite (proj2 (pt_eqb_neq p q) H). reflexivity. Qed.
Lemma dedup_cons_eq p l : dedup (p :: p :: l) = dedup (p :: l).
Proof. cbn [dedup]. rewrite pt_eqb_refl. reflexivity. Qed.

Lemma thin_dedup l l' : thin l l' -> dedup l' = dedup l.
Proof.
  intros H.
  assert (HH : forall a, dedup (a :: l') = dedup (a :: l) /\ dedup l' = dedup l).
  { induction H as [|p l l' H IH|p l l' H IH]; intros a; [split; reflexivity| |].
    - assert (E : dedup (p :: l') = dedup (p :: l)) by apply IH. split; [|exact E].
      destruct (pt_eqb_spec a p) as [->|Hn]; [rewrite !dedup_cons_eq; exact E|]. rewrite !dedup_cons_ne by exact Hn. congruence.
    - rewrite dedup_cons_eq. destruct (IH a) as [I1 I2]. split; [|exact I2]. rewrite I1.
      destruct (pt_eqb_spec a p) as [->|Hn]; [rewrite !dedup_cons_eq; reflexivity|]. rewrite !dedup_cons_ne by exact Hn. rewrite dedup_cons_eq. reflexivity. }
  apply (HH (Pt 0 0)).
Qed.

Lemma dedup_length_cons p l : (length (dedup l) <= length (dedup (p :: l)))%nat.
Proof.
  destruct l as [|q l]; [cbn; lia|]. destruct (pt_eqb_spec p q) as [->|Hn]; [rewrite dedup_cons_eq; lia|].
  rewrite dedup_cons_ne by exact Hn. cbn [length]. lia.
Qed.

Lemma subseq_dedup_length l' l : subseq l' l -> (length (dedup l') <= length (dedup l))%nat.
Proof.
  intros H.
  assert (HH : forall a, (length (dedup (a :: l')) <= length (dedup (a :: l)))%nat /\ (length (dedup l') <= length (dedup l))%nat).
  { induction H as [|p l l' H IH|p l l' H IH]; intros a; [split; lia| |].
    - split; [|pose proof (dedup_length_cons p l'); destruct (IH a); lia].
      destruct (pt_eqb_spec a p) as [->|Hn]; [rewrite dedup_cons_eq; apply IH|]. rewrite dedup_cons_ne by exact Hn. cbn [length].
      destruct (IH a) as [_ I2]. pose proof (dedup_length_cons p l').
      assert (length (dedup (a :: l)) <= S (length (dedup l)))%nat; [|lia].
      destruct l as [|x l]; [cbn; lia|]. destruct (pt_eqb_spec a x) as [->|Hx]; [rewrite dedup_cons_eq; lia|].
      rewrite dedup_cons_ne by exact Hx. cbn [length]. lia.
    - destruct (IH p) as [I1 _]. split; [|exact I1].
      destruct (pt_eqb_spec a p) as [->|Hn]; [rewrite !dedup_cons_eq; exact I1|]. rewrite !dedup_cons_ne by exact Hn. cbn [length]. lia. }
  apply (HH (Pt 0 0)).
Qed.

Lemma subseq_thin l' l : subseq l' l -> dedup l' = dedup l -> thin l l'.
Proof.
  revert l'. induction l as [|x l IH]; intros l' Hs Hd.
  - inversion Hs. constructor.
  - destruct l as [|y l].
    + inversion Hs as [|? ? ? H1|? ? ? H1]; subst; inversion H1; subst; [discriminate|]. apply thin_refl.
    + destruct (pt_eqb_spec x y) as [<-|Hn].
      * rewrite dedup_cons_eq in Hd. inversion Hs as [|? ? ? H1|? ? a H1]; subst; [apply thin_drop, IH; assumption|].
        inversion H1 as [|? ? ? H2|? ? b H2]; subst.
        -- apply thin_drop, IH; [apply sub_take, H2|exact Hd].
        -- apply thin_keep, IH; [exact H1|]. rewrite <- Hd, dedup_cons_eq. reflexivity.
      * rewrite dedup_cons_ne in Hd by exact Hn. inversion Hs as [|? ? ? H1|? l0 ? H1]; subst.
        -- apply subseq_dedup_length in H1. rewrite Hd in H1. cbn [length] in H1. lia.
        -- apply thin_keep, IH; [exact H1|]. destruct l0 as [|z l0].
           { destruct (dedup_hd y l) as [t Ht]. rewrite Ht in Hd. discriminate. }
           destruct (pt_eqb_spec x z) as [<-|Hz].
           { apply subseq_dedup_length in H1. rewrite dedup_cons_eq in Hd. rewrite Hd in H1. cbn [length] in H1. lia. }
           rewrite dedup_cons_ne in Hd by exact Hz. congruence.
Qed.

Lemma subseq_rev {A} (l' l : list A) : subseq l' l -> subseq (rev l') (rev l).
Proof.
  induction 1; cbn [rev]; [constructor| |].
  - rewrite <- (app_nil_r (rev l)). apply subseq_app; [assumption|apply subseq_nil].
  - apply subseq_app; [assumption|apply subseq_refl].
Qed.

Lemma thin_subseq l l' : thin l l' -> subseq l' l.
Proof. induction 1; constructor; assumption. Qed.

Lemma thin_rev l l' : thin l l' -> thin (rev l) (rev l').
Proof.
  intros H. apply subseq_thin; [apply subseq_rev, thin_subseq, H|]. rewrite !dedup_rev, (thin_dedup l l' H). reflexivity.
Qed.

Lemma thin_oriented d l l' : thin l l' -> thin (oriented l d) (oriented l' d).
Proof. destruct d; [auto|apply thin_rev]. Qed.

Lemma first_dedup l : first (dedup l) = first l.
Proof. destruct l as [|p l]; [reflexivity|]. destruct (dedup_hd p l) as [t ->]. reflexivity. Qed.
Lemma thin_first l l' : thin l l' -> first l' = first l.
Proof. intros H. rewrite <- first_dedup, (thin_dedup l l' H). apply first_dedup. Qed.
Lemma thin_final l l' : thin l l' -> final l' = final l.
Proof.
  intros H. apply thin_rev, thin_first in H. unfold final. destruct (rev l), (rev l'); cbn in *; congruence.
Qed.

(** A repeated point adds nothing to the area. *)
Lemma cross_same m p c : cross m p p = Ok c -> c = 0.
Proof.
  unfold cross. destruct (i64_mul m (px p) (py p)) as [x|]; [|discriminate]. cbn [bind].
  unfold i64_sub. rewrite Z.sub_diag. intros [= <-]. reflexivity.
Qed.

Lemma i64_ret_fits m z a : i64_ret m z = Ok a -> fits a.
Proof. intros H. apply i64_ret_ok in H as ->. apply wrap_fits. Qed.

Lemma i64_add_0 m a : fits a -> i64_add m a 0 = Ok a.
Proof. intros H. unfold i64_add, i64_ret. rewrite Z.add_0_r. apply in_i64_fits in H. rewrite H. reflexivity. Qed.

Lemma thin_areas m l l' a0 a : thin l l' -> fits a0 -> mfold (area_step m) (pairs l) a0 = Ok a ->
  mfold (area_step m) (pairs l') a0 = Ok a.
Proof.
  intros H. revert a0.
  assert (HH : (forall a0, fits a0 -> mfold (area_step m) (pairs l) a0 = Ok a -> mfold (area_step m) (pairs l') a0 = Ok a) /\
    (forall p a0, fits a0 -> mfold (area_step m) (pairs (p :: l)) a0 = Ok a -> mfold (area_step m) (pairs (p :: l')) a0 = Ok a)).
  2:{ apply HH. }
  assert (HS : forall p l a0, fits a0 -> mfold (area_step m) (pairs (p :: p :: l)) a0 = Ok a -> mfold (area_step m) (pairs (p :: l)) a0 = Ok a).
  { intros p l0 a0 Hf. cbn [pairs mfold]. intros E. apply bind_Ok in E as (a1 & E1 & E). unfold area_step in E1. cbn [fst snd] in E1.
    apply bind_Ok in E1 as (c & E1 & E2). apply cross_same in E1 as ->. rewrite i64_add_0 in E2 by exact Hf. injection E2 as <-. exact E. }
  induction H as [|p l l' H [IH1 IH2]|p l l' H [IH1 IH2]]; [split; auto| |].
  - split; [intros a0; apply IH2|]. intros q a0 Hf. cbn [pairs mfold]. intros E. apply bind_Ok in E as (a1 & E1 & E).
    rewrite E1. cbn [bind]. apply IH2; [|exact E]. unfold area_step in E1. apply bind_Ok in E1 as (c & _ & E1). eapply i64_ret_fits, E1.
  - split.
    + intros a0 Hf E. apply IH1, HS; assumption.
    + intros q a0 Hf E. apply IH2; [exact Hf|]. cbn [pairs mfold] in E |- *. apply bind_Ok in E as (a1 & E1 & E). rewrite E1. cbn [bind].
      apply (HS p); [|exact E]. unfold area_step in E1. apply bind_Ok in E1 as (c & _ & E1). eapply i64_ret_fits, E1.
Qed.

Lemma thin_signed_area2 m l l' a : thin l l' -> signed_area2 m l = Ok a -> signed_area2 m l' = Ok a.
Proof. intros H. apply thin_areas; [exact H|]. unfold fits. lia. Qed.

Lemma thin_shoelace l l' : thin l l' -> shoelace l' = shoelace l.
Proof.
  intros H. assert (HH : forall a, shoelace (a :: l') = shoelace (a :: l) /\ shoelace l' = shoelace l).
  { induction H as [|p l l' H IH|p l l' H IH]; intros a; [split; reflexivity| |].
    - cbn [shoelace]. destruct (IH p) as [I1 _]. cbn [shoelace] in I1. split; [f_equal|]; exact I1.
    - destruct (IH a) as [I1 I2]. rewrite I1, I2. cbn [shoelace]. rewrite det_same. split; lia. }
  apply (HH (Pt 0 0)).
Qed.

(** ** Clipped edges, clipped again *)
Definition flat_gap (k : clip_mask) (a b : point) : bool := negb (insideb k a || insideb k b).

Lemma run_edge_pair k X a b : kept_point k a -> kept_point k b ->
  run_edge k X [a; b] = if flat_gap k a b then [] else [a; b].
Proof.
  intros Ha Hb. rewrite run_edge_clip_path. unfold clip_path, kept_parts, flat_gap. cbn [combine tl flat_map fst snd app].
  assert (HO : forall p, kept_point k p -> outsideb k p = false).
  { intros p Hp. destruct (outsideb_spec k p) as [Ho|]; [|reflexivity]. exfalso. destruct k; unfold kept_point, inside, on_line, outside, axis, level in *; lia. }
  unfold kept_part. rewrite !HO by assumption. rewrite app_nil_r.
  destruct (insideb k a); cbn [orb negb]; [reflexivity|]. destruct (insideb k b); reflexivity.
Qed.

Lemma clip_again m k ps c : clip_edge m k ps = Ok c -> (2 <= length c)%nat ->
  exists c', clip_edge m k c = Ok c' /\ big c' = true /\ thin c c' /\ clip_edge m k c' = Ok c'.
Proof.
  intros H Hl. destruct (clip_edge_again m k ps c H) as (c' & E & Hd & Hs & E'). exists c'. split; [exact E|].
  split; [|split; [apply subseq_thin; assumption|exact E']].
  pose proof (clip_edge_good m k ps c H) as HX. pose proof (clip_edge_path m k ps c H) as Hp.
  assert (Hl' : (2 <= length ps)%nat).
  { rewrite Hp in Hl. unfold clip_path, kept_parts in Hl. destruct ps as [|p0 [|p1 ps]]; [cbn in Hl; lia|cbn in Hl; lia|cbn; lia]. }
  destruct (clip_path_empty k (isect m k) ps Hl') as [HE _]. rewrite <- Hp in HE.
  destruct (clip_path_empty k (isect m k) c Hl) as [HE' HL]. rewrite <- (clip_edge_path m k c c' E) in HE', HL.
  destruct HL as [->|HL]; [|apply Nat.leb_le; exact HL]. exfalso.
  assert (HN : c = []); [|rewrite HN in Hl; cbn in Hl; lia]. apply HE. intros p Hpi Hin.
  apply (proj1 HE' eq_refl p); [|exact Hin].
  assert (HF : In p (filter (insideb k) c)).
  { rewrite Hp, <- run_edge_clip_path, run_edge_inside by assumption. apply filter_In. split; [exact Hpi|]. destruct (insideb_spec k p); auto. }
  apply filter_In in HF. tauto.
Qed.

Lemma Forall2_map_self {A B} (P : A -> B -> Prop) (f : A -> B) l : (forall a, In a l -> P a (f a)) -> Forall2 P l (map f l).
Proof. induction l as [|a l IH]; intros H; constructor; [apply H; left; reflexivity|]. apply IH. intros. apply H. right. assumption. Qed.

Lemma clips_old {D} m k (t : topology D) C c : clips m k t C -> In c C -> exists ps, clip_edge m k ps = Ok c.
Proof. intros HC Hc. unfold clips in HC. eapply Forall2_in_r in HC as (e & _ & He); [|exact Hc]. eauto. Qed.

Definition again_of (m : mode) (k : clip_mask) (ps : list point) : list point := run_edge k (isect m k) ps.

Section Again.
  Context {D : Type} (m : mode) (k : clip_mask) (t : topology D) (C : list (list point)) (s : new_edge_set).
  Hypothesis HC : clips m k t C.
  Hypothesis Hs : nes_ok C s.

  (** What the edges of the clipped topology are clipped to. *)
  Definition C2 : list (list point) := map (again_of m k) (pts_of C s).

  Lemma C2_clips : Forall2 (fun ps c => clip_edge m k ps = Ok c) (pts_of C s) C2.
  Proof.
    apply Forall2_map_self. intros ps Hp. apply clip_edge_no_outside.
    pose proof (clip_points_kept m k t C s HC Hs) as HF. rewrite Forall_forall in HF. apply HF, Hp.
  Qed.

  Lemma C2_old j c : nth_error (old_of C) j = Some c ->
    exists c', nth_error C2 j = Some c' /\ big c' = true /\ thin c c' /\ clip_edge m k c' = Ok c'.
  Proof.
    intros Hj. assert (Hin : In c (old_of C)) by (eapply nth_error_In, Hj). pose proof (in_old C c Hin) as [HI Hl].
    destruct (clips_old m k t C c HC HI) as (ps & E). destruct (clip_again m k ps c E Hl) as (c' & E1 & E2 & E3 & E4).
    exists c'. split; [|auto]. unfold C2. rewrite nth_error_map. unfold pts_of. rewrite nth_error_app1 by (apply nth_error_Some; congruence).
    rewrite Hj. cbn [option_map]. f_equal. unfold again_of.
    pose proof (clip_points_kept m k t C s HC Hs) as HF. rewrite Forall_forall in HF.
    specialize (HF c ltac:(unfold pts_of; apply in_or_app; left; exact Hin)). rewrite clip_edge_no_outside in E1 by exact HF. congruence.
  Qed.

  Lemma C2_new j a b i : nth_error (nes_edges s) j = Some ((a, b), i) ->
    nth_error C2 (length (old_of C) + j) = Some (if flat_gap k a b then [] else [a; b]).
  Proof.
    intros Hj. unfold C2. rewrite nth_error_map. unfold pts_of. rewrite nth_error_app2 by lia.
    rewrite Nat.add_comm, Nat.add_sub, nth_error_map, Hj. cbn [option_map seg_points fst snd]. f_equal. unfold again_of.
    pose proof (clip_points_kept m k t C s HC Hs) as HF. unfold pts_of in HF. apply Forall_app in HF as [_ HF].
    rewrite Forall_forall in HF. specialize (HF [a; b]).
    assert (HH : Forall (kept_point k) [a; b]).
    { apply HF. apply in_map_iff. exists ((a, b), i). split; [reflexivity|]. eapply nth_error_In, Hj. }
    inversion HH as [|? ? Ka HH']; subst. inversion HH' as [|? ? Kb _]; subst. apply run_edge_pair; assumption.
  Qed.

  Definition flat (p : piece) : bool := match pc_key p with KGap a b => flat_gap k a b | KOld _ => false end.
  Definition repiece (d : directed_edge) (p : piece) : piece :=
    if flat p then p else Piece (KOld (de_edge d)) (pc_dir p) (oriented (nth (de_edge d) C2 []) (pc_dir p)).

  Lemma realises_gap d p a b : realises C s d p -> pc_key p = KGap a b ->
    exists j, nth_error (nes_edges s) j = Some ((a, b), de_edge d) /\ de_edge d = (length (old_of C) + j)%nat /\
      pc_path p = oriented [a; b] (pc_dir p).
  Proof.
    intros (H1 & H2 & base & H3 & H4) E. rewrite E in H1. cbn [idx] in H1. apply sm_find_in in H1.
    apply (nes_nth C) in H1 as (j & Hj & E'); [|exact Hs]. cbn [snd] in E'. exists j. split; [exact Hj|]. split; [exact E'|].
    rewrite <- H4, <- H2. f_equal. rewrite E' in H3. unfold pts_of in H3. rewrite nth_error_app2 in H3 by lia.
    rewrite Nat.add_comm, Nat.add_sub, nth_error_map, Hj in H3. injection H3 as <-. reflexivity.
  Qed.
  Lemma realises_old d p i : realises C s d p -> pc_key p = KOld i ->
    exists c, nth_error (old_of C) (de_edge d) = Some c /\ pc_path p = oriented c (pc_dir p).
  Proof.
    intros (H1 & H2 & base & H3 & H4) E. rewrite E in H1. cbn [idx] in H1.
    destruct (nth_error (finder_from 0 C) i) as [[j|]|] eqn:Ef; try discriminate. injection H1 as ->. apply finder_bound in Ef.
    exists base. unfold pts_of in H3. rewrite nth_error_app1 in H3 by lia. split; [exact H3|]. rewrite <- H4, H2. reflexivity.
  Qed.

  (** A piece, clipped again: lines on the mask line vanish, all others stay. *)
  Lemma visible_again d p : realises C s d p ->
    visible_piece C2 d = (if flat p then [] else [repiece d p]) /\ thin (pc_path p) (pc_path (repiece d p)).
  Proof.
    intros H. pose proof H as (_ & Hd & _). unfold flat, repiece, flat. destruct (pc_key p) as [i|a b] eqn:Ek.
    - destruct (realises_old d p i H Ek) as (c & Hc & Hp). destruct (C2_old _ _ Hc) as (c' & E1 & E2 & E3 & _).
      rewrite (visible_piece_big C2 d c' E1), E2, Hd, (nth_error_nth C2 (de_edge d) [] E1). split; [reflexivity|]. cbn [pc_path].
      rewrite Hp. apply thin_oriented, E3.
    - destruct (realises_gap d p a b H Ek) as (j & Hj & Ej & Hp). pose proof (C2_new _ _ _ _ Hj) as E1. rewrite <- Ej in E1.
      rewrite (visible_piece_big C2 d _ E1). destruct (flat_gap k a b).
      + split; [reflexivity|apply thin_refl].
      + rewrite (nth_error_nth C2 (de_edge d) [] E1), Hd. split; [reflexivity|]. cbn [pc_path]. rewrite Hp. apply thin_refl.
  Qed.

  Definition zip (ds : list directed_edge) (ps : list piece) : list piece :=
    map (fun dp => repiece (fst dp) (snd dp)) (combine ds ps).

  Lemma zip_app ds ps ds' ps' : length ds = length ps -> zip (ds ++ ds') (ps ++ ps') = zip ds ps ++ zip ds' ps'.
  Proof.
    revert ps. induction ds as [|d ds IH]; intros [|p ps] H; try discriminate; [reflexivity|]. cbn [app]. unfold zip in *. cbn [combine map].
    rewrite IH by (cbn in H; lia). reflexivity.
  Qed.

  Lemma gap_cases a b : (a = b /\ gap a b = []) \/ exists g x y, gap a b = [g] /\ pc_path g = [a; b] /\ pc_key g = KGap x y.
  Proof.
    unfold gap. destruct ((px a =? px b) && (py a =? py b)) eqn:E; [left; apply pt_eqb_eq in E; auto|].
    right. destruct (_ || _); do 3 eexists; (split; [reflexivity|]); split; reflexivity.
  Qed.

  Definition is_old (p : piece) : Prop := exists i, pc_key p = KOld i.

  Lemma old_again d p : realises C s d p -> is_old p -> visible_piece C2 d = [repiece d p] /\
    fst_of (repiece d p) = fst_of p /\ fin_of (repiece d p) = fin_of p.
  Proof.
    intros H [i Hi]. destruct (visible_again d p H) as [E T]. unfold flat in E. rewrite Hi in E. split; [exact E|].
    split; [apply thin_first|apply thin_final]; exact T.
  Qed.

  (** Closing the gaps of what is left gives all pieces again. *)
  Lemma again_close st vs : forall p p' ds a, Forall2 (realises C s) ds (close_gaps (Some st) p vs) ->
    fin_of p = Some a -> fin_of p' = Some a -> Forall has_ends vs -> Forall is_old vs ->
    close_gaps (Some st) p' (flat_map (visible_piece C2) ds) = zip ds (close_gaps (Some st) p vs).
  Proof.
    induction vs as [|q vs IH]; intros p p' ds a HF Hp Hp' HE HO.
    - cbn [close_gaps] in *. unfold fin_of in Hp. rewrite Hp in *. cbn [gap_between] in *.
      destruct (gap_cases a st) as [[<- E]|(g & x & y & E & Hg & _)].
      + rewrite E in *. inversion HF; subst. cbn [flat_map close_gaps]. unfold fin_of in Hp'. rewrite Hp'. cbn [gap_between]. rewrite E. reflexivity.
      + rewrite E in *. inversion HF as [|d ? ? ? H1 H2]; subst. inversion H2; subst. cbn [flat_map]. rewrite app_nil_r.
        destruct (visible_again d g H1) as [V T]. rewrite V. unfold zip. cbn [combine map fst snd]. unfold fin_of in Hp'.
        destruct (flat g) eqn:Ef.
        * cbn [close_gaps]. rewrite Hp'. cbn [gap_between]. rewrite E. unfold repiece. rewrite Ef. reflexivity.
        * cbn [close_gaps]. rewrite Hp', (thin_first _ _ T), (thin_final _ _ T), Hg.
          change (first [a; st]) with (Some a). change (final [a; st]) with (Some st). cbn [gap_between]. rewrite !gap_same. reflexivity.
    - cbn [close_gaps] in *. inversion HE as [|? ? (x & y & Hx & Hy) HE']; subst. inversion HO as [|? ? Hq HO']; subst.
      unfold fin_of in Hp. rewrite Hp in *. unfold fst_of in Hx. rewrite Hx in *. cbn [gap_between] in *.
      assert (HH : forall ds p', Forall2 (realises C s) ds (q :: close_gaps (Some st) q vs) -> fin_of p' = Some x ->
                close_gaps (Some st) p' (flat_map (visible_piece C2) ds) = zip ds (q :: close_gaps (Some st) q vs)).
      { clear p p' ds HF Hp Hp'. intros ds p' HF Hp'. inversion HF as [|d ? ds' ? H1 H2]; subst. cbn [flat_map].
        destruct (old_again d q H1 Hq) as (V & F1 & F2). rewrite V. cbn [app close_gaps]. unfold fin_of, fst_of in *.
        rewrite Hp', F1, Hx. cbn [gap_between]. rewrite gap_same. cbn [app]. unfold zip. cbn [combine map fst snd]. f_equal.
        apply (IH q (repiece d q) ds' y); [assumption..|unfold fin_of; congruence|assumption|assumption]. }
      destruct (gap_cases a x) as [[<- E]|(g & u & v & E & Hg & _)].
      + rewrite E in *. cbn [app] in *. apply HH; assumption.
      + rewrite E in *. cbn [app] in *. inversion HF as [|d ? ds' ? H1 H2]; subst. cbn [flat_map].
        destruct (visible_again d g H1) as [V T]. rewrite V. unfold zip. cbn [combine map fst snd]. fold (zip ds' (q :: close_gaps (Some st) q vs)).
        destruct (flat g) eqn:Ef.
        * cbn [app]. unfold repiece at 1. rewrite Ef. inversion H2 as [|d1 ? ds1 ? H3 H4]; subst. cbn [flat_map].
          destruct (old_again d1 q H3 Hq) as (V1 & F1 & F2). rewrite V1. cbn [app close_gaps]. unfold fin_of, fst_of in *.
          rewrite Hp', F1, Hx. cbn [gap_between]. rewrite E. cbn [app]. unfold zip. cbn [combine map fst snd]. do 2 f_equal.
          apply (IH q (repiece d1 q) ds1 y); [assumption..|unfold fin_of; congruence|assumption|assumption].
        * cbn [app close_gaps]. unfold fin_of in Hp'. rewrite Hp', (thin_first _ _ T), Hg. change (first [a; x]) with (Some a). cbn [gap_between].
          rewrite gap_same. cbn [app]. f_equal. apply HH; [exact H2|]. unfold fin_of. rewrite (thin_final _ _ T), Hg. reflexivity.
  Qed.

  Lemma visible_old r : Forall is_old (visible C r).
  Proof. apply Forall_forall. intros p Hp. apply visible_in in Hp as (d & c & _ & _ & _ & ->). eexists. reflexivity. Qed.

  Lemma ring_again r r' : Forall2 (realises C s) (tr_des r') (clipped_ring C r) ->
    clipped_ring C2 r' = zip (tr_des r') (clipped_ring C r).
  Proof.
    pose proof (visible_ends C r) as HE. pose proof (visible_old r) as HO. unfold clipped_ring at 1 2 3. unfold visible at 2.
    destruct (visible C r) as [|p ps]; intros HF.
    - inversion HF as [E|]; subst. reflexivity.
    - inversion HF as [|d ? ds ? H1 H2 E]; subst. cbn [flat_map]. inversion HE as [|? ? (x & y & Hx & Hy) HE']; subst. inversion HO as [|? ? Hp HO']; subst.
      destruct (old_again d p H1 Hp) as (V & F1 & F2). rewrite V. cbn [app]. unfold zip. cbn [combine map fst snd]. f_equal.
      unfold fst_of in *. rewrite F1, Hx in *. apply (again_close x ps p (repiece d p) ds y); [assumption..|congruence|assumption|assumption].
  Qed.

  Lemma zip_thin ds ps : Forall2 (realises C s) ds ps -> Forall2 thin (map pc_path ps) (map pc_path (zip ds ps)).
  Proof.
    induction 1 as [|d p ds ps H HF IH]; [constructor|]. unfold zip. cbn [combine map fst snd]. constructor; [|exact IH].
    apply visible_again, H.
  Qed.

  Lemma zip_trace ds ps a z : Forall2 (realises C s) ds ps -> trace m ps a = Ok z -> trace m (zip ds ps) a = Ok z.
  Proof.
    intros H. revert a. induction H as [|d p ds ps H HF IH]; intros a; [auto|]. unfold trace, zip in *. cbn [combine map fst snd mfold].
    intros E. apply bind_Ok in E as (a1 & E1 & E). unfold piece_area in *. apply bind_Ok in E1 as (sa & E1 & E2).
    destruct (visible_again d p H) as [_ T]. rewrite (thin_signed_area2 m _ _ sa T E1). cbn [bind]. rewrite E2. cbn [bind]. apply IH, E.
  Qed.

  Lemma zip_area ds ps : Forall2 (realises C s) ds ps -> shoelaces (map pc_path (zip ds ps)) = shoelaces (map pc_path ps).
  Proof.
    intros H. apply zip_thin in H. induction H as [|l l' ls ls' H HF IH]; [reflexivity|]. cbn [shoelaces]. rewrite IH, (thin_shoelace l l' H). reflexivity.
  Qed.

  Lemma kept_again r r' : Forall2 (realises C s) (tr_des r') (clipped_ring C r) -> ring_kept C2 r' = ring_kept C r.
  Proof. intros H. unfold ring_kept, clipped_area. rewrite (ring_again r r' H), (zip_area _ _ H). reflexivity. Qed.
End Again.

(** ** Rings and regions, clipped again *)
Section AgainRegions.
  Context {D : Type} (m : mode) (k : clip_mask) (t : topology D) (C : list (list point)) (s : new_edge_set).
  Hypothesis HC : clips m k t C.
  Hypothesis Hs : nes_ok C s.
  Notation C2 := (C2 m k C s).
  Notation zip := (zip m k C s).

  Definition zips (brs : list build_ring) (pss : list (list piece)) : list (list piece) :=
    map (fun bp => zip (fst bp) (snd bp)) (combine brs pss).

  Lemma rings_again i brs rs : Forall2 (Forall2 (realises C s)) brs (clipped_rings C rs) ->
    (forall r', In r' (map (final_ring i) brs) -> ring_kept C2 r' = true) /\
    map (clipped_ring C2) (map (final_ring i) brs) = zips brs (clipped_rings C rs).
  Proof.
    unfold clipped_rings.
    assert (HK : Forall (fun r => ring_kept C r = true) (filter (ring_kept C) rs)) by (apply Forall_forall; intros r Hr; apply filter_In in Hr; tauto).
    revert brs HK. generalize (filter (ring_kept C) rs). intros l. induction l as [|r l IH]; intros brs HK HF; inversion HF as [|br ? brs' ? H1 H2]; subst.
    - split; [intros ? []|reflexivity].
    - inversion HK; subst. destruct (IH brs') as [I1 I2]; [assumption..|]. cbn [map]. split.
      + intros r' [<-|Hr]; [|auto]. rewrite (kept_again m k t C s HC Hs r (final_ring i br) H1). assumption.
      + unfold zips in *. cbn [combine map fst snd]. rewrite I2, (ring_again m k t C s HC Hs r (final_ring i br) H1). reflexivity.
  Qed.

  Lemma concat_zips brs pss : Forall2 (Forall2 (realises C s)) brs pss -> concat (zips brs pss) = zip (concat brs) (concat pss).
  Proof.
    induction 1 as [|br ps brs pss H HF IH]; [reflexivity|]. unfold zips in *. cbn [combine map fst snd concat]. rewrite IH.
    symmetry. apply zip_app. eapply Forall2_length', H.
  Qed.

  Lemma clipped_rings_all C' rs : (forall r, In r rs -> ring_kept C' r = true) -> clipped_rings C' rs = map (clipped_ring C') rs.
  Proof. intros H. unfold clipped_rings. rewrite filter_all by exact H. reflexivity. Qed.

  Lemma read_zip ds ps : Forall2 (realises C s) ds ps ->
    map (option_map dedup) (read_pieces (zip ds ps)) = map (option_map dedup) (read_pieces ps).
  Proof.
    intros H. apply (zip_thin m k t C s HC Hs) in H. unfold read_pieces. rewrite !map_map. cbn [option_map].
    revert H. generalize (zip ds ps). induction ps as [|p ps IH]; intros [|q qs] H; inversion H; subst; [reflexivity|]. cbn [map]. f_equal; [|auto].
    f_equal. apply thin_dedup. assumption.
  Qed.

  Lemma read_zips brs pss : Forall2 (Forall2 (realises C s)) brs pss ->
    map (map (option_map dedup)) (map read_pieces (zips brs pss)) = map (map (option_map dedup)) (map read_pieces pss).
  Proof.
    induction 1 as [|br ps brs pss H HF IH]; [reflexivity|]. unfold zips in *. cbn [combine map fst snd]. rewrite IH, read_zip by exact H. reflexivity.
  Qed.

  Lemma region_again i br (rg : topo_region D) : region_realises C s br rg -> region_kept C rg = true ->
    let rg' := final_region (i, br) in
    region_kept C2 rg' = true /\
    (forall r, In r (tg_outer rg' ++ tg_inner rg') -> ring_kept C2 r = true) /\
    clipped_rings C2 (tg_outer rg') = zips (br_outer br) (clipped_rings C (tg_outer rg)) /\
    clipped_rings C2 (tg_inner rg') = zips (br_inner br) (clipped_rings C (tg_inner rg)).
  Proof.
    intros (R1 & R2 & R3) HK rg'.
    change (tg_outer rg') with (map (final_ring i) (br_outer br)). change (tg_inner rg') with (map (final_ring i) (br_inner br)).
    destruct (rings_again i _ _ R2) as [A1 A2], (rings_again i _ _ R3) as [A3 A4].
    split; [|split; [|split]].
    - unfold region_kept in *. change (tg_outer rg') with (map (final_ring i) (br_outer br)). rewrite existsb_filter in HK. apply Forall2_length' in R2. clear A2. unfold clipped_rings in R2. rewrite map_length in R2.
      destruct (br_outer br) as [|x l] eqn:Ex; [cbn in R2; rewrite <- R2 in HK; discriminate|]. cbn [map existsb].
      rewrite A1 by (left; reflexivity). reflexivity.
    - intros r Hr. apply in_app_iff in Hr as [Hr|Hr]; auto.
    - rewrite clipped_rings_all by exact A1. exact A2.
    - rewrite clipped_rings_all by exact A3. exact A4.
  Qed.

  Lemma regions_again (regs : list (build_region D)) rgs : Forall2 (region_realises C s) regs (filter (region_kept C) rgs) ->
    (forall rg, In rg (final_regions regs) -> region_kept C2 rg = true) /\
    (forall rg r, In rg (final_regions regs) -> In r (tg_outer rg ++ tg_inner rg) -> ring_kept C2 r = true) /\
    surviving_pieces C2 (final_regions regs) = zip (flat_map (fun b => concat (br_rings b)) regs) (surviving_pieces C rgs) /\
    map without_repeats (map (clipped_shape C2) (final_regions regs)) =
    map without_repeats (map (clipped_shape C) (filter (region_kept C) rgs)).
  Proof.
    assert (HK : Forall (fun rg => region_kept C rg = true) (filter (region_kept C) rgs)) by (apply Forall_forall; intros r Hr; apply filter_In in Hr; tauto).
    unfold surviving_pieces at 2. revert HK. generalize (filter (region_kept C) rgs). clear rgs. intros rgs HK HF.
    unfold final_regions, enumerate. generalize 0%nat.
    induction HF as [|br rg regs rgs H HF IH]; intros n.
    - cbn [length seq combine map]. split; [intros ? []|]. split; [intros ? ? []|]. split; reflexivity.
    - inversion HK; subst. specialize (IH ltac:(assumption) (S n)). destruct IH as (I1 & I2 & I3 & I4).
      destruct (region_again n br rg H ltac:(assumption)) as (A1 & A2 & A3 & A4). pose proof H as (R1 & R2 & R3).
      cbn [length seq combine map]. split; [|split; [|split]].
      + intros g [<-|Hg]; [exact A1|apply I1, Hg].
      + intros g r [<-|Hg] Hr; [apply A2, Hr|eapply I2; eassumption].
      + unfold surviving_pieces in *. cbn [filter]. rewrite A1. cbn [flat_map]. rewrite I3, A3, A4, !concat_zips by assumption.
        rewrite concat_br_rings. rewrite <- zip_app by (eapply Forall2_length'; apply Forall2_concat; exact R2).
        symmetry. apply zip_app. rewrite !app_length. apply Forall2_concat, Forall2_length' in R2. apply Forall2_concat, Forall2_length' in R3. lia.
      + f_equal; [|exact I4]. unfold without_repeats, clipped_shape. cbn [s_data s_outer s_inner]. rewrite A3, A4.
        f_equal; [exact R1|apply read_zips; exact R2|apply read_zips; exact R3].
  Qed.

  Lemma repiece_key d p : pc_key (repiece m k C s d p) = if flat k p then pc_key p else KOld (de_edge d).
  Proof. unfold repiece. destruct (flat k p); reflexivity. Qed.

  Lemma zip_keys_old ds ps i : length ds = length ps ->
    (count_key (KOld i) (zip ds ps) <= count_occ Nat.eq_dec (map de_edge ds) i)%nat.
  Proof.
    revert ps. induction ds as [|d ds IH]; intros [|p ps] HL; try discriminate; [cbn; lia|].
    specialize (IH ps ltac:(cbn in HL; lia)). unfold count_key, zip in *. cbn [combine map fst snd count_occ].
    destruct (use_key_eq_dec (pc_key (repiece m k C s d p)) (KOld i)) as [E|E]; [|destruct (Nat.eq_dec (de_edge d) i); lia].
    rewrite repiece_key in E. unfold flat in E. destruct (pc_key p) as [j|a b].
    - injection E as E. destruct (Nat.eq_dec (de_edge d) i); [lia|contradiction].
    - destruct (flat_gap k a b); [discriminate|]. injection E as E. destruct (Nat.eq_dec (de_edge d) i); [lia|contradiction].
  Qed.

  Lemma zip_keys_gap ds ps a b : length ds = length ps -> (count_key (KGap a b) (zip ds ps) <= count_key (KGap a b) ps)%nat.
  Proof.
    revert ps. induction ds as [|d ds IH]; intros [|p ps] HL; try discriminate; [cbn; lia|].
    specialize (IH ps ltac:(cbn in HL; lia)). unfold count_key, zip in *. cbn [combine map fst snd count_occ].
    destruct (use_key_eq_dec (pc_key (repiece m k C s d p)) (KGap a b)) as [E|E]; [|destruct (use_key_eq_dec (pc_key p) (KGap a b)); lia].
    rewrite repiece_key in E. destruct (flat k p); [|discriminate]. destruct (use_key_eq_dec (pc_key p) (KGap a b)); [lia|contradiction].
  Qed.
End AgainRegions.

(** ** The second run *)
Lemma forall2_map_l {A B E} (f : A -> B) (P : B -> E -> Prop) l l' : Forall2 P (map f l) l' -> Forall2 (fun a => P (f a)) l l'.
Proof. revert l'. induction l as [|a l IH]; intros l' H; inversion H; subst; constructor; auto. Qed.

Lemma second_clips {D} m k (t t' : topology D) C s : clips m k t C -> nes_ok C s -> map te_points (tp_edges t') = pts_of C s ->
  clips m k t' (C2 m k C s).
Proof.
  intros HC Hs HE. pose proof (C2_clips m k t C s HC Hs) as H. rewrite <- HE in H. apply forall2_map_l in H. exact H.
Qed.

Lemma used_twice {D} (t : topology D) i : exact_references t -> (count_occ Nat.eq_dec (map de_edge (all_des t)) i <= 2)%nat.
Proof.
  intros (_ & HB & HX). destruct (le_gt_dec (count_occ Nat.eq_dec (map de_edge (all_des t)) i) 2) as [|Hg]; [assumption|]. exfalso.
  assert (Hin : In i (map de_edge (all_des t))) by (apply (count_positive_in Nat.eq_dec); lia).
  assert (Hl : (i < length (tp_edges t))%nat).
  { rewrite <- uses_all_des in Hin. apply in_map_iff in Hin as (u & <- & Hu). apply HB, Hu. }
  destruct (nth_error (tp_edges t) i) as [e|] eqn:E; [|apply nth_error_None in E; lia].
  destruct (HX i e E) as [Hle _]. rewrite users_length, uses_all_des in Hle. lia.
Qed.

Lemma ring_origin {D} C (b : cbuilder D) rgs (t' : topology D) rg' r' : cb_ok C b rgs -> tp_regions t' = final_regions (cb_regions b) ->
  In rg' (tp_regions t') -> In r' (tg_outer rg' ++ tg_inner rg') ->
  exists rg r, In rg rgs /\ In r (seen_rings C rg) /\ Forall2 (realises C (cb_new b)) (tr_des r') (clipped_ring C r).
Proof.
  intros (_ & _ & _ & HF & _) Hr Hg Hi. rewrite Hr in Hg. destruct (in_final_regions _ _ _ Hg Hi) as (br & i & x & Hb & Hx & ->).
  eapply Forall2_in_l in HF as (rg & Hrg & (_ & Ho & Hn)); [|exact Hb]. apply filter_In in Hrg as [Hrg HK].
  exists rg. unfold seen_rings. rewrite HK. cbn [tr_des final_ring].
  unfold br_rings in Hx. apply in_app_iff in Hx as [Hx|Hx].
  - eapply Forall2_in_l in Ho as (ps & Hps & HR); [|exact Hx]. unfold clipped_rings in Hps. apply in_map_iff in Hps as (r & <- & H0).
    apply filter_In in H0 as [H0 _]. exists r. split; [exact Hrg|]. split; [apply in_or_app; left; exact H0|exact HR].
  - eapply Forall2_in_l in Hn as (ps & Hps & HR); [|exact Hx]. unfold clipped_rings in Hps. apply in_map_iff in Hps as (r & <- & H0).
    apply filter_In in H0 as [H0 _]. exists r. split; [exact Hrg|]. split; [apply in_or_app; right; exact H0|exact HR].
Qed.

Lemma surviving_realised {D} C (b : cbuilder D) rgs (t' : topology D) : cb_ok C b rgs -> tp_regions t' = final_regions (cb_regions b) ->
  Forall2 (realises C (cb_new b)) (all_des t') (surviving_pieces C rgs).
Proof. intros Hb HR. rewrite (all_des_eq t' _ HR). apply pieces_realised, Hb. Qed.

Lemma second_returns {D} m k (t t' : topology D) C b : clips m k t C -> cb_ok C b (tp_regions t) ->
  exact_references t' -> tp_regions t' = final_regions (cb_regions b) -> map te_points (tp_edges t') = pts_of C (cb_new b) ->
  (forall rg r, In rg (tp_regions t) -> In r (seen_rings C rg) -> exists a, trace m (clipped_ring C r) 0 = Ok a) ->
  (forall key, (count_key key (surviving_pieces C (tp_regions t)) <= 2)%nat) ->
  exists t2, clip_topology m t' k = Ok t2.
Proof.
  intros HC Hb HX HR HE HT HK. pose proof Hb as (_ & _ & Hs & HF & _).
  apply (clip_topology_returns m t' k (C2 m k C (cb_new b))).
  - eapply second_clips; eassumption.
  - intros d Hd. destruct HX as (_ & HB & _). assert (Hu : In (de_edge d) (map fst (uses (tp_regions t')))) by (rewrite uses_all_des; apply in_map, Hd).
    apply in_map_iff in Hu as (u & <- & Hu). apply HB, Hu.
  - intros rg r Hg Hr. destruct (ring_origin C b _ t' rg r Hb HR Hg Hr) as (rg0 & r0 & H1 & H2 & H3).
    destruct (HT rg0 r0 H1 H2) as (a & Ha). exists a. rewrite (ring_again m k t C _ HC Hs r0 r H3).
    eapply zip_trace; eassumption.
  - intros key. destruct (regions_again m k t C (cb_new b) HC Hs (cb_regions b) (tp_regions t) HF) as (_ & _ & A & _).
    rewrite HR, A, <- (all_des_eq t' _ HR). pose proof (Forall2_length' _ _ _ (surviving_realised C b _ t' Hb HR)) as HL.
    destruct key as [i|x y].
    + etransitivity; [apply zip_keys_old, HL|]. apply used_twice, HX.
    + etransitivity; [apply zip_keys_gap, HL|]. apply HK.
Qed.

Lemma second_read {D} m k (t t' t2 : topology D) : clip_topology m t k = Ok t' -> clip_topology m t' k = Ok t2 ->
  map without_repeats (read_topology t2) = map without_repeats (read_topology t').
Proof.
  intros H H2. apply clip_topology_ok in H as (C & b & HC & Hb & HX & HR & HE). apply clip_topology_ok in H2 as (C' & b' & HC' & Hb' & _ & HR' & HE').
  pose proof Hb as (_ & _ & Hs & HF & _).
  assert (C' = C2 m k C (cb_new b)) as -> by (eapply clips_unique; [exact HC'|eapply second_clips; eassumption]).
  rewrite (clip_read _ b' _ t2 Hb' HR' HE'), (clip_read _ b _ t' Hb HR HE).
  destruct (regions_again m k t C (cb_new b) HC Hs (cb_regions b) (tp_regions t) HF) as (A1 & _ & _ & A2).
  rewrite HR, filter_all by exact A1. exact A2.
Qed.

(** ** The third run *)
Lemma seen_all {D} C (rgs : list (topo_region D)) : (forall rg, In rg rgs -> region_kept C rg = true) ->
  (forall rg r, In rg rgs -> In r (tg_outer rg ++ tg_inner rg) -> ring_kept C r = true) ->
  seen_pieces C rgs = surviving_pieces C rgs.
Proof.
  intros H1 H2. unfold surviving_pieces. rewrite filter_all by exact H1. unfold seen_pieces, ring_pieces.
  induction rgs as [|rg rgs IH]; [reflexivity|]. cbn [flat_map]. rewrite map_app, concat_app. f_equal.
  - unfold seen_rings. rewrite H1 by (left; reflexivity). rewrite map_app, concat_app. rewrite !clipped_rings_all; [reflexivity| |];
      intros r Hr; apply (H2 rg); try (left; reflexivity); apply in_or_app; auto.
  - apply IH; [intros g Hg; apply H1; right; exact Hg|]. intros g r Hg. apply H2. right. exact Hg.
Qed.

Definition all_flat (k : clip_mask) (ps : list piece) : Prop := forall p a b, In p ps -> pc_key p = KGap a b -> flat_gap k a b = true.

Lemma zip_flat m k C s ds ps : all_flat k (zip m k C s ds ps).
Proof.
  intros q a b Hq Hk. unfold zip in Hq. apply in_map_iff in Hq as ([d p] & <- & _). cbn [fst snd] in Hk. rewrite repiece_key in Hk.
  destruct (flat k p) eqn:Ef; [|discriminate]. unfold flat in Ef. rewrite Hk in Ef. exact Ef.
Qed.

Lemma zip_gap_keys m k C s ds ps : length ds = length ps -> all_flat k ps -> flat_map gap_key (zip m k C s ds ps) = flat_map gap_key ps.
Proof.
  revert ds. induction ps as [|p ps IH]; intros [|d ds] HL HA; try discriminate; [reflexivity|]. unfold zip in *. cbn [combine map flat_map fst snd].
  rewrite IH by ((cbn in HL; lia) || (intros q a b Hq; apply HA; right; exact Hq)). f_equal. unfold gap_key. rewrite repiece_key. unfold flat.
  destruct (pc_key p) as [i|a b] eqn:Ek; [reflexivity|]. rewrite (HA p a b (or_introl eq_refl) Ek). reflexivity.
Qed.

Lemma in_add_keys K ps ab : In ab (add_keys K ps) -> In ab K \/ exists p, In p ps /\ pc_key p = KGap (fst ab) (snd ab).
Proof.
  unfold add_keys. revert K. induction ps as [|p ps IH]; intros K; [auto|]. cbn [flat_map]. rewrite fold_left_app. intros H.
  apply IH in H as [H|(q & Hq & Ek)]; [|right; exists q; split; [right; exact Hq|exact Ek]].
  unfold gap_key in H. destruct (pc_key p) as [i|a b] eqn:Ek; cbn [fold_left] in H; [auto|].
  unfold add_key in H. destruct (in_dec seg_eq_dec (a, b) K); [auto|]. apply in_app_iff in H as [H|[<-|[]]]; [auto|].
  right. exists p. split; [left; reflexivity|exact Ek].
Qed.

Lemma big_old_fixed {D} m k (t : topology D) C s c : clips m k t C -> nes_ok C s -> In c (old_of (C2 m k C s)) -> clip_edge m k c = Ok c.
Proof.
  intros HC Hs Hc. unfold old_of in Hc. apply filter_In in Hc as [Hc Hb]. apply In_nth_error in Hc as [j Hj].
  destruct (Nat.lt_ge_cases j (length (old_of C))) as [L|L].
  - destruct (nth_error (old_of C) j) as [c0|] eqn:E; [|apply nth_error_None in E; lia].
    destruct (C2_old m k t C s HC Hs j c0 E) as (c' & E1 & _ & _ & E2). congruence.
  - destruct (nth_error (nes_edges s) (j - length (old_of C))) as [[[a b] i]|] eqn:E.
    + pose proof (C2_new m k t C s HC Hs _ a b i E) as E1. replace (length (old_of C) + (j - length (old_of C)))%nat with j in E1 by lia.
      assert (HP : Forall (kept_point k) [a; b]).
      { pose proof (clip_points_kept m k t C s HC Hs) as HF. unfold pts_of in HF. apply Forall_app in HF as [_ HF]. rewrite Forall_forall in HF.
        apply HF. apply in_map_iff. exists ((a, b), i). split; [reflexivity|]. eapply nth_error_In, E. }
      rewrite E1 in Hj. destruct (flat_gap k a b) eqn:Ef; injection Hj as <-; [discriminate|].
      rewrite clip_edge_no_outside by exact HP. inversion HP as [|? ? Ka HP']; subst. inversion HP' as [|? ? Kb _]; subst.
      rewrite run_edge_pair, Ef by assumption. reflexivity.
    + apply nth_error_None in E. exfalso. assert (Hl : (j < length (C2 m k C s))%nat) by (apply nth_error_Some; congruence).
      unfold C2, pts_of in Hl. rewrite map_length, app_length, map_length in Hl. lia.
Qed.

Lemma old_of_app a b : old_of (a ++ b) = old_of a ++ old_of b.
Proof. apply filter_app. Qed.
Lemma old_of_old C : old_of (old_of C) = old_of C.
Proof. apply filter_all. intros c Hc. unfold old_of in Hc. apply filter_In in Hc. tauto. Qed.

Lemma finder_app n a b : finder_from n (a ++ b) = finder_from n a ++ finder_from (n + length (old_of a)) b.
Proof.
  revert n. induction a as [|c a IH]; intros n; cbn [app finder_from old_of filter length]; [rewrite Nat.add_0_r; reflexivity|]. fold (old_of a).
  destruct (big c); rewrite IH; cbn [app length]; [rewrite Nat.add_succ_r|]; reflexivity.
Qed.

Section Third.
  Context {D : Type} (m : mode) (k : clip_mask) (t : topology D) (C : list (list point)) (s s2 : new_edge_set).
  Hypothesis HC : clips m k t C.
  Hypothesis Hs : nes_ok C s.
  Hypothesis Hfix : forall c, In c (old_of C) -> clip_edge m k c = Ok c.
  Hypothesis Hflat : forall a b, In (a, b) (keys s) -> flat_gap k a b = true.
  Notation C' := (C2 m k C s).

  Lemma third_clips : C' = old_of C ++ map (fun _ => []) (nes_edges s).
  Proof.
    unfold C2, pts_of. rewrite map_app. f_equal.
    - rewrite <- (map_id (old_of C)) at 2. apply map_ext_in. intros c Hc. unfold again_of.
      pose proof (clip_points_kept m k t C s HC Hs) as HF. rewrite Forall_forall in HF.
      specialize (HF c ltac:(unfold pts_of; apply in_or_app; left; exact Hc)). specialize (Hfix c Hc).
      rewrite clip_edge_no_outside in Hfix by exact HF. congruence.
    - rewrite map_map. apply map_ext_in. intros [[a b] i] Hab. unfold again_of.
      assert (HP : Forall (kept_point k) [a; b]).
      { pose proof (clip_points_kept m k t C s HC Hs) as HF. unfold pts_of in HF. apply Forall_app in HF as [_ HF]. rewrite Forall_forall in HF.
        apply HF. apply in_map_iff. exists ((a, b), i). split; [reflexivity|exact Hab]. }
      inversion HP as [|? ? Ka HP']; subst. inversion HP' as [|? ? Kb _]; subst. cbn [seg_points fst snd].
      change (seg_points (a, b, i)) with [a; b]. rewrite run_edge_pair by assumption.
      rewrite Hflat; [reflexivity|]. unfold keys. apply (in_map fst) in Hab. exact Hab.
  Qed.

  Lemma third_old : old_of C' = old_of C.
  Proof.
    rewrite third_clips, old_of_app, old_of_old. replace (old_of (map (fun _ => []) (nes_edges s))) with (@nil (list point)); [apply app_nil_r|].
    induction (nes_edges s) as [|x l IH]; [reflexivity|]. exact IH.
  Qed.

  Lemma third_finder i : (i < length (old_of C))%nat -> nth_error (finder_from 0 C') i = Some (Some i).
  Proof.
    intros Hi. rewrite third_clips, finder_app.
    assert (HB : Forall (fun c => (2 <= length c)%nat) (old_of C)).
    { apply Forall_forall. intros c Hc. apply in_old in Hc. tauto. }
    destruct (id_finder (old_of C) 0 HB) as [-> _]. rewrite nth_error_app1 by (rewrite map_length, seq_length; exact Hi).
    rewrite nth_error_map, nth_error_nth' with (d := 0%nat) by (rewrite seq_length; exact Hi). rewrite seq_nth by exact Hi. reflexivity.
  Qed.

  Hypothesis Hs2 : nes_ok C' s2.
  Hypothesis Hk2 : keys s2 = keys s.

  Lemma third_nes : s2 = s.
  Proof.
    destruct Hs as (A1 & A2 & _), Hs2 as (B1 & B2 & _). rewrite third_old in B1.
    assert (HE : nes_edges s2 = nes_edges s).
    { assert (HL : length (nes_edges s2) = length (nes_edges s)) by (apply (f_equal (@length _)) in Hk2; unfold keys in Hk2; rewrite !map_length in Hk2; exact Hk2).
      assert (HH : map snd (nes_edges s2) = map snd (nes_edges s)) by congruence. unfold keys in Hk2. clear - Hk2 HH.
      revert Hk2 HH. generalize (nes_edges s). induction (nes_edges s2) as [|[x y] l IH]; intros [|[x' y'] l'] H1 H2; try discriminate; [reflexivity|].
      cbn in *. injection H1 as <- H1. injection H2 as <- H2. f_equal. apply IH; assumption. }
    destruct s, s2. cbn in *. congruence.
  Qed.

  Lemma third_de d d' p : realises C s d p -> realises C' s2 d' (repiece m k C s d p) -> d' = d.
  Proof.
    rewrite third_nes. intros H H'. pose proof H as (A1 & A2 & _). destruct H' as (B1 & B2 & _). rewrite repiece_key in B1.
    assert (HD : pc_dir (repiece m k C s d p) = pc_dir p) by (unfold repiece; destruct (flat k p); reflexivity).
    assert (HE : de_edge d' = de_edge d); [|destruct d, d'; cbn in *; congruence].
    unfold flat in B1. destruct (pc_key p) as [i|a b] eqn:Ek.
    - destruct (realises_old C s d p i H Ek) as (c & Hc & _). cbn [idx] in B1. rewrite third_finder in B1; [congruence|]. apply nth_error_Some. congruence.
    - rewrite Hflat in B1; [cbn [idx] in *; congruence|]. cbn [idx] in A1. apply sm_find_in in A1. unfold keys. apply (in_map fst) in A1. exact A1.
  Qed.

  Lemma third_ring br br' ps : Forall2 (realises C s) br ps -> Forall2 (realises C' s2) br' (zip m k C s br ps) -> br' = br.
  Proof.
    intros H. revert br'. induction H as [|d p br ps Hd HF IH]; intros br' H'.
    - inversion H'. reflexivity.
    - unfold zip in *. cbn [combine map fst snd] in H'. inversion H' as [|d' ? br1 ? H1 H2]; subst. f_equal; [eapply third_de; eassumption|auto].
  Qed.
  Lemma third_rings brs brs' pss : Forall2 (Forall2 (realises C s)) brs pss -> Forall2 (Forall2 (realises C' s2)) brs' (zips m k C s brs pss) -> brs' = brs.
  Proof.
    intros H. revert brs'. induction H as [|br ps brs pss Hd HF IH]; intros brs' H'.
    - inversion H'. reflexivity.
    - unfold zips in *. cbn [combine map fst snd] in H'. inversion H' as [|br' ? br1 ? H1 H2]; subst. f_equal; [eapply third_ring; eassumption|auto].
  Qed.
  Lemma third_regions (regs regs' : list (build_region D)) rgs : Forall2 (region_realises C s) regs (filter (region_kept C) rgs) ->
    Forall2 (region_realises C' s2) regs' (final_regions regs) -> regs' = regs.
  Proof.
    assert (HK : Forall (fun rg => region_kept C rg = true) (filter (region_kept C) rgs)) by (apply Forall_forall; intros r Hr; apply filter_In in Hr; tauto).
    revert HK. generalize (filter (region_kept C) rgs). clear rgs. intros rgs HK HF. unfold final_regions, enumerate. generalize 0%nat. revert regs'.
    induction HF as [|br rg regs rgs H HF IH]; intros regs' n H'; cbn [length seq combine map] in H'; inversion H' as [|br' ? regs1 ? (E1 & E2 & E3) H2]; subst; [reflexivity|].
    inversion HK as [|? ? Hk1 HK']; subst. destruct (region_again m k t C s HC Hs n br rg H Hk1) as (_ & _ & A3 & A4). pose proof H as (_ & R2 & R3).
    f_equal; [|eapply IH; eassumption]. rewrite A3 in E2. rewrite A4 in E3. apply (third_rings _ _ _ R2) in E2. apply (third_rings _ _ _ R3) in E3.
    destruct br, br'. cbn in *. congruence.
  Qed.
End Third.

Lemma topology_determined {D} (t t' : topology D) : exact_references t -> exact_references t' ->
  tp_regions t' = tp_regions t -> map te_points (tp_edges t') = map te_points (tp_edges t) -> t' = t.
Proof.
  intros (_ & _ & HX0) (_ & _ & HX) HR HP.
  assert (HE : tp_edges t' = tp_edges t).
  { apply nth_error_ext. intros i. assert (Hi : nth_error (map te_points (tp_edges t')) i = nth_error (map te_points (tp_edges t)) i) by congruence.
    rewrite !nth_error_map in Hi.
    destruct (nth_error (tp_edges t') i) as [e'|] eqn:E1, (nth_error (tp_edges t) i) as [e|] eqn:E2; try discriminate; [|reflexivity].
    destruct (HX i e' E1) as (_ & H0 & H1), (HX0 i e E2) as (_ & H0' & H1'). rewrite HR in *.
    cbn in Hi. injection Hi as Hp. f_equal. destruct e, e'. cbn in *. congruence. }
  destruct t, t'. cbn in *. congruence.
Qed.

Lemma clip_twice {D} m k (t t' : topology D) : clip_topology m t k = Ok t' ->
  exists t2, clip_topology m t' k = Ok t2 /\
    map without_repeats (read_topology t2) = map without_repeats (read_topology t') /\
    clip_topology m t2 k = Ok t2.
Proof.
  intros H. pose proof (clip_topology_traced m t t' k H) as (C & b & HC & Hb & HX & HR & HE & HT & _ & HK).
  destruct (second_returns m k t t' C b HC Hb HX HR HE HT HK) as (t2 & E2). exists t2. split; [exact E2|].
  split; [eapply second_read; eassumption|].
  pose proof (clip_topology_traced m t' t2 k E2) as (C' & b' & HC' & Hb' & HX' & HR' & HE' & HT' & HKs' & HK').
  destruct (second_returns m k t' t2 C' b' HC' Hb' HX' HR' HE' HT' HK') as (t3 & E3). rewrite E3. f_equal.
  pose proof (clip_topology_traced m t2 t3 k E3) as (C'' & b'' & HC'' & Hb'' & HX'' & HR'' & HE'' & _ & HKs'' & _).
  pose proof Hb as (_ & _ & Hs & HF & _). pose proof Hb' as (_ & _ & Hs' & HF' & _). pose proof Hb'' as (_ & _ & Hs'' & HF'' & _).
  assert (C' = C2 m k C (cb_new b)) as EC by (eapply clips_unique; [exact HC'|eapply second_clips; eassumption]).
  assert (C'' = C2 m k C' (cb_new b')) as EC' by (eapply clips_unique; [exact HC''|eapply second_clips; eassumption]).
  destruct (regions_again m k t C (cb_new b) HC Hs (cb_regions b) (tp_regions t) HF) as (A1 & A2 & A3 & _).
  destruct (regions_again m k t' C' (cb_new b') HC' Hs' (cb_regions b') (tp_regions t') HF') as (B1 & B2 & B3 & _).
  rewrite <- HR in A1, A2, A3. rewrite <- HR' in B1, B2, B3. rewrite <- EC in A1, A2, A3. rewrite <- EC' in B1, B2, B3.
  rewrite (seen_all C' _ A1 A2) in HKs'. rewrite (seen_all C'' _ B1 B2) in HKs''.
  assert (HA : all_flat k (surviving_pieces C' (tp_regions t'))) by (rewrite A3; apply zip_flat).
  assert (Hfix : forall c, In c (old_of C') -> clip_edge m k c = Ok c) by (rewrite EC; intros c Hc; apply (big_old_fixed m k t C (cb_new b)); assumption).
  assert (Hflat : forall x y, In (x, y) (keys (cb_new b')) -> flat_gap k x y = true).
  { intros x y Hxy. rewrite HKs' in Hxy. apply in_add_keys in Hxy as [[]|(p & Hp & Ek)]. eapply HA; eassumption. }
  assert (HKE : keys (cb_new b'') = keys (cb_new b')).
  { rewrite HKs', HKs'', B3. unfold add_keys. rewrite zip_gap_keys; [reflexivity| |exact HA].
    rewrite <- (all_des_eq t2 _ HR'). eapply Forall2_length', surviving_realised; eassumption. }
  clear HKs' HKs''. rewrite filter_all in HF'' by exact B1. rewrite HR' in HF''. subst C''.
  assert (HS : cb_new b'' = cb_new b') by (apply (third_nes m k t' C' (cb_new b') (cb_new b'')); assumption).
  assert (HG : cb_regions b'' = cb_regions b') by (eapply (third_regions m k t' C' (cb_new b') (cb_new b'')); eassumption).
  apply topology_determined; [assumption|assumption|congruence|].
  rewrite HE', HE''. unfold pts_of. rewrite HS. f_equal. apply (third_old m k t' C' (cb_new b')); assumption.
Qed.

(** ** Without repeated points *)
Lemma dedup_length l : (length (dedup l) <= length l)%nat.
Proof.
  induction l as [|p [|q l] IH]; [cbn; lia|cbn; lia|]. destruct (pt_eqb_spec p q) as [->|Hn].
  - rewrite dedup_cons_eq. cbn [length] in *. lia.
  - rewrite dedup_cons_ne by exact Hn. cbn [length] in *. lia.
Qed.
Lemma dedup_tail p l : dedup (p :: l) = p :: l -> dedup l = l.
Proof.
  destruct l as [|q l]; [reflexivity|]. destruct (pt_eqb_spec p q) as [->|Hn].
  - rewrite dedup_cons_eq. intros H. pose proof (dedup_length (q :: l)) as HL. rewrite H in HL. cbn [length] in HL. lia.
  - rewrite dedup_cons_ne by exact Hn. intros H. congruence.
Qed.
Lemma thin_fixed l l' : thin l l' -> dedup l = l -> l' = l.
Proof.
  induction 1 as [|p l l' H IH|p l l' H IH]; intros E; [reflexivity| |].
  - f_equal. apply IH. eapply dedup_tail, E.
  - rewrite dedup_cons_eq in E. pose proof (dedup_length (p :: l)) as HL. rewrite E in HL. cbn [length] in HL. lia.
Qed.

Lemma second_no_repeats {D} m k (t t' t2 : topology D) : clip_topology m t k = Ok t' -> clip_topology m t' k = Ok t2 -> no_repeats t' -> no_repeats t2.
Proof.
  intros H H2 HN. apply clip_topology_ok in H as (C & b & HC & Hb & HX & HR & HE). apply clip_topology_ok in H2 as (C' & b' & HC' & Hb' & _ & HR' & HE').
  pose proof Hb as (_ & _ & Hs & _). pose proof Hb' as (_ & _ & Hs' & _).
  assert (C' = C2 m k C (cb_new b)) as EC by (eapply clips_unique; [exact HC'|eapply second_clips; eassumption]).
  assert (HP : forall ps, In ps (pts_of C (cb_new b)) -> dedup ps = ps).
  { rewrite <- HE. intros ps Hp. apply in_map_iff in Hp as (e & <- & He). apply HN, He. }
  assert (HQ : forall ps, In ps (pts_of C' (cb_new b')) -> dedup ps = ps).
  2:{ intros e He. apply HQ. rewrite <- HE'. apply in_map, He. }
  intros ps Hp. unfold pts_of in Hp. apply in_app_iff in Hp as [Hp|Hp].
  - unfold old_of in Hp. apply filter_In in Hp as [Hp HB]. apply In_nth_error in Hp as [j Hj]. rewrite EC in Hj.
    destruct (Nat.lt_ge_cases j (length (old_of C))) as [L|L].
    + destruct (nth_error (old_of C) j) as [c|] eqn:E; [|apply nth_error_None in E; lia].
      destruct (C2_old m k t C _ HC Hs j c E) as (c' & E1 & _ & T & _). assert (c' = ps) by congruence. subst c'.
      assert (Hc : dedup c = c) by (apply HP; unfold pts_of; apply in_or_app; left; eapply nth_error_In, E).
      rewrite (thin_fixed _ _ T Hc). exact Hc.
    + destruct (nth_error (nes_edges (cb_new b)) (j - length (old_of C))) as [[[x y] i]|] eqn:E.
      * pose proof (C2_new m k t C _ HC Hs _ x y i E) as E1. replace (length (old_of C) + (j - length (old_of C)))%nat with j in E1 by lia.
        rewrite E1 in Hj. destruct (flat_gap k x y); injection Hj as <-; [reflexivity|]. apply HP. unfold pts_of. apply in_or_app. right.
        apply in_map_iff. exists (x, y, i). split; [reflexivity|eapply nth_error_In, E].
      * apply nth_error_None in E. exfalso. assert (Hl : (j < length (C2 m k C (cb_new b)))%nat) by (apply nth_error_Some; congruence).
        unfold C2, pts_of in Hl. rewrite map_length, app_length, map_length in Hl. lia.
  - apply in_map_iff in Hp as ([[x y] i] & <- & Hxy). destruct Hs' as (_ & _ & _ & HF). rewrite Forall_forall in HF. apply HF in Hxy as (Hlt & _).
    cbn [fst snd] in Hlt. change (seg_points (x, y, i)) with [x; y]. rewrite dedup_cons_ne; [reflexivity|].
    intros ->. unfold lt_point in Hlt. lia.
Qed.

Lemma no_repeats_read {D} (t : topology D) : no_repeats t -> map without_repeats (read_topology t) = read_topology t.
Proof.
  intros HN. unfold read_topology. rewrite map_map. apply map_ext. intros rg. unfold without_repeats, read_region. cbn [s_data s_outer s_inner].
  assert (HD : forall d, option_map dedup (read_de (tp_edges t) d) = read_de (tp_edges t) d).
  { intros d. unfold read_de. destruct (nth_error (tp_edges t) (de_edge d)) as [e|] eqn:E; [|reflexivity]. cbn [option_map]. f_equal.
    apply nth_error_In in E. apply HN in E. destruct (de_dir d); cbn [oriented]; [exact E|]. rewrite dedup_rev, E. reflexivity. }
  f_equal; rewrite map_map; apply map_ext; intros r; unfold read_ring; rewrite map_map; apply map_ext; exact HD.
Qed.

Lemma clip_twice_exact {D} m k (t t' t2 : topology D) : clip_topology m t k = Ok t' -> no_repeats t' -> clip_topology m t' k = Ok t2 ->
  read_topology t2 = read_topology t'.
Proof.
  intros H HN H2. destruct (clip_twice m k t t' H) as (t2' & E & HR & _). assert (t2' = t2) by congruence. subst t2'.
  pose proof (second_no_repeats m k t t' t2 H H2 HN) as HN2. rewrite (no_repeats_read t2 HN2), (no_repeats_read t' HN) in HR. exact HR.
Qed.
