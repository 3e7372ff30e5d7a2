(** * ClipTopoProofs: lemmas about clip/topology.rs *)
From Coq Require Import Permutation.
From Verif Require Import ClipTopoSpec GeoProofs TopoProofs BuildProofs ClipEdgeProofs.

(** ** Clipped edges *)
Definition big (c : list point) : bool := Nat.leb 2 (length c).

Fixpoint finder_from (n : nat) (C : list (list point)) : list (option nat) :=
  match C with
  | [] => []
  | c :: t => if big c then Some n :: finder_from (S n) t else None :: finder_from n t
  end.
Definition old_of (C : list (list point)) : list (list point) := filter big C.

Lemma finder_from_app n C c :
  finder_from n (C ++ [c]) = finder_from n C ++ [if big c then Some (n + length (old_of C))%nat else None].
Proof.
  revert n. induction C as [|a C IH]; intros n.
  - cbn [app finder_from old_of filter length]. destruct (big c); [rewrite Nat.add_0_r|]; reflexivity.
  - cbn [app finder_from old_of filter]. fold (old_of C). destruct (big a) eqn:E.
    + rewrite IH. cbn [length app]. rewrite Nat.add_succ_r. reflexivity.
    + rewrite IH. reflexivity.
Qed.

Lemma clip_edges_gen m k (es : list topo_edge) C0 r :
  mfold (fun (st : list (option nat) * list (list point)) e =>
           c <- clip_edge m k (te_points e) ;;
           Ok (if Nat.leb 2 (length c)
               then (fst st ++ [Some (length (snd st))], snd st ++ [c])
               else (fst st ++ [None], snd st)))
        es (finder_from 0 C0, old_of C0) = Ok r ->
  exists C, Forall2 (fun e c => clip_edge m k (te_points e) = Ok c) es C /\
    r = (finder_from 0 (C0 ++ C), old_of (C0 ++ C)).
Proof.
  revert C0. induction es as [|e es IH]; intros C0; cbn [mfold].
  - intros [= <-]. exists []. rewrite app_nil_r. split; [constructor|reflexivity].
  - destruct (clip_edge m k (te_points e)) as [c|] eqn:E; [|discriminate]. cbn [bind fst snd].
    set (st := if Nat.leb 2 (length c) then _ else _).
    assert (Hst : st = (finder_from 0 (C0 ++ [c]), old_of (C0 ++ [c]))).
    { subst st. rewrite finder_from_app. unfold old_of. rewrite filter_app. cbn [filter]. fold (big c).
      destruct (big c); cbn [Nat.add]; [reflexivity|]. rewrite app_nil_r. reflexivity. }
    rewrite Hst. intros H. apply IH in H as (C & HF & ->). exists (c :: C).
    split; [constructor; assumption|]. rewrite <- app_assoc. reflexivity.
Qed.

Lemma clip_edges_ok m k es r : clip_edges m k es = Ok r ->
  exists C, Forall2 (fun e c => clip_edge m k (te_points e) = Ok c) es C /\ r = (finder_from 0 C, old_of C).
Proof. intros H. apply (clip_edges_gen m k es []) in H. exact H. Qed.

Lemma clip_edges_panic m k es p : wf_mask k -> Forall (fun e => wf_points (te_points e)) es ->
  clip_edges m k es = Panic p -> m = Debug /\ p = POverflow.
Proof.
  intros Hk HF. unfold clip_edges. generalize (@nil (option nat), @nil (list point)).
  induction HF as [|e es He HF IH]; intros st; cbn [mfold]; [discriminate|].
  intros H. apply bind_Panic in H as [H|(s & _ & H)]; [|eapply IH, H].
  apply bind_Panic in H as [H|(c & _ & H)]; [|discriminate]. eapply clip_edge_panic; eassumption.
Qed.

Lemma finder_nth n C i c : nth_error C i = Some c ->
  (big c = false /\ nth_error (finder_from n C) i = Some None) \/
  (big c = true /\ exists j, nth_error (finder_from n C) i = Some (Some (n + j)%nat) /\ nth_error (old_of C) j = Some c).
Proof.
  revert n i. induction C as [|a C IH]; intros n i; [destruct i; discriminate|].
  cbn [finder_from old_of filter]. fold (old_of C). destruct i as [|i]; cbn [nth_error].
  - intros [= ->]. destruct (big c) eqn:E; [right|left; auto]. split; [reflexivity|]. exists 0%nat.
    split; [rewrite Nat.add_0_r|]; reflexivity.
  - intros Hc. destruct (big a) eqn:Ea.
    + destruct (IH (S n) i Hc) as [H|(Hb & j & H1 & H2)]; [left; exact H|right]. split; [assumption|].
      exists (S j). split; [rewrite Nat.add_succ_r; exact H1|exact H2].
    + destruct (IH n i Hc) as [H|H]; [left; exact H|right; exact H].
Qed.

Lemma finder_none n C i : nth_error C i = None -> nth_error (finder_from n C) i = None.
Proof.
  revert n i. induction C as [|a C IH]; intros n i H; [destruct i; reflexivity|].
  destruct i as [|i]; [discriminate|]. cbn [finder_from]. destruct (big a); apply IH, H.
Qed.

Lemma finder_bound n C i j : nth_error (finder_from n C) i = Some (Some j) -> (n <= j < n + length (old_of C))%nat.
Proof.
  intros H. destruct (nth_error C i) as [c|] eqn:E; [|rewrite finder_none in H by exact E; discriminate].
  destruct (finder_nth n C i c E) as [[_ H']|(_ & j' & H1 & H2)]; [congruence|].
  assert (j = (n + j')%nat) by congruence. subst. assert (j' < length (old_of C))%nat by (apply nth_error_Some; congruence). lia.
Qed.

Lemma finder_inj n C i i' j : nth_error (finder_from n C) i = Some (Some j) ->
  nth_error (finder_from n C) i' = Some (Some j) -> i = i'.
Proof.
  revert n i i'. induction C as [|a C IH]; intros n i i'; [destruct i; discriminate|].
  cbn [finder_from]. destruct (big a).
  - destruct i as [|i], i' as [|i']; cbn [nth_error]; intros H H'; [reflexivity| | |].
    + injection H as <-. apply finder_bound in H'. lia.
    + injection H' as <-. apply finder_bound in H. lia.
    + f_equal. eapply IH; eassumption.
  - destruct i as [|i], i' as [|i']; cbn [nth_error]; intros H H'; try discriminate. f_equal. eapply IH; eassumption.
Qed.

(** ** New edges *)
Definition seg_points (kv : (point * point) * nat) : list point := [fst (fst kv); snd (fst kv)].
Definition pts_of (C : list (list point)) (s : new_edge_set) : list (list point) :=
  old_of C ++ map seg_points (nes_edges s).

(** An end point of a visible clipped edge. *)
Definition old_end (C : list (list point)) (p : point) : Prop :=
  exists c, In c (old_of C) /\ (first c = Some p \/ final c = Some p).

Definition nes_ok (C : list (list point)) (s : new_edge_set) : Prop :=
  nes_first s = length (old_of C) /\
  map snd (nes_edges s) = seq (nes_first s) (length (nes_edges s)) /\
  NoDup (map fst (nes_edges s)) /\
  Forall (fun kv => lt_point (fst (fst kv)) (snd (fst kv)) /\
                    old_end C (fst (fst kv)) /\ old_end C (snd (fst kv))) (nes_edges s).

Definition idx (C : list (list point)) (s : new_edge_set) (k : use_key) : option nat :=
  match k with
  | KOld i => match nth_error (finder_from 0 C) i with Some (Some j) => Some j | _ => None end
  | KGap a b => sm_find (nes_edges s) (a, b)
  end.

Definition nes_ext (s s' : new_edge_set) : Prop :=
  nes_first s' = nes_first s /\ exists x, nes_edges s' = nes_edges s ++ x.

Lemma nes_ext_refl s : nes_ext s s.
Proof. split; [reflexivity|]. exists []. symmetry. apply app_nil_r. Qed.
Lemma nes_ext_trans a b c : nes_ext a b -> nes_ext b c -> nes_ext a c.
Proof. intros [H1 [x Hx]] [H2 [y Hy]]. split; [congruence|]. exists (x ++ y). rewrite Hy, Hx, app_assoc. reflexivity. Qed.

Lemma seg_eqb_spec a b : reflect (a = b) (seg_eqb a b).
Proof.
  destruct a as [a1 a2], b as [b1 b2]. unfold seg_eqb. cbn [fst snd].
  destruct (pt_eqb_spec a1 b1), (pt_eqb_spec a2 b2); constructor; congruence.
Qed.

Lemma sm_find_app m x k v : sm_find m k = Some v -> sm_find (m ++ x) k = Some v.
Proof.
  induction m as [|[k' v'] m IH]; [discriminate|]. cbn [app sm_find]. destruct (seg_eqb k' k); auto.
Qed.
Lemma sm_find_none m k : sm_find m k = None <-> ~ In k (map fst m).
Proof.
  induction m as [|[k' v'] m IH]; cbn [sm_find map In fst]; [tauto|].
  destruct (seg_eqb_spec k' k) as [->|Hn]; [split; [discriminate|tauto]|]. rewrite IH. tauto.
Qed.
Lemma sm_find_in m k v : sm_find m k = Some v -> In (k, v) m.
Proof.
  induction m as [|[k' v'] m IH]; [discriminate|]. cbn [sm_find]. destruct (seg_eqb_spec k' k) as [->|Hn].
  - intros [= ->]. left. reflexivity.
  - intros H. right. auto.
Qed.
Lemma sm_find_snoc m k v : ~ In k (map fst m) -> sm_find (m ++ [(k, v)]) k = Some v.
Proof.
  induction m as [|[k' v'] m IH]; cbn [map In fst app sm_find]; intros H.
  - destruct (seg_eqb_spec k k); [reflexivity|congruence].
  - destruct (seg_eqb_spec k' k); [tauto|]. apply IH. tauto.
Qed.

(** The id of an entry is its position. *)
Lemma nes_nth C s kv : nes_ok C s -> In kv (nes_edges s) ->
  exists j, nth_error (nes_edges s) j = Some kv /\ snd kv = (length (old_of C) + j)%nat.
Proof.
  intros (H1 & H2 & _) Hin. apply In_nth_error in Hin as [j Hj]. exists j. split; [exact Hj|].
  assert (E : nth_error (map snd (nes_edges s)) j = Some (snd kv)) by (rewrite nth_error_map, Hj; reflexivity).
  rewrite H2, H1 in E. assert (Hl : (j < length (nes_edges s))%nat) by (apply nth_error_Some; congruence).
  rewrite nth_error_nth' with (d := 0%nat) in E by (rewrite seq_length; exact Hl). rewrite seq_nth in E by exact Hl. congruence.
Qed.

Lemma idx_ext C s s' k j : nes_ext s s' -> idx C s k = Some j -> idx C s' k = Some j.
Proof. intros [_ [x Hx]]. destruct k; cbn [idx]; [auto|]. rewrite Hx. apply sm_find_app. Qed.

Lemma idx_inj C s k k' j : nes_ok C s -> idx C s k = Some j -> idx C s k' = Some j -> k = k'.
Proof.
  intros Hs.
  assert (HO : forall i, idx C s (KOld i) = Some j -> nth_error (finder_from 0 C) i = Some (Some j) /\ (j < length (old_of C))%nat).
  { intros i. cbn [idx]. destruct (nth_error (finder_from 0 C) i) as [[j'|]|] eqn:E; try discriminate. intros [= ->].
    split; [reflexivity|]. apply finder_bound in E. lia. }
  assert (HG : forall a b, idx C s (KGap a b) = Some j -> exists n, nth_error (nes_edges s) n = Some ((a, b), j) /\ j = (length (old_of C) + n)%nat).
  { intros a b H. cbn [idx] in H. apply sm_find_in in H. apply (nes_nth C) in H; [|assumption]. exact H. }
  destruct k as [i|a b], k' as [i'|a' b']; intros H H'.
  - apply HO in H as [H _], H' as [H' _]. f_equal. eapply finder_inj; eassumption.
  - apply HO in H as [_ H]. apply HG in H' as (n & _ & H'). lia.
  - apply HO in H' as [_ H']. apply HG in H as (n & _ & H). lia.
  - apply HG in H as (n & Hn & H), H' as (n' & Hn' & H'). assert (n = n') as <- by lia. congruence.
Qed.

(** A directed edge realises a piece. *)
Definition realises (C : list (list point)) (s : new_edge_set) (d : directed_edge) (p : piece) : Prop :=
  idx C s (pc_key p) = Some (de_edge d) /\ de_dir d = pc_dir p /\
  exists base, nth_error (pts_of C s) (de_edge d) = Some base /\ oriented base (de_dir d) = pc_path p.

Lemma realises_ext C s s' d p : nes_ext s s' -> realises C s d p -> realises C s' d p.
Proof.
  intros H (H1 & H2 & base & H3 & H4). split; [eapply idx_ext; eassumption|]. split; [assumption|].
  exists base. split; [|assumption]. destruct H as [_ [x Hx]]. unfold pts_of in *. rewrite Hx, map_app, app_assoc.
  rewrite nth_error_app1; [assumption|]. apply nth_error_Some. congruence.
Qed.
Lemma realises_all_ext C s s' ds ps : nes_ext s s' -> Forall2 (realises C s) ds ps -> Forall2 (realises C s') ds ps.
Proof. intros H. apply Forall2_impl'. intros. eapply realises_ext; eassumption. Qed.

(** New ids are used. *)
Definition nes_covers (s s' : new_edge_set) (ds : list directed_edge) : Prop :=
  forall i, (nes_first s + length (nes_edges s) <= i < nes_first s + length (nes_edges s'))%nat -> In i (map de_edge ds).

Lemma nes_covers_refl s ds : nes_covers s s ds.
Proof. intros i H. lia. Qed.
Lemma nes_covers_app a b c l l' : nes_first b = nes_first a -> nes_covers a b l -> nes_covers b c l' -> nes_covers a c (l ++ l').
Proof.
  intros E H H' i Hi. rewrite map_app, in_app_iff.
  destruct (Nat.lt_ge_cases i (nes_first a + length (nes_edges b))) as [L|L]; [left; apply H|right; apply H'; rewrite E]; lia.
Qed.
Lemma nes_covers_incl a b l l' : incl l l' -> nes_covers a b l -> nes_covers a b l'.
Proof. intros I H i Hi. apply H in Hi. apply in_map_iff in Hi as (d & <- & Hd). apply in_map, I, Hd. Qed.

Lemma lt_pointb p q : (px p <? px q) || ((px p =? px q) && (py p <? py q)) = pt_ltb p q.
Proof. reflexivity. Qed.

Lemma nes_build_ok C s p q d s' : nes_ok C s -> p <> q -> old_end C p -> old_end C q ->
  nes_build s p q = (d, s') ->
  nes_ok C s' /\ nes_ext s s' /\ Forall2 (realises C s') [d] (gap p q) /\ nes_covers s s' [d].
Proof.
  intros Hs Hpq Ep Eq. unfold nes_build, gap.
  assert (E0 : (px p =? px q) && (py p =? py q) = false) by (apply (pt_eqb_neq p q), Hpq).
  rewrite E0, lt_pointb.
  set (a := if pt_ltb p q then p else q). set (b := if pt_ltb p q then q else p).
  set (dir := if pt_ltb p q then Forward else Backward).
  assert (HE : (if pt_ltb p q then (p, q, Forward) else (q, p, Backward)) = (a, b, dir)) by (subst a b dir; destruct (pt_ltb p q); reflexivity).
  rewrite HE. clear HE.
  assert (Hab : lt_point a b).
  { subst a b. destruct (pt_ltb_spec p q) as [L|L]; [exact L|]. unfold lt_point.
    assert (~ (px p = px q /\ py p = py q)) by (intros [? ?]; apply Hpq; destruct p, q; cbn in *; congruence). lia. }
  assert (HP : (if pt_ltb p q then [Piece (KGap p q) Forward [p; q]] else [Piece (KGap q p) Backward [p; q]])
               = [Piece (KGap a b) dir (oriented [a; b] dir)]) by (subst a b dir; destruct (pt_ltb p q); reflexivity).
  rewrite HP. clear HP.
  assert (Ea : old_end C a /\ old_end C b) by (subst a b; destruct (pt_ltb p q); auto).
  clearbody a b dir. clear Ep Eq Hpq E0 p q. destruct Ea as [Ea Eb].
  assert (HR : forall s0 id, nes_ok C s0 -> sm_find (nes_edges s0) (a, b) = Some id ->
             Forall2 (realises C s0) [DE id dir] [Piece (KGap a b) dir (oriented [a; b] dir)]).
  { intros s0 id H0 Hf. constructor; [|constructor]. split; [exact Hf|]. split; [reflexivity|]. exists [a; b]. split; [|reflexivity].
    apply sm_find_in in Hf. apply (nes_nth C) in Hf as (j & Hj & E); [|assumption]. cbn [snd de_edge] in *.
    unfold pts_of. rewrite nth_error_app2 by lia. subst id. rewrite Nat.add_comm, Nat.add_sub.
    rewrite nth_error_map, Hj. reflexivity. }
  destruct (sm_find (nes_edges s) (a, b)) as [id|] eqn:Ef.
  - intros [= <- <-]. split; [assumption|]. split; [apply nes_ext_refl|]. split; [apply HR; assumption|apply nes_covers_refl].
  - intros [= <- <-]. apply sm_find_none in Ef. destruct Hs as (H1 & H2 & H3 & H4).
    set (s' := NES _ _).
    assert (Hs' : nes_ok C s').
    { split; [exact H1|]. cbn [nes_edges nes_first s']. rewrite !map_app, app_length. cbn [map fst snd length].
      split; [|split].
      - rewrite H2, seq_app. reflexivity.
      - apply NoDup_snoc; assumption.
      - apply Forall_app. split; [assumption|]. constructor; [|constructor]. cbn. auto. }
    split; [assumption|]. split; [split; [reflexivity|eexists; reflexivity]|].
    split; [apply HR; [assumption|apply sm_find_snoc, Ef]|].
    intros i. cbn [s' nes_edges]. rewrite app_length. cbn. intros Hi. left. lia.
Qed.

(** ** Rings *)
Definition fst_of (p : piece) := first (pc_path p).
Definition fin_of (p : piece) := final (pc_path p).

Fixpoint open_gaps (p : piece) (ps : list piece) : list piece :=
  match ps with
  | [] => []
  | q :: t => gap_between (fin_of p) (fst_of q) ++ q :: open_gaps q t
  end.
Definition open_ring (vs : list piece) : list piece :=
  match vs with [] => [] | p :: t => p :: open_gaps p t end.

Lemma close_gaps_open start p ps :
  close_gaps start p ps = open_gaps p ps ++ gap_between (fin_of (last (p :: ps) p)) start.
Proof.
  revert p. induction ps as [|q t IH]; intros p; [reflexivity|]. cbn [close_gaps open_gaps]. rewrite IH, <- app_assoc.
  change (last (p :: q :: t) p) with (last (q :: t) p). rewrite (last_default (q :: t) p q) by discriminate. reflexivity.
Qed.

Lemma open_gaps_snoc p ps q :
  open_gaps p (ps ++ [q]) = open_gaps p ps ++ gap_between (fin_of (last (p :: ps) p)) (fst_of q) ++ [q].
Proof.
  revert p. induction ps as [|a t IH]; intros p; [reflexivity|]. cbn [app open_gaps]. rewrite IH, <- app_assoc.
  change (last (p :: a :: t) p) with (last (a :: t) p). rewrite (last_default (a :: t) p a) by discriminate. reflexivity.
Qed.

Definition start_of (vs : list piece) : option point := match vs with [] => None | p :: _ => fst_of p end.
Definition end_of (vs : list piece) : option point := match vs with [] => None | p :: t => fin_of (last (p :: t) p) end.

Lemma end_of_snoc vs q : end_of (vs ++ [q]) = fin_of q.
Proof. destruct vs as [|p t]; [reflexivity|]. cbn [app end_of]. change (p :: t ++ [q]) with ((p :: t) ++ [q]). rewrite last_last. reflexivity. Qed.
Lemma start_of_snoc vs q : start_of (vs ++ [q]) = match vs with [] => fst_of q | _ => start_of vs end.
Proof. destruct vs; reflexivity. Qed.
Lemma open_ring_snoc vs q : open_ring (vs ++ [q]) = open_ring vs ++ gap_between (end_of vs) (fst_of q) ++ [q].
Proof. destruct vs as [|p t]; [reflexivity|]. cbn [app open_ring end_of]. rewrite open_gaps_snoc. reflexivity. Qed.

Lemma clipped_ring_open C r :
  clipped_ring C r = open_ring (visible C r) ++ gap_between (end_of (visible C r)) (start_of (visible C r)).
Proof. unfold clipped_ring. destruct (visible C r) as [|p t]; [reflexivity|]. rewrite close_gaps_open. reflexivity. Qed.

Definition area_of (ps : list piece) : Z := shoelaces (map pc_path ps).
Lemma shoelaces_app a b : shoelaces (a ++ b) = shoelaces a + shoelaces b.
Proof. induction a as [|x a IH]; cbn [app shoelaces]; [reflexivity|]. rewrite IH. lia. Qed.
Lemma area_of_app a b : area_of (a ++ b) = area_of a + area_of b.
Proof. unfold area_of. rewrite map_app. apply shoelaces_app. Qed.

Definition good_piece (C : list (list point)) (p : piece) : Prop :=
  (exists a, fst_of p = Some a /\ old_end C a) /\ (exists b, fin_of p = Some b /\ old_end C b).

(** State of the loop in clip_ring after the visible pieces [vs]. *)
Definition ring_inv (C : list (list point)) (nes0 : new_edge_set) (vs : list piece) (s : ring_state) : Prop :=
  nes_ok C (rs_new s) /\ nes_ext nes0 (rs_new s) /\
  Forall2 (realises C (rs_new s)) (rs_ret s) (open_ring vs) /\
  rs_area s = wrap_i64 (area_of (open_ring vs)) /\
  rs_start s = start_of vs /\ rs_prev s = end_of vs /\ Forall (good_piece C) vs /\
  nes_covers nes0 (rs_new s) (rs_ret s).

Lemma gap_same p : gap p p = [].
Proof. unfold gap. rewrite !Z.eqb_refl. reflexivity. Qed.
Lemma gap_area p q : area_of (gap p q) = shoelace [p; q].
Proof.
  unfold gap. rewrite lt_pointb. destruct ((px p =? px q) && (py p =? py q)) eqn:E.
  - apply pt_eqb_eq in E. subst q. cbn. rewrite det_same. reflexivity.
  - destruct (pt_ltb p q); cbn; lia.
Qed.

Lemma plug_gap_ok C m p q s s' ps A : nes_ok C (rs_new s) -> old_end C p -> old_end C q ->
  Forall2 (realises C (rs_new s)) (rs_ret s) ps -> rs_area s = wrap_i64 A ->
  plug_gap m p q s = Ok s' ->
  nes_ok C (rs_new s') /\ nes_ext (rs_new s) (rs_new s') /\
  Forall2 (realises C (rs_new s')) (rs_ret s') (ps ++ gap p q) /\
  rs_area s' = wrap_i64 (A + area_of (gap p q)) /\
  rs_start s' = rs_start s /\ rs_prev s' = rs_prev s /\
  exists ds, rs_ret s' = rs_ret s ++ ds /\ nes_covers (rs_new s) (rs_new s') ds.
Proof.
  intros Hs Ep Eq HR HA. unfold plug_gap. destruct (pt_eqb_spec p q) as [->|Hpq].
  - intros [= <-]. rewrite gap_same, app_nil_r. cbn [area_of map shoelaces]. rewrite Z.add_0_r.
    split; [assumption|]. split; [apply nes_ext_refl|]. split; [assumption|]. split; [assumption|]. split; [reflexivity|]. split; [reflexivity|].
    exists []. rewrite app_nil_r. split; [reflexivity|apply nes_covers_refl].
  - intros H. apply bind_Ok in H as (g & Hg & H). apply bind_Ok in H as (a & Ha & H).
    destruct (nes_build (rs_new s) p q) as [d nes] eqn:Eb. injection H as <-. cbn [rs_new rs_ret rs_area rs_start rs_prev].
    destruct (nes_build_ok C _ p q d nes Hs Hpq Ep Eq Eb) as (B1 & B2 & B3 & B4).
    split; [assumption|]. split; [assumption|].
    split; [apply Forall2_app; [eapply realises_all_ext; eassumption|assumption]|].
    split. { unfold i64_add in Ha. apply i64_ret_ok in Ha. apply signed_area2_ok in Hg. subst g a. rewrite HA, wrap_add_l, wrap_add_r, gap_area. reflexivity. }
    split; [reflexivity|]. split; [reflexivity|]. exists [d]. split; [reflexivity|assumption].
Qed.

Lemma first_point_ok ps d : ps <> [] -> exists p, first_point ps d = Ok p /\ first (oriented ps d) = Some p /\
  (first ps = Some p \/ final ps = Some p).
Proof.
  destruct ps as [|a l]; [contradiction|]. intros _. destruct d; cbn [first_point oriented].
  - exists a. split; [reflexivity|]. split; [reflexivity|left; reflexivity].
  - exists (last (a :: l) a). unfold get, get_or. rewrite nth_error_last. split; [reflexivity|].
    split; [rewrite first_rev; apply final_last|right; apply final_last].
Qed.
Lemma last_point_ok ps d : ps <> [] -> exists p, last_point ps d = Ok p /\ final (oriented ps d) = Some p /\
  (first ps = Some p \/ final ps = Some p).
Proof.
  destruct ps as [|a l]; [contradiction|]. intros _. destruct d; cbn [last_point oriented].
  - exists (last (a :: l) a). unfold get, get_or. rewrite nth_error_last. split; [reflexivity|].
    split; [apply final_last|right; apply final_last].
  - exists a. split; [reflexivity|]. split; [rewrite final_rev; reflexivity|left; reflexivity].
Qed.

Lemma visible_piece_big C d c : nth_error C (de_edge d) = Some c ->
  visible_piece C d = if big c then [Piece (KOld (de_edge d)) (de_dir d) (oriented c (de_dir d))] else [].
Proof. intros H. unfold visible_piece, big. rewrite H. destruct c as [|? [|? ?]]; reflexivity. Qed.

Lemma clip_ring_step_ok C m nes0 vs s d s' : ring_inv C nes0 vs s ->
  clip_ring_step m (old_of C) (finder_from 0 C) s d = Ok s' ->
  ring_inv C nes0 (vs ++ visible_piece C d) s'.
Proof.
  intros (I1 & I2 & I3 & I4 & I5 & I6 & I7 & I8). unfold clip_ring_step, find_old, get, get_or.
  destruct (nth_error C (de_edge d)) as [c|] eqn:Ec.
  2:{ rewrite finder_none by exact Ec. discriminate. }
  rewrite (visible_piece_big C d c Ec).
  destruct (finder_nth 0 C (de_edge d) c Ec) as [[Hb Hf]|(Hb & j & Hf & Ho)]; rewrite Hf, Hb; cbn [bind].
  - intros [= <-]. rewrite app_nil_r. repeat split; try assumption; apply I1 || apply I2.
  - cbn [Nat.add] in *. rewrite Ho. cbn [bind].
    assert (Hne : c <> []) by (intros ->; discriminate).
    destruct (first_point_ok c (de_dir d) Hne) as (fp & F1 & F2 & F3).
    destruct (last_point_ok c (de_dir d) Hne) as (lp & L1 & L2 & L3).
    rewrite F1. cbn [bind]. set (s1 := RS _ _ _ _ _).
    set (pc := Piece _ _ _).
    assert (Hin : In c (old_of C)) by (eapply nth_error_In, Ho).
    assert (Gp : good_piece C pc).
    { split; [exists fp|exists lp]; (split; [assumption|]); exists c; auto. }
    intros H. apply bind_Ok in H as (s2 & H2 & H). rewrite L1 in H. cbn [bind] in H. apply bind_Ok in H as (sa & Hsa & H). apply bind_Ok in H as (a & Ha & H).
    injection H as <-.
    assert (HS : nes_ok C (rs_new s2) /\ nes_ext (rs_new s) (rs_new s2) /\
      Forall2 (realises C (rs_new s2)) (rs_ret s2) (open_ring vs ++ gap_between (end_of vs) (fst_of pc)) /\
      rs_area s2 = wrap_i64 (area_of (open_ring vs) + area_of (gap_between (end_of vs) (fst_of pc))) /\
      rs_start s2 = rs_start s1 /\ rs_prev s2 = rs_prev s1 /\
      exists ds, rs_ret s2 = rs_ret s ++ ds /\ nes_covers (rs_new s) (rs_new s2) ds).
    { cbn [rs_prev s1] in H2. rewrite I6 in H2.
      assert (Hfst : fst_of pc = Some fp) by exact F2. rewrite Hfst.
      destruct vs as [|v vt].
      - cbn [end_of] in *. injection H2 as <-. cbn [gap_between rs_new rs_ret rs_area rs_start rs_prev s1 area_of map shoelaces]. rewrite app_nil_r, Z.add_0_r.
        split; [assumption|]. split; [apply nes_ext_refl|]. split; [assumption|]. split; [assumption|]. split; [reflexivity|]. split; [reflexivity|].
        exists []. rewrite app_nil_r. split; [reflexivity|apply nes_covers_refl].
      - cbn [end_of] in *. set (w := last (v :: vt) v) in *.
        assert (Gw : good_piece C w).
        { rewrite Forall_forall in I7. apply I7. subst w. clear. revert v. induction vt as [|x t IH]; intros v; [left; reflexivity|].
          change (last (v :: x :: t) v) with (last (x :: t) v). rewrite (last_default (x :: t) v x) by discriminate. right. apply IH. }
        destruct Gw as [_ (b & Eb & Ob)]. rewrite Eb in *. cbn [gap_between].
        destruct Gp as [(a0 & Ea0 & Oa0) _]. assert (a0 = fp) by congruence. subst a0.
        apply (plug_gap_ok C m b fp s1 s2 (open_ring (v :: vt)) (area_of (open_ring (v :: vt)))) in H2; [|assumption..].
        exact H2. }
    destruct HS as (S1 & S2 & S3 & S4 & S5 & S6 & ds & S7 & S8).
    assert (HRp : realises C (rs_new s2) (DE j (de_dir d)) pc).
    { split; [cbn [pc pc_key idx]; rewrite Hf; reflexivity|]. split; [reflexivity|]. exists c. split; [|reflexivity].
      cbn [de_edge]. unfold pts_of. rewrite nth_error_app1; [exact Ho|]. apply nth_error_Some. congruence. }
    unfold ring_inv. cbn [rs_ret rs_area rs_start rs_prev rs_new].
    split; [assumption|]. split; [eapply nes_ext_trans; eassumption|].
    split. { rewrite open_ring_snoc, app_assoc. apply Forall2_app; [assumption|]. constructor; [assumption|constructor]. }
    split. { unfold i64_add in Ha. apply i64_ret_ok in Ha. apply signed_area2_ok in Hsa. subst sa a. rewrite S4, wrap_add_l, wrap_add_r.
      rewrite open_ring_snoc, !area_of_app. f_equal.
      assert (area_of [pc] = shoelace (oriented c (de_dir d))) as -> by (unfold area_of; cbn [map shoelaces pc pc_path]; lia).
      destruct (de_dir d); cbn [oriented]; lia. }
    split. { rewrite S5. cbn [rs_start s1]. rewrite I5, start_of_snoc. destruct vs as [|v vt]; [cbn [start_of]; symmetry; exact F2|].
      destruct (start_of (v :: vt)) as [z|] eqn:Ez; [reflexivity|]. inversion I7; subst. destruct H1 as [(a1 & E1 & _) _].
      cbn [start_of] in Ez. congruence. }
    split; [rewrite end_of_snoc; symmetry; exact L2|].
    split; [apply Forall_app; split; [assumption|constructor; [assumption|constructor]]|].
    rewrite S7, <- app_assoc. eapply nes_covers_app; [apply I2|exact I8|].
    eapply nes_covers_incl; [|exact S8]. apply incl_appl, incl_refl.
Qed.

Lemma clip_ring_loop_ok C m nes0 ds vs s s' : ring_inv C nes0 vs s ->
  mfold (clip_ring_step m (old_of C) (finder_from 0 C)) ds s = Ok s' ->
  ring_inv C nes0 (vs ++ flat_map (visible_piece C) ds) s'.
Proof.
  revert vs s. induction ds as [|d ds IH]; intros vs s HI; cbn [mfold flat_map].
  - intros [= <-]. rewrite app_nil_r. assumption.
  - intros H. apply bind_Ok in H as (s1 & H1 & H). apply (clip_ring_step_ok C m nes0 vs) in H1; [|assumption].
    rewrite app_assoc. eapply IH; eassumption.
Qed.

Lemma clip_ring_ok C m nes r o nes' : nes_ok C nes -> clip_ring m (old_of C) (finder_from 0 C) nes r = Ok (o, nes') ->
  nes_ok C nes' /\ nes_ext nes nes' /\
  exists br, Forall2 (realises C nes') br (clipped_ring C r) /\ nes_covers nes nes' br /\
    o = if ring_kept C r then Some br else None.
Proof.
  intros Hn. unfold clip_ring. intros H. apply bind_Ok in H as (s & Hs & H). apply bind_Ok in H as (s' & Hs' & H).
  apply (clip_ring_loop_ok C m nes (tr_des r) []) in Hs.
  2:{ split; [assumption|]. split; [apply nes_ext_refl|]. repeat split; try constructor; try reflexivity. apply nes_covers_refl. }
  cbn [app] in Hs. fold (visible C r) in Hs. set (vs := visible C r) in *.
  destruct Hs as (I1 & I2 & I3 & I4 & I5 & I6 & I7 & I8).
  assert (HF : nes_ok C (rs_new s') /\ nes_ext (rs_new s) (rs_new s') /\
      Forall2 (realises C (rs_new s')) (rs_ret s') (clipped_ring C r) /\
      rs_area s' = wrap_i64 (clipped_area C r) /\
      exists ds, rs_ret s' = rs_ret s ++ ds /\ nes_covers (rs_new s) (rs_new s') ds).
  { unfold clipped_area. rewrite clipped_ring_open. fold vs. change (shoelaces (map pc_path ?l)) with (area_of l). rewrite area_of_app.
    rewrite I5, I6 in Hs'. destruct vs as [|v vt].
    - cbn [start_of end_of gap_between] in *. injection Hs' as <-. rewrite app_nil_r. cbn [area_of map shoelaces]. rewrite Z.add_0_r.
      split; [assumption|]. split; [apply nes_ext_refl|]. split; [assumption|]. split; [assumption|].
      exists []. rewrite app_nil_r. split; [reflexivity|apply nes_covers_refl].
    - cbn [start_of end_of] in *. set (w := last (v :: vt) v) in *.
      assert (Gw : good_piece C w).
      { rewrite Forall_forall in I7. apply I7. subst w. clear. revert v. induction vt as [|x t IH]; intros v; [left; reflexivity|].
        change (last (v :: x :: t) v) with (last (x :: t) v). rewrite (last_default (x :: t) v x) by discriminate. right. apply IH. }
      destruct Gw as [_ (b & Eb & Ob)]. inversion I7 as [|? ? [(a & Ea & Oa) _] _]; subst. rewrite Ea, Eb in *. cbn [gap_between].
      destruct (plug_gap_ok C m b a s s' _ _ I1 Ob Oa I3 I4 Hs') as (P1 & P2 & P3 & P4 & _ & _ & P5). auto 6. }
  destruct HF as (F1 & F2 & F3 & F4 & ds & F5 & F6).
  assert (HK : (rs_area s' =? 0) = negb (ring_kept C r)).
  { unfold ring_kept. rewrite negb_involutive, F4. apply Bool.eq_iff_eq_true. rewrite !Z.eqb_eq. apply wrap_zero. }
  rewrite HK in H.
  assert (HO : nes' = rs_new s' /\ o = if ring_kept C r then Some (rs_ret s') else None) by (destruct (ring_kept C r); injection H as <- <-; auto).
  destruct HO as [-> ->]. split; [assumption|]. split; [eapply nes_ext_trans; eassumption|].
  exists (rs_ret s'). split; [assumption|]. split; [|reflexivity]. rewrite F5.
  eapply nes_covers_app; [apply I2|exact I8|exact F6].
Qed.

(** Panics of clip_ring: only overflow in debug builds. *)
Lemma i64_add_panic m a b p : i64_add m a b = Panic p -> m = Debug /\ p = POverflow.
Proof. unfold i64_add, i64_ret. destruct (in_i64 _); [discriminate|]. destruct m; [intros [= <-]; auto|discriminate]. Qed.
Lemma signed_area2_panic m ps p : signed_area2 m ps = Panic p -> m = Debug /\ p = POverflow.
Proof.
  destruct m; [|rewrite signed_area2_release; discriminate].
  destruct (signed_area2_debug ps) as [[_ E]|[_ E]]; rewrite E; [discriminate|]. intros [= <-]. auto.
Qed.
Lemma plug_gap_panic m a b s p : plug_gap m a b s = Panic p -> m = Debug /\ p = POverflow.
Proof.
  unfold plug_gap. destruct (pt_eqb a b); [discriminate|]. intros H.
  apply bind_Panic in H as [H|(g & _ & H)]; [eapply signed_area2_panic, H|].
  apply bind_Panic in H as [H|(g' & _ & H)]; [eapply i64_add_panic, H|].
  destruct (nes_build _ _ _). discriminate.
Qed.

Lemma clip_ring_step_panic C m s d p : (de_edge d < length C)%nat ->
  clip_ring_step m (old_of C) (finder_from 0 C) s d = Panic p -> m = Debug /\ p = POverflow.
Proof.
  intros Hd. unfold clip_ring_step, find_old, get, get_or.
  destruct (nth_error C (de_edge d)) as [c|] eqn:Ec; [|apply nth_error_None in Ec; lia].
  destruct (finder_nth 0 C (de_edge d) c Ec) as [[Hb Hf]|(Hb & j & Hf & Ho)]; rewrite Hf; cbn [bind]; [discriminate|].
  cbn [Nat.add]. rewrite Ho. cbn [bind]. assert (Hne : c <> []) by (intros ->; discriminate).
  destruct (first_point_ok c (de_dir d) Hne) as (fp & -> & _ & _).
  destruct (last_point_ok c (de_dir d) Hne) as (lp & L1 & _ & _). cbn [bind].
  intros H. apply bind_Panic in H as [H|(s2 & _ & H)].
  { destruct (rs_prev _); [eapply plug_gap_panic, H|discriminate]. }
  rewrite L1 in H. cbn [bind] in H.
  apply bind_Panic in H as [H|(g & _ & H)]; [eapply signed_area2_panic, H|].
  apply bind_Panic in H as [H|(g' & _ & H)]; [eapply i64_add_panic, H|discriminate].
Qed.

Lemma clip_ring_panic C m nes r p : (forall d, In d (tr_des r) -> (de_edge d < length C)%nat) ->
  clip_ring m (old_of C) (finder_from 0 C) nes r = Panic p -> m = Debug /\ p = POverflow.
Proof.
  intros Hd. unfold clip_ring. intros H. apply bind_Panic in H as [H|(s & _ & H)].
  - revert H. generalize (RS [] 0 None None nes). induction (tr_des r) as [|d ds IH]; intros s; cbn [mfold]; [discriminate|].
    intros H. apply bind_Panic in H as [H|(s1 & _ & H)].
    + eapply clip_ring_step_panic; [|exact H]. apply Hd. left. reflexivity.
    + eapply IH; [|exact H]. intros. apply Hd. right. assumption.
  - apply bind_Panic in H as [H|(s1 & _ & H)].
    + destruct (rs_start s), (rs_prev s); try discriminate. eapply plug_gap_panic, H.
    + destruct (rs_area s1 =? 0); discriminate.
Qed.

(** ** Lists of rings *)
Definition lost_pieces (C : list (list point)) (rs : list topo_ring) : Prop :=
  exists r, In r rs /\ ring_kept C r = false /\ visible C r <> [].

Lemma clip_rings_gen C m rs acc nes brs nes' : nes_ok C nes ->
  mfold (fun st r =>
           '(o, nes') <- clip_ring m (old_of C) (finder_from 0 C) (snd st) r ;;
           Ok (match o with Some br => fst st ++ [br] | None => fst st end, nes')) rs (acc, nes) = Ok (brs, nes') ->
  nes_ok C nes' /\ nes_ext nes nes' /\
  exists new, brs = acc ++ new /\ Forall2 (Forall2 (realises C nes')) new (clipped_rings C rs) /\
    (~ lost_pieces C rs -> nes_covers nes nes' (concat new)).
Proof.
  revert acc nes. induction rs as [|r rs IH]; intros acc nes Hn; cbn [mfold].
  - intros [= <- <-]. split; [assumption|]. split; [apply nes_ext_refl|]. exists []. rewrite app_nil_r.
    split; [reflexivity|]. split; [constructor|]. intros _. apply nes_covers_refl.
  - cbn [snd]. intros H. apply bind_Ok in H as (st & H1 & H). apply bind_Ok in H1 as ([o nes1] & H1 & E). injection E as <-.
    destruct (clip_ring_ok C m nes r o nes1 Hn H1) as (N1 & X1 & br & R1 & V1 & ->).
    apply IH in H as (N2 & X2 & new & -> & R2 & V2); [|assumption].
    split; [assumption|]. split; [eapply nes_ext_trans; eassumption|].
    unfold clipped_rings. cbn [filter]. destruct (ring_kept C r) eqn:Ek; cbn [map fst].
    + exists (br :: new). rewrite <- app_assoc. split; [reflexivity|]. split.
      * constructor; [eapply realises_all_ext; eassumption|exact R2].
      * intros HL. cbn [concat]. eapply nes_covers_app; [apply X1|exact V1|]. apply V2.
        intros (r' & Hr & HH). apply HL. exists r'. split; [right; exact Hr|exact HH].
    + exists new. split; [reflexivity|]. split; [exact R2|]. intros HL.
      assert (Hv : visible C r = []).
      { destruct (visible C r) eqn:Ev; [reflexivity|]. exfalso. apply HL. exists r. split; [left; reflexivity|]. split; [assumption|]. rewrite Ev. discriminate. }
      assert (br = []).
      { unfold clipped_ring in R1. rewrite Hv in R1. inversion R1. reflexivity. }
      subst br. change (concat new) with ([] ++ concat new). eapply nes_covers_app; [apply X1|exact V1|]. apply V2.
      intros (r' & Hr & HH). apply HL. exists r'. split; [right; exact Hr|exact HH].
Qed.

Lemma clip_rings_ok C m nes rs brs nes' : nes_ok C nes ->
  Clip.clip_rings m (old_of C) (finder_from 0 C) nes rs = Ok (brs, nes') ->
  nes_ok C nes' /\ nes_ext nes nes' /\ Forall2 (Forall2 (realises C nes')) brs (clipped_rings C rs) /\
  (~ lost_pieces C rs -> nes_covers nes nes' (concat brs)).
Proof.
  intros Hn H. apply clip_rings_gen in H as (H1 & H2 & new & -> & H3 & H4); [|assumption]. auto.
Qed.

Lemma clip_rings_panic C m nes rs p : (forall r d, In r rs -> In d (tr_des r) -> (de_edge d < length C)%nat) ->
  Clip.clip_rings m (old_of C) (finder_from 0 C) nes rs = Panic p -> m = Debug /\ p = POverflow.
Proof.
  intros Hd. unfold Clip.clip_rings. generalize (@nil build_ring, nes). induction rs as [|r rs IH]; intros st; cbn [mfold]; [discriminate|].
  intros H. apply bind_Panic in H as [H|(s & _ & H)].
  - apply bind_Panic in H as [H|([o n] & _ & H)]; [|discriminate]. eapply clip_ring_panic; [|exact H].
    intros d. apply Hd. left. reflexivity.
  - eapply IH; [|exact H]. intros. eapply Hd; [right|]; eassumption.
Qed.

(** ** Regions *)
Definition region_realises {D} (C : list (list point)) (s : new_edge_set) (b : build_region D) (rg : topo_region D) : Prop :=
  br_data b = tg_data rg /\
  Forall2 (Forall2 (realises C s)) (br_outer b) (clipped_rings C (tg_outer rg)) /\
  Forall2 (Forall2 (realises C s)) (br_inner b) (clipped_rings C (tg_inner rg)).

(** A ring with a visible part is dropped, because it has no area or with its region. *)
Definition loses {D} (C : list (list point)) (rgs : list (topo_region D)) : Prop :=
  exists rg, In rg rgs /\
    (lost_pieces C (tg_outer rg ++ tg_inner rg) \/
     (region_kept C rg = false /\ exists r, In r (tg_outer rg ++ tg_inner rg) /\ visible C r <> [])).

Definition nes_start (C : list (list point)) : new_edge_set := NES (length (old_of C)) [].

Definition cb_ok {D} (C : list (list point)) (b : cbuilder D) (rgs : list (topo_region D)) : Prop :=
  cb_old b = old_of C /\ cb_finder b = finder_from 0 C /\ nes_ok C (cb_new b) /\
  Forall2 (region_realises C (cb_new b)) (cb_regions b) (filter (region_kept C) rgs) /\
  (~ loses C rgs -> nes_covers (nes_start C) (cb_new b) (flat_map (fun b => concat (br_rings b)) (cb_regions b))).

Lemma rings_realises_ext C s s' brs pss : nes_ext s s' ->
  Forall2 (Forall2 (realises C s)) brs pss -> Forall2 (Forall2 (realises C s')) brs pss.
Proof. intros H. apply Forall2_impl'. intros. eapply realises_all_ext; eassumption. Qed.
Lemma region_realises_ext {D} C s s' (b : build_region D) rg : nes_ext s s' -> region_realises C s b rg -> region_realises C s' b rg.
Proof. intros H (H1 & H2 & H3). split; [assumption|]. split; eapply rings_realises_ext; eassumption. Qed.

Lemma existsb_filter {A} (f : A -> bool) l : existsb f l = (0 <? length (filter f l))%nat.
Proof. induction l as [|a l IH]; [reflexivity|]. cbn [existsb filter]. destruct (f a); [reflexivity|exact IH]. Qed.

Lemma region_kept_length {D} C (rg : topo_region D) s brs :
  Forall2 (Forall2 (realises C s)) brs (clipped_rings C (tg_outer rg)) -> region_kept C rg = (0 <? length brs)%nat.
Proof.
  intros H. apply Forall2_length' in H. unfold clipped_rings in H. rewrite map_length in H.
  unfold region_kept. rewrite existsb_filter, <- H. reflexivity.
Qed.

Lemma cadd_region_ok {D} C m (b : cbuilder D) rgs rg b' : cb_ok C b rgs -> cadd_region m b rg = Ok b' -> cb_ok C b' (rgs ++ [rg]).
Proof.
  intros (B1 & B2 & B3 & B4 & B5). unfold cadd_region. rewrite B1, B2.
  destruct (Clip.clip_rings m (old_of C) (finder_from 0 C) (cb_new b) (tg_outer rg)) as [[outer nes1]|] eqn:E1; [|discriminate]. cbn [bind].
  destruct (clip_rings_ok C m _ _ _ _ B3 E1) as (N1 & X1 & R1 & V1).
  assert (EK : (0 <? length outer)%nat = region_kept C rg) by (symmetry; exact (region_kept_length C rg nes1 outer R1)).
  rewrite EK.
  assert (HL : ~ loses C (rgs ++ [rg]) -> ~ loses C rgs).
  { intros H (g & Hg & Hl). apply H. exists g. split; [apply in_or_app; left; exact Hg|exact Hl]. }
  unfold cb_ok. rewrite filter_app. cbn [filter]. destruct (region_kept C rg) eqn:Ek.
  - destruct (Clip.clip_rings m (old_of C) (finder_from 0 C) nes1 (tg_inner rg)) as [[inner nes2]|] eqn:E2; cbn [bind]; [|discriminate].
    destruct (clip_rings_ok C m _ _ _ _ N1 E2) as (N2 & X2 & R2 & V2).
    intros [= <-]. cbn [cb_old cb_finder cb_new cb_regions].
    split; [reflexivity|]. split; [reflexivity|]. split; [assumption|]. split.
    + apply Forall2_app.
      * eapply Forall2_impl'; [|exact B4]. intros. eapply region_realises_ext; [exact (nes_ext_trans _ _ _ X1 X2)|assumption].
      * constructor; [|constructor]. split; [reflexivity|]. split; [eapply rings_realises_ext; eassumption|exact R2].
    + intros H. rewrite flat_map_app. cbn [flat_map]. rewrite app_nil_r, concat_br_rings. cbn [br_outer br_inner].
      assert (H1 : ~ lost_pieces C (tg_outer rg) /\ ~ lost_pieces C (tg_inner rg)).
      { split; intros (r & Hr & HH); apply H; exists rg; (split; [apply in_or_app; right; left; reflexivity|]); left; exists r;
          (split; [apply in_or_app; tauto|exact HH]). }
      assert (EF : nes_first (cb_new b) = nes_first (nes_start C)) by (destruct B3 as (-> & _); reflexivity).
      eapply (nes_covers_app _ (cb_new b)); [exact EF|apply B5, HL, H|].
      eapply (nes_covers_app _ nes1); [apply X1|apply V1; tauto|apply V2; tauto].
  - intros [= <-]. cbn [cb_old cb_finder cb_new cb_regions]. rewrite app_nil_r.
    split; [reflexivity|]. split; [reflexivity|]. split; [assumption|]. split.
    + eapply Forall2_impl'; [|exact B4]. intros. eapply region_realises_ext; eassumption.
    + intros H. assert (outer = []) as ->.
      { rewrite (region_kept_length C rg nes1 outer R1) in Ek. destruct outer; [reflexivity|discriminate]. }
      assert (H1 : ~ lost_pieces C (tg_outer rg)).
      { intros (r & Hr & HH). apply H. exists rg. split; [apply in_or_app; right; left; reflexivity|]. left. exists r.
        split; [apply in_or_app; tauto|exact HH]. }
      assert (EF : nes_first (cb_new b) = nes_first (nes_start C)) by (destruct B3 as (-> & _); reflexivity).
      rewrite <- (app_nil_r (flat_map _ _)). eapply (nes_covers_app _ (cb_new b)); [exact EF|apply B5, HL, H|].
      apply V1 in H1. exact H1.
Qed.

Lemma cadd_region_panic {D} C m (b : cbuilder D) rgs rg p : cb_ok C b rgs ->
  (forall r d, In r (tg_outer rg ++ tg_inner rg) -> In d (tr_des r) -> (de_edge d < length C)%nat) ->
  cadd_region m b rg = Panic p -> m = Debug /\ p = POverflow.
Proof.
  intros (B1 & B2 & _) Hd. unfold cadd_region. rewrite B1, B2. intros H.
  apply bind_Panic in H as [H|([outer n1] & _ & H)].
  - eapply clip_rings_panic; [|exact H]. intros r d Hr. apply Hd. apply in_or_app. tauto.
  - destruct (0 <? length outer)%nat; [|discriminate].
    apply bind_Panic in H as [H|([inner n2] & _ & H)]; [|discriminate].
    eapply clip_rings_panic; [|exact H]. intros r d Hr. apply Hd. apply in_or_app. tauto.
Qed.

Lemma cadd_regions_ok {D} C m (rgs rgs0 : list (topo_region D)) b b' : cb_ok C b rgs0 ->
  mfold (cadd_region m) rgs b = Ok b' -> cb_ok C b' (rgs0 ++ rgs).
Proof.
  revert rgs0 b. induction rgs as [|rg rgs IH]; intros rgs0 b Hb; cbn [mfold].
  - intros [= <-]. rewrite app_nil_r. assumption.
  - intros H. apply bind_Ok in H as (b1 & H1 & H). apply (cadd_region_ok C m b rgs0) in H1; [|assumption].
    change (rg :: rgs) with ([rg] ++ rgs). rewrite app_assoc. eapply IH; eassumption.
Qed.

Lemma cadd_regions_panic {D} C m (rgs rgs0 : list (topo_region D)) b p : cb_ok C b rgs0 ->
  (forall rg r d, In rg rgs -> In r (tg_outer rg ++ tg_inner rg) -> In d (tr_des r) -> (de_edge d < length C)%nat) ->
  mfold (cadd_region m) rgs b = Panic p -> m = Debug /\ p = POverflow.
Proof.
  revert rgs0 b. induction rgs as [|rg rgs IH]; intros rgs0 b Hb Hd; cbn [mfold]; [discriminate|].
  intros H. apply bind_Panic in H as [H|(b1 & H1 & H)].
  - eapply cadd_region_panic; [exact Hb| |exact H]. intros r d. apply Hd. left. reflexivity.
  - apply (cadd_region_ok C m b rgs0) in H1; [|assumption]. eapply IH; [exact H1| |exact H].
    intros g r d Hg. apply Hd. right. exact Hg.
Qed.

Lemma nes_start_ok C : nes_ok C (nes_start C).
Proof. split; [reflexivity|]. split; [reflexivity|]. split; constructor. Qed.

Lemma cb_start_ok {D} C : cb_ok (D := D) C (CB [] (old_of C) (finder_from 0 C) (nes_start C)) [].
Proof.
  split; [reflexivity|]. split; [reflexivity|]. split; [apply nes_start_ok|]. split; [constructor|].
  intros _. apply nes_covers_refl.
Qed.

(** ** into_topology *)
Lemma nes_step s v iter :
  (forall kid, In kid iter -> (nes_first s <= snd kid < nes_first s + length v)%nat) -> NoDup (map snd iter) ->
  exists w, mfold (fun v kid =>
           if Nat.ltb (snd kid) (nes_first s) then Panic POverflow
           else if Nat.ltb (snd kid - nes_first s) (length v)
                then Ok (set_nth v (snd kid - nes_first s) (fst kid)) else Panic PIndex) iter v = Ok w /\
    length w = length v /\
    (forall (k : point * point) i, In (k, i) iter -> nth_error w (i - nes_first s) = Some k) /\
    (forall i, (nes_first s <= i)%nat -> ~ In i (map snd iter) -> nth_error w (i - nes_first s) = nth_error v (i - nes_first s)).
Proof.
  revert v. induction iter as [|[k i] iter IH]; intros v HB HN; cbn [mfold].
  - exists v. split; [reflexivity|]. split; [reflexivity|]. split; [intros ? ? []|auto].
  - assert (Hi : (nes_first s <= i < nes_first s + length v)%nat) by (apply (HB (k, i)); left; reflexivity).
    cbn [fst snd] in *. inversion HN as [|? ? Hni HN']; subst.
    destruct (Nat.ltb_spec i (nes_first s)); [lia|]. destruct (Nat.ltb_spec (i - nes_first s) (length v)); [|lia]. cbn [bind].
    destruct (IH (set_nth v (i - nes_first s) k)) as (w & E & L & P1 & P2).
    + intros kid Hk. rewrite set_nth_length. apply HB. right. exact Hk.
    + exact HN'.
    + exists w. split; [exact E|]. split; [rewrite L; apply set_nth_length|]. split.
      * intros k' i' [[= <- <-]|Hin]; [|apply P1, Hin]. rewrite P2 by (lia || assumption).
        rewrite nth_error_set_nth, Nat.eqb_refl. destruct (nth_error v (i - nes_first s)) eqn:En; [reflexivity|].
        apply nth_error_None in En. lia.
      * intros i' Hge Hni'. cbn [map In] in Hni'. rewrite P2 by (try lia; tauto). rewrite nth_error_set_nth.
        destruct (Nat.eqb_spec (i - nes_first s) (i' - nes_first s)); [|reflexivity]. exfalso. apply Hni'. left. cbn. lia.
Qed.

Lemma nes_into_iter_ok C s iter : nes_ok C s -> Permutation iter (nes_edges s) ->
  nes_into_iter s iter = Ok (map fst (nes_edges s)).
Proof.
  intros Hs Hp. pose proof Hs as (H1 & H2 & H3 & H4).
  assert (HS : Permutation (map snd iter) (seq (nes_first s) (length (nes_edges s)))) by (rewrite <- H2; apply Permutation_map, Hp).
  destruct (nes_step s (repeat (Pt 0 0, Pt 0 0) (length (nes_edges s))) iter) as (w & E & L & P1 & P2).
  - intros kid Hk. rewrite repeat_length. apply (in_map snd) in Hk. apply (Permutation_in _ HS), in_seq in Hk. lia.
  - apply (Permutation_NoDup (Permutation_sym HS)), seq_NoDup.
  - unfold nes_into_iter. rewrite E. f_equal. apply nth_error_ext. intros j.
    rewrite nth_error_map. destruct (nth_error (nes_edges s) j) as [kv|] eqn:En.
    + assert (Hin : In kv (nes_edges s)) by (eapply nth_error_In, En).
      assert (Hv : snd kv = (nes_first s + j)%nat).
      { assert (E2 : nth_error (map snd (nes_edges s)) j = Some (snd kv)) by (rewrite nth_error_map, En; reflexivity).
        assert (Hl : (j < length (nes_edges s))%nat) by (apply nth_error_Some; congruence).
        rewrite H2, nth_error_nth' with (d := 0%nat) in E2 by (rewrite seq_length; exact Hl). rewrite seq_nth in E2 by exact Hl. congruence. }
      destruct kv as [k v]. cbn [fst snd] in *. subst v.
      specialize (P1 k (nes_first s + j)%nat (Permutation_in _ (Permutation_sym Hp) Hin)).
      rewrite Nat.add_comm, Nat.add_sub in P1. exact P1.
    + apply nth_error_None in En. cbn. apply nth_error_None. rewrite L, repeat_length. exact En.
Qed.

Lemma cinto_eq {D} C (b : cbuilder D) rgs iter : cb_ok C b rgs -> Permutation iter (nes_edges (cb_new b)) ->
  cinto_topology_iter b iter = finish_topology (cb_regions b) (map (fun p => TEdge p None None) (pts_of C (cb_new b))).
Proof.
  intros (B1 & _ & B3 & _) Hp. unfold cinto_topology_iter. rewrite (nes_into_iter_ok C) by assumption. cbn [bind].
  rewrite B1. unfold pts_of. rewrite map_app, !map_map. reflexivity.
Qed.

Lemma realises_bound C s d p : realises C s d p -> (de_edge d < length (pts_of C s))%nat.
Proof. intros (_ & _ & base & H & _). apply nth_error_Some. congruence. Qed.

Lemma cb_ids {D} C (b : cbuilder D) rgs : cb_ok C b rgs -> ids_below (length (pts_of C (cb_new b))) (cb_regions b).
Proof.
  intros (_ & _ & _ & HF & _) br r d Hb Hr Hd.
  eapply Forall2_in_l in HF as (rg & _ & (_ & Ho & Hi)); [|exact Hb].
  unfold br_rings in Hr. apply in_app_iff in Hr as [Hr|Hr].
  - eapply Forall2_in_l in Ho as (ps & _ & Hm); [|exact Hr]. eapply Forall2_in_l in Hm as (p & _ & Hp); [|exact Hd]. eapply realises_bound, Hp.
  - eapply Forall2_in_l in Hi as (ps & _ & Hm); [|exact Hr]. eapply Forall2_in_l in Hm as (p & _ & Hp); [|exact Hd]. eapply realises_bound, Hp.
Qed.

(** ** The whole of clip_topology *)
Lemma clip_topology_ok {D} m (t t' : topology D) k : clip_topology m t k = Ok t' ->
  exists C b, clips m k t C /\ cb_ok C b (tp_regions t) /\
    exact_references t' /\ tp_regions t' = final_regions (cb_regions b) /\
    map te_points (tp_edges t') = pts_of C (cb_new b).
Proof.
  unfold clip_topology, cbuilder_new. intros H. apply bind_Ok in H as (b0 & H0 & H). apply bind_Ok in H0 as ([fd old] & H0 & E).
  apply clip_edges_ok in H0 as (C & HC & [= -> ->]). injection E as <-. apply bind_Ok in H as (b & Hb & H).
  apply (cadd_regions_ok C m (tp_regions t) []) in Hb; [|apply cb_start_ok]. cbn [app] in Hb.
  unfold cinto_topology in H. rewrite (cinto_eq C b (tp_regions t)) in H by (try assumption; apply Permutation_refl).
  apply finish_exact in H as (X1 & X2 & X3); [|eapply cb_ids; eassumption]. exists C, b. auto.
Qed.

Lemma clips_unique {D} m k (t : topology D) C C' : clips m k t C -> clips m k t C' -> C = C'.
Proof.
  unfold clips. intros H. revert C'. induction H as [|e c es C He HF IH]; intros C' H'; inversion H'; subst; [reflexivity|].
  f_equal; [congruence|]. apply IH. assumption.
Qed.
