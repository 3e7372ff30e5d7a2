(** * NormSafe: normalization of topologies whose rings need not be closed *)
From Verif Require Import GeoProofs TopoProofs BuildProofs NormSpec NormProofs NormRing NormJoin NormTopo NormLaws NormAdjacent ComposeSpec ComposeLaws.

Lemma has_length_rev ps : has_length (rev ps) = has_length ps.
Proof.
  destruct ps as [|a [|b [|c ps]]]; try reflexivity.
  - cbn [rev app has_length]. unfold pt_eqb. rewrite (Z.eqb_sym (px b)), (Z.eqb_sym (py b)). reflexivity.
  - rewrite has_length_3; [reflexivity|]. rewrite rev_length. cbn [length]. lia.
Qed.

Section Points.
Variable P : point -> Prop.

(** Edges of at least two points, all of which satisfy [P]. *)
Definition sane (e : norm_edge) : Prop := (2 <= length (ne_points e))%nat /\ Forall P (ne_points e).
Definition sane_ring (es : list norm_edge) : Prop := es <> [] /\ Forall sane es.

Lemma sane_longs es : Forall sane es -> longs es.
Proof. intros H. unfold longs, long. apply Forall_map. eapply Forall_impl; [|exact H]. intros e He. apply He. Qed.

Lemma sane_nonempty es : Forall sane es -> nonempty_pts es.
Proof. intros H. apply long_nonempty, (sane_longs es H). Qed.

Lemma sane_walk run : run <> [] -> Forall sane run -> (2 <= length (walk run))%nat /\ Forall P (walk run).
Proof.
  destruct run as [|e run]; [congruence|]. intros _ H. inversion H as [|? ? [He1 He2] HR]; subst. unfold walk. cbn [map glue].
  rewrite app_length. split; [lia|]. apply Forall_app. split; [exact He2|]. clear -HR.
  induction HR as [|x run [_ Hx] HR IH]; [constructor|]. cbn [map concat]. apply Forall_app. split; [|exact IH].
  destruct (ne_points x); [constructor|]. inversion Hx; assumption.
Qed.

Lemma joined_sane es out : joined es out -> Forall sane es -> Forall sane out.
Proof.
  intros (runs & R & F) H. apply (Permutation_Forall (rotation_perm _ _ R)) in H. clear R es.
  induction F as [|run e runs out (N & _ & E) F IH]; [constructor|]. cbn [concat] in H. apply Forall_app in H as [H1 H2].
  constructor; [|auto]. unfold sane. rewrite E. apply sane_walk; assumption.
Qed.

Lemma close_in c z : In z (close c) <-> In z c.
Proof. destruct c as [|a c]; [reflexivity|]. unfold close. rewrite in_app_iff. cbn. tauto. Qed.

Lemma turned_sane e e' : turned (ne_points e) (ne_points e') -> sane e -> sane e'.
Proof.
  intros (l & r & E & E') [HL HP]. assert (L : length (close (l ++ r)) = length (close (r ++ l))).
  { assert (X : forall c : list point, length (close c) = match c with [] => 0%nat | _ => S (length c) end).
    { intros [|a c]; [reflexivity|]. unfold close. rewrite app_length. cbn. lia. }
    rewrite !X. pose proof (app_length l r). pose proof (app_length r l). destruct (l ++ r), (r ++ l); cbn [length] in *; lia. }
  split; [rewrite E', <- L, <- E; exact HL|]. rewrite Forall_forall in *. intros z Hz. apply HP. rewrite E. rewrite E' in Hz.
  apply (proj1 (close_in _ z)) in Hz. apply (proj2 (close_in _ z)). apply in_app_iff. apply in_app_iff in Hz. tauto.
Qed.

Lemma tidied_sane es out : tidied es out -> Forall sane es -> Forall sane out.
Proof.
  intros [H|(e & e' & H & -> & _ & T)] HS; [eapply joined_sane; eassumption|]. apply (joined_sane _ _ H) in HS.
  inversion HS; subst. constructor; [|constructor]. eapply turned_sane; eassumption.
Qed.

Lemma slice_incl {A} (l : list A) a b z : In z (slice l a b) -> In z l.
Proof.
  unfold slice. intros H. rewrite <- (firstn_skipn a l). apply in_app_iff. right. rewrite <- (firstn_skipn (b - a) (skipn a l)).
  apply in_app_iff. left. exact H.
Qed.

Lemma rotate_island_sane e : sane e -> rotate_island_edge e = Panic PAssert \/ exists e', rotate_island_edge e = Ok e' /\ sane e'.
Proof.
  intros [HL HP]. unfold rotate_island_edge. destruct (min_index (ne_points e)) as [[|j]|] eqn:Ej.
  - right. exists e. split; [reflexivity|split; assumption].
  - apply min_index_ok in Ej as (p & Np & _). assert (Hj : (S j < length (ne_points e))%nat) by (apply nth_error_Some; congruence).
    assert (G : forall k, (k < length (ne_points e))%nat -> exists x, get (ne_points e) k = Ok x).
    { intros k Hk. unfold get, get_or. destruct (nth_error (ne_points e) k) eqn:E; [eauto|]. apply nth_error_None in E. lia. }
    destruct (G 0%nat ltac:(lia)) as (a & ->). destruct (G (length (ne_points e) - 1)%nat ltac:(lia)) as (b & ->). cbn [bind].
    unfold rassert. destruct (pt_eqb a b); cbn [bind]; [|left; reflexivity]. right. eexists. split; [reflexivity|]. split; cbn [ne_points].
    + rewrite app_length. unfold slice. rewrite !firstn_length, !skipn_length. lia.
    + apply Forall_forall. intros z Hz. rewrite Forall_forall in HP. apply HP. apply in_app_iff in Hz as [Hz|Hz]; eapply slice_incl; exact Hz.
  - right. exists e. split; [reflexivity|split; assumption].
Qed.

Lemma firsts_sane es : Forall sane es -> exists ps, mmap (fun e => get (ne_points e) 0) es = Ok ps /\ length ps = length es.
Proof.
  induction 1 as [|e es [He _] H (ps & IH & L)]; [exists []; auto|].
  assert (exists a, get (ne_points e) 0 = Ok a) as (a & Ea) by (destruct (ne_points e) as [|a l]; [cbn in He; lia|exists a; reflexivity]).
  exists (a :: ps). cbn [mmap]. rewrite Ea. cbn [bind]. rewrite IH. cbn. auto.
Qed.

Lemma rotate_sane es : sane_ring es -> rotate_edges es = Panic PAssert \/ exists out, rotate_edges es = Ok out /\ sane_ring out.
Proof.
  intros [N H]. destruct es as [|e [|f es]]; [congruence| |].
  - cbn [rotate_edges]. inversion H; subst. destruct (rotate_island_sane e) as [->|(e' & -> & S)]; [assumption|auto|].
    right. exists [e']. split; [reflexivity|]. split; [discriminate|]. constructor; [assumption|constructor].
  - right. unfold rotate_edges. set (l := e :: f :: es) in *. destruct (firsts_sane l H) as (ps & -> & L). cbn [bind].
    assert (X : forall i, sane_ring (skipn i l ++ firstn i l)).
    { intros i. assert (PM : Permutation l (skipn i l ++ firstn i l)) by (rewrite Permutation_app_comm, firstn_skipn; reflexivity).
      split; [|eapply Permutation_Forall; eassumption]. intros E. rewrite E in PM. apply Permutation_sym, Permutation_nil in PM. discriminate. }
    destruct (min_index ps) as [[|i]|]; eexists; (split; [reflexivity|]); try (split; assumption). apply X.
Qed.

Lemma flipped_sane es : sane_ring es -> sane_ring (flipped es).
Proof.
  intros [N H]. rewrite <- flipped_eq. split.
  - intros E. apply (f_equal (@length _)) in E. rewrite rev_length, map_length in E. destruct es; [congruence|discriminate].
  - apply Forall_rev, Forall_map. eapply Forall_impl; [|exact H]. intros e [He1 He2]. unfold sane, reverse_norm_edge. cbn [ne_points].
    rewrite rev_length. split; [assumption|]. apply Forall_rev, He2.
Qed.

(** The panics of normalization. *)
Definition norm_panics (m : mode) (p : panic) : Prop := p = PAssert \/ p = PExplicit \/ (m = Debug /\ p = POverflow).

Lemma tidy_sane m o es : Forall sane es ->
  match tidy_ring m o es with
  | Ok out => sane_ring out
  | Panic p => norm_panics m p
  end.
Proof.
  intros H. unfold tidy_ring. destruct (join_related_ok es (sane_nonempty es H)) as (es1 & -> & J & _). cbn [bind].
  apply (joined_sane _ _ J) in H. destruct (wind_edges m es1 o) as [es2|q] eqn:Ew; cbn [bind].
  - apply wind_ok in Ew as (B & NZ & _).
    assert (S1 : sane_ring es1). { split; [|assumption]. intros ->. apply NZ. reflexivity. }
    assert (S2 : sane_ring es2) by (destruct B as [->| ->]; [assumption|apply flipped_sane; assumption]).
    destruct (rotate_sane es2 S2) as [->|(out & -> & S)]; [left; reflexivity|exact S].
  - unfold wind_edges, norm_winding in Ew. destruct (norm_area m es1) as [a|q'] eqn:Ea; cbn [bind] in Ew.
    + unfold rassert in Ew. destruct (negb _); cbn [bind] in Ew; [discriminate|]. injection Ew as <-. left. reflexivity.
    + injection Ew as <-. right. right. eapply norm_area_panic; eassumption.
Qed.

Lemma keys_sane r : sane_ring r -> r <> [] /\ nonempty_pts r.
Proof. intros [N H]. split; [assumption|apply sane_nonempty; assumption]. Qed.

Lemma untouched_sane rs : Forall sane_ring rs -> Forall sane_ring (untouched rs).
Proof. rewrite !Forall_forall. intros H r Hr. apply filter_In in Hr as (Hr & _). auto. Qed.

Lemma pool_sane rs : Forall sane_ring rs -> Forall sane (pool rs).
Proof.
  intros H. apply Forall_forall. intros e He. unfold pool in He. apply in_concat in He as (u & Hu & He).
  apply in_map_iff in Hu as (r & <- & Hr). apply filter_In in Hr as (Hr & _). unfold useful in He. apply filter_In in He as (He & _).
  rewrite Forall_forall in H. destruct (H r Hr) as [_ X]. rewrite Forall_forall in X. auto.
Qed.

Lemma cycles_sane es cycles ms : Forall sane es -> cycles_of es cycles -> Forall2 from_cycle cycles ms -> Forall sane_ring ms.
Proof.
  intros H C F. destruct (cycles_good es cycles ms (sane_longs es H) C F) as (_ & G).
  assert (HC : Forall (Forall sane) cycles).
  { destruct C as (PC & _). apply Permutation_sym in PC. apply (Permutation_Forall PC) in H. clear -H.
    induction cycles; cbn [concat] in *; constructor; apply Forall_app in H as [? ?]; auto. }
  clear C. induction F as [|c out cycles ms (T & _) F IH]; [constructor|]. inversion G as [|? ? [N _] G']; inversion HC; subst.
  constructor; [|auto]. split; [exact N|]. eapply tidied_sane; eassumption.
Qed.

Lemma join_adjacent_sane rs : Forall sane_ring rs ->
  match join_adjacent_rings rs with
  | Ok out => Forall sane_ring out
  | Panic p => p = PExplicit
  end.
Proof.
  intros G. assert (L : Forall longs rs) by (eapply Forall_impl; [|exact G]; intros a [_ Ha]; apply sane_longs, Ha).
  unfold join_adjacent_rings. destruct (mfold classify_ring rs ([], [])) as [(ret & m)|q] eqn:Ec; cbn [bind].
  2:{ eapply classify_panic; eassumption. }
  apply classify_ok in Ec as (W & -> & PM); [|split; constructor|assumption]. cbn [map app] in PM |- *.
  assert (Sm : Forall sane (map snd m)) by (eapply Permutation_Forall; [symmetry; exact PM|apply pool_sane; assumption]).
  destruct m as [|kv m]; [apply untouched_sane, G|].
  destruct (rebuild (length (kv :: m)) (kv :: m) (untouched rs)) as [ret'|q] eqn:Er; cbn [bind].
  2:{ eapply rebuild_panic; [eassumption|apply sane_longs, Sm| |eassumption]. lia. }
  apply rebuild_ok in Er as (cycles & ms & -> & C & F2); [|assumption|apply sane_longs, Sm].
  pose proof (cycles_sane _ _ _ Sm C F2) as Gm. unfold norm_ring in *.
  assert (X : Forall sane_ring (untouched rs ++ ms)) by (apply Forall_app; split; [apply untouched_sane|]; assumption).
  destruct (sort_rings_ok (untouched rs ++ ms)) as (s & -> & Ps & _).
  - eapply Forall_impl; [apply keys_sane|exact X].
  - eapply Permutation_Forall; eassumption.
Qed.

(** ** Regions *)
Context {D : Type}.

Lemma seen_sane (t : topology D) r : traversable t -> all_points P t -> Forall sane (seen_ring t r).
Proof.
  intros [_ HL] HP. apply Forall_forall. intros g Hg. apply seen_edge in Hg as (d & te & _ & E & ->). apply nth_error_In in E.
  split; cbn [ne_points].
  - unfold oriented. destruct (de_dir d); [|rewrite rev_length]; apply has_length_2, HL, E.
  - apply Forall_forall. intros z Hz. apply (HP te z E). unfold oriented in Hz. destruct (de_dir d); [assumption|apply in_rev; assumption].
Qed.

Definition sane_out (r : ring) : Prop := exists es, r = into_ring es /\ sane_ring es.

Lemma side_sane m (t : topology D) o rg rs : traversable t -> all_points P t -> In rg (tp_regions t) -> incl rs (tg_outer rg ++ tg_inner rg) ->
  match normalize_region_rings m t rs o with
  | Ok out => Forall sane_out out
  | Panic p => norm_panics m p
  end.
Proof.
  intros HC HP Hg Hi. unfold normalize_region_rings. destruct (mmap (normalize_ring m t o) rs) as [nrs|q] eqn:E1; cbn [bind].
  2:{ apply mmap_panic in E1 as (r & Hr & E). rewrite (normalize_ring_eq m t o rg r (proj1 HC) Hg (Hi r Hr)) in E.
      pose proof (tidy_sane m o (seen_ring t r) (seen_sane t r HC HP)) as H. rewrite E in H. exact H. }
  assert (G : Forall sane_ring nrs).
  { assert (F : Forall2 (fun _ out => sane_ring out) rs nrs).
    { eapply Forall2_mmap; [eassumption|]. intros r out Hr E. rewrite (normalize_ring_eq m t o rg r (proj1 HC) Hg (Hi r Hr)) in E.
      pose proof (tidy_sane m o (seen_ring t r) (seen_sane t r HC HP)) as H. rewrite E in H. exact H. }
    clear -F. induction F; constructor; assumption. }
  pose proof (join_adjacent_sane nrs G) as H. destruct (join_adjacent_rings nrs) as [js|q]; cbn [bind]; [|right; left; exact H].
  destruct (sort_rings_ok js) as (s & Es & Ps & _); [eapply Forall_impl; [apply keys_sane|exact H]|].
  unfold norm_ring in *. rewrite Es. cbn [bind]. apply (Permutation_Forall Ps) in H. clear -H. induction H; constructor; [|assumption].
  eexists. split; [reflexivity|assumption].
Qed.

Lemma region_sane m (t : topology D) rg : traversable t -> all_points P t -> In rg (tp_regions t) ->
  match normalize_region m t rg with
  | Ok g => Forall sane_out (rg_outer g ++ rg_inner g)
  | Panic p => norm_panics m p
  end.
Proof.
  intros HC HP Hg. unfold normalize_region.
  pose proof (side_sane m t Clockwise rg (tg_outer rg) HC HP Hg (incl_appl _ (incl_refl _))) as Ho.
  destruct (normalize_region_rings m t (tg_outer rg) Clockwise) as [o|q]; cbn [bind]; [|exact Ho].
  pose proof (side_sane m t CounterClockwise rg (tg_inner rg) HC HP Hg (incl_appr _ (incl_refl _))) as Hi.
  destruct (normalize_region_rings m t (tg_inner rg) CounterClockwise) as [i|q]; cbn [bind]; [|exact Hi].
  apply Forall_app. auto.
Qed.

Lemma normalize_sane m (t : topology D) : traversable t -> all_points P t ->
  match normalize m t with
  | Ok t' => traversable t' /\ all_points P t'
  | Panic p => norm_panics m p
  end.
Proof.
  intros HC HP. destruct (normalize m t) as [t'|p] eqn:E.
  - apply normalize_Ok in E as (gs & Eg & B). split.
    + split; [apply build_topology_ok in B as (b & _ & _ & Hx & _); exact Hx|]. intros e He.
      destruct (built_edge m gs t' e B He) as (g & r & ps & Hg & Hr & Hp & HL & [->| ->]); [exact HL|].
      rewrite has_length_rev. exact HL.
    + intros e z He Hz. destruct (built_edge m gs t' e B He) as (g & r & ps & Hg & Hr & Hp & HL & Ee).
      assert (In z ps) as Hz' by (destruct Ee as [Ee|Ee]; rewrite Ee in Hz; [assumption|apply in_rev; assumption]).
      assert (F : Forall2 (fun _ g => Forall sane_out (rg_outer g ++ rg_inner g)) (tp_regions t) gs).
      { eapply Forall2_mmap; [eassumption|]. intros rg x Hrg Ex. pose proof (region_sane m t rg HC HP Hrg) as H. rewrite Ex in H. exact H. }
      destruct (Forall2_in_r _ _ _ g F Hg) as (rg & _ & HS). rewrite Forall_forall in HS. destruct (HS r Hr) as (es & -> & _ & Hes).
      cbn [paths into_ring] in Hp. apply in_map_iff in Hp as (x & <- & Hx). rewrite Forall_forall in Hes.
      destruct (Hes x Hx) as [_ Hall]. rewrite Forall_forall in Hall. apply Hall, Hz'.
  - unfold normalize in E. destruct (mfold _ (tp_regions t) builder_new) as [b|q] eqn:Eb; cbn [bind] in E.
    + assert (exists gs, add_regions m builder_new gs = Ok b) as (gs & A).
      { destruct (mmap (normalize_region m t) (tp_regions t)) as [gs|q] eqn:Em.
        - rewrite normalize_loop, Em in Eb. eauto.
        - destruct (normalize_loop_panic m t (tp_regions t) builder_new q Em) as (p' & Ep). congruence. }
      left. apply (into_topology_iff m gs b A) in E. exact E.
    + injection E as <-. clear -HC HP Eb.
      assert (X : forall rgs b, incl rgs (tp_regions t) -> mfold (fun b rg => g <- normalize_region m t rg ;; add_region m b g) rgs b = Panic q -> norm_panics m q).
      { induction rgs as [|rg rgs IH]; intros b Hi H; cbn [mfold] in H; [discriminate|].
        pose proof (region_sane m t rg HC HP (Hi rg (or_introl eq_refl))) as HR. destruct (normalize_region m t rg) as [g|q']; cbn [bind] in H.
        - destruct (add_region m b g) as [b1|q'] eqn:Ea; cbn [bind] in H.
          + apply (IH b1); [intros x Hx; apply Hi; right; exact Hx|exact H].
          + injection H as ->. right. right. eapply add_region_panic; eassumption.
        - injection H as ->. exact HR. }
      exact (X _ _ (incl_refl _) Eb).
Qed.
End Points.
