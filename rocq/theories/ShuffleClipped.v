(** * ShuffleClipped: the clipped topologies are the same apart from numbers *)
From Coq Require Import Permutation.
From Verif Require Import ClipTopoSpec GeoProofs TopoProofs BuildProofs NormTopo ClipEdgeProofs ClipTopoProofs ClipTopoLaws ClipTrace ClipLocal CrossProofs.
From Verif Require Import ShuffleSpec ShuffleBuild ShuffleNorm ShuffleClip.

Lemma clip_topology_full {D} m (t t' : topology D) k C : clips m k t C -> clip_topology m t k = Ok t' ->
  exists b, cb_ok C b (tp_regions t) /\ exact_references t' /\ tp_regions t' = final_regions (cb_regions b) /\
    map te_points (tp_edges t') = pts_of C (cb_new b) /\ keys (cb_new b) = add_keys [] (seen_pieces C (tp_regions t)).
Proof.
  intros HC0 H. unfold clip_topology, cbuilder_new in H. apply bind_Ok in H as (b0 & H0 & H). apply bind_Ok in H0 as ([fd old] & H0 & E).
  apply clip_edges_ok in H0 as (C' & HC & [= -> ->]). assert (C' = C) by (eapply clips_unique; eassumption). subst C'.
  injection E as <-. apply bind_Ok in H as (b & Hb & H).
  pose proof (cadd_regions_fwd C m (tp_regions t) [] _ b (cb_start_ok C) Hb) as (_ & HK).
  apply (cadd_regions_ok C m (tp_regions t) []) in Hb; [|apply cb_start_ok]. cbn [app] in Hb.
  unfold cinto_topology in H. rewrite (cinto_eq C b (tp_regions t)) in H by (try assumption; apply Permutation_refl).
  apply finish_exact in H as (X1 & X2 & X3); [|eapply cb_ids; eassumption]. exists b. auto.
Qed.

Lemma clips_other {D} m k p s (t1 t2 : topology D) C1 : renumbered p s t1 t2 -> clips m k t1 C1 -> exists C2, clips m k t2 C2 /\ clips_alike s C1 C2.
Proof.
  intros R HC. pose proof R as (_ & _ & _ & L & _ & E). destruct (renumbered_bound p s t1 t2 R) as (_ & Bs).
  exists (map (fun j => nth (s j) C1 []) (seq 0 (length (tp_edges t2)))).
  assert (LC : length C1 = length (tp_edges t2)) by (rewrite <- L; symmetry; eapply Forall2_length'; exact HC).
  assert (N : forall j, (j < length (tp_edges t2))%nat -> nth_error (map (fun j => nth (s j) C1 []) (seq 0 (length (tp_edges t2)))) j = nth_error C1 (s j)).
  { intros j Hj. rewrite nth_error_map, (nth_error_nth' _ 0%nat) by (rewrite seq_length; exact Hj). rewrite seq_nth by exact Hj. cbn [option_map Nat.add].
    symmetry. apply nth_error_nth'. rewrite LC. apply Bs, Hj. }
  split.
  - unfold clips.
    assert (Q : forall es C, length es = length C -> (forall j e c, nth_error es j = Some e -> nth_error C j = Some c -> clip_edge m k (te_points e) = Ok c) ->
      Forall2 (fun e c => clip_edge m k (te_points e) = Ok c) es C).
    { clear. induction es as [|e es IH]; intros [|c C] L H; try discriminate; constructor; [exact (H 0%nat e c eq_refl eq_refl)|].
      apply IH; [injection L as L; exact L|]. intros j. exact (H (S j)). }
    apply Q; [rewrite map_length, seq_length; reflexivity|]. intros j e2 c E2 Ec. assert (Hj : (j < length (tp_edges t2))%nat) by (apply nth_error_Some; congruence).
    rewrite (N j Hj) in Ec. destruct (E j e2 E2) as (e1 & E1 & P). rewrite <- P. clear -HC E1 Ec. unfold clips in HC.
    revert E1 Ec. generalize (s j) as i. induction HC as [|a b l l' H F IH]; intros [|i] E1 Ec; try discriminate; cbn in *; [congruence|eapply IH; eassumption].
  - split; [rewrite map_length, seq_length; exact LC|]. intros j Hj. rewrite map_length, seq_length in Hj. symmetry. apply N, Hj.
Qed.

Section Clipped.
Context {D : Type}.
Variables (p s : nat -> nat) (t1 t2 : topology D) (C1 C2 : list (list point)).
Hypothesis X2 : exact_references t2.
Hypothesis R : renumbered p s t1 t2.
Hypothesis A : clips_alike s C1 C2.
Hypothesis L : length C2 = length (tp_edges t2).

Lemma below2 g2 r : In g2 (tp_regions t2) -> In r (tg_outer g2 ++ tg_inner g2) -> uses_below C2 r.
Proof. intros G H d Hd. rewrite L. exact (region_edge_bound t2 g2 r d X2 G H Hd). Qed.
Lemma perm_regions {B} (f g : topo_region D -> list B) :
  (forall g1 g2, In g2 (tp_regions t2) -> renumbered_region s g1 g2 -> f g1 = g g2) -> Permutation (flat_map f (tp_regions t1)) (flat_map g (tp_regions t2)).
Proof.
  intros H. apply perm_flat, (perm_by2 _ _ p); [apply R|apply R|]. intros i g2 G2. pose proof R as (_ & _ & _ & _ & G & _).
  destruct (G i g2 G2) as (g1 & G1 & RR). exists g1. split; [exact G1|]. apply H; [apply nth_error_In in G2; exact G2|exact RR].
Qed.
Lemma perm_surviving : Permutation (surviving_pieces C1 (tp_regions t1)) (map (other_piece s) (surviving_pieces C2 (tp_regions t2))).
Proof.
  rewrite !surviving_flat, <- map_flat. apply perm_regions. intros g1 g2 G2 RR. apply (region_pieces_other s C1 C2 (proj2 A) g1 g2 RR). intros r. apply below2, G2.
Qed.
Lemma perm_seen : Permutation (seen_pieces C1 (tp_regions t1)) (map (other_piece s) (seen_pieces C2 (tp_regions t2))).
Proof.
  rewrite !seen_flat, <- map_flat. apply perm_regions. intros g1 g2 G2 RR. apply (ring_pieces_other s C1 C2 (proj2 A) g1 g2 RR). intros r. apply below2, G2.
Qed.
Lemma count_other k : (count_key k (surviving_pieces C2 (tp_regions t2)) = count_key (other_key s k) (surviving_pieces C1 (tp_regions t1)))%nat.
Proof.
  unfold count_key. pose proof perm_surviving as P. apply (Permutation_map pc_key) in P. rewrite (proj1 (Permutation_count_occ use_key_eq_dec _ _) P).
  rewrite map_map. change (fun x => pc_key (other_piece s x)) with (fun x => other_key s (pc_key x)). rewrite <- (map_map pc_key (other_key s)).
  apply count_occ_map, other_key_inj, R.
Qed.
Lemma all_can_clip m : Forall (can_clip m C1) (tp_regions t1) -> Forall (can_clip m C2) (tp_regions t2).
Proof.
  rewrite !Forall_forall. intros H g2 G2. pose proof G2 as G2'. apply In_nth_error in G2 as (i & G2). pose proof R as (_ & _ & _ & _ & G & _).
  destruct (G i g2 G2) as (g1 & G1 & RR). apply (can_clip_other s C1 C2 (proj2 A) g1 g2 RR); [intros r; apply below2, G2'|]. apply H. apply nth_error_In in G1. exact G1.
Qed.

(** The regions that stay, with the origins of their edges. *)
Definition kept_shape (h : piece -> piece) (C : list (list point)) (rg : topo_region D) : list (D * list (list piece) * list (list piece)) :=
  if region_kept C rg then [(tg_data rg, map (map h) (clipped_rings C (tg_outer rg)), map (map h) (clipped_rings C (tg_inner rg)))] else [].
Lemma perm_kept : Permutation (flat_map (kept_shape (fun x => x) C1) (tp_regions t1)) (flat_map (kept_shape (other_piece s) C2) (tp_regions t2)).
Proof.
  apply perm_regions. intros g1 g2 G2 RR. assert (B : forall r, In r (tg_outer g2 ++ tg_inner g2) -> uses_below C2 r) by (intros r; apply below2, G2).
  unfold kept_shape. rewrite (region_kept_other s C1 C2 (proj2 A) g1 g2 RR B), (outer_other s C1 C2 (proj2 A) g1 g2 RR B), (inner_other s C1 C2 (proj2 A) g1 g2 RR B), (proj1 RR).
  assert (I : forall l : list (list piece), map (map (fun x => x)) l = l) by (intros l; rewrite <- (map_id l) at 2; apply map_ext; intros a; apply map_id).
  rewrite !I. reflexivity.
Qed.
Lemma kept_flat h C (l : list (topo_region D)) : flat_map (kept_shape h C) l =
  map (fun rg => (tg_data rg, map (map h) (clipped_rings C (tg_outer rg)), map (map h) (clipped_rings C (tg_inner rg)))) (filter (region_kept C) l).
Proof. unfold kept_shape. induction l as [|g l IH]; [reflexivity|]. cbn [flat_map filter]. destruct (region_kept C g); cbn [map app]; rewrite IH; reflexivity. Qed.

Lemma perm_origins K1 K2 : NoDup (origins C1 K1) -> NoDup (origins C2 K2) ->
  K1 = add_keys [] (seen_pieces C1 (tp_regions t1)) -> K2 = add_keys [] (seen_pieces C2 (tp_regions t2)) ->
  Permutation (origins C1 K1) (map (other_key s) (origins C2 K2)).
Proof.
  intros N1 N2 E1 E2. apply NoDup_Permutation; [exact N1|apply Injective_map_NoDup; [apply other_key_inj, R|exact N2]|].
  assert (GK : forall ab, In ab K1 <-> In ab K2).
  { intros ab. subst K1 K2. rewrite !add_keys_iff. cbn [In].
    assert (Q : Permutation (flat_map gap_key (seen_pieces C1 (tp_regions t1))) (flat_map gap_key (seen_pieces C2 (tp_regions t2)))).
    { rewrite perm_seen. clear. induction (seen_pieces C2 (tp_regions t2)) as [|x l IH]; [constructor|]. cbn [map flat_map]. apply Permutation_app; [|exact IH].
      unfold gap_key. destruct x as [[i|a b] d q]; apply Permutation_refl. }
    split; (intros [[]|H]; right); [apply (Permutation_in _ Q H)|apply (Permutation_in _ (Permutation_sym Q) H)]. }
  assert (Bs : bSurjective (length C2) s).
  { destruct (renumbered_bound p s t1 t2 R) as (_ & Bs). rewrite L. apply (proj1 (bInjective_bSurjective Bs)). intros x y _ _. apply R. }
  assert (OK : forall i, In i (olds 0 C1) <-> exists j, i = s j /\ In j (olds 0 C2)).
  { destruct A as (LA & HA). intros i. rewrite olds_in. split.
    - intros (q & c & -> & H & Bc). cbn [Nat.add]. assert (Hq : (q < length C2)%nat) by (rewrite <- LA; apply nth_error_Some; congruence).
      destruct (Bs q Hq) as (j & Hj & <-). exists j. split; [reflexivity|]. apply olds_in. exists j, c. split; [reflexivity|]. rewrite <- (HA j Hj). auto.
    - intros (j & -> & H). apply olds_in in H as (q & c & -> & H & Bc). cbn [Nat.add] in *. exists (s q), c. split; [reflexivity|].
      rewrite (HA q) by (apply nth_error_Some; congruence). auto. }
  intros k. unfold origins. rewrite map_app, !in_app_iff, !map_map, !in_map_iff. split.
  - intros [(i & <- & H)|(ab & <- & H)].
    + left. apply OK in H as (j & -> & H). exists j. auto.
    + right. exists ab. split; [reflexivity|apply GK, H].
  - intros [(j & <- & H)|(ab & <- & H)].
    + left. exists (s j). split; [reflexivity|]. apply OK. eauto.
    + right. exists ab. split; [reflexivity|apply GK, H].
Qed.
Lemma origin_points_other k K2 : In k (origins C2 K2) -> origin_points C1 (other_key s k) = origin_points C2 k.
Proof.
  intros H. unfold origins in H. apply in_app_iff in H as [H|H]; apply in_map_iff in H as (x & <- & H); [|reflexivity].
  apply olds_in in H as (j & c & -> & Hc & _). destruct A as (_ & HA). cbn [other_key origin_points Nat.add].
  assert (Hj : (j < length C2)%nat) by (apply nth_error_Some; congruence). specialize (HA j Hj). rewrite Hc in HA.
  rewrite (nth_error_nth _ _ _ Hc). apply nth_error_nth. exact HA.
Qed.

Lemma realised_same s' s1 s2 K1 K2 : nes_ok C1 s1 -> nes_ok C2 s2 -> K1 = keys s1 -> K2 = keys s2 ->
  (forall n, nth_error (map (other_key s) (origins C2 K2)) n = nth_error (origins C1 K1) (s' n)) ->
  forall bs1 bs2 X2', Forall2 (Forall2 (realises C1 s1)) bs1 (map (map (other_piece s)) X2') -> Forall2 (Forall2 (realises C2 s2)) bs2 X2' ->
  Forall2 (Forall2 (same_use s')) bs1 bs2.
Proof.
  intros N1 N2 -> -> HS.
  assert (U : forall d1 d2 x, realises C1 s1 d1 (other_piece s x) -> realises C2 s2 d2 x -> same_use s' d1 d2).
  { intros d1 d2 x (I1 & D1 & _) (I2 & D2 & _). split; [|rewrite D1, D2; reflexivity]. cbn [other_piece pc_key] in I1.
    apply (idx_origins C1 s1 _ _ N1) in I1. apply (idx_origins C2 s2 _ _ N2) in I2. specialize (HS (de_edge d2)). rewrite nth_error_map, I2 in HS. cbn [option_map] in HS.
    apply (NoDup_nth_error (origins C1 (keys s1))); [apply origins_nodup, N1|apply nth_error_Some; congruence|congruence]. }
  assert (V : forall b1 b2 x, Forall2 (realises C1 s1) b1 (map (other_piece s) x) -> Forall2 (realises C2 s2) b2 x -> Forall2 (same_use s') b1 b2).
  { intros b1 b2 x. revert b1 b2. induction x as [|y x IH]; intros b1 b2 F1 F2; inversion F1; inversion F2; subst; constructor; [eapply U; eassumption|apply IH; assumption]. }
  intros bs1 bs2 x. revert bs1 bs2. induction x as [|y x IH]; intros b1 b2 F1 F2; inversion F1; inversion F2; subst; constructor; [eapply V; eassumption|apply IH; assumption].
Qed.
End Clipped.

Lemma Forall2_nth_l {A B} (P : A -> B -> Prop) l l' i a : Forall2 P l l' -> nth_error l i = Some a -> exists b, nth_error l' i = Some b /\ P a b.
Proof. intros F. revert i. induction F as [|x y l l' H F IH]; intros [|i] E; try discriminate; cbn in *; [injection E as <-; eauto|apply IH, E]. Qed.
Lemma Forall2_nth_r {A B} (P : A -> B -> Prop) l l' i b : Forall2 P l l' -> nth_error l' i = Some b -> exists a, nth_error l i = Some a /\ P a b.
Proof. intros F. revert i. induction F as [|x y l l' H F IH]; intros [|i] E; try discriminate; cbn in *; [injection E as <-; eauto|apply IH, E]. Qed.

Theorem clip_shuffled {D} m k (t1 t2 t1' : topology D) : shuffled t1 t2 -> clip_topology m t1 k = Ok t1' ->
  exists t2', clip_topology m t2 k = Ok t2' /\ shuffled t1' t2'.
Proof.
  intros (X1 & X2 & p & s & R) H1. destruct (clip_topology_ok m t1 t1' k H1) as (C1 & _ & HC1 & _).
  destruct (clips_other m k p s t1 t2 C1 R HC1) as (C2 & HC2 & A).
  assert (L : length C2 = length (tp_edges t2)) by (symmetry; eapply Forall2_length'; exact HC2).
  destruct (proj1 (clip_returns_iff m t1 k C1 HC1) (ex_intro _ t1' H1)) as (CC & CK).
  destruct (proj2 (clip_returns_iff m t2 k C2 HC2)) as (t2' & H2).
  { split; [apply (all_can_clip p s t1 t2 C1 C2 X2 R A L m CC)|]. intros key. rewrite (count_other p s t1 t2 C1 C2 X2 R A L). apply CK. }
  exists t2'. split; [exact H2|].
  destruct (clip_topology_full m t1 t1' k C1 HC1 H1) as (b1 & B1 & Y1 & G1 & E1 & K1).
  destruct (clip_topology_full m t2 t2' k C2 HC2 H2) as (b2 & B2 & Y2 & G2 & E2 & K2).
  split; [exact Y1|]. split; [exact Y2|]. destruct B1 as (_ & _ & N1 & F1 & _), B2 as (_ & _ & N2 & F2 & _).
  pose proof (perm_origins p s t1 t2 C1 C2 X2 R A L _ _ (origins_nodup C1 _ N1) (origins_nodup C2 _ N2) K1 K2) as PO.
  pose proof (perm_kept p s t1 t2 C1 C2 X2 R A L) as PK. rewrite !kept_flat in PK.
  apply Permutation_nth_error in PO as (LO & s' & Is & HS). apply Permutation_nth_error in PK as (LK & p' & Ip & HP). rewrite !map_length in LK, LO.
  rewrite origins_points in E1, E2.
  exists p', s'. split; [exact Ip|]. split; [exact Is|]. split; [|split; [|split]].
  - rewrite G1, G2. unfold final_regions, enumerate. rewrite !map_length, !combine_length, !seq_length, !Nat.min_id.
    rewrite (Forall2_length' _ _ _ F1), (Forall2_length' _ _ _ F2). rewrite map_length in LK. exact LK.
  - rewrite <- (map_length te_points (tp_edges t1')), <- (map_length te_points (tp_edges t2')), E1, E2, !map_length. exact LO.
  - intros i g2 Hg. rewrite G2 in Hg. unfold final_regions in Hg. rewrite nth_error_map, nth_error_enumerate in Hg.
    destruct (nth_error (cb_regions b2) i) as [br2|] eqn:Eb2; [|discriminate]. cbn [option_map] in Hg. injection Hg as <-.
    destruct (Forall2_nth_l _ _ _ i br2 F2 Eb2) as (rg2 & Er2 & (Q1 & Q2 & Q3)).
    specialize (HP i). rewrite !nth_error_map, Er2 in HP. cbn [option_map] in HP.
    destruct (nth_error (filter (region_kept C1) (tp_regions t1)) (p' i)) as [rg1|] eqn:Er1; [|discriminate]. cbn [option_map] in HP. injection HP as HD HO HI.
    destruct (Forall2_nth_r _ _ _ (p' i) rg1 F1 Er1) as (br1 & Eb1 & (P1 & P2 & P3)).
    assert (I : forall l : list (list piece), map (map (fun x => x)) l = l) by (intros l; rewrite <- (map_id l) at 2; apply map_ext; intros a; apply map_id).
    rewrite I in HO, HI. rewrite <- HO in P2. rewrite <- HI in P3.
    exists (final_region (p' i, br1)). split; [rewrite G1; unfold final_regions; rewrite nth_error_map, nth_error_enumerate, Eb1; reflexivity|].
    pose proof (realised_same s C1 C2 s' (cb_new b1) (cb_new b2) _ _ N1 N2 eq_refl eq_refl HS) as RS.
    unfold final_region. cbn [fst snd]. split; [cbn; congruence|]. split; cbn [tg_outer tg_inner].
    + apply (Forall2_map2 (Forall2 (same_use s'))); [exact (RS _ _ _ P2 Q2)|]. intros a b W. exact W.
    + apply (Forall2_map2 (Forall2 (same_use s'))); [exact (RS _ _ _ P3 Q3)|]. intros a b W. exact W.
  - intros j e2 He. assert (M2 : nth_error (map te_points (tp_edges t2')) j = Some (te_points e2)) by (rewrite nth_error_map, He; reflexivity).
    rewrite E2, nth_error_map in M2. destruct (nth_error (origins C2 (keys (cb_new b2))) j) as [key|] eqn:Ek; [|discriminate]. cbn [option_map] in M2. injection M2 as M2.
    specialize (HS j). rewrite nth_error_map, Ek in HS. cbn [option_map] in HS.
    assert (M1 : nth_error (map te_points (tp_edges t1')) (s' j) = Some (origin_points C1 (other_key s key))) by (rewrite E1, nth_error_map, <- HS; reflexivity).
    rewrite nth_error_map in M1. destruct (nth_error (tp_edges t1') (s' j)) as [e1|]; [|discriminate]. exists e1. split; [reflexivity|]. cbn [option_map] in M1. injection M1 as M1.
    rewrite M1, <- M2. apply (origin_points_other s C1 C2 A key (keys (cb_new b2))). apply nth_error_In in Ek. exact Ek.
Qed.
