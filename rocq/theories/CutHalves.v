(** * CutHalves: what the two halves of a map enclose *)
From Verif Require Import GeoProofs TopoProofs BuildProofs ClipEdgeProofs ClipTopoProofs ClipTopoLaws ComposeProofs NormProofs NormTopo NormLaws PlaceSpec PlaceProofs PlaceClip PlaceLaws ClipAreaSpec ClipArea CutSpec CutProofs CutTopo.
Open Scope Z_scope.

Lemma wf_mask_other k : wf_mask k -> wf_mask (other_side k).
Proof. destruct k; exact (fun H => H). Qed.

Lemma inside_place_other k z : inside_place (other_side k) z <-> outside_place k z.
Proof. destruct k; reflexivity. Qed.
Lemma outside_place_other k z : outside_place (other_side k) z <-> inside_place k z.
Proof. destruct k; reflexivity. Qed.

Lemma cut_edges_other {D} k (t : topology D) : cut_edges (other_side k) t = cut_edges k t.
Proof. unfold cut_edges. f_equal. apply map_ext. intros e. rewrite add_points_other. reflexivity. Qed.

Section Halves.
Context {D : Type}.
Variables (k : clip_mask) (t : topology D).
Hypothesis Hk : wf_mask k.
Hypothesis Ht : wf_topology t.
Hypothesis HS : small_steps t.
Let w := cut_edges k t.

Lemma no_slack r : area_slack k (map ne_points (seen_ring w r)) = 0.
Proof.
  unfold area_slack. assert (A : forall s, In s (flat_map segments (map ne_points (seen_ring w r))) -> slack k s = 0).
  { intros s Hs. pose proof (all_segments (map ne_points (seen_ring w r))) as F. rewrite Forall_forall in F. destruct (F s Hs) as (p & q & ->).
    apply in_flat_map in Hs as (ps & Hps & Hin). apply in_map_iff in Hps as (e & <- & He).
    apply in_flat_map in He as (d & _ & He). unfold seen in He. destruct (nth_error (tp_edges w) (de_edge d)) as [te|] eqn:E; [|destruct He].
    destruct He as [<-|[]]. cbn [ne_points] in Hin. apply nth_error_In in E.
    assert (N : ~ opposite k p q).
    { unfold oriented in Hin. destruct (de_dir d); [eapply cut_no_crossing; eassumption|].
      rewrite segments_rev in Hin. apply in_map_iff in Hin as (s & Es & Hin). apply in_rev in Hin. destruct (segments_pairs _ _ Hin) as (a & b & ->).
      injection Es as <- <-. intros Ho. apply (cut_no_crossing k t Hk Ht HS te a b E Hin). unfold opposite in *. tauto. }
    cbn [slack]. unfold between_points. fold (crosses k p q). destruct (crosses_spec k p q); [contradiction|reflexivity]. }
  induction (flat_map segments (map ne_points (seen_ring w r))) as [|s ss IH]; [reflexivity|]. cbn [map sum fold_right].
  change (fold_right Z.add 0) with sum. rewrite IH, (A s) by (intros; try apply A; cbn; auto). reflexivity.
Qed.

Lemma cut_good_place z : off_edges z w -> good_place k w z.
Proof.
  intros HO e p q He Hin. split; [eapply cut_small_steps; eassumption|]. split.
  - intros Ho. exfalso. eapply cut_no_crossing; eassumption.
  - apply HO. apply in_flat_map. exists (te_points e). split; [apply in_map, He|exact Hin].
Qed.

Lemma half_winding m C r z : clips m k t C -> inside_place k z -> off_edges z w -> closed_chain (map ne_points (seen_ring t r)) ->
  winding_number z (map pc_path (clipped_ring C r)) = winding_number z (map ne_points (seen_ring w r)).
Proof.
  intros HC Hz HO HCl. destruct (clips_cut k t Hk Ht HS m C HC) as (C' & HC' & HA). rewrite (winding_alike C C' HA z r).
  pose proof (cut_good_place z HO) as HG.
  eapply clipped_ring_winding; [exact Hz|exact HC'| | |].
  - apply good_fine; [exact Hk|apply cut_wf_topology; assumption|exact HG].
  - eapply seen_off. exact HG.
  - apply (closed_cut k t Hk Ht HS), HCl.
Qed.

Lemma half_side m C z rs : clips m k t C -> inside_place k z -> off_edges z w ->
  (forall r, In r rs -> closed_chain (map ne_points (seen_ring t r))) ->
  exists lost, Forall flat lost /\
    winding_number z (rings_paths w rs) =
    winding_number z (present (concat (map read_pieces (clipped_rings C rs)))) + winding_number z (concat lost).
Proof.
  intros HC Hz HG HR. induction rs as [|r rs IH]; [exists []; split; [constructor|reflexivity]|].
  destruct IH as (lost & F & E); [intros x Hx; apply HR; right; exact Hx|].
  pose proof (half_winding m C r z HC Hz HG (HR r (or_introl eq_refl))) as HW.
  assert (HP : forall ps, present (read_pieces ps) = map pc_path ps).
  { intros ps. unfold read_pieces. rewrite <- (map_map pc_path Some). apply present_some. }
  unfold rings_paths, clipped_rings in *. cbn [flat_map filter]. rewrite winding_app, E.
  destruct (ring_kept C r) eqn:Ek; cbn [map concat].
  - exists lost. split; [assumption|]. rewrite present_app, winding_app, HP, HW. lia.
  - destruct (clipped_ring C r) as [|p ps] eqn:Er.
    + exists lost. split; [assumption|]. rewrite <- HW. cbn. lia.
    + rewrite <- Er in *. exists (map pc_path (clipped_ring C r) :: lost). split.
      * constructor; [|assumption]. split; [apply clipped_ring_closed; rewrite Er; discriminate|].
        unfold ring_kept in Ek. apply negb_false_iff, Z.eqb_eq in Ek. exact Ek.
      * cbn [concat]. rewrite winding_app, HW. lia.
Qed.

Lemma half_map m t' z : closed_rings t -> clip_topology m t k = Ok t' -> inside_place k z -> off_edges z w -> half_of w t t' z.
Proof.
  intros HR H Hz HG. apply clip_topology_ok in H as (C & b & HC & Hb & _ & HRg & HE).
  pose proof (clip_read C b _ t' Hb HRg HE) as ER.
  exists (map (fun rg => if region_kept C rg then [clipped_shape C rg] else []) (tp_regions t)). split.
  - rewrite ER. unfold clipped_topology. clear. induction (tp_regions t) as [|rg rgs IH]; [reflexivity|]. cbn [filter map concat].
    destruct (region_kept C rg); cbn [map app]; rewrite IH; reflexivity.
  - assert (X : forall rgs, incl rgs (tp_regions t) -> Forall2 (fun rg part => (length part <= 1)%nat /\ (forall s, In s part -> s_data s = tg_data rg) /\
      exists lost_o lost_i, Forall flat lost_o /\ (part <> [] -> Forall flat lost_i) /\
      winding_number z (rings_paths w (tg_outer rg)) =
        winding_number z (present (concat (flat_map s_outer part))) + winding_number z (concat lost_o) /\
      winding_number z (rings_paths w (tg_inner rg)) =
        winding_number z (present (concat (flat_map s_inner part))) + winding_number z (concat lost_i)) rgs
      (map (fun rg => if region_kept C rg then [clipped_shape C rg] else []) rgs)); [|apply X, incl_refl].
    intros rgs. induction rgs as [|rg rgs IH]; intros I; constructor; [|apply IH; intros x Hx; apply I; right; exact Hx].
    assert (Hg : In rg (tp_regions t)) by (apply I; left; reflexivity).
    destruct (half_side m C z (tg_outer rg) HC Hz HG) as (lo & Fo & Eo).
    { intros r Hr. apply (HR rg r Hg). apply in_app_iff. auto. }
    destruct (half_side m C z (tg_inner rg) HC Hz HG) as (li & Fi & Ei).
    { intros r Hr. apply (HR rg r Hg). apply in_app_iff. auto. }
    destruct (region_kept C rg) eqn:Ek.
    + split; [cbn; lia|]. split; [intros s [<-|[]]; reflexivity|]. exists lo, li. split; [assumption|]. split; [auto|].
      cbn [flat_map clipped_shape s_outer s_inner]. rewrite !app_nil_r. auto.
    + split; [cbn; lia|]. split; [intros s []|]. exists lo, [rings_paths w (tg_inner rg)]. split; [assumption|]. split; [congruence|].
      cbn [flat_map]. rewrite Eo. split; [|cbn [concat]; rewrite app_nil_r; reflexivity].
      rewrite (region_not_kept C rg Ek). reflexivity.
Qed.

End Halves.

Lemma halves_areas {D} m m' k (t : topology D) C C' r : wf_mask k -> wf_topology t -> small_steps t ->
  clips m k t C -> clips m' (other_side k) t C' -> closed_chain (map ne_points (seen_ring t r)) ->
  clipped_area C r + clipped_area C' r = shoelaces (map ne_points (seen_ring (cut_edges k t) r)).
Proof.
  intros Hk Ht HS HC HC' HR.
  destruct (clips_cut k t Hk Ht HS m C HC) as (E & HE & HA).
  destruct (clips_cut (other_side k) t (wf_mask_other k Hk) Ht HS m' C' HC') as (E' & HE' & HA').
  rewrite (area_alike C E HA), (area_alike C' E' HA'). rewrite cut_edges_other in HE'.
  pose proof (both_sides m m' k (cut_edges k t) E E' r Hk (cut_wf_topology k t Hk Ht HS) (cut_small_steps k t Hk Ht HS) HE HE' (closed_cut k t Hk Ht HS r HR)) as B.
  rewrite (no_slack k t Hk Ht HS r) in B. pose proof (no_slack (other_side k) t (wf_mask_other k Hk) Ht HS r) as N. rewrite cut_edges_other in N. rewrite N in B. lia.
Qed.
