(** * PlaceProps: C80-C83, the places that regions cover *)
From Verif Require Import NormLaws NormProps ClipTopoProps PlaceSpec PlaceProofs PlaceClip PlaceLaws PlacePipe.

(** ** C80: winding numbers, and building *)

(** Any of the four rays gives the same number. *)
Theorem C80_any_ray : forall d z es, off z es -> closed_chain es -> winds_by d z es = winding_number z es.
Proof. intros d z es. exact (any_ray d East z es). Qed.
Print Assumptions C80_any_ray.

(** Places beyond all points are not surrounded. *)
Theorem C80_far_away : forall d z es, closed_chain es ->
  (forall e p, In e es -> In p e -> ahead d z p < 0) -> off z es /\ winding_number z es = 0.
Proof. intros d z es HC H. split; [apply (behind_off d z es H)|exact (behind_winding d z es HC H)]. Qed.
Print Assumptions C80_far_away.

(** The opposite direction gives the opposite number, another start the same. *)
Theorem C80_direction : forall z es, winding_number z (map (@rev point) (rev es)) = - winding_number z es.
Proof. intros z es. unfold winding_number. rewrite !winds_tally. apply tally_rev, crossing_odd. Qed.
Print Assumptions C80_direction.

Theorem C80_start : forall z a b, turned a b -> winding_number z [a] = winding_number z [b].
Proof. intros z a b H. unfold winding_number. rewrite !winds_tally. apply tally_turned, H. Qed.
Print Assumptions C80_start.

(** Building: region by region, the rings wind around each place as those of the input do,
    except for rings without area, which are left out. *)
Theorem C80_build : forall D m (rs : list (region D)) t, build_topology m rs = Ok t ->
  exists parts, read_topology t = concat parts /\
    Forall2 (fun rg part => (length part <= 1)%nat /\ (forall s, In s part -> s_data s = rg_data rg) /\
       exists lost_o lost_i, incl lost_o (rg_outer rg) /\ incl lost_i (rg_inner rg) /\
         Forall (fun r => has_area r = false) lost_o /\ (part <> [] -> Forall (fun r => has_area r = false) lost_i) /\
         forall z,
           winding_number z (present (concat (flat_map s_outer part))) + winding_number z (input_paths lost_o)
             = winding_number z (input_paths (rg_outer rg)) /\
           winding_number z (present (concat (flat_map s_inner part))) + winding_number z (input_paths lost_i)
             = winding_number z (input_paths (rg_inner rg))) rs parts.
Proof. intros D. exact build_winding. Qed.
Print Assumptions C80_build.

(** The centre of a square, from all sides; a place next to it; a corner; twice around. *)
Example C80_case :
  map (fun d => winds_by d (Place 1 1 2) (paths (square 0 0 1))) [East; South; West; North] = [1; 1; 1; 1] /\
  map (fun d => winds_by d (Place 3 1 2) (paths (square 0 0 1))) [East; South; West; North] = [0; 0; 0; 0] /\
  winding_number (Place 1 1 2) [[Pt 0 0; Pt 0 1; Pt 1 1; Pt 1 0; Pt 0 0]] = -1 /\
  winding_number (Place 1 1 2) (paths (square 0 0 1) ++ paths (square 0 0 1)) = 2 /\
  off (Place 1 1 2) (paths (square 0 0 1)) /\ closed_chain (paths (square 0 0 1)) /\
  ~ off (Place 0 1 2) (paths (square 0 0 1)).
Proof.
  repeat (split; [vm_compute; reflexivity|]). split; [|split].
  - intros p q H. vm_compute in H. repeat (destruct H as [H|H]; [injection H as <- <-; vm_compute; intros (X & _); discriminate|]). destruct H.
  - exists (Pt 0 0). vm_compute. repeat (split; [reflexivity|]; eexists; split; [reflexivity|]). reflexivity.
  - intros H. apply (H (Pt 0 1) (Pt 0 0)); [vm_compute; tauto|]. vm_compute. repeat split; discriminate.
Qed.

(** ** C81: normalization keeps what is covered *)
Theorem C81_covered : forall D m (t t' : topology D), valid t -> normalize m t = Ok t' ->
  by_region t t' (fun rg part => part <> [] -> exists lost, Forall flat lost /\ forall z,
    covered_by (region_paths t rg) z
    = xorb (covered_by (present (flat_map shape_paths part)) z) (covered_by (concat lost) z)).
Proof.
  intros D m t t' V H. eapply by_region_impl; [|exact (normalize_covered m t t' V H)].
  intros rg part _ (X & _) Hp. destruct (X Hp) as (lost & F & _ & E). exists lost. auto.
Qed.
Print Assumptions C81_covered.

(** Exactly, for a region whose rings share no edge. *)
Theorem C81_plain : forall D m (t t' : topology D), valid t -> normalize m t = Ok t' ->
  by_region t t' (fun rg part => nothing_redundant t rg -> tg_outer rg <> [] -> part <> [] /\
    forall z, covered_by (present (flat_map shape_paths part)) z = covered_by (region_paths t rg) z).
Proof.
  intros D m t t' V H. eapply by_region_impl; [|exact (normalize_covered m t t' V H)].
  intros rg part _ (X & Y) N Ne. pose proof (Y N Ne) as Hp. split; [exact Hp|].
  destruct (X Hp) as (lost & _ & L & E). intros z. rewrite E, (L N). destruct (covered_by (present _) z); reflexivity.
Qed.
Print Assumptions C81_plain.

(** Two squares of one region that share a side: the places in either of them, and the hole. *)
Example C81_case :
  let zs := [Place 5 5 1; Place 15 5 1; Place 25 5 1; Place 11 11 1; Place 14 14 1; Place 25 25 2] in
  map (fun rg => map (covered_by (region_paths (built quilt) rg)) zs) (tp_regions (built quilt)) =
    [[true; true; false; false; false; false]; [false; false; false; true; false; false]; [false; false; false; false; true; true]] /\
  map (fun rg => map (covered_by (region_paths (normalized (built quilt)) rg)) zs) (tp_regions (normalized (built quilt))) =
    [[true; true; false; false; false; false]; [false; false; false; true; false; false]; [false; false; false; false; true; true]].
Proof. vm_compute. auto. Qed.

(** ** C82: clipping keeps what is covered inside the mask, and covers nothing outside *)
Theorem C82_inside : forall D m k (t t' : topology D) z,
  wf_mask k -> wf_topology t -> closed_rings t -> clip_topology m t k = Ok t' ->
  inside_place k z -> good_place k t z ->
  by_region t t' (fun rg part => exists lost_o lost_i, Forall flat lost_o /\ (part <> [] -> Forall flat lost_i) /\
    winding_number z (rings_paths t (tg_outer rg)) =
      winding_number z (present (concat (flat_map s_outer part))) + winding_number z (concat lost_o) /\
    winding_number z (rings_paths t (tg_inner rg)) =
      winding_number z (present (concat (flat_map s_inner part))) + winding_number z (concat lost_i)).
Proof. intros D. exact clip_winding. Qed.
Print Assumptions C82_inside.

(** A single ring, with the closing lines. *)
Theorem C82_ring : forall D m k (t : topology D) C r z,
  wf_mask k -> wf_topology t -> clips m k t C -> inside_place k z -> good_place k t z ->
  closed_chain (map ne_points (seen_ring t r)) ->
  winding_number z (map pc_path (clipped_ring C r)) = winding_number z (map ne_points (seen_ring t r)).
Proof.
  intros D m k t C r z Hk Ht HC Hz HG HCl. eapply clipped_ring_winding; [exact Hz|exact HC| | |exact HCl].
  - apply good_fine; assumption.
  - eapply seen_off. eassumption.
Qed.
Print Assumptions C82_ring.

Theorem C82_outside : forall D m k (t t' : topology D) rg r z,
  clip_topology m t k = Ok t' -> outside_place k z ->
  In rg (tp_regions t') -> In r (tg_outer rg ++ tg_inner rg) ->
  winding_number z (map ne_points (seen_ring t' r)) = 0.
Proof.
  intros D m k t t' rg r z H Hz Hg Hr. destruct (C23_closed D m k t t' rg r H Hg Hr) as (ps & E & _ & HC).
  rewrite (seen_read t' r ps E).
  apply (behind_winding (match away k with East => West | West => East | South => North | North => South end)); [exact HC|].
  intros e p He Hp. apply off_line; [exact Hz|]. destruct (read_ring_paths t' r ps E e p He Hp) as (te & Ht & Hpt).
  apply (C24_inside D m k t t' te p H Ht Hpt).
Qed.
Print Assumptions C82_outside.

(** A triangle cut at x = 4; its upper side meets the line at y = 1.2, which becomes 1. *)
Definition shard : topology Z := built [Region 1 [RPoints [Pt 0 0; Pt 10 3; Pt 0 7; Pt 0 0]] []].
Definition clipped_shard : topology Z :=
  match clip_topology Debug shard (MinX 4) with Ok t => t | Panic _ => Topology [] [] end.

Example C82_case :
  clip_topology Debug shard (MinX 4) = Ok clipped_shard /\
  read_topology clipped_shard = [Shape 1 [[Some [Pt 4 1; Pt 10 3]; Some [Pt 10 3; Pt 4 6]; Some [Pt 4 6; Pt 4 1]]] []] /\
  wf_mask (MinX 4) /\ wf_topology shard /\ closed_rings shard /\
  (inside_place (MinX 4) (Place 6 3 1) /\ good_place (MinX 4) shard (Place 6 3 1) /\
   winding_number (Place 6 3 1) (topology_paths shard) = 1 /\ winding_number (Place 6 3 1) (topology_paths clipped_shard) = 1) /\
  (inside_place (MinX 4) (Place 16 2 2) /\ good_place (MinX 4) shard (Place 16 2 2) /\
   winding_number (Place 16 2 2) (topology_paths shard) = 0 /\ winding_number (Place 16 2 2) (topology_paths clipped_shard) = 0) /\
  (outside_place (MinX 4) (Place 3 2 1) /\
   winding_number (Place 3 2 1) (topology_paths shard) = 1 /\ winding_number (Place 3 2 1) (topology_paths clipped_shard) = 0).
Proof.
  assert (G : forall z, (forall s, In s (flat_map (fun e => segments (te_points e)) (tp_edges shard)) ->
      match s with [p; q] => small_step p q /\ clear_of (MinX 4) z p q /\ ~ on_segment z p q | _ => True end) -> good_place (MinX 4) shard z).
  { intros z H e p q He Hs. apply (H [p; q]). apply in_flat_map. exists e. auto. }
  assert (S : flat_map (fun e => segments (te_points e)) (tp_edges shard) = [[Pt 0 0; Pt 10 3]; [Pt 0 7; Pt 10 3]; [Pt 0 0; Pt 0 7]]) by (vm_compute; reflexivity).
  rewrite S in G. split; [vm_compute; reflexivity|]. split; [vm_compute; reflexivity|]. split; [unfold wf_mask, is_u32; cbn; lia|].
  split. { assert (E : map te_points (tp_edges shard) = [[Pt 0 0; Pt 10 3]; [Pt 0 7; Pt 10 3]; [Pt 0 0; Pt 0 7]]) by (vm_compute; reflexivity).
    apply Forall_map with (f := te_points) (P := wf_points). rewrite E. unfold wf_points, wf_point, is_u32. repeat constructor; cbn; lia. }
  split. { intros rg r Hg Hr. vm_compute in Hg. destruct Hg as [<-|[]]. vm_compute in Hr. destruct Hr as [<-|[]].
    exists (Pt 0 0). vm_compute. repeat (split; [reflexivity|]; eexists; split; [reflexivity|]). reflexivity. }
  split; [|split].
  - split; [vm_compute; reflexivity|]. split; [|vm_compute; auto].
    apply G. intros s [<-|[<-|[<-|[]]]]; unfold small_step, clear_of, on_segment, opposite, inside, outside, swept; cbn; lia.
  - split; [vm_compute; reflexivity|]. split; [|vm_compute; auto].
    apply G. intros s [<-|[<-|[<-|[]]]]; unfold small_step, clear_of, on_segment, opposite, inside, outside, swept; cbn; lia.
  - split; [vm_compute; reflexivity|vm_compute; auto].
Qed.

(** Closer to a side than rounding moves it, a place can change: 0.1 above the upper side. *)
Example C82_rounding :
  inside_place (MinX 4) (Place 50 14 10) /\ ~ clear_of (MinX 4) (Place 50 14 10) (Pt 0 0) (Pt 10 3) /\
  winding_number (Place 50 14 10) (topology_paths shard) = 0 /\
  winding_number (Place 50 14 10) (topology_paths clipped_shard) = 1.
Proof.
  split; [vm_compute; reflexivity|]. split; [|vm_compute; auto].
  intros H. destruct H as [H|H]; [right; vm_compute; auto|vm_compute in H; destruct H; discriminate|vm_compute in H; apply H; reflexivity].
Qed.

(** ** C83: from input regions to a clipped topology *)
Theorem C83_pipeline : forall D m (rs : list (region D)) t t1 t2 k z,
  (forall x r, In x rs -> In r (rg_outer x ++ rg_inner x) -> closed_ring r) -> wf_input rs -> wf_mask k ->
  build_topology m rs = Ok t -> normalize m t = Ok t1 -> clip_topology m t1 k = Ok t2 ->
  inside_place k z -> good_input k rs z ->
  exists parts, read_topology t2 = concat parts /\ Forall2 (followed z) rs parts.
Proof. intros D. exact pipeline_covered. Qed.
Print Assumptions C83_pipeline.

(** [quilt] cut at x = 13: the first region loses its first square and part of the second, the hole and what fills it lose a part. *)
Definition clipped_quilt : topology Z :=
  match clip_topology Debug (normalized (built quilt)) (MinX 13) with Ok t => t | Panic _ => Topology [] [] end.

Example C83_case :
  clip_topology Debug (normalized (built quilt)) (MinX 13) = Ok clipped_quilt /\
  wf_input quilt /\ good_input (MinX 13) quilt (Place 29 28 2) /\
  map (fun z => map (fun rg => covered_by (input_paths (rg_outer rg ++ rg_inner rg)) z) quilt) [Place 29 28 2; Place 36 10 2; Place 38 38 2; Place 50 10 2]
  = [[false; false; true]; [true; false; false]; [false; true; false]; [false; false; false]] /\
  map (fun z => map (fun s => covered_by (present (shape_paths s)) z) (read_topology clipped_quilt)) [Place 29 28 2; Place 36 10 2; Place 38 38 2; Place 50 10 2]
  = [[false; false; true]; [true; false; false]; [false; true; false]; [false; false; false]].
Proof.
  assert (G : forall (P : point -> Prop), (forall p, In p (concat (input_paths (flat_map (fun rg => rg_outer rg ++ rg_inner rg) quilt))) -> P p) ->
    forall rg r ps p, In rg quilt -> In r (rg_outer rg ++ rg_inner rg) -> In ps (paths r) -> In p ps -> P p).
  { intros P H rg r ps p H1 H2 H3 H4. apply H. apply in_concat. exists ps. split; [|assumption].
    apply in_flat_map. exists r. split; [|assumption]. apply in_flat_map. exists rg. auto. }
  assert (S : forall (P : point -> point -> Prop), (forall s, In s (flat_map segments (input_paths (flat_map (fun rg => rg_outer rg ++ rg_inner rg) quilt))) ->
      match s with [p; q] => P p q | _ => True end) ->
    forall rg r ps p q, In rg quilt -> In r (rg_outer rg ++ rg_inner rg) -> In ps (paths r) -> In [p; q] (segments ps) -> P p q).
  { intros P H rg r ps p q H1 H2 H3 H4. apply (H [p; q]). apply in_flat_map. exists ps. split; [|assumption].
    apply in_flat_map. exists r. split; [|assumption]. apply in_flat_map. exists rg. auto. }
  split; [vm_compute; reflexivity|]. split; [|split; [|split; vm_compute; reflexivity]].
  - unfold wf_input. apply G. set (l := concat _). vm_compute in l. intros p Hp. unfold wf_point, is_u32.
    repeat (destruct Hp as [<-|Hp]; [cbn; lia|]). destruct Hp.
  - unfold good_input. apply S. set (l := flat_map segments _). vm_compute in l. intros s Hs.
    unfold small_step, clear_of, on_segment, opposite, inside, outside, swept.
    repeat (destruct Hs as [<-|Hs]; [cbn; lia|]). destruct Hs.
Qed.
