(** * CutProps: C134, the two halves of a map *)
From Verif Require Import ClipTopoProps PlaceProps ClipAreaProps CutSpec CutProofs CutTopo CutHalves.
Open Scope Z_scope.

(** ** C134: the two halves of a map fit together *)

(** An edge: both masks of the line cut it at the same points, and every segment of the cut edge
    that does not lie on the line is in exactly one of the results, in order. *)
Theorem C134_edge : forall m m' k ps c c',
  wf_mask k -> wf_points ps -> (forall p q, In [p; q] (segments ps) -> small_step p q) ->
  clip_edge m k ps = Ok c -> clip_edge m' (other_side k) ps = Ok c' ->
  exists w, cut k ps w /\ (forall p q, In [p; q] (segments w) -> ~ opposite k p q) /\
    off_line k (segments c) = reaching k (segments w) /\
    off_line k (segments c') = reaching (other_side k) (segments w).
Proof.
  intros m m' k ps c c' Hk HW HS Hc Hc'. exists (add_points k ps).
  pose proof (add_points_cut k ps (proj1 (small_easy k ps Hk HW HS))) as C. split; [exact C|]. split; [exact (cut_plain_steps k ps _ C)|].
  split; [exact (clip_side m k ps c Hk HW HS Hc)|].
  rewrite <- (off_line_other k), <- (add_points_other k). exact (clip_side m' (other_side k) ps c' (wf_mask_other k Hk) HW HS Hc').
Qed.
Print Assumptions C134_edge.

(** A ring, with the lines that close it: the areas of its two parts add up exactly to the area of
    the ring with the points where it is cut, and the parts go around the same places as that ring. *)
Theorem C134_ring : forall D k (t : topology D), wf_mask k -> wf_topology t -> small_steps t ->
  exists w, cut_map k t w /\
  forall m m' C C' r, clips m k t C -> clips m' (other_side k) t C' -> closed_chain (map ne_points (seen_ring t r)) ->
    clipped_area C r + clipped_area C' r = shoelaces (map ne_points (seen_ring w r)) /\
    (forall z, off_edges z w ->
      (inside_place k z -> winding_number z (map pc_path (clipped_ring C r)) = winding_number z (map ne_points (seen_ring w r))) /\
      (outside_place k z -> winding_number z (map pc_path (clipped_ring C' r)) = winding_number z (map ne_points (seen_ring w r)))).
Proof.
  intros D k t Hk Ht HS. exists (cut_edges k t). split; [apply cut_edges_map; assumption|].
  intros m m' C C' r HC HC' HR. split; [eapply halves_areas; eassumption|]. intros z Hz. split; intros Hin.
  - eapply half_winding; eassumption.
  - rewrite <- (cut_edges_other k t). eapply (half_winding (other_side k)); try eassumption; [apply wf_mask_other, Hk|apply inside_place_other, Hin|].
    rewrite cut_edges_other. exact Hz.
Qed.
Print Assumptions C134_ring.

(** A map: on each side of the line, the half for that side goes around the places of its regions
    as the cut map does, and no ring of the other half goes around them: no gaps, no overlaps. *)
Theorem C134_map : forall D k (t : topology D), wf_mask k -> wf_topology t -> small_steps t -> closed_rings t ->
  exists w, cut_map k t w /\
  forall m m' t1 t2, clip_topology m t k = Ok t1 -> clip_topology m' t (other_side k) = Ok t2 ->
  forall z, off_edges z w ->
    (inside_place k z -> half_of w t t1 z /\
       forall rg r, In rg (tp_regions t2) -> In r (tg_outer rg ++ tg_inner rg) -> winding_number z (map ne_points (seen_ring t2 r)) = 0) /\
    (outside_place k z -> half_of w t t2 z /\
       forall rg r, In rg (tp_regions t1) -> In r (tg_outer rg ++ tg_inner rg) -> winding_number z (map ne_points (seen_ring t1 r)) = 0).
Proof.
  intros D k t Hk Ht HS HR. exists (cut_edges k t). split; [apply cut_edges_map; assumption|].
  intros m m' t1 t2 H1 H2 z Hz. split; intros Hin; split.
  - eapply half_map; eassumption.
  - intros rg r Hg Hr. eapply (C82_outside D m' (other_side k)); try eassumption. apply outside_place_other, Hin.
  - rewrite <- (cut_edges_other k t). eapply (half_map (other_side k)); try eassumption; [apply wf_mask_other, Hk|apply inside_place_other, Hin|].
    rewrite cut_edges_other. exact Hz.
  - intros rg r Hg Hr. eapply (C82_outside D m k); eassumption.
Qed.
Print Assumptions C134_map.

(** [shard] of C82, cut at x = 4: twice its area is 70; with points at the rounded crossings it is
    78, and that is divided into 30 and 48.  The place (5, 1.4), which the shard does not go around
    but its half does, is inside the cut shard. *)
Definition cut_shard : topology Z :=
  Topology (tp_regions shard)
    (match tp_edges shard with
     | [a; b; c] => [TEdge [Pt 0 0; Pt 4 1; Pt 10 3] (te_ring0 a) (te_ring1 a);
                     TEdge [Pt 0 7; Pt 4 6; Pt 10 3] (te_ring0 b) (te_ring1 b); c]
     | es => es
     end).

Example C134_case :
  let r := TRing [DE 0 Forward; DE 1 Backward; DE 2 Backward] (Some 0%nat) in
  cut (MinX 4) [Pt 0 0; Pt 10 3] [Pt 0 0; Pt 4 1; Pt 10 3] /\
  cut (MinX 4) [Pt 0 7; Pt 10 3] [Pt 0 7; Pt 4 6; Pt 10 3] /\
  map ne_points (seen_ring cut_shard r) = [[Pt 0 0; Pt 4 1; Pt 10 3]; [Pt 10 3; Pt 4 6; Pt 0 7]; [Pt 0 7; Pt 0 0]] /\
  shoelaces (map ne_points (seen_ring shard r)) = 70 /\
  shoelaces (map ne_points (seen_ring cut_shard r)) = 78 /\
  clipped_area (clipped_edges (MinX 4) shard) r = 30 /\ clipped_area (clipped_edges (MaxX 4) shard) r = 48 /\
  winding_number (Place 50 14 10) (topology_paths shard) = 0 /\
  winding_number (Place 50 14 10) (topology_paths cut_shard) = 1 /\
  winding_number (Place 50 14 10) (topology_paths clipped_shard) = 1.
Proof.
  cbv zeta. repeat split; try (vm_compute; reflexivity).
  - apply cut_cross; [right; cbn; lia| |apply cut_one]. unfold rounded_crossing, on_line. cbn. lia.
  - apply cut_cross; [right; cbn; lia| |apply cut_one]. unfold rounded_crossing, on_line. cbn. lia.
Qed.

(** An edge that crosses the line three times and runs along it: its pieces on both sides. *)
Example C134_pieces :
  let ps := [Pt 0 0; Pt 6 2; Pt 2 2; Pt 4 4; Pt 4 7; Pt 8 8] in
  let w := [Pt 0 0; Pt 4 1; Pt 6 2; Pt 4 2; Pt 2 2; Pt 4 4; Pt 4 7; Pt 8 8] in
  clip_edge Debug (MinX 4) ps = Ok [Pt 4 1; Pt 6 2; Pt 4 2; Pt 4 7; Pt 8 8] /\
  clip_edge Debug (MaxX 4) ps = Ok [Pt 0 0; Pt 4 1; Pt 4 2; Pt 2 2; Pt 4 4] /\
  reaching (MinX 4) (segments w) = [[Pt 4 1; Pt 6 2]; [Pt 6 2; Pt 4 2]; [Pt 4 7; Pt 8 8]] /\
  reaching (MaxX 4) (segments w) = [[Pt 0 0; Pt 4 1]; [Pt 4 2; Pt 2 2]; [Pt 2 2; Pt 4 4]] /\
  off_line (MinX 4) [[Pt 4 1; Pt 6 2]; [Pt 4 2; Pt 4 7]] = [[Pt 4 1; Pt 6 2]].
Proof. vm_compute. repeat split. Qed.
