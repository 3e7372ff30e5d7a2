(** * ClipAreaProps: C112, clipping and areas *)
From Verif Require Import ClipTopoProps PlaceProps ClipAreaSpec ClipArea.
Open Scope Z_scope.

(** ** C112: clipping keeps the area on the kept side *)

(** What [area_inside] means: the areas on both sides of a line make up the area of a closed path,
    and if all is on one side, the area is on that side. *)
Theorem C112_halves : forall k es, closed_chain es ->
  (area_inside k es + area_inside (other_side k) es == inject_Z (shoelaces es))%Q.
Proof. exact areas_add. Qed.
Print Assumptions C112_halves.

Theorem C112_one_side : forall k es, closed_chain es ->
  ((forall e p, In e es -> In p e -> ~ outside k p) -> (area_inside k es == inject_Z (shoelaces es))%Q) /\
  ((forall e p, In e es -> In p e -> ~ inside k p) -> (area_inside k es == 0)%Q).
Proof. intros k es H. split; [apply area_all_inside, H|apply area_all_outside]. Qed.
Print Assumptions C112_one_side.

(** A single ring, with the closing lines. *)
Theorem C112_ring : forall D m k (t : topology D) C r,
  wf_mask k -> wf_topology t -> small_steps t -> clips m k t C -> closed_chain (map ne_points (seen_ring t r)) ->
  (Qabs (inject_Z (clipped_area C r) - area_inside k (map ne_points (seen_ring t r)))
   <= inject_Z (area_slack k (map ne_points (seen_ring t r))))%Q.
Proof. intros D m k t C r Hk Ht HS HC. apply (ring_area m k t C HC), steps_bent; assumption. Qed.
Print Assumptions C112_ring.

(** A whole topology, region by region. *)
Theorem C112_regions : forall D m k (t t' : topology D),
  wf_mask k -> wf_topology t -> small_steps t -> closed_rings t -> clip_topology m t k = Ok t' ->
  by_region t t' (fun rg part =>
    keeps_area k (rings_paths t (tg_outer rg)) (present (concat (flat_map s_outer part))) /\
    (part <> [] -> keeps_area k (rings_paths t (tg_inner rg)) (present (concat (flat_map s_inner part))))).
Proof. intros D. exact clip_keeps_area. Qed.
Print Assumptions C112_regions.

(** Cutting a ring in two loses no area but by rounding: at most one unit for each unit of length
    of the segments with rounded crossings, measured across the line. *)
Theorem C112_both_sides : forall D m m' k (t : topology D) C C' r,
  wf_mask k -> wf_topology t -> small_steps t ->
  clips m k t C -> clips m' (other_side k) t C' -> closed_chain (map ne_points (seen_ring t r)) ->
  Z.abs (clipped_area C r + clipped_area C' r - shoelaces (map ne_points (seen_ring t r)))
  <= area_slack k (map ne_points (seen_ring t r)) + area_slack (other_side k) (map ne_points (seen_ring t r)).
Proof. intros D. exact both_sides. Qed.
Print Assumptions C112_both_sides.

(** [shard] cut at x = 4: its sides cross the line at y = 1.2 and y = 5.4, which become 1 and 6, so twice
    the area 25.2 becomes 30. *)
Definition clipped_edges (k : clip_mask) (t : topology Z) : list (list point) :=
  map (fun e => match clip_edge Debug k (te_points e) with Ok c => c | Panic _ => [] end) (tp_edges t).

Example C112_case :
  let r := TRing [DE 0 Forward; DE 1 Backward; DE 2 Backward] (Some 0%nat) in
  let es := map ne_points (seen_ring shard r) in
  map tg_outer (tp_regions shard) = [[r]] /\
  es = [[Pt 0 0; Pt 10 3]; [Pt 10 3; Pt 0 7]; [Pt 0 7; Pt 0 0]] /\
  shoelaces es = 70 /\
  clips Debug (MinX 4) shard (clipped_edges (MinX 4) shard) /\
  clips Debug (MaxX 4) shard (clipped_edges (MaxX 4) shard) /\
  small_steps shard /\
  clipped_area (clipped_edges (MinX 4) shard) r = 30 /\ (area_inside (MinX 4) es == 252 # 10)%Q /\ area_slack (MinX 4) es = 12 /\
  clipped_area (clipped_edges (MaxX 4) shard) r = 48 /\ (area_inside (MaxX 4) es == 448 # 10)%Q /\ area_slack (MaxX 4) es = 8.
Proof.
  cbv zeta. split; [vm_compute; reflexivity|]. split; [vm_compute; reflexivity|]. split; [vm_compute; reflexivity|].
  split; [unfold clips; set (C := clipped_edges _ _); vm_compute in C; subst C; set (e := tp_edges shard); vm_compute in e; subst e; repeat constructor|].
  split; [unfold clips; set (C := clipped_edges _ _); vm_compute in C; subst C; set (e := tp_edges shard); vm_compute in e; subst e; repeat constructor|].
  split; [|repeat split; vm_compute; reflexivity].
  assert (S : flat_map (fun e => segments (te_points e)) (tp_edges shard) = [[Pt 0 0; Pt 10 3]; [Pt 0 7; Pt 10 3]; [Pt 0 0; Pt 0 7]]) by (vm_compute; reflexivity).
  intros e p q He Hs. assert (Hin : In [p; q] (flat_map (fun e => segments (te_points e)) (tp_edges shard))) by (apply in_flat_map; eauto).
  rewrite S in Hin. destruct Hin as [H|[H|[H|[]]]]; injection H as <- <-; unfold small_step; cbn; lia.
Qed.

(** With crossings at points, nothing is lost: a triangle cut at x = 4, or y = 5. *)
Example C112_exact :
  let es := [[Pt 0 0; Pt 10 5]; [Pt 10 5; Pt 0 10]; [Pt 0 10; Pt 0 0]] in
  area_slack (MinX 4) es = 0 /\ (area_inside (MinX 4) es == 36)%Q /\
  area_slack (MaxY 5) es = 0 /\ (area_inside (MaxY 5) es == 50)%Q /\ shoelaces es = 100.
Proof. vm_compute. repeat split. Qed.
