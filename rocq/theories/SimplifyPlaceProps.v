(** * SimplifyPlaceProps: simplification opens no gaps *)
From Verif Require Import Simplify SimplifyPlaceSpec SimplifyPlace SimplifyProps.

(** The land of some regions, and how often they surround a place, changes only where their common
    border changes: an edge matters as often as it is passed more forwards than backwards. *)
Theorem C113_border : forall D m (t t' : topology D) thr rgs, simplify m t thr = Ok t' ->
  land t' rgs - land t rgs =
    sum (map (fun i => (passed Forward i rgs - passed Backward i rgs) * (shoelace (edge_points t' i) - shoelace (edge_points t i)))
             (seq 0 (length (tp_edges t)))) /\
  forall z, surrounded t' rgs z - surrounded t rgs z =
    sum (map (fun i => (passed Forward i rgs - passed Backward i rgs) *
                       (winding_number z [edge_points t' i] - winding_number z [edge_points t i]))
             (seq 0 (length (tp_edges t)))).
Proof. intros D m t t' thr rgs S. split; [exact (land_change m t t' thr S rgs)|intros z; exact (surrounded_change m t t' thr S rgs z)]. Qed.
Print Assumptions C113_border.

(** If all changed edges lie between the regions, they surround the same places as before and
    have the same area together. *)
Theorem C113_no_gaps : forall D m (t t' : topology D) thr rgs, simplify m t thr = Ok t' ->
  (forall i, (i < length (tp_edges t))%nat -> edge_points t' i = edge_points t i \/ inland i rgs) ->
  land t' rgs = land t rgs /\ forall z, surrounded t' rgs z = surrounded t rgs z.
Proof. intros D m t t' thr rgs S. exact (inland_change m t t' thr S rgs). Qed.
Print Assumptions C113_no_gaps.

(** Whatever the directions of the rings: if the changed edges are passed an even number of times,
    the places covered by an odd number of the regions stay the same. *)
Theorem C113_parity : forall D m (t t' : topology D) thr rgs z, simplify m t thr = Ok t' ->
  (forall i, (i < length (tp_edges t))%nat -> edge_points t' i = edge_points t i \/ Z.even (passed Forward i rgs + passed Backward i rgs) = true) ->
  covered_oddly t' rgs z = covered_oddly t rgs z.
Proof. intros D m t t' thr rgs z. exact (parity_change m t t' thr rgs z). Qed.
Print Assumptions C113_parity.

(** Two regions on both sides of a bent edge, whose first bend is removed: the first region gains
    the place (10/3, 3) and seven halves of area, and the second one loses them. *)
Definition bent_topology : topology Z :=
  Topology [TRegion 1 [TRing [DE 0 Forward; DE 1 Forward] (Some 0%nat)] [];
            TRegion 2 [TRing [DE 0 Backward; DE 2 Forward] (Some 1%nat)] []]
           [TEdge [Pt 1 3; Pt 4 4; Pt 5 2; Pt 6 5; Pt 9 3] (Some (RR 0 Outer 0)) (Some (RR 1 Outer 0));
            TEdge [Pt 9 3; Pt 9 9; Pt 1 9; Pt 1 3] (Some (RR 0 Outer 0)) None;
            TEdge [Pt 1 3; Pt 1 0; Pt 9 0; Pt 9 3] (Some (RR 1 Outer 0)) None].
Definition straighter_topology : topology Z :=
  Topology (tp_regions bent_topology)
           [TEdge [Pt 1 3; Pt 5 2; Pt 6 5; Pt 9 3] (Some (RR 0 Outer 0)) (Some (RR 1 Outer 0));
            TEdge [Pt 9 3; Pt 9 9; Pt 1 9; Pt 1 3] (Some (RR 0 Outer 0)) None;
            TEdge [Pt 1 3; Pt 1 0; Pt 9 0; Pt 9 3] (Some (RR 1 Outer 0)) None].
Example C113_case : simplify Debug bent_topology 10 = Ok straighter_topology /\
  (forall i, (i < length (tp_edges bent_topology))%nat ->
    edge_points straighter_topology i = edge_points bent_topology i \/ inland i (tp_regions bent_topology)) /\
  map (fun t => map (fun rg => (land t [rg], surrounded t [rg] (Place 10 9 3))) (tp_regions bent_topology)) [bent_topology; straighter_topology] =
    [[(86, 0); (58, 1)]; [(93, 1); (51, 0)]].
Proof.
  split; [vm_compute; reflexivity|]. split; [|vm_compute; reflexivity].
  intros [|[|[|i]]] H; cbn in H; [right; vm_compute; reflexivity|left; reflexivity|left; reflexivity|lia].
Qed.
