(** * LocalProps: C122, simplification changes a map only around the points it removes *)
From Verif Require Import Simplify LocalSpec LocalProofs SimplifyPlace SimplifyProps SimplifyPlaceProps.

(** ** C122: places away from the removed points *)

(** A simplified edge replaces stretches of the edge by straight lines, and the area changes by what
    lies between the stretches and these lines. *)
Theorem C122_edge : forall m ps thr r, thr <= 2 ^ 64 - 1 -> simplify_edge m ps thr = Ok r ->
  exists ss, straightens ps r ss /\
    shoelace ps - shoelace r = sum (map (fun s => shoelace (match first s with Some p => s ++ [p] | None => s end)) ss).
Proof. intros m ps thr r Ht E. destruct (edge_straightens m ps thr r Ht E) as (ss & H). exists ss. split; [exact H|exact (straightens_area ps r ss H)]. Qed.
Print Assumptions C122_edge.

(** The stretches can be chosen so that whatever place is apart from all stretches that change keeps its
    regions: each region goes around it as often as before, and it is on an edge if it was. *)
Theorem C122_places : forall D m (t t' : topology D) thr, thr <= 2 ^ 64 - 1 -> simplify m t thr = Ok t' ->
  exists pieces : nat -> list (list point),
    (forall i, (i < length (tp_edges t))%nat -> straightens (edge_points t i) (edge_points t' i) (pieces i)) /\
    (forall z rgs, (forall i, (i < length (tp_edges t))%nat -> inland i rgs \/ Forall (spared z) (pieces i)) ->
       surrounded t' rgs z = surrounded t rgs z) /\
    (forall z, (forall i, (i < length (tp_edges t))%nat -> Forall (spared z) (pieces i)) ->
       (forall rg, winding_number z (region_paths t' rg) = winding_number z (region_paths t rg) /\
                   covered_by (region_paths t' rg) z = covered_by (region_paths t rg) z) /\
       (forall i, (i < length (tp_edges t))%nat -> off z [edge_points t' i] <-> off z [edge_points t i])).
Proof.
  intros D m t t' thr Ht S. destruct (topology_straightens m t t' thr Ht S) as (pieces & H). exists pieces. split; [exact H|].
  split; [intros z rgs HS; exact (simplify_spares m t t' thr pieces z S H rgs HS)|].
  intros z HS. split; [|intros i Hi; exact (straightens_off z _ _ _ (H i Hi) (HS i Hi))]. intros rg.
  assert (E : winding_number z (region_paths t' rg) = winding_number z (region_paths t rg)).
  { rewrite <- !one_region. apply (simplify_spares m t t' thr pieces z S H). intros i Hi. right. exact (HS i Hi). }
  split; [exact E|]. unfold covered_by. rewrite E. reflexivity.
Qed.
Print Assumptions C122_places.

(** Any way to read the simplified edges as straightened stretches will do. *)
Theorem C122_any_stretches : forall D m (t t' : topology D) thr (pieces : nat -> list (list point)) z, simplify m t thr = Ok t' ->
  (forall i, (i < length (tp_edges t))%nat -> straightens (edge_points t i) (edge_points t' i) (pieces i) /\ Forall (spared z) (pieces i)) ->
  forall rg, winding_number z (region_paths t' rg) = winding_number z (region_paths t rg).
Proof.
  intros D m t t' thr pieces z S H rg. rewrite <- !one_region. apply (simplify_spares m t t' thr pieces z S); [intros i Hi; apply H, Hi|].
  intros i Hi. right. apply H, Hi.
Qed.
Print Assumptions C122_any_stretches.

(** A place outside the bounding box of a stretch is apart from it. *)
Theorem C122_boxes : forall d z s, (forall p, In p s -> ahead d z p < 0) -> apart z s.
Proof.
  intros d z s H. exists (match d with East => 1 | West => -1 | _ => 0 end), (match d with South => 1 | North => -1 | _ => 0 end).
  intros p Hp. specialize (H p Hp). destruct d; cbn [ahead] in H; lia.
Qed.
Print Assumptions C122_boxes.

(** The map of C113: one bend of one edge is removed.  The place (2, 5/2) is next to the bend, in the bounding
    box of the stretch but apart from it, and stays in the second region (surrounded by neither ring of
    the first); the place (10/3, 3) lies in the stretch and changes hands. *)
Definition bent_pieces (i : nat) : list (list point) :=
  match i with
  | O => [[Pt 1 3; Pt 4 4; Pt 5 2]; [Pt 5 2; Pt 6 5]; [Pt 6 5; Pt 9 3]]
  | 1%nat => [[Pt 9 3; Pt 9 9]; [Pt 9 9; Pt 1 9]; [Pt 1 9; Pt 1 3]]
  | _ => [[Pt 1 3; Pt 1 0]; [Pt 1 0; Pt 9 0]; [Pt 9 0; Pt 9 3]]
  end.
Example C122_case : simplify Debug bent_topology 10 = Ok straighter_topology /\
  (forall i, (i < length (tp_edges bent_topology))%nat ->
     straightens (edge_points bent_topology i) (edge_points straighter_topology i) (bent_pieces i) /\
     Forall (spared (Place 4 5 2)) (bent_pieces i)) /\
  map (fun t => map (fun rg => winding_number (Place 4 5 2) (region_paths t rg)) (tp_regions t)) [bent_topology; straighter_topology] = [[0; 1]; [0; 1]] /\
  ~ apart (Place 10 9 3) [Pt 1 3; Pt 4 4; Pt 5 2].
Proof.
  split; [vm_compute; reflexivity|]. split; [|split; [vm_compute; reflexivity|]].
  - intros [|[|[|i]]] H; cbn in H; try lia; (split; [split; [|split; [|split; reflexivity]]|]).
    all: try (repeat constructor; cbn; lia).
    all: try (cbn [bent_pieces chain]; do 2 eexists; repeat (split; [reflexivity|]; eexists; split; [reflexivity|]); reflexivity).
    constructor; [|repeat constructor]. right. exists (-1), (-4). intros p [<-|[<-|[<-|[]]]]; vm_compute; reflexivity.

  - intros (a & b & H). pose proof (H (Pt 1 3) (or_introl eq_refl)) as H1. pose proof (H (Pt 4 4) (or_intror (or_introl eq_refl))) as H2.
    pose proof (H (Pt 5 2) (or_intror (or_intror (or_introl eq_refl)))) as H3. unfold east, south in *. cbn [pl_n pl_x pl_y px py] in *. lia.
Qed.
