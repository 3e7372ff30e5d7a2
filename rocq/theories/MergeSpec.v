(** * MergeSpec: the outline of a region whose rings are merged *)
From Verif Require Export NormSpec.

(** The edges between the region and others, once all rings wind as [o]. *)
Definition outline {D} (t : topology D) (o : winding) (rs : list topo_ring) : list norm_edge :=
  useful (concat (headed_rings t o rs)).

(** The outline of the region passes through no point twice. *)
Definition simple_outline {D} (t : topology D) (rg : topo_region D) : Prop :=
  NoDup (flat_map (@removelast point)
    (map ne_points (outline t Clockwise (tg_outer rg) ++ outline t CounterClockwise (tg_inner rg)))).

(** The outlines of both sides are cycles with areas that fit an i64; on the outer side there is one. *)
Definition measured_outline {D} (t : topology D) (rg : topo_region D) : Prop :=
  exists outer inner, outer <> [] /\
    cycles_of (outline t Clockwise (tg_outer rg)) outer /\ cycles_of (outline t CounterClockwise (tg_inner rg)) inner /\
    Forall (fun c => 0 < Z.abs (shoelaces (map ne_points c)) < 2 ^ 63) (outer ++ inner).

(** The same, and the outer cycles wind clockwise, the inner ones counter-clockwise. *)
Definition wound_outline {D} (t : topology D) (rg : topo_region D) : Prop :=
  exists outer inner, outer <> [] /\
    cycles_of (outline t Clockwise (tg_outer rg)) outer /\ cycles_of (outline t CounterClockwise (tg_inner rg)) inner /\
    Forall (fun c => Z.abs (shoelaces (map ne_points c)) < 2 ^ 63) (outer ++ inner) /\
    Forall (fun c => winds Clockwise (map ne_points c)) outer /\
    Forall (fun c => winds CounterClockwise (map ne_points c)) inner.

(** In the ring as the topology has it, each edge separates other regions than the next one. *)
Definition ring_alternates {D} (t : topology D) (r : topo_ring) : Prop := fewest (seen_ring t r).
