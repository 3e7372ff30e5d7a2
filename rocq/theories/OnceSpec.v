(** * OnceSpec: what src/topology/types.rs:50-58 says about edges *)
From Verif Require Export CrossSpec.

(** "A Topology can only contain a single TopoEdge with the given points"; an edge has no direction, so
    the points may also come in the opposite order. *)
Definition same_path (ps qs : list point) : Prop := qs = ps \/ qs = rev ps.
Definition stored_once {D} (t : topology D) : Prop :=
  forall i j e f, i <> j -> nth_error (tp_edges t) i = Some e -> nth_error (tp_edges t) j = Some f ->
  ~ same_path (te_points e) (te_points f).

(** "the canonical TopoEdge, which goes from top-left Node to bottom-right Node", where points are
    compared by x first. *)
Definition canonical_edges {D} (t : topology D) : Prop :=
  forall e p q, In e (tp_edges t) -> first (te_points e) = Some p -> final (te_points e) = Some q ->
  p <> q -> lt_point p q.

(** The edge goes from one node to another, or around an area (in the arithmetic of the code). *)
Definition open_or_wide (ps : list point) : Prop :=
  first ps <> final ps \/ (shoelace ps mod 2 ^ 64 <> 0 /\ shoelace ps mod 2 ^ 64 <> 2 ^ 63).

(** Segments that have more than a point in common. *)
Definition lies_on (a b p : point) : Prop :=
  turn a b p = 0 /\ Z.min (px a) (px b) <= px p <= Z.max (px a) (px b) /\ Z.min (py a) (py b) <= py p <= Z.max (py a) (py b).
Definition overlap (a b c d : point) : Prop :=
  exists x y, x <> y /\ lies_on a b x /\ lies_on a b y /\ lies_on c d x /\ lies_on c d y.
Definition no_overlaps {D} (t : topology D) : Prop :=
  forall i j e f a b c d, i <> j -> nth_error (tp_edges t) i = Some e -> nth_error (tp_edges t) j = Some f ->
  In [a; b] (segments (te_points e)) -> In [c; d] (segments (te_points f)) -> ~ overlap a b c d.
(** No point is followed by itself. *)
Definition no_stops {D} (t : topology D) : Prop :=
  forall e a, In e (tp_edges t) -> ~ In [a; a] (segments (te_points e)).

(** The ends of both paths are the same two points. *)
Definition same_ends (ps qs : list point) : Prop :=
  (first ps = first qs /\ final ps = final qs) \/ (first ps = final qs /\ final ps = first qs).

(** Clipped edges that have not both ends on the line of a mask for x, and no end on the line of a
    mask for y. *)
Definition settled (k : clip_mask) (ps : list point) : Prop :=
  forall a b, first ps = Some a -> final ps = Some b ->
  match k with
  | MinX _ | MaxX _ => ~ (on_line k a /\ on_line k b)
  | MinY _ | MaxY _ => ~ on_line k a /\ ~ on_line k b
  end.
