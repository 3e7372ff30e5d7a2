(** * CutSpec: a map with points where a line crosses it

    Cutting a map in two along a line first needs points where edges cross the line.  Uses no
    function of the model. *)
From Verif Require Export ClipAreaSpec.
Open Scope Z_scope.

(** [w] is the path [ps] with one more point in each segment that crosses the mask line from one
    side to the other: a point of the line, at most one unit from the crossing. *)
Inductive cut (k : clip_mask) : list point -> list point -> Prop :=
| cut_none : cut k [] []
| cut_one p : cut k [p] [p]
| cut_plain p q ps w : ~ opposite k p q -> cut k (q :: ps) (q :: w) -> cut k (p :: q :: ps) (p :: q :: w)
| cut_cross p q x ps w : opposite k p q -> rounded_crossing k p q x ->
    cut k (q :: ps) (q :: w) -> cut k (p :: q :: ps) (p :: x :: q :: w).

(** The same regions, whose edges are cut. *)
Definition cut_map {D} (k : clip_mask) (t w : topology D) : Prop :=
  tp_regions w = tp_regions t /\
  Forall2 (fun e e' => cut k (te_points e) (te_points e') /\ te_ring0 e' = te_ring0 e /\ te_ring1 e' = te_ring1 e)
    (tp_edges t) (tp_edges w).

(** The segments that do not lie on the mask line, and those that have an end on the kept side. *)
Definition off_line (k : clip_mask) (ss : list (list point)) : list (list point) :=
  filter (existsb (fun p => negb (axis k p =? level k))) ss.
Definition reaching (k : clip_mask) (ss : list (list point)) : list (list point) :=
  filter (existsb (insideb k)) ss.

(** The place lies on no edge. *)
Definition off_edges {D} (z : place) (t : topology D) : Prop := off z (map te_points (tp_edges t)).

(** What is left of the regions of [t] in [t'] goes around the place as the rings of
    [w] do, but for some rings without area. *)
Definition half_of {D} (w t t' : topology D) (z : place) : Prop :=
  by_region t t' (fun rg part => exists lost_o lost_i, Forall flat lost_o /\ (part <> [] -> Forall flat lost_i) /\
    winding_number z (rings_paths w (tg_outer rg)) =
      winding_number z (present (concat (flat_map s_outer part))) + winding_number z (concat lost_o) /\
    winding_number z (rings_paths w (tg_inner rg)) =
      winding_number z (present (concat (flat_map s_inner part))) + winding_number z (concat lost_i)).
