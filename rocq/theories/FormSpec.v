(** * FormSpec: topologies as they are built, and in normal form *)
From Verif Require Export OnceSpec OrderSpec RebuildSpec NormSpec.

(** References are exact, nothing is there that the builder drops, the edges are the paths of the rings, each
    once and in the order of their first uses, and they are stored in the direction of the builder. *)
Definition built_form {D} (t : topology D) : Prop :=
  exact_references t /\ whole t /\
  map te_points (tp_edges t) = distinct (stored_forms (read_topology t)) /\
  forall rg r d e, In rg (tp_regions t) -> In r (tg_outer rg ++ tg_inner rg) -> In d (tr_des r) ->
    nth_error (tp_edges t) (de_edge d) = Some e ->
    let p := oriented (te_points e) (de_dir d) in
    te_points e = stored_form p /\ (de_dir d = Forward <-> stored_form p = p).

(** Closed rings of the right direction, with as few edges as possible, none of them between a region and
    itself, starting at their smallest nodes and in the order of these. *)
Definition normal_ring_form {D} (t : topology D) (o : winding) (r : topo_ring) : Prop :=
  let es := seen_ring t r in
  closed_chain (map ne_points es) /\ fewest es /\ Forall (fun e => ~ redundant e) es /\
  starts_smallest (map ne_points es) /\ winds o (map ne_points es).
Definition normal_side_form {D} (t : topology D) (o : winding) (rs : list topo_ring) : Prop :=
  (forall r, In r rs -> normal_ring_form t o r) /\ in_order (map (fun r => map ne_points (seen_ring t r)) rs).
Definition normal_form {D} (t : topology D) : Prop :=
  built_form t /\
  forall rg, In rg (tp_regions t) ->
    normal_side_form t Clockwise (tg_outer rg) /\ normal_side_form t CounterClockwise (tg_inner rg).

(** The area of every ring is an i64, and in a debug build so are all numbers on the way to it. *)
Definition countable_ring (m : mode) (es : list (list point)) : Prop :=
  Z.abs (shoelaces es) < 2 ^ 63 /\ (m = Debug -> Forall nonneg es /\ weights es < 2 ^ 63).
Definition countable {D} (m : mode) (t : topology D) : Prop :=
  forall rg r, In rg (tp_regions t) -> In r (tg_outer rg ++ tg_inner rg) -> countable_ring m (map ne_points (seen_ring t r)).

(** No two edges have the same points in the same order. *)
Definition different_edges {D} (t : topology D) : Prop := NoDup (map te_points (tp_edges t)).
(** Rings use loops forward if they go around them clockwise. *)
Definition loops_by_area {D} (t : topology D) : Prop :=
  forall rg r d e, In rg (tp_regions t) -> In r (tg_outer rg ++ tg_inner rg) -> In d (tr_des r) ->
    nth_error (tp_edges t) (de_edge d) = Some e -> first (te_points e) = final (te_points e) ->
    (de_dir d = Forward <-> 0 <= i64_of (shoelace (oriented (te_points e) (de_dir d)))).
(** Outer rings are clockwise, inner rings counter-clockwise. *)
Definition wound_rings {D} (t : topology D) : Prop :=
  forall rg, In rg (tp_regions t) ->
    (forall r, In r (tg_outer rg) -> winds Clockwise (map ne_points (seen_ring t r))) /\
    (forall r, In r (tg_inner rg) -> winds CounterClockwise (map ne_points (seen_ring t r))).
