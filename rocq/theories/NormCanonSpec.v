(** * NormCanonSpec: when two topologies show the same rings *)
From Verif Require Export NormSpec.

(** The segments along an edge and along a ring, each with the regions on its sides. *)
Definition labelled (e : norm_edge) : list (option nat * option nat * list point) := map (pair (label e)) (segments (ne_points e)).
Definition course (es : list norm_edge) : list (option nat * option nat * list point) := flat_map labelled es.

(** The same cycle of segments, wherever it starts and however it is cut into edges; in the same
    direction, or in either direction. *)
Definition same_way (a b : list norm_edge) : Prop := rotation (course a) (course b).
Definition alike (a b : list norm_edge) : Prop := same_way a b \/ same_way (flipped a) b.

(** The same rings in some order. *)
Definition same_rings {D} (t1 t2 : topology D) (rs1 rs2 : list topo_ring) : Prop :=
  exists rs, Permutation rs2 rs /\ Forall2 (fun r1 r2 => alike (seen_ring t1 r1) (seen_ring t2 r2)) rs1 rs.

(** The same regions with the same data and the same rings. *)
Definition same_map {D} (t1 t2 : topology D) : Prop :=
  Forall2 (fun g1 g2 => tg_data g1 = tg_data g2 /\ same_rings t1 t2 (tg_outer g1) (tg_outer g2) /\
                        same_rings t1 t2 (tg_inner g1) (tg_inner g2)) (tp_regions t1) (tp_regions t2).

(** Twice the area of every ring is an i64. *)
Definition small_rings {D} (t : topology D) : Prop :=
  forall rg r, In rg (tp_regions t) -> In r (tg_outer rg ++ tg_inner rg) ->
    Z.abs (shoelaces (map ne_points (seen_ring t r))) < 2 ^ 63.

(** The same edges around a ring; a ring of one edge may start at another point. *)
Definition same_edges (a b : list (list point)) : Prop :=
  rotation a b \/ exists x y, a = [x] /\ b = [y] /\ turned x y.

(** The ring does not come back to the node at which it starts. *)
Definition starts_once (ring : list (option (list point))) : Prop :=
  exists es p, ring = map Some es /\ ring_start es = Some p /\
    match es with
    | [e] => ~ In p (removelast (tl e))
    | _ => ~ In (Some p) (map first (tl es))
    end.

(** No choice is left: the starts of the rings are unique, and no two rings of a side start at
    the same point. *)
Definition clear_side (rings : list (list (option (list point)))) : Prop :=
  Forall starts_once rings /\
  NoDup (map (fun r => match r with Some e :: _ => first e | _ => None end) rings).
Definition clear_shape {D} (s : shape D) : Prop := clear_side (s_outer s) /\ clear_side (s_inner s).

(** Two shapes with the same rings in some order, each with the same edges. *)
Definition same_side (x y : list (list (option (list point)))) : Prop :=
  exists z, Permutation y z /\
    Forall2 (fun r r' => exists a b, r = map Some a /\ r' = map Some b /\ same_edges a b) x z.
Definition same_shape {D} (a b : shape D) : Prop :=
  s_data a = s_data b /\ same_side (s_outer a) (s_outer b) /\ same_side (s_inner a) (s_inner b).
