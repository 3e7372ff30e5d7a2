(** * BuildFrameSpec: building in another frame of reference *)
From Verif Require Export FrameSpec TopoSpec.

Definition moved_ring (f : frame) (r : ring) : ring :=
  match r with RPoints ps => RPoints (moved_points f ps) | REdges es => REdges (map (moved_points f) es) end.
Definition moved_region {D} (f : frame) (g : region D) : region D :=
  Region (rg_data g) (map (moved_ring f) (rg_outer g)) (map (moved_ring f) (rg_inner g)).

(** All rings are closed. *)
Definition closed_region {D} (g : region D) : Prop := Forall closed_ring (rg_outer g ++ rg_inner g).

(** A frame that only shifts. *)
Definition shifted (x y : Z) : frame := Frame false false false x y.

(** The same topology with moved edges, up to the directions in which edges are stored: edges and
    rings have the same numbers, references and users. *)
Definition same_edge (f : frame) (e e' : topo_edge) : Prop :=
  (te_points e' = moved_points f (te_points e) \/ te_points e' = rev (moved_points f (te_points e))) /\
  te_ring0 e' = te_ring0 e /\ te_ring1 e' = te_ring1 e.
Definition same_rings (r r' : topo_ring) : Prop := map de_edge (tr_des r') = map de_edge (tr_des r) /\ tr_region r' = tr_region r.
Definition same_parts {D} (f : frame) (t s : topology D) : Prop :=
  Forall2 (same_edge f) (tp_edges t) (tp_edges s) /\
  Forall2 (fun g g' => tg_data g' = tg_data g /\ Forall2 same_rings (tg_outer g) (tg_outer g') /\ Forall2 same_rings (tg_inner g) (tg_inner g'))
    (tp_regions t) (tp_regions s).
