(** * RebuildSpec: a topology as input *)
From Verif Require Export TopoSpec.

(** The paths that can be read. *)
Definition read (os : list (option (list point))) : list (list point) :=
  flat_map (fun o => match o with Some p => [p] | None => [] end) os.

(** The regions of a topology, each ring given by the paths of its edges in their order. *)
Definition as_region {D} (s : shape D) : region D :=
  Region (s_data s) (map (fun r => REdges (read r)) (s_outer s)) (map (fun r => REdges (read r)) (s_inner s)).
Definition as_input {D} (t : topology D) : list (region D) := map as_region (read_topology t).

(** What the builder would drop: nothing of it is in the topology. *)
Definition whole_ring (es : list topo_edge) (r : topo_ring) : Prop :=
  (forall d, In d (tr_des r) -> exists p, read_de es d = Some p /\ has_length p = true) /\
  shoelaces (read (read_ring es r)) mod 2 ^ 64 <> 0.
Definition whole {D} (t : topology D) : Prop :=
  forall rg, In rg (tp_regions t) -> tg_outer rg <> [] /\
    forall r, In r (tg_outer rg ++ tg_inner rg) -> whole_ring (tp_edges t) r.
