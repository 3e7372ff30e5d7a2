(** * ExportSpec: topologies written as rings of points *)
From Verif Require Export TurnSpec RebuildSpec AgainSpec.

(** The points along a ring, with the first one again at the end; a region with such rings. *)
Definition outline (r : list (option (list point))) : ring := RPoints (glue (read r)).
Definition exported {D} (t : topology D) : list (region D) :=
  map (fun s => Region (s_data s) (map outline (s_outer s)) (map outline (s_inner s))) (read_topology t).

(** Closed rings of points. *)
Definition outlines_only {D} (rs : list (region D)) : Prop :=
  forall g r, In g rs -> In r (rg_outer g ++ rg_inner g) -> exists ps, r = RPoints ps /\ is_closed ps.
