(** * DataSpec: other data for the same regions *)
From Verif Require Export Topology.

Definition region_with {D E} (f : D -> E) (rg : region D) : region E :=
  Region (f (rg_data rg)) (rg_outer rg) (rg_inner rg).
Definition topo_region_with {D E} (f : D -> E) (rg : topo_region D) : topo_region E :=
  TRegion (f (tg_data rg)) (tg_outer rg) (tg_inner rg).

(** The same rings and edges, with the data of each region replaced. *)
Definition topology_with {D E} (f : D -> E) (t : topology D) : topology E :=
  Topology (map (topo_region_with f) (tp_regions t)) (tp_edges t).

Definition outcome_with {A B} (f : A -> B) (x : res A) : res B :=
  match x with Ok a => Ok (f a) | Panic p => Panic p end.
