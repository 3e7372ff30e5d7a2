(** * OrderSpec: the order of the edges of a built topology *)
From Verif Require Export TopoSpec.

(** The distinct members of a list, in the order of their first occurrences. *)
Fixpoint distinct (l : list (list point)) : list (list point) :=
  match l with
  | [] => []
  | k :: t => k :: filter (fun k' => negb (path_eqb k k')) (distinct t)
  end.

(** The stored forms of the paths of shapes, one for each use. *)
Definition stored_forms {D} (ss : list (shape D)) : list (list point) :=
  flat_map (fun o => match o with Some p => [stored_form p] | None => [] end) (all_paths ss).

(** Rings that have the same paths, apart from paths without length. *)
Definition same_ring (r r' : ring) : Prop := filter has_length (paths r) = filter has_length (paths r').
Definition same_region {D} (g g' : region D) : Prop :=
  rg_data g = rg_data g' /\ Forall2 same_ring (rg_outer g) (rg_outer g') /\ Forall2 same_ring (rg_inner g) (rg_inner g').
