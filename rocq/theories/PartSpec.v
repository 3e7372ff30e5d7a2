(** * PartSpec: parts of a map that have nothing to do with the rest *)
From Verif Require Export ShuffleSpec OrderSpec.

(** Regions of which none has a path of the others, in any direction. *)
Definition unrelated {D} (rs1 rs2 : list (region D)) : Prop :=
  forall p q, In (Some p) (all_paths (expected rs1)) -> In (Some q) (all_paths (expected rs2)) -> q <> p /\ q <> rev p.

(** Region [i] of the part is region [p i] of the whole, edge [j] is edge [s j], and no other region of the
    whole uses this edge. *)
Definition is_part {D} (p s : nat -> nat) (t part : topology D) : Prop :=
  Injective p /\ Injective s /\
  (forall i g, nth_error (tp_regions part) i = Some g ->
     exists g', nth_error (tp_regions t) (p i) = Some g' /\ ShuffleSpec.renumbered_region s g' g) /\
  (forall j e, nth_error (tp_edges part) j = Some e ->
     exists e', nth_error (tp_edges t) (s j) = Some e' /\ te_points e' = te_points e) /\
  (forall j rr, (j < length (tp_edges part))%nat -> In (s j, rr) (uses (tp_regions t)) ->
     exists i, (i < length (tp_regions part))%nat /\ rr_region rr = p i).
Definition part_of {D} (t part : topology D) : Prop :=
  exact_references t /\ exact_references part /\ exists p s, is_part p s t part.

(** What each region of a topology becomes: nothing, or a shape. *)
Definition becomes {D} (t t' : topology D) (f : nat -> list (shape D)) : Prop :=
  read_topology t' = flat_map f (seq 0 (length (tp_regions t))) /\ forall i, (length (f i) <= 1)%nat.
