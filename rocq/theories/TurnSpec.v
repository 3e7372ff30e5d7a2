(** * TurnSpec: the same rings written down differently *)
From Verif Require Export TopoSpec NormCanonSpec SfSpec PipelineSpec.

(** Two lists of points of the same closed ring: from another point on, or in the other
    direction, or both. *)
Definition same_outline (r1 r2 : ring) : Prop :=
  exists ps1 ps2, r1 = RPoints ps1 /\ r2 = RPoints ps2 /\ ps1 <> [] /\ same_cycle ps1 ps2.

(** The same rings in some order. *)
Definition same_outlines (rs1 rs2 : list ring) : Prop := exists rs, Permutation rs2 rs /\ Forall2 same_outline rs1 rs.
Definition same_input {D} (g1 g2 : region D) : Prop :=
  rg_data g1 = rg_data g2 /\ same_outlines (rg_outer g1) (rg_outer g2) /\ same_outlines (rg_inner g1) (rg_inner g2).

(** The areas of the rings are i64s. *)
Definition small_input {D} (rs : list (region D)) : Prop :=
  forall g r, In g rs -> In r (rg_outer g ++ rg_inner g) -> Z.abs (ring_area r) < 2 ^ 63.

(** The same for the rings of a .shp file; the direction tells outer from inner rings. *)
Definition shp_closed (c : list shp_point) : list shp_point := match c with [] => [] | p :: _ => c ++ [p] end.
Definition shp_turned (a b : list shp_point) : Prop := exists l r, l ++ r <> [] /\ a = shp_closed (l ++ r) /\ b = shp_closed (r ++ l).
Definition same_record (x y : file_record) : Prop :=
  exists rings, Permutation (fr_rings y) rings /\ Forall2 shp_turned (fr_rings x) rings.
