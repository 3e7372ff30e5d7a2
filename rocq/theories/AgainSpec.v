(** * AgainSpec: integer coordinates written to a .shp file *)
From Coq Require Import Reals.
From Flocq Require Import Core.Core.
From Verif Require Export QuantizeSpec PipelineSpec.
Open Scope R_scope.

(** A box with sides of 2^32-1 units; a unit is a power of two. *)
Definition grid_box (e : Z) (ox oy : R) (b : shp_bbox) : Prop :=
  box_ok b /\
  real_of (bb_xmin b) = ox /\ real_of (bb_xmax b) = ox + bpow radix2 e * 4294967295 /\
  real_of (bb_ymin b) = oy /\ real_of (bb_ymax b) = oy + bpow radix2 e * 4294967295.

(** The integer point [q] written as the point [p] of the box: x units from the left and y units
    from the top. *)
Definition written_point (e : Z) (b : shp_bbox) (q : point) (p : shp_point) : Prop :=
  wf_point q /\ is_real (sp_x p) /\ is_real (sp_y p) /\
  real_of (sp_x p) = real_of (bb_xmin b) + bpow radix2 e * IZR (px q) /\
  real_of (sp_y p) = real_of (bb_ymax b) - bpow radix2 e * IZR (py q).

Definition written_ring (e : Z) (b : shp_bbox) (r : ring) (ps : list shp_point) : Prop :=
  exists qs, r = RPoints qs /\ Forall2 (written_point e b) qs ps.

(** A region of integer points written as a record: the outer rings clockwise, then the inner
    rings counter-clockwise. *)
Definition written_region (e : Z) (b : shp_bbox) (g : region dbf_record) (x : file_record) (d : dbf_record) : Prop :=
  rg_data g = d /\ Forall2 (written_ring e b) (rg_outer g ++ rg_inner g) (fr_rings x) /\
  Forall (fun r => (0 <= ring_area r)%Z) (rg_outer g) /\ Forall (fun r => (ring_area r < 0)%Z) (rg_inner g) /\
  Forall (fun r => Forall fits (ring_values r)) (rg_outer g ++ rg_inner g).

Inductive written (e : Z) (b : shp_bbox) : list (region dbf_record) -> list file_record -> list dbf_record -> Prop :=
| WrittenNone : written e b [] [] []
| WrittenOne g gs x xs d ds : written_region e b g x d -> written e b gs xs ds -> written e b (g :: gs) (x :: xs) (d :: ds).
