(** * QuantizeSpec: bounding boxes of real numbers and the integer grid *)
From Coq Require Import Reals.
From Flocq Require Import Core.Core.
From Flocq Require IEEE754.Binary IEEE754.Bits.
From Verif Require Export SfSpec.
Open Scope Z_scope.

(** The real number an IEEE-754 double bit pattern stands for; the patterns that stand for
    one: neither infinite nor NaN. *)
Definition real_of (bits : Z) : R := Binary.B2R 53 1024 (Bits.b64_of_bits bits).
Definition is_real (bits : Z) : Prop := Binary.is_finite 53 1024 (Bits.b64_of_bits bits) = true.

(** A side of a bounding box: not empty, and not so long that its length is rounded to
    infinity (the limit is the largest double plus half a unit in its last place). *)
Definition side (lo hi : Z) : Prop :=
  is_real lo /\ is_real hi /\ (real_of lo < real_of hi)%R /\ (real_of hi - real_of lo < bpow radix2 1024 - bpow radix2 970)%R.

Definition box_ok (b : shp_bbox) : Prop := side (bb_xmin b) (bb_xmax b) /\ side (bb_ymin b) (bb_ymax b).

(** A number between the ends of a side; a point in a box. *)
Definition within (lo hi v : Z) : Prop := is_real v /\ (real_of lo <= real_of v <= real_of hi)%R.
Definition in_box (b : shp_bbox) (p : shp_point) : Prop :=
  within (bb_xmin b) (bb_xmax b) (sp_x p) /\ within (bb_ymin b) (bb_ymax b) (sp_y p).

(** The exact position on the grid: the side is divided into 2^32-1 cells; x grows to the
    right, y grows downwards. *)
Definition grid_x (b : shp_bbox) (p : shp_point) : R :=
  ((real_of (sp_x p) - real_of (bb_xmin b)) / (real_of (bb_xmax b) - real_of (bb_xmin b)) * 4294967295)%R.
Definition grid_y (b : shp_bbox) (p : shp_point) : R :=
  ((real_of (bb_ymax b) - real_of (sp_y p)) / (real_of (bb_ymax b) - real_of (bb_ymin b)) * 4294967295)%R.
