(** * UnitSpec: maps in other units and with another origin *)
From Coq Require Import Reals.
From Flocq Require Import Core.Core.
From Verif Require Export QuantizeSpec PipelineSpec.
Open Scope R_scope.

(** The number [w] is [v] in units 2^e times smaller, counted from an origin that is moved by
    [c]: exactly, without rounding. *)
Definition converted (e : Z) (c : R) (v w : Z) : Prop := real_of w = bpow radix2 e * real_of v + c.

Definition converted_box (e : Z) (cx cy : R) (b b' : shp_bbox) : Prop :=
  converted e cx (bb_xmin b) (bb_xmin b') /\ converted e cx (bb_xmax b) (bb_xmax b') /\
  converted e cy (bb_ymin b) (bb_ymin b') /\ converted e cy (bb_ymax b) (bb_ymax b').

(** A point of the box, and the point of the other box that it becomes. *)
Definition converted_point (e : Z) (cx cy : R) (b : shp_bbox) (p p' : shp_point) : Prop :=
  QuantizeSpec.in_box b p /\ is_real (sp_x p') /\ is_real (sp_y p') /\ converted e cx (sp_x p) (sp_x p') /\ converted e cy (sp_y p) (sp_y p').

Definition converted_shape (e : Z) (cx cy : R) (b : shp_bbox) (x x' : file_record) : Prop :=
  Forall2 (Forall2 (converted_point e cx cy b)) (fr_rings x) (fr_rings x').
