(** * NormFrameSpec: normalized maps in another frame of reference *)
From Verif Require Export BuildFrameSpec NormCanonSpec.

(** The frame exchanges left and right: what was clockwise is counterclockwise. *)
Definition mirrors (f : frame) : bool := xorb (fr_swap f) (xorb (fr_flip_x f) (fr_flip_y f)).

(** The moved ring in the direction it had. *)
Definition facing_ring (f : frame) (r : list (option (list point))) : list (option (list point)) :=
  if mirrors f then rev (map (option_map (@rev point)) (map (moved_path f) r)) else map (moved_path f) r.
Definition facing_shape {D} (f : frame) (s : shape D) : shape D :=
  Shape (s_data s) (map (facing_ring f) (s_outer s)) (map (facing_ring f) (s_inner s)).
