(** * ClipTwiceSpec: shapes up to repeated points *)
From Verif Require Export ClipTopoSpec.

(** A shape whose lines have no point twice in a row. *)
Definition without_repeats {D} (s : shape D) : shape D :=
  Shape (s_data s) (map (map (option_map dedup)) (s_outer s)) (map (map (option_map dedup)) (s_inner s)).

(** No line of the topology has a point twice in a row. *)
Definition no_repeats {D} (t : topology D) : Prop :=
  forall e, In e (tp_edges t) -> dedup (te_points e) = te_points e.
