(** * LocalSpec: where simplification changes a map

    Uses no function of the model. *)
From Verif Require Export SimplifyPlaceSpec.

(** The straight line between the ends of a stretch. *)
Definition chord (s : list point) : list point :=
  match first s, final s with Some p, Some q => [p; q] | _, _ => [] end.

(** [ss] are the stretches of [ps], one after the other, that [r] replaces by straight lines. *)
Definition straightens (ps r : list point) (ss : list (list point)) : Prop :=
  (exists p q, chain p ss q) /\ Forall (fun s => (2 <= length s)%nat) ss /\
  glue ss = ps /\ glue (map chord ss) = r.

(** A line separates the place from all points of the stretch: the place is not in their convex hull. *)
Definition apart (z : place) (s : list point) : Prop :=
  exists a b, forall p, In p s -> a * east z p + b * south z p < 0.

(** The stretch is a line already, or the place is apart from it. *)
Definition spared (z : place) (s : list point) : Prop := length s = 2%nat \/ apart z s.
