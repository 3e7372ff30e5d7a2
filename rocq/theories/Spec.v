(** * Spec: the mathematical notions used in theorem statements

    Nothing here uses a function of the model: only its data types. *)
From Verif Require Export Geo.

(** ** Numbers *)

(** A value a u32 can hold. *)
Definition is_u32 (z : Z) : Prop := 0 <= z < 2 ^ 32.
(** A value an i64 can hold. *)
Definition fits (z : Z) : Prop := - 2 ^ 63 <= z < 2 ^ 63.
Definition wf_point (p : point) : Prop := is_u32 (px p) /\ is_u32 (py p).
Definition wf_points (ps : list point) : Prop := Forall wf_point ps.

(** ** Areas *)

(** The cross product of two position vectors. *)
Definition det (p q : point) : Z := px p * py q - px q * py p.

(** Twice the signed area swept by a path, in unbounded integers; positive means clockwise
    when the y axis points down. *)
Fixpoint shoelace (ps : list point) : Z :=
  match ps with
  | p :: ((q :: _) as t) => det p q + shoelace t
  | _ => 0
  end.

(** The mathematical values of all i64 operations needed to add the swept area of a path
    to [acc], one step at a time. *)
Fixpoint path_values (acc : Z) (ps : list point) : list Z :=
  match ps with
  | p :: ((q :: _) as t) =>
      px p * py q :: px q * py p :: det p q :: (acc + det p q) :: path_values (acc + det p q) t
  | _ => []
  end.

(** Twice the signed area of a sequence of paths. *)
Fixpoint shoelaces (es : list (list point)) : Z :=
  match es with [] => 0 | e :: t => shoelace e + shoelaces t end.

Fixpoint paths_values (acc : Z) (es : list (list point)) : list Z :=
  match es with
  | [] => []
  | e :: t => path_values 0 e ++ (acc + shoelace e) :: paths_values (acc + shoelace e) t
  end.

(** Twice the exact signed area of a ring. *)
Definition ring_area (r : ring) : Z :=
  match r with RPoints ps => shoelace ps | REdges es => shoelaces es end.

(** All values computed on the way to a ring's area and winding order; the last one is the
    absolute value of the total. *)
Definition ring_values (r : ring) : list Z :=
  match r with
  | RPoints ps => path_values 0 ps ++ [Z.abs (shoelace ps)]
  | REdges es => paths_values 0 es ++ [Z.abs (shoelaces es)]
  end.

Definition winding_of (a : Z) : winding := if 0 <=? a then Clockwise else CounterClockwise.

(** ** Paths *)

(** First point of a path (only used on non-empty paths). *)
Definition first (ps : list point) : option point := hd_error ps.
Definition final (ps : list point) : option point := hd_error (rev ps).

Definition is_closed (ps : list point) : Prop := ps <> [] /\ first ps = final ps.

(** The closed ring through the points of a cycle: the first point is repeated at the end. *)
Definition close (c : list point) : list point :=
  match c with [] => [] | p :: _ => c ++ [p] end.

(** Each path starts where the previous one ended. *)
Fixpoint connected (es : list (list point)) : Prop :=
  match es with
  | [] => True
  | [e] => e <> []
  | e :: ((f :: _) as t) => e <> [] /\ final e = first f /\ connected t
  end.

(** Glue connected paths to one path, listing each junction once. *)
Definition glue (es : list (list point)) : list point :=
  match es with
  | [] => []
  | e :: t => e ++ concat (map (@tl point) t)
  end.

(** The segments of a path. *)
Fixpoint segments (ps : list point) : list (list point) :=
  match ps with
  | p :: ((q :: _) as t) => [p; q] :: segments t
  | _ => []
  end.

(** Remove repetitions of a point by its immediate neighbour. *)
Fixpoint dedup (ps : list point) : list point :=
  match ps with
  | p :: ((q :: _) as t) => if pt_eqb p q then dedup t else p :: dedup t
  | _ => ps
  end.
