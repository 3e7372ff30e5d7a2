(** * ClipAreaSpec: the area of a ring on the kept side of a mask

    By adding up strips: the area between a part of the ring and the mask line.  The areas are
    exact, so they are fractions.  Uses no function of the model. *)
From Coq Require Export QArith Qabs.
From Verif Require Export PlaceSpec.
Open Scope Z_scope.

(** How far a point is inside of the mask line, and where along the line; turned so that going
    clockwise around a place inside is the direction in which [ahead] (see PlaceSpec) would turn
    to [across]. *)
Definition depth (k : clip_mask) (p : point) : Z :=
  match k with MinX v => px p - v | MaxX v => v - px p | MinY v => py p - v | MaxY v => v - py p end.
Definition run (k : clip_mask) (p : point) : Z :=
  match k with MinX _ => py p | MaxX _ => - py p | MinY _ => - px p | MaxY _ => px p end.

(** Twice the area between the mask line and the part of the segment from [p] to [q] on the kept
    side; negative if the segment goes the other way.  The area is that of a trapezium, of a
    triangle if the segment crosses the line, or nothing. *)
Definition strip_between (k : clip_mask) (p q : point) : Q :=
  let a := depth k p in
  let b := depth k q in
  let w := run k q - run k p in
  if (0 <=? a) && (0 <=? b) then inject_Z ((a + b) * w)
  else if (a <=? 0) && (b <=? 0) then 0%Q
  else if 0 <? a then (inject_Z (a * a * w) / inject_Z (a - b))%Q
  else (inject_Z (b * b * w) / inject_Z (b - a))%Q.
Definition strip (k : clip_mask) (s : list point) : Q :=
  match s with [p; q] => strip_between k p q | _ => 0%Q end.

Definition qsum (l : list Q) : Q := fold_right Qplus 0%Q l.

(** Twice the area, on the kept side, that some closed paths go around. *)
Definition area_inside (k : clip_mask) (es : list (list point)) : Q :=
  qsum (map (strip k) (flat_map segments es)).

(** The segment crosses the mask line, but not at a point with integer coordinates. *)
Definition between_points (k : clip_mask) (p q : point) : bool :=
  ((insideb k p && outsideb k q) || (outsideb k p && insideb k q))
  && negb (((level k - axis k p) * (along k q - along k p)) mod (axis k q - axis k p) =? 0).

(** By how much rounding crossings can change twice the area: by the depth of the end inside, for
    each segment whose crossing is rounded. *)
Definition slack (k : clip_mask) (s : list point) : Z :=
  match s with
  | [p; q] => if between_points k p q then Z.max (depth k p) (depth k q) else 0
  | _ => 0
  end.
Definition area_slack (k : clip_mask) (es : list (list point)) : Z :=
  sum (map (slack k) (flat_map segments es)).

(** The mask that keeps the other side. *)
Definition other_side (k : clip_mask) : clip_mask :=
  match k with MinX v => MaxX v | MaxX v => MinX v | MinY v => MaxY v | MaxY v => MinY v end.

(** Crossings can be computed. *)
Definition small_steps {D} (t : topology D) : Prop :=
  forall e p q, In e (tp_edges t) -> In [p; q] (segments (te_points e)) -> small_step p q.

(** The rings [after] have the area that the rings [before] have on the kept side, up to rounding
    crossings, if some closed rings without area (see [flat]) are counted with them. *)
Definition keeps_area (k : clip_mask) (before after : list (list point)) : Prop :=
  exists lost, Forall flat lost /\
  (Qabs (inject_Z (shoelaces after + shoelaces (concat lost)) - area_inside k before) <= inject_Z (area_slack k before))%Q.
