(** * ClipSpec: half planes and clipping, independently of the code *)
From Verif Require Export TopoSpec Clip.

(** ** The half plane kept by a mask *)

(** The coordinate a mask looks at, the other coordinate, and the mask line. *)
Definition axis (k : clip_mask) (p : point) : Z :=
  match k with MinX _ | MaxX _ => px p | MinY _ | MaxY _ => py p end.
Definition along (k : clip_mask) (p : point) : Z :=
  match k with MinX _ | MaxX _ => py p | MinY _ | MaxY _ => px p end.
Definition level (k : clip_mask) : Z :=
  match k with MinX v | MaxX v | MinY v | MaxY v => v end.
Definition wf_mask (k : clip_mask) : Prop := is_u32 (level k).

(** Strictly on the kept side, on the mask line, strictly on the other side. *)
Definition inside (k : clip_mask) (p : point) : Prop :=
  match k with MinX v => v < px p | MaxX v => px p < v | MinY v => v < py p | MaxY v => py p < v end.
Definition on_line (k : clip_mask) (p : point) : Prop := axis k p = level k.
Definition outside (k : clip_mask) (p : point) : Prop :=
  match k with MinX v => px p < v | MaxX v => v < px p | MinY v => py p < v | MaxY v => v < py p end.

Definition insideb (k : clip_mask) (p : point) : bool :=
  match k with MinX v => v <? px p | MaxX v => px p <? v | MinY v => v <? py p | MaxY v => py p <? v end.
Definition outsideb (k : clip_mask) (p : point) : bool :=
  match k with MinX v => px p <? v | MaxX v => v <? px p | MinY v => py p <? v | MaxY v => v <? py p end.

Definition opposite (k : clip_mask) (p q : point) : Prop :=
  (inside k p /\ outside k q) \/ (outside k p /\ inside k q).

(** ** Crossing points *)

(** [r] is where the segment from [p] to [q] meets the mask line, up to rounding: on the line,
    between the ends, less than one unit from the exact crossing and not beyond it as seen
    from [p].  All conditions are multiplied by the length of the segment along the axis. *)
Definition rounded_crossing (k : clip_mask) (p q r : point) : Prop :=
  on_line k r /\
  Z.min (along k p) (along k q) <= along k r <= Z.max (along k p) (along k q) /\
  Z.abs ((along k r - along k p) * (axis k q - axis k p)
         - (level k - axis k p) * (along k q - along k p)) < Z.abs (axis k q - axis k p) /\
  Z.abs (along k r - along k p) * Z.abs (axis k q - axis k p)
    <= Z.abs (level k - axis k p) * Z.abs (along k q - along k p).

(** ** Clipping a path, segment by segment *)

(** The kept part of a segment (Sutherland-Hodgman for one half plane); [x] is its crossing
    point. The flag tells whether the part starts at an input point. *)
Definition kept_part (k : clip_mask) (x p q : point) : list (point * point * bool) :=
  if insideb k p then [(p, if outsideb k q then x else q, true)]
  else if insideb k q then (if outsideb k p then [(x, q, false)] else [(p, q, true)])
  else [].

(** Append a part to a path: an input point that ends the path already is not repeated. *)
Definition append_part (out : list point) (s : point * point * bool) : list point :=
  let '(a, b, vertex) := s in
  if vertex && match final out with Some z => pt_eqb z a | None => false end
  then out ++ [b] else out ++ [a; b].

Definition kept_parts (k : clip_mask) (X : point -> point -> point) (ps : list point)
  : list (point * point * bool) :=
  flat_map (fun s => kept_part k (X (fst s) (snd s)) (fst s) (snd s)) (combine ps (tl ps)).

Definition clip_path (k : clip_mask) (X : point -> point -> point) (ps : list point) : list point :=
  fold_left append_part (kept_parts k X ps) [].

(** The end points of the parts, one after the other. *)
Definition part_points (parts : list (point * point * bool)) : list point :=
  flat_map (fun s => [fst (fst s); snd (fst s)]) parts.

(** Consecutive parts touch, or are joined along the mask line. *)
Fixpoint parts_joined (k : clip_mask) (parts : list (point * point * bool)) : Prop :=
  match parts with
  | s :: ((s' :: _) as t) =>
      (snd (fst s) = fst (fst s') \/ (on_line k (snd (fst s)) /\ on_line k (fst (fst s')))) /\
      parts_joined k t
  | _ => True
  end.

(** A subsequence. *)
Inductive subseq {A} : list A -> list A -> Prop :=
| sub_nil : subseq [] []
| sub_skip a l l' : subseq l l' -> subseq l (a :: l')
| sub_take a l l' : subseq l l' -> subseq (a :: l) (a :: l').
