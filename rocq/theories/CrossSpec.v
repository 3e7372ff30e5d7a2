(** * CrossSpec: edges that cross *)
From Verif Require Export NormSpec ClipStepsSpec ComposeSpec.

(** On which side of the line from [a] to [b] the point [c] is: twice the area of the triangle, signed. *)
Definition turn (a b c : point) : Z := (px b - px a) * (py c - py a) - (px c - px a) * (py b - py a).

(** The segments cross in a point inside both of them: the ends of each are strictly on different
    sides of the other. *)
Definition segments_cross (a b c d : point) : Prop :=
  turn a b c * turn a b d < 0 /\ turn c d a * turn c d b < 0.

Definition paths_cross (ps qs : list point) : Prop :=
  exists a b c d, In [a; b] (segments ps) /\ In [c; d] (segments qs) /\ segments_cross a b c d.

(** Neither do two of the paths cross, nor does one of them cross itself. *)
Definition no_crossings (es : list (list point)) : Prop :=
  forall ps qs, In ps es -> In qs es -> ~ paths_cross ps qs.

Definition planar {D} (t : topology D) : Prop := no_crossings (map te_points (tp_edges t)).

(** All lines of some regions, before a topology is built. *)
Definition input_paths {D} (rs : list (region D)) : list (list point) :=
  flat_map (fun g => flat_map paths (rg_outer g ++ rg_inner g)) rs.

(** ** Simplification *)

(** [part] is a stretch of the path. *)
Definition part_of (part ps : list point) : Prop := exists x y, ps = x ++ part ++ y.

(** There is a line (all points with [u * x + v * y = w]) with [ps] on one side and [qs] on the other. *)
Definition separated (ps qs : list point) : Prop :=
  exists u v w, (u <> 0 \/ v <> 0) /\
    (forall p, In p ps -> u * px p + v * py p <= w) /\ (forall q, In q qs -> w <= u * px q + v * py q).

(** ** Clipping *)

(** Every edge that crosses the line of the mask does so at integer coordinates. *)
Definition exact_crossings {D} (k : clip_mask) (t : topology D) : Prop :=
  forall e p q, In e (tp_edges t) -> In [p; q] (segments (te_points e)) -> between_points k p q = false.

(** ** Decision procedures *)

Fixpoint segment_pairs (ps : list point) : list (point * point) :=
  match ps with p :: ((q :: _) as t) => (p, q) :: segment_pairs t | _ => [] end.
Definition segments_crossb (s z : point * point) : bool :=
  (turn (fst s) (snd s) (fst z) * turn (fst s) (snd s) (snd z) <? 0) &&
  (turn (fst z) (snd z) (fst s) * turn (fst z) (snd z) (snd s) <? 0).
Definition planarb {D} (t : topology D) : bool :=
  let ss := flat_map (fun e => segment_pairs (te_points e)) (tp_edges t) in
  forallb (fun s => forallb (fun z => negb (segments_crossb s z)) ss) ss.
