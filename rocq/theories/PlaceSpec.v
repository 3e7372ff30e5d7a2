(** * PlaceSpec: which places a ring goes around

    Winding numbers, by counting how often a path crosses a ray.  Uses no function of the model. *)
From Verif Require Export NormSpec ClipTopoSpec.

(** The place with coordinates [pl_x / pl_n] and [pl_y / pl_n]. *)
Record place := Place { pl_x : Z; pl_y : Z; pl_n : positive }.

(** How far a point is to the east (south) of a place, in units of [1 / pl_n]; y grows downwards. *)
Definition east (z : place) (p : point) : Z := Zpos (pl_n z) * px p - pl_x z.
Definition south (z : place) (p : point) : Z := Zpos (pl_n z) * py p - pl_y z.

(** The four rays from a place along the axes. *)
Inductive ray := East | South | West | North.

(** Coordinates turned so that the ray is the positive [ahead] axis. *)
Definition ahead (d : ray) (z : place) (p : point) : Z :=
  match d with East => east z p | South => south z p | West => - east z p | North => - south z p end.
Definition across (d : ray) (z : place) (p : point) : Z :=
  match d with East => south z p | South => - east z p | West => - south z p | North => east z p end.

(** Twice the area of the triangle of the place and a segment; positive if the segment passes
    clockwise. *)
Definition swept (z : place) (p q : point) : Z := east z p * south z q - east z q * south z p.

(** How the segment from [p] to [q] crosses the ray: 1 clockwise, -1 counter-clockwise.  A
    point on the line of the ray counts as lying on its counter-clockwise side. *)
Definition ray_crossing (d : ray) (z : place) (p q : point) : Z :=
  if (across d z p <=? 0) && (0 <? across d z q) && (0 <? swept z p q) then 1
  else if (across d z q <=? 0) && (0 <? across d z p) && (swept z p q <? 0) then -1
  else 0.

(** How often some paths together go around the place, clockwise. *)
Definition segment_crossing (d : ray) (z : place) (s : list point) : Z :=
  match s with [p; q] => ray_crossing d z p q | _ => 0 end.
Definition winds_by (d : ray) (z : place) (es : list (list point)) : Z :=
  sum (map (segment_crossing d z) (flat_map segments es)).
Definition winding_number (z : place) (es : list (list point)) : Z := winds_by East z es.

(** The place is on the segment. *)
Definition on_segment (z : place) (p q : point) : Prop :=
  swept z p q = 0 /\
  Z.min (east z p) (east z q) <= 0 <= Z.max (east z p) (east z q) /\
  Z.min (south z p) (south z q) <= 0 <= Z.max (south z p) (south z q).
Definition off (z : place) (es : list (list point)) : Prop :=
  forall p q, In [p; q] (flat_map segments es) -> ~ on_segment z p q.

(** Covered according to the even-odd rule, by all rings together. *)
Definition covered_by (es : list (list point)) (z : place) : bool := Z.odd (winding_number z es).

(** Paths that are there. *)
Definition present (ps : list (option (list point))) : list (list point) :=
  flat_map (fun o => match o with Some p => [p] | None => [] end) ps.

(** A closed ring without area (according to the i64 that holds twice of it). *)
Definition flat (es : list (list point)) : Prop := closed_chain es /\ shoelaces es mod 2 ^ 64 = 0.

(** All paths of the rings of an input region. *)
Definition input_paths (rs : list ring) : list (list point) := flat_map paths rs.

(** Each ring of the topology is a closed sequence of edges. *)
Definition closed_rings {D} (t : topology D) : Prop :=
  forall rg r, In rg (tp_regions t) -> In r (tg_outer rg ++ tg_inner rg) ->
    closed_chain (map ne_points (seen_ring t r)).

(** ** Relative to a mask *)

(** The ray that leads away from the mask line. *)
Definition away (k : clip_mask) : ray :=
  match k with MinX _ => East | MaxX _ => West | MinY _ => South | MaxY _ => North end.

(** The place is strictly on the kept side. *)
Definition inside_place (k : clip_mask) (z : place) : Prop :=
  match k with
  | MinX v => Zpos (pl_n z) * v < pl_x z
  | MaxX v => pl_x z < Zpos (pl_n z) * v
  | MinY v => Zpos (pl_n z) * v < pl_y z
  | MaxY v => pl_y z < Zpos (pl_n z) * v
  end.

(** The place is strictly on the other side. *)
Definition outside_place (k : clip_mask) (z : place) : Prop :=
  match k with
  | MinX v => pl_x z < Zpos (pl_n z) * v
  | MaxX v => Zpos (pl_n z) * v < pl_x z
  | MinY v => pl_y z < Zpos (pl_n z) * v
  | MaxY v => Zpos (pl_n z) * v < pl_y z
  end.

(** If the segment crosses the mask line, the place is at least one unit from it, measured
    parallel to the mask line, or further from the mask line than the segment. *)
Definition clear_of (k : clip_mask) (z : place) (p q : point) : Prop :=
  opposite k p q ->
  (ahead (away k) z p < 0 /\ ahead (away k) z q < 0) \/
  Zpos (pl_n z) * Z.abs (ahead (away k) z p - ahead (away k) z q) <= Z.abs (swept z p q).

(** The product computed for a crossing fits. *)
Definition small_step (p q : point) : Prop := Z.abs (px q - px p) * Z.abs (py q - py p) < 2 ^ 63.

(** The place is on no edge and clear of the edges that cross the mask line, and the crossings
    can be computed. *)
Definition good_place {D} (k : clip_mask) (t : topology D) (z : place) : Prop :=
  forall e p q, In e (tp_edges t) -> In [p; q] (segments (te_points e)) ->
    small_step p q /\ clear_of k z p q /\ ~ on_segment z p q.

(** The same for regions that are not in a topology yet. *)
Definition good_input {D} (k : clip_mask) (rs : list (region D)) (z : place) : Prop :=
  forall rg r ps p q, In rg rs -> In r (rg_outer rg ++ rg_inner rg) -> In ps (paths r) -> In [p; q] (segments ps) ->
    small_step p q /\ clear_of k z p q /\ ~ on_segment z p q.

Definition wf_input {D} (rs : list (region D)) : Prop :=
  forall rg r ps p, In rg rs -> In r (rg_outer rg ++ rg_inner rg) -> In ps (paths r) -> In p ps -> wf_point p.

(** What is left of an input region after several operations: nothing, or one region with the same
    data that covers the place if the input does, not counting rings of the input without area and
    rings that had no area after some operation. *)
Definition followed {D} z (rg : region D) (part : list (shape D)) : Prop :=
  (length part <= 1)%nat /\ (forall s, In s part -> s_data s = rg_data rg) /\
  (part <> [] -> exists lost_in lost, incl lost_in (rg_outer rg ++ rg_inner rg) /\
     Forall (fun r => has_area r = false) lost_in /\ Forall flat lost /\
     covered_by (input_paths (rg_outer rg ++ rg_inner rg)) z =
     xorb (covered_by (present (flat_map shape_paths part)) z)
          (xorb (covered_by (input_paths lost_in) z) (covered_by (concat lost) z))).
