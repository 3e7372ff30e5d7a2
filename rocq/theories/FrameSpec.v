(** * FrameSpec: moving, turning and reflecting a map *)
From Verif Require Export ClipTopoSpec.

(** A change of coordinates that keeps lengths and the directions of the axes: exchange x and y
    (or not), reflect (or not), and shift. *)
Record frame := Frame { fr_swap : bool; fr_flip_x : bool; fr_flip_y : bool; fr_x : Z; fr_y : Z }.

Definition place (flip : bool) (o v : Z) : Z := if flip then o - v else o + v.

Definition moved (f : frame) (p : point) : point :=
  let x := if fr_swap f then py p else px p in
  let y := if fr_swap f then px p else py p in
  Pt (place (fr_flip_x f) (fr_x f) x) (place (fr_flip_y f) (fr_y f) y).

Definition moved_points (f : frame) (ps : list point) : list point := map (moved f) ps.

(** The mask that keeps the moved points of the half plane of [k]. *)
Definition moved_mask (f : frame) (k : clip_mask) : clip_mask :=
  let looks_at_x := match k with MinX _ | MaxX _ => true | MinY _ | MaxY _ => false end in
  let keeps_larger := match k with MinX _ | MinY _ => true | MaxX _ | MaxY _ => false end in
  if xorb looks_at_x (fr_swap f)
  then (if xorb keeps_larger (fr_flip_x f) then MinX else MaxX) (place (fr_flip_x f) (fr_x f) (level k))
  else (if xorb keeps_larger (fr_flip_y f) then MinY else MaxY) (place (fr_flip_y f) (fr_y f) (level k)).

(** A topology with moved edges; rings and references are the same. *)
Definition moved_edge (f : frame) (e : topo_edge) : topo_edge :=
  TEdge (moved_points f (te_points e)) (te_ring0 e) (te_ring1 e).
Definition moved_topology {D} (f : frame) (t : topology D) : topology D :=
  Topology (tp_regions t) (map (moved_edge f) (tp_edges t)).

Definition moved_path (f : frame) : option (list point) -> option (list point) := option_map (moved_points f).
Definition moved_shape {D} (f : frame) (s : shape D) : shape D :=
  Shape (s_data s) (map (map (moved_path f)) (s_outer s)) (map (map (moved_path f)) (s_inner s)).

(** The moved map still has u32 coordinates. *)
Definition stays (f : frame) {D} (t : topology D) : Prop :=
  Forall (fun e => wf_points (moved_points f (te_points e))) (tp_edges t).
