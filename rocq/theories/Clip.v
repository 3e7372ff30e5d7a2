(** * Clip: model of src/clip/types.rs, src/clip/edge.rs, src/clip/topology.rs *)
From Verif Require Export Topology.

(** src/clip/types.rs:7-12 [enum ClipMask]. *)
Inductive clip_mask := MinX (x : Z) | MaxX (x : Z) | MinY (y : Z) | MaxY (y : Z).

(** src/clip/types.rs:14-19 [enum ClipLocation]. *)
Inductive clip_location := Inside | OnEdge | Outside.
Definition loc_eqb (a b : clip_location) : bool :=
  match a, b with
  | Inside, Inside | OnEdge, OnEdge | Outside, Outside => true
  | _, _ => false
  end.

(** src/clip/types.rs:24-45 [ClipMask::test]. *)
Definition mask_test (k : clip_mask) (p : point) : clip_location :=
  let on_edge :=
    match k with
    | MinX x | MaxX x => px p =? x
    | MinY y | MaxY y => py p =? y
    end in
  let t (inside : bool) := if inside then Inside else Outside in
  if on_edge then OnEdge
  else match k with
       | MinX x => t (px p >=? x)
       | MaxX x => t (px p <=? x)
       | MinY y => t (py p >=? y)
       | MaxY y => t (py p <=? y)
       end.

(** src/clip/types.rs:56, 60: [c1 + (v - a1) * (c2 - c1) / (a2 - a1)] in i64, where
    [a] is the coordinate along the clipped axis and [c] the other one. *)
Definition interpolate (m : mode) (v a1 c1 a2 c2 : Z) : res Z :=
  d1 <- i64_sub m v a1 ;;
  d2 <- i64_sub m c2 c1 ;;
  n <- i64_mul m d1 d2 ;;
  d <- i64_sub m a2 a1 ;;
  q <- i64_div n d ;;
  i64_add m c1 q.

(** src/clip/types.rs:51-64 [ClipMask::intersect]; [y as u32] truncates. *)
Definition mask_intersect (m : mode) (k : clip_mask) (p1 p2 : point) : res point :=
  match k with
  | MinX x | MaxX x =>
      y <- interpolate m x (px p1) (py p1) (px p2) (py p2) ;;
      Ok (Pt x (as_u32 y))
  | MinY y | MaxY y =>
      x <- interpolate m y (py p1) (px p1) (py p2) (px p2) ;;
      Ok (Pt (as_u32 x) y)
  end.

Definition last_opt {A} (l : list A) : option A :=
  match l with [] => None | _ => nth_error l (length l - 1) end.

(** The loop state of [clip_edge]: output so far, previous point and its location. *)
Record clip_state := CS { cs_ret : list point; cs_prev : point; cs_loc : clip_location }.

(** src/clip/edge.rs:52-89: one iteration of the loop. *)
Definition clip_step (m : mode) (k : clip_mask) (s : clip_state) (p : point) : res clip_state :=
  let loc := mask_test k p in
  let ret := cs_ret s in
  let prev := cs_prev s in
  ret' <-
    match loc with
    | OnEdge => Ok (if loc_eqb (cs_loc s) Inside then ret ++ [p] else ret)
    | Inside =>
        r1 <- (if loc_eqb (cs_loc s) Outside
               then q <- mask_intersect m k prev p ;; Ok (ret ++ [q]) else Ok ret) ;;
        let r2 := if loc_eqb (cs_loc s) OnEdge
                  then (if match last_opt r1 with Some l => pt_eqb l prev | None => false end
                        then r1 else r1 ++ [prev])
                  else r1 in
        Ok (r2 ++ [p])
    | Outside =>
        if loc_eqb (cs_loc s) Inside
        then q <- mask_intersect m k prev p ;; Ok (ret ++ [q]) else Ok ret
    end ;;
  Ok (CS ret' p loc).

(** src/clip/edge.rs:38-92 [clip_edge]. *)
Definition clip_edge (m : mode) (k : clip_mask) (ps : list point) : res (list point) :=
  match ps with
  | [] | [_] => Ok []
  | p0 :: rest =>
      let l0 := mask_test k p0 in
      s <- mfold (clip_step m k) rest (CS (if loc_eqb l0 Inside then [p0] else []) p0 l0) ;;
      Ok (cs_ret s)
  end.

(** ** clip/topology.rs *)

(** src/clip/topology.rs:30-35 [first_point]. *)
Definition first_point (ps : list point) (d : direction) : res point :=
  match d with Forward => get ps 0 | Backward => get ps (length ps - 1) end.

(** src/clip/topology.rs:37-42 [last_point]. *)
Definition last_point (ps : list point) (d : direction) : res point :=
  match d with Forward => get ps (length ps - 1) | Backward => get ps 0 end.

(** src/clip/topology.rs:44-51: [BuildEdge] and the HashMap of [NewEdgeSet]. *)
Definition seg_map := list ((point * point) * nat).

Definition seg_eqb (a b : point * point) : bool :=
  pt_eqb (fst a) (fst b) && pt_eqb (snd a) (snd b).

Fixpoint sm_find (m : seg_map) (k : point * point) : option nat :=
  match m with
  | [] => None
  | (k', v) :: t => if seg_eqb k' k then Some v else sm_find t k
  end.

(** src/clip/topology.rs:47-51 [struct NewEdgeSet]. *)
Record new_edge_set := NES { nes_first : nat; nes_edges : seg_map }.

(** src/clip/topology.rs:65-79 [NewEdgeSet::build_directed_edge]. *)
Definition nes_build (s : new_edge_set) (p1 p2 : point) : directed_edge * new_edge_set :=
  let '(a, b, dir) := if pt_ltb p1 p2 then (p1, p2, Forward) else (p2, p1, Backward) in
  let next := (nes_first s + length (nes_edges s))%nat in
  match sm_find (nes_edges s) (a, b) with
  | Some id => (DE id dir, s)
  | None => (DE next dir, NES (nes_first s) (nes_edges s ++ [((a, b), next)]))
  end.

(** src/clip/topology.rs:82-88 [NewEdgeSet::into_iter], for a given iteration order of
    the HashMap; slots start as [BuildEdge(Point(0,0), Point(0,0))]. *)
Definition nes_into_iter (s : new_edge_set) (iter : seg_map) : res (list (point * point)) :=
  mfold (fun v kid =>
           if Nat.ltb (snd kid) (nes_first s) then Panic POverflow
           else if Nat.ltb (snd kid - nes_first s) (length v)
                then Ok (set_nth v (snd kid - nes_first s) (fst kid))
                else Panic PIndex)
        iter (repeat (Pt 0 0, Pt 0 0) (length (nes_edges s))).

(** src/clip/topology.rs:105-112 [struct Builder]; [old_edge_0_ptr] is not needed since
    edge pointers are already indices. *)
Record cbuilder (D : Type) := CB {
  cb_regions : list (build_region D);
  cb_old : list (list point);
  cb_finder : list (option nat);
  cb_new : new_edge_set
}.
Arguments CB {D}.
Arguments cb_regions {D}.
Arguments cb_old {D}.
Arguments cb_finder {D}.
Arguments cb_new {D}.

(** src/clip/topology.rs:123-133: clip every edge; remember where it went. *)
Definition clip_edges (m : mode) (k : clip_mask) (es : list topo_edge)
  : res (list (option nat) * list (list point)) :=
  mfold (fun st e =>
           c <- clip_edge m k (te_points e) ;;
           Ok (if Nat.leb 2 (length c)
               then (fst st ++ [Some (length (snd st))], snd st ++ [c])
               else (fst st ++ [None], snd st)))
        es ([], []).

(** src/clip/topology.rs:115-144 [Builder::new]. *)
Definition cbuilder_new {D} (m : mode) (k : clip_mask) (t : topology D) : res (cbuilder D) :=
  '(finder, old) <- clip_edges m k (tp_edges t) ;;
  Ok (CB [] old finder (NES (length old) [])).

(** src/clip/topology.rs:230-235 [find_old_edge_id]: pointer arithmetic on
    [topology.edges], i.e. the edge's index. *)
Definition find_old (finder : list (option nat)) (id : nat) : res (option nat) :=
  get finder id.

(** Loop state of [clip_ring]: [ret], [area2], [start_point], [previous_point],
    [self.new_edges]. *)
Record ring_state := RS {
  rs_ret : list directed_edge;
  rs_area : Z;
  rs_start : option point;
  rs_prev : option point;
  rs_new : new_edge_set
}.

(** src/clip/topology.rs:186-196: plug the gap between the previous visible point and
    the start of the current edge. *)
Definition plug_gap (m : mode) (p q : point) (s : ring_state) : res ring_state :=
  if pt_eqb p q then Ok s
  else
    g <- signed_area2 m [p; q] ;;
    a <- i64_add m (rs_area s) g ;;
    let '(d, nes) := nes_build (rs_new s) p q in
    Ok (RS (rs_ret s ++ [d]) a (rs_start s) (rs_prev s) nes).

(** src/clip/topology.rs:177-211: one directed edge of the ring. *)
Definition clip_ring_step (m : mode) (old : list (list point)) (finder : list (option nat))
    (s : ring_state) (de : directed_edge) : res ring_state :=
  o <- find_old finder (de_edge de) ;;
  match o with
  | None => Ok s
  | Some id =>
      ps <- get old id ;;
      fp <- first_point ps (de_dir de) ;;
      let s1 := RS (rs_ret s) (rs_area s)
                   (match rs_start s with None => Some fp | Some _ => rs_start s end)
                   (rs_prev s) (rs_new s) in
      s2 <- match rs_prev s1 with
            | Some p => plug_gap m p fp s1
            | None => Ok s1
            end ;;
      lp <- last_point ps (de_dir de) ;;
      sa <- signed_area2 m (match de_dir de with Forward => ps | Backward => rev ps end) ;;
      a <- i64_add m (rs_area s2) sa ;;
      Ok (RS (rs_ret s2 ++ [DE id (de_dir de)]) a (rs_start s2) (Some lp) (rs_new s2))
  end.

(** src/clip/topology.rs:170-228 [clip_ring]. *)
Definition clip_ring (m : mode) (old : list (list point)) (finder : list (option nat))
    (nes : new_edge_set) (r : topo_ring) : res (option build_ring * new_edge_set) :=
  s <- mfold (clip_ring_step m old finder) (tr_des r) (RS [] 0 None None nes) ;;
  s' <- match rs_start s, rs_prev s with
        | Some p0, Some pn => plug_gap m pn p0 s
        | _, _ => Ok s
        end ;;
  if rs_area s' =? 0 then Ok (None, rs_new s') else Ok (Some (rs_ret s'), rs_new s').

(** src/clip/topology.rs:162-165 [clip_rings]. *)
Definition clip_rings (m : mode) (old : list (list point)) (finder : list (option nat))
    (nes : new_edge_set) (rs : list topo_ring) : res (list build_ring * new_edge_set) :=
  mfold (fun st r =>
           '(o, nes') <- clip_ring m old finder (snd st) r ;;
           Ok (match o with Some br => fst st ++ [br] | None => fst st end, nes'))
        rs ([], nes).

(** src/clip/topology.rs:146-157 [Builder::add_region]. *)
Definition cadd_region {D} (m : mode) (b : cbuilder D) (rg : topo_region D) : res (cbuilder D) :=
  '(outer, nes1) <- clip_rings m (cb_old b) (cb_finder b) (cb_new b) (tg_outer rg) ;;
  if (0 <? length outer)%nat then
    '(inner, nes2) <- clip_rings m (cb_old b) (cb_finder b) nes1 (tg_inner rg) ;;
    Ok (CB (cb_regions b ++ [BRegion (tg_data rg) outer inner]) (cb_old b) (cb_finder b) nes2)
  else Ok (CB (cb_regions b) (cb_old b) (cb_finder b) nes1).

(** src/clip/topology.rs:237-295 [Builder::into_topology], for a given iteration order
    of the HashMap of new edges. *)
Definition cinto_topology_iter {D} (b : cbuilder D) (iter : seg_map) : res (topology D) :=
  segs <- nes_into_iter (cb_new b) iter ;;
  finish_topology (cb_regions b)
    (map (fun p => TEdge p None None) (cb_old b) ++
     map (fun s => TEdge [fst s; snd s] None None) segs).

Definition cinto_topology {D} (b : cbuilder D) : res (topology D) :=
  cinto_topology_iter b (nes_edges (cb_new b)).

(** src/clip/topology.rs:298-306 [clip_topology]. *)
Definition clip_topology {D} (m : mode) (t : topology D) (k : clip_mask) : res (topology D) :=
  b0 <- cbuilder_new m k t ;;
  b <- mfold (cadd_region m) (tp_regions t) b0 ;;
  cinto_topology b.
