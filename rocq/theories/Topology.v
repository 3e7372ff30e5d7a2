(** * Topology: model of src/topology/types.rs and src/topology/build.rs *)
From Verif Require Export Geo.

(** src/topology/types.rs:45-49 [enum Direction]. *)
Inductive direction := Forward | Backward.
Definition direction_eqb (a b : direction) : bool :=
  match a, b with Forward, Forward | Backward, Backward => true | _, _ => false end.

(** Which of the two ring lists of a region a ring is in. *)
Inductive side := Outer | Inner.

(** A [*const TopoRing]: region index, side, index in that side's list. *)
Record ring_ref := RR { rr_region : nat; rr_side : side; rr_index : nat }.

(** src/topology/types.rs:39-43 [struct DirectedEdge]; the pointer to the edge is
    its index in [Topology::edges]. *)
Record directed_edge := DE { de_edge : nat; de_dir : direction }.

(** src/topology/types.rs:33-37 [struct TopoRing]; null is [None]. *)
Record topo_ring := TRing { tr_des : list directed_edge; tr_region : option nat }.

(** src/topology/types.rs:21-26 [struct TopoRegion]. *)
Record topo_region (D : Type) := TRegion {
  tg_data : D;
  tg_outer : list topo_ring;
  tg_inner : list topo_ring
}.
Arguments TRegion {D}.
Arguments tg_data {D}.
Arguments tg_outer {D}.
Arguments tg_inner {D}.

(** src/topology/types.rs:58-62 [struct TopoEdge]; the two ring slots. *)
Record topo_edge := TEdge {
  te_points : list point;
  te_ring0 : option ring_ref;
  te_ring1 : option ring_ref
}.

(** src/topology/types.rs:13-16 [struct Topology]. *)
Record topology (D : Type) := Topology {
  tp_regions : list (topo_region D);
  tp_edges : list topo_edge
}.
Arguments Topology {D}.
Arguments tp_regions {D}.
Arguments tp_edges {D}.

(** ** Pieces shared by TopologyBuilder (src/topology/build.rs) and the clip
    Builder (src/clip/topology.rs), where the same Rust text appears twice. *)

(** src/topology/build.rs:10-24, src/clip/topology.rs:14-28: [BuildDirectedEdge],
    [BuildRing], [BuildRegion].  A [BuildDirectedEdge] has the same content as the
    final [DirectedEdge] (an edge number and a direction). *)
Definition build_ring := list directed_edge.
Record build_region (D : Type) := BRegion {
  br_data : D;
  br_outer : list build_ring;
  br_inner : list build_ring
}.
Arguments BRegion {D}.
Arguments br_data {D}.
Arguments br_outer {D}.
Arguments br_inner {D}.

(** src/topology/build.rs:29-41, src/clip/topology.rs:91-103
    [build_ring_to_topo_ring_with_null_ptrs]: [&edges[edge_id]] is bounds-checked. *)
Definition topo_ring_null (n_edges : nat) (r : build_ring) : res topo_ring :=
  des <- mmap (fun d => if Nat.ltb (de_edge d) n_edges then Ok d else Panic PIndex) r ;;
  Ok (TRing des None).

(** src/topology/build.rs:152-165, src/clip/topology.rs:254-266. *)
Definition topo_region_null {D} (n_edges : nat) (r : build_region D) : res (topo_region D) :=
  outer <- mmap (topo_ring_null n_edges) (br_outer r) ;;
  inner <- mmap (topo_ring_null n_edges) (br_inner r) ;;
  Ok (TRegion (br_data r) outer inner).

(** src/topology/build.rs:173-184, src/clip/topology.rs:276-287: record in the edge
    that the ring [rr] uses it; slot 0 first, then slot 1, else the assertion fails. *)
Definition link_edge (rr : ring_ref) (es : list topo_edge) (d : directed_edge)
  : res (list topo_edge) :=
  e <- get_or PNull es (de_edge d) ;;
  match te_ring0 e with
  | None => Ok (set_nth es (de_edge d) (TEdge (te_points e) (Some rr) (te_ring1 e)))
  | Some _ =>
      _ <- rassert (is_none (te_ring1 e)) ;;
      Ok (set_nth es (de_edge d) (TEdge (te_points e) (te_ring0 e) (Some rr)))
  end.

(** src/topology/build.rs:170-185, src/clip/topology.rs:273-288: one ring of region [ri]. *)
Definition link_ring (ri : nat) (s : side) (es : list topo_edge) (kr : nat * topo_ring)
  : res (list topo_edge) :=
  mfold (link_edge (RR ri s (fst kr))) (tr_des (snd kr)) es.

(** src/topology/build.rs:167-186, src/clip/topology.rs:270-289: one region; the
    [chain] visits outer rings, then inner rings. *)
Definition link_region {D} (es : list topo_edge) (ir : nat * topo_region D)
  : res (list topo_edge) :=
  es1 <- mfold (link_ring (fst ir) Outer) (enumerate (tg_outer (snd ir))) es ;;
  mfold (link_ring (fst ir) Inner) (enumerate (tg_inner (snd ir))) es1.

(** src/topology/build.rs:171, src/clip/topology.rs:274: [ring.region = region_p]. *)
Definition set_region {D} (ir : nat * topo_region D) : topo_region D :=
  let f r := TRing (tr_des r) (Some (fst ir)) in
  TRegion (tg_data (snd ir)) (map f (tg_outer (snd ir))) (map f (tg_inner (snd ir))).

(** src/topology/build.rs:152-191, src/clip/topology.rs:253-294: build rings and
    regions from edge numbers, then set all pointers.  The Rust code interleaves
    [ring.region = region_p] with linking the ring's edges; the two write to
    different places, so the model does them in two passes. *)
Definition finish_topology {D} (regions : list (build_region D)) (edges : list topo_edge)
  : res (topology D) :=
  rs <- mmap (topo_region_null (length edges)) regions ;;
  es <- mfold link_region (enumerate rs) edges ;;
  Ok (Topology (map set_region (enumerate rs)) es).

(** ** TopologyBuilder *)

(** The [HashMap<BuildEdge, EdgeId>] of src/topology/build.rs:46, as an association
    list in insertion order. *)
Definition edge_map := list (list point * nat).

Fixpoint em_find (m : edge_map) (k : list point) : option nat :=
  match m with
  | [] => None
  | (k', v) :: t => if pts_eqb k' k then Some v else em_find t k
  end.

(** src/topology/build.rs:43-47 [struct TopologyBuilder]. *)
Record builder (D : Type) := Builder {
  bl_regions : list (build_region D);
  bl_edges : edge_map
}.
Arguments Builder {D}.
Arguments bl_regions {D}.
Arguments bl_edges {D}.

(** src/topology/build.rs:51-56 [TopologyBuilder::new]. *)
Definition builder_new {D} : builder D := Builder [] [].

(** src/topology/build.rs:109-117: the canonical direction of an edge and its points
    in that direction.  [winding_order] is only evaluated when the end points are
    equal ([||] and [&&] short-circuit). *)
Definition canonical (m : mode) (ps : list point) : res (list point * direction) :=
  p1 <- get ps 0 ;;
  p2 <- get ps (length ps - 1) ;;
  forward <- (if pt_ltb p1 p2 then Ok true
              else if pt_eqb p1 p2
                   then w <- ring_winding_order m (RPoints ps) ;; Ok (winding_eqb w Clockwise)
                   else Ok false) ;;
  Ok (if (forward : bool) then (ps, Forward) else (rev ps, Backward)).

(** src/topology/build.rs:104: is the edge zero-length? *)
Definition zero_length (ps : list point) : bool :=
  (length ps <? 2)%nat ||
  match ps with [a; b] => pt_eqb a b | _ => false end.

(** src/topology/build.rs:101-131 [build_directed_edge]. *)
Definition build_directed_edge (m : mode) (em : edge_map) (ps : list point)
  : res (option directed_edge * edge_map) :=
  if zero_length ps then Ok (None, em)
  else
    '(key, dir) <- canonical m ps ;;
    match em_find em key with
    | Some id => Ok (Some (DE id dir), em)
    | None => Ok (Some (DE (length em) dir), em ++ [(key, length em)])
    end.

(** The [flat_map] of src/topology/build.rs:93-95 over the edges of a ring. *)
Definition build_des (m : mode) (em : edge_map) (es : list edge)
  : res (list directed_edge * edge_map) :=
  mfold (fun st e =>
           '(o, em') <- build_directed_edge m (snd st) e ;;
           Ok (match o with Some d => fst st ++ [d] | None => fst st end, em'))
        es ([], em).

(** src/topology/build.rs:88-98 [build_ring]. *)
Definition build_ring_of (m : mode) (em : edge_map) (r : ring)
  : res (option build_ring * edge_map) :=
  a <- ring_area2 m r ;;
  if a =? 0 then Ok (None, em)
  else '(des, em') <- build_des m em (ring_edges r) ;; Ok (Some des, em').

(** src/topology/build.rs:79-81 [build_rings]. *)
Definition build_rings (m : mode) (em : edge_map) (rs : list ring)
  : res (list build_ring * edge_map) :=
  mfold (fun st r =>
           '(o, em') <- build_ring_of m (snd st) r ;;
           Ok (match o with Some br => fst st ++ [br] | None => fst st end, em'))
        rs ([], em).

(** src/topology/build.rs:58-71 [add_region]. *)
Definition add_region {D} (m : mode) (b : builder D) (rg : region D) : res (builder D) :=
  '(outer, em1) <- build_rings m (bl_edges b) (rg_outer rg) ;;
  if (0 <? length outer)%nat then
    '(inner, em2) <- build_rings m em1 (rg_inner rg) ;;
    Ok (Builder (bl_regions b ++ [BRegion (rg_data rg) outer inner]) em2)
  else Ok (Builder (bl_regions b) em1).

(** src/topology/build.rs:137-146: put each map entry at the index of its id.
    [iter] is the sequence in which the HashMap is iterated. *)
Definition place_edges (n : nat) (iter : edge_map) : res (list (option (list point))) :=
  mfold (fun v kid =>
           if Nat.ltb (snd kid) (length v) then Ok (set_nth v (snd kid) (Some (fst kid)))
           else Panic PIndex)
        iter (repeat None n).

(** src/topology/build.rs:148-150: [expect("programming error...")]. *)
Definition expect_all (v : list (option (list point))) : res (list (list point)) :=
  mmap (fun o => match o with Some p => Ok p | None => Panic PUnwrap end) v.

(** src/topology/build.rs:133-192 [into_topology], for a given iteration order of the
    HashMap. *)
Definition into_topology_iter {D} (b : builder D) (iter : edge_map) : res (topology D) :=
  v <- place_edges (length (bl_edges b)) iter ;;
  pts <- expect_all v ;;
  finish_topology (bl_regions b) (map (fun p => TEdge p None None) pts).

Definition into_topology {D} (b : builder D) : res (topology D) :=
  into_topology_iter b (bl_edges b).

(** A whole use of the builder: [new], then [add_region] for each region, then
    [into_topology] (the pattern of examples/shp-to-geo-data.rs:56-83 and
    src/normalize.rs:410-422). *)
Definition add_regions {D} (m : mode) (b : builder D) (rs : list (region D)) : res (builder D) :=
  mfold (add_region m) rs b.

Definition build_topology {D} (m : mode) (rs : list (region D)) : res (topology D) :=
  b <- add_regions m builder_new rs ;; into_topology b.
