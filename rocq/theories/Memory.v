(** * Memory: the pointers of a topology as addresses
    (src/topology/types.rs, src/topology/build.rs:133-192, src/clip/topology.rs:230-295,
    src/normalize.rs:56-75)

    [Topology] uses indices where the Rust code has raw pointers.  Here the pointers are byte
    addresses, set and followed as in the source.  A pointer that leads to no element of the array
    it should lead to gives [Panic PNull] (in Rust: undefined behaviour).  Aliasing rules are not
    modelled. *)
From Verif Require Export Topology Normalize Clip Simplify.

(** [mem::size_of] of [TopoEdge], [TopoRing] and [TopoRegion] (with their padding). *)
Record sizes := Sizes { sz_edge : Z; sz_ring : Z; sz_region : Z }.

(** What the allocator does while a topology is built: where the buffers of the vectors [edges] and
    [regions] are when the pointers are set, whether they have room for more elements than they
    hold, where [into_boxed_slice] moves them when it gives back that room, and where the rings of
    each region are. *)
Record placing := Placing {
  pl_edges : Z; pl_regions : Z;
  pl_spare_edges : bool; pl_spare_regions : bool;
  pl_moved_edges : Z; pl_moved_regions : Z;
  pl_rings : nat -> side -> Z
}.

(** [Vec::into_boxed_slice]: reallocates only if there is spare room. *)
Definition boxed_at (spare : bool) (buffer moved : Z) : Z := if spare then moved else buffer.

(** src/topology/types.rs:13-62 with addresses; the null pointer is 0.  A boxed slice is its address
    and its elements. *)
Record p_de := PDE { pd_edge : Z; pd_dir : direction }.
Record p_ring := PRing { pr_des : list p_de; pr_region : Z }.
Record p_region (D : Type) := PRegion { pg_data : D; pg_outer_at : Z; pg_outer : list p_ring; pg_inner_at : Z; pg_inner : list p_ring }.
Arguments PRegion {D}.
Arguments pg_data {D}.
Arguments pg_outer_at {D}.
Arguments pg_outer {D}.
Arguments pg_inner_at {D}.
Arguments pg_inner {D}.
Record p_edge := PEdge { pe_points : list point; pe_ring0 : Z; pe_ring1 : Z }.
Record p_topology (D : Type) := PTopology { pt_regions_at : Z; pt_regions : list (p_region D); pt_edges_at : Z; pt_edges : list p_edge }.
Arguments PTopology {D}.
Arguments pt_regions_at {D}.
Arguments pt_regions {D}.
Arguments pt_edges_at {D}.
Arguments pt_edges {D}.

(** The address of element [i] of an array: [&v[i]]. *)
Definition slot (base size : Z) (i : nat) : Z := base + Z.of_nat i * size.

(** The number of the element at an address. *)
Definition index_at (base size : Z) (n : nat) (p : Z) : option nat :=
  let off := p - base in
  if (0 <=? off) && (off mod size =? 0) && (off / size <? Z.of_nat n) then Some (Z.to_nat (off / size)) else None.

(** Following a pointer into an array: the element and its number. *)
Definition deref {A} (base size : Z) (l : list A) (p : Z) : res (nat * A) :=
  match index_at base size (length l) p with
  | None => Panic PNull
  | Some i => x <- get_or PNull l i ;; Ok (i, x)
  end.

(** ** Building *)
Section Build.
Context (sz : sizes) (pl : placing).

(** src/topology/build.rs:29-41, src/clip/topology.rs:91-103 [build_ring_to_topo_ring_with_null_ptrs]. *)
Definition p_ring_null (n_edges : nat) (r : build_ring) : res p_ring :=
  des <- mmap (fun d => if Nat.ltb (de_edge d) n_edges then Ok (PDE (slot (pl_edges pl) (sz_edge sz) (de_edge d)) (de_dir d)) else Panic PIndex) r ;;
  Ok (PRing des 0).

(** src/topology/build.rs:152-165, src/clip/topology.rs:254-266: the slices of rings are boxed
    before anything points to them. *)
Definition p_region_null {D} (n_edges : nat) (ir : nat * build_region D) : res (p_region D) :=
  outer <- mmap (p_ring_null n_edges) (br_outer (snd ir)) ;;
  inner <- mmap (p_ring_null n_edges) (br_inner (snd ir)) ;;
  Ok (PRegion (br_data (snd ir)) (pl_rings pl (fst ir) Outer) outer (pl_rings pl (fst ir) Inner) inner).

(** src/topology/build.rs:173-184, src/clip/topology.rs:276-287: one directed edge of the ring at
    [ring_p]. *)
Definition p_link_edge (ring_p : Z) (es : list p_edge) (d : p_de) : res (list p_edge) :=
  '(i, e) <- deref (pl_edges pl) (sz_edge sz) es (pd_edge d) ;;
  if pe_ring0 e =? 0 then Ok (set_nth es i (PEdge (pe_points e) ring_p (pe_ring1 e)))
  else
    _ <- rassert (pe_ring1 e =? 0) ;;
    Ok (set_nth es i (PEdge (pe_points e) (pe_ring0 e) ring_p)).

(** src/topology/build.rs:170-185, src/clip/topology.rs:273-288: the rings of one slice at [at_p],
    one after the other; each gets its region pointer, then its edges get theirs. *)
Fixpoint p_link_rings (region_p at_p : Z) (k : nat) (rs : list p_ring) (es : list p_edge) : res (list p_ring * list p_edge) :=
  match rs with
  | [] => Ok ([], es)
  | r :: t =>
      es1 <- mfold (p_link_edge (slot at_p (sz_ring sz) k)) (pr_des r) es ;;
      '(t', es2) <- p_link_rings region_p at_p (S k) t es1 ;;
      Ok (PRing (pr_des r) region_p :: t', es2)
  end.

(** src/topology/build.rs:167-186, src/clip/topology.rs:270-289: the loop over the regions. *)
Fixpoint p_link_regions {D} (i : nat) (rs : list (p_region D)) (es : list p_edge) : res (list (p_region D) * list p_edge) :=
  match rs with
  | [] => Ok ([], es)
  | g :: t =>
      let region_p := slot (pl_regions pl) (sz_region sz) i in
      '(outer, es1) <- p_link_rings region_p (pg_outer_at g) 0 (pg_outer g) es ;;
      '(inner, es2) <- p_link_rings region_p (pg_inner_at g) 0 (pg_inner g) es1 ;;
      '(t', es3) <- p_link_regions (S i) t es2 ;;
      Ok (PRegion (pg_data g) (pg_outer_at g) outer (pg_inner_at g) inner :: t', es3)
  end.

(** src/topology/build.rs:152-191, src/clip/topology.rs:253-294, from the points of the edges on. *)
Definition p_finish {D} (regions : list (build_region D)) (points : list (list point)) : res (p_topology D) :=
  rs <- mmap (p_region_null (length points)) (enumerate regions) ;;
  '(rs', es) <- p_link_regions 0 rs (map (fun ps => PEdge ps 0 0) points) ;;
  Ok (PTopology (boxed_at (pl_spare_regions pl) (pl_regions pl) (pl_moved_regions pl)) rs'
                (boxed_at (pl_spare_edges pl) (pl_edges pl) (pl_moved_edges pl)) es).
End Build.

(** ** Using *)
Section Use.
Context (sz : sizes).

(** Following a [*const TopoRing]: the rings of all regions. *)
Fixpoint p_ring_at {D} (gs : list (p_region D)) (p : Z) : res p_ring :=
  match gs with
  | [] => Panic PNull
  | g :: t =>
      match index_at (pg_outer_at g) (sz_ring sz) (length (pg_outer g)) p, index_at (pg_inner_at g) (sz_ring sz) (length (pg_inner g)) p with
      | Some k, _ => get_or PNull (pg_outer g) k
      | None, Some k => get_or PNull (pg_inner g) k
      | None, None => p_ring_at t p
      end
  end.

(** src/normalize.rs:56-70 [NormEdge::with_directed_edge]. *)
Definition p_with_directed_edge {D} (t : p_topology D) (d : p_de) : res (list point * Z * Z) :=
  '(_, e) <- deref (pt_edges_at t) (sz_edge sz) (pt_edges t) (pd_edge d) ;;
  let points := match pd_dir d with Backward => rev (pe_points e) | Forward => pe_points e end in
  r0 <- p_ring_at (pt_regions t) (pe_ring0 e) ;;
  r1 <- (if pe_ring1 e =? 0 then Ok 0 else r <- p_ring_at (pt_regions t) (pe_ring1 e) ;; Ok (pr_region r)) ;;
  Ok (points, pr_region r0, r1).

(** src/normalize.rs:73-75 [is_redundant]. *)
Definition p_is_redundant (e : list point * Z * Z) : bool := snd (fst e) =? snd e.

(** src/clip/topology.rs:230-235 [find_old_edge_id]; the subtraction is on usize. *)
Definition p_find_old (m : mode) (edge_0 : Z) (finder : list (option nat)) (p : Z) : res (option nat) :=
  off <- (if edge_0 <=? p then Ok (p - edge_0) else match m with Debug => Panic POverflow | Release => Ok (p - edge_0 + 2 ^ 64) end) ;;
  get finder (Z.to_nat (off / sz_edge sz)).
End Use.

(** ** The operations on topologies in memory *)
Section Operations.
Context (sz : sizes) (pl : placing).

(** src/topology/build.rs:133-192 [into_topology]. *)
Definition p_into_topology {D} (b : builder D) : res (p_topology D) :=
  v <- place_edges (length (bl_edges b)) (bl_edges b) ;;
  pts <- expect_all v ;;
  p_finish sz pl (bl_regions b) pts.

Definition p_build {D} (m : mode) (rs : list (region D)) : res (p_topology D) :=
  b <- add_regions m builder_new rs ;; p_into_topology b.

(** src/clip/topology.rs:177-211: one directed edge.  What follows the search for the edge is
    [clip_ring_step] with the search's result. *)
Definition p_clip_ring_step (m : mode) (edge_0 : Z) (old : list (list point)) (finder : list (option nat))
    (s : ring_state) (d : p_de) : res ring_state :=
  o <- p_find_old sz m edge_0 finder (pd_edge d) ;;
  clip_ring_step m old [o] s (DE 0 (pd_dir d)).

(** src/clip/topology.rs:170-228 [clip_ring]. *)
Definition p_clip_ring (m : mode) (edge_0 : Z) (old : list (list point)) (finder : list (option nat))
    (nes : new_edge_set) (r : p_ring) : res (option build_ring * new_edge_set) :=
  s <- mfold (p_clip_ring_step m edge_0 old finder) (pr_des r) (RS [] 0 None None nes) ;;
  s' <- match rs_start s, rs_prev s with
        | Some p0, Some pn => plug_gap m pn p0 s
        | _, _ => Ok s
        end ;;
  if rs_area s' =? 0 then Ok (None, rs_new s') else Ok (Some (rs_ret s'), rs_new s').

(** src/clip/topology.rs:162-165 [clip_rings]. *)
Definition p_clip_rings (m : mode) (edge_0 : Z) (old : list (list point)) (finder : list (option nat))
    (nes : new_edge_set) (rs : list p_ring) : res (list build_ring * new_edge_set) :=
  mfold (fun st r =>
           '(o, nes') <- p_clip_ring m edge_0 old finder (snd st) r ;;
           Ok (match o with Some br => fst st ++ [br] | None => fst st end, nes'))
        rs ([], nes).

(** src/clip/topology.rs:146-157 [Builder::add_region]. *)
Definition p_cadd_region {D} (m : mode) (edge_0 : Z) (b : cbuilder D) (rg : p_region D) : res (cbuilder D) :=
  '(outer, nes1) <- p_clip_rings m edge_0 (cb_old b) (cb_finder b) (cb_new b) (pg_outer rg) ;;
  if (0 <? length outer)%nat then
    '(inner, nes2) <- p_clip_rings m edge_0 (cb_old b) (cb_finder b) nes1 (pg_inner rg) ;;
    Ok (CB (cb_regions b ++ [BRegion (pg_data rg) outer inner]) (cb_old b) (cb_finder b) nes2)
  else Ok (CB (cb_regions b) (cb_old b) (cb_finder b) nes1).

(** src/clip/topology.rs:115-144 [Builder::new], 237-306 [into_topology], [clip_topology]. *)
Definition p_clip {D} (m : mode) (t : p_topology D) (k : clip_mask) : res (p_topology D) :=
  '(finder, old) <- clip_edges m k (map (fun e => TEdge (pe_points e) None None) (pt_edges t)) ;;
  b <- mfold (p_cadd_region m (pt_edges_at t)) (pt_regions t) (CB [] old finder (NES (length old) [])) ;;
  segs <- nes_into_iter (cb_new b) (nes_edges (cb_new b)) ;;
  p_finish sz pl (cb_regions b) (cb_old b ++ map (fun s => [fst s; snd s]) segs).

(** Region pointers are only compared with each other (src/normalize.rs:74, 167, 179), so the
    address itself serves as the name of a region in [norm_edge]. *)
Definition region_name (p : Z) : option nat := if p =? 0 then None else Some (Z.to_nat p).

(** src/normalize.rs:373-383: one ring. *)
Definition p_normalize_ring {D} (m : mode) (t : p_topology D) (o : winding) (r : p_ring) : res norm_ring :=
  es <- mmap (fun d => '(ps, p0, p1) <- p_with_directed_edge sz t d ;; Ok (NE ps (region_name p0) (region_name p1))) (pr_des r) ;;
  es1 <- join_related_edges es ;;
  es2 <- wind_edges m es1 o ;;
  rotate_edges es2.

(** src/normalize.rs:367-391 [normalize_region_rings]. *)
Definition p_normalize_rings {D} (m : mode) (t : p_topology D) (rs : list p_ring) (o : winding) : res (list ring) :=
  nrs <- mmap (p_normalize_ring m t o) rs ;;
  joined <- join_adjacent_rings nrs ;;
  sorted <- sort_rings joined ;;
  Ok (map into_ring sorted).

(** src/normalize.rs:412-420: one region. *)
Definition p_normalize_region {D} (m : mode) (t : p_topology D) (rg : p_region D) : res (region D) :=
  outer <- p_normalize_rings m t (pg_outer rg) Clockwise ;;
  inner <- p_normalize_rings m t (pg_inner rg) CounterClockwise ;;
  Ok (Region (pg_data rg) outer inner).

(** src/normalize.rs:409-423 [normalize]. *)
Definition p_normalize {D} (m : mode) (t : p_topology D) : res (p_topology D) :=
  b <- mfold (fun b rg => g <- p_normalize_region m t rg ;; add_region m b g) (pt_regions t) builder_new ;;
  p_into_topology b.
End Operations.

(** src/simplify/mod.rs:5-11 [simplify]: in place. *)
Definition p_simplify {D} (m : mode) (t : p_topology D) (thr : Z) : res (p_topology D) :=
  es <- mmap (fun e => ps <- simplify_edge m (pe_points e) thr ;; Ok (PEdge ps (pe_ring0 e) (pe_ring1 e))) (pt_edges t) ;;
  Ok (PTopology (pt_regions_at t) (pt_regions t) (pt_edges_at t) es).
