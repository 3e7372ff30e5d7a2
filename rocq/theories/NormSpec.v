(** * NormSpec: what normalized rings should look like

    Uses the data type [norm_edge] (a path with the regions on its two sides) but no function
    of the model of src/normalize.rs. *)
From Coq Require Export Permutation Sorted.
From Verif Require Export TopoSpec Normalize.

(** ** Cycles *)

(** [b] is [a] read as a cycle from another place. *)
Definition rotation {A} (a b : list A) : Prop := exists l r, a = l ++ r /\ b = r ++ l.

(** The same for a closed path, whose first point is repeated at its end. *)
Definition turned (a b : list point) : Prop :=
  exists l r, a = close (l ++ r) /\ b = close (r ++ l).

(** The path along a sequence of edges. *)
Definition walk (es : list norm_edge) : list point := glue (map ne_points es).

(** Two rings pass through the same points in the same cyclic order, in either direction. *)
Definition same_cycle (a b : list point) : Prop := turned a b \/ turned (rev a) b.

(** ** Sides of an edge *)

(** The two regions an edge separates. *)
Definition label (e : norm_edge) : option nat * option nat := (ne_reg0 e, ne_reg1 e).

(** Both sides are the same region. *)
Definition redundant (e : norm_edge) : Prop := ne_reg0 e = ne_reg1 e.

(** The same edges in the opposite direction. *)
Definition flipped (es : list norm_edge) : list norm_edge :=
  map (fun e => NE (rev (ne_points e)) (ne_reg0 e) (ne_reg1 e)) (rev es).

(** ** Edges put together *)

(** [e] is the path along [run], whose edges all separate the same regions as [e]. *)
Definition joins (run : list norm_edge) (e : norm_edge) : Prop :=
  run <> [] /\ Forall (fun x => label x = label e) run /\ ne_points e = walk run.

(** [out] is the cycle [es] with runs of edges replaced by one edge each. *)
Definition joined (es out : list norm_edge) : Prop :=
  exists runs, rotation es (concat runs) /\ Forall2 joins runs out.

(** No edge is followed (around the cycle) by one that separates the same regions. *)
Definition fewest (es : list norm_edge) : Prop :=
  forall x y rest, rotation es (x :: y :: rest) -> label x <> label y.

(** A ring that has become a single edge may also start at another of its points. *)
Definition tidied (es out : list norm_edge) : Prop :=
  joined es out \/
  exists e e', joined es [e] /\ out = [e'] /\ label e' = label e /\ turned (ne_points e) (ne_points e').

(** A closed ring of edges, each of at least two points. *)
Definition good (es : list norm_edge) : Prop :=
  es <> [] /\ Forall (fun e => (2 <= length e)%nat) (map ne_points es) /\ closed_chain (map ne_points es).

(** ** Where a ring starts *)

Definition le_point (p q : point) : Prop := lt_point p q \/ p = q.

(** The ring starts at its smallest node; a ring of one edge at its smallest point. *)
Definition starts_smallest (es : list (list point)) : Prop :=
  exists e rest p, es = e :: rest /\ first e = Some p /\
    (rest <> [] -> forall f q, In f es -> first f = Some q -> le_point p q) /\
    (rest = [] -> forall q, In q e -> le_point p q).

Definition ring_start (es : list (list point)) : option point :=
  match es with [] => None | e :: _ => first e end.

Definition starts_before (a b : list (list point)) : Prop :=
  exists p q, ring_start a = Some p /\ ring_start b = Some q /\ le_point p q.

(** Rings in the order of their starts. *)
Definition in_order (rs : list (list (list point))) : Prop := StronglySorted starts_before rs.

(** ** Areas *)

(** [es] winds as [o], by its exact area. *)
Definition winds (o : winding) (es : list (list point)) : Prop :=
  match o with Clockwise => 0 < shoelaces es | CounterClockwise => shoelaces es < 0 end.

(** A bound on every number met while computing a ring's area in any order. *)
Fixpoint weight (ps : list point) : Z :=
  match ps with
  | p :: ((q :: _) as t) => px p * py q + px q * py p + weight t
  | _ => 0
  end.
Definition weights (es : list (list point)) : Z := fold_right (fun e a => weight e + a) 0 es.

(** ** What normalization sees of a topology *)

(** The regions using an edge. *)
Definition edge_regions {D} (t : topology D) (i : nat) : list nat :=
  map rr_region (users i (uses (tp_regions t))).

(** A directed edge as a path with the regions on its sides. *)
Definition seen {D} (t : topology D) (d : directed_edge) : list norm_edge :=
  match nth_error (tp_edges t) (de_edge d) with
  | Some e => [NE (oriented (te_points e) (de_dir d))
                  (nth_error (edge_regions t (de_edge d)) 0)
                  (nth_error (edge_regions t (de_edge d)) 1)]
  | None => []
  end.

Definition seen_ring {D} (t : topology D) (r : topo_ring) : list norm_edge :=
  flat_map (seen t) (tr_des r).

(** Correct references, rings that are closed and not empty, edges that go somewhere. *)
Definition valid {D} (t : topology D) : Prop :=
  exact_references t /\
  (forall e, In e (tp_edges t) -> has_length (te_points e) = true) /\
  (forall rg r, In rg (tp_regions t) -> In r (tg_outer rg ++ tg_inner rg) ->
     tr_des r <> [] /\ closed_chain (map ne_points (seen_ring t r))).

(** No two rings of the region share an edge and no ring uses an edge twice. *)
Definition nothing_redundant {D} (t : topology D) (rg : topo_region D) : Prop :=
  forall r e, In r (tg_outer rg ++ tg_inner rg) -> In e (seen_ring t r) -> ~ redundant e.

(** ** Merging the rings of one side *)

Definition redundantb (e : norm_edge) : bool :=
  match ne_reg0 e, ne_reg1 e with
  | Some a, Some b => Nat.eqb a b
  | None, None => true
  | _, _ => false
  end.

Definition useful (es : list norm_edge) : list norm_edge := filter (fun e => negb (redundantb e)) es.

(** Rings without redundant edges, and rings with both kinds of edges. *)
Definition untouched (rs : list (list norm_edge)) : list (list norm_edge) :=
  filter (fun r => negb (existsb redundantb r)) rs.
Definition mixed (rs : list (list norm_edge)) : list (list norm_edge) :=
  filter (fun r => existsb redundantb r && negb (forallb redundantb r)) rs.

(** The edges that are put together to new rings. *)
Definition pool (rs : list (list norm_edge)) : list norm_edge := concat (map useful (mixed rs)).

Definition starts (es : list norm_edge) : list (option point) := map first (map ne_points es).
Definition ends (es : list norm_edge) : list (option point) := map final (map ne_points es).

(** [cycles] uses every edge of the pool once; each of its members is a closed ring. *)
Definition cycles_of (es : list norm_edge) (cycles : list (list norm_edge)) : Prop :=
  Permutation (concat cycles) es /\
  Forall (fun c => c <> [] /\ closed_chain (map ne_points c)) cycles.

(** No two edges leave a point, and as many arrive at it. *)
Definition traversable (es : list norm_edge) : Prop :=
  NoDup (starts es) /\ Permutation (starts es) (ends es).

(** A ring put together from a cycle. *)
Definition from_cycle (c out : list norm_edge) : Prop :=
  tidied c out /\ fewest out /\ starts_smallest (map ne_points out).

(** ** Normalized sides of a region *)

(** The normal form of a ring of the topology, in one of the two directions. *)
Definition normal_ring {D} (t : topology D) (r : topo_ring) (out : list norm_edge) : Prop :=
  exists base, (base = seen_ring t r \/ base = flipped (seen_ring t r)) /\ from_cycle base out.

(** [outs] are the normalized outer (or inner) rings obtained from [rs]: rings without redundant
    edges in normal form, and rings put together from the useful edges of the others. *)
Definition normal_side {D} (t : topology D) (rs : list topo_ring) (outs : list (list norm_edge)) : Prop :=
  exists nrs cycles ms,
    Forall2 (normal_ring t) rs nrs /\
    cycles_of (pool nrs) cycles /\ Forall2 from_cycle cycles ms /\
    Permutation outs (untouched nrs ++ ms) /\
    in_order (map (map ne_points) outs).

(** A ring as it is read back from a topology. *)
Definition as_read (es : list norm_edge) : list (option (list point)) := map Some (map ne_points es).

(** ** Conditions for normalization to return *)

Definition nonneg (ps : list point) : Prop := Forall (fun p => 0 <= px p /\ 0 <= py p) ps.

(** The segments of some paths, in either direction. *)
Definition sides (es : list (list point)) : list (list point) := map stored_form (flat_map segments es).

(** The paths of all rings of a topology. *)
Definition region_paths {D} (t : topology D) (rg : topo_region D) : list (list point) :=
  flat_map (fun r => map ne_points (seen_ring t r)) (tg_outer rg ++ tg_inner rg).
Definition topology_paths {D} (t : topology D) : list (list point) := flat_map (region_paths t) (tp_regions t).

(** Every segment lies between at most two rings. *)
Definition at_most_two (ps : list (list point)) : Prop :=
  forall k, (length (filter (path_eqb k) (sides ps)) <= 2)%nat.

(** A ring with an area, small enough to be computed in an i64 in any order. *)
Definition computable (es : list (list point)) : Prop :=
  Forall nonneg es /\ weights es < 2 ^ 63 /\ shoelaces es <> 0.

(** The paths of some rings. *)
Definition rings_paths {D} (t : topology D) (rs : list topo_ring) : list (list point) :=
  flat_map (fun r => map ne_points (seen_ring t r)) rs.

(** The same for all rings of one side of a region together, which may be merged. *)
Definition computable_side {D} (t : topology D) (rs : list topo_ring) : Prop :=
  Forall nonneg (rings_paths t rs) /\ weights (rings_paths t rs) < 2 ^ 63 /\
  (forall r, In r rs -> shoelaces (map ne_points (seen_ring t r)) <> 0).

(** However the rings of this side are brought to normal form, no two useful edges of its partly
    redundant rings leave the same point, and the useful edges arrive where useful edges leave. *)
Definition mergeable {D} (t : topology D) (o : winding) (rs : list topo_ring) : Prop :=
  forall nrs, Forall2 (fun r out => normal_ring t r out /\ winds o (map ne_points out)) rs nrs ->
    traversable (pool nrs).

(** ** Areas of whole sides *)

Definition sum (l : list Z) : Z := fold_right Z.add 0 l.

(** The areas of some rings of a topology, whatever their directions. *)
Definition ring_sizes {D} (t : topology D) (rs : list topo_ring) : list Z :=
  map (fun r => Z.abs (shoelaces (map ne_points (seen_ring t r)))) rs.

(** The rings in the direction [o]. *)
Definition headed (o : winding) (es : list norm_edge) : list norm_edge :=
  if (match o with Clockwise => 0 <? shoelaces (map ne_points es)
                 | CounterClockwise => shoelaces (map ne_points es) <? 0 end)
  then es else flipped es.
Definition headed_rings {D} (t : topology D) (o : winding) (rs : list topo_ring) : list (list norm_edge) :=
  map (fun r => headed o (seen_ring t r)) rs.

(** Once all rings wind as [o], each redundant edge is passed once in each direction. *)
Definition cancelling {D} (t : topology D) (o : winding) (rs : list topo_ring) : Prop :=
  Permutation (map ne_points (filter redundantb (concat (headed_rings t o rs))))
              (map (@rev point) (map ne_points (filter redundantb (concat (headed_rings t o rs))))).

(** The useful edges of partly redundant rings form disjoint cycles. *)
Definition followable {D} (t : topology D) (o : winding) (rs : list topo_ring) : Prop :=
  traversable (pool (headed_rings t o rs)).

(** ** What the normalized topology says about each region *)

(** [P] holds for each region of [t] and what is left of it in [t']: one region with the same
    data, or none. *)
Definition by_region {D} (t t' : topology D) (P : topo_region D -> list (shape D) -> Prop) : Prop :=
  exists parts, read_topology t' = concat parts /\
    Forall2 (fun rg part => (length part <= 1)%nat /\ (forall s, In s part -> s_data s = tg_data rg) /\ P rg part)
      (tp_regions t) parts.

(** [outs] are the rings [rs] in some order, each possibly turned or reversed. *)
Definition rings_kept {D} (t : topology D) (rs : list topo_ring) (outs : list (list (option (list point)))) : Prop :=
  exists outs', Permutation outs outs' /\
    Forall2 (fun r out => exists es, out = map Some es /\ closed_chain es /\
                            same_cycle (walk (seen_ring t r)) (glue es)) rs outs'.

(** A region without outer rings, or all of whose outer rings are lost, is left out. *)
Definition read_back {D} (d : D) (outs ins : list (list norm_edge)) : list (shape D) :=
  match outs with [] => [] | _ => [Shape d (map as_read outs) (map as_read ins)] end.

(** Rings with an area (according to the i64 that holds twice of it). *)
Definition sized (outs : list (list norm_edge)) : list (list norm_edge) :=
  filter (fun r => negb (shoelaces (map ne_points r) mod 2 ^ 64 =? 0)) outs.

(** Some edge is used by both regions. *)
Definition adjacent {D} (t : topology D) (i j : nat) : Prop :=
  exists k, In i (edge_regions t k) /\ In j (edge_regions t k).

(** The rings of the region pass through no point twice and do not meet each other. *)
Definition simple_boundary {D} (t : topology D) (rg : topo_region D) : Prop :=
  NoDup (flat_map (@removelast point) (region_paths t rg)).

(** No segment lies on two edges. *)
Definition separate {D} (t : topology D) : Prop :=
  forall i j a b s, nth_error (tp_edges t) i = Some a -> nth_error (tp_edges t) j = Some b ->
    In s (sides [te_points a]) -> In s (sides [te_points b]) -> i = j.
