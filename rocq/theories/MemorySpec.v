(** * MemorySpec: a topology laid out in memory *)
From Verif Require Export Memory TopoSpec.

(** Where the edges, the regions and the rings of each region are. *)
Record home := Home { h_edges : Z; h_regions : Z; h_rings : nat -> side -> Z }.

Section Layout.
Context (sz : sizes) (h : home).

Definition ring_address (rr : ring_ref) : Z := h_rings h (rr_region rr) (rr_side rr) + Z.of_nat (rr_index rr) * sz_ring sz.
Definition edge_address (i : nat) : Z := h_edges h + Z.of_nat i * sz_edge sz.
Definition region_address (i : nat) : Z := h_regions h + Z.of_nat i * sz_region sz.
Definition or_null {A} (f : A -> Z) (o : option A) : Z := match o with Some a => f a | None => 0 end.

(** The parts of a topology with every pointer being the address of what it should lead to. *)
Definition stored_ring (r : topo_ring) : p_ring :=
  PRing (map (fun d => PDE (edge_address (de_edge d)) (de_dir d)) (tr_des r)) (or_null region_address (tr_region r)).
Definition stored_region {D} (ig : nat * topo_region D) : p_region D :=
  PRegion (tg_data (snd ig)) (h_rings h (fst ig) Outer) (map stored_ring (tg_outer (snd ig)))
    (h_rings h (fst ig) Inner) (map stored_ring (tg_inner (snd ig))).
Definition stored_edge (e : topo_edge) : p_edge :=
  PEdge (te_points e) (or_null ring_address (te_ring0 e)) (or_null ring_address (te_ring1 e)).

(** The whole topology, at home. *)
Definition stored {D} (t : topology D) : p_topology D :=
  PTopology (h_regions h) (map stored_region (enumerate (tp_regions t))) (h_edges h) (map stored_edge (tp_edges t)).

(** The ring exists. *)
Definition has_ring {D} (t : topology D) (rr : ring_ref) : Prop :=
  exists g, nth_error (tp_regions t) (rr_region rr) = Some g /\
    (rr_index rr < length (match rr_side rr with Outer => tg_outer g | Inner => tg_inner g end))%nat.

(** A possible home: no array is at the null address, and different rings are at different
    addresses. *)
Definition livable {D} (t : topology D) : Prop :=
  0 < h_edges h /\ 0 < h_regions h /\ (forall i s, 0 < h_rings h i s) /\
  forall a b, has_ring t a -> has_ring t b -> ring_address a = ring_address b -> a = b.
End Layout.

(** Where an element is in the array after the program has moved the array of regions elsewhere;
    the pointers to regions are not updated. *)
Definition regions_moved {D} (to : Z) (t : p_topology D) : p_topology D := PTopology to (pt_regions t) (pt_edges_at t) (pt_edges t).

(** Types have a size. *)
Definition proper (sz : sizes) : Prop := 0 < sz_edge sz /\ 0 < sz_ring sz /\ 0 < sz_region sz.

(** The allocator never returns the null address. *)
Definition allocates (pl : placing) : Prop := 0 < pl_edges pl /\ 0 < pl_regions pl /\ forall i s, 0 < pl_rings pl i s.

(** Boxing leaves a vector where it is: there is no spare room, or it is given back in place. *)
Definition edges_stay (pl : placing) : Prop := pl_spare_edges pl = false \/ pl_moved_edges pl = pl_edges pl.
Definition regions_stay (pl : placing) : Prop := pl_spare_regions pl = false \/ pl_moved_regions pl = pl_regions pl.

Definition home_of (pl : placing) : home := Home (pl_edges pl) (pl_regions pl) (pl_rings pl).
Definition regions_end (pl : placing) : Z := if pl_spare_regions pl then pl_moved_regions pl else pl_regions pl.

(** The same outcome, a result being a topology in memory instead of an abstract one. *)
Definition same_outcome {A B} (R : A -> B) (x : res A) (y : res B) : Prop :=
  match x with Ok a => y = Ok (R a) | Panic p => y = Panic p end.
