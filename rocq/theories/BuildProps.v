(** * BuildProps: C09-C15 and C61, building a topology *)
From Coq Require Import Permutation.
From Verif Require Import TopoSpec GeoProofs TopoProofs BuildProofs.

(** Two squares that share a side, the second with a hole and a repeated point; a flat ring
    and a region without area are added too. *)
Definition sq (x y : Z) : ring := RPoints [Pt x y; Pt (x + 10) y; Pt (x + 10) (y + 10); Pt x (y + 10); Pt x y].
Definition sample : list (region Z) :=
  [ Region 1 [sq 0 0; RPoints [Pt 0 0; Pt 3 3; Pt 0 0]] [];
    Region 2 [RPoints [Pt 0 0; Pt 5 5; Pt 0 0]] [];
    Region 3 [RPoints [Pt 10 0; Pt 20 0; Pt 20 0; Pt 20 10; Pt 10 10; Pt 10 0]]
             [REdges [[Pt 12 2; Pt 12 4; Pt 14 4]; [Pt 14 4; Pt 12 2]]] ].

(** ** C09: building loses no geometry *)
Theorem C09_build_reads_back : forall D m (rs : list (region D)) t,
  build_topology m rs = Ok t -> read_topology t = expected rs.
Proof. intros D. exact build_read. Qed.
Print Assumptions C09_build_reads_back.

Example C09_case : exists t, build_topology Debug sample = Ok t /\
  length (tp_edges t) = 9%nat /\
  map (fun s => (s_data s, length (s_outer s), length (s_inner s))) (expected sample)
    = [(1, 1%nat, 0%nat); (3, 1%nat, 1%nat)] /\
  nth_error (tp_edges t) 1 =
    Some (TEdge [Pt 10 0; Pt 10 10] (Some (RR 0 Outer 0)) (Some (RR 1 Outer 0))).
Proof. eexists. split; [vm_compute; reflexivity|]. vm_compute. auto. Qed.

(** In the exact-arithmetic range, the dropped rings are exactly those of zero area. *)
Theorem C09_has_area_exact : forall r, fits (ring_area r) ->
  (has_area r = true <-> ring_area r <> 0).
Proof.
  intros r H. unfold has_area. rewrite negb_true_iff, Z.eqb_neq.
  pose proof (wrap_zero (ring_area r)) as Hw. rewrite wrap_id in Hw by exact H. tauto.
Qed.
Print Assumptions C09_has_area_exact.

(** ** C10: each path is stored once *)
Theorem C10_stored_once : forall D m (rs : list (region D)) t,
  build_topology m rs = Ok t ->
  NoDup (map te_points (tp_edges t)) /\
  (forall e p q, In e (tp_edges t) -> first (te_points e) = Some p -> final (te_points e) = Some q ->
     p <> q -> lt_point p q) /\
  (forall e f, In e (tp_edges t) -> In f (tp_edges t) -> first (te_points e) <> final (te_points e) ->
     te_points f <> rev (te_points e)).
Proof.
  intros D m rs t H. apply build_edges_stored in H as [Hn Hs]. split; [exact Hn|].
  rewrite Forall_forall in Hs. split.
  - intros e p q He Hp Hq Hpq. apply (in_map te_points) in He. apply Hs in He.
    destruct (stored_cases _ _ _ He Hp Hq) as [|[]]; [assumption|contradiction].
  - intros e f He Hf Ho E. apply (in_map te_points) in He, Hf. apply Hs in He, Hf. rewrite E in Hf.
    destruct (stored_reverse _ He Hf) as (p & P1 & P2 & _). congruence.
Qed.
Print Assumptions C10_stored_once.

(** ** C11: opposite directions share the stored edge *)
Theorem C11_shared : forall D m (rs : list (region D)) t d1 d2 e,
  build_topology m rs = Ok t ->
  read_de (tp_edges t) d1 = Some e -> read_de (tp_edges t) d2 = Some (rev e) ->
  first e <> final e \/ (shoelace e mod 2 ^ 64 <> 0 /\ shoelace e mod 2 ^ 64 <> 2 ^ 63) ->
  de_edge d1 = de_edge d2 /\ de_dir d1 <> de_dir d2.
Proof. intros D. exact shared_reverse. Qed.
Print Assumptions C11_shared.

Theorem C11_shared_same_direction : forall D m (rs : list (region D)) t d1 d2 e,
  build_topology m rs = Ok t ->
  read_de (tp_edges t) d1 = Some e -> read_de (tp_edges t) d2 = Some e ->
  first e <> final e \/ (shoelace e mod 2 ^ 64 <> 0 /\ shoelace e mod 2 ^ 64 <> 2 ^ 63) ->
  d1 = d2.
Proof. intros D. exact shared_same. Qed.
Print Assumptions C11_shared_same_direction.

(** The side shared by the two squares of [sample], and an island ring used by two regions. *)
Example C11_case : exists t, build_topology Debug sample = Ok t /\
  read_de (tp_edges t) (DE 1 Forward) = Some [Pt 10 0; Pt 10 10] /\
  read_de (tp_edges t) (DE 1 Backward) = Some (rev [Pt 10 0; Pt 10 10]).
Proof. eexists. split; [vm_compute; reflexivity|]. vm_compute. auto. Qed.

(** ** C12: a closed path of zero area is not canonical *)
Definition bow : list point := [Pt 0 0; Pt 2 2; Pt 2 0; Pt 0 2; Pt 0 0].
Definition with_loop (loop : list point) : region Z :=
  Region 0 [REdges [loop; [Pt 0 0; Pt 0 9; Pt 9 9; Pt 0 0]]] [].

(** Two rings follow the same zero-area loop in opposite directions: it is stored twice. *)
Theorem C12_closed_canonical_refuted : exists (rs : list (region Z)) t e,
  build_topology Debug rs = Ok t /\ build_topology Release rs = Ok t /\
  first e = final e /\ e <> rev e /\
  In e (map te_points (tp_edges t)) /\ In (rev e) (map te_points (tp_edges t)).
Proof.
  exists [with_loop bow; with_loop (rev bow)]. eexists. exists bow.
  split; [vm_compute; reflexivity|]. split; [vm_compute; reflexivity|]. split; [reflexivity|].
  split; [discriminate|]. vm_compute. auto.
Qed.
Print Assumptions C12_closed_canonical_refuted.

(** What is missing: loops of zero area (modulo 2^64), or of doubled area 2^63 modulo 2^64. All
    other paths are stored once for both directions. *)
Theorem C12_closed_canonical_partial : forall D m (rs : list (region D)) t e f,
  build_topology m rs = Ok t -> In e (tp_edges t) -> In f (tp_edges t) ->
  te_points f = rev (te_points e) ->
  shoelace (te_points e) mod 2 ^ 64 = 0 \/ shoelace (te_points e) mod 2 ^ 64 = 2 ^ 63.
Proof.
  intros D m rs t e f H He Hf E. apply build_edges_stored in H as [Hn Hs].
  rewrite Forall_forall in Hs. apply (in_map te_points) in He, Hf. apply Hs in He, Hf. rewrite E in Hf.
  destruct (stored_reverse _ He Hf) as (p & _ & _ & P). exact P.
Qed.
Print Assumptions C12_closed_canonical_partial.

(** ** C13: back references *)
Theorem C13_references : forall D m (rs : list (region D)) t,
  build_topology m rs = Ok t ->
  exact_references t /\
  (forall e, In e (tp_edges t) -> te_ring0 e <> None).
Proof.
  intros D m rs t H. pose proof (build_topology_ok m rs t H) as (b & _ & _ & Hx & _). split; [exact Hx|].
  intros e He. apply In_nth_error in He as [i Hi]. pose proof (build_used m rs t H i e Hi) as Hu.
  destruct Hx as (_ & _ & Hx). destruct (Hx i e Hi) as (_ & -> & _).
  destruct (users i (uses (tp_regions t))); [contradiction|discriminate].
Qed.
Print Assumptions C13_references.

Example C13_case : exists t, build_topology Debug sample = Ok t /\
  users 1 (uses (tp_regions t)) = [RR 0 Outer 0; RR 1 Outer 0] /\
  users 7 (uses (tp_regions t)) = [RR 1 Inner 0].
Proof. eexists. split; [vm_compute; reflexivity|]. vm_compute. auto. Qed.

(** ** C14: when building panics *)
Theorem C14_into_topology : forall D m (rs : list (region D)) b,
  add_regions m builder_new rs = Ok b ->
  ((exists t, into_topology b = Ok t) <-> forall k, (count_path k (all_paths (expected rs)) <= 2)%nat) /\
  (forall p, into_topology b = Panic p -> p = PAssert).
Proof. intros D. exact into_topology_iff. Qed.
Print Assumptions C14_into_topology.

Theorem C14_build_panics : forall D m (rs : list (region D)) p,
  build_topology m rs = Panic p ->
  (m = Debug /\ p = POverflow) \/
  (p = PAssert /\ exists k, (2 < count_path k (all_paths (expected rs)))%nat).
Proof. intros D. exact build_topology_panic. Qed.
Print Assumptions C14_build_panics.

(** [add_region] can only fail by overflow, and only in debug builds. *)
Theorem C14_add_regions : forall D m (rs : list (region D)) p,
  add_regions m builder_new rs = Panic p -> m = Debug /\ p = POverflow.
Proof. intros D m rs p. apply add_regions_panic. Qed.
Print Assumptions C14_add_regions.

Example C14_case :
  build_topology Debug [Region 1 [sq 0 0] []; Region 2 [sq 0 0] []; Region 3 [sq 0 0] []] = Panic PAssert /\
  count_path [Pt 0 0; Pt 10 0] (all_paths (expected [Region 1 [sq 0 0] []; Region 2 [sq 0 0] []; Region 3 [sq 0 0] []])) = 3%nat /\
  (exists t, build_topology Debug [Region 1 [sq 0 0] []; Region 2 [sq 0 0] []] = Ok t).
Proof. split; [reflexivity|]. split; [vm_compute; reflexivity|]. eexists. vm_compute. reflexivity. Qed.

(** ** C15: independence of the HashMap's iteration order *)
Theorem C15_iteration_order : forall D m (rs : list (region D)) b iter,
  add_regions m builder_new rs = Ok b -> Permutation iter (bl_edges b) ->
  into_topology_iter b iter = into_topology b.
Proof.
  intros D m rs b iter H Hp. apply add_regions_ok in H as (Hem & _).
  unfold into_topology. rewrite !into_topology_eq by (try exact Hem; try exact Hp; apply Permutation_refl). reflexivity.
Qed.
Print Assumptions C15_iteration_order.

Example C15_case : exists b, add_regions Debug builder_new sample = Ok b /\
  Permutation (rev (bl_edges b)) (bl_edges b) /\ rev (bl_edges b) <> bl_edges b.
Proof.
  eexists. split; [vm_compute; reflexivity|]. split; [apply Permutation_sym, Permutation_rev|discriminate].
Qed.

(** ** C61: rings of a built topology are not empty, and closed if the input rings are *)
Theorem C61_closed_rings : forall D m (rs : list (region D)) t rg r,
  build_topology m rs = Ok t ->
  (forall x r0, In x rs -> In r0 (rg_outer x ++ rg_inner x) -> closed_ring r0) ->
  In rg (tp_regions t) -> In r (tg_outer rg ++ tg_inner rg) ->
  exists ps, read_ring (tp_edges t) r = map Some ps /\ ps <> [] /\ closed_chain ps.
Proof.
  intros D m rs t rg r H Hc Hg Hr.
  destruct (build_rings_closed m rs t rg r H Hg Hr) as (x & r0 & ps & Hx & H0 & _ & E & Hn & Hcl).
  exists ps. split; [exact E|]. split; [exact Hn|]. apply Hcl. exact (Hc x r0 Hx H0).
Qed.
Print Assumptions C61_closed_rings.

Example C61_case : forall x r0, In x sample -> In r0 (rg_outer x ++ rg_inner x) -> closed_ring r0.
Proof.
  intros x r0 Hx Hr. cbn in Hx. destruct Hx as [<-|[<-|[<-|[]]]]; cbn in Hr.
  - destruct Hr as [<-|[<-|[]]]; (split; [discriminate|reflexivity]).
  - destruct Hr as [<-|[]]; (split; [discriminate|reflexivity]).
  - destruct Hr as [<-|[<-|[]]]; [split; [discriminate|reflexivity]|].
    exists (Pt 12 2). cbn. split; [reflexivity|]. exists (Pt 14 4). split; [reflexivity|].
    split; [reflexivity|]. exists (Pt 12 2). split; reflexivity.
Qed.
