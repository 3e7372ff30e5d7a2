(** * TopoSpec: what a topology means, independently of how it is built *)
From Verif Require Export Spec Topology.

(** ** Reading geometry back *)

(** Follow a stored edge in a direction. *)
Definition oriented (ps : list point) (d : direction) : list point :=
  match d with Forward => ps | Backward => rev ps end.

Definition read_de (es : list topo_edge) (d : directed_edge) : option (list point) :=
  option_map (fun e => oriented (te_points e) (de_dir d)) (nth_error es (de_edge d)).

Definition read_ring (es : list topo_edge) (r : topo_ring) : list (option (list point)) :=
  map (read_de es) (tr_des r).

(** A region as data and paths: data, outer rings, inner rings. *)
Record shape (D : Type) := Shape {
  s_data : D;
  s_outer : list (list (option (list point)));
  s_inner : list (list (option (list point)))
}.
Arguments Shape {D}.
Arguments s_data {D}.
Arguments s_outer {D}.
Arguments s_inner {D}.

Definition read_region {D} (es : list topo_edge) (rg : topo_region D) : shape D :=
  Shape (tg_data rg) (map (read_ring es) (tg_outer rg)) (map (read_ring es) (tg_inner rg)).

Definition read_topology {D} (t : topology D) : list (shape D) :=
  map (read_region (tp_edges t)) (tp_regions t).

(** ** What a topology built from regions should contain *)

(** Edges of an input ring. *)
Definition paths (r : ring) : list (list point) :=
  match r with RPoints ps => segments ps | REdges es => es end.

(** A path that goes somewhere. *)
Definition has_length (ps : list point) : bool :=
  match ps with
  | [] | [_] => false
  | [p; q] => negb (pt_eqb p q)
  | _ => true
  end.

(** Rings of zero area are dropped. Release arithmetic sees areas modulo 2^64; a debug build
    panics unless the area fits an i64, where this is the same as being zero. *)
Definition has_area (r : ring) : bool := negb (ring_area r mod 2 ^ 64 =? 0).

Definition expected_ring (r : ring) : list (option (list point)) :=
  map Some (filter has_length (paths r)).

Definition expected_region {D} (rg : region D) : list (shape D) :=
  match filter has_area (rg_outer rg) with
  | [] => []
  | outer => [Shape (rg_data rg) (map expected_ring outer)
                    (map expected_ring (filter has_area (rg_inner rg)))]
  end.

Definition expected {D} (rs : list (region D)) : list (shape D) := flat_map expected_region rs.

(** All paths of a list of shapes, region by region, outer rings before inner rings. *)
Definition shape_paths {D} (s : shape D) : list (option (list point)) :=
  concat (s_outer s) ++ concat (s_inner s).
Definition all_paths {D} (ss : list (shape D)) : list (option (list point)) := flat_map shape_paths ss.

(** The orientation in which a path is stored: an open path from its smaller to its larger end
    point, a closed path clockwise (according to its area as an i64). *)
Definition lt_point (p q : point) : Prop := px p < px q \/ (px p = px q /\ py p < py q).
Definition i64_of (z : Z) : Z := (z + 2 ^ 63) mod 2 ^ 64 - 2 ^ 63.

Definition stored_form (ps : list point) : list point :=
  match ps with
  | [] => []
  | p :: _ =>
      let q := last ps p in
      if (px p <? px q) || ((px p =? px q) && (py p <? py q)) then ps
      else if (px p =? px q) && (py p =? py q) && (0 <=? i64_of (shoelace ps)) then ps
      else rev ps
  end.

(** How often a path is used, in either direction. *)
Definition path_eqb (a b : list point) : bool :=
  if list_eq_dec (fun p q : point => ltac:(decide equality; apply Z.eq_dec)) a b then true else false.
Definition count_path (k : list point) (l : list (option (list point))) : nat :=
  length (filter (fun o => match o with Some p => path_eqb (stored_form p) k | None => false end) l).

(** ** Back references *)

(** Every use of an edge by a ring, in the order region, outer rings, inner rings, ring order. *)
Definition uses_ring (ri : nat) (s : side) (kr : nat * topo_ring) : list (nat * ring_ref) :=
  map (fun d => (de_edge d, RR ri s (fst kr))) (tr_des (snd kr)).
Definition uses_region {D} (ir : nat * topo_region D) : list (nat * ring_ref) :=
  flat_map (uses_ring (fst ir) Outer) (enumerate (tg_outer (snd ir))) ++
  flat_map (uses_ring (fst ir) Inner) (enumerate (tg_inner (snd ir))).
Definition uses {D} (rs : list (topo_region D)) : list (nat * ring_ref) :=
  flat_map uses_region (enumerate rs).

(** The rings using edge [i], in that order. *)
Definition users (i : nat) (us : list (nat * ring_ref)) : list ring_ref :=
  map snd (filter (fun u => Nat.eqb (fst u) i) us).

(** Rings point to their regions and the two slots of each edge list its users. *)
Definition exact_references {D} (t : topology D) : Prop :=
  (forall ri rg r, nth_error (tp_regions t) ri = Some rg -> In r (tg_outer rg ++ tg_inner rg) ->
     tr_region r = Some ri) /\
  (forall u, In u (uses (tp_regions t)) -> (fst u < length (tp_edges t))%nat) /\
  (forall i e, nth_error (tp_edges t) i = Some e ->
     (length (users i (uses (tp_regions t))) <= 2)%nat /\
     te_ring0 e = nth_error (users i (uses (tp_regions t))) 0 /\
     te_ring1 e = nth_error (users i (uses (tp_regions t))) 1).

(** ** Connectivity of rings *)

(** [es] leads from [p] to [q]: each path starts where the previous one ended. *)
Fixpoint chain (p : point) (es : list (list point)) (q : point) : Prop :=
  match es with
  | [] => p = q
  | e :: t => first e = Some p /\ exists r, final e = Some r /\ chain r t q
  end.

Definition closed_chain (es : list (list point)) : Prop := exists p, chain p es p.

Definition closed_ring (r : ring) : Prop :=
  match r with RPoints ps => is_closed ps | REdges es => closed_chain es end.
