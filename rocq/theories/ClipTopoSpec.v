(** * ClipTopoSpec: what a clipped topology should contain *)
From Verif Require Export ClipSpec.

(** [C] lists the clipped points of the edges of a topology, in order. *)
Definition clips {D} (m : mode) (k : clip_mask) (t : topology D) (C : list (list point)) : Prop :=
  Forall2 (fun e c => clip_edge m k (te_points e) = Ok c) (tp_edges t) C.

(** Where a piece of a clipped ring comes from: an edge of the input, or a gap that was closed
    by a straight line; the end points of the gap are given in order. *)
Inductive use_key := KOld (i : nat) | KGap (a b : point).

(** A piece of a clipped ring: origin, direction in which the ring follows it, and the points
    in that direction. *)
Record piece := Piece { pc_key : use_key; pc_dir : direction; pc_path : list point }.

(** What is left of a directed edge. *)
Definition visible_piece (C : list (list point)) (d : directed_edge) : list piece :=
  match nth_error C (de_edge d) with
  | Some c => match c with
              | [] | [_] => []
              | _ => [Piece (KOld (de_edge d)) (de_dir d) (oriented c (de_dir d))]
              end
  | None => []
  end.

Definition visible (C : list (list point)) (r : topo_ring) : list piece :=
  flat_map (visible_piece C) (tr_des r).

(** The line closing the gap from [p] to [q], if any. *)
Definition gap (p q : point) : list piece :=
  if (px p =? px q) && (py p =? py q) then []
  else if (px p <? px q) || ((px p =? px q) && (py p <? py q))
       then [Piece (KGap p q) Forward [p; q]]
       else [Piece (KGap q p) Backward [p; q]].
Definition gap_between (a b : option point) : list piece :=
  match a, b with Some p, Some q => gap p q | _, _ => [] end.

(** Close all gaps after piece [p], including the last one back to [start]. *)
Fixpoint close_gaps (start : option point) (p : piece) (ps : list piece) : list piece :=
  match ps with
  | [] => gap_between (final (pc_path p)) start
  | q :: t => gap_between (final (pc_path p)) (first (pc_path q)) ++ q :: close_gaps start q t
  end.

Definition clipped_ring (C : list (list point)) (r : topo_ring) : list piece :=
  match visible C r with
  | [] => []
  | p :: ps => p :: close_gaps (first (pc_path p)) p ps
  end.

(** Twice the area of a clipped ring. *)
Definition clipped_area (C : list (list point)) (r : topo_ring) : Z :=
  shoelaces (map pc_path (clipped_ring C r)).

(** A ring is kept if it has area (see [has_area] about 2^64), a region if an outer ring is. *)
Definition ring_kept (C : list (list point)) (r : topo_ring) : bool :=
  negb (clipped_area C r mod 2 ^ 64 =? 0).
Definition region_kept {D} (C : list (list point)) (rg : topo_region D) : bool :=
  existsb (ring_kept C) (tg_outer rg).

Definition read_pieces (ps : list piece) : list (option (list point)) :=
  map (fun p => Some (pc_path p)) ps.

Definition clipped_rings (C : list (list point)) (rs : list topo_ring) : list (list piece) :=
  map (clipped_ring C) (filter (ring_kept C) rs).

Definition clipped_shape {D} (C : list (list point)) (rg : topo_region D) : shape D :=
  Shape (tg_data rg) (map read_pieces (clipped_rings C (tg_outer rg)))
                     (map read_pieces (clipped_rings C (tg_inner rg))).

Definition clipped_topology {D} (C : list (list point)) (t : topology D) : list (shape D) :=
  map (clipped_shape C) (filter (region_kept C) (tp_regions t)).

(** All pieces of the surviving rings, in order. *)
Definition surviving_pieces {D} (C : list (list point)) (rgs : list (topo_region D)) : list piece :=
  flat_map (fun rg => concat (clipped_rings C (tg_outer rg)) ++ concat (clipped_rings C (tg_inner rg)))
           (filter (region_kept C) rgs).

(** All directed edges of a topology, in order. *)
Definition all_des {D} (t : topology D) : list directed_edge :=
  flat_map (fun rg => concat (map tr_des (tg_outer rg)) ++ concat (map tr_des (tg_inner rg))) (tp_regions t).

Lemma use_key_eq_dec (a b : use_key) : {a = b} + {a <> b}.
Proof. repeat decide equality. Defined.

Definition count_key (k : use_key) (ps : list piece) : nat := count_occ use_key_eq_dec (map pc_key ps) k.

(** All edge pointers of rings are valid. *)
Definition references_valid {D} (t : topology D) : Prop :=
  forall d, In d (all_des t) -> (de_edge d < length (tp_edges t))%nat.

(** All coordinates are u32 values. *)
Definition wf_topology {D} (t : topology D) : Prop :=
  Forall (fun e => wf_points (te_points e)) (tp_edges t).
