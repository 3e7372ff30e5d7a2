(** * Geo: model of src/geo/mod.rs *)
From Verif Require Export Base.

(** src/geo/mod.rs:7-8 [struct Point(pub u32, pub u32)].  Coordinates are
    integers; the u32 range is the predicate [wf_point] of Spec.v. *)
Record point := Pt { px : Z; py : Z }.

(** src/geo/mod.rs:7 [derive(Eq, PartialEq)]. *)
Definition pt_eqb (a b : point) : bool := (px a =? px b) && (py a =? py b).

(** src/geo/mod.rs:7 [derive(Ord, PartialOrd)]: lexicographic comparison. *)
Definition pt_ltb (a b : point) : bool :=
  (px a <? px b) || ((px a =? px b) && (py a <? py b)).

Fixpoint pts_eqb (a b : list point) : bool :=
  match a, b with
  | [], [] => true
  | x :: a', y :: b' => pt_eqb x y && pts_eqb a' b'
  | _, _ => false
  end.

(** src/geo/mod.rs:17-18 [struct Edge(pub Box<[Point]>)]. *)
Definition edge := list point.

(** src/geo/mod.rs:41-48 [enum Ring]. *)
Inductive ring :=
| RPoints (ps : list point)
| REdges (es : list edge).

(** src/geo/mod.rs:75-79 [enum WindingOrder]. *)
Inductive winding := Clockwise | CounterClockwise.
Definition winding_eqb (a b : winding) : bool :=
  match a, b with
  | Clockwise, Clockwise | CounterClockwise, CounterClockwise => true
  | _, _ => false
  end.

(** src/geo/mod.rs:96: one term of the shoelace sum, three i64 operations. *)
Definition cross (m : mode) (p1 p2 : point) : res Z :=
  x <- i64_mul m (px p1) (py p2) ;;
  y <- i64_mul m (px p2) (py p1) ;;
  i64_sub m x y.

(** src/geo/mod.rs:95-97: the loop body [a += ...]. *)
Definition area_step (m : mode) (a : Z) (pq : point * point) : res Z :=
  c <- cross m (fst pq) (snd pq) ;; i64_add m a c.

(** src/geo/mod.rs:91-100 [signed_area2]. *)
Definition signed_area2 (m : mode) (ps : list point) : res Z :=
  mfold (area_step m) (pairs ps) 0.

(** src/geo/mod.rs:114-118 (and again 190-194): sign split with
    [-a as u64], where the negation may overflow. *)
Definition split_sign (m : mode) (a : Z) : res (Z * winding) :=
  if 0 <=? a then Ok (as_u64 a, Clockwise)
  else n <- i64_neg m a ;; Ok (as_u64 n, CounterClockwise).

(** src/geo/mod.rs:111-119 [area2_and_winding_order] (free function). *)
Definition pts_area2_and_winding (m : mode) (ps : list point) : res (Z * winding) :=
  a <- signed_area2 m ps ;; split_sign m a.

(** src/geo/mod.rs:124-126 [area2] (free function). *)
Definition pts_area2 (m : mode) (ps : list point) : res Z :=
  x <- pts_area2_and_winding m ps ;; Ok (fst x).

(** src/geo/mod.rs:137-139 [winding_order] (free function). *)
Definition pts_winding_order (m : mode) (ps : list point) : res winding :=
  x <- pts_area2_and_winding m ps ;; Ok (snd x).

(** src/geo/mod.rs:143-155 [Ring::points]. *)
Definition ring_points (r : ring) : list point :=
  match r with
  | RPoints ps => ps
  | REdges es => concat es
  end.

(** src/geo/mod.rs:158-168 [Ring::edges]. *)
Definition ring_edges (r : ring) : list edge :=
  match r with
  | REdges es => es
  | RPoints ps => map (fun pq => [fst pq; snd pq]) (pairs ps)
  end.

(** src/geo/mod.rs:185-188: the loop of [area2_and_winding_order] for edge rings. *)
Definition edges_area_step (m : mode) (a : Z) (e : edge) : res Z :=
  s <- signed_area2 m e ;; i64_add m a s.

(** src/geo/mod.rs:182-198 [Ring::area2_and_winding_order]. *)
Definition ring_area2_and_winding (m : mode) (r : ring) : res (Z * winding) :=
  match r with
  | REdges es => a <- mfold (edges_area_step m) es 0 ;; split_sign m a
  | RPoints ps => pts_area2_and_winding m ps
  end.

(** src/geo/mod.rs:171-173 [Ring::area2]. *)
Definition ring_area2 (m : mode) (r : ring) : res Z :=
  x <- ring_area2_and_winding m r ;; Ok (fst x).

(** src/geo/mod.rs:207-209 [Ring::winding_order]. *)
Definition ring_winding_order (m : mode) (r : ring) : res winding :=
  x <- ring_area2_and_winding m r ;; Ok (snd x).

(** src/geo/mod.rs:212-217 [struct Region<Data>]. *)
Record region (D : Type) := Region {
  rg_data : D;
  rg_outer : list ring;
  rg_inner : list ring
}.
Arguments Region {D}.
Arguments rg_data {D}.
Arguments rg_outer {D}.
Arguments rg_inner {D}.
