(** * Traits: model of the comparisons and hashes of src, derived and written *)
From Verif Require Export Geo Topology Normalize Simplify Shp.
From Flocq Require Import IEEE754.Binary IEEE754.Bits.

(** [#[derive(Ord)]] and [#[derive(PartialOrd)]]: fields in turn, until two differ. *)
Definition then_cmp (c d : comparison) : comparison := match c with Eq => d | _ => c end.
Definition then_partial (c d : option comparison) : option comparison := match c with Some Eq => d | _ => c end.
(** [PartialOrd::lt] and the other operators (their default bodies). *)
Definition op_lt (c : option comparison) : bool := match c with Some Lt => true | _ => false end.
Definition op_le (c : option comparison) : bool := match c with Some Lt | Some Eq => true | _ => false end.

(** src/geo/mod.rs:7 [derive(Ord, PartialOrd)] for [Point]. *)
Definition point_cmp (a b : point) : comparison := then_cmp (px a ?= px b) (py a ?= py b).
Definition point_partial_cmp (a b : point) : option comparison := then_partial (Some (px a ?= px b)) (Some (py a ?= py b)).

(** What a hasher is given: [write_u32] of a coordinate, [write_usize] of a length. *)
Inductive fed := FedU32 (n : Z) | FedLen (n : nat).
(** src/geo/mod.rs:7 [derive(Hash)] for [Point]. *)
Definition point_hash (p : point) : list fed := [FedU32 (px p); FedU32 (py p)].
(** src/topology/build.rs:26-27 [derive(Eq, PartialEq, Hash)] for [BuildEdge(Vec<Point>)]. *)
Definition path_hash (ps : list point) : list fed := FedLen (length ps) :: flat_map point_hash ps.
(** src/clip/topology.rs:44-45 [derive(Eq, PartialEq, Hash)] for [BuildEdge(Point, Point)]. *)
Definition gap_hash (ab : point * point) : list fed := point_hash (fst ab) ++ point_hash (snd ab).
Definition gap_eq (a b : point * point) : bool := pt_eqb (fst a) (fst b) && pt_eqb (snd a) (snd b).

(** src/simplify/simplify_edge.rs:32-36, 40-44, 46-50: points of a heap compare by their weight. *)
Definition weight_eq (a b : vpoint) : bool := vp_weight a =? vp_weight b.
Definition weight_cmp (a b : vpoint) : comparison := vp_weight a ?= vp_weight b.
Definition weight_partial_cmp (a b : vpoint) : option comparison := Some (vp_weight a ?= vp_weight b).

(** src/normalize.rs:49-53: edges compare by their points. *)
Definition norm_edge_eq (a b : norm_edge) : bool := pts_eqb (ne_points a) (ne_points b).
(** src/normalize.rs:82-89 [NormEdge::clone]. *)
Definition norm_edge_clone (e : norm_edge) : norm_edge := NE (ne_points e) (ne_reg0 e) (ne_reg1 e).
(** src/normalize.rs:27-31: rings are equal if their edges are ([Vec]'s [==]). *)
Fixpoint norm_ring_eq (a b : norm_ring) : bool :=
  match a, b with
  | [], [] => true
  | x :: a', y :: b' => norm_edge_eq x y && norm_ring_eq a' b'
  | _, _ => false
  end.
(** src/normalize.rs:21-25 [NormRing::cmp] (15-19 [partial_cmp] is [Some] of the same); [[0]] panics on an empty vector. *)
Definition norm_ring_cmp (a b : norm_ring) : res comparison :=
  ea <- get a 0 ;; pa <- get (ne_points ea) 0 ;;
  eb <- get b 0 ;; pb <- get (ne_points eb) 0 ;;
  Ok (point_cmp pa pb).

(** [f64]'s [partial_cmp] and [==], by IEEE 754. *)
Definition f64_cmp (a b : Z) : option comparison := Bcompare 53 1024 (b64_of_bits a) (b64_of_bits b).
Definition f64_eq (a b : Z) : bool := match f64_cmp a b with Some Eq => true | _ => false end.
(** src/read/shapefile/shp.rs:120 [derive(PartialEq, PartialOrd)] for [ShpPoint]. *)
Definition shp_point_eq (a b : shp_point) : bool := f64_eq (sp_x a) (sp_x b) && f64_eq (sp_y a) (sp_y b).
Definition shp_point_cmp (a b : shp_point) : option comparison := then_partial (f64_cmp (sp_x a) (sp_x b)) (f64_cmp (sp_y a) (sp_y b)).
