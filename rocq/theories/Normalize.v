(** * Normalize: model of src/normalize.rs *)
From Verif Require Export Topology.

(** src/normalize.rs:42-47 [struct NormEdge]: points and the two region pointers. *)
Record norm_edge := NE { ne_points : list point; ne_reg0 : option nat; ne_reg1 : option nat }.

(** src/normalize.rs:9-13 [struct NormRing]. *)
Definition norm_ring := list norm_edge.

Definition opt_nat_eqb (a b : option nat) : bool :=
  match a, b with
  | None, None => true
  | Some x, Some y => Nat.eqb x y
  | _, _ => false
  end.

(** Array equality [a.regions == b.regions] (src/normalize.rs:167, 179). *)
Definition same_regions (a b : norm_edge) : bool :=
  opt_nat_eqb (ne_reg0 a) (ne_reg0 b) && opt_nat_eqb (ne_reg1 a) (ne_reg1 b).

(** Dereferencing a [*const TopoRing]. *)
Definition deref_ring {D} (t : topology D) (r : ring_ref) : res topo_ring :=
  rg <- get_or PNull (tp_regions t) (rr_region r) ;;
  get_or PNull (match rr_side r with Outer => tg_outer rg | Inner => tg_inner rg end) (rr_index r).

(** src/normalize.rs:56-70 [NormEdge::with_directed_edge]. *)
Definition with_directed_edge {D} (t : topology D) (d : directed_edge) : res norm_edge :=
  e <- get_or PNull (tp_edges t) (de_edge d) ;;
  let points := match de_dir d with Backward => rev (te_points e) | Forward => te_points e end in
  r0 <- match te_ring0 e with
        | None => Panic PNull
        | Some rr => r <- deref_ring t rr ;; Ok (tr_region r)
        end ;;
  r1 <- match te_ring1 e with
        | None => Ok None
        | Some rr => r <- deref_ring t rr ;; Ok (tr_region r)
        end ;;
  Ok (NE points r0 r1).

(** src/normalize.rs:73-75 [is_redundant]. *)
Definition is_redundant (e : norm_edge) : bool := opt_nat_eqb (ne_reg0 e) (ne_reg1 e).

(** [iter().enumerate().min_by_key(..)]: index of the first minimum ([None] if empty). *)
Fixpoint min_index_from (best_i : nat) (best : point) (i : nat) (l : list point) : nat :=
  match l with
  | [] => best_i
  | p :: t => if pt_ltb p best then min_index_from i p (S i) t
              else min_index_from best_i best (S i) t
  end.
Definition min_index (l : list point) : option nat :=
  match l with [] => None | p :: t => Some (min_index_from 0 p 1 t) end.

(** [v[a..b]] for [a <= b <= len]. *)
Definition slice {A} (l : list A) (a b : nat) : list A := firstn (b - a) (skipn a l).

(** src/normalize.rs:93-111 [rotate_island_edge]. *)
Definition rotate_island_edge (e : norm_edge) : res norm_edge :=
  let ps := ne_points e in
  match min_index ps with
  | None | Some O => Ok e
  | Some i =>
      a <- get ps 0 ;;
      b <- get ps (length ps - 1) ;;
      _ <- rassert (pt_eqb a b) ;;
      Ok (NE (slice ps i (length ps - 1) ++ slice ps 0 (i + 1)) (ne_reg0 e) (ne_reg1 e))
  end.

(** src/normalize.rs:115-129 [rotate_edges]. *)
Definition rotate_edges (es : norm_ring) : res norm_ring :=
  match es with
  | [e] => e' <- rotate_island_edge e ;; Ok [e']
  | _ =>
      firsts <- mmap (fun e => get (ne_points e) 0) es ;;
      match min_index firsts with
      | None | Some O => Ok es
      | Some i => Ok (skipn i es ++ firstn i es)
      end
  end.

(** src/normalize.rs:164-177: one iteration of the joining loop.  [ret] is kept
    reversed: its head is [ret.last()].  [edge.points[1..]] panics on an empty edge. *)
Definition tail_points (e : norm_edge) : res (list point) :=
  match ne_points e with [] => Panic PIndex | _ :: t => Ok t end.

Definition join_step (rret : list norm_edge) (e : norm_edge) : res (list norm_edge) :=
  match rret with
  | last :: before =>
      if same_regions last e
      then tl <- tail_points e ;;
           Ok (NE (ne_points last ++ tl) (ne_reg0 last) (ne_reg1 last) :: before)
      else Ok (e :: rret)
  | [] => Ok [e]
  end.

(** src/normalize.rs:179-186: join the last edge into the first one. *)
Definition join_wrap (ret : list norm_edge) : res (list norm_edge) :=
  match ret, rev ret with
  | first :: mid, last :: _ :: _ =>
      if same_regions first last
      then tl <- tail_points first ;;
           Ok (NE (ne_points last ++ tl) (ne_reg0 first) (ne_reg1 first) :: removelast mid)
      else Ok ret
  | _, _ => Ok ret
  end.

(** src/normalize.rs:161-189 [join_related_edges]. *)
Definition join_related_edges (es : norm_ring) : res norm_ring :=
  rret <- mfold join_step es [] ;;
  join_wrap (rev rret).

(** src/normalize.rs:195-199: the double loop; one accumulator over all edges. *)
Definition norm_area (m : mode) (es : norm_ring) : res Z :=
  mfold (fun a e => mfold (area_step m) (pairs (ne_points e)) a) es 0.

(** src/normalize.rs:191-207 [calculate_winding_order_from_edges]. *)
Definition norm_winding (m : mode) (es : norm_ring) : res winding :=
  a <- norm_area m es ;;
  _ <- rassert (negb (a =? 0)) ;;
  Ok (if 0 <? a then Clockwise else CounterClockwise).

Definition reverse_norm_edge (e : norm_edge) : norm_edge :=
  NE (rev (ne_points e)) (ne_reg0 e) (ne_reg1 e).

(** src/normalize.rs:211-224 [wind_edges]. *)
Definition wind_edges (m : mode) (es : norm_ring) (o : winding) : res norm_ring :=
  w <- norm_winding m es ;;
  Ok (if winding_eqb o w then es else rev (map reverse_norm_edge es)).

(** The [BTreeMap<Point, NormEdge>] of src/normalize.rs:275: a list sorted by key. *)
Definition bmap := list (point * norm_edge).

(** [entry(k)]: [None] if occupied (src/normalize.rs:291-298). *)
Fixpoint bm_insert (k : point) (v : norm_edge) (m : bmap) : option bmap :=
  match m with
  | [] => Some [(k, v)]
  | (k', v') :: t =>
      if pt_eqb k k' then None
      else if pt_ltb k k' then Some ((k, v) :: m)
      else match bm_insert k v t with Some t' => Some ((k', v') :: t') | None => None end
  end.

(** [remove(&k)] (src/normalize.rs:317). *)
Fixpoint bm_remove (k : point) (m : bmap) : option (norm_edge * bmap) :=
  match m with
  | [] => None
  | (k', v') :: t =>
      if pt_eqb k k' then Some (v', t)
      else match bm_remove k t with Some (v, t') => Some (v, (k', v') :: t') | None => None end
  end.

(** src/normalize.rs:290-299: index the useful edges of one ring. *)
Definition index_edges (m : bmap) (useful : list norm_edge) : res bmap :=
  mfold (fun m e =>
           p <- get (ne_points e) 0 ;;
           match bm_insert p e m with
           | Some m' => Ok m'
           | None => Panic PExplicit
           end) useful m.

(** src/normalize.rs:277-302: sort one ring into "pass through", "ignore" or "merge". *)
Definition classify_ring (st : list norm_ring * bmap) (r : norm_ring)
  : res (list norm_ring * bmap) :=
  let redundant := filter is_redundant r in
  let useful := filter (fun e => negb (is_redundant e)) r in
  match length redundant, length useful with
  | O, _ => Ok (fst st ++ [useful], snd st)
  | _, O => Ok st
  | _, _ => m' <- index_edges (snd st) useful ;; Ok (fst st, m')
  end.

(** src/normalize.rs:316-331: follow edges from [endp] until back at [start]. *)
Fixpoint follow (fuel : nat) (start endp : point) (m : bmap) (acc : list norm_edge)
  : res (list norm_edge * bmap) :=
  match fuel with
  | O => Panic PFuel
  | S fuel' =>
      match bm_remove endp m with
      | None => Panic PExplicit
      | Some (e, m') =>
          endp' <- (match rev (ne_points e) with [] => Panic PUnwrap | p :: _ => Ok p end) ;;
          if pt_eqb endp' start then Ok (acc ++ [e], m')
          else follow fuel' start endp' m' (acc ++ [e])
      end
  end.

(** src/normalize.rs:310-337: rebuild rings while the map is not empty. *)
Fixpoint rebuild (fuel : nat) (m : bmap) (ret : list norm_ring) : res (list norm_ring) :=
  match m with
  | [] => Ok ret
  | (start, _) :: _ =>
      match fuel with
      | O => Panic PFuel
      | S fuel' =>
          '(es, m') <- follow (S (length m)) start start m [] ;;
          es1 <- join_related_edges es ;;
          es2 <- rotate_edges es1 ;;
          rebuild fuel' m' (ret ++ [es2])
      end
  end.

(** src/normalize.rs:15-25: rings compare by the first point of their first edge. *)
Definition ring_key (r : norm_ring) : res point :=
  e <- get r 0 ;; get (ne_points e) 0.

(** Stable insertion into a list sorted by key. *)
Fixpoint insert_by_key (k : point) (r : norm_ring) (l : list (point * norm_ring))
  : list (point * norm_ring) :=
  match l with
  | [] => [(k, r)]
  | (k', r') :: t => if pt_ltb k' k || pt_eqb k' k then (k', r') :: insert_by_key k r t
                     else (k, r) :: l
  end.

(** [Vec::sort] (stable).  Sorting at most one element compares nothing. *)
Definition sort_rings (rs : list norm_ring) : res (list norm_ring) :=
  if Nat.leb (length rs) 1 then Ok rs
  else
    ks <- mmap ring_key rs ;;
    Ok (map snd (fold_left (fun acc kr => insert_by_key (fst kr) (snd kr) acc)
                           (combine ks rs) [])).

(** src/normalize.rs:270-341 [join_adjacent_rings]. *)
Definition join_adjacent_rings (rs : list norm_ring) : res (list norm_ring) :=
  '(ret, m) <- mfold classify_ring rs ([], []) ;;
  match m with
  | [] => Ok ret
  | _ => ret' <- rebuild (length m) m ret ;; sort_rings ret'
  end.

(** src/normalize.rs:373-383: normalize one ring. *)
Definition normalize_ring {D} (m : mode) (t : topology D) (o : winding) (r : topo_ring)
  : res norm_ring :=
  es <- mmap (with_directed_edge t) (tr_des r) ;;
  es1 <- join_related_edges es ;;
  es2 <- wind_edges m es1 o ;;
  rotate_edges es2.

(** src/normalize.rs:35-40, 77-79 [into_ring], [into_edge]. *)
Definition into_ring (r : norm_ring) : ring := REdges (map ne_points r).

(** src/normalize.rs:367-391 [normalize_region_rings]. *)
Definition normalize_region_rings {D} (m : mode) (t : topology D) (rs : list topo_ring) (o : winding)
  : res (list ring) :=
  nrs <- mmap (normalize_ring m t o) rs ;;
  joined <- join_adjacent_rings nrs ;;
  sorted <- sort_rings joined ;;
  Ok (map into_ring sorted).

(** src/normalize.rs:412-420: one region of the input. *)
Definition normalize_region {D} (m : mode) (t : topology D) (rg : topo_region D) : res (region D) :=
  outer <- normalize_region_rings m t (tg_outer rg) Clockwise ;;
  inner <- normalize_region_rings m t (tg_inner rg) CounterClockwise ;;
  Ok (Region (tg_data rg) outer inner).

(** src/normalize.rs:409-423 [normalize]. *)
Definition normalize {D} (m : mode) (t : topology D) : res (topology D) :=
  b <- mfold (fun b rg => g <- normalize_region m t rg ;; add_region m b g)
             (tp_regions t) builder_new ;;
  into_topology b.
