(** * Simplify: model of src/simplify/mod.rs and src/simplify/simplify_edge.rs *)
From Verif Require Export Topology.

(** src/simplify/simplify_edge.rs:5-9 [area2], operation by operation.  (The first
    factor is a product [b.0 * a.0], exactly as in the source.) *)
Definition weight2 (m : mode) (a b c : point) : res Z :=
  t1 <- i64_mul m (px b) (px a) ;;
  t2 <- i64_sub m (py c) (py a) ;;
  t3 <- i64_mul m t1 t2 ;;
  t4 <- i64_sub m (px c) (px a) ;;
  t5 <- i64_sub m (py b) (py a) ;;
  t6 <- i64_mul m t4 t5 ;;
  a2 <- i64_sub m t3 t6 ;;
  r <- i64_abs m a2 ;;
  Ok (as_u64 r).

(** src/simplify/simplify_edge.rs:11-30 [struct Point]; pointers are indices into
    [PointHeap::points], null is [None]. *)
Record vpoint := VP {
  vp_geo : point;
  vp_weight : Z;
  vp_heap : nat;
  vp_next : option nat;
  vp_prev : option nat
}.

Definition set_weight (w : Z) (p : vpoint) := VP (vp_geo p) w (vp_heap p) (vp_next p) (vp_prev p).
Definition set_heap (h : nat) (p : vpoint) := VP (vp_geo p) (vp_weight p) h (vp_next p) (vp_prev p).
Definition set_next (n : option nat) (p : vpoint) := VP (vp_geo p) (vp_weight p) (vp_heap p) n (vp_prev p).
Definition set_prev (n : option nat) (p : vpoint) := VP (vp_geo p) (vp_weight p) (vp_heap p) (vp_next p) n.

(** src/simplify/simplify_edge.rs:52-56 [struct PointHeap]. *)
Record pheap := PH { ph_points : list vpoint; ph_heap : list nat }.

(** Dereferencing a [*const Point]. *)
Definition vget (h : pheap) (i : nat) : res vpoint := get_or PNull (ph_points h) i.

(** Writing through a [*mut Point]. *)
Definition vupd (h : pheap) (i : nat) (f : vpoint -> vpoint) : res pheap :=
  p <- vget h i ;; Ok (PH (set_nth (ph_points h) i (f p)) (ph_heap h)).

(** Weight of the point at a heap position: [*self.heap[k]] compared by weight
    (src/simplify/simplify_edge.rs:40-50). *)
Definition hweight (h : pheap) (k : nat) : res Z :=
  i <- get (ph_heap h) k ;; p <- vget h i ;; Ok (vp_weight p).

(** src/simplify/simplify_edge.rs:101-103 [parent], 105-107 [left_child]. *)
Definition parent (i : nat) : nat := ((i - 1) / 2)%nat.
Definition left_child (i : nat) : nat := (2 * i + 1)%nat.

(** src/simplify/simplify_edge.rs:171-177 [swap]. *)
Definition hswap (h : pheap) (a b : nat) : res pheap :=
  ia <- get (ph_heap h) a ;;
  ib <- get (ph_heap h) b ;;
  let h1 := PH (ph_points h) (set_nth (set_nth (ph_heap h) a ib) b ia) in
  h2 <- vupd h1 ib (set_heap a) ;;
  vupd h2 ia (set_heap b).

(** src/simplify/simplify_edge.rs:130-154 [sift_down].  As in the source, the first
    comparison looks at [heap[start]], not [heap[root]]. *)
Fixpoint sift_down (fuel : nat) (h : pheap) (start root end_ : nat) : res pheap :=
  match fuel with
  | O => Panic PFuel
  | S fuel' =>
      let child := left_child root in
      if Nat.leb child end_ then
        ws <- hweight h start ;;
        wc <- hweight h child ;;
        let swap1 := if wc <? ws then child else root in
        swap2 <- (if Nat.leb (child + 1) end_
                  then w1 <- hweight h swap1 ;;
                       w2 <- hweight h (child + 1) ;;
                       Ok (if w2 <? w1 then (child + 1)%nat else swap1)
                  else Ok swap1) ;;
        if Nat.eqb swap2 root then Ok h
        else h' <- hswap h root swap2 ;; sift_down fuel' h' start swap2 end_
      else Ok h
  end.

(** src/simplify/simplify_edge.rs:156-169 [sift_up] ([start] is the loop bound, [child]
    starts at [end]). *)
Fixpoint sift_up (fuel : nat) (h : pheap) (start child : nat) : res pheap :=
  match fuel with
  | O => Panic PFuel
  | S fuel' =>
      if Nat.ltb start child then
        let p := parent child in
        wp <- hweight h p ;;
        wc <- hweight h child ;;
        if wc <? wp then h' <- hswap h p child ;; sift_up fuel' h' start p
        else Ok h
      else Ok h
  end.

(** Enough iterations for any sift: positions strictly increase (decrease). *)
Definition sift_fuel (h : pheap) : nat := S (length (ph_heap h)).

(** src/simplify/simplify_edge.rs:120-126: the loop of [heapify] for [start], ..., 0. *)
Fixpoint heapify_loop (start : nat) (h : pheap) (end_ : nat) : res pheap :=
  h' <- sift_down (sift_fuel h) h start start end_ ;;
  match start with
  | O => Ok h'
  | S start' => heapify_loop start' h' end_
  end.

(** src/simplify/simplify_edge.rs:113-128 [heapify]. *)
Definition heapify (h : pheap) : res pheap :=
  let len := length (ph_heap h) in
  if Nat.ltb 1 len then heapify_loop (parent (len - 1)) h (len - 1) else Ok h.

(** src/simplify/simplify_edge.rs:82-88: weight and links of interior point [i]. *)
Definition init_interior (m : mode) (ps : list point) (i : nat) : res vpoint :=
  a <- get ps (i - 1) ;;
  b <- get ps i ;;
  c <- get ps (i + 1) ;;
  w <- weight2 m a b c ;;
  Ok (VP b w 0 (Some (i + 1)%nat) (Some (i - 1)%nat)).

(** src/simplify/simplify_edge.rs:58-99 [From<Vec<geo::Point>>]: end points get weight
    [u64::max_value()], interior points their triangle weight; the heap holds the
    interior points.  Every [heap_index] starts as 0, as in the source. *)
Definition heap_from (m : mode) (ps : list point) : res pheap :=
  let len := length ps in
  _ <- rassert (Nat.leb 2 len) ;;
  p0 <- get ps 0 ;;
  pn <- get ps (len - 1) ;;
  _ <- rassert (negb (pt_eqb p0 pn) || Nat.leb 4 len) ;;
  mid <- mmap (init_interior m ps) (seq 1 (len - 2)) ;;
  heapify (PH (VP p0 u64_max 0 (Some 1%nat) None :: mid ++
               [VP pn u64_max 0 None (Some (len - 2)%nat)])
              (seq 1 (len - 2))).

(** src/simplify/simplify_edge.rs:184-205 [pop]: returns the point's index. *)
Definition hpop (h : pheap) : res (nat * pheap) :=
  let len := length (ph_heap h) in
  _ <- rassert (Nat.leb 1 len) ;;
  top <- get (ph_heap h) 0 ;;
  if Nat.eqb len 1 then Ok (top, PH (ph_points h) [])
  else
    last <- get (ph_heap h) (len - 1) ;;
    let h1 := PH (ph_points h) (set_nth (removelast (ph_heap h)) 0 last) in
    h2 <- vupd h1 last (set_heap 0) ;;
    h3 <- sift_down (sift_fuel h2) h2 0 0 (len - 2) ;;
    tp <- vget h3 top ;;
    pi <- (match vp_prev tp with Some i => Ok i | None => Panic PNull end) ;;
    ni <- (match vp_next tp with Some i => Ok i | None => Panic PNull end) ;;
    h4 <- vupd h3 pi (set_next (vp_next tp)) ;;
    h5 <- vupd h4 ni (set_prev (vp_prev tp)) ;;
    Ok (top, h5).

(** src/simplify/simplify_edge.rs:211-239 [recalculate_point_weight]. *)
Definition recalc (m : mode) (h : pheap) (bi : nat) : res pheap :=
  b <- vget h bi ;;
  match vp_prev b, vp_next b with
  | Some ai, Some ci =>
      a <- vget h ai ;;
      c <- vget h ci ;;
      w <- weight2 m (vp_geo a) (vp_geo b) (vp_geo c) ;;
      if w <? vp_weight b then
        h1 <- vupd h bi (set_weight w) ;;
        sift_up (sift_fuel h1) h1 0 (vp_heap b)
      else if vp_weight b <? w then
        h1 <- vupd h bi (set_weight w) ;;
        let len := length (ph_heap h1) in
        _ <- (if Nat.leb 1 len then Ok tt else Panic POverflow) ;;
        sift_down (sift_fuel h1) h1 (vp_heap b) (vp_heap b) (len - 1)
      else Ok h
  | _, _ => Ok h
  end.

(** src/simplify/simplify_edge.rs:255-282: the elimination loop. *)
Fixpoint vw_loop (fuel : nat) (m : mode) (thr : Z) (h : pheap) (last_weight : Z) : res pheap :=
  match ph_heap h with
  | [] => Ok h
  | _ :: _ =>
      match fuel with
      | O => Panic PFuel
      | S fuel' =>
          '(pi, h1) <- hpop h ;;
          p <- vget h1 pi ;;
          let continue (h2 : pheap) (lw : Z) :=
            p2 <- vget h2 pi ;;
            h3 <- (match vp_prev p2 with Some i => recalc m h2 i | None => Ok h2 end) ;;
            p3 <- vget h3 pi ;;
            h4 <- (match vp_next p3 with Some i => recalc m h3 i | None => Ok h3 end) ;;
            vw_loop fuel' m thr h4 lw in
          if vp_weight p <? last_weight then
            h2 <- vupd h1 pi (set_weight last_weight) ;; continue h2 last_weight
          else if thr <=? vp_weight p then Ok h1
          else continue h1 (vp_weight p)
      end
  end.

(** src/simplify/simplify_edge.rs:305-314: pick the two highest-weight points, in order. *)
Definition top2_step (st : vpoint * vpoint * bool) (p : vpoint) : vpoint * vpoint * bool :=
  let '(first, second, lower) := st in
  if vp_weight first <? vp_weight p then (p, first, false)
  else if vp_weight second <? vp_weight p then (first, p, true)
  else st.

(** src/simplify/simplify_edge.rs:289-328: keep rings rings. *)
Definition ring_fix (pts : list vpoint) (ret : list point) : res (list point) :=
  r0 <- get ret 0 ;;
  rn <- get ret (length ret - 1) ;;
  if pt_eqb r0 rn && Nat.ltb (length ret) 4 then
    p1 <- get pts 1 ;;
    p2 <- get pts 2 ;;
    let st0 := if vp_weight p1 <? vp_weight p2 then (p2, p1, false) else (p1, p2, true) in
    _ <- (if Nat.leb 4 (length pts) then Ok tt else Panic PIndex) ;;
    let '(first, second, lower) :=
      fold_left top2_step (firstn (length pts - 4) (skipn 3 pts)) st0 in
    let '(q1, q2) := if (lower : bool) then (first, second) else (second, first) in
    p0 <- get pts 0 ;;
    pn <- get pts (length pts - 1) ;;
    Ok [vp_geo p0; vp_geo q1; vp_geo q2; vp_geo pn]
  else Ok ret.

(** src/simplify/simplify_edge.rs:252-331 [visvalingam_whyatt]. *)
Definition visvalingam_whyatt (m : mode) (h : pheap) (thr : Z) : res (list point) :=
  h' <- vw_loop (length (ph_heap h)) m thr h 0 ;;
  let ret := map vp_geo (filter (fun p => thr <=? vp_weight p) (ph_points h')) in
  ring_fix (ph_points h') ret.

(** src/simplify/simplify_edge.rs:340-343 [simplify_edge]. *)
Definition simplify_edge (m : mode) (ps : list point) (thr : Z) : res (list point) :=
  h <- heap_from m ps ;; visvalingam_whyatt m h thr.

(** src/simplify/mod.rs:5-11 [simplify]. *)
Definition simplify {D} (m : mode) (t : topology D) (thr : Z) : res (topology D) :=
  es <- mmap (fun e => ps <- simplify_edge m (te_points e) thr ;;
                       Ok (TEdge ps (te_ring0 e) (te_ring1 e))) (tp_edges t) ;;
  Ok (Topology (tp_regions t) es).
