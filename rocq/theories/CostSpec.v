(** * CostSpec: src/simplify/simplify_edge.rs with a step counter

    The functions of [Simplify], each returning its result together with the number of rounds of the loops
    that it went through: one for each point that is looked at in a pass over the points, and one for each
    round of a [sift_down], a [sift_up], [heapify] and the main loop.  [erase] forgets the number. *)
From Verif Require Export Simplify.

Definition counted (A : Type) : Type := res (A * nat).
Definition erase {A} (x : counted A) : res A := r <- x ;; Ok (fst r).

(** [x], then [k] with the result of [x]; [x] without loops; one more step. *)
Definition cthen {A B} (x : counted A) (k : A -> counted B) : counted B :=
  r <- x ;; r' <- k (fst r) ;; Ok (fst r', snd r + snd r')%nat.
Definition plain {A} (x : res A) : counted A := a <- x ;; Ok (a, 0%nat).
Definition steps {A} (n : nat) (x : counted A) : counted A := r <- x ;; Ok (fst r, n + snd r)%nat.

(** src/simplify/simplify_edge.rs:130-154. *)
Fixpoint sift_down_c (fuel : nat) (h : pheap) (start root end_ : nat) : counted pheap :=
  match fuel with
  | O => Panic PFuel
  | S fuel' =>
      let child := left_child root in
      if Nat.leb child end_ then
        steps 1
          (cthen (plain (ws <- hweight h start ;;
                         wc <- hweight h child ;;
                         let swap1 := if wc <? ws then child else root in
                         (if Nat.leb (child + 1) end_
                          then w1 <- hweight h swap1 ;;
                               w2 <- hweight h (child + 1) ;;
                               Ok (if w2 <? w1 then (child + 1)%nat else swap1)
                          else Ok swap1)))
             (fun swap2 => if Nat.eqb swap2 root then Ok (h, 0%nat)
                           else cthen (plain (hswap h root swap2)) (fun h' => sift_down_c fuel' h' start swap2 end_)))
      else Ok (h, 0%nat)
  end.

(** src/simplify/simplify_edge.rs:156-169. *)
Fixpoint sift_up_c (fuel : nat) (h : pheap) (start child : nat) : counted pheap :=
  match fuel with
  | O => Panic PFuel
  | S fuel' =>
      if Nat.ltb start child then
        let p := parent child in
        steps 1
          (cthen (plain (wp <- hweight h p ;; wc <- hweight h child ;; Ok (wc <? wp)))
             (fun lighter : bool => if lighter then cthen (plain (hswap h p child)) (fun h' => sift_up_c fuel' h' start p)
                                    else Ok (h, 0%nat)))
      else Ok (h, 0%nat)
  end.

(** src/simplify/simplify_edge.rs:113-128. *)
Fixpoint heapify_loop_c (start : nat) (h : pheap) (end_ : nat) : counted pheap :=
  steps 1
    (cthen (sift_down_c (sift_fuel h) h start start end_)
       (fun h' => match start with O => Ok (h', 0%nat) | S start' => heapify_loop_c start' h' end_ end)).
Definition heapify_c (h : pheap) : counted pheap :=
  let len := length (ph_heap h) in
  if Nat.ltb 1 len then heapify_loop_c (parent (len - 1)) h (len - 1) else Ok (h, 0%nat).

(** src/simplify/simplify_edge.rs:58-99: a pass over the points, then [heapify]. *)
Definition heap_from_c (m : mode) (ps : list point) : counted pheap :=
  let len := length ps in
  steps len
    (cthen (plain (_ <- rassert (Nat.leb 2 len) ;;
                   p0 <- get ps 0 ;;
                   pn <- get ps (len - 1) ;;
                   _ <- rassert (negb (pt_eqb p0 pn) || Nat.leb 4 len) ;;
                   mid <- mmap (init_interior m ps) (seq 1 (len - 2)) ;;
                   Ok (PH (VP p0 u64_max 0 (Some 1%nat) None :: mid ++ [VP pn u64_max 0 None (Some (len - 2)%nat)]) (seq 1 (len - 2)))))
       heapify_c).

(** src/simplify/simplify_edge.rs:184-205. *)
Definition hpop_c (h : pheap) : counted (nat * pheap) :=
  let len := length (ph_heap h) in
  cthen (plain (_ <- rassert (Nat.leb 1 len) ;; get (ph_heap h) 0)) (fun top =>
  if Nat.eqb len 1 then Ok ((top, PH (ph_points h) []), 0%nat)
  else
    cthen (plain (last <- get (ph_heap h) (len - 1) ;;
                  vupd (PH (ph_points h) (set_nth (removelast (ph_heap h)) 0 last)) last (set_heap 0))) (fun h2 =>
    cthen (sift_down_c (sift_fuel h2) h2 0 0 (len - 2)) (fun h3 =>
    plain (tp <- vget h3 top ;;
           pi <- (match vp_prev tp with Some i => Ok i | None => Panic PNull end) ;;
           ni <- (match vp_next tp with Some i => Ok i | None => Panic PNull end) ;;
           h4 <- vupd h3 pi (set_next (vp_next tp)) ;;
           h5 <- vupd h4 ni (set_prev (vp_prev tp)) ;;
           Ok (top, h5))))).

(** src/simplify/simplify_edge.rs:211-239. *)
Definition recalc_c (m : mode) (h : pheap) (bi : nat) : counted pheap :=
  cthen (plain (vget h bi)) (fun b =>
  match vp_prev b, vp_next b with
  | Some ai, Some ci =>
      cthen (plain (a <- vget h ai ;; c <- vget h ci ;; weight2 m (vp_geo a) (vp_geo b) (vp_geo c))) (fun w =>
      if w <? vp_weight b then
        cthen (plain (vupd h bi (set_weight w))) (fun h1 => sift_up_c (sift_fuel h1) h1 0 (vp_heap b))
      else if vp_weight b <? w then
        cthen (plain (h1 <- vupd h bi (set_weight w) ;;
                      _ <- (if Nat.leb 1 (length (ph_heap h1)) then Ok tt else Panic POverflow) ;;
                      Ok h1))
              (fun h1 => sift_down_c (sift_fuel h1) h1 (vp_heap b) (vp_heap b) (length (ph_heap h1) - 1))
      else Ok (h, 0%nat))
  | _, _ => Ok (h, 0%nat)
  end).

(** src/simplify/simplify_edge.rs:255-282. *)
Fixpoint vw_loop_c (fuel : nat) (m : mode) (thr : Z) (h : pheap) (last_weight : Z) : counted pheap :=
  match ph_heap h with
  | [] => Ok (h, 0%nat)
  | _ :: _ =>
      match fuel with
      | O => Panic PFuel
      | S fuel' =>
          steps 1
            (cthen (hpop_c h) (fun popped =>
             let '(pi, h1) := popped in
             cthen (plain (vget h1 pi)) (fun p =>
             let continue (h2 : pheap) (lw : Z) : counted pheap :=
               cthen (plain (vget h2 pi)) (fun p2 =>
               cthen (match vp_prev p2 with Some i => recalc_c m h2 i | None => Ok (h2, 0%nat) end) (fun h3 =>
               cthen (plain (vget h3 pi)) (fun p3 =>
               cthen (match vp_next p3 with Some i => recalc_c m h3 i | None => Ok (h3, 0%nat) end) (fun h4 =>
               vw_loop_c fuel' m thr h4 lw)))) in
             if vp_weight p <? last_weight then
               cthen (plain (vupd h1 pi (set_weight last_weight))) (fun h2 => continue h2 last_weight)
             else if thr <=? vp_weight p then Ok (h1, 0%nat)
             else continue h1 (vp_weight p))))
      end
  end.

(** src/simplify/simplify_edge.rs:252-331, 340-343: two more passes over the points. *)
Definition simplify_edge_c (m : mode) (ps : list point) (thr : Z) : counted (list point) :=
  cthen (heap_from_c m ps) (fun h =>
  cthen (vw_loop_c (length (ph_heap h)) m thr h 0) (fun h' =>
  steps (2 * length (ph_points h'))
    (plain (ring_fix (ph_points h') (map vp_geo (filter (fun p => thr <=? vp_weight p) (ph_points h'))))))).

(** src/simplify/mod.rs:5-11: the sum over all edges. *)
Fixpoint simplify_all_c (m : mode) (es : list (list point)) (thr : Z) : counted (list (list point)) :=
  match es with
  | [] => Ok ([], 0%nat)
  | e :: es' => cthen (simplify_edge_c m e thr) (fun r => cthen (simplify_all_c m es' thr) (fun rs => Ok (r :: rs, 0%nat)))
  end.
