(** * SimplifyFrame: simplification and changes of coordinates that keep the weights *)
From Verif Require Import BuildFrameSpec Simplify Spec GeoProofs TopoProofs SimplifyProofs Checked CheckedSpec.

Definition rmap {A B} (F : A -> B) (x : res A) : res B := match x with Ok a => Ok (F a) | Panic p => Panic p end.

Lemma bind_rmap {A B C E} (F : A -> B) (G : C -> E) (x : res A) x' (k : B -> res E) (k' : A -> res C) :
  x' = rmap F x -> (forall a, x = Ok a -> k (F a) = rmap G (k' a)) -> bind x' k = rmap G (bind x k').
Proof. intros -> H. destruct x as [a|p]; [exact (H a eq_refl)|reflexivity]. Qed.

Lemma bind_rsame {A C E} (G : C -> E) (x : res A) (k : A -> res E) (k' : A -> res C) :
  (forall a, x = Ok a -> k a = rmap G (k' a)) -> bind x k = rmap G (bind x k').
Proof. intros H. destruct x as [a|p]; [exact (H a eq_refl)|reflexivity]. Qed.

Section Moved.
Context (m : mode) (g : point -> point).
Hypothesis g_inj : forall p q, g p = g q -> p = q.
Hypothesis g_weight : forall a b c, weight2 m (g a) (g b) (g c) = weight2 m a b c.

Definition mv (p : vpoint) : vpoint := VP (g (vp_geo p)) (vp_weight p) (vp_heap p) (vp_next p) (vp_prev p).
Definition mh (h : pheap) : pheap := PH (map mv (ph_points h)) (ph_heap h).

Lemma get_or_map {A B} (F : A -> B) p l i : get_or p (map F l) i = rmap F (get_or p l i).
Proof. unfold get_or. rewrite nth_error_map. destruct (nth_error l i); reflexivity. Qed.
Lemma get_map {A B} (F : A -> B) l i : get (map F l) i = rmap F (get l i).
Proof. apply get_or_map. Qed.

Lemma vget_moved h i : vget (mh h) i = rmap mv (vget h i).
Proof. apply get_or_map. Qed.

Lemma vupd_moved h i F : (forall p, F (mv p) = mv (F p)) -> vupd (mh h) i F = rmap mh (vupd h i F).
Proof.
  intros H. unfold vupd. apply (bind_rmap mv); [apply vget_moved|]. intros p _. cbn [rmap]. unfold mh. cbn [ph_points ph_heap]. rewrite map_set_nth, H. reflexivity.
Qed.

Lemma hweight_moved h k : hweight (mh h) k = hweight h k.
Proof.
  unfold hweight. cbn [mh ph_heap]. destruct (get (ph_heap h) k) as [i|]; cbn [bind]; [|reflexivity]. rewrite vget_moved. destruct (vget h i); reflexivity.
Qed.

Lemma hswap_moved h a b : hswap (mh h) a b = rmap mh (hswap h a b).
Proof.
  unfold hswap. cbn [mh ph_heap ph_points]. apply bind_rsame. intros ia _. apply bind_rsame. intros ib _.
  apply (bind_rmap mh); [exact (vupd_moved (PH _ _) ib (set_heap a) (fun p => eq_refl))|]. intros h' _. apply vupd_moved. reflexivity.
Qed.

Lemma sift_down_moved fuel : forall h start root e, sift_down fuel (mh h) start root e = rmap mh (sift_down fuel h start root e).
Proof.
  induction fuel as [|fuel IH]; intros h start root e; [reflexivity|]. cbn [sift_down]. cbv zeta. destruct (Nat.leb _ e); [|reflexivity].
  rewrite !hweight_moved. apply bind_rsame. intros ws _. apply bind_rsame. intros wc _. rewrite !hweight_moved. apply bind_rsame. intros s2 _.
  destruct (Nat.eqb s2 root); [reflexivity|]. apply (bind_rmap mh); [apply hswap_moved|]. intros h' _. apply IH.
Qed.

Lemma sift_up_moved fuel : forall h start child, sift_up fuel (mh h) start child = rmap mh (sift_up fuel h start child).
Proof.
  induction fuel as [|fuel IH]; intros h start child; [reflexivity|]. cbn [sift_up]. cbv zeta. destruct (Nat.ltb start child); [|reflexivity].
  rewrite !hweight_moved. apply bind_rsame. intros wp _. apply bind_rsame. intros wc _. destruct (wc <? wp); [|reflexivity].
  apply (bind_rmap mh); [apply hswap_moved|]. intros h' _. apply IH.
Qed.

Lemma heapify_loop_moved start : forall h e, heapify_loop start (mh h) e = rmap mh (heapify_loop start h e).
Proof.
  induction start as [|start IH]; intros h e; cbn [heapify_loop]; (apply (bind_rmap mh); [apply sift_down_moved|]); intros h' _; [reflexivity|apply IH].
Qed.

Lemma heapify_moved h : heapify (mh h) = rmap mh (heapify h).
Proof. unfold heapify. cbn [mh ph_heap]. cbv zeta. destruct (Nat.ltb _ _); [apply heapify_loop_moved|reflexivity]. Qed.

Lemma mmap_moved {A B C} (F : B -> C) (k : A -> res B) (k' : A -> res C) l : (forall a, k' a = rmap F (k a)) -> mmap k' l = rmap (map F) (mmap k l).
Proof.
  intros H. induction l as [|a l IH]; [reflexivity|]. cbn [mmap]. apply (bind_rmap F); [apply H|]. intros b _. apply (bind_rmap (map F)); [exact IH|]. reflexivity.
Qed.

Lemma init_moved ps i : init_interior m (map g ps) i = rmap mv (init_interior m ps i).
Proof.
  unfold init_interior. apply (bind_rmap g); [apply get_map|]. intros a _. apply (bind_rmap g); [apply get_map|]. intros b _.
  apply (bind_rmap g); [apply get_map|]. intros c _. rewrite g_weight. apply bind_rsame. reflexivity.
Qed.

Lemma g_eqb p q : pt_eqb (g p) (g q) = pt_eqb p q.
Proof. destruct (pt_eqb_spec (g p) (g q)) as [E|E], (pt_eqb_spec p q) as [E'|E']; try reflexivity; [destruct E'; apply g_inj, E|destruct E; congruence]. Qed.

Lemma heap_from_moved ps : heap_from m (map g ps) = rmap mh (heap_from m ps).
Proof.
  unfold heap_from. rewrite map_length. cbv zeta. apply bind_rsame. intros _ _. apply (bind_rmap g); [apply get_map|]. intros p0 _. apply (bind_rmap g); [apply get_map|]. intros pn _.
  rewrite g_eqb. apply bind_rsame. intros _ _. apply (bind_rmap (map mv)); [apply mmap_moved, init_moved|]. intros mid _. rewrite <- heapify_moved. unfold mh. cbn [ph_points ph_heap map].
  rewrite map_app. reflexivity.
Qed.

Definition mp (x : nat * pheap) : nat * pheap := (fst x, mh (snd x)).

Lemma hpop_moved h : hpop (mh h) = rmap mp (hpop h).
Proof.
  unfold hpop. cbn [mh ph_heap ph_points]. cbv zeta. apply bind_rsame. intros _ _. apply bind_rsame. intros top _. destruct (Nat.eqb _ 1); [reflexivity|].
  apply bind_rsame. intros last _. apply (bind_rmap mh); [exact (vupd_moved (PH _ _) last (set_heap 0) (fun p => eq_refl))|]. intros h2 _.
  apply (bind_rmap mh); [apply sift_down_moved|]. intros h3 _. apply (bind_rmap mv); [apply vget_moved|]. intros tp _. cbn [mv vp_prev vp_next].
  apply bind_rsame. intros pi _. apply bind_rsame. intros ni _. apply (bind_rmap mh); [apply vupd_moved; reflexivity|]. intros h4 _.
  apply (bind_rmap mh); [apply vupd_moved; reflexivity|]. intros h5 _. reflexivity.
Qed.

Lemma recalc_moved h bi : recalc m (mh h) bi = rmap mh (recalc m h bi).
Proof.
  unfold recalc. apply (bind_rmap mv); [apply vget_moved|]. intros b _. cbn [mv vp_prev vp_next vp_geo vp_weight vp_heap].
  destruct (vp_prev b) as [ai|], (vp_next b) as [ci|]; try reflexivity.
  apply (bind_rmap mv); [apply vget_moved|]. intros a _. apply (bind_rmap mv); [apply vget_moved|]. intros c _. cbn [mv vp_geo]. rewrite g_weight. apply bind_rsame. intros w _.
  destruct (w <? vp_weight b); [|destruct (vp_weight b <? w); [|reflexivity]].
  - apply (bind_rmap mh); [apply vupd_moved; reflexivity|]. intros h1 _. apply sift_up_moved.
  - apply (bind_rmap mh); [apply vupd_moved; reflexivity|]. intros h1 _. cbv zeta. cbn [mh ph_heap]. apply bind_rsame. intros _ _. exact (sift_down_moved _ h1 _ _ _).
Qed.

Lemma vw_loop_moved fuel thr : forall h lw, vw_loop fuel m thr (mh h) lw = rmap mh (vw_loop fuel m thr h lw).
Proof.
  induction fuel as [|fuel IH]; intros h lw; cbn [vw_loop]; change (ph_heap (mh h)) with (ph_heap h); (destruct (ph_heap h) as [|x l] eqn:EH; [reflexivity|]); [reflexivity|].
  apply (bind_rmap mp); [apply hpop_moved|]. intros [pi h1] _. cbn [mp fst snd]. apply (bind_rmap mv); [apply vget_moved|]. intros p _. cbn [mv vp_weight]. cbv zeta.
  assert (HC : forall h2 lw',
    (p2 <- vget (mh h2) pi ;; h3 <- (match vp_prev p2 with Some i => recalc m (mh h2) i | None => Ok (mh h2) end) ;;
     p3 <- vget h3 pi ;; h4 <- (match vp_next p3 with Some i => recalc m h3 i | None => Ok h3 end) ;; vw_loop fuel m thr h4 lw') =
    rmap mh (p2 <- vget h2 pi ;; h3 <- (match vp_prev p2 with Some i => recalc m h2 i | None => Ok h2 end) ;;
     p3 <- vget h3 pi ;; h4 <- (match vp_next p3 with Some i => recalc m h3 i | None => Ok h3 end) ;; vw_loop fuel m thr h4 lw')).
  { intros h2 lw'. apply (bind_rmap mv); [apply vget_moved|]. intros p2 _. cbn [mv vp_prev]. apply (bind_rmap mh); [destruct (vp_prev p2); [apply recalc_moved|reflexivity]|]. intros h3 _.
    apply (bind_rmap mv); [apply vget_moved|]. intros p3 _. cbn [mv vp_next]. apply (bind_rmap mh); [destruct (vp_next p3); [apply recalc_moved|reflexivity]|]. intros h4 _. apply IH. }
  destruct (vp_weight p <? lw); [apply (bind_rmap mh); [apply vupd_moved; reflexivity|intros h2 _; apply HC]|].
  destruct (thr <=? vp_weight p); [reflexivity|apply HC].
Qed.

Definition m3 (st : vpoint * vpoint * bool) : vpoint * vpoint * bool := let '(a, b, l) := st in (mv a, mv b, l).

Lemma top2_moved l : forall st, fold_left top2_step (map mv l) (m3 st) = m3 (fold_left top2_step l st).
Proof.
  induction l as [|p l IH]; intros [[a b] lo]; [reflexivity|]. cbn [map fold_left]. rewrite <- IH. f_equal. unfold top2_step, m3. cbn [mv vp_weight].
  destruct (vp_weight a <? vp_weight p); [reflexivity|]. destruct (vp_weight b <? vp_weight p); reflexivity.
Qed.

Lemma ring_fix_moved pts ret : ring_fix (map mv pts) (map g ret) = rmap (map g) (ring_fix pts ret).
Proof.
  unfold ring_fix. rewrite !map_length. apply (bind_rmap g); [apply get_map|]. intros r0 _. apply (bind_rmap g); [apply get_map|]. intros rn _. rewrite g_eqb.
  destruct (pt_eqb r0 rn && Nat.ltb (length ret) 4); [|reflexivity]. apply (bind_rmap mv); [apply get_map|]. intros p1 _. apply (bind_rmap mv); [apply get_map|]. intros p2 _. cbv zeta.
  cbn [mv vp_weight]. apply bind_rsame. intros _ _. rewrite skipn_map, firstn_map.
  assert (HS : forall x : bool, (if x then (mv p2, mv p1, false) else (mv p1, mv p2, true)) = m3 (if x then (p2, p1, false) else (p1, p2, true))) by (intros []; reflexivity).
  fold (mv p1) (mv p2). rewrite HS, top2_moved. destruct (fold_left top2_step _ _) as [[a b] lo]. cbn [m3].
  destruct lo; (apply (bind_rmap mv); [apply get_map|]; intros p0 _; apply (bind_rmap mv); [apply get_map|]; intros pn _; reflexivity).
Qed.

Lemma simplify_edge_moved ps thr : simplify_edge m (map g ps) thr = rmap (map g) (simplify_edge m ps thr).
Proof.
  unfold simplify_edge. apply (bind_rmap mh); [apply heap_from_moved|]. intros h _. unfold visvalingam_whyatt. apply (bind_rmap mh); [exact (vw_loop_moved _ _ h 0)|]. intros h' _. cbv zeta.
  rewrite <- ring_fix_moved. cbn [mh ph_points]. f_equal. induction (ph_points h') as [|p l IH]; [reflexivity|]. cbn [map filter mv vp_weight].
  destruct (thr <=? vp_weight p); [cbn [map]; rewrite IH; reflexivity|exact IH].
Qed.
End Moved.

(** ** The frames that keep the weights *)
Lemma rmap_iff {A B} (F : A -> B) x y : y = rmap F x -> forall b, y = Ok b -> exists a, x = Ok a /\ b = F a.
Proof. intros -> b. destruct x as [a|p]; [|discriminate]. intros [= <-]. eauto. Qed.

Lemma simplify_moved {D} m f thr (t : topology D) :
  (forall ps, simplify_edge m (moved_points f ps) thr = rmap (moved_points f) (simplify_edge m ps thr)) ->
  simplify m (moved_topology f t) thr = rmap (moved_topology f) (simplify m t thr).
Proof.
  intros H. unfold simplify. cbn [moved_topology tp_edges tp_regions]. apply (bind_rmap (map (moved_edge f))); [|reflexivity].
  induction (tp_edges t) as [|e l IH]; [reflexivity|]. cbn [map mmap]. apply (bind_rmap (moved_edge f)).
  - cbn [moved_edge te_points]. rewrite H. destruct (simplify_edge m (te_points e) thr); reflexivity.
  - intros e' _. apply (bind_rmap (map (moved_edge f))); [exact IH|]. reflexivity.
Qed.

Lemma moved_inj f p q : moved f p = moved f q -> p = q.
Proof. destruct f as [s fx fy x y], p as [a b], q as [c d]. unfold moved, place. cbn. destruct s, fx, fy; intros [= H1 H2]; f_equal; lia. Qed.

Lemma weight_up m y a b c : weight2 m (moved (shifted 0 y) a) (moved (shifted 0 y) b) (moved (shifted 0 y) c) = weight2 m a b c.
Proof.
  destruct a as [ax ay], b as [bx by0], c as [cx cy]. unfold weight2, moved, shifted, place. cbn [fr_swap fr_flip_x fr_flip_y fr_x fr_y px py].
  rewrite !Z.add_0_l. unfold i64_sub. replace (y + cy - (y + ay)) with (cy - ay) by lia. replace (y + by0 - (y + ay)) with (by0 - ay) by lia. reflexivity.
Qed.

Lemma wrap_abs_neg z : wrap_i64 (Z.abs (wrap_i64 (- z))) = wrap_i64 (Z.abs (wrap_i64 z)).
Proof.
  destruct (Z.eq_dec (wrap_i64 z) (- 2 ^ 63)) as [E|E]; [|rewrite (wrap_neg z E), Z.abs_opp; reflexivity].
  f_equal. f_equal. destruct (wrap_min z E) as [k Hk]. rewrite E. symmetry. apply (wrap_unique _ _ k); [unfold fits, two63; lia|]. lia.
Qed.

Lemma weight_down o a b c : let f := Frame false false true 0 o in weight2 Release (moved f a) (moved f b) (moved f c) = weight2 Release a b c.
Proof.
  cbv zeta. destruct a as [ax ay], b as [bx by0], c as [cx cy]. unfold weight2, moved, place. cbn [fr_swap fr_flip_x fr_flip_y fr_x fr_y px py].
  unfold i64_abs, i64_mul, i64_sub. rewrite !Z.add_0_l. repeat (rewrite !i64_ret_release; cbn [bind]).
  do 2 f_equal. rewrite <- wrap_abs_neg. f_equal. f_equal.
  set (w1 := wrap_i64 (bx * ax)). set (w4 := wrap_i64 (cx - ax)).
  destruct (wrap_congr (o - cy - (o - ay))) as [k1 H1]. destruct (wrap_congr (cy - ay)) as [k2 H2]. destruct (wrap_congr (o - by0 - (o - ay))) as [k3 H3]. destruct (wrap_congr (by0 - ay)) as [k4 H4].
  rewrite H1, H2, H3, H4.
  destruct (wrap_congr (w1 * (o - cy - (o - ay) + k1 * 2 ^ 64))) as [j1 J1]. destruct (wrap_congr (w1 * (cy - ay + k2 * 2 ^ 64))) as [j2 J2].
  destruct (wrap_congr (w4 * (o - by0 - (o - ay) + k3 * 2 ^ 64))) as [j3 J3]. destruct (wrap_congr (w4 * (by0 - ay + k4 * 2 ^ 64))) as [j4 J4].
  rewrite J1, J2, J3, J4.
  match goal with |- wrap_i64 ?a = wrap_i64 ?b => destruct (wrap_congr a) as [i Hi]; apply (wrap_unique _ b (i - w1 * (k1 + k2) - j1 - j2 + w4 * (k3 + k4) + j3 + j4)); [apply wrap_fits|]; rewrite Hi end.
  ring.
Qed.

Lemma simplify_up {D} m y (t : topology D) thr : simplify m (moved_topology (shifted 0 y) t) thr = rmap (moved_topology (shifted 0 y)) (simplify m t thr).
Proof. apply simplify_moved. intros ps. apply simplify_edge_moved; [apply moved_inj|apply weight_up]. Qed.

Lemma simplify_down {D} o (t : topology D) thr : let f := Frame false false true 0 o in
  simplify Release (moved_topology f t) thr = rmap (moved_topology f) (simplify Release t thr).
Proof. apply simplify_moved. intros ps. apply simplify_edge_moved; [apply moved_inj|apply weight_down]. Qed.

Lemma simplify_down_both {D} m m' o (t : topology D) thr t' s : let f := Frame false false true 0 o in
  simplify m t thr = Ok t' -> simplify m' (moved_topology f t) thr = Ok s -> s = moved_topology f t'.
Proof.
  intros f H1 H2. assert (HR : forall m (t : topology D) t', simplify m t thr = Ok t' -> simplify Release t thr = Ok t').
  { intros [] u u' E; [|exact E]. destruct (simplify_ag u thr) as [E'|E']; congruence. }
  apply HR in H1. apply HR in H2. pose proof (simplify_down o t thr) as HD. cbv zeta in HD. fold f in HD. rewrite H1, H2 in HD. injection HD. auto.
Qed.
