(** * GeoProps: C01-C08, areas and winding orders *)
From Verif Require Import Spec GeoProofs.

(** ** C01: exact areas when nothing overflows *)
Theorem C01_area_exact : forall m r,
  Forall fits (ring_values r) ->
  ring_area2_and_winding m r =
    Ok (Z.abs (ring_area r), if 0 <=? ring_area r then Clockwise else CounterClockwise).
Proof. exact ring_aw_fits. Qed.
Print Assumptions C01_area_exact.

(** [area2] and [winding_order] are its two halves. *)
Theorem C01_area_and_winding : forall m r,
  Forall fits (ring_values r) ->
  ring_area2 m r = Ok (Z.abs (ring_area r)) /\
  ring_winding_order m r = Ok (if 0 <=? ring_area r then Clockwise else CounterClockwise).
Proof. intros m r H. unfold ring_area2, ring_winding_order. rewrite ring_aw_fits by exact H. split; reflexivity. Qed.
Print Assumptions C01_area_and_winding.

(** A sufficient condition a caller can check. *)
Theorem C01_small_coordinates : forall m B ps,
  Forall (fun p => 0 <= px p <= B /\ 0 <= py p <= B) ps ->
  B * B * Z.of_nat (length ps) < 2 ^ 63 ->
  ring_area2_and_winding m (RPoints ps) =
    Ok (Z.abs (shoelace ps), if 0 <=? shoelace ps then Clockwise else CounterClockwise).
Proof. intros m B ps H Hb. exact (ring_aw_fits m (RPoints ps) (small_coordinates_fit B ps H Hb)). Qed.
Print Assumptions C01_small_coordinates.

Definition tri : list point := [Pt 5 1; Pt 9 8; Pt 2 6; Pt 5 1].
Example C01_case :
  Forall fits (ring_values (RPoints tri)) /\ shoelace tri = 41 /\
  Forall fits (ring_values (REdges [[Pt 5 1; Pt 2 6; Pt 9 8]; [Pt 9 8; Pt 5 1]])) /\
  shoelaces [[Pt 5 1; Pt 2 6; Pt 9 8]; [Pt 9 8; Pt 5 1]] = -41.
Proof. unfold ring_values; simpl. repeat split; repeat constructor; discriminate. Qed.

(** ** C02: what is returned when something overflows *)
Theorem C02_release_modulo : forall ps, exists a k,
  signed_area2 Release ps = Ok a /\ fits a /\ a = shoelace ps + k * 2 ^ 64.
Proof.
  intros ps. destruct (wrap_congr (shoelace ps)) as [k Hk].
  exists (wrap_i64 (shoelace ps)), k. split; [apply signed_area2_release|]. split; [apply wrap_fits|exact Hk].
Qed.
Print Assumptions C02_release_modulo.

Theorem C02_release_exact : forall r, fits (ring_area r) ->
  ring_area2_and_winding Release r =
    Ok (Z.abs (ring_area r), if 0 <=? ring_area r then Clockwise else CounterClockwise).
Proof. intros r H. rewrite ring_aw_release, wrap_id by exact H. reflexivity. Qed.
Print Assumptions C02_release_exact.

Theorem C02_debug_signed : forall ps,
  (Forall fits (path_values 0 ps) -> signed_area2 Debug ps = Ok (shoelace ps)) /\
  (~ Forall fits (path_values 0 ps) -> signed_area2 Debug ps = Panic POverflow).
Proof. intros ps. destruct (signed_area2_debug ps) as [[H E]|[H E]]; split; tauto. Qed.
Print Assumptions C02_debug_signed.

Theorem C02_debug_ring : forall r,
  (Forall fits (ring_values r) ->
     ring_area2_and_winding Debug r =
       Ok (Z.abs (ring_area r), if 0 <=? ring_area r then Clockwise else CounterClockwise)) /\
  (~ Forall fits (ring_values r) -> ring_area2_and_winding Debug r = Panic POverflow).
Proof. intros r. destruct (ring_aw_debug r) as [[H E]|[H E]]; split; tauto. Qed.
Print Assumptions C02_debug_ring.

(** A thin triangle far from the origin: its products overflow an i64, its area does not. *)
Definition far : list point :=
  [Pt 4294967295 4294967295; Pt 4294967294 4294967295; Pt 4294967295 4294967294; Pt 4294967295 4294967295].
Example C02_case :
  ~ Forall fits (ring_values (RPoints far)) /\ fits (ring_area (RPoints far)) /\ shoelace far = 1 /\
  ring_area2_and_winding Release (RPoints far) = Ok (1, Clockwise) /\
  ring_area2_and_winding Debug (RPoints far) = Panic POverflow.
Proof.
  repeat split; try discriminate; try reflexivity.
  intros H. inversion H as [|? ? H1 _]. destruct H1 as [_ H1]. vm_compute in H1. discriminate.
Qed.

(** ** C03: the documented winding order does not hold for every u32 ring *)
Definition whole_square : list point :=
  [Pt 0 0; Pt 4294967295 0; Pt 4294967295 4294967295; Pt 0 4294967295; Pt 0 0].

(** A clockwise square covering the u32 plane is reported counter-clockwise in release builds
    and panics in debug builds. *)
Theorem C03_winding_u32_refuted : exists ps,
  wf_points ps /\ is_closed ps /\ 0 < shoelace ps /\
  ring_winding_order Release (RPoints ps) = Ok CounterClockwise /\
  ring_winding_order Debug (RPoints ps) = Panic POverflow.
Proof.
  exists whole_square. split; [repeat constructor; discriminate|].
  split; [split; [discriminate|reflexivity]|]. repeat split.
Qed.
Print Assumptions C03_winding_u32_refuted.

(** What is missing: rings whose doubled area is 2^63 or more in absolute value. For all others
    a release build is right, and a debug build is right or panics. *)
Theorem C03_winding_u32_partial : forall ps,
  wf_points ps -> is_closed ps -> fits (shoelace ps) ->
  ring_winding_order Release (RPoints ps) =
    Ok (if 0 <=? shoelace ps then Clockwise else CounterClockwise) /\
  (ring_winding_order Debug (RPoints ps) =
     Ok (if 0 <=? shoelace ps then Clockwise else CounterClockwise) \/
   ring_winding_order Debug (RPoints ps) = Panic POverflow).
Proof.
  intros ps _ _ H. unfold ring_winding_order. split.
  - rewrite ring_aw_release. cbn [bind snd ring_area]. rewrite wrap_id by exact H. reflexivity.
  - destruct (ring_aw_debug (RPoints ps)) as [[_ E]|[_ E]]; rewrite E; [left|right]; reflexivity.
Qed.
Print Assumptions C03_winding_u32_partial.

Example C03_case : wf_points far /\ is_closed far /\ fits (shoelace far).
Proof. split; [repeat constructor; discriminate|]. repeat split; discriminate. Qed.

(** ** C04: reversal *)
(** The excluded totals 2^63 + k*2^64 wrap to the one i64 that has no negation. *)
Theorem C04_reverse : forall m ps x y,
  (forall k, shoelace ps <> 2 ^ 63 + k * 2 ^ 64) ->
  ring_area2_and_winding m (RPoints ps) = Ok x ->
  ring_area2_and_winding m (RPoints (rev ps)) = Ok y ->
  fst y = fst x /\ (fst x = 0 -> snd x = Clockwise /\ snd y = Clockwise) /\
  (fst x <> 0 -> snd y <> snd x).
Proof. exact area_reverse. Qed.
Print Assumptions C04_reverse.

Theorem C04_reverse_signed : forall m ps a b,
  fits (shoelace ps) -> fits (- shoelace ps) ->
  signed_area2 m ps = Ok a -> signed_area2 m (rev ps) = Ok b -> b = - a.
Proof.
  intros m ps a b H1 H2 Ha Hb. apply signed_area2_ok in Ha, Hb. rewrite shoelace_rev in Hb.
  rewrite wrap_id in Ha, Hb by assumption. congruence.
Qed.
Print Assumptions C04_reverse_signed.

(** In release builds both calls return. *)
Theorem C04_release_returns : forall r, exists x, ring_area2_and_winding Release r = Ok x.
Proof. intros r. eexists. apply ring_aw_release. Qed.
Print Assumptions C04_release_returns.

Example C04_case :
  (forall k, shoelace tri <> 2 ^ 63 + k * 2 ^ 64) /\
  ring_area2_and_winding Debug (RPoints tri) = Ok (41, Clockwise) /\
  ring_area2_and_winding Debug (RPoints (rev tri)) = Ok (41, CounterClockwise).
Proof. split; [intros k; change (shoelace tri) with 41; lia|split; reflexivity]. Qed.

(** ** C05: rotation *)
Theorem C05_rotate : forall m c1 c2 x y,
  ring_area2_and_winding m (RPoints (close (c1 ++ c2))) = Ok x ->
  ring_area2_and_winding m (RPoints (close (c2 ++ c1))) = Ok y -> x = y.
Proof.
  intros m c1 c2 x y Hx Hy. apply ring_aw_ok in Hx, Hy. subst. cbn [ring_area].
  rewrite shoelace_rotate. reflexivity.
Qed.
Print Assumptions C05_rotate.

Theorem C05_rotate_signed : forall m c1 c2 a b,
  signed_area2 m (close (c1 ++ c2)) = Ok a -> signed_area2 m (close (c2 ++ c1)) = Ok b -> a = b.
Proof.
  intros m c1 c2 a b Ha Hb. apply signed_area2_ok in Ha, Hb. rewrite shoelace_rotate in Ha. congruence.
Qed.
Print Assumptions C05_rotate_signed.

(** In release builds, whatever the coordinates: *)
Theorem C05_rotate_release : forall c1 c2,
  ring_area2_and_winding Release (RPoints (close (c1 ++ c2))) =
  ring_area2_and_winding Release (RPoints (close (c2 ++ c1))).
Proof. intros c1 c2. rewrite !ring_aw_release. cbn [ring_area]. rewrite shoelace_rotate. reflexivity. Qed.
Print Assumptions C05_rotate_release.

Example C05_case : close [Pt 5 1; Pt 9 8; Pt 2 6] = tri /\
  ring_area2_and_winding Debug (RPoints (close ([Pt 9 8; Pt 2 6] ++ [Pt 5 1]))) = Ok (41, Clockwise).
Proof. split; reflexivity. Qed.

(** ** C06: additivity over edges *)
Theorem C06_edges_points_agree : forall m es x y,
  connected es ->
  ring_area2_and_winding m (REdges es) = Ok x ->
  ring_area2_and_winding m (RPoints (glue es)) = Ok y -> x = y.
Proof.
  intros m es x y H Hx Hy. apply ring_aw_ok in Hx, Hy. subst. cbn [ring_area].
  rewrite shoelace_glue by exact H. reflexivity.
Qed.
Print Assumptions C06_edges_points_agree.

Theorem C06_ring_edges_agree : forall m ps x y,
  ring_area2_and_winding m (RPoints ps) = Ok x ->
  ring_area2_and_winding m (REdges (ring_edges (RPoints ps))) = Ok y -> x = y.
Proof.
  intros m ps x y Hx Hy. apply ring_aw_ok in Hx, Hy. subst. cbn [ring_area].
  rewrite segments_pairs, shoelaces_segments. reflexivity.
Qed.
Print Assumptions C06_ring_edges_agree.

Theorem C06_ring_points_agree : forall m es x y,
  connected es ->
  ring_area2_and_winding m (REdges es) = Ok x ->
  ring_area2_and_winding m (RPoints (ring_points (REdges es))) = Ok y -> x = y.
Proof.
  intros m es x y H Hx Hy. apply ring_aw_ok in Hx, Hy. subst. cbn [ring_area].
  change (ring_points (REdges es)) with (concat es). rewrite shoelace_concat by exact H. reflexivity.
Qed.
Print Assumptions C06_ring_points_agree.

(** In release builds both sides always return, hence are equal. *)
Theorem C06_release : forall es, connected es ->
  ring_area2_and_winding Release (REdges es) = ring_area2_and_winding Release (RPoints (glue es)) /\
  ring_area2_and_winding Release (REdges es) =
    ring_area2_and_winding Release (RPoints (ring_points (REdges es))).
Proof.
  intros es H. rewrite !ring_aw_release. cbn [ring_area].
  change (ring_points (REdges es)) with (concat es).
  rewrite shoelace_glue, shoelace_concat by exact H. split; reflexivity.
Qed.
Print Assumptions C06_release.

Theorem C06_signed_sum : forall m e f a b c p,
  final e = Some p -> first f = Some p -> fits (shoelace e + shoelace f) ->
  signed_area2 m e = Ok a -> signed_area2 m f = Ok b -> signed_area2 m (e ++ tl f) = Ok c ->
  fits (shoelace e) -> fits (shoelace f) -> c = a + b.
Proof.
  intros m e f a b c p He Hf H Ha Hb Hc Fe Ff.
  apply signed_area2_ok in Ha, Hb, Hc. rewrite wrap_id in Ha, Hb by assumption.
  assert (E : shoelace (glue [e; f]) = shoelaces [e; f]).
  { apply shoelace_glue. cbn [connected]. apply final_some in He as [e' ->]. apply first_some in Hf as [f' ->].
    split; [destruct e'; discriminate|]. split; [apply final_app|discriminate]. }
  simpl in E. rewrite app_nil_r, Z.add_0_r in E. rewrite E, wrap_id in Hc by assumption. congruence.
Qed.
Print Assumptions C06_signed_sum.

Example C06_case :
  let es := [[Pt 5 1; Pt 9 8]; [Pt 9 8; Pt 2 6; Pt 5 1]] in
  connected es /\ glue es = tri /\ ring_area2_and_winding Debug (REdges es) = Ok (41, Clockwise).
Proof. simpl. repeat split; discriminate. Qed.

(** ** C07: Ring::edges *)
Theorem C07_edges_of_points : forall ps d,
  (forall k, (S k < length ps)%nat ->
     nth_error (ring_edges (RPoints ps)) k = Some [nth k ps d; nth (S k) ps d]) /\
  length (ring_edges (RPoints ps)) = (length ps - 1)%nat /\
  connected (ring_edges (RPoints ps)) /\
  (length ps <> 1%nat -> glue (ring_edges (RPoints ps)) = ps).
Proof.
  intros ps d. rewrite segments_pairs. split; [intros k; apply segments_nth|].
  split; [apply segments_length|]. split; [apply segments_connected|apply glue_segments].
Qed.
Print Assumptions C07_edges_of_points.

Theorem C07_edges_of_edges : forall es, ring_edges (REdges es) = es.
Proof. reflexivity. Qed.
Print Assumptions C07_edges_of_edges.

Example C07_case :
  ring_edges (RPoints tri) = [[Pt 5 1; Pt 9 8]; [Pt 9 8; Pt 2 6]; [Pt 2 6; Pt 5 1]].
Proof. reflexivity. Qed.

(** ** C08: Ring::points of an edge ring repeats the junctions *)
Theorem C08_points_refuted : exists es,
  connected es /\ is_closed (glue es) /\ ring_points (REdges es) <> glue es.
Proof.
  exists [[Pt 5 1; Pt 9 8]; [Pt 9 8; Pt 2 6; Pt 5 1]].
  split; [repeat split; discriminate|]. split; [split; [discriminate|reflexivity]|discriminate].
Qed.
Print Assumptions C08_points_refuted.

(** What holds: the points are those of the ring, in order, but every junction is listed twice;
    a ring of one edge, and a ring of points, are returned exactly. *)
Theorem C08_points_partial :
  (forall es, connected es ->
     dedup (ring_points (REdges es)) = dedup (glue es) /\
     length (ring_points (REdges es)) = (length (glue es) + (length es - 1))%nat) /\
  (forall e, ring_points (REdges [e]) = e) /\
  (forall ps, ring_points (RPoints ps) = ps).
Proof.
  split; [exact concat_glue|]. split; [intros e; apply app_nil_r|reflexivity].
Qed.
Print Assumptions C08_points_partial.

Example C08_case :
  let es := [[Pt 5 1; Pt 9 8]; [Pt 9 8; Pt 2 6; Pt 5 1]] in
  connected es /\ ring_points (REdges es) = [Pt 5 1; Pt 9 8; Pt 9 8; Pt 2 6; Pt 5 1].
Proof. simpl. repeat split; discriminate. Qed.
