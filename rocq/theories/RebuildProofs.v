(** * RebuildProofs: a built topology as input for the builder *)
From Coq Require Import Permutation.
From Verif Require Import RebuildSpec OrderSpec GeoProofs TopoProofs BuildProofs OrderProofs.

Lemma read_some l : read (map Some l) = l.
Proof. induction l; [reflexivity|]. unfold read in *. cbn [map flat_map app]. f_equal. exact IHl. Qed.

(** ** The input without what the builder drops *)
Definition plain (r : ring) : ring := REdges (filter has_length (paths r)).
Definition plain_region {D} (g : region D) : region D :=
  Region (rg_data g) (map plain (filter has_area (rg_outer g))) (map plain (filter has_area (rg_inner g))).
Definition has_outer {D} (g : region D) : bool := existsb has_area (rg_outer g).

Lemma filter_idem {A} (f : A -> bool) l : filter f (filter f l) = filter f l.
Proof. induction l as [|a l IH]; [reflexivity|]. cbn [filter]. destruct (f a) eqn:E; [cbn [filter]; rewrite E, IH|]; auto. Qed.

Lemma plain_area r : has_area (plain r) = has_area r.
Proof. unfold has_area. rewrite !ring_area_paths. cbn [plain paths]. rewrite filter_idem. reflexivity. Qed.

Lemma plain_expected r : expected_ring (plain r) = expected_ring r.
Proof. unfold expected_ring. cbn [plain paths]. rewrite filter_idem. reflexivity. Qed.

Lemma as_plain {D} (rs : list (region D)) :
  map as_region (expected rs) = map plain_region (filter has_outer rs).
Proof.
  induction rs as [|g rs IH]; [reflexivity|]. unfold expected in *. cbn [flat_map filter]. rewrite map_app, IH.
  unfold has_outer. rewrite expected_region_eq. destruct (existsb has_area (rg_outer g)) eqn:E.
  - destruct (filter has_area (rg_outer g)) as [|r l] eqn:F.
    + apply existsb_exists in E as (x & Hx & E). assert (I : In x (filter has_area (rg_outer g))) by (apply filter_In; auto). rewrite F in I. destruct I.
    + cbn [map app]. unfold as_region, plain_region. cbn [s_data s_outer s_inner]. rewrite F. cbn [map]. f_equal. f_equal.
      * f_equal; [unfold expected_ring, plain; rewrite read_some; reflexivity|]. rewrite map_map. apply map_ext. intros a. unfold expected_ring, plain. rewrite read_some. reflexivity.
      * rewrite map_map. apply map_ext. intros a. unfold expected_ring, plain. rewrite read_some. reflexivity.
  - assert (F : filter has_area (rg_outer g) = []).
    { destruct (filter has_area (rg_outer g)) as [|r l] eqn:F; [reflexivity|].
      assert (I : In r (filter has_area (rg_outer g))) by (rewrite F; left; reflexivity). apply filter_In in I as [I1 I2].
      assert (existsb has_area (rg_outer g) = true) by (apply existsb_exists; eauto). congruence. }
    rewrite F. reflexivity.
Qed.

(** ** The areas *)
Lemma ret_fits m z a : i64_ret m z = Ok a -> fits a.
Proof. intros H. apply i64_ret_ok in H as ->. apply wrap_fits. Qed.

Lemma add_zero m a : fits a -> i64_add m a 0 = Ok a.
Proof. intros H. unfold i64_add. rewrite Z.add_0_r. apply i64_ret_fits, H. Qed.

Lemma zero_add m a : fits a -> i64_add m 0 a = Ok a.
Proof. intros H. unfold i64_add. cbn [Z.add]. apply i64_ret_fits, H. Qed.

Lemma cross_fits m p q c : cross m p q = Ok c -> fits c.
Proof. unfold cross. intros H. apply bind_Ok in H as (x & _ & H). apply bind_Ok in H as (y & _ & H). exact (ret_fits _ _ _ H). Qed.

Lemma segments_area m ps : forall a0 a, mfold (area_step m) (pairs ps) a0 = Ok a ->
  mfold (edges_area_step m) (segments ps) a0 = Ok a.
Proof.
  induction ps as [|p [|q ps] IH]; intros a0 a H; [exact H|exact H|].
  change (segments (p :: q :: ps)) with ([p; q] :: segments (q :: ps)). change (pairs (p :: q :: ps)) with ((p, q) :: pairs (q :: ps)) in H.
  cbn [mfold] in *. apply bind_Ok in H as (a1 & H1 & H). apply IH in H.
  unfold area_step in H1. cbn [fst snd] in H1. apply bind_Ok in H1 as (c & H1 & H2).
  unfold edges_area_step at 1, signed_area2, area_step. cbn [pairs mfold fst snd]. rewrite H1. cbn [bind].
  rewrite (zero_add m c (cross_fits _ _ _ _ H1)). cbn [bind]. rewrite H2. exact H.
Qed.

Lemma no_length_area m e s : has_length e = false -> signed_area2 m e = Ok s -> s = 0.
Proof.
  intros H E. apply signed_area2_ok in E. subst s.
  destruct e as [|a [|b [|c l]]]; try reflexivity; try discriminate.
  cbn [has_length] in H. apply negb_false_iff, pt_eqb_eq in H. subst b. cbn [shoelace].
  replace (det a a + 0) with 0 by (unfold det; lia). reflexivity.
Qed.

Lemma lengths_area m es : forall a0 a, fits a0 -> mfold (edges_area_step m) es a0 = Ok a ->
  mfold (edges_area_step m) (filter has_length es) a0 = Ok a.
Proof.
  induction es as [|e es IH]; intros a0 a F H; [exact H|]. cbn [mfold filter] in *. apply bind_Ok in H as (a1 & H1 & H).
  unfold edges_area_step in H1. apply bind_Ok in H1 as (s & H1 & H2).
  assert (F1 : fits a1) by exact (ret_fits _ _ _ H2). destruct (has_length e) eqn:E.
  - cbn [mfold]. unfold edges_area_step at 1. rewrite H1. cbn [bind]. rewrite H2. cbn [bind]. apply IH; assumption.
  - apply (no_length_area m e s E) in H1 as ->. rewrite (add_zero m a0 F) in H2. injection H2 as <-. apply IH; assumption.
Qed.

Lemma fits_0 : fits 0.
Proof. unfold fits. lia. Qed.

Lemma plain_area2 m r a : ring_area2 m r = Ok a -> ring_area2 m (plain r) = Ok a.
Proof.
  unfold ring_area2. intros H. apply bind_Ok in H as ([x w] & H & E). cbn [fst] in E. injection E as ->.
  enough (G : ring_area2_and_winding m (plain r) = Ok (a, w)) by (rewrite G; reflexivity).
  destruct r as [ps|es]; unfold plain; cbn [ring_area2_and_winding paths] in *.
  - unfold pts_area2_and_winding, signed_area2 in H. apply bind_Ok in H as (s & H1 & H2).
    apply segments_area, (lengths_area m _ 0 s fits_0) in H1. rewrite H1. exact H2.
  - apply bind_Ok in H as (s & H1 & H2). apply (lengths_area m _ 0 s fits_0) in H1. rewrite H1. exact H2.
Qed.

(** ** The builder *)
Lemma plain_des m es : forall st x,
  mfold (fun st e => '(o, em') <- build_directed_edge m (snd st) e ;; Ok (match o with Some d => fst st ++ [d] | None => fst st end, em')) es st = Ok x ->
  mfold (fun st e => '(o, em') <- build_directed_edge m (snd st) e ;; Ok (match o with Some d => fst st ++ [d] | None => fst st end, em')) (filter has_length es) st = Ok x.
Proof.
  induction es as [|e es IH]; intros st x H; [exact H|]. cbn [mfold filter] in *. apply bind_Ok in H as (st1 & H1 & H).
  destruct (has_length e) eqn:E; [cbn [mfold]; rewrite H1; cbn [bind]; apply IH, H|].
  unfold build_directed_edge in H1. rewrite zero_length_spec, E in H1. cbn [negb bind] in H1. destruct st as [l em]. injection H1 as <-. apply IH, H.
Qed.

Lemma plain_build_ring m em r o em' : build_ring_of m em r = Ok (o, em') ->
  if has_area r then build_ring_of m em (plain r) = Ok (o, em') /\ o <> None else o = None /\ em' = em.
Proof.
  unfold build_ring_of. intros H. apply bind_Ok in H as (a & H1 & H). rewrite (ring_area2_has_area m r a H1).
  rewrite (plain_area2 m r a H1). cbn [bind]. destruct (a =? 0); cbn [negb].
  - injection H as <- <-. split; reflexivity.
  - apply bind_Ok in H as ([des em1] & H & E). injection E as <- <-. rewrite ring_edges_paths in H |- *. cbn [plain paths].
    apply plain_des in H. unfold build_des. rewrite H. split; [reflexivity|discriminate].
Qed.

Lemma plain_rings m rs : forall acc em brs em',
  mfold (fun st r => '(o, em') <- build_ring_of m (snd st) r ;; Ok (match o with Some br => fst st ++ [br] | None => fst st end, em')) rs (acc, em) = Ok (brs, em') ->
  mfold (fun st r => '(o, em') <- build_ring_of m (snd st) r ;; Ok (match o with Some br => fst st ++ [br] | None => fst st end, em')) (map plain (filter has_area rs)) (acc, em) = Ok (brs, em') /\
  length brs = (length acc + length (filter has_area rs))%nat.
Proof.
  induction rs as [|r rs IH]; intros acc em brs em' H; [cbn [mfold filter map length] in *; injection H as <- <-; split; [reflexivity|lia]|].
  cbn [mfold filter] in *. apply bind_Ok in H as (st1 & H1 & H). apply bind_Ok in H1 as ([o em1] & H1 & E). injection E as <-.
  cbn [snd fst] in *. pose proof (plain_build_ring m em r o em1 H1) as P. destruct (has_area r).
  - destruct P as [P1 P2]. cbn [map mfold snd fst]. rewrite P1. cbn [bind]. destruct o as [br|]; [|congruence].
    destruct (IH _ _ _ _ H) as [G1 G2]. split; [exact G1|]. rewrite G2, app_length. cbn [length]. lia.
  - destruct P as [-> ->]. apply IH, H.
Qed.

Lemma plain_add_region {D} m (b b' : builder D) g : add_region m b g = Ok b' ->
  if has_outer g then add_region m b (plain_region g) = Ok b' else b' = b.
Proof.
  unfold add_region. intros H. apply bind_Ok in H as ([o em1] & H1 & H). unfold build_rings in H1.
  pose proof (plain_rings m _ _ _ _ _ H1) as [P1 P2]. cbn [length Nat.add] in P2. unfold build_rings. cbn [plain_region rg_outer rg_inner rg_data].
  destruct (has_outer g) eqn:E.
  - rewrite P1. cbn [bind]. destruct (0 <? length o)%nat; [|exact H]. apply bind_Ok in H as ([i em2] & H2 & H).
    unfold build_rings in H2. pose proof (plain_rings m _ _ _ _ _ H2) as [Q1 _]. rewrite Q1. exact H.
  - assert (F : filter has_area (rg_outer g) = []).
    { destruct (filter has_area (rg_outer g)) as [|r l] eqn:F; [reflexivity|].
      assert (I : In r (filter has_area (rg_outer g))) by (rewrite F; left; reflexivity). apply filter_In in I as [I1 I2].
      assert (has_outer g = true) by (apply existsb_exists; eauto). congruence. }
    rewrite F in P1, P2. destruct o; [|discriminate]. cbn [map mfold] in P1. injection P1 as <-. cbn in H. injection H as <-. destruct b; reflexivity.
Qed.

Lemma plain_add {D} m (rs : list (region D)) : forall b b', add_regions m b rs = Ok b' ->
  add_regions m b (map plain_region (filter has_outer rs)) = Ok b'.
Proof.
  unfold add_regions. induction rs as [|g rs IH]; intros b b' H; [exact H|]. cbn [mfold filter] in *. apply bind_Ok in H as (b1 & H1 & H).
  apply plain_add_region in H1. destruct (has_outer g).
  - cbn [map mfold]. rewrite H1. cbn [bind]. apply IH, H.
  - subst b1. apply IH, H.
Qed.

Lemma input_plain {D} m (rs : list (region D)) t : build_topology m rs = Ok t -> as_input t = map plain_region (filter has_outer rs).
Proof. intros H. unfold as_input. rewrite (build_read m rs t H). apply as_plain. Qed.

Lemma add_regions_app {D} m (b : builder D) rs rs' : add_regions m b (rs ++ rs') = (b' <- add_regions m b rs ;; add_regions m b' rs').
Proof. apply mfold_app. Qed.

Lemma build_again {D} m (rs : list (region D)) t : build_topology m rs = Ok t -> build_topology m (as_input t) = Ok t.
Proof.
  intros H. rewrite (input_plain m rs t H). unfold build_topology in *. apply bind_Ok in H as (b & H1 & H). rewrite (plain_add m rs _ _ H1). exact H.
Qed.

Lemma expected_plain {D} (rs : list (region D)) : expected (map plain_region (filter has_outer rs)) = expected rs.
Proof.
  induction rs as [|g rs IH]; [reflexivity|]. unfold expected in *. cbn [filter flat_map]. destruct (has_outer g) eqn:E.
  - cbn [map flat_map]. rewrite IH. f_equal. rewrite !expected_region_eq. cbn [plain_region rg_outer rg_inner rg_data].
    assert (P : forall l, map expected_ring (filter has_area (map plain (filter has_area l))) = map expected_ring (filter has_area l)).
    { clear. intros l. induction l as [|r l IH]; [reflexivity|]. cbn [filter]. destruct (has_area r) eqn:E; [|exact IH].
      cbn [map filter]. rewrite plain_area, E. cbn [map]. rewrite IH, plain_expected. reflexivity. }
    rewrite !P. reflexivity.
  - rewrite IH, expected_region_eq. destruct (filter has_area (rg_outer g)) as [|r l] eqn:F; [reflexivity|].
    assert (I : In r (filter has_area (rg_outer g))) by (rewrite F; left; reflexivity). apply filter_In in I as [I1 I2].
    assert (has_outer g = true) by (apply existsb_exists; eauto). congruence.
Qed.

Lemma rebuild_more {D} m (rs more : list (region D)) t :
  build_topology m rs = Ok t ->
  build_topology Release (as_input t ++ more) = build_topology Release (rs ++ more) /\
  build_topology Release (more ++ as_input t) = build_topology Release (more ++ rs) /\
  forall t', (build_topology m (rs ++ more) = Ok t' -> build_topology m (as_input t ++ more) = Ok t') /\
             (build_topology m (more ++ rs) = Ok t' -> build_topology m (more ++ as_input t) = Ok t').
Proof.
  intros H. rewrite (input_plain m rs t H). rewrite !build_release. unfold expected at 1 2 3 4. rewrite !flat_map_app.
  fold (expected (map plain_region (filter has_outer rs))) (expected rs) (expected more). rewrite expected_plain. repeat split.
  - unfold build_topology. rewrite !add_regions_app. intros E. apply bind_Ok in E as (b & E & E'). apply bind_Ok in E as (b1 & E1 & E2).
    rewrite (plain_add m rs _ _ E1). cbn [bind]. rewrite E2. exact E'.
  - unfold build_topology. rewrite !add_regions_app. intros E. apply bind_Ok in E as (b & E & E'). apply bind_Ok in E as (b1 & E1 & E2).
    rewrite E1. cbn [bind]. rewrite (plain_add m rs _ _ E2). exact E'.
Qed.

(** ** Any topology *)
Lemma whole_expected {D} (t : topology D) : whole t -> expected (as_input t) = read_topology t.
Proof.
  intros W. unfold as_input, expected, read_topology. rewrite map_map. unfold whole in W.
  induction (tp_regions t) as [|g gs IH]; [reflexivity|]. cbn [map flat_map].
  rewrite IH by (intros rg I; apply W; right; exact I). destruct (W g (or_introl eq_refl)) as [W1 W2].
  assert (P : forall l, (forall r, In r l -> whole_ring (tp_edges t) r) ->
    map expected_ring (filter has_area (map (fun r => REdges (read r)) (map (read_ring (tp_edges t)) l))) = map (read_ring (tp_edges t)) l).
  { clear. intros l. induction l as [|r l IH]; [reflexivity|]. intros W. cbn [map filter].
    destruct (W r (or_introl eq_refl)) as [W1 W2].
    assert (R : map Some (filter has_length (read (read_ring (tp_edges t) r))) = read_ring (tp_edges t) r).
    { clear - W1. unfold read_ring. induction (tr_des r) as [|d ds IH]; [reflexivity|]. cbn [map].
      destruct (W1 d (or_introl eq_refl)) as (p & E & L). rewrite E. unfold read in *. cbn [flat_map app filter]. rewrite L. cbn [map]. f_equal.
      apply IH. intros d' I. apply W1. right. exact I. }
    assert (A : has_area (REdges (read (read_ring (tp_edges t) r))) = true) by (unfold has_area; cbn [ring_area]; apply negb_true_iff, Z.eqb_neq; exact W2).
    rewrite A. cbn [map]. rewrite IH by (intros r' I; apply W; right; exact I). f_equal. exact R. }
  rewrite expected_region_eq. unfold as_region, read_region. cbn [s_data s_outer s_inner rg_outer rg_inner rg_data].
  rewrite !P by (intros r I; apply W2, in_or_app; auto). destruct (tg_outer g); [congruence|]. reflexivity.
Qed.

Lemma rebuild_any {D} m (t t' : topology D) : whole t -> build_topology m (as_input t) = Ok t' -> read_topology t' = read_topology t.
Proof. intros W H. rewrite (build_read _ _ _ H). apply whole_expected, W. Qed.

Lemma built_whole {D} m (rs : list (region D)) t : build_topology m rs = Ok t -> whole t.
Proof.
  intros H. pose proof (build_read m rs t H) as E. intros g I.
  assert (S : In (read_region (tp_edges t) g) (expected rs)) by (rewrite <- E; apply in_map, I).
  unfold expected in S. apply in_flat_map in S as (g0 & _ & S). unfold expected_region in S.
  destruct (filter has_area (rg_outer g0)) as [|r0 l] eqn:F; [destruct S|]. destruct S as [S|[]]. unfold read_region in S. injection S as S1 S2 S3.
  split; [intros N; rewrite N in S2; discriminate|].
  assert (R : forall r r1, has_area r1 = true -> expected_ring r1 = read_ring (tp_edges t) r -> whole_ring (tp_edges t) r).
  { clear. intros r r1 A E. split.
    - intros d I. assert (J : In (read_de (tp_edges t) d) (expected_ring r1)) by (rewrite E; apply in_map, I).
      apply in_map_iff in J as (p & J1 & J2). apply filter_In in J2 as [_ J2]. exists p. auto.
    - rewrite <- E. unfold expected_ring. rewrite read_some, <- ring_area_paths. unfold has_area in A. apply negb_true_iff, Z.eqb_neq in A. exact A. }
  intros r J. apply in_app_or in J as [J|J].
  - assert (K : In (read_ring (tp_edges t) r) (map expected_ring (r0 :: l))) by (cbn [map]; rewrite S2; exact (in_map _ _ _ J)).
    apply in_map_iff in K as (r1 & K1 & K2). apply (R r r1); [|exact K1]. rewrite <- F in K2. apply filter_In in K2. apply K2.
  - assert (K : In (read_ring (tp_edges t) r) (map expected_ring (filter has_area (rg_inner g0)))) by (rewrite S3; exact (in_map _ _ _ J)).
    apply in_map_iff in K as (r1 & K1 & K2). apply (R r r1); [|exact K1]. apply filter_In in K2. apply K2.
Qed.

Lemma again_returns {D} (t : topology D) : whole t ->
  ((exists t', build_topology Release (as_input t) = Ok t') <-> forall k, (count_path k (all_paths (read_topology t)) <= 2)%nat).
Proof.
  intros W. rewrite <- (whole_expected t W). unfold build_topology.
  destruct (add_regions Release builder_new (as_input t)) as [b|p] eqn:E.
  - cbn [bind]. apply (into_topology_iff Release _ b E).
  - apply add_regions_panic in E as [E _]. discriminate.
Qed.
