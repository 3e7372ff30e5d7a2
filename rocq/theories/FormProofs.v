(** * FormProofs: built forms and normal forms *)
From Verif Require Import FormSpec OnceProofs RebuildProofs OrderProofs TopoProofs BuildProofs GeoProofs NormProofs NormTopo NormReturn NormTwice.

Lemma seen_read {D} (t : topology D) r : map ne_points (seen_ring t r) = read (read_ring (tp_edges t) r).
Proof.
  unfold seen_ring, read_ring. induction (tr_des r) as [|d ds IH]; [reflexivity|]. cbn [flat_map map]. rewrite map_app, IH.
  unfold read at 2. cbn [flat_map]. unfold seen, read_de. destruct (nth_error (tp_edges t) (de_edge d)); reflexivity.
Qed.

Lemma direction_forward p : direction_of p = Forward <-> stored_form p = p.
Proof.
  destruct p as [|a l]; [split; reflexivity|]. unfold direction_of, stored_form. cbv zeta. set (q := last (a :: l) a).
  destruct (_ || _) eqn:E1; [split; reflexivity|]. destruct (_ && _ && _) eqn:E2; [split; reflexivity|]. split; [discriminate|].
  intros R. exfalso. assert (S : shoelace (a :: l) = - shoelace (a :: l)) by (rewrite <- R at 1; apply shoelace_rev).
  assert (S0 : shoelace (a :: l) = 0) by lia. rewrite S0 in E2.
  assert (F : Some q = Some a) by (unfold q; rewrite <- final_last, <- first_rev, R; reflexivity). injection F as F. rewrite F in E2.
  rewrite !Z.eqb_refl in E2. discriminate.
Qed.

Lemma direction_eq p d : (d = Forward <-> stored_form p = p) -> direction_of p = d.
Proof.
  intros H. pose proof (direction_forward p) as F. destruct (direction_of p), d; try reflexivity; intuition discriminate.
Qed.

Lemma nodup_filter' {A} (f : A -> bool) l : NoDup l -> NoDup (filter f l).
Proof. apply NoDup_filter. Qed.

Lemma distinct_nodup l : NoDup (distinct l).
Proof.
  induction l as [|k l IH]; cbn [distinct]; constructor; [|apply NoDup_filter, IH].
  intros H. apply filter_In in H as [_ H]. rewrite path_eqb_refl in H. discriminate.
Qed.

(** ** Built form *)
Definition as_build {D} (rg : topo_region D) : build_region D :=
  BRegion (tg_data rg) (map tr_des (tg_outer rg)) (map tr_des (tg_inner rg)).

Lemma whole_de {D} (t : topology D) rg r d : whole t -> In rg (tp_regions t) -> In r (tg_outer rg ++ tg_inner rg) -> In d (tr_des r) ->
  exists e, nth_error (tp_edges t) (de_edge d) = Some e.
Proof.
  intros W Hg Hr Hd. destruct (W rg Hg) as [_ W2]. destruct (W2 r Hr) as [W3 _]. destruct (W3 d Hd) as (p & E & _).
  unfold read_de in E. destruct (nth_error (tp_edges t) (de_edge d)); [eauto|discriminate].
Qed.

Lemma own_numbers {D} (t : topology D) : built_form t ->
  map (numbered_shape (map te_points (tp_edges t))) (read_topology t) = map as_build (tp_regions t).
Proof.
  intros (X & W & K & S). assert (N : NoDup (map te_points (tp_edges t))) by (rewrite K; apply distinct_nodup).
  unfold read_topology. rewrite map_map. apply map_ext_in. intros rg Hg.
  assert (R : forall rs, incl rs (tg_outer rg ++ tg_inner rg) ->
    map (map (numbered (map te_points (tp_edges t)))) (map (read_ring (tp_edges t)) rs) = map tr_des rs).
  { intros rs I. rewrite map_map. apply map_ext_in. intros r Hr. unfold read_ring. rewrite map_map.
    rewrite <- (map_id (tr_des r)) at 2. apply map_ext_in. intros d Hd.
    destruct (whole_de t rg r d W Hg (I r Hr) Hd) as (e & He). destruct (S rg r d e Hg (I r Hr) Hd He) as [S1 S2].
    unfold read_de. rewrite He. cbn [option_map numbered].
    rewrite (index_nth _ _ (de_edge d) N); [|rewrite <- S1; apply map_nth_error; exact He]. rewrite (direction_eq _ _ S2). destruct d. reflexivity. }
  unfold numbered_shape, read_region, as_build. cbn [s_data s_outer s_inner]. rewrite !R; [reflexivity| |]; intros r Hr; apply in_or_app; auto.
Qed.

Lemma own_regions {D} (t : topology D) : exact_references t -> final_regions (map as_build (tp_regions t)) = tp_regions t.
Proof.
  intros (X & _). unfold final_regions. apply nth_error_ext. intros i. rewrite nth_error_map, nth_error_enumerate, nth_error_map.
  destruct (nth_error (tp_regions t) i) as [rg|] eqn:E; [|reflexivity]. cbn [option_map]. f_equal. unfold final_region. cbn [fst snd as_build br_data br_outer br_inner].
  assert (R : forall rs, incl rs (tg_outer rg ++ tg_inner rg) -> map (final_ring i) (map tr_des rs) = rs).
  { intros rs I. rewrite map_map. rewrite <- (map_id rs) at 2. apply map_ext_in. intros r Hr. unfold final_ring.
    rewrite <- (X i rg r E (I r Hr)). destruct r. reflexivity. }
  rewrite !R by (intros r Hr; apply in_or_app; auto). destruct rg. reflexivity.
Qed.

Lemma own_blueprint {D} (t : topology D) : built_form t -> blueprint (read_topology t) = Ok t.
Proof.
  intros B. pose proof B as (X & W & K & S). unfold blueprint. cbv zeta. rewrite <- K, (own_numbers t B).
  rewrite finish_topology_eq.
  - rewrite (own_regions t X). destruct X as (X1 & X2 & X3).
    assert (U : use_counts_ok (length (map te_points (tp_edges t))) (uses (tp_regions t)) = true).
    { apply use_counts_ok_spec. intros i Hi. rewrite map_length in Hi. destruct (nth_error (tp_edges t) i) as [e|] eqn:E; [apply (X3 i e E)|]. apply nth_error_None in E. lia. }
    rewrite U. f_equal. destruct t as [rgs es]. cbn [tp_regions tp_edges] in *. f_equal. apply nth_error_ext. intros i. rewrite state_of_nth, nth_error_map.
    destruct (nth_error es i) as [e|] eqn:E; [|reflexivity]. cbn [option_map]. f_equal. destruct (X3 i e E) as (_ & R0 & R1). unfold edge_with. rewrite <- R0, <- R1. destruct e. reflexivity.
  - intros b r d Hb Hr Hd. rewrite map_length. apply in_map_iff in Hb as (rg & <- & Hg). unfold br_rings in Hr. cbn [as_build br_outer br_inner] in Hr. rewrite <- map_app in Hr.
    apply in_map_iff in Hr as (r0 & <- & Hr). destruct (whole_de t rg r0 d W Hg Hr Hd) as (e & He). apply nth_error_Some. congruence.
Qed.

Lemma built_form_build {D} (t : topology D) : built_form t -> build_topology Release (as_input t) = Ok t.
Proof. intros B. rewrite build_release, whole_expected by apply B. apply own_blueprint, B. Qed.

Lemma build_built_form {D} m (rs : list (region D)) t : build_topology m rs = Ok t -> built_form t.
Proof.
  intros H. split; [|split; [|split]].
  - destruct (build_topology_ok m rs t H) as (b & _ & _ & X & _). exact X.
  - exact (built_whole m rs t H).
  - exact (build_order m rs t H).
  - intros rg r d e Hg Hr Hd He. cbv zeta. apply build_topology_ok in H as (b & (_ & F & _) & _ & _ & Er & Ek).
    assert (exists p, matches (bl_edges b) d p) as (p & M1 & M2).
    { rewrite Er in Hg. unfold final_regions in Hg. apply in_map_iff in Hg as ([i bg] & <- & Hb). apply in_enumerate, nth_error_In in Hb.
      destruct (Forall2_in_l _ _ _ _ F Hb) as (g & _ & (_ & Fo & Fi)). unfold final_region in Hr. cbn [fst snd tg_outer tg_inner] in Hr. rewrite <- map_app in Hr.
      apply in_map_iff in Hr as (br & <- & Hr). cbn [final_ring tr_des] in Hd.
      assert (exists r0, ring_matches (bl_edges b) br r0) as (r0 & Rm).
      { apply in_app_iff in Hr as [Hr|Hr]; [destruct (Forall2_in_l _ _ _ _ Fo Hr) as (x & _ & Hx)|destruct (Forall2_in_l _ _ _ _ Fi Hr) as (x & _ & Hx)]; eauto. }
      destruct (Forall2_in_l _ _ _ _ Rm Hd) as (p & _ & Hp). eauto. }
    rewrite <- Ek in M1. rewrite nth_error_map, He in M1. injection M1 as M1. rewrite M1, M2, stored_form_oriented. split; [reflexivity|apply direction_forward].
Qed.

(** ** Topologies in normal form are left alone *)
Lemma whole_lengthy {D} (t : topology D) rg r : whole t -> In rg (tp_regions t) -> In r (tg_outer rg ++ tg_inner rg) -> lengthy (seen_ring t r).
Proof.
  intros W Hg Hr. destruct (W rg Hg) as [_ W2]. destruct (W2 r Hr) as [W3 _]. apply Forall_forall. intros x Hx. unfold seen_ring in Hx.
  apply in_flat_map in Hx as (d & Hd & Hx). destruct (W3 d Hd) as (p & E & L). unfold seen in Hx. unfold read_de in E.
  destruct (nth_error (tp_edges t) (de_edge d)) as [e|]; [|destruct Hx]. destruct Hx as [<-|[]]. injection E as E. cbn [ne_points]. rewrite E. exact L.
Qed.

Lemma form_good {D} (t : topology D) o rg r : whole t -> In rg (tp_regions t) -> In r (tg_outer rg ++ tg_inner rg) ->
  normal_ring_form t o r -> good (seen_ring t r).
Proof.
  intros W Hg Hr (C & _ & _ & S & _). split; [|split; [|exact C]].
  - intros E. rewrite E in S. destruct S as (? & ? & ? & X & _). discriminate.
  - apply Forall_map. eapply Forall_impl; [|exact (whole_lengthy t rg r W Hg Hr)]. intros e H. apply has_length_2, H.
Qed.

Lemma form_side {D} m (t : topology D) o rg rs : exact_references t -> whole t -> countable m t -> In rg (tp_regions t) ->
  incl rs (tg_outer rg ++ tg_inner rg) -> normal_side_form t o rs ->
  normalize_region_rings m t rs o = Ok (map into_ring (map (seen_ring t) rs)).
Proof.
  intros X W K Hg I (N & O). unfold normalize_region_rings.
  assert (M : mmap (normalize_ring m t o) rs = Ok (map (seen_ring t) rs)).
  { apply mmap_ok. intros r Hr. rewrite (normalize_ring_eq m t o rg r X Hg (I r Hr)). pose proof (N r Hr) as F.
    pose proof (form_good t o rg r W Hg (I r Hr) F) as G. destruct F as (_ & F1 & _ & F3 & F4). destruct (K rg r Hg (I r Hr)) as (K1 & K2).
    destruct (tidy_fixed m o _ (m = Debug) G F1 F3 F4 K1 K2) as [E|(E & NE & _)]; [exact E|contradiction]. }
  rewrite M. cbn [bind]. rewrite join_adjacent_plain; cbn [bind].
  - rewrite sort_fixed; [reflexivity| |].
    + apply Forall_map, Forall_forall. intros r Hr. apply good_keys. apply (form_good t o rg r W Hg (I r Hr) (N r Hr)).
    + rewrite map_map. exact O.
  - apply Forall_map, Forall_forall. intros r Hr. apply (N r Hr).
Qed.

Lemma form_input {D} (t : topology D) (rg : topo_region D) :
  Region (tg_data rg) (map into_ring (map (seen_ring t) (tg_outer rg))) (map into_ring (map (seen_ring t) (tg_inner rg))) =
  as_region (read_region (tp_edges t) rg).
Proof.
  unfold as_region, read_region. cbn [s_data s_outer s_inner]. rewrite !map_map.
  f_equal; apply map_ext; intros r; unfold into_ring; rewrite seen_read; reflexivity.
Qed.

Lemma built_form_build_any {D} m (t : topology D) : built_form t -> countable m t -> build_topology m (as_input t) = Ok t.
Proof.
  intros B K. destruct m; [|exact (built_form_build t B)].
  destruct (add_regions_returns Debug (as_input t) builder_new) as (b & E).
  - intros g r Hg Hr. unfold as_input, read_topology in Hg. rewrite map_map in Hg. apply in_map_iff in Hg as (rg & <- & Hg).
    rewrite <- form_input in Hr. cbn [rg_outer rg_inner] in Hr. rewrite <- !map_app in Hr. apply in_map_iff in Hr as (x & <- & Hx). apply in_map_iff in Hx as (r0 & <- & Hr).
    destruct (K rg r0 Hg Hr) as (_ & K2). exact (K2 eq_refl).
  - unfold build_topology. rewrite E. cbn [bind]. rewrite (into_blueprint _ _ _ E), whole_expected by apply B. apply own_blueprint, B.
Qed.

Lemma normal_form_fixed {D} m (t : topology D) : normal_form t -> countable m t -> normalize m t = Ok t.
Proof.
  intros (B & N) K. pose proof B as (X & W & _). apply normalize_Ok. exists (as_input t). split; [|exact (built_form_build_any m t B K)].
  unfold as_input, read_topology. rewrite map_map. apply mmap_ok. intros rg Hg. destruct (N rg Hg) as (No & Ni). unfold normalize_region.
  rewrite (form_side m t Clockwise rg (tg_outer rg) X W K Hg) by (try assumption; intros r Hr; apply in_or_app; auto). cbn [bind].
  rewrite (form_side m t CounterClockwise rg (tg_inner rg) X W K Hg) by (try assumption; intros r Hr; apply in_or_app; auto). cbn [bind].
  f_equal. apply form_input.
Qed.
