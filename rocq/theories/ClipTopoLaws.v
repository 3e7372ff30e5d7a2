(** * ClipTopoLaws: consequences of the invariants in ClipTopoProofs *)
From Coq Require Import Permutation.
From Verif Require Import ClipTopoSpec GeoProofs TopoProofs BuildProofs ClipEdgeProofs ClipTopoProofs.

(** ** Directed edges and pieces *)
Lemma all_des_final {D} (regs : list (build_region D)) es :
  all_des (Topology (final_regions regs) es) = flat_map (fun b => concat (br_rings b)) regs.
Proof.
  unfold all_des, final_regions, enumerate. cbn [tp_regions]. generalize 0%nat.
  assert (HT : forall i l, map tr_des (map (final_ring i) l) = l).
  { intros i l. rewrite map_map. cbn [tr_des final_ring]. apply map_id. }
  induction regs as [|b regs IH]; intros n; [reflexivity|].
  cbn [length seq combine map flat_map]. rewrite IH. f_equal. cbn [final_region tg_outer tg_inner fst snd].
  rewrite !HT, concat_br_rings. reflexivity.
Qed.

Lemma all_des_eq {D} (t : topology D) (regs : list (build_region D)) :
  tp_regions t = final_regions regs -> all_des t = flat_map (fun b => concat (br_rings b)) regs.
Proof. intros H. rewrite <- (all_des_final regs (tp_edges t)). unfold all_des. rewrite H. reflexivity. Qed.

Lemma Forall2_concat {A B} (P : A -> B -> Prop) ls ls' : Forall2 (Forall2 P) ls ls' -> Forall2 P (concat ls) (concat ls').
Proof. induction 1; cbn; [constructor|]. apply Forall2_app; assumption. Qed.

Lemma pieces_realised {D} C (b : cbuilder D) rgs : cb_ok C b rgs ->
  Forall2 (realises C (cb_new b)) (flat_map (fun b => concat (br_rings b)) (cb_regions b)) (surviving_pieces C rgs).
Proof.
  intros (_ & _ & _ & HF & _). unfold surviving_pieces. induction HF as [|br rg l l' (_ & Ho & Hi) HF IH]; cbn [flat_map]; [constructor|].
  apply Forall2_app; [|exact IH]. rewrite concat_br_rings. apply Forall2_app; apply Forall2_concat; assumption.
Qed.

Lemma realises_read C s es d p : map te_points es = pts_of C s -> realises C s d p -> read_de es d = Some (pc_path p).
Proof.
  intros E (_ & _ & base & Hb & Hp). unfold read_de. rewrite <- E, nth_error_map in Hb.
  destruct (nth_error es (de_edge d)) as [e|]; [|discriminate]. cbn in Hb. injection Hb as <-. cbn. rewrite Hp. reflexivity.
Qed.

Lemma realises_key C s d d' p p' : nes_ok C s -> realises C s d p -> realises C s d' p' ->
  (de_edge d = de_edge d' <-> pc_key p = pc_key p').
Proof.
  intros Hs (H & _) (H' & _). split; intros E; [|congruence]. rewrite E in H. eapply idx_inj; eassumption.
Qed.

Lemma read_final_ring C s es i br ps : map te_points es = pts_of C s -> Forall2 (realises C s) br ps ->
  read_ring es (final_ring i br) = read_pieces ps.
Proof. intros E. apply Forall2_map_eq. intros. eapply realises_read; eassumption. Qed.

Lemma read_final_rings C s es i brs pss : map te_points es = pts_of C s -> Forall2 (Forall2 (realises C s)) brs pss ->
  map (read_ring es) (map (final_ring i) brs) = map read_pieces pss.
Proof. intros E H. rewrite map_map. revert H. apply Forall2_map_eq. intros. eapply read_final_ring; eassumption. Qed.

Lemma clip_read {D} C (b : cbuilder D) rgs (t' : topology D) : cb_ok C b rgs ->
  tp_regions t' = final_regions (cb_regions b) -> map te_points (tp_edges t') = pts_of C (cb_new b) ->
  read_topology t' = map (clipped_shape C) (filter (region_kept C) rgs).
Proof.
  intros (_ & _ & _ & HF & _) Hr He. unfold read_topology. rewrite Hr. clear Hr. unfold final_regions, enumerate. generalize 0%nat.
  induction HF as [|br rg l l' (Hd & Ho & Hi) HF IH]; intros n; cbn [length seq combine map]; [reflexivity|].
  f_equal; [|apply IH]. unfold read_region, clipped_shape. cbn [final_region tg_data tg_outer tg_inner fst snd].
  rewrite Hd. f_equal; eapply read_final_rings; eassumption.
Qed.

(** ** Closed rings *)
Lemma chain_app p a q b r : chain p a q -> chain q b r -> chain p (a ++ b) r.
Proof.
  revert p. induction a as [|e a IH]; intros p; cbn [chain app]; [intros ->; auto|].
  intros (Hf & x & Hx & Hc) Hb. split; [assumption|]. exists x. split; [assumption|]. apply IH; assumption.
Qed.

Lemma chain_gap p q : chain p (map pc_path (gap p q)) q.
Proof.
  unfold gap. rewrite lt_pointb. destruct ((px p =? px q) && (py p =? py q)) eqn:E.
  - apply pt_eqb_eq in E. subst. reflexivity.
  - destruct (pt_ltb p q); cbn [map pc_path chain]; (split; [reflexivity|]); exists q; split; reflexivity.
Qed.

Definition has_ends (p : piece) : Prop := exists a b, fst_of p = Some a /\ fin_of p = Some b.

Lemma chain_close start p ps s a : Forall has_ends ps -> start = Some s -> fin_of p = Some a ->
  chain a (map pc_path (close_gaps start p ps)) s.
Proof.
  intros HF ->. revert p a. induction HF as [|q ps (x & y & Hx & Hy) HF IH]; intros p a Ha; cbn [close_gaps].
  - unfold fin_of in Ha. rewrite Ha. apply chain_gap.
  - unfold fin_of, fst_of in *. rewrite Ha, Hx. cbn [gap_between]. rewrite map_app. eapply chain_app; [apply chain_gap|].
    cbn [map chain]. split; [assumption|]. exists y. split; [assumption|]. apply IH. assumption.
Qed.

Lemma visible_in C r p : In p (visible C r) -> exists d c, In d (tr_des r) /\ nth_error C (de_edge d) = Some c /\ big c = true /\
  p = Piece (KOld (de_edge d)) (de_dir d) (oriented c (de_dir d)).
Proof.
  unfold visible. rewrite in_flat_map. intros (d & Hd & Hp). exists d. destruct (nth_error C (de_edge d)) as [c|] eqn:E.
  - rewrite (visible_piece_big C d c E) in Hp. destruct (big c) eqn:Eb; [|destruct Hp]. destruct Hp as [<-|[]]. exists c. auto.
  - unfold visible_piece in Hp. rewrite E in Hp. destruct Hp.
Qed.

Lemma visible_ends C r : Forall has_ends (visible C r).
Proof.
  apply Forall_forall. intros p Hp. apply visible_in in Hp as (d & c & _ & _ & Hb & ->).
  assert (Hne : c <> []) by (intros ->; discriminate).
  destruct (first_point_ok c (de_dir d) Hne) as (a & _ & Ha & _), (last_point_ok c (de_dir d) Hne) as (b & _ & Hb' & _).
  exists a, b. split; assumption.
Qed.

Lemma clipped_ring_closed C r : clipped_ring C r <> [] -> closed_chain (map pc_path (clipped_ring C r)).
Proof.
  pose proof (visible_ends C r) as HF. unfold clipped_ring. destruct (visible C r) as [|p ps]; [congruence|]. intros _.
  inversion HF as [|? ? (a & b & Ha & Hb) HF']; subst. exists a. cbn [map chain]. split; [assumption|]. exists b.
  split; [assumption|]. apply chain_close; assumption.
Qed.

Lemma ring_kept_nonempty C r : ring_kept C r = true -> clipped_ring C r <> [].
Proof. intros H E. unfold ring_kept, clipped_area in H. rewrite E in H. discriminate. Qed.

Lemma clip_rings_closed {D} C (b : cbuilder D) rgs (t' : topology D) rg r : cb_ok C b rgs ->
  tp_regions t' = final_regions (cb_regions b) -> map te_points (tp_edges t') = pts_of C (cb_new b) ->
  In rg (tp_regions t') -> In r (tg_outer rg ++ tg_inner rg) ->
  exists ps, read_ring (tp_edges t') r = map Some ps /\ ps <> [] /\ closed_chain ps.
Proof.
  intros (_ & _ & _ & HF & _) Hr He Hg Hi. rewrite Hr in Hg. destruct (in_final_regions _ _ _ Hg Hi) as (br & i & x & Hb & Hx & ->).
  eapply Forall2_in_l in HF as (rg0 & _ & (_ & Ho & Hn)); [|exact Hb].
  assert (HE : exists r0, ring_kept C r0 = true /\ Forall2 (realises C (cb_new b)) x (clipped_ring C r0)).
  { unfold br_rings in Hx. apply in_app_iff in Hx as [Hx|Hx].
    - eapply Forall2_in_l in Ho as (ps & Hps & HR); [|exact Hx]. unfold clipped_rings in Hps. apply in_map_iff in Hps as (r0 & <- & H0).
      apply filter_In in H0 as [_ H0]. eauto.
    - eapply Forall2_in_l in Hn as (ps & Hps & HR); [|exact Hx]. unfold clipped_rings in Hps. apply in_map_iff in Hps as (r0 & <- & H0).
      apply filter_In in H0 as [_ H0]. eauto. }
  destruct HE as (r0 & Hk & HR). apply ring_kept_nonempty in Hk. exists (map pc_path (clipped_ring C r0)).
  split. { rewrite (read_final_ring C (cb_new b) _ i x (clipped_ring C r0)) by assumption. unfold read_pieces. rewrite map_map. reflexivity. }
  split; [|apply clipped_ring_closed, Hk]. intros E. apply Hk. apply map_eq_nil in E. exact E.
Qed.

(** ** Points of edges *)
Lemma in_old C c : In c (old_of C) -> In c C /\ (2 <= length c)%nat.
Proof. unfold old_of. rewrite filter_In. intros [H1 H2]. apply Nat.leb_le in H2. auto. Qed.

Lemma final_in ps p : final ps = Some p -> In p ps.
Proof. unfold final. intros H. apply in_rev. destruct (rev ps); [discriminate|]. injection H as ->. left. reflexivity. Qed.
Lemma first_in ps p : first ps = Some p -> In p ps.
Proof. destruct ps; [discriminate|]. intros [= ->]. left. reflexivity. Qed.

Lemma clip_points_kept {D} m k (t : topology D) C s : clips m k t C -> nes_ok C s ->
  Forall (Forall (kept_point k)) (pts_of C s).
Proof.
  intros HC (_ & _ & _ & HN).
  assert (HK : forall c, In c C -> Forall (kept_point k) c).
  { intros c Hc. clear HN. unfold clips in HC. revert Hc. induction HC as [|e c' es l E HF IH]; [intros []|]. intros [<-|Hc]; [|auto].
    pose proof (clip_edge_good _ _ _ _ E) as HX. apply clip_edge_path in E as ->. apply clip_path_points, HX. }
  assert (HE : forall p, old_end C p -> kept_point k p).
  { intros p (c & Hc & Hp). apply in_old in Hc as [Hc _]. apply HK in Hc. rewrite Forall_forall in Hc. apply Hc.
    destruct Hp; [apply first_in|apply final_in]; assumption. }
  unfold pts_of. apply Forall_app. split.
  - apply Forall_forall. intros c Hc. apply in_old in Hc as [Hc _]. auto.
  - apply Forall_map. eapply Forall_impl; [|exact HN]. intros kv (_ & H1 & H2). constructor; [apply HE, H1|constructor; [apply HE, H2|constructor]].
Qed.

(** ** Edge uses *)
Lemma uses_all_des {D} (t : topology D) : map fst (uses (tp_regions t)) = map de_edge (all_des t).
Proof.
  unfold uses, all_des, enumerate. generalize 0%nat. induction (tp_regions t) as [|rg rgs IH]; intros n; [reflexivity|].
  cbn [length seq combine flat_map]. rewrite !map_app, IH, <- map_app. f_equal. unfold uses_region. cbn [fst snd]. rewrite map_app.
  assert (HH : forall s rs j, map fst (flat_map (uses_ring n s) (combine (seq j (length rs)) rs)) = map de_edge (concat (map tr_des rs))).
  { intros s rs. induction rs as [|r rs IHr]; intros j; [reflexivity|]. cbn [length seq combine flat_map map concat].
    rewrite !map_app, IHr. f_equal. unfold uses_ring. rewrite map_map. reflexivity. }
  unfold enumerate. rewrite !HH, map_app. reflexivity.
Qed.

Lemma count_keys C s ds ps d p : nes_ok C s -> Forall2 (realises C s) ds ps -> realises C s d p ->
  count_occ Nat.eq_dec (map de_edge ds) (de_edge d) = count_key (pc_key p) ps.
Proof.
  intros Hs HF Hd. unfold count_key. induction HF as [|d' p' ds ps Hd' HF IH]; [reflexivity|]. cbn [map count_occ].
  pose proof (realises_key C s d' d p' p Hs Hd' Hd) as HK.
  destruct (Nat.eq_dec (de_edge d') (de_edge d)), (use_key_eq_dec (pc_key p') (pc_key p)); try tauto; congruence.
Qed.

Lemma count_positive_in {A} (dec : forall x y : A, {x = y} + {x <> y}) l a : (0 < count_occ dec l a)%nat -> In a l.
Proof. intros H. apply (count_occ_In dec). lia. Qed.

(** into_topology panics iff a key is used three times. *)
Lemma clip_finish {D} C (b : cbuilder D) rgs : cb_ok C b rgs ->
  ((exists t', cinto_topology b = Ok t') /\ (forall k, (count_key k (surviving_pieces C rgs) <= 2)%nat)) \/
  (cinto_topology b = Panic PAssert /\ (exists k, (2 < count_key k (surviving_pieces C rgs))%nat)).
Proof.
  intros Hb. pose proof Hb as (_ & _ & Hn & _). pose proof (pieces_realised C b rgs Hb) as HP.
  pose proof (cb_ids C b rgs Hb) as Hids.
  unfold cinto_topology. rewrite (cinto_eq C b rgs) by (try assumption; apply Permutation_refl).
  destruct (finish_topology _ _) as [t'|p] eqn:E.
  - left. split; [eauto|]. apply finish_exact in E as (HX & HR & _); [|assumption]. destruct HX as (_ & Hb' & HX).
    intros k. destruct (le_gt_dec (count_key k (surviving_pieces C rgs)) 2) as [|Hgt]; [assumption|]. exfalso.
    assert (Hin : In k (map pc_key (surviving_pieces C rgs))) by (apply (count_positive_in use_key_eq_dec); unfold count_key in Hgt; lia).
    apply in_map_iff in Hin as (p & <- & Hp). apply In_nth_error in Hp as [j Hj].
    assert (Hd : exists d, In d (flat_map (fun b => concat (br_rings b)) (cb_regions b)) /\ realises C (cb_new b) d p).
    { clear - HP Hj. revert j Hj. induction HP as [|d p' ds ps H HF IH]; intros j Hj; [destruct j; discriminate|].
      destruct j as [|j]; [injection Hj as ->; exists d; split; [left; reflexivity|assumption]|].
      destruct (IH j Hj) as (d0 & H0 & H1). exists d0. split; [right|]; assumption. }
    destruct Hd as (d & Hd & Hr). pose proof (count_keys C _ _ _ d p Hn HP Hr) as HC.
    rewrite <- map_fst_uses, <- HR, <- users_length in HC.
    assert (Hlt : (de_edge d < length (tp_edges t'))%nat).
    { assert (Hu : In (de_edge d) (map fst (uses (tp_regions t')))) by (rewrite HR, map_fst_uses; apply in_map, Hd).
      apply in_map_iff in Hu as (u & <- & Hu). apply Hb', Hu. }
    destruct (nth_error (tp_edges t') (de_edge d)) as [e|] eqn:Ee; [|apply nth_error_None in Ee; lia].
    destruct (HX _ _ Ee) as (Hle & _). rewrite HC in Hle. lia.
  - right. apply finish_panic in E as (-> & i & Hi & Hl); [|assumption]. split; [reflexivity|].
    rewrite users_length, map_fst_uses in Hl.
    assert (Hin : In i (map de_edge (flat_map (fun b => concat (br_rings b)) (cb_regions b)))) by (apply (count_positive_in Nat.eq_dec); lia).
    apply in_map_iff in Hin as (d & <- & Hd). eapply Forall2_in_l in Hd as (p & _ & Hr); [|exact HP].
    exists (pc_key p). rewrite <- (count_keys C _ _ _ d p Hn HP Hr). exact Hl.
Qed.

Lemma in_all_des {D} (t : topology D) rg r d : In rg (tp_regions t) -> In r (tg_outer rg ++ tg_inner rg) -> In d (tr_des r) ->
  In d (all_des t).
Proof.
  intros Hg Hr Hd. unfold all_des. apply in_flat_map. exists rg. split; [assumption|]. rewrite <- concat_app, <- map_app.
  apply in_concat. exists (tr_des r). split; [apply in_map|]; assumption.
Qed.

(** The possible outcomes. *)
Lemma clip_topology_cases {D} m (t : topology D) k : wf_mask k -> wf_topology t -> references_valid t ->
  (m = Debug /\ clip_topology m t k = Panic POverflow) \/
  (exists C, clips m k t C /\
    (((exists t', clip_topology m t k = Ok t') /\ (forall key, (count_key key (surviving_pieces C (tp_regions t)) <= 2)%nat)) \/
     (clip_topology m t k = Panic PAssert /\ (exists key, (2 < count_key key (surviving_pieces C (tp_regions t)))%nat)))).
Proof.
  intros Hk Hw Hv. unfold clip_topology, cbuilder_new.
  destruct (clip_edges m k (tp_edges t)) as [[fd old]|p] eqn:E0.
  2:{ left. apply clip_edges_panic in E0 as [-> ->]; auto. }
  apply clip_edges_ok in E0 as (C & HC & [= -> ->]). cbn [bind].
  pose proof (Forall2_length' _ _ _ HC) as HL.
  destruct (mfold (cadd_region m) (tp_regions t) _) as [b|p] eqn:E1.
  2:{ left. apply (cadd_regions_panic C m (tp_regions t) []) in E1 as [-> ->]; [auto|apply cb_start_ok|].
      intros rg r d Hg Hr Hd. rewrite <- HL. apply Hv. eapply in_all_des; eassumption. }
  cbn [bind]. apply (cadd_regions_ok C m (tp_regions t) []) in E1; [|apply cb_start_ok]. cbn [app] in E1.
  right. exists C. split; [exact HC|]. apply clip_finish, E1.
Qed.

Lemma clips_release {D} (t : topology D) k : wf_mask k -> wf_topology t -> exists C, clips Release k t C.
Proof.
  intros Hk Hw. unfold clips. induction Hw as [|e es He Hw IH]; [exists []; constructor|].
  destruct IH as [C HC]. destruct (clip_edge Release k (te_points e)) as [c|p] eqn:E.
  - exists (c :: C). constructor; assumption.
  - apply clip_edge_panic in E as [? _]; try assumption. discriminate.
Qed.

(** Iteration order of the HashMap. *)
Lemma clip_iteration {D} m (t : topology D) k b0 b iter :
  cbuilder_new m k t = Ok b0 -> mfold (cadd_region m) (tp_regions t) b0 = Ok b ->
  Permutation iter (nes_edges (cb_new b)) -> cinto_topology_iter b iter = cinto_topology b.
Proof.
  unfold cbuilder_new. intros H0 H1 Hp. apply bind_Ok in H0 as ([fd old] & H0 & E). apply clip_edges_ok in H0 as (C & HC & [= -> ->]).
  injection E as <-. apply (cadd_regions_ok C m (tp_regions t) []) in H1; [|apply cb_start_ok].
  unfold cinto_topology. rewrite !(cinto_eq C b _) by (try eassumption; apply Permutation_refl). reflexivity.
Qed.

(** ** Every edge is used, if no ring with a visible part is dropped *)
Lemma finder_onto n C j : (j < length (old_of C))%nat -> exists i c, nth_error C i = Some c /\ big c = true /\
  nth_error (finder_from n C) i = Some (Some (n + j)%nat).
Proof.
  revert n j. induction C as [|a C IH]; intros n j; [cbn; lia|]; cbn [old_of filter finder_from]; fold (old_of C).
  destruct (big a) eqn:E; cbn [length]; intros H.
  - destruct j as [|j].
    + exists 0%nat, a. rewrite Nat.add_0_r. auto.
    + destruct (IH (S n) j) as (i & c & H1 & H2 & H3); [lia|]. exists (S i), c. rewrite Nat.add_succ_r. auto.
  - destruct (IH n j H) as (i & c & H1 & H2 & H3). exists (S i), c. auto.
Qed.

Lemma in_close_gaps start p ps q : In q ps -> In q (close_gaps start p ps).
Proof.
  revert p. induction ps as [|a ps IH]; intros p; [intros []|]. cbn [close_gaps]. rewrite in_app_iff. intros [->|H].
  - right. left. reflexivity.
  - right. right. apply IH, H.
Qed.
Lemma in_clipped_ring C r q : In q (visible C r) -> In q (clipped_ring C r).
Proof.
  unfold clipped_ring. destruct (visible C r) as [|p ps]; [auto|]. intros [->|H]; [left; reflexivity|right]. apply in_close_gaps, H.
Qed.

Lemma Forall2_in_r {A B} (P : A -> B -> Prop) l l' b : Forall2 P l l' -> In b l' -> exists a, In a l /\ P a b.
Proof.
  induction 1 as [|x y l l' Hxy HF IH]; intros []; [subst; exists x; split; [left; reflexivity|assumption]|].
  destruct IH as (a & Ha & Hp); [assumption|]. exists a. split; [right|]; assumption.
Qed.

Definition nothing_lost {D} (C : list (list point)) (rgs : list (topo_region D)) : Prop :=
  forall rg r, In rg rgs -> In r (tg_outer rg ++ tg_inner rg) -> visible C r <> [] -> ring_kept C r = true /\ region_kept C rg = true.

Lemma nothing_lost_loses {D} C (rgs : list (topo_region D)) : nothing_lost C rgs -> ~ loses C rgs.
Proof.
  intros H (rg & Hg & [(r & Hr & Hk & Hv)|(Hk & r & Hr & Hv)]).
  - destruct (H rg r Hg Hr Hv). congruence.
  - destruct (H rg r Hg Hr Hv). congruence.
Qed.

Lemma clip_all_used {D} C (b : cbuilder D) rgs (t' : topology D) : cb_ok C b rgs -> exact_references t' ->
  tp_regions t' = final_regions (cb_regions b) -> map te_points (tp_edges t') = pts_of C (cb_new b) ->
  nothing_lost C rgs ->
  (forall i c, nth_error C i = Some c -> (2 <= length c)%nat ->
     exists rg r d, In rg rgs /\ In r (tg_outer rg ++ tg_inner rg) /\ In d (tr_des r) /\ de_edge d = i) ->
  forall e, In e (tp_edges t') -> te_ring0 e <> None.
Proof.
  intros Hb (_ & _ & HX) HR HE HL HU e He. apply In_nth_error in He as [i Hi]. destruct (HX i e Hi) as (_ & E & _). rewrite E. clear E HX.
  pose proof Hb as (_ & _ & Hn & _ & HC).
  assert (Hin : In i (map de_edge (flat_map (fun b => concat (br_rings b)) (cb_regions b)))).
  { assert (Hlt : (i < length (pts_of C (cb_new b)))%nat).
    { rewrite <- HE, map_length. apply nth_error_Some. congruence. }
    unfold pts_of in Hlt. rewrite app_length, map_length in Hlt.
    destruct (Nat.lt_ge_cases i (length (old_of C))) as [Hlo|Hhi].
    - destruct (finder_onto 0 C i Hlo) as (i0 & c & H1 & H2 & H3). cbn [Nat.add] in H3.
      assert (Hlen : (2 <= length c)%nat) by (apply Nat.leb_le, H2).
      destruct (HU i0 c H1 Hlen) as (rg & r & d & Hg & Hr & Hd & Ed). subst i0.
      set (pc := Piece (KOld (de_edge d)) (de_dir d) (oriented c (de_dir d))).
      assert (Hv : In pc (visible C r)).
      { apply in_flat_map. exists d. split; [assumption|]. rewrite (visible_piece_big C d c H1), H2. left. reflexivity. }
      destruct (HL rg r Hg Hr) as [Hk1 Hk2]; [intros Ev; rewrite Ev in Hv; destruct Hv|].
      assert (Hs : In pc (surviving_pieces C rgs)).
      { unfold surviving_pieces. apply in_flat_map. exists rg. split; [apply filter_In; auto|].
        rewrite <- concat_app. unfold clipped_rings. rewrite <- map_app, <- filter_app. apply in_concat. exists (clipped_ring C r).
        split; [apply in_map, filter_In; auto|apply in_clipped_ring, Hv]. }
      eapply Forall2_in_r in Hs as (d' & Hd' & Hp); [|apply pieces_realised, Hb].
      destruct Hp as (Hp & _). cbn [pc_key pc idx] in Hp. rewrite H3 in Hp. injection Hp as ->. apply in_map, Hd'.
    - apply HC; [apply nothing_lost_loses, HL|]. destruct Hn as (Hf & _). cbn [nes_start nes_first nes_edges length]. lia. }
  rewrite <- map_fst_uses, <- HR in Hin. intros EN.
  assert (H0 : length (users i (uses (tp_regions t'))) = 0%nat) by (destruct (users i _); [reflexivity|discriminate]).
  rewrite users_length in H0. apply (count_occ_In Nat.eq_dec) in Hin. lia.
Qed.

(** ** Identity *)
Definition id_clips {D} (t : topology D) : list (list point) := map te_points (tp_edges t).

Lemma id_finder C n : Forall (fun c => (2 <= length c)%nat) C -> finder_from n C = map Some (seq n (length C)) /\ old_of C = C.
Proof.
  revert n. induction C as [|c C IH]; intros n H; [split; reflexivity|]. inversion H as [|? ? Hc HC]; subst.
  cbn [finder_from old_of filter length seq map]. fold (old_of C). apply Nat.leb_le in Hc. fold (big c) in Hc. rewrite Hc.
  destruct (IH (S n) HC) as [-> ->]. split; reflexivity.
Qed.

Lemma chain_no_gaps start p ps s a : Forall has_ends ps -> start = Some s -> fin_of p = Some a ->
  chain a (map pc_path ps) s -> close_gaps start p ps = ps.
Proof.
  intros HF ->. revert p a. induction HF as [|q ps (x & y & Hx & Hy) HF IH]; intros p a Ha; cbn [close_gaps map chain].
  - intros ->. unfold fin_of in Ha. rewrite Ha. apply gap_same.
  - unfold fst_of, fin_of in *. intros (Hf & z & Hz & Hc). rewrite Ha, Hf. cbn [gap_between]. rewrite gap_same. cbn [app].
    f_equal. eapply IH; eassumption.
Qed.

Lemma clipped_ring_identity C r : closed_chain (map pc_path (visible C r)) -> clipped_ring C r = visible C r.
Proof.
  pose proof (visible_ends C r) as HF. unfold clipped_ring. destruct (visible C r) as [|p ps]; [reflexivity|].
  intros (q & Hc). inversion HF as [|? ? (a & b & Ha & Hb) HF']; subst. cbn [map chain] in Hc. destruct Hc as (Hf & x & Hx & Hc).
  f_equal. unfold fin_of, fst_of in *. rewrite Hf. eapply chain_no_gaps; [assumption|reflexivity|exact Hx|exact Hc].
Qed.

Record identity_case {D} (k : clip_mask) (t : topology D) : Prop := {
  ic_refs : exact_references t;
  ic_in : forall e p, In e (tp_edges t) -> In p (te_points e) -> inside k p;
  ic_len : forall e, In e (tp_edges t) -> (2 <= length (te_points e))%nat;
  ic_rings : forall rg r, In rg (tp_regions t) -> In r (tg_outer rg ++ tg_inner rg) ->
    exists ps, read_ring (tp_edges t) r = map Some ps /\ closed_chain ps /\ shoelaces ps mod 2 ^ 64 <> 0;
  ic_outer : forall rg, In rg (tp_regions t) -> tg_outer rg <> [] }.

Lemma id_clips_ok {D} m k (t : topology D) : identity_case k t -> clips m k t (id_clips t).
Proof.
  intros [_ H1 H2 _ _]. unfold clips, id_clips. induction (tp_edges t) as [|e es IH]; [constructor|]. cbn [map]. constructor.
  - rewrite clip_edge_no_outside.
    + rewrite run_edge_all_inside; [reflexivity| |].
      * apply H2. left. reflexivity.
      * apply Forall_forall. intros p. apply H1. left. reflexivity.
    + apply Forall_forall. intros p Hp. left. eapply H1; [left; reflexivity|exact Hp].
  - apply IH; intros; [eapply H1; [right; eassumption|assumption]|apply H2; right; assumption].
Qed.

Definition whole_piece (es : list topo_edge) (d : directed_edge) : piece :=
  Piece (KOld (de_edge d)) (de_dir d) (match read_de es d with Some p => p | None => [] end).

Lemma id_clips_long {D} k (t : topology D) : identity_case k t -> Forall (fun c => (2 <= length c)%nat) (id_clips t).
Proof. intros [_ _ H _ _]. apply Forall_map, Forall_forall. exact H. Qed.

Lemma id_visible {D} k (t : topology D) ds : identity_case k t -> (forall d, In d ds -> (de_edge d < length (tp_edges t))%nat) ->
  flat_map (visible_piece (id_clips t)) ds = map (whole_piece (tp_edges t)) ds.
Proof.
  intros Hi. pose proof (id_clips_long k t Hi) as HL. rewrite Forall_forall in HL.
  induction ds as [|d ds IH]; intros Hd; [reflexivity|]. cbn [flat_map map]. rewrite IH by (intros; apply Hd; right; assumption).
  destruct (nth_error (tp_edges t) (de_edge d)) as [e|] eqn:E.
  2:{ apply nth_error_None in E. specialize (Hd d (or_introl eq_refl)). lia. }
  assert (Ec : nth_error (id_clips t) (de_edge d) = Some (te_points e)) by (unfold id_clips; rewrite nth_error_map, E; reflexivity).
  rewrite (visible_piece_big _ _ _ Ec). assert (big (te_points e) = true) as ->.
  { apply Nat.leb_le, HL. eapply nth_error_In, Ec. }
  unfold whole_piece, read_de. rewrite E. reflexivity.
Qed.

Lemma id_ids {D} k (t : topology D) d : identity_case k t -> In d (all_des t) -> (de_edge d < length (tp_edges t))%nat.
Proof.
  intros [(_ & Hx & _) _ _ _ _] Hd. assert (Hu : In (de_edge d) (map fst (uses (tp_regions t)))) by (rewrite uses_all_des; apply in_map, Hd).
  apply in_map_iff in Hu as (u & <- & Hu). apply Hx, Hu.
Qed.

Lemma id_ring {D} k (t : topology D) rg r : identity_case k t -> In rg (tp_regions t) -> In r (tg_outer rg ++ tg_inner rg) ->
  clipped_ring (id_clips t) r = map (whole_piece (tp_edges t)) (tr_des r) /\ ring_kept (id_clips t) r = true.
Proof.
  intros Hi Hg Hr. assert (Hv : visible (id_clips t) r = map (whole_piece (tp_edges t)) (tr_des r)).
  { eapply id_visible; [exact Hi|]. intros d Hd. eapply id_ids; [exact Hi|]. eapply in_all_des; eassumption. }
  destruct (ic_rings k t Hi rg r Hg Hr) as (ps & E & Hc & Ha).
  assert (HP : map pc_path (visible (id_clips t) r) = ps).
  { rewrite Hv, map_map. cbn [whole_piece pc_path]. unfold read_ring in E. revert ps E Hc Ha. clear.
    intros ps E _ _. revert ps E. induction (tr_des r) as [|d ds IH]; intros [|p ps] E; try discriminate; [reflexivity|].
    cbn [map] in *. injection E as E1 E2. rewrite E1. f_equal. apply IH, E2. }
  assert (HR : clipped_ring (id_clips t) r = visible (id_clips t) r) by (apply clipped_ring_identity; rewrite HP; exact Hc).
  split; [rewrite HR; exact Hv|]. unfold ring_kept, clipped_area. rewrite HR, HP. apply negb_true_iff, Z.eqb_neq, Ha.
Qed.

Lemma id_region {D} k (t : topology D) rg : identity_case k t -> In rg (tp_regions t) -> region_kept (id_clips t) rg = true.
Proof.
  intros Hi Hg. unfold region_kept. pose proof (ic_outer k t Hi rg Hg) as Ho. destruct (tg_outer rg) as [|r l] eqn:E; [congruence|].
  cbn [existsb]. apply orb_true_iff. left. eapply id_ring; [exact Hi|exact Hg|]. rewrite E. left. reflexivity.
Qed.

Lemma filter_all {A} (f : A -> bool) l : (forall a, In a l -> f a = true) -> filter f l = l.
Proof. induction l as [|a l IH]; intros H; [reflexivity|]. cbn [filter]. rewrite (H a (or_introl eq_refl)), IH; [reflexivity|]. intros. apply H. right. assumption. Qed.

Lemma id_realises {D} k (t : topology D) s d d' : identity_case k t -> (de_edge d < length (tp_edges t))%nat ->
  realises (id_clips t) s d' (whole_piece (tp_edges t) d) -> d' = d.
Proof.
  intros Hi Hd (H1 & H2 & _). cbn [whole_piece pc_key pc_dir idx] in *. destruct (id_finder (id_clips t) 0 (id_clips_long k t Hi)) as [EF _].
  rewrite EF in H1. assert (Hl : (de_edge d < length (seq 0 (length (id_clips t))))%nat).
  { rewrite seq_length. unfold id_clips. rewrite map_length. exact Hd. }
  rewrite nth_error_map, nth_error_nth' with (d := 0%nat) in H1 by exact Hl. rewrite seq_length in Hl. rewrite seq_nth in H1 by exact Hl.
  cbn in H1. destruct d as [i di], d' as [i' di']. cbn in *. congruence.
Qed.

Lemma id_rings {D} k (t : topology D) s rg rs brs : identity_case k t -> In rg (tp_regions t) ->
  incl rs (tg_outer rg ++ tg_inner rg) ->
  Forall2 (Forall2 (realises (id_clips t) s)) brs (clipped_rings (id_clips t) rs) -> brs = map tr_des rs.
Proof.
  intros Hi Hg HI. unfold clipped_rings. rewrite filter_all by (intros r Hr; eapply id_ring; eauto).
  revert brs. induction rs as [|r rs IH]; intros brs HF; inversion HF as [|x ? brs' ? Hx HF']; subst; [reflexivity|].
  cbn [map]. f_equal; [|apply IH; [intros z Hz; apply HI; right; exact Hz|exact HF']].
  assert (Hr : In r (tg_outer rg ++ tg_inner rg)) by (apply HI; left; reflexivity).
  destruct (id_ring k t rg r Hi Hg Hr) as [E _]. rewrite E in Hx.
  assert (Hd : forall d, In d (tr_des r) -> (de_edge d < length (tp_edges t))%nat).
  { intros d Hd. eapply id_ids; [exact Hi|]. eapply in_all_des; eassumption. }
  clear - Hx Hd Hi. revert x Hx. induction (tr_des r) as [|d ds IH]; intros x Hx; inversion Hx as [|d' ? x' ? H1 H2]; subst; [reflexivity|].
  f_equal; [|apply IH; [intros; apply Hd; right; assumption|assumption]].
  eapply id_realises; [exact Hi|apply Hd; left; reflexivity|exact H1].
Qed.

Lemma map_final_ring i rs : (forall r, In r rs -> tr_region r = Some i) -> map (final_ring i) (map tr_des rs) = rs.
Proof.
  induction rs as [|r rs IH]; intros H; [reflexivity|]. cbn [map]. rewrite IH by (intros; apply H; right; assumption). f_equal.
  specialize (H r (or_introl eq_refl)). destruct r. cbn in *. subst. reflexivity.
Qed.

Lemma clip_identity {D} m k (t t' : topology D) : identity_case k t -> clip_topology m t k = Ok t' -> t' = t.
Proof.
  intros Hi H. apply clip_topology_ok in H as (C & b & HC & Hb & HX & HR & HE).
  assert (C = id_clips t) as -> by (eapply clips_unique; [exact HC|apply id_clips_ok, Hi]). clear HC.
  pose proof Hb as (_ & _ & Hn & HF & HV). rewrite filter_all in HF by (intros rg Hg; eapply id_region; eauto).
  assert (HRR : tp_regions t' = tp_regions t).
  { rewrite HR. unfold final_regions. apply nth_error_ext. intros i. rewrite nth_error_map, nth_error_enumerate.
    assert (HL : length (cb_regions b) = length (tp_regions t)) by (eapply Forall2_length'; exact HF).
    destruct (nth_error (tp_regions t) i) as [rg|] eqn:E.
    - destruct (nth_error (cb_regions b) i) as [br|] eqn:E'.
      2:{ apply nth_error_None in E'. assert (i < length (tp_regions t))%nat by (apply nth_error_Some; congruence). lia. }
      assert (HB : region_realises (id_clips t) (cb_new b) br rg).
      { clear - HF E E'. revert i E E'. induction HF as [|x y l l' Hxy HF IH]; intros [|i] E E'; try discriminate; cbn in *; [congruence|eauto]. }
      assert (Hg : In rg (tp_regions t)) by (eapply nth_error_In, E).
      destruct HB as (B1 & B2 & B3). eapply id_rings in B2; [|exact Hi|exact Hg|apply incl_appl, incl_refl].
      eapply id_rings in B3; [|exact Hi|exact Hg|apply incl_appr, incl_refl].
      cbn. f_equal. unfold final_region. cbn [fst snd]. rewrite B1, B2, B3.
      assert (HT : forall r, In r (tg_outer rg ++ tg_inner rg) -> tr_region r = Some i).
      { intros r Hr. destruct (ic_refs k t Hi) as (Hq & _). eapply Hq; eassumption. }
      rewrite !map_final_ring by (intros r Hr; apply HT, in_or_app; tauto). destruct rg. reflexivity.
    - assert (nth_error (cb_regions b) i = None) as ->; [|reflexivity]. apply nth_error_None. apply nth_error_None in E. lia. }
  assert (HN : nes_edges (cb_new b) = []).
  { destruct (nes_edges (cb_new b)) as [|kv l] eqn:E; [reflexivity|]. exfalso.
    assert (HNL : nothing_lost (id_clips t) (tp_regions t)).
    { intros rg r Hg Hr _. split; [eapply id_ring|eapply id_region]; eassumption. }
    apply nothing_lost_loses, HV in HNL. destruct (id_finder (id_clips t) 0 (id_clips_long k t Hi)) as [_ EO].
    specialize (HNL (length (old_of (id_clips t)))). cbn [nes_start nes_first nes_edges length] in HNL. rewrite E in HNL. cbn [length] in HNL.
    specialize (HNL ltac:(lia)). rewrite <- map_fst_uses, <- HR, HRR, uses_all_des in HNL.
    apply in_map_iff in HNL as (d & Ed & Hd). apply (id_ids k t d Hi) in Hd. rewrite EO in Ed. unfold id_clips in Ed. rewrite map_length in Ed. lia. }
  assert (HP : map te_points (tp_edges t') = map te_points (tp_edges t)).
  { rewrite HE. unfold pts_of. rewrite HN. cbn [map]. rewrite app_nil_r. apply (id_finder (id_clips t) 0 (id_clips_long k t Hi)). }
  assert (HEE : tp_edges t' = tp_edges t).
  { apply nth_error_ext. intros i. assert (Hi' : nth_error (map te_points (tp_edges t')) i = nth_error (map te_points (tp_edges t)) i) by congruence.
    rewrite !nth_error_map in Hi'. destruct HX as (_ & _ & HX). destruct (ic_refs k t Hi) as (_ & _ & HX0).
    destruct (nth_error (tp_edges t') i) as [e'|] eqn:E1, (nth_error (tp_edges t) i) as [e|] eqn:E2; try discriminate; [|reflexivity].
    destruct (HX i e' E1) as (_ & H0 & H1), (HX0 i e E2) as (_ & H0' & H1'). rewrite HRR in *.
    cbn in Hi'. injection Hi' as Hp. f_equal. destruct e, e'. cbn in *. congruence. }
  destruct t, t'. cbn in *. congruence.
Qed.

Lemma clip_identity_returns {D} k (t : topology D) : wf_mask k -> wf_topology t -> identity_case k t ->
  clip_topology Release t k = Ok t /\ (clip_topology Debug t k = Ok t \/ clip_topology Debug t k = Panic POverflow).
Proof.
  intros Hk Hw Hi.
  assert (HA : forall m, (m = Debug /\ clip_topology m t k = Panic POverflow) \/ clip_topology m t k = Ok t).
  { intros m. destruct (clip_topology_cases m t k Hk Hw) as [H|(C & HC & [((t' & E) & _)|(_ & key & Hkey)])].
    - intros d Hd. eapply id_ids; eassumption.
    - left. exact H.
    - right. rewrite E. f_equal. eapply clip_identity; eassumption.
    - exfalso. assert (C = id_clips t) as -> by (eapply clips_unique; [exact HC|apply id_clips_ok, Hi]).
      assert (HS : surviving_pieces (id_clips t) (tp_regions t) = map (whole_piece (tp_edges t)) (all_des t)).
      { unfold surviving_pieces, all_des. rewrite filter_all by (intros rg Hg; eapply id_region; eauto).
        rewrite !flat_map_concat_map, concat_map, map_map. f_equal. apply map_ext_in. intros rg Hg.
        assert (HC' : forall rs, incl rs (tg_outer rg ++ tg_inner rg) -> concat (clipped_rings (id_clips t) rs) = map (whole_piece (tp_edges t)) (concat (map tr_des rs))).
        { intros rs HI. unfold clipped_rings. rewrite filter_all by (intros r Hr; eapply id_ring; eauto).
          rewrite concat_map, map_map. f_equal. apply map_ext_in. intros r Hr. eapply id_ring; eauto. }
        rewrite map_app, !HC' by (apply incl_appl, incl_refl || apply incl_appr, incl_refl). reflexivity. }
      rewrite HS in Hkey. unfold count_key in Hkey. rewrite map_map in Hkey. cbn [whole_piece pc_key] in Hkey.
      assert (Hin : In key (map (fun d => KOld (de_edge d)) (all_des t))) by (apply (count_positive_in use_key_eq_dec); lia).
      apply in_map_iff in Hin as (d & <- & Hd).
      assert (HCN : forall ds, count_occ use_key_eq_dec (map (fun d => KOld (de_edge d)) ds) (KOld (de_edge d)) = count_occ Nat.eq_dec (map de_edge ds) (de_edge d)).
      { induction ds as [|x ds IH]; [reflexivity|]. cbn [map count_occ].
        destruct (use_key_eq_dec (KOld (de_edge x)) (KOld (de_edge d))), (Nat.eq_dec (de_edge x) (de_edge d)); congruence. }
      rewrite HCN, <- uses_all_des, <- users_length in Hkey. pose proof (id_ids k t d Hi Hd) as Hlt.
      destruct (ic_refs k t Hi) as (_ & _ & HX). destruct (nth_error (tp_edges t) (de_edge d)) as [e|] eqn:E; [|apply nth_error_None in E; lia].
      destruct (HX _ _ E) as (Hle & _). lia. }
  split.
  - destruct (HA Release) as [[? _]|H]; [discriminate|exact H].
  - destruct (HA Debug) as [[_ H]|H]; auto.
Qed.

(** For examples. *)
Lemma clips_check {D} m k (t : topology D) C :
  map (fun e => clip_edge m k (te_points e)) (tp_edges t) = map Ok C -> clips m k t C.
Proof.
  unfold clips. revert C. induction (tp_edges t) as [|e es IH]; intros [|c C] H; try discriminate; constructor.
  - cbn [map] in H. congruence.
  - apply IH. cbn [map] in H. congruence.
Qed.
