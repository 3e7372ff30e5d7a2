(** * ClipStepsTopo: clipping a topology by two parallel lines, one after the other *)
From Verif Require Import ClipStepsSpec GeoProofs TopoProofs BuildProofs ClipEdgeProofs ClipTopoProofs ClipTopoLaws ClipTrace ClipTwice ClipArea ClipSteps.

(** ** Clipped rings depend on the paths only *)
Definition path_gap (a b : option point) : list (list point) := map pc_path (gap_between a b).

Fixpoint close_paths (start : option point) (p : list point) (ps : list (list point)) : list (list point) :=
  match ps with
  | [] => path_gap (final p) start
  | q :: t => path_gap (final p) (first q) ++ q :: close_paths start q t
  end.
Definition paths_ring (ps : list (list point)) : list (list point) :=
  match ps with [] => [] | p :: ps => p :: close_paths (first p) p ps end.

Lemma close_paths_of s ps : forall p, map pc_path (close_gaps s p ps) = close_paths s (pc_path p) (map pc_path ps).
Proof.
  induction ps as [|q ps IH]; intros p; cbn [close_gaps close_paths map]; [reflexivity|].
  rewrite map_app. cbn [map]. rewrite IH. reflexivity.
Qed.
Lemma paths_ring_of C r : map pc_path (clipped_ring C r) = paths_ring (map pc_path (visible C r)).
Proof. unfold clipped_ring. destruct (visible C r) as [|p ps]; [reflexivity|]. cbn [map paths_ring]. rewrite close_paths_of. reflexivity. Qed.

Lemma same_visible C C' r r' : map pc_path (visible C r) = map pc_path (visible C' r') ->
  ring_kept C r = ring_kept C' r' /\ read_pieces (clipped_ring C r) = read_pieces (clipped_ring C' r').
Proof.
  intros E. assert (EP : map pc_path (clipped_ring C r) = map pc_path (clipped_ring C' r')) by (rewrite !paths_ring_of, E; reflexivity).
  split; [unfold ring_kept, clipped_area; rewrite EP; reflexivity|].
  unfold read_pieces. rewrite <- (map_map pc_path Some), EP, map_map. reflexivity.
Qed.

(** ** The gaps closed by the first step *)
Definition line_gaps (k : clip_mask) (ps : list piece) : Prop :=
  forall p a b, In p ps -> pc_key p = KGap a b -> on_line k a /\ on_line k b.

Lemma gap_line k x y : level_gap k x y -> line_gaps k (gap x y).
Proof.
  intros [->|[H1 H2]] p a b; unfold gap.
  - rewrite !Z.eqb_refl. intros [].
  - destruct ((px x =? px y) && (py x =? py y)); [intros []|]. destruct ((px x <? px y) || _); intros [<-|[]] E; injection E as <- <-; auto.
Qed.

Lemma visible_keys C ds p a b : In p (flat_map (visible_piece C) ds) -> pc_key p <> KGap a b.
Proof.
  intros H. apply in_flat_map in H as (d & _ & H). unfold visible_piece in H.
  destruct (nth_error C (de_edge d)) as [[|x [|y c]]|]; cbn in H; try contradiction. destruct H as [<-|[]]. discriminate.
Qed.

Lemma close_lines k s ps : (forall p a b, In p ps -> pc_key p <> KGap a b) ->
  forall p, has_ends p -> Forall has_ends ps -> level_gaps k s p ps -> line_gaps k (close_gaps (Some s) p ps).
Proof.
  intros HK. induction ps as [|q ps IH]; intros p (x & e & Hx & He) HE HQ; cbn [close_gaps level_gaps] in *; unfold fin_of, fst_of in *.
  - rewrite He. cbn [gap_between]. apply gap_line, HQ, He.
  - inversion HE as [|? ? Hq HE']; subst. destruct HQ as (HQ & HQ'). pose proof Hq as (b & y & Hb & _). unfold fst_of in Hb.
    rewrite He, Hb. cbn [gap_between]. intros p0 a0 b0 Hp. apply in_app_iff in Hp as [Hp|[<-|Hp]].
    + apply (gap_line k e b); [apply HQ; assumption|exact Hp].
    + intros E. exfalso. exact (HK q a0 b0 (or_introl eq_refl) E).
    + revert p0 a0 b0 Hp. apply IH; [intros z a0 b0 Hz; apply HK; right; exact Hz|assumption|assumption|assumption].
Qed.

Lemma ring_lines {D} m k (t : topology D) C r : wf_mask k -> wf_topology t -> small_steps t -> clips m k t C ->
  closed_chain (map ne_points (seen_ring t r)) -> line_gaps k (clipped_ring C r).
Proof.
  intros Hk Ht HS HC (n & HCh). pose proof (steps_bent m k t Hk Ht HS) as HB. unfold seen_ring in HCh. unfold clipped_ring.
  pose proof (visible_ends C r) as HE. destruct (visible C r) as [|p ps] eqn:Ev; [intros p a b []|].
  destruct (walk_around m k t C HC HB (tr_des r) n n p ps HCh Ev) as ((s & Hs & Ts) & HG). specialize (HG s Ts).
  inversion HE as [|? ? Hp HE']; subst. unfold fst_of in Hs. rewrite Hs.
  assert (HK : forall p0 a b, In p0 (p :: ps) -> pc_key p0 <> KGap a b) by (intros p0 a b H0; rewrite <- Ev in H0; eapply visible_keys, H0).
  intros p0 a b [<-|H0] E; [exfalso; exact (HK p a b (or_introl eq_refl) E)|].
  revert p0 a b H0 E. apply close_lines; try assumption. intros p0 a b H0. apply HK. right. exact H0.
Qed.

Lemma line_lost m k k' a b c : tighter k k' -> on_line k a -> on_line k b -> clip_edge m k' [a; b] = Ok c -> c = [].
Proof.
  intros T Ha Hb H. apply clip_edge_path in H. subst c. apply clip_path_empty; [cbn; lia|].
  intros p [<-|[<-|[]]] I; [apply (t_line k k' a T) in Ha|apply (t_line k k' b T) in Hb]; destruct k'; cbn in *; lia.
Qed.
Lemma small_lost m k c c' : big c = false -> clip_edge m k c = Ok c' -> c' = [].
Proof. intros B H. apply clip_edge_path in H. subst c'. destruct c as [|a [|b c]]; [reflexivity|reflexivity|discriminate]. Qed.

Lemma finder_old C i j : nth_error (finder_from 0 C) i = Some (Some j) ->
  exists c, nth_error C i = Some c /\ nth_error (old_of C) j = Some c.
Proof.
  intros H. destruct (nth_error C i) as [c|] eqn:E; [|rewrite finder_none in H by exact E; discriminate].
  exists c. split; [reflexivity|]. destruct (finder_nth 0 C i c E) as [[_ H']|(_ & j' & H1 & H2)]; [congruence|].
  rewrite H1 in H. injection H as <-. exact H2.
Qed.

(** ** The second step *)
Section Second.
  Context {D : Type} (m : mode) (k k' : clip_mask) (t t1 : topology D) (C1 C2 C12 : list (list point)) (s : new_edge_set).
  Hypothesis HT : tighter k k'.
  Hypothesis Hs : nes_ok C1 s.
  Hypothesis HE : map te_points (tp_edges t1) = pts_of C1 s.
  Hypothesis H12 : clips m k' t1 C12.
  (** Each edge, clipped in two steps. *)
  Hypothesis HL : length C1 = length C2.
  Hypothesis Hstep : forall i c1 c2, nth_error C1 i = Some c1 -> nth_error C2 i = Some c2 -> clip_edge m k' c1 = Ok c2.

  Definition again (p : piece) : list (list point) :=
    match pc_key p with
    | KOld i => map pc_path (visible_piece C2 (DE i (pc_dir p)))
    | KGap _ _ => []
    end.

  Lemma clip12 j ps : nth_error (pts_of C1 s) j = Some ps -> exists c, nth_error C12 j = Some c /\ clip_edge m k' ps = Ok c.
  Proof.
    rewrite <- HE. unfold clips in H12. clear - H12. intros H. revert j H. induction H12 as [|e c es cs H F IH]; intros j Hj; [destruct j; discriminate|].
    destruct j as [|j]; cbn in Hj |- *; [injection Hj as <-; exists c; auto|]. apply IH; assumption.
  Qed.

  Lemma piece_again d p : realises C1 s d p -> (forall a b, pc_key p = KGap a b -> on_line k a /\ on_line k b) ->
    map pc_path (visible_piece C12 d) = again p.
  Proof.
    intros H HG. pose proof H as (A1 & A2 & base & A3 & A4). destruct (clip12 _ _ A3) as (c & Ec & Hc).
    rewrite (visible_piece_big C12 d c Ec). unfold again. destruct (pc_key p) as [i|a b] eqn:Ek.
    - cbn [idx] in A1. destruct (nth_error (finder_from 0 C1) i) as [[j|]|] eqn:Ef; try discriminate. injection A1 as ->.
      destruct (finder_old C1 i _ Ef) as (c1 & E1 & E2).
      assert (base = c1) as ->.
      { unfold pts_of in A3. rewrite nth_error_app1 in A3 by (apply nth_error_Some; congruence). congruence. }
      destruct (nth_error C2 i) as [c2|] eqn:E3; [|apply nth_error_None in E3; assert (i < length C1)%nat by (apply nth_error_Some; congruence); lia].
      rewrite (visible_piece_big C2 (DE i (pc_dir p)) c2 E3). pose proof (Hstep i c1 c2 E1 E3) as Hc'. assert (c2 = c) as -> by congruence.
      rewrite <- A2. destruct (big c); reflexivity.
    - destruct (realises_gap C1 s Hs d p a b H Ek) as (j & Hj & Ej & Hp). destruct (HG a b eq_refl) as [Ha Hb].
      assert (base = [a; b]) as ->.
      { rewrite Ej in A3. unfold pts_of in A3. rewrite nth_error_app2 in A3 by lia.
        rewrite Nat.add_comm, Nat.add_sub, nth_error_map, Hj in A3. injection A3 as <-. reflexivity. }
      rewrite (line_lost m k k' a b c HT Ha Hb Hc). reflexivity.
  Qed.

  Lemma pieces_again ds ps : Forall2 (realises C1 s) ds ps -> line_gaps k ps ->
    map pc_path (flat_map (visible_piece C12) ds) = flat_map again ps.
  Proof.
    induction 1 as [|d p ds ps Hd HF IH]; intros HG; [reflexivity|]. cbn [flat_map]. rewrite map_app, IH.
    - f_equal. apply piece_again; [exact Hd|]. intros a b. apply HG. left. reflexivity.
    - intros q a b Hq. apply HG. right. exact Hq.
  Qed.

  Lemma again_gap a b : flat_map again (gap_between a b) = [].
  Proof.
    destruct a as [a|], b as [b|]; try reflexivity. cbn [gap_between]. unfold gap. destruct (_ && _); [reflexivity|]. destruct (_ || _); reflexivity.
  Qed.
  Lemma again_close x ps : forall p, flat_map again (close_gaps x p ps) = flat_map again ps.
  Proof.
    induction ps as [|q ps IH]; intros p; cbn [close_gaps]; [apply again_gap|]. rewrite flat_map_app, again_gap. cbn [app flat_map]. rewrite IH. reflexivity.
  Qed.
  Lemma again_ring r : flat_map again (clipped_ring C1 r) = flat_map again (visible C1 r).
  Proof. unfold clipped_ring. destruct (visible C1 r) as [|p ps]; [reflexivity|]. cbn [flat_map]. rewrite again_close. reflexivity. Qed.

  Lemma again_visible r : flat_map again (visible C1 r) = map pc_path (visible C2 r).
  Proof.
    unfold visible. induction (tr_des r) as [|d ds IH]; [reflexivity|]. cbn [flat_map]. rewrite flat_map_app, map_app, IH. f_equal. clear IH.
    destruct (nth_error C1 (de_edge d)) as [c1|] eqn:E1.
    - destruct (nth_error C2 (de_edge d)) as [c2|] eqn:E2; [|apply nth_error_None in E2; assert (de_edge d < length C1)%nat by (apply nth_error_Some; congruence); lia].
      rewrite (visible_piece_big C1 d c1 E1), (visible_piece_big C2 d c2 E2). pose proof (Hstep _ _ _ E1 E2) as H.
      destruct (big c1) eqn:B.
      + cbn [flat_map]. unfold again. cbn [pc_key pc_dir]. rewrite app_nil_r. destruct d as [i x]. cbn [de_edge de_dir] in *.
        rewrite (visible_piece_big C2 (DE i x) c2 E2). reflexivity.
      + rewrite (small_lost m k' c1 c2 B H). reflexivity.
    - unfold visible_piece. rewrite E1. destruct (nth_error C2 (de_edge d)) eqn:E2; [|reflexivity].
      apply nth_error_None in E1. assert (de_edge d < length C2)%nat by (apply nth_error_Some; congruence). lia.
  Qed.

  Lemma ring_steps r r1 : Forall2 (realises C1 s) (tr_des r1) (clipped_ring C1 r) -> line_gaps k (clipped_ring C1 r) ->
    map pc_path (visible C12 r1) = map pc_path (visible C2 r).
  Proof. intros H HG. unfold visible at 1. rewrite (pieces_again _ _ H HG), again_ring. apply again_visible. Qed.

  (** Rings that have no area after the first step do not return. *)
  Lemma rings_steps i brs rs : Forall2 (Forall2 (realises C1 s)) brs (clipped_rings C1 rs) ->
    (forall r, In r rs -> line_gaps k (clipped_ring C1 r)) -> (forall r, In r rs -> ring_kept C2 r = true -> ring_kept C1 r = true) ->
    map read_pieces (clipped_rings C12 (map (final_ring i) brs)) = map read_pieces (clipped_rings C2 rs) /\
    existsb (ring_kept C12) (map (final_ring i) brs) = existsb (ring_kept C2) rs.
  Proof.
    unfold clipped_rings. revert brs. induction rs as [|r rs IH]; intros brs HF HG HK; cbn [filter map] in HF |- *.
    - inversion HF. split; reflexivity.
    - pose proof (HK r (or_introl eq_refl)) as HKr. cbn [existsb].
      destruct (ring_kept C1 r) eqn:E1.
      + cbn [map] in HF. inversion HF as [|br ? brs' ? H1 H2]; subst. cbn [map filter existsb].
        destruct (IH brs' H2) as [I1 I2]; [intros x Hx; apply HG; right; exact Hx|intros x Hx; apply HK; right; exact Hx|].
        pose proof (ring_steps r (final_ring i br) H1 (HG r (or_introl eq_refl))) as EV.
        destruct (same_visible C12 C2 _ _ EV) as [V1 V2]. rewrite V1, I2. split; [|reflexivity].
        destruct (ring_kept C2 r); [|exact I1]. cbn [map]. rewrite V2, I1. reflexivity.
      + destruct (ring_kept C2 r); [discriminate (HKr eq_refl)|]. cbn [orb].
        apply IH; [exact HF|intros x Hx; apply HG; right; exact Hx|intros x Hx; apply HK; right; exact Hx].
  Qed.

  Lemma regions_steps (regs : list (build_region D)) rgs : Forall2 (region_realises C1 s) regs (filter (region_kept C1) rgs) ->
    (forall rg r, In rg rgs -> In r (tg_outer rg ++ tg_inner rg) -> line_gaps k (clipped_ring C1 r)) ->
    (forall rg r, In rg rgs -> In r (tg_outer rg ++ tg_inner rg) -> ring_kept C2 r = true -> ring_kept C1 r = true) ->
    map (clipped_shape C12) (filter (region_kept C12) (final_regions regs)) = map (clipped_shape C2) (filter (region_kept C2) rgs).
  Proof.
    unfold final_regions, enumerate. generalize 0%nat. revert regs. induction rgs as [|rg rgs IH]; intros regs n HF HG HK; cbn [filter] in HF |- *.
    - inversion HF. reflexivity.
    - assert (HG' : forall g r, In g rgs -> In r (tg_outer g ++ tg_inner g) -> line_gaps k (clipped_ring C1 r)) by (intros g r Hg; apply HG; right; exact Hg).
      assert (HK' : forall g r, In g rgs -> In r (tg_outer g ++ tg_inner g) -> ring_kept C2 r = true -> ring_kept C1 r = true) by (intros g r Hg; apply HK; right; exact Hg).
      destruct (region_kept C1 rg) eqn:E1.
      + inversion HF as [|br ? regs' ? (R1 & R2 & R3) H2]; subst. cbn [length seq combine map filter].
        destruct (rings_steps n (br_outer br) (tg_outer rg) R2) as [A1 A2]; [intros r Hr; apply (HG rg); [left; reflexivity|apply in_or_app; auto]|intros r Hr; apply (HK rg); [left; reflexivity|apply in_or_app; auto]|].
        destruct (rings_steps n (br_inner br) (tg_inner rg) R3) as [B1 _]; [intros r Hr; apply (HG rg); [left; reflexivity|apply in_or_app; auto]|intros r Hr; apply (HK rg); [left; reflexivity|apply in_or_app; auto]|].
        change (region_kept C12 (final_region (n, br))) with (existsb (ring_kept C12) (map (final_ring n) (br_outer br))). rewrite A2.
        change (existsb (ring_kept C2) (tg_outer rg)) with (region_kept C2 rg).
        destruct (region_kept C2 rg); [|apply IH; assumption]. cbn [map]. f_equal; [|apply IH; assumption].
        unfold clipped_shape. cbn [final_region tg_data tg_outer tg_inner]. f_equal; [exact R1|exact A1|exact B1].
      + assert (E2 : region_kept C2 rg = false); [|rewrite E2; apply IH; assumption].
        unfold region_kept in *. apply not_true_iff_false. intros H. apply existsb_exists in H as (r & Hr & Hk).
        apply not_true_iff_false in E1. apply E1, existsb_exists. exists r. split; [exact Hr|].
        apply (HK rg r); [left; reflexivity|apply in_or_app; left; exact Hr|exact Hk].
  Qed.
End Second.

(** ** Topologies *)
Lemma clips_nth {D} m k (t : topology D) C i c : clips m k t C -> nth_error C i = Some c ->
  exists e, nth_error (tp_edges t) i = Some e /\ clip_edge m k (te_points e) = Ok c.
Proof.
  unfold clips. intros H. revert i. induction H as [|e0 c0 es cs H F IH]; intros i E; [destruct i; discriminate|].
  destruct i as [|i]; cbn in E |- *; [injection E as ->; exists e0; auto|]. apply IH; assumption.
Qed.

Lemma topology_steps {D} m k k' (t t1 t12 t2 : topology D) : tighter k k' -> wf_mask k -> wf_mask k' ->
  wf_topology t -> small_steps t -> closed_rings t -> exact_edges k k' t -> no_return m k k' t ->
  clip_topology m t k = Ok t1 -> clip_topology m t1 k' = Ok t12 -> clip_topology m t k' = Ok t2 ->
  read_topology t12 = read_topology t2.
Proof.
  intros T W W' Ht HS HR HX HN H1 H12 H2.
  apply clip_topology_ok in H1 as (C1 & b1 & HC1 & Hb1 & _ & HR1 & HE1).
  apply clip_topology_ok in H12 as (C12 & b12 & HC12 & Hb12 & _ & HR12 & HE12).
  apply clip_topology_ok in H2 as (C2 & b2 & HC2 & Hb2 & _ & HR2 & HE2).
  rewrite (clip_read _ b12 _ t12 Hb12 HR12 HE12), (clip_read _ b2 _ t2 Hb2 HR2 HE2). unfold clipped_topology. rewrite HR1.
  pose proof Hb1 as (_ & _ & Hs & HF & _).
  apply (regions_steps m k k' t1 C1 C2 C12 (cb_new b1) T Hs HE1 HC12); [| |exact HF| |].
  - unfold clips in HC1, HC2. apply Forall2_length' in HC1, HC2. congruence.
  - intros i c1 c2 E1 E2. destruct (clips_nth _ _ _ _ _ _ HC1 E1) as (e & Ee & A1). destruct (clips_nth _ _ _ _ _ _ HC2 E2) as (e' & Ee' & A2).
    assert (e' = e) as -> by congruence. apply nth_error_In in Ee. unfold wf_topology in Ht. rewrite Forall_forall in Ht.
    destruct (clip_steps_exact m k k' (te_points e) T W W' (Ht e Ee)) as (d1 & d2 & D1 & D2 & D3).
    + intros p q. apply HS, Ee.
    + apply HX, Ee.
    + congruence.
  - intros rg r Hg Hr. apply (ring_lines m k t); try assumption. eapply HR; eassumption.
  - intros rg r Hg Hr. eapply HN; eassumption.
Qed.
