(** * ClipTrace: the sums clip_ring computes and the closing lines it creates *)
From Coq Require Import Permutation.
From Verif Require Import ClipTopoSpec GeoProofs TopoProofs BuildProofs ClipEdgeProofs ClipTopoProofs ClipTopoLaws.

(** Adding up the areas of pieces as the code does. *)
Definition piece_area (m : mode) (a : Z) (p : piece) : res Z :=
  sa <- signed_area2 m (pc_path p) ;; i64_add m a sa.
Definition trace (m : mode) (ps : list piece) (a : Z) : res Z := mfold (piece_area m) ps a.

(** The closing lines, in the order in which they are created. *)
Lemma seg_eq_dec (a b : point * point) : {a = b} + {a <> b}.
Proof. repeat decide equality. Defined.
Definition add_key (K : list (point * point)) (ab : point * point) : list (point * point) :=
  if in_dec seg_eq_dec ab K then K else K ++ [ab].
Definition gap_key (p : piece) : list (point * point) :=
  match pc_key p with KGap a b => [(a, b)] | KOld _ => [] end.
Definition add_keys (K : list (point * point)) (ps : list piece) : list (point * point) :=
  fold_left add_key (flat_map gap_key ps) K.
Definition keys (s : new_edge_set) : list (point * point) := map fst (nes_edges s).

Lemma add_keys_app K a b : add_keys K (a ++ b) = add_keys (add_keys K a) b.
Proof. unfold add_keys. rewrite flat_map_app, fold_left_app. reflexivity. Qed.
Lemma trace_app m a b z : trace m (a ++ b) z = bind (trace m a z) (trace m b).
Proof. apply mfold_app. Qed.

Lemma nes_build_keys s a b : a <> b -> keys (snd (nes_build s a b)) = add_keys (keys s) (gap a b).
Proof.
  intros Hn. unfold nes_build, gap. rewrite lt_pointb.
  assert (E0 : (px a =? px b) && (py a =? py b) = false) by (apply (pt_eqb_neq a b), Hn). rewrite E0.
  assert (HH : forall x y d, keys (snd (match sm_find (nes_edges s) (x, y) with
    | Some id => (DE id d, s)
    | None => (DE (nes_first s + length (nes_edges s)) d, NES (nes_first s) (nes_edges s ++ [((x, y), (nes_first s + length (nes_edges s))%nat)])) end))
    = add_key (keys s) (x, y)).
  { intros x y d. unfold add_key. destruct (in_dec seg_eq_dec (x, y) (keys s)) as [Hi|Hi].
    - destruct (sm_find (nes_edges s) (x, y)) eqn:E; [reflexivity|]. apply sm_find_none in E. contradiction.
    - destruct (sm_find (nes_edges s) (x, y)) eqn:E.
      + apply sm_find_in in E. exfalso. apply Hi. apply (in_map fst) in E. exact E.
      + cbn [snd keys nes_edges]. unfold keys. cbn [nes_edges]. rewrite map_app. reflexivity. }
  destruct (pt_ltb a b); apply HH.
Qed.

Lemma plug_gap_fwd m p q s s' : plug_gap m p q s = Ok s' ->
  trace m (gap p q) (rs_area s) = Ok (rs_area s') /\ keys (rs_new s') = add_keys (keys (rs_new s)) (gap p q) /\
  rs_start s' = rs_start s /\ rs_prev s' = rs_prev s.
Proof.
  unfold plug_gap. destruct (pt_eqb_spec p q) as [->|Hn].
  - intros [= <-]. rewrite gap_same. auto.
  - intros H. apply bind_Ok in H as (g & Hg & H). apply bind_Ok in H as (a & Ha & H).
    pose proof (nes_build_keys (rs_new s) p q Hn) as HK. destruct (nes_build (rs_new s) p q) as [d nes]. injection H as <-.
    cbn [rs_area rs_new rs_start rs_prev snd] in *. split; [|auto].
    assert (HT : forall key d, trace m [Piece key d [p; q]] (rs_area s) = Ok a).
    { intros key d0. unfold trace. cbn [mfold]. unfold piece_area. cbn [pc_path]. rewrite Hg. cbn [bind]. rewrite Ha. reflexivity. }
    unfold gap. assert (E0 : (px p =? px q) && (py p =? py q) = false) by (apply (pt_eqb_neq p q), Hn). rewrite E0.
    destruct (_ || _); apply HT.
Qed.

Lemma plug_gap_back m p q s a : trace m (gap p q) (rs_area s) = Ok a -> exists s', plug_gap m p q s = Ok s'.
Proof.
  unfold plug_gap. destruct (pt_eqb_spec p q) as [->|Hn]; [eauto|]. unfold gap.
  assert (E0 : (px p =? px q) && (py p =? py q) = false) by (apply (pt_eqb_neq p q), Hn). rewrite E0.
  assert (HT : forall key d, trace m [Piece key d [p; q]] (rs_area s) = Ok a ->
    exists s', (g <- signed_area2 m [p; q] ;; a0 <- i64_add m (rs_area s) g ;;
     (let '(d0, nes) := nes_build (rs_new s) p q in Ok (RS (rs_ret s ++ [d0]) a0 (rs_start s) (rs_prev s) nes))) = Ok s').
  { intros key d H. unfold trace in H. cbn [mfold] in H. apply bind_Ok in H as (a1 & H & _). unfold piece_area in H. cbn [pc_path] in H.
    apply bind_Ok in H as (g & Hg & H). rewrite Hg. cbn [bind]. rewrite H. cbn [bind]. destruct (nes_build (rs_new s) p q). eauto. }
  destruct (_ || _); apply HT.
Qed.

(** ** One ring *)
Definition traced (m : mode) (K : list (point * point)) (vs : list piece) (s : ring_state) : Prop :=
  trace m (open_ring vs) 0 = Ok (rs_area s) /\ keys (rs_new s) = add_keys K (open_ring vs) /\
  rs_start s = start_of vs /\ rs_prev s = end_of vs /\ Forall has_ends vs.

Lemma end_of_some vs : Forall has_ends vs -> vs <> [] -> exists b, end_of vs = Some b.
Proof.
  intros HF Hn. destruct vs as [|v vt]; [congruence|]. cbn [end_of].
  assert (HI : In (last (v :: vt) v) (v :: vt)).
  { clear. revert v. induction vt as [|x t IH]; intros v; [left; reflexivity|].
    change (last (v :: x :: t) v) with (last (x :: t) v). rewrite (last_default (x :: t) v x) by discriminate. right. apply IH. }
  rewrite Forall_forall in HF. apply HF in HI as (a & b & _ & Hb). eauto.
Qed.

Lemma step_fwd C m K vs s d s' : traced m K vs s -> clip_ring_step m (old_of C) (finder_from 0 C) s d = Ok s' ->
  traced m K (vs ++ visible_piece C d) s'.
Proof.
  intros (T1 & T2 & T3 & T4 & T5). unfold clip_ring_step, find_old, get, get_or.
  destruct (nth_error C (de_edge d)) as [c|] eqn:Ec.
  2:{ rewrite finder_none by exact Ec. discriminate. }
  rewrite (visible_piece_big C d c Ec).
  destruct (finder_nth 0 C (de_edge d) c Ec) as [[Hb Hf]|(Hb & j & Hf & Ho)]; rewrite Hf, Hb; cbn [bind].
  - intros [= <-]. rewrite app_nil_r. repeat split; assumption.
  - cbn [Nat.add] in *. rewrite Ho. cbn [bind]. assert (Hne : c <> []) by (intros ->; discriminate).
    destruct (first_point_ok c (de_dir d) Hne) as (fp & F1 & F2 & _).
    destruct (last_point_ok c (de_dir d) Hne) as (lp & L1 & L2 & _).
    rewrite F1. cbn [bind]. set (s1 := RS _ _ _ _ _). set (pc := Piece _ _ _).
    assert (Fp : fst_of pc = Some fp) by exact F2. assert (Lp : fin_of pc = Some lp) by exact L2.
    intros H. apply bind_Ok in H as (s2 & H2 & H). rewrite L1 in H. cbn [bind] in H.
    apply bind_Ok in H as (sa & Hsa & H). apply bind_Ok in H as (a & Ha & H). injection H as <-.
    assert (HS : trace m (gap_between (end_of vs) (fst_of pc)) (rs_area s) = Ok (rs_area s2) /\
      keys (rs_new s2) = add_keys (keys (rs_new s)) (gap_between (end_of vs) (fst_of pc)) /\
      rs_start s2 = rs_start s1).
    { cbn [rs_prev s1] in H2. rewrite T4 in H2. destruct (end_of vs) as [b|].
      - rewrite Fp. cbn [gap_between]. apply plug_gap_fwd in H2 as (P1 & P2 & P3 & _). auto.
      - injection H2 as <-. auto. }
    destruct HS as (S1 & S2 & S3). unfold traced. cbn [rs_area rs_new rs_start rs_prev]. rewrite open_ring_snoc.
    split; [|split; [|split; [|split]]].
    + rewrite trace_app, T1. cbn [bind]. rewrite trace_app, S1. cbn [bind]. unfold trace. cbn [mfold]. unfold piece_area. cbn [pc pc_path].
      change (oriented c (de_dir d)) with (match de_dir d with Forward => c | Backward => rev c end). rewrite Hsa. cbn [bind]. rewrite Ha. reflexivity.
    + rewrite !add_keys_app, <- T2, <- S2. reflexivity.
    + rewrite S3. cbn [s1 rs_start]. rewrite T3, start_of_snoc. destruct vs as [|v vt]; [symmetry; exact Fp|]. cbn [start_of].
      inversion T5 as [|? ? (x & y & Hx & _) _]; subst. rewrite Hx. reflexivity.
    + rewrite end_of_snoc. symmetry. exact Lp.
    + apply Forall_app. split; [assumption|]. constructor; [|constructor]. exists fp, lp. auto.
Qed.

Lemma step_back C m K vs s d a : traced m K vs s -> (de_edge d < length C)%nat ->
  trace m (open_ring (vs ++ visible_piece C d)) 0 = Ok a ->
  exists s', clip_ring_step m (old_of C) (finder_from 0 C) s d = Ok s'.
Proof.
  intros (T1 & T2 & T3 & T4 & T5) Hl. unfold clip_ring_step, find_old, get, get_or.
  destruct (nth_error C (de_edge d)) as [c|] eqn:Ec; [|apply nth_error_None in Ec; lia].
  rewrite (visible_piece_big C d c Ec).
  destruct (finder_nth 0 C (de_edge d) c Ec) as [[Hb Hf]|(Hb & j & Hf & Ho)]; rewrite Hf, Hb; cbn [bind]; [eauto|].
  cbn [Nat.add] in *. rewrite Ho. cbn [bind]. assert (Hne : c <> []) by (intros ->; discriminate).
  destruct (first_point_ok c (de_dir d) Hne) as (fp & F1 & F2 & _).
  destruct (last_point_ok c (de_dir d) Hne) as (lp & L1 & L2 & _).
  rewrite F1. cbn [bind]. set (s1 := RS _ _ _ _ _). set (pc := Piece _ _ _).
  assert (Fp : fst_of pc = Some fp) by exact F2.
  rewrite open_ring_snoc, trace_app, T1. cbn [bind]. rewrite trace_app. intros H. apply bind_Ok in H as (a1 & H1 & H).
  assert (HS : exists s2, match rs_prev s1 with Some p => plug_gap m p fp s1 | None => Ok s1 end = Ok s2 /\ rs_area s2 = a1).
  { cbn [rs_prev s1]. rewrite T4. destruct (end_of vs) as [b|].
    - rewrite Fp in H1. cbn [gap_between] in H1. destruct (plug_gap_back m b fp s1 a1 H1) as (s2 & E2). exists s2. split; [exact E2|].
      apply plug_gap_fwd in E2 as (E2 & _). change (rs_area s1) with (rs_area s) in E2. congruence.
    - exists s1. split; [reflexivity|]. injection H1 as <-. reflexivity. }
  destruct HS as (s2 & E2 & <-). rewrite E2. cbn [bind]. rewrite L1. cbn [bind].
  unfold trace in H. cbn [mfold] in H. apply bind_Ok in H as (a2 & H & _). unfold piece_area in H. cbn [pc pc_path] in H.
  apply bind_Ok in H as (sa & Hsa & H). change (oriented c (de_dir d)) with (match de_dir d with Forward => c | Backward => rev c end) in Hsa.
  rewrite Hsa. cbn [bind]. rewrite H. cbn [bind]. eauto.
Qed.

Lemma loop_fwd C m K ds vs s s' : traced m K vs s -> mfold (clip_ring_step m (old_of C) (finder_from 0 C)) ds s = Ok s' ->
  traced m K (vs ++ flat_map (visible_piece C) ds) s'.
Proof.
  revert vs s. induction ds as [|d ds IH]; intros vs s HT; cbn [mfold flat_map].
  - intros [= <-]. rewrite app_nil_r. exact HT.
  - intros H. apply bind_Ok in H as (s1 & H1 & H). rewrite app_assoc. eapply IH; [|exact H]. eapply step_fwd; eassumption.
Qed.

Lemma open_ring_app vs ws : exists x, open_ring (vs ++ ws) = open_ring vs ++ x.
Proof.
  destruct vs as [|v vt]; [exists (open_ring ws); reflexivity|]. cbn [app open_ring]. revert v.
  induction vt as [|u vt IH]; intros v; cbn [app open_gaps].
  - eexists. cbn [app]. reflexivity.
  - destruct (IH u) as [x Hx]. injection Hx as Hx. exists x. cbn [app]. rewrite Hx, <- app_assoc. reflexivity.
Qed.

Lemma trace_prefix m a b z r : trace m (a ++ b) z = Ok r -> exists r', trace m a z = Ok r'.
Proof. rewrite trace_app. intros H. apply bind_Ok in H as (r' & H & _). eauto. Qed.

Lemma loop_back C m K ds vs s a : traced m K vs s -> (forall d, In d ds -> (de_edge d < length C)%nat) ->
  trace m (open_ring (vs ++ flat_map (visible_piece C) ds)) 0 = Ok a ->
  exists s', mfold (clip_ring_step m (old_of C) (finder_from 0 C)) ds s = Ok s'.
Proof.
  revert vs s. induction ds as [|d ds IH]; intros vs s HT Hd; cbn [mfold flat_map]; [eauto|]. rewrite app_assoc. intros H.
  assert (H1 : exists r, trace m (open_ring (vs ++ visible_piece C d)) 0 = Ok r).
  { destruct (open_ring_app (vs ++ visible_piece C d) (flat_map (visible_piece C) ds)) as [x Hx]. rewrite Hx in H. eapply trace_prefix, H. }
  destruct H1 as [r H1]. destruct (step_back C m K vs s d r HT (Hd d (or_introl eq_refl)) H1) as (s1 & E1). rewrite E1. cbn [bind].
  eapply IH; [eapply step_fwd; eassumption| |exact H]. intros x Hx. apply Hd. right. exact Hx.
Qed.

Lemma traced_start m nes : traced m (keys nes) [] (RS [] 0 None None nes).
Proof. repeat split; constructor. Qed.

Lemma clip_ring_fwd C m nes r o nes' : clip_ring m (old_of C) (finder_from 0 C) nes r = Ok (o, nes') ->
  (exists a, trace m (clipped_ring C r) 0 = Ok a) /\ keys nes' = add_keys (keys nes) (clipped_ring C r).
Proof.
  unfold clip_ring. intros H. apply bind_Ok in H as (s & Hs & H). apply bind_Ok in H as (s' & Hs' & H).
  apply (loop_fwd C m _ _ [] _ _ (traced_start m nes)) in Hs. cbn [app] in Hs. fold (visible C r) in Hs.
  destruct Hs as (T1 & T2 & T3 & T4 & T5). rewrite clipped_ring_open, trace_app, add_keys_app, T1, <- T2. cbn [bind].
  assert (HN : nes' = rs_new s') by (destruct (rs_area s' =? 0); congruence). subst nes'.
  rewrite T3, T4 in Hs'. destruct (start_of (visible C r)) as [p0|], (end_of (visible C r)) as [pn|]; cbn [gap_between];
    try (injection Hs' as <-; split; [exists (rs_area s)|]; reflexivity).
  apply plug_gap_fwd in Hs' as (P1 & P2 & _). split; [eauto|exact P2].
Qed.

Lemma clip_ring_back C m nes r a : (forall d, In d (tr_des r) -> (de_edge d < length C)%nat) ->
  trace m (clipped_ring C r) 0 = Ok a -> exists x, clip_ring m (old_of C) (finder_from 0 C) nes r = Ok x.
Proof.
  intros Hd. rewrite clipped_ring_open. intros H. destruct (trace_prefix m _ _ _ _ H) as [a1 H1].
  destruct (loop_back C m (keys nes) (tr_des r) [] (RS [] 0 None None nes) a1 (traced_start m nes) Hd H1) as (s & Es).
  unfold clip_ring. rewrite Es. cbn [bind].
  apply (loop_fwd C m _ _ [] _ _ (traced_start m nes)) in Es. cbn [app] in Es. fold (visible C r) in Es.
  destruct Es as (T1 & T2 & T3 & T4 & T5). rewrite trace_app, T1 in H. cbn [bind] in H. rewrite T3, T4.
  assert (HH : exists s', match start_of (visible C r), end_of (visible C r) with Some p0, Some pn => plug_gap m pn p0 s | _, _ => Ok s end = Ok s').
  { destruct (start_of (visible C r)) as [p0|], (end_of (visible C r)) as [pn|]; eauto. cbn [gap_between] in H. eapply plug_gap_back, H. }
  destruct HH as (s' & ->). cbn [bind]. destruct (rs_area s' =? 0); eauto.
Qed.

(** ** Rings and regions *)
Definition ring_pieces (C : list (list point)) (rs : list topo_ring) : list piece := concat (map (clipped_ring C) rs).

Lemma clip_rings_fwd C m nes rs brs nes' : Clip.clip_rings m (old_of C) (finder_from 0 C) nes rs = Ok (brs, nes') ->
  (forall r, In r rs -> exists a, trace m (clipped_ring C r) 0 = Ok a) /\ keys nes' = add_keys (keys nes) (ring_pieces C rs).
Proof.
  unfold Clip.clip_rings, ring_pieces. change (keys nes) with (keys (snd (@nil build_ring, nes))). generalize (@nil build_ring, nes).
  clear nes. induction rs as [|r rs IH]; intros [acc nes]; cbn [mfold].
  - intros [= <- <-]. split; [intros ? []|reflexivity].
  - cbn [snd fst]. intros H. apply bind_Ok in H as (st & H1 & H). apply bind_Ok in H1 as ([o nes1] & H1 & E). injection E as <-.
    apply clip_ring_fwd in H1 as [A1 A2]. apply IH in H as [B1 B2]. split.
    + intros x [<-|Hx]; auto.
    + cbn [map concat]. cbn [snd] in *. rewrite add_keys_app, <- A2. exact B2.
Qed.

Lemma clip_rings_back C m nes rs : (forall r, In r rs -> forall d, In d (tr_des r) -> (de_edge d < length C)%nat) ->
  (forall r, In r rs -> exists a, trace m (clipped_ring C r) 0 = Ok a) ->
  exists x, Clip.clip_rings m (old_of C) (finder_from 0 C) nes rs = Ok x.
Proof.
  unfold Clip.clip_rings. generalize (@nil build_ring, nes). clear nes. induction rs as [|r rs IH]; intros [acc nes] Hd HT; cbn [mfold]; [eauto|].
  destruct (HT r (or_introl eq_refl)) as [a Ha]. cbn [snd fst].
  destruct (clip_ring_back C m nes r a (Hd r (or_introl eq_refl)) Ha) as ([o nes1] & E). rewrite E. cbn [bind].
  apply IH; intros x Hx; [apply Hd|apply HT]; right; exact Hx.
Qed.

(** The rings of a region that are looked at. *)
Definition seen_rings {D} (C : list (list point)) (rg : topo_region D) : list topo_ring :=
  tg_outer rg ++ if region_kept C rg then tg_inner rg else [].
Definition seen_pieces {D} (C : list (list point)) (rgs : list (topo_region D)) : list piece :=
  ring_pieces C (flat_map (seen_rings C) rgs).

Lemma ring_pieces_app C a b : ring_pieces C (a ++ b) = ring_pieces C a ++ ring_pieces C b.
Proof. unfold ring_pieces. rewrite map_app, concat_app. reflexivity. Qed.

Lemma cadd_region_fwd {D} C m (b : cbuilder D) rgs rg b' : cb_ok C b rgs -> cadd_region m b rg = Ok b' ->
  (forall r, In r (seen_rings C rg) -> exists a, trace m (clipped_ring C r) 0 = Ok a) /\
  keys (cb_new b') = add_keys (keys (cb_new b)) (ring_pieces C (seen_rings C rg)).
Proof.
  intros (B1 & B2 & B3 & _). unfold cadd_region, seen_rings. rewrite B1, B2.
  destruct (Clip.clip_rings m (old_of C) (finder_from 0 C) (cb_new b) (tg_outer rg)) as [[outer nes1]|] eqn:E1; [|discriminate]. cbn [bind].
  destruct (clip_rings_ok C m _ _ _ _ B3 E1) as (N1 & _ & R1 & _).
  assert (EK : (0 <? length outer)%nat = region_kept C rg) by (symmetry; exact (region_kept_length C rg nes1 outer R1)).
  rewrite EK. apply clip_rings_fwd in E1 as [A1 A2]. destruct (region_kept C rg).
  - intros H. apply bind_Ok in H as ([inner nes2] & E2 & H). injection H as <-. apply clip_rings_fwd in E2 as [A3 A4].
    split; [intros r Hr; apply in_app_iff in Hr as [Hr|Hr]; auto|].
    cbn [cb_new]. rewrite ring_pieces_app, add_keys_app, <- A2. exact A4.
  - intros [= <-]. rewrite app_nil_r. auto.
Qed.

Lemma cadd_region_back {D} C m (b : cbuilder D) rgs rg : cb_ok C b rgs ->
  (forall r d, In r (tg_outer rg ++ tg_inner rg) -> In d (tr_des r) -> (de_edge d < length C)%nat) ->
  (forall r, In r (tg_outer rg ++ tg_inner rg) -> exists a, trace m (clipped_ring C r) 0 = Ok a) ->
  exists b', cadd_region m b rg = Ok b'.
Proof.
  intros (B1 & B2 & _) Hd HT. unfold cadd_region. rewrite B1, B2.
  destruct (clip_rings_back C m (cb_new b) (tg_outer rg)) as ([outer nes1] & E1).
  { intros r Hr d. apply Hd, in_or_app. auto. } { intros r Hr. apply HT, in_or_app. auto. }
  rewrite E1. cbn [bind]. destruct (0 <? length outer)%nat; [|eauto].
  destruct (clip_rings_back C m nes1 (tg_inner rg)) as ([inner nes2] & E2).
  { intros r Hr d. apply Hd, in_or_app. auto. } { intros r Hr. apply HT, in_or_app. auto. }
  rewrite E2. cbn [bind]. eauto.
Qed.

Lemma cadd_regions_fwd {D} C m (rgs rgs0 : list (topo_region D)) b b' : cb_ok C b rgs0 -> mfold (cadd_region m) rgs b = Ok b' ->
  (forall rg r, In rg rgs -> In r (seen_rings C rg) -> exists a, trace m (clipped_ring C r) 0 = Ok a) /\
  keys (cb_new b') = add_keys (keys (cb_new b)) (seen_pieces C rgs).
Proof.
  revert rgs0 b. induction rgs as [|rg rgs IH]; intros rgs0 b Hb; cbn [mfold].
  - intros [= <-]. split; [intros ? ? []|reflexivity].
  - intros H. apply bind_Ok in H as (b1 & H1 & H). pose proof (cadd_region_fwd C m b rgs0 rg b1 Hb H1) as [A1 A2].
    apply (cadd_region_ok C m b rgs0) in H1; [|assumption]. apply (IH _ _ H1) in H as [A3 A4]. split.
    + intros g r [<-|Hg] Hr; [auto|eapply A3; eassumption].
    + unfold seen_pieces. cbn [flat_map]. rewrite ring_pieces_app, add_keys_app, <- A2. exact A4.
Qed.

Lemma cadd_regions_back {D} C m (rgs rgs0 : list (topo_region D)) b : cb_ok C b rgs0 ->
  (forall rg r d, In rg rgs -> In r (tg_outer rg ++ tg_inner rg) -> In d (tr_des r) -> (de_edge d < length C)%nat) ->
  (forall rg r, In rg rgs -> In r (tg_outer rg ++ tg_inner rg) -> exists a, trace m (clipped_ring C r) 0 = Ok a) ->
  exists b', mfold (cadd_region m) rgs b = Ok b'.
Proof.
  revert rgs0 b. induction rgs as [|rg rgs IH]; intros rgs0 b Hb Hd HT; cbn [mfold]; [eauto|].
  destruct (cadd_region_back C m b rgs0 rg Hb) as (b1 & E1).
  { intros r d. apply Hd. left. reflexivity. } { intros r. apply HT. left. reflexivity. }
  rewrite E1. cbn [bind]. eapply IH; [eapply cadd_region_ok; eassumption| |].
  - intros g r d Hg. apply Hd. right. exact Hg.
  - intros g r Hg. apply HT. right. exact Hg.
Qed.

(** ** Whole topologies *)
Lemma clip_topology_traced {D} m (t t' : topology D) k : clip_topology m t k = Ok t' ->
  exists C b, clips m k t C /\ cb_ok C b (tp_regions t) /\
    exact_references t' /\ tp_regions t' = final_regions (cb_regions b) /\
    map te_points (tp_edges t') = pts_of C (cb_new b) /\
    (forall rg r, In rg (tp_regions t) -> In r (seen_rings C rg) -> exists a, trace m (clipped_ring C r) 0 = Ok a) /\
    keys (cb_new b) = add_keys [] (seen_pieces C (tp_regions t)) /\
    (forall key, (count_key key (surviving_pieces C (tp_regions t)) <= 2)%nat).
Proof.
  unfold clip_topology, cbuilder_new. intros H. apply bind_Ok in H as (b0 & H0 & H). apply bind_Ok in H0 as ([fd old] & H0 & E).
  apply clip_edges_ok in H0 as (C & HC & [= -> ->]). injection E as <-. apply bind_Ok in H as (b & Hb & H).
  pose proof (cadd_regions_fwd C m (tp_regions t) [] _ _ (cb_start_ok C) Hb) as [A1 A2].
  apply (cadd_regions_ok C m (tp_regions t) []) in Hb; [|apply cb_start_ok]. cbn [app] in Hb.
  assert (HK : forall key, (count_key key (surviving_pieces C (tp_regions t)) <= 2)%nat) by (destruct (clip_finish C b _ Hb) as [[_ HK]|[E _]]; [exact HK|congruence]).
  unfold cinto_topology in H. rewrite (cinto_eq C b (tp_regions t)) in H by (try assumption; apply Permutation_refl).
  apply finish_exact in H as (X1 & X2 & X3); [|eapply cb_ids; eassumption]. exists C, b. auto 10.
Qed.

Lemma clip_edges_back m k es C : Forall2 (fun e c => clip_edge m k (te_points e) = Ok c) es C ->
  clip_edges m k es = Ok (finder_from 0 C, old_of C).
Proof.
  intros H. destruct (clip_edges m k es) as [r|p] eqn:E.
  - apply clip_edges_ok in E as (C' & HC & ->). assert (C = C') as ->; [|reflexivity].
    revert C' HC. induction H as [|e c es C He HF IH]; intros C' H'; inversion H'; subst; [reflexivity|]. f_equal; [congruence|auto].
  - exfalso. revert E. unfold clip_edges. generalize (@nil (option nat), @nil (list point)).
    induction H as [|e c es C He HF IH]; intros st; cbn [mfold]; [discriminate|]. rewrite He. cbn [bind]. apply IH.
Qed.

Lemma clip_topology_returns {D} m (t : topology D) k C : clips m k t C -> references_valid t ->
  (forall rg r, In rg (tp_regions t) -> In r (tg_outer rg ++ tg_inner rg) -> exists a, trace m (clipped_ring C r) 0 = Ok a) ->
  (forall key, (count_key key (surviving_pieces C (tp_regions t)) <= 2)%nat) ->
  exists t', clip_topology m t k = Ok t'.
Proof.
  intros HC Hv HT HK. unfold clip_topology, cbuilder_new. rewrite (clip_edges_back m k _ C HC). cbn [bind].
  destruct (cadd_regions_back C m (tp_regions t) [] _ (cb_start_ok C)) as (b & E).
  { intros rg r d Hg Hr Hd. apply Forall2_length' in HC. rewrite <- HC. apply Hv. eapply in_all_des; eassumption. }
  { exact HT. }
  unfold nes_start in E. rewrite E. cbn [bind]. apply (cadd_regions_ok C m (tp_regions t) []) in E; [|apply cb_start_ok]. cbn [app] in E.
  destruct (clip_finish C b _ E) as [[H _]|[_ (key & H)]]; [exact H|]. specialize (HK key). lia.
Qed.
