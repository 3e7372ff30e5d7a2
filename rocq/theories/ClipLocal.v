(** * ClipLocal: each region is clipped on its own *)
From Coq Require Import Permutation.
From Verif Require Import ClipSpec ClipTopoSpec ClipTwiceSpec GeoProofs TopoProofs BuildProofs ClipEdgeProofs ClipTopoProofs ClipTopoLaws ClipTrace.

(** The references of the rings that are looked at are valid if clipping returns. *)
Lemma loop_valid C m ds s s' : mfold (clip_ring_step m (old_of C) (finder_from 0 C)) ds s = Ok s' ->
  forall d, In d ds -> (de_edge d < length C)%nat.
Proof.
  revert s. induction ds as [|d0 ds IH]; intros s; cbn [mfold]; [intros _ ? []|].
  intros H. apply bind_Ok in H as (s1 & H1 & H). intros d [<-|Hd]; [|eapply IH; eassumption].
  apply nth_error_Some. intros E. revert H1. unfold clip_ring_step, find_old, get, get_or. rewrite finder_none by exact E. discriminate.
Qed.

Lemma clip_ring_valid C m nes r x : clip_ring m (old_of C) (finder_from 0 C) nes r = Ok x ->
  forall d, In d (tr_des r) -> (de_edge d < length C)%nat.
Proof. unfold clip_ring. intros H. apply bind_Ok in H as (s & Hs & _). eapply loop_valid, Hs. Qed.

Lemma clip_rings_valid C m nes rs x : Clip.clip_rings m (old_of C) (finder_from 0 C) nes rs = Ok x ->
  forall r, In r rs -> forall d, In d (tr_des r) -> (de_edge d < length C)%nat.
Proof.
  unfold Clip.clip_rings. generalize (@nil build_ring, nes). clear nes. induction rs as [|r rs IH]; intros [acc nes]; cbn [mfold]; [intros _ ? []|].
  cbn [snd fst]. intros H. apply bind_Ok in H as (st & H1 & H). apply bind_Ok in H1 as ([o nes1] & H1 & _).
  intros r' [<-|Hr]; [eapply clip_ring_valid, H1|eapply IH; eassumption].
Qed.

(** What the region needs of the ring list: nothing but the clipped edges and its own rings. *)
Definition can_clip {D} m C (rg : topo_region D) : Prop := forall r, In r (seen_rings C rg) ->
  (forall d, In d (tr_des r) -> (de_edge d < length C)%nat) /\ exists a, trace m (clipped_ring C r) 0 = Ok a.

Lemma cadd_region_can {D} C m (b : cbuilder D) rgs rg : cb_ok C b rgs ->
  ((exists b', cadd_region m b rg = Ok b') <-> can_clip m C rg).
Proof.
  intros Hb. split.
  - intros [b' H] r Hr. split; [|eapply cadd_region_fwd; eassumption]. revert r Hr.
    destruct Hb as (B1 & B2 & B3 & _). revert H. unfold cadd_region, seen_rings. rewrite B1, B2.
    destruct (Clip.clip_rings m (old_of C) (finder_from 0 C) (cb_new b) (tg_outer rg)) as [[outer nes1]|] eqn:E1; [|discriminate]. cbn [bind].
    destruct (clip_rings_ok C m _ _ _ _ B3 E1) as (N1 & _ & R1 & _).
    assert (EK : (0 <? length outer)%nat = region_kept C rg) by (symmetry; exact (region_kept_length C rg nes1 outer R1)).
    rewrite EK. pose proof (clip_rings_valid C m _ _ _ E1) as A1. destruct (region_kept C rg).
    + intros H. apply bind_Ok in H as ([inner nes2] & E2 & _). pose proof (clip_rings_valid C m _ _ _ E2) as A2.
      intros r Hr. apply in_app_iff in Hr as [Hr|Hr]; [exact (A1 r Hr)|exact (A2 r Hr)].
    + intros _ r. rewrite app_nil_r. apply A1.
  - intros HC. destruct Hb as (B1 & B2 & B3 & _). unfold cadd_region. rewrite B1, B2. unfold can_clip, seen_rings in HC.
    destruct (clip_rings_back C m (cb_new b) (tg_outer rg)) as ([outer nes1] & E1).
    { intros r Hr. apply HC, in_or_app. auto. } { intros r Hr. apply HC, in_or_app. auto. }
    rewrite E1. cbn [bind].
    destruct (clip_rings_ok C m _ _ _ _ B3 E1) as (N1 & _ & R1 & _).
    assert (EK : (0 <? length outer)%nat = region_kept C rg) by (symmetry; exact (region_kept_length C rg nes1 outer R1)).
    rewrite EK. destruct (region_kept C rg); [|eauto].
    destruct (clip_rings_back C m nes1 (tg_inner rg)) as ([inner nes2] & E2).
    { intros r Hr. apply HC, in_or_app. auto. } { intros r Hr. apply HC, in_or_app. auto. }
    rewrite E2. cbn [bind]. eauto.
Qed.

Lemma cadd_regions_can {D} C m (rgs rgs0 : list (topo_region D)) b : cb_ok C b rgs0 ->
  ((exists b', mfold (cadd_region m) rgs b = Ok b') <-> Forall (can_clip m C) rgs).
Proof.
  revert rgs0 b. induction rgs as [|rg rgs IH]; intros rgs0 b Hb; cbn [mfold]; [split; eauto|]. split.
  - intros [b' H]. apply bind_Ok in H as (b1 & H1 & H). constructor.
    + eapply cadd_region_can; eauto.
    + eapply (IH _ b1); [eapply cadd_region_ok; eassumption|eauto].
  - intros HF. inversion HF as [|? ? Hg HF']; subst. apply (proj2 (cadd_region_can C m b rgs0 rg Hb)) in Hg as [b1 E1]. rewrite E1. cbn [bind].
    eapply IH; [eapply cadd_region_ok; eassumption|exact HF'].
Qed.

(** Clipping returns exactly if every region can be clipped and no line is used three times. *)
Lemma clip_returns_iff {D} m (t : topology D) k C : clips m k t C ->
  ((exists t', clip_topology m t k = Ok t') <->
   Forall (can_clip m C) (tp_regions t) /\ (forall key, (count_key key (surviving_pieces C (tp_regions t)) <= 2)%nat)).
Proof.
  intros HC. unfold clip_topology, cbuilder_new. rewrite (clip_edges_back m k _ C HC). cbn [bind].
  pose proof (cadd_regions_can C m (tp_regions t) [] _ (cb_start_ok C)) as HR. unfold nes_start in HR. split.
  - intros [t' H]. apply bind_Ok in H as (b & Hb & H). split; [apply HR; eauto|].
    apply (cadd_regions_ok C m (tp_regions t) []) in Hb; [|apply cb_start_ok]. cbn [app] in Hb.
    destruct (clip_finish C b _ Hb) as [[_ HK]|[E _]]; [exact HK|congruence].
  - intros [HF HK]. apply HR in HF as [b E]. rewrite E. cbn [bind].
    apply (cadd_regions_ok C m (tp_regions t) []) in E; [|apply cb_start_ok]. cbn [app] in E.
    destruct (clip_finish C b _ E) as [[H _]|[_ (key & H)]]; [exact H|]. specialize (HK key). lia.
Qed.

Lemma surviving_app {D} C (a b : list (topo_region D)) : surviving_pieces C (a ++ b) = surviving_pieces C a ++ surviving_pieces C b.
Proof. unfold surviving_pieces. rewrite filter_app, flat_map_app. reflexivity. Qed.

Lemma surviving_perm {D} C (a b : list (topo_region D)) : Permutation a b -> Permutation (surviving_pieces C a) (surviving_pieces C b).
Proof.
  unfold surviving_pieces. intros H. apply Permutation_flat_map.
  induction H as [|x l l' H IH|x y l|l l' l'' H1 IH1 H2 IH2]; cbn [filter]; [constructor| | |etransitivity; eassumption].
  - destruct (region_kept C x); [constructor|]; exact IH.
  - destruct (region_kept C x), (region_kept C y); try apply Permutation_refl. constructor.
Qed.

Lemma count_key_perm key a b : Permutation a b -> count_key key a = count_key key b.
Proof. intros H. unfold count_key. apply Permutation_count_occ, Permutation_map, H. Qed.

Lemma count_key_app key a b : count_key key (a ++ b) = (count_key key a + count_key key b)%nat.
Proof. unfold count_key. rewrite map_app. apply count_occ_app. Qed.

Lemma clipped_flat {D} C (t : topology D) :
  clipped_topology C t = flat_map (fun rg => if region_kept C rg then [clipped_shape C rg] else []) (tp_regions t).
Proof.
  unfold clipped_topology. induction (tp_regions t) as [|rg l IH]; [reflexivity|]. cbn [filter flat_map].
  destruct (region_kept C rg); cbn [map app]; rewrite IH; reflexivity.
Qed.

Lemma clip_reads {D} m k (t t' : topology D) C : clips m k t C -> clip_topology m t k = Ok t' -> read_topology t' = clipped_topology C t.
Proof.
  intros HC H. apply clip_topology_ok in H as (C' & b & HC' & Hb & _ & HR & HE).
  rewrite (clips_unique m k t C C' HC HC'). eapply clip_read; eassumption.
Qed.

Lemma clip_local {D} m k (t t' : topology D) : clip_topology m t k = Ok t' ->
  exists f : topo_region D -> list (shape D), forall rgs others, Permutation (rgs ++ others) (tp_regions t) ->
    exists s, clip_topology m (Topology rgs (tp_edges t)) k = Ok s /\ read_topology s = flat_map f rgs.
Proof.
  intros H. pose proof (clip_topology_traced m t t' k H) as (C & _ & HC & _).
  exists (fun rg => if region_kept C rg then [clipped_shape C rg] else []). intros rgs others HP.
  pose proof (proj1 (clip_returns_iff m t k C HC) (ex_intro _ t' H)) as [HF HK].
  assert (HC' : clips m k (Topology rgs (tp_edges t)) C) by exact HC.
  destruct (proj2 (clip_returns_iff m _ k C HC')) as [s E].
  { cbn [tp_regions]. split.
    - rewrite Forall_forall in *. intros x Hx. apply HF. eapply Permutation_in; [exact HP|]. apply in_or_app. auto.
    - intros key. specialize (HK key). rewrite <- (count_key_perm key _ _ (surviving_perm C _ _ HP)), surviving_app, count_key_app in HK. lia. }
  exists s. split; [exact E|]. rewrite (clip_reads m k _ s C HC' E), clipped_flat. reflexivity.
Qed.

Lemma clip_together {D} m k (t : topology D) : tp_regions t <> [] ->
  (forall rg, In rg (tp_regions t) -> exists s, clip_topology m (Topology [rg] (tp_edges t)) k = Ok s) ->
  (exists t', clip_topology m t k = Ok t') \/ clip_topology m t k = Panic PAssert.
Proof.
  intros Hn H. assert (HC : exists C, clips m k t C).
  { destruct (tp_regions t) as [|rg l]; [congruence|]. destruct (H rg (or_introl eq_refl)) as [s E].
    apply clip_topology_traced in E as (C & _ & HC & _). exists C. exact HC. }
  destruct HC as [C HC].
  assert (HF : Forall (can_clip m C) (tp_regions t)).
  { rewrite Forall_forall. intros rg Hg. apply H in Hg. apply (clip_returns_iff m _ k C) in Hg as [Hg _]; [|exact HC].
    inversion Hg; assumption. }
  unfold clip_topology, cbuilder_new. rewrite (clip_edges_back m k _ C HC). cbn [bind].
  pose proof (proj2 (cadd_regions_can C m (tp_regions t) [] _ (cb_start_ok C)) HF) as [b E]. unfold nes_start in E. rewrite E. cbn [bind].
  apply (cadd_regions_ok C m (tp_regions t) []) in E; [|apply cb_start_ok]. cbn [app] in E.
  destruct (clip_finish C b _ E) as [[Ht _]|[Ht _]]; auto.
Qed.
