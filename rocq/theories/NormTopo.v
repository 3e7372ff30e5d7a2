(** * NormTopo: normalizing whole topologies *)
From Verif Require Import GeoProofs TopoProofs BuildProofs.
From Verif Require Export NormJoin.

(** ** What the code sees of an edge *)

Lemma in_uses_region {D} (rs : list (topo_region D)) i rr : In (i, rr) (uses rs) <->
  exists rg r, nth_error rs (rr_region rr) = Some rg /\
    nth_error (match rr_side rr with Outer => tg_outer rg | Inner => tg_inner rg end) (rr_index rr) = Some r /\
    In i (map de_edge (tr_des r)).
Proof.
  assert (X : forall n s rings, In (i, rr) (flat_map (uses_ring n s) (enumerate rings)) <->
     rr_region rr = n /\ rr_side rr = s /\
     exists r, nth_error rings (rr_index rr) = Some r /\ In i (map de_edge (tr_des r))).
  { intros n s rings. rewrite in_flat_map. split.
    - intros ((k & r) & Hk & Hi). apply in_enumerate in Hk. unfold uses_ring in Hi. cbn [fst snd] in Hi.
      apply in_map_iff in Hi as (d & [= <- <-] & Hd). cbn. split; [reflexivity|]. split; [reflexivity|].
      exists r. split; [assumption|]. apply in_map. assumption.
    - intros (Er & Es & r & Hr & Hi). exists (rr_index rr, r). split; [apply in_enumerate; assumption|].
      unfold uses_ring. cbn [fst snd]. apply in_map_iff in Hi as (d & <- & Hd). apply in_map_iff. exists d. split; [|assumption].
      f_equal. destruct rr as [a b c]. cbn in *. congruence. }
  unfold uses. rewrite in_flat_map. split.
  - intros ((n & rg) & Hn & Hu). apply in_enumerate in Hn. unfold uses_region in Hu. cbn [fst snd] in Hu.
    apply in_app_iff in Hu as [Hu|Hu]; apply X in Hu as (E1 & E2 & r & Hr & Hi); exists rg, r; rewrite E1, E2; auto.
  - intros (rg & r & Hg & Hr & Hi). exists (rr_region rr, rg). split; [apply in_enumerate; assumption|].
    unfold uses_region. cbn [fst snd]. apply in_app_iff.
    destruct (rr_side rr) eqn:Es; [left|right]; (apply X; split; [reflexivity|]; split; [reflexivity|]; exists r; split; assumption).
Qed.

Lemma users_in i us rr : In rr (users i us) <-> In (i, rr) us.
Proof.
  unfold users. rewrite in_map_iff. split.
  - intros ((j & r) & <- & H). apply filter_In in H as (H & E). apply Nat.eqb_eq in E. cbn in *. subst. assumption.
  - intros H. exists (i, rr). split; [reflexivity|]. apply filter_In. split; [assumption|]. apply Nat.eqb_refl.
Qed.

Lemma deref_user {D} (t : topology D) i rr : exact_references t -> In rr (users i (uses (tp_regions t))) ->
  exists r, deref_ring t rr = Ok r /\ tr_region r = Some (rr_region rr).
Proof.
  intros (H1 & _ & _) Hu. apply users_in, in_uses_region in Hu as (rg & r & Hg & Hr & _).
  exists r. unfold deref_ring, get_or. rewrite Hg. cbn [bind]. rewrite Hr. split; [reflexivity|].
  apply (H1 _ rg r Hg). apply nth_error_In in Hr. apply in_app_iff. destruct (rr_side rr); auto.
Qed.

Lemma ring_des_used {D} (t : topology D) rg r d : In rg (tp_regions t) -> In r (tg_outer rg ++ tg_inner rg) ->
  In d (tr_des r) -> exists rr, In rr (users (de_edge d) (uses (tp_regions t))).
Proof.
  intros Hg Hr Hd. apply In_nth_error in Hg as (n & Hn). apply in_app_iff in Hr as [Hr|Hr]; apply In_nth_error in Hr as (k & Hk).
  - exists (RR n Outer k). apply users_in, in_uses_region. exists rg, r. cbn. auto using in_map.
  - exists (RR n Inner k). apply users_in, in_uses_region. exists rg, r. cbn. auto using in_map.
Qed.

Lemma with_directed_edge_ok {D} (t : topology D) rg r d : exact_references t -> In rg (tp_regions t) ->
  In r (tg_outer rg ++ tg_inner rg) -> In d (tr_des r) ->
  exists e, with_directed_edge t d = Ok e /\ seen t d = [e] /\
    exists te, nth_error (tp_edges t) (de_edge d) = Some te /\ ne_points e = oriented (te_points te) (de_dir d).
Proof.
  intros X Hg Hr Hd. destruct (ring_des_used t rg r d Hg Hr Hd) as (rr & Hu).
  assert (Hlt : (de_edge d < length (tp_edges t))%nat).
  { destruct X as (_ & X & _). apply (X (de_edge d, rr)). apply users_in. assumption. }
  destruct (nth_error (tp_edges t) (de_edge d)) as [te|] eqn:He; [|apply nth_error_None in He; lia].
  pose proof X as (_ & _ & X3). destruct (X3 _ _ He) as (L2 & E0 & E1).
  unfold with_directed_edge, get_or, seen, edge_regions. rewrite He. cbn [bind]. rewrite E0, E1.
  destruct (users (de_edge d) (uses (tp_regions t))) as [|u0 us] eqn:Eu; [destruct Hu|].
  destruct (deref_user t (de_edge d) u0 X) as (r0 & Er0 & Rr0); [rewrite Eu; left; reflexivity|].
  cbn [nth_error map]. rewrite Er0. cbn [bind]. rewrite Rr0.
  destruct us as [|u1 us].
  - cbn [nth_error map bind]. eexists. split; [reflexivity|]. cbn [ne_points]. split; [destruct (de_dir d); reflexivity|].
    exists te. split; [reflexivity|]. destruct (de_dir d); reflexivity.
  - destruct (deref_user t (de_edge d) u1 X) as (r1 & Er1 & Rr1); [rewrite Eu; right; left; reflexivity|].
    cbn [nth_error map]. rewrite Er1. cbn [bind]. rewrite Rr1. eexists. split; [reflexivity|]. cbn [ne_points].
    split; [destruct (de_dir d); reflexivity|]. exists te. split; [reflexivity|]. destruct (de_dir d); reflexivity.
Qed.

Lemma seen_ring_ok {D} (t : topology D) rg r : exact_references t -> In rg (tp_regions t) ->
  In r (tg_outer rg ++ tg_inner rg) -> mmap (with_directed_edge t) (tr_des r) = Ok (seen_ring t r).
Proof.
  intros X Hg Hr. unfold seen_ring.
  assert (H : forall ds, incl ds (tr_des r) -> mmap (with_directed_edge t) ds = Ok (flat_map (seen t) ds)).
  { induction ds as [|d ds IH]; intros Hi; [reflexivity|]. cbn [mmap flat_map].
    destruct (with_directed_edge_ok t rg r d X Hg Hr) as (e & -> & -> & _); [apply Hi; left; reflexivity|].
    cbn [bind app]. rewrite IH; [reflexivity|]. intros x Hx. apply Hi. right. assumption. }
  apply H. apply incl_refl.
Qed.

Lemma normalize_ring_eq {D} m (t : topology D) o rg r : exact_references t -> In rg (tp_regions t) ->
  In r (tg_outer rg ++ tg_inner rg) -> normalize_ring m t o r = tidy_ring m o (seen_ring t r).
Proof. intros X Hg Hr. unfold normalize_ring. rewrite (seen_ring_ok t rg r X Hg Hr). reflexivity. Qed.

Definition lengthy (es : list norm_edge) : Prop := Forall (fun e => has_length (ne_points e) = true) es.

Lemma has_length_2 ps : has_length ps = true -> (2 <= length ps)%nat.
Proof. destruct ps as [|a [|b ps]]; cbn; try discriminate. intros _. lia. Qed.

Lemma has_length_3 ps : (3 <= length ps)%nat -> has_length ps = true.
Proof. destruct ps as [|a [|b [|c ps]]]; cbn; try reflexivity; lia. Qed.

Lemma seen_ring_lengthy {D} (t : topology D) r : valid t -> lengthy (seen_ring t r).
Proof.
  intros (X & HL & _). apply Forall_forall. intros e He. apply in_flat_map in He as (d & Hd & He).
  unfold seen in He. destruct (nth_error (tp_edges t) (de_edge d)) as [te|] eqn:Et; [|destruct He].
  destruct He as [<-|[]]. cbn [ne_points]. apply nth_error_In in Et. specialize (HL _ Et).
  destruct (de_dir d); cbn [oriented]; [assumption|].
  destruct (te_points te) as [|a [|b [|c l]]]; try discriminate.
  - cbn in *. rewrite pt_eqb_sym. assumption.
  - apply has_length_3. rewrite rev_length. cbn. lia.
Qed.

Lemma lengthy_long es : lengthy es -> long (map ne_points es).
Proof.
  intros H. apply (Forall_map ne_points). eapply Forall_impl; [|exact H]. intros e He. apply has_length_2. assumption.
Qed.

Lemma seen_ring_good {D} (t : topology D) rg r : valid t -> In rg (tp_regions t) ->
  In r (tg_outer rg ++ tg_inner rg) -> good (seen_ring t r).
Proof.
  intros V Hg Hr. pose proof (seen_ring_lengthy t r V) as HL. destruct V as (X & _ & V3).
  destruct (V3 rg r Hg Hr) as (Nd & HC). split; [|split; [apply lengthy_long; assumption|assumption]].
  destruct (tr_des r) as [|d ds] eqn:Ed; [congruence|].
  destruct (with_directed_edge_ok t rg r d X Hg Hr) as (e & _ & E & _); [rewrite Ed; left; reflexivity|].
  unfold seen_ring. rewrite Ed. cbn [flat_map]. rewrite E. discriminate.
Qed.

Lemma joined_lengthy es out : lengthy es -> joined es out -> lengthy out.
Proof.
  intros HL (runs & R & HF). apply (Permutation_Forall (rotation_perm _ _ R)) in HL. clear R.
  induction HF as [|run e runs out Hj HF IH]; [constructor|]. cbn [concat] in HL. apply Forall_app in HL as (H1 & H2).
  constructor; [|exact (IH H2)]. destruct Hj as (Ne & _ & ->). destruct run as [|x [|y run]]; [congruence| |].
  - inversion H1; subst. unfold walk. cbn. rewrite app_nil_r. assumption.
  - inversion H1 as [|? ? Hx H1']; subst. inversion H1' as [|? ? Hy _]; subst.
    apply has_length_3. apply has_length_2 in Hx, Hy. unfold walk. cbn [map glue concat]. rewrite !app_length.
    destruct (ne_points y); cbn in *; lia.
Qed.

Lemma close_length c : c <> [] -> length (close c) = S (length c).
Proof. destruct c; [congruence|]. intros _. cbn [close]. rewrite app_length. cbn. lia. Qed.

Lemma tidied_lengthy base out : good base -> lengthy base -> tidied base out -> lengthy out.
Proof.
  intros G HL [H|(e & e' & H & -> & _ & T)]; [eapply joined_lengthy; eassumption|].
  destruct (joined_facts _ _ G H) as (G' & _). apply (joined_lengthy base [e] HL) in H.
  inversion H as [|? ? He _]; subst. constructor; [|constructor].
  destruct (good_single e G') as (c & Nc & Ec). apply turned_inv in T as (c1 & c2 & R & E1 & E2).
  rewrite Ec in E1. apply close_inj in E1 as <-. apply rotation_length in R. rewrite Ec in He.
  apply has_length_3. rewrite E2, close_length by (intros ->; destruct c; [congruence|discriminate]). rewrite <- R.
  destruct c as [|a [|b c]]; [congruence| |cbn; lia]. cbn in He. rewrite pt_eqb_refl in He. discriminate.
Qed.

Lemma flipped_lengthy es : lengthy es -> lengthy (flipped es).
Proof.
  intros H. apply Forall_forall. intros e He. apply in_flipped in He as (f & Hf & _ & ->).
  unfold lengthy in H. rewrite Forall_forall in H. specialize (H f Hf). destruct (ne_points f) as [|a [|b [|c l]]]; try discriminate.
  - cbn in *. rewrite pt_eqb_sym. assumption.
  - apply has_length_3. rewrite rev_length. cbn. lia.
Qed.

(** ** One side of a region *)

Lemma Forall2_mmap {A B} (f : A -> res B) (P : A -> B -> Prop) l bs :
  mmap f l = Ok bs -> (forall a b, In a l -> f a = Ok b -> P a b) -> Forall2 P l bs.
Proof.
  intros H HP. apply mmap_Ok_inv in H. induction H as [|a b l bs E HF IH]; constructor.
  - apply HP; [left; reflexivity|assumption].
  - apply IH. intros x y Hx. apply HP. right. assumption.
Qed.

(** What a normalized ring satisfies, with its winding. *)
Definition ring_fact {D} (t : topology D) (o : winding) (r : topo_ring) (out : list norm_edge) : Prop :=
  normal_ring t r out /\ good out /\ lengthy out /\
  wrap_i64 (shoelaces (map ne_points (seen_ring t r))) <> 0 /\
  Z.abs (shoelaces (map ne_points out)) = Z.abs (shoelaces (map ne_points (seen_ring t r))) /\
  (Z.abs (shoelaces (map ne_points (seen_ring t r))) < 2 ^ 63 -> winds o (map ne_points out)).

Lemma normalize_ring_fact {D} m (t : topology D) o rg r out : valid t -> In rg (tp_regions t) ->
  In r (tg_outer rg ++ tg_inner rg) -> normalize_ring m t o r = Ok out -> ring_fact t o r out.
Proof.
  intros V Hg Hr H. rewrite (normalize_ring_eq m t o rg r (proj1 V) Hg Hr) in H.
  pose proof (seen_ring_good t rg r V Hg Hr) as G.
  destruct (tidy_ring_ok m o _ _ G H) as (base & HB & T & F & S & Z & W).
  assert (Gb : good base) by (destruct HB as [->| ->]; [assumption|apply flipped_good; assumption]).
  assert (Lb : lengthy base) by (destruct HB as [->| ->]; [|apply flipped_lengthy]; apply seen_ring_lengthy; assumption).
  destruct (good_tidied _ _ Gb T) as (Go & _ & Ao). split; [|split; [assumption|split]].
  - exists base. split; [assumption|]. split; [assumption|]. split; assumption.
  - apply (tidied_lengthy base); assumption.
  - split; [assumption|]. split; [|assumption]. rewrite Ao. destruct HB as [->| ->]; [reflexivity|].
    rewrite flipped_area. apply Z.abs_opp.
Qed.

Lemma useful_lengthy r : lengthy r -> lengthy (useful r).
Proof. unfold lengthy. rewrite !Forall_forall. intros H e He. apply filter_In in He as (He & _). auto. Qed.

Lemma pool_lengthy rs : Forall lengthy rs -> lengthy (pool rs).
Proof.
  intros H. apply Forall_forall. intros e He. apply in_concat in He as (l & Hl & He).
  apply in_map_iff in Hl as (r & <- & Hr). apply filter_In in Hr as (Hr & _). rewrite Forall_forall in H.
  specialize (useful_lengthy r (H r Hr)). unfold lengthy. rewrite Forall_forall. auto.
Qed.

(** The side of a region, with what is known of its rings. *)
Definition side_fact {D} (t : topology D) (o : winding) (rs : list topo_ring) (outs : list (list norm_edge)) : Prop :=
  exists nrs cycles ms,
    Forall2 (ring_fact t o) rs nrs /\
    cycles_of (pool nrs) cycles /\ Forall2 from_cycle cycles ms /\
    Permutation outs (untouched nrs ++ ms) /\
    in_order (map (map ne_points) outs) /\
    Forall good ms /\ Forall lengthy ms /\ traversable (pool nrs).

Lemma Forall_in_incl {A} (P : A -> Prop) l l' : incl l' l -> Forall P l -> Forall P l'.
Proof. rewrite !Forall_forall. auto. Qed.

Lemma normalize_side_fact {D} m (t : topology D) o rg rs out : valid t -> In rg (tp_regions t) ->
  incl rs (tg_outer rg ++ tg_inner rg) -> normalize_region_rings m t rs o = Ok out ->
  exists outs, out = map into_ring outs /\ side_fact t o rs outs.
Proof.
  intros V Hg Hi. unfold normalize_region_rings.
  destruct (mmap (normalize_ring m t o) rs) as [nrs|] eqn:E1; [|discriminate]. cbn [bind].
  pose proof (Forall2_mmap _ (ring_fact t o) _ _ E1) as F1. specialize (F1 (fun r e Hr => normalize_ring_fact m t o rg r e V Hg (Hi r Hr))).
  assert (G : Forall good nrs).
  { clear -F1. induction F1; constructor; [apply H|assumption]. }
  assert (HL : Forall lengthy nrs).
  { clear -F1. induction F1; constructor; [apply H|assumption]. }
  unfold norm_ring in *. destruct (join_adjacent_rings nrs) as [js|] eqn:E2; [|discriminate]. cbn [bind].
  destruct (join_adjacent_ok nrs js G E2) as (cycles & ms & C & F2 & P & T).
  assert (Lp : longs (pool nrs)) by (apply lengthy_long, pool_lengthy; assumption).
  destruct (cycles_good _ _ _ Lp C F2) as (Gc & Gm).
  assert (Lm : Forall lengthy ms).
  { destruct C as (PC & _). assert (Lc : Forall lengthy cycles).
    { apply Permutation_sym in PC. pose proof (pool_lengthy nrs HL) as Hp.
      apply (Permutation_Forall PC) in Hp. clear -Hp. induction cycles; [constructor|].
      cbn [concat] in Hp. apply Forall_app in Hp as (H1 & H2). constructor; auto. }
    clear -Gc Lc F2. induction F2 as [|c o cs ms (T & _) F2 IH]; [constructor|]. inversion Gc; subst. inversion Lc; subst.
    constructor; [eapply tidied_lengthy; eassumption|auto]. }
  destruct (sort_rings_ok js) as (s & Es & Ps & S).
  { eapply Permutation_Forall; [symmetry; exact P|]. apply Forall_app.
    split; (eapply Forall_impl; [apply good_keys|]); [apply untouched_good|]; assumption. }
  unfold norm_ring in *. rewrite Es. cbn [bind]. intros [= <-]. exists s. split; [reflexivity|].
  exists nrs, cycles, ms. split; [assumption|]. split; [assumption|]. split; [assumption|].
  split; [rewrite <- Ps; assumption|]. auto.
Qed.

Lemma normalize_region_fact {D} m (t : topology D) rg g : valid t -> In rg (tp_regions t) ->
  normalize_region m t rg = Ok g ->
  exists outs ins, g = Region (tg_data rg) (map into_ring outs) (map into_ring ins) /\
    side_fact t Clockwise (tg_outer rg) outs /\ side_fact t CounterClockwise (tg_inner rg) ins.
Proof.
  intros V Hg. unfold normalize_region.
  destruct (normalize_region_rings m t (tg_outer rg) Clockwise) as [o|] eqn:Eo; [|discriminate]. cbn [bind].
  destruct (normalize_region_rings m t (tg_inner rg) CounterClockwise) as [i|] eqn:Ei; [|discriminate]. cbn [bind].
  intros [= <-]. apply (normalize_side_fact m t _ rg) in Eo as (outs & -> & So); [|assumption|assumption|].
  2:{ intros x Hx. apply in_app_iff. auto. }
  apply (normalize_side_fact m t _ rg) in Ei as (ins & -> & Si); [|assumption|assumption|].
  2:{ intros x Hx. apply in_app_iff. auto. }
  exists outs, ins. auto.
Qed.

(** ** Whole topologies *)

Lemma normalize_loop {D} m (t : topology D) rgs : forall b,
  mfold (fun b rg => g <- normalize_region m t rg ;; add_region m b g) rgs b =
  match mmap (normalize_region m t) rgs with
  | Ok gs => add_regions m b gs
  | Panic p => mfold (fun b rg => g <- normalize_region m t rg ;; add_region m b g) rgs b
  end.
Proof.
  induction rgs as [|rg rgs IH]; intros b; cbn [mfold mmap]; [reflexivity|].
  destruct (normalize_region m t rg) as [g|p]; cbn [bind]; [|reflexivity].
  destruct (mmap (normalize_region m t) rgs) as [gs|p] eqn:E; cbn [bind]; [|reflexivity].
  unfold add_regions. cbn [mfold]. destruct (add_region m b g) as [b'|]; [|reflexivity]. cbn [bind].
  rewrite IH. reflexivity.
Qed.

Lemma normalize_loop_panic {D} m (t : topology D) rgs : forall b p,
  mmap (normalize_region m t) rgs = Panic p ->
  exists p', mfold (fun b rg => g <- normalize_region m t rg ;; add_region m b g) rgs b = Panic p'.
Proof.
  induction rgs as [|rg rgs IH]; intros b p; cbn [mfold mmap]; [discriminate|].
  destruct (normalize_region m t rg) as [g|q]; cbn [bind]; [|eauto].
  destruct (mmap (normalize_region m t) rgs) as [gs|q] eqn:E; cbn [bind]; [discriminate|]. intros _.
  destruct (add_region m b g) as [b'|q']; cbn [bind]; [|eauto]. eapply IH. reflexivity.
Qed.

Lemma normalize_Ok {D} m (t t' : topology D) : normalize m t = Ok t' <->
  exists gs, mmap (normalize_region m t) (tp_regions t) = Ok gs /\ build_topology m gs = Ok t'.
Proof.
  unfold normalize, build_topology. split.
  - destruct (mmap (normalize_region m t) (tp_regions t)) as [gs|p] eqn:E.
    + rewrite normalize_loop, E. intros H. exists gs. auto.
    + destruct (normalize_loop_panic m t (tp_regions t) builder_new p E) as (p' & ->). discriminate.
  - intros (gs & E & H). rewrite normalize_loop, E. exact H.
Qed.

Lemma expected_into_ring r : lengthy r -> expected_ring (into_ring r) = as_read r.
Proof.
  intros H. unfold expected_ring, into_ring, as_read. cbn [paths]. f_equal.
  induction H as [|e r He H IH]; [reflexivity|]. cbn [map filter]. rewrite He, IH. reflexivity.
Qed.

Lemma side_lengthy {D} (t : topology D) o rs outs : side_fact t o rs outs -> Forall lengthy outs /\ Forall good outs.
Proof.
  intros (nrs & cycles & ms & F1 & _ & _ & P & _ & G & L & _).
  assert (A : Forall lengthy nrs /\ Forall good nrs).
  { clear -F1. induction F1 as [|a b l l' H F IH]; [split; constructor|]. destruct IH. split; constructor; try apply H; assumption. }
  apply Permutation_sym in P. split; (eapply Permutation_Forall; [exact P|]); apply Forall_app; (split; [|assumption]);
    (eapply Forall_in_incl; [|apply A]); intros x Hx; apply filter_In in Hx; tauto.
Qed.

Lemma expected_side {D} (t : topology D) o rs outs : side_fact t o rs outs ->
  map expected_ring (filter has_area (map into_ring outs)) =
  map as_read (filter (fun r => has_area (into_ring r)) outs).
Proof.
  intros H. apply side_lengthy in H as (L & _). induction L as [|r outs Hr L IH]; [reflexivity|].
  cbn [map filter]. destruct (has_area (into_ring r)); [|assumption]. cbn [map]. rewrite expected_into_ring, IH by assumption.
  reflexivity.
Qed.

(** The shapes of the normalized topology, region by region. *)
Lemma normalize_parts {D} m (t t' : topology D) : valid t -> normalize m t = Ok t' ->
  exists parts, read_topology t' = concat parts /\
    Forall2 (fun rg part => exists outs ins,
      side_fact t Clockwise (tg_outer rg) outs /\ side_fact t CounterClockwise (tg_inner rg) ins /\
      part = match filter (fun r => has_area (into_ring r)) outs with
             | [] => []
             | os => [Shape (tg_data rg) (map as_read os)
                            (map as_read (filter (fun r => has_area (into_ring r)) ins))]
             end) (tp_regions t) parts.
Proof.
  intros V H. apply normalize_Ok in H as (gs & E & H). apply build_read in H. exists (map expected_region gs).
  split.
  - rewrite H. unfold expected. clear. induction gs; cbn; [reflexivity|]. f_equal. assumption.
  - assert (F : Forall2 (fun rg g => exists outs ins, g = Region (tg_data rg) (map into_ring outs) (map into_ring ins) /\
       side_fact t Clockwise (tg_outer rg) outs /\ side_fact t CounterClockwise (tg_inner rg) ins) (tp_regions t) gs).
    { eapply Forall2_mmap; [exact E|]. intros rg g Hg Hr. eapply normalize_region_fact; eassumption. }
    clear -F. induction F as [|rg g rgs gs (outs & ins & -> & So & Si) F IH]; cbn [map]; constructor; [|assumption].
    exists outs, ins. split; [assumption|]. split; [assumption|].
    unfold expected_region. cbn [rg_outer rg_inner rg_data].
    rewrite (expected_side _ _ _ _ Si).
    pose proof (expected_side _ _ _ _ So) as X.
    destruct (filter has_area (map into_ring outs)) as [|a l] eqn:Ea;
      destruct (filter (fun r => has_area (into_ring r)) outs) as [|b k] eqn:Eb; try discriminate; [reflexivity|].
    rewrite X. reflexivity.
Qed.

(** ** Regions without redundant edges *)

Lemma in_seen_label {D} (t : topology D) r base out e : normal_ring t r out -> In e out ->
  base = seen_ring t r -> exists f, In f base /\ label e = label f.
Proof.
  intros (b & HB & (T & _)) He ->. destruct (proj2 (tidied_labels _ _ T) e He) as (f & Hf & L).
  destruct HB as [->| ->]; [eauto|]. apply in_flipped in Hf as (g & Hg & Lg & _). exists g. split; [assumption|congruence].
Qed.

Lemma plain_side {D} (t : topology D) o rs outs :
  (forall r e, In r rs -> In e (seen_ring t r) -> ~ redundant e) -> side_fact t o rs outs ->
  exists nrs, Forall2 (ring_fact t o) rs nrs /\ Permutation outs nrs /\ in_order (map (map ne_points) outs).
Proof.
  intros N (nrs & cycles & ms & F1 & C & F2 & P & S & _). exists nrs. split; [assumption|]. split; [|assumption].
  assert (U : Forall (Forall (fun e => ~ redundant e)) nrs).
  { clear -F1 N. induction F1 as [|r out rs nrs H F IH]; constructor.
    - apply Forall_forall. intros e He R. destruct H as (H & _).
      destruct (in_seen_label t r _ out e H He eq_refl) as (f & Hf & L). apply (N r f); [left; reflexivity|assumption|].
      eapply label_redundant; eassumption.
    - apply IH. intros x e Hx. apply N. right. assumption. }
  apply untouched_all in U as (EU & EP). rewrite EU, EP in *. destruct C as (PC & FC).
  apply Permutation_sym, Permutation_nil in PC. destruct cycles as [|c cycles].
  - inversion F2; subst. rewrite app_nil_r in P. assumption.
  - exfalso. inversion FC as [|? ? (Nc & _) _]; subst. cbn in PC. apply app_eq_nil in PC as (PC & _). congruence.
Qed.

Lemma ring_fact_area {D} (t : topology D) o r out : ring_fact t o r out -> has_area (into_ring out) = true.
Proof.
  intros ((base & HB & (T & _)) & _ & _ & Z & A & _). unfold has_area. cbn [into_ring ring_area].
  apply negb_true_iff, Z.eqb_neq. intros E. apply Z. apply wrap_zero.
  assert (X : forall a b, Z.abs a = Z.abs b -> a mod 2 ^ 64 = 0 -> b mod 2 ^ 64 = 0).
  { intros a b Hab Ha. apply Z.mod_divide in Ha; [|lia]. apply Z.mod_divide; [lia|]. apply Z.divide_abs_r. rewrite <- Hab.
    apply Z.divide_abs_r. assumption. }
  eapply X; [|exact E]. assumption.
Qed.

Lemma filter_true {A} (f : A -> bool) l : Forall (fun a => f a = true) l -> filter f l = l.
Proof. induction 1 as [|a l H HF IH]; cbn; [reflexivity|]. rewrite H, IH. reflexivity. Qed.

Lemma plain_side_areas {D} (t : topology D) o rs outs nrs :
  Forall2 (ring_fact t o) rs nrs -> Permutation outs nrs ->
  filter (fun r => has_area (into_ring r)) outs = outs.
Proof.
  intros F P. apply filter_true. eapply Permutation_Forall; [symmetry; exact P|].
  clear -F. induction F; constructor; [eapply ring_fact_area; eassumption|assumption].
Qed.

(** The main result for regions without redundant edges. *)
Lemma normalize_plain {D} m (t t' : topology D) : valid t -> normalize m t = Ok t' ->
  exists parts, read_topology t' = concat parts /\
    Forall2 (fun rg part => nothing_redundant t rg -> tg_outer rg <> [] ->
      exists outs ins nouts nins,
        part = [Shape (tg_data rg) (map as_read outs) (map as_read ins)] /\
        Forall2 (ring_fact t Clockwise) (tg_outer rg) nouts /\ Permutation outs nouts /\ in_order (map (map ne_points) outs) /\
        Forall2 (ring_fact t CounterClockwise) (tg_inner rg) nins /\ Permutation ins nins /\ in_order (map (map ne_points) ins))
      (tp_regions t) parts.
Proof.
  intros V H. destruct (normalize_parts m t t' V H) as (parts & E & F). exists parts. split; [assumption|].
  eapply Forall2_impl'; [|exact F]. intros rg part (outs & ins & So & Si & ->) N Ne.
  destruct (plain_side t Clockwise (tg_outer rg) outs) as (nouts & F1 & P1 & O1); [intros r e Hr; apply N; apply in_app_iff; auto|assumption|].
  destruct (plain_side t CounterClockwise (tg_inner rg) ins) as (nins & F2 & P2 & O2); [intros r e Hr; apply N; apply in_app_iff; auto|assumption|].
  rewrite (plain_side_areas _ _ _ _ _ F1 P1), (plain_side_areas _ _ _ _ _ F2 P2).
  exists outs, ins, nouts, nins. split; [|auto 10].
  destruct outs; [|reflexivity]. exfalso. apply Permutation_nil in P1. subst. inversion F1. congruence.
Qed.

(** Built topologies are valid. *)
Lemma read_seen {D} (t : topology D) r : (forall d, In d (tr_des r) -> (de_edge d < length (tp_edges t))%nat) ->
  read_ring (tp_edges t) r = map Some (map ne_points (seen_ring t r)).
Proof.
  unfold read_ring, seen_ring. induction (tr_des r) as [|d ds IH]; intros H; [reflexivity|]. cbn [map flat_map].
  rewrite !map_app. rewrite IH by (intros x Hx; apply H; right; assumption). unfold read_de, seen.
  destruct (nth_error (tp_edges t) (de_edge d)) eqn:E; [reflexivity|].
  apply nth_error_None in E. specialize (H d (or_introl eq_refl)). lia.
Qed.

Lemma map_Some_inj {A} (a b : list A) : map Some a = map Some b -> a = b.
Proof. revert b. induction a as [|x a IH]; intros [|y b]; cbn; try discriminate; [reflexivity|]. intros [= -> E]. f_equal. auto. Qed.

Lemma built_valid {D} m (rs : list (region D)) t :
  (forall x r, In x rs -> In r (rg_outer x ++ rg_inner x) -> closed_ring r) ->
  build_topology m rs = Ok t -> valid t.
Proof.
  intros Hc H. pose proof (build_topology_ok m rs t H) as (b & Hb & Hids & X & Hr & He). split; [assumption|]. split.
  - intros e Hin. apply (in_map te_points) in Hin. rewrite He in Hin. destruct Hb as ((_ & _ & Hl) & _).
    rewrite Forall_forall in Hl. destruct (Hl _ Hin) as (ps & Hp & E). rewrite E. clear -Hp.
    assert (P : stored_form ps = ps \/ stored_form ps = rev ps).
    { unfold stored_form. destruct ps; [auto|]. destruct (_ || _); [auto|]. destruct (_ && _); auto. }
    destruct P as [->| ->]; [assumption|]. destruct ps as [|x [|y [|z l]]]; try discriminate.
    + cbn in *. rewrite pt_eqb_sym. assumption.
    + apply has_length_3. rewrite rev_length. cbn. lia.
  - intros rg r Hg Hin. destruct (build_rings_closed m rs t rg r H Hg Hin) as (x & r0 & ps & Hx & Hr0 & Eps & E & Nps & HC).
    assert (Hlt : forall d, In d (tr_des r) -> (de_edge d < length (tp_edges t))%nat).
    { intros d Hd. destruct (ring_des_used t rg r d Hg Hin Hd) as (rr & Hu). destruct X as (_ & X & _).
      apply (X (de_edge d, rr)). apply users_in. assumption. }
    rewrite (read_seen t r Hlt) in E. apply map_Some_inj in E. rewrite E. split.
    + intros Ed. unfold seen_ring in E. rewrite Ed in E. cbn in E. congruence.
    + apply HC. eapply Hc; eassumption.
Qed.
