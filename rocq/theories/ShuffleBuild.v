(** * ShuffleBuild: building from regions in another order *)
From Coq Require Import Permutation.
From Verif Require Import ShuffleSpec FormSpec FormProofs RebuildProofs OrderProofs TopoProofs BuildProofs GeoProofs NormProofs NormTopo NormTwice.

(** ** Outcomes that go together *)
Definition both {A B} (P : A -> B -> Prop) (x : res A) (y : res B) : Prop :=
  match x, y with Ok a, Ok b => P a b | Panic p, Panic q => p = q | _, _ => False end.
Lemma both_bind {A B A' B'} (P : A -> B -> Prop) (Q : A' -> B' -> Prop) x y f g :
  both P x y -> (forall a b, P a b -> both Q (f a) (g b)) -> both Q (bind x f) (bind y g).
Proof. destruct x, y; cbn; intros H K; try contradiction; [apply K, H|exact H]. Qed.
Lemma both_fold {A B C E} (P : A -> B -> Prop) (R : C -> E -> Prop) f g l l' : Forall2 R l l' ->
  (forall a b c e, P a b -> R c e -> both P (f a c) (g b e)) -> forall a b, P a b -> both P (mfold f l a) (mfold g l' b).
Proof.
  intros F K. induction F as [|c e l l' H F IH]; intros a b HP; [exact HP|]. cbn [mfold]. apply (both_bind P); [apply K; assumption|]. exact IH.
Qed.
Lemma both_map {A B C E} (P : C -> E -> Prop) (R : A -> B -> Prop) f g l l' : Forall2 R l l' ->
  (forall a b, R a b -> both P (f a) (g b)) -> both (Forall2 P) (mmap f l) (mmap g l').
Proof.
  intros F K. induction F as [|a b l l' H F IH]; [constructor|]. cbn [mmap]. apply (both_bind P); [apply K, H|]. intros x y XY.
  apply (both_bind (Forall2 P)); [exact IH|]. intros xs ys XYS. constructor; assumption.
Qed.
Lemma both_refl {A} (x : res A) : both eq x x.
Proof. destruct x; reflexivity. Qed.
Lemma both_impl {A B} (P Q : A -> B -> Prop) x y : (forall a b, P a b -> Q a b) -> both P x y -> both Q x y.
Proof. intros H. destruct x, y; cbn; auto. Qed.
Lemma Forall2_eq {A} (l : list A) : Forall2 eq l l.
Proof. induction l; constructor; auto. Qed.

(** ** What the builder has seen before does not change whether it can go on *)
Lemma directed_both m em em' ps : both (fun x y => (fst x = None <-> fst y = None)) (build_directed_edge m em ps) (build_directed_edge m em' ps).
Proof.
  unfold build_directed_edge. destruct (zero_length ps); [cbn; tauto|]. apply (both_bind eq); [apply both_refl|]. intros (key & dir) b <-.
  destruct (em_find em key), (em_find em' key); cbn; split; discriminate.
Qed.
Lemma des_both m em em' es : both (fun _ _ => True) (build_des m em es) (build_des m em' es).
Proof.
  unfold build_des. apply (both_fold (fun _ _ => True) eq); [apply Forall2_eq| |exact I]. intros a b c e _ <-.
  apply (both_bind (fun _ _ => True)); [eapply both_impl; [|apply directed_both]; auto|]. intros (o & x) (o' & y) _. exact I.
Qed.
Lemma ring_both m em em' r : both (fun x y => (fst x = None <-> fst y = None)) (build_ring_of m em r) (build_ring_of m em' r).
Proof.
  unfold build_ring_of. apply (both_bind eq); [apply both_refl|]. intros a b <-. destruct (a =? 0); [cbn; tauto|].
  apply (both_bind (fun _ _ => True)); [apply des_both|]. intros (o & x) (o' & y) _. cbn. split; discriminate.
Qed.
Lemma rings_both m em em' rs : both (fun x y => length (fst x) = length (fst y)) (build_rings m em rs) (build_rings m em' rs).
Proof.
  unfold build_rings. apply (both_fold _ eq); [apply Forall2_eq| |reflexivity]. intros a b c e L <-.
  apply (both_bind (fun x y => (fst x = None <-> fst y = None))); [apply ring_both|]. intros (o & x) (o' & y) N. cbn [fst snd] in *.
  destruct o, o'; cbn; [rewrite !app_length; cbn; lia|exfalso; assert (Some b0 = None) by tauto; discriminate|exfalso; assert (Some b0 = None) by tauto; discriminate|exact L].
Qed.
Lemma region_both {D} m (b b' : builder D) rg : both (fun _ _ => True) (add_region m b rg) (add_region m b' rg).
Proof.
  unfold add_region. apply (both_bind (fun x y => length (fst x) = length (fst y))); [apply rings_both|]. intros (o & x) (o' & y) L. cbn [fst] in L. rewrite L.
  destruct (0 <? length o')%nat; [|exact I]. apply (both_bind (fun x y => length (fst x) = length (fst y))); [apply rings_both|]. intros (i & x1) (i' & y1) _. exact I.
Qed.

Lemma regions_Ok {D} m (rs : list (region D)) b : (exists b', add_regions m b rs = Ok b') <-> forall rg, In rg rs -> exists b', add_region m builder_new rg = Ok b'.
Proof.
  revert b. induction rs as [|rg rs IH]; intros b; [split; [intros _ ? []|cbn; eauto]|]. unfold add_regions in *. cbn [mfold].
  pose proof (region_both m b builder_new rg) as R. destruct (add_region m b rg) as [b1|p], (add_region m builder_new rg) as [b2|q] eqn:E; try contradiction; cbn [bind].
  - rewrite IH. split; [intros H x [<-|Hx]; [eauto|apply H, Hx]|intros H x Hx; apply H; right; exact Hx].
  - split; [intros (? & ?); discriminate|intros H; destruct (H rg (or_introl eq_refl)); congruence].
Qed.

Lemma expected_perm {D} (rs1 rs2 : list (region D)) : Permutation rs1 rs2 -> Permutation (expected rs1) (expected rs2).
Proof. apply Permutation_flat_map. Qed.
Lemma count_perm k l l' : Permutation l l' -> count_path k l = count_path k l'.
Proof.
  intros P. unfold count_path. apply Permutation_length. set (f := fun o : option (list point) => _). clearbody f.
  induction P as [|x l l' P IH|x y l|l l1 l2 P1 IH1 P2 IH2]; cbn [filter]; [constructor| | |etransitivity; eassumption].
  - destruct (f x); [constructor|]; exact IH.
  - destruct (f x), (f y); try apply Permutation_refl. constructor.
Qed.

Lemma build_perm {D} m (rs1 rs2 : list (region D)) t1 : Permutation rs1 rs2 -> build_topology m rs1 = Ok t1 -> exists t2, build_topology m rs2 = Ok t2.
Proof.
  unfold build_topology. intros P H. apply bind_Ok in H as (b1 & E1 & H).
  assert (exists b2, add_regions m builder_new rs2 = Ok b2) as (b2 & E2).
  { apply regions_Ok. intros rg Hg. apply (proj1 (regions_Ok m rs1 builder_new) (ex_intro _ b1 E1)). apply (Permutation_in rg (Permutation_sym P) Hg). }
  rewrite E2. cbn [bind]. apply (into_topology_iff m rs2 b2 E2). intros k. rewrite <- (count_perm k (all_paths (expected rs1))).
  - apply (into_topology_iff m rs1 b1 E1). eauto.
  - apply Permutation_flat_map, expected_perm, P.
Qed.

(** ** Built topologies with the same shapes in another order *)
Lemma distinct_in x l : In x (distinct l) <-> In x l.
Proof.
  induction l as [|k l IH]; [tauto|]. cbn [distinct In]. rewrite filter_In, IH. split; [tauto|]. intros [H|H]; [tauto|].
  destruct (path_eqb_spec k x) as [E|E]; [left; exact E|right; split; [exact H|reflexivity]].
Qed.
Lemma map_eq_Forall2 {A B C} (f : A -> C) (g : B -> C) l1 : forall l2, map f l1 = map g l2 ->
  Forall2 (fun a b => In a l1 /\ In b l2 /\ f a = g b) l1 l2.
Proof.
  induction l1 as [|a l1 IH]; intros [|b l2] H; try discriminate; constructor; injection H as E H; [cbn; auto|].
  eapply Forall2_impl'; [|apply IH, H]. cbn. intuition.
Qed.
Lemma read_de_points {D} (t : topology D) d p : read_de (tp_edges t) d = Some p ->
  exists e, nth_error (tp_edges t) (de_edge d) = Some e /\ oriented (te_points e) (de_dir d) = p.
Proof. unfold read_de. destruct (nth_error (tp_edges t) (de_edge d)) as [e|]; [|discriminate]. intros [= <-]. eauto. Qed.

Lemma built_edges {D} (t1 t2 : topology D) : built_form t1 -> built_form t2 -> Permutation (read_topology t1) (read_topology t2) ->
  Permutation (map te_points (tp_edges t1)) (map te_points (tp_edges t2)).
Proof.
  intros (_ & _ & K1 & _) (_ & _ & K2 & _) P. rewrite K1, K2. apply NoDup_Permutation; [apply distinct_nodup..|]. intros x. rewrite !distinct_in.
  assert (Q : Permutation (stored_forms (read_topology t1)) (stored_forms (read_topology t2))).
  { unfold stored_forms. apply Permutation_flat_map. unfold all_paths. apply Permutation_flat_map, P. }
  split; apply Permutation_in; [exact Q|apply Permutation_sym, Q].
Qed.

Lemma built_renumbered {D} (t1 t2 : topology D) : built_form t1 -> built_form t2 -> Permutation (read_topology t1) (read_topology t2) ->
  exists p s, renumbered p s t1 t2.
Proof.
  intros B1 B2 P. pose proof (built_edges t1 t2 B1 B2 P) as PE. apply Permutation_nth_error in PE as (LE & s & Is & Hs).
  apply Permutation_nth_error in P as (LR & p & Ip & Hp). exists p, s. split; [exact Ip|]. split; [exact Is|].
  unfold read_topology in LR. rewrite !map_length in LE, LR. split; [exact LR|]. split; [exact LE|].
  destruct B1 as (X1 & W1 & K1 & S1), B2 as (X2 & W2 & K2 & S2).
  assert (N1 : NoDup (map te_points (tp_edges t1))) by (rewrite K1; apply distinct_nodup).
  assert (U : forall g1 g2 r1 r2 d1 d2, In g1 (tp_regions t1) -> In g2 (tp_regions t2) -> In r1 (tg_outer g1 ++ tg_inner g1) -> In r2 (tg_outer g2 ++ tg_inner g2) ->
    In d1 (tr_des r1) -> In d2 (tr_des r2) -> read_de (tp_edges t1) d1 = read_de (tp_edges t2) d2 -> same_use s d1 d2).
  { intros g1 g2 r1 r2 d1 d2 G1 G2 R1 R2 D1 D2 E. destruct (W1 g1 G1) as [_ W1']. destruct (W1' r1 R1) as [W1'' _]. destruct (W1'' d1 D1) as (q & E1 & _).
    rewrite E1 in E. symmetry in E. apply read_de_points in E1 as (e1 & H1 & O1), E as (e2 & H2 & O2).
    pose proof (S1 g1 r1 d1 e1 G1 R1 D1 H1) as (T1 & F1). pose proof (S2 g2 r2 d2 e2 G2 R2 D2 H2) as (T2 & F2). cbv zeta in *.
    rewrite O1 in T1, F1. rewrite O2 in T2, F2. split.
    - apply (NoDup_nth_error (map te_points (tp_edges t1))); [exact N1| |].
      + apply nth_error_Some. rewrite nth_error_map, H1. discriminate.
      + rewrite <- Hs, !nth_error_map, H1, H2. cbn [option_map]. congruence.
    - destruct (de_dir d1), (de_dir d2); try reflexivity; exfalso; intuition discriminate. }
  split.
  - intros i g2 G2. specialize (Hp i). unfold read_topology in Hp. rewrite !nth_error_map, G2 in Hp. cbn [option_map] in Hp.
    destruct (nth_error (tp_regions t1) (p i)) as [g1|] eqn:G1; [|discriminate]. exists g1. split; [reflexivity|]. cbn [option_map] in Hp. injection Hp as Ed Eo Ei.
    apply nth_error_In in G1, G2.
    assert (R : forall l1 l2, incl l1 (tg_outer g1 ++ tg_inner g1) -> incl l2 (tg_outer g2 ++ tg_inner g2) ->
      map (read_ring (tp_edges t1)) l1 = map (read_ring (tp_edges t2)) l2 -> Forall2 (same_uses s) l1 l2).
    { intros l1 l2 I1 I2 E. apply map_eq_Forall2 in E. eapply Forall2_impl'; [|exact E]. intros r1 r2 (R1 & R2 & ER). apply I1 in R1. apply I2 in R2.
      unfold read_ring in ER. apply map_eq_Forall2 in ER. eapply Forall2_impl'; [|exact ER]. intros d1 d2 (D1 & D2 & DE).
      exact (U g1 g2 r1 r2 d1 d2 G1 G2 R1 R2 D1 D2 DE). }
    split; [congruence|]. split; apply R; try (intros x Hx; apply in_or_app; auto); congruence.
  - intros j e2 E2. specialize (Hs j). rewrite !nth_error_map, E2 in Hs. cbn [option_map] in Hs.
    destruct (nth_error (tp_edges t1) (s j)) as [e1|]; [|discriminate]. exists e1. split; [reflexivity|]. cbn in Hs. congruence.
Qed.

Theorem build_shuffled {D} m (rs1 rs2 : list (region D)) t1 : Permutation rs1 rs2 -> build_topology m rs1 = Ok t1 ->
  exists t2, build_topology m rs2 = Ok t2 /\ shuffled t1 t2.
Proof.
  intros P E1. destruct (build_perm m rs1 rs2 t1 P E1) as (t2 & E2). exists t2. split; [exact E2|].
  pose proof (build_built_form m rs1 t1 E1) as B1. pose proof (build_built_form m rs2 t2 E2) as B2.
  split; [apply B1|]. split; [apply B2|]. apply (built_renumbered t1 t2 B1 B2).
  rewrite (build_read m rs1 t1 E1), (build_read m rs2 t2 E2). apply expected_perm, P.
Qed.

(** ** What can be read *)
Lemma renumbered_bound {D} p s (t1 t2 : topology D) : renumbered p s t1 t2 -> bFun (length (tp_regions t2)) p /\ bFun (length (tp_edges t2)) s.
Proof.
  intros (_ & _ & L1 & L2 & G & E). split.
  - intros i Hi. destruct (nth_error (tp_regions t2) i) as [g2|] eqn:E2; [|apply nth_error_None in E2; lia].
    destruct (G i g2 E2) as (g1 & H & _). rewrite <- L1. apply nth_error_Some. congruence.
  - intros i Hi. destruct (nth_error (tp_edges t2) i) as [g2|] eqn:E2; [|apply nth_error_None in E2; lia].
    destruct (E i g2 E2) as (g1 & H & _). rewrite <- L2. apply nth_error_Some. congruence.
Qed.
Lemma read_use {D} p s (t1 t2 : topology D) d1 d2 : renumbered p s t1 t2 -> (de_edge d2 < length (tp_edges t2))%nat -> same_use s d1 d2 ->
  read_de (tp_edges t1) d1 = read_de (tp_edges t2) d2.
Proof.
  intros (_ & _ & _ & _ & _ & E) L (U1 & U2). unfold read_de. rewrite U1, U2.
  destruct (nth_error (tp_edges t2) (de_edge d2)) as [e2|] eqn:E2; [|apply nth_error_None in E2; lia].
  destruct (E _ e2 E2) as (e1 & -> & P). cbn [option_map]. rewrite P. reflexivity.
Qed.
Lemma perm_by {A B} (f : A -> B) (p : nat -> nat) (l1 l2 : list A) : Injective p -> length l1 = length l2 ->
  (forall i b, nth_error l2 i = Some b -> exists a, nth_error l1 (p i) = Some a /\ f a = f b) -> Permutation (map f l1) (map f l2).
Proof.
  intros I L H. apply Permutation_nth_error_bis. exists (fun n => if n <? length l2 then p n else n)%nat.
  assert (Bd : forall i, (i < length l2)%nat -> (p i < length l2)%nat).
  { intros i Hi. destruct (nth_error l2 i) as [b|] eqn:E; [|apply nth_error_None in E; lia]. destruct (H i b E) as (a & Ha & _).
    rewrite <- L. apply nth_error_Some. congruence. }
  split; [|split].
  - intros x y E. destruct (Nat.ltb_spec x (length l2)), (Nat.ltb_spec y (length l2)); [apply I, E|specialize (Bd x); lia|specialize (Bd y); lia|exact E].
  - intros x Hx. rewrite map_length in *. rewrite L in *. destruct (Nat.ltb_spec x (length l2)); [apply Bd; assumption|lia].
  - intros n. rewrite !nth_error_map. destruct (Nat.ltb_spec n (length l2)) as [Hn|Hn].
    + destruct (nth_error l2 n) as [b|] eqn:E; [|apply nth_error_None in E; lia]. destruct (H n b E) as (a & -> & F). cbn. congruence.
    + rewrite (proj2 (nth_error_None l2 n)), (proj2 (nth_error_None l1 n)) by lia. reflexivity.
Qed.
Lemma perm_by2 {A B} (f g : A -> B) (p : nat -> nat) (l1 l2 : list A) : Injective p -> length l1 = length l2 ->
  (forall i b, nth_error l2 i = Some b -> exists a, nth_error l1 (p i) = Some a /\ f a = g b) -> Permutation (map f l1) (map g l2).
Proof.
  intros I L H. rewrite <- (map_id (map f l1)), <- (map_id (map g l2)). apply (perm_by _ p); [exact I|rewrite !map_length; exact L|].
  intros i b E. rewrite nth_error_map in E. destruct (nth_error l2 i) as [x|] eqn:X; [|discriminate]. injection E as <-.
  destruct (H i x X) as (a & Ha & F). exists (f a). rewrite nth_error_map, Ha. auto.
Qed.

Lemma region_edge_bound {D} (t : topology D) rg r d : exact_references t -> In rg (tp_regions t) -> In r (tg_outer rg ++ tg_inner rg) -> In d (tr_des r) ->
  (de_edge d < length (tp_edges t))%nat.
Proof.
  intros (_ & X & _) Hg Hr Hd. destruct (ring_des_used t rg r d Hg Hr Hd) as (rr & Hu). apply (X (de_edge d, rr)), users_in, Hu.
Qed.
Lemma Forall2_map_eq {A B C} (R : A -> B -> Prop) (f : A -> C) (g : B -> C) l1 l2 : Forall2 R l1 l2 ->
  (forall a b, In a l1 -> In b l2 -> R a b -> f a = g b) -> map f l1 = map g l2.
Proof.
  induction 1 as [|a b l1 l2 H F IH]; intros K; [reflexivity|]. cbn [map]. f_equal; [apply K; cbn; auto|]. apply IH. intros x y Hx Hy. apply K; right; assumption.
Qed.
Lemma read_renumbered_region {D} p s (t1 t2 : topology D) g1 g2 : exact_references t2 -> renumbered p s t1 t2 -> In g2 (tp_regions t2) -> renumbered_region s g1 g2 ->
  read_region (tp_edges t1) g1 = read_region (tp_edges t2) g2.
Proof.
  intros X R G (Ed & Eo & Ei). unfold read_region. rewrite Ed.
  assert (Q : forall l1 l2, incl l2 (tg_outer g2 ++ tg_inner g2) -> Forall2 (same_uses s) l1 l2 -> map (read_ring (tp_edges t1)) l1 = map (read_ring (tp_edges t2)) l2).
  { intros l1 l2 I F. apply (Forall2_map_eq _ _ _ _ _ F). intros r1 r2 _ R2 U. apply (Forall2_map_eq _ _ _ _ _ U). intros d1 d2 _ D2 DU.
    apply (read_use p s t1 t2 d1 d2 R); [|exact DU]. apply (region_edge_bound t2 g2 r2 d2 X G); [apply I, R2|exact D2]. }
  f_equal; apply Q; try assumption; intros x Hx; apply in_or_app; auto.
Qed.
Lemma shuffled_read {D} (t1 t2 : topology D) : shuffled t1 t2 -> Permutation (read_topology t1) (read_topology t2).
Proof.
  intros (X1 & X2 & p & s & R). pose proof R as (Ip & Is & L1 & L2 & G & E). unfold read_topology. apply (perm_by2 _ _ p); [exact Ip|exact L1|].
  intros i g2 G2. destruct (G i g2 G2) as (g1 & G1 & RR). exists g1. split; [exact G1|].
  apply (read_renumbered_region p s t1 t2 g1 g2 X2 R); [apply nth_error_In in G2; exact G2|exact RR].
Qed.
