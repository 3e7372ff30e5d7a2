(** * NormLaws: how normalization fails, and what it does to areas *)
From Verif Require Import GeoProofs TopoProofs BuildProofs.
From Verif Require Export NormReturn.

(** ** Panics *)

Lemma follow_panic fuel : forall start endp m acc p, mwf m -> longs (map snd m) -> (length m < fuel)%nat ->
  follow fuel start endp m acc = Panic p -> p = PExplicit.
Proof.
  induction fuel as [|fuel IH]; intros start endp m acc p W L Hf; [lia|]. cbn [follow].
  destruct (bm_remove endp m) as [(e & m1)|] eqn:Er; [|intros [= <-]; reflexivity].
  apply bm_remove_some in Er as (W1 & P1 & F1 & L1 & _); [|assumption].
  pose proof (longs_perm _ _ P1 L) as Lp. apply longs_cons in Lp as (Le & Lm).
  destruct (long_first e Le) as (a & q & Fp & Fq). rewrite (last_point e q Fq). cbn [bind].
  destruct (pt_eqb q start); [discriminate|]. apply IH; [assumption|assumption|lia].
Qed.

Lemma rebuild_panic fuel : forall m ret p, mwf m -> longs (map snd m) -> (length m <= fuel)%nat ->
  rebuild fuel m ret = Panic p -> p = PExplicit.
Proof.
  induction fuel as [|fuel IH]; intros m ret p W L Hf.
  - destruct m; [discriminate|cbn in Hf; lia].
  - destruct m as [|(k & v) m]; [discriminate|]. cbn [rebuild]. set (M := (k, v) :: m) in *.
    destruct (follow (S (length M)) k k M []) as [(es & m1)|q] eqn:Ef; cbn [bind].
    2:{ intros [= <-]. eapply follow_panic; [eassumption|eassumption| |eassumption]. lia. }
    apply follow_ok in Ef as (c & E & Nc & HC & P & W1 & L1); [|assumption|assumption].
    cbn [app] in E. subst c. pose proof (longs_perm _ _ P L) as Lp. apply longs_app in Lp as (Le & Lm1).
    assert (G : good es) by (split; [assumption|split; [exact Le|exists k; assumption]]).
    destruct (rebuilt_ring es G) as (r & Er & Fr).
    destruct (join_related_edges es) as [es1|]; [|discriminate]. cbn [bind] in Er |- *. rewrite Er. cbn [bind].
    apply IH; try assumption. apply Permutation_length in P. rewrite map_length, app_length, map_length in P.
    assert (0 < length es)%nat by (destruct es; [congruence|cbn; lia]). lia.
Qed.

Lemma index_edges_panic es : forall m p, longs es -> index_edges m es = Panic p -> p = PExplicit.
Proof.
  unfold index_edges. induction es as [|e es IH]; intros m p L; cbn [mfold]; [discriminate|].
  apply longs_cons in L as (Le & L). destruct (long_first e Le) as (a & q & Fp & _).
  assert (Eg : get (ne_points e) 0 = Ok a).
  { unfold get, get_or. destruct (ne_points e); [discriminate|]. injection Fp as ->. reflexivity. }
  rewrite Eg. cbn [bind]. destruct (bm_insert a e m) as [m1|]; cbn [bind]; [apply IH; assumption|].
  intros [= <-]. reflexivity.
Qed.

Lemma classify_panic rs : forall st p, Forall longs rs -> mfold classify_ring rs st = Panic p -> p = PExplicit.
Proof.
  induction rs as [|r rs IH]; intros st p L; cbn [mfold]; [discriminate|]. inversion L; subst.
  destruct (classify_cases st r) as [(_ & _ & ->)|[(_ & _ & ->)|(_ & _ & ->)]]; cbn [bind]; [apply IH; assumption|apply IH; assumption|].
  destruct (index_edges (snd st) (useful r)) as [m'|q] eqn:E; cbn [bind]; [apply IH; assumption|].
  intros [= <-]. eapply index_edges_panic; [|eassumption]. clear -H1. unfold longs, long in *. rewrite Forall_map in *. rewrite Forall_forall in *.
  intros x Hx. apply filter_In in Hx as (Hx & _). auto.
Qed.

Lemma join_adjacent_panic rs p : Forall good rs -> join_adjacent_rings rs = Panic p -> p = PExplicit /\ ~ traversable (pool rs).
Proof.
  intros G H. split.
  2:{ intros T. destruct (join_adjacent_returns rs G T) as (out & E). congruence. }
  revert H. assert (L : Forall longs rs) by (eapply Forall_impl; [|exact G]; intros a Ha; apply Ha).
  unfold join_adjacent_rings. destruct (mfold classify_ring rs ([], [])) as [(ret & m)|q] eqn:Ec; cbn [bind].
  2:{ intros [= <-]. eapply classify_panic; eassumption. }
  apply classify_ok in Ec as (W & -> & P); [|split; constructor|assumption]. cbn [map app] in P |- *.
  assert (Lm : longs (map snd m)) by (eapply longs_perm; [symmetry; exact P|apply pool_longs; assumption]).
  destruct m as [|kv m]; [discriminate|].
  destruct (rebuild (length (kv :: m)) (kv :: m) (untouched rs)) as [ret'|q] eqn:Er; cbn [bind].
  2:{ intros [= <-]. eapply rebuild_panic; [eassumption|eassumption| |eassumption]. lia. }
  apply rebuild_ok in Er as (cycles & ms & -> & C & F2); [|assumption|assumption].
  destruct (cycles_good _ _ _ Lm C F2) as (Gc & Gm).
  unfold norm_ring in *. destruct (sort_rings_ok (untouched rs ++ ms)) as (s & -> & Ps & _); [|discriminate].
  apply Forall_app. split; (eapply Forall_impl; [apply good_keys|]); [apply untouched_good|]; assumption.
Qed.

Lemma norm_area_panic m es p : norm_area m es = Panic p -> m = Debug /\ p = POverflow.
Proof.
  unfold norm_area. destruct m.
  - generalize 0. induction es as [|e es IH]; intros a; cbn [mfold]; [discriminate|].
    destruct (area_loop_debug (ne_points e) a) as [(_ & ->)|(_ & ->)]; cbn [bind]; [apply IH|]. intros [= <-]. auto.
  - rewrite <- wrap_0 at 1. rewrite norm_area_release. discriminate.
Qed.

Lemma tidy_ring_panic m o es p : good es -> tidy_ring m o es = Panic p ->
  (m = Debug /\ p = POverflow) \/ (p = PAssert /\ wrap_i64 (shoelaces (map ne_points es)) = 0).
Proof.
  intros G. unfold tidy_ring.
  destruct (join_related_ok es (long_nonempty _ (proj1 (proj2 G)))) as (es1 & -> & J1 & F1). cbn [bind].
  destruct (joined_facts _ _ G J1) as (G1 & T1 & A1).
  destruct (wind_edges m es1 o) as [es2|q] eqn:Ew; cbn [bind].
  - apply wind_ok in Ew as (B2 & _). assert (G2 : good es2) by (destruct B2 as [->| ->]; [assumption|apply flipped_good; assumption]).
    destruct (rotate_ok es2 G2) as (out & -> & _). discriminate.
  - intros [= ->]. revert Ew. unfold wind_edges, norm_winding. destruct (norm_area m es1) as [a|q] eqn:Ea; cbn [bind].
    + apply norm_area_ok in Ea. unfold rassert. destruct (Z.eqb_spec a 0) as [Za|Za]; cbn [negb bind]; [|discriminate].
      intros [= <-]. right. split; [reflexivity|]. congruence.
    + intros [= ->]. left. eapply norm_area_panic; eassumption.
Qed.

Lemma mmap_panic {A B} (f : A -> res B) l p : mmap f l = Panic p -> exists a, In a l /\ f a = Panic p.
Proof.
  induction l as [|a l IH]; cbn [mmap]; [discriminate|]. destruct (f a) as [b|q] eqn:E; cbn [bind].
  - destruct (mmap f l) as [bs|q]; cbn [bind]; [discriminate|]. intros [= ->]. destruct IH as (x & Hx & Ex); [reflexivity|].
    exists x. split; [right; assumption|assumption].
  - intros [= ->]. exists a. split; [left; reflexivity|assumption].
Qed.

(** Why a side of a region can not be normalized. *)
Definition side_cause {D} (m : mode) (t : topology D) (rs : list topo_ring) (p : panic) : Prop :=
  (m = Debug /\ p = POverflow) \/
  (p = PAssert /\ exists r, In r rs /\ wrap_i64 (shoelaces (map ne_points (seen_ring t r))) = 0) \/
  (p = PExplicit /\ exists r e, In r rs /\ In e (seen_ring t r) /\ redundant e).

Lemma redundant_dec e : redundant e \/ ~ redundant e.
Proof. unfold redundant. destruct (ne_reg0 e) as [a|], (ne_reg1 e) as [b|]; try (left; congruence); try (right; congruence). destruct (Nat.eq_dec a b); [left|right]; congruence. Qed.

Lemma some_redundant {D} (t : topology D) rs :
  (exists r e, In r rs /\ In e (seen_ring t r) /\ redundant e) \/
  (forall r e, In r rs -> In e (seen_ring t r) -> ~ redundant e).
Proof.
  assert (X : forall es, (exists e, In e es /\ redundant e) \/ (forall e, In e es -> ~ redundant e)).
  { induction es as [|e es [(x & Hx & R)|H]]; [right; intros e []| |].
    - left. exists x. split; [right|]; assumption.
    - destruct (redundant_dec e); [left; exists e; split; [left; reflexivity|assumption]|].
      right. intros x [<-|Hx]; auto. }
  induction rs as [|r rs [(x & e & Hx & R)|H]]; [right; intros r e []| |].
  - left. exists x, e. split; [right|]; assumption.
  - destruct (X (seen_ring t r)) as [(e & He & R)|Y]; [left; exists r, e; split; [left; reflexivity|auto]|].
    right. intros x e [<-|Hx]; [apply Y|apply H; assumption].
Qed.

Lemma normalize_side_panic {D} m (t : topology D) o rg rs p : valid t -> In rg (tp_regions t) ->
  incl rs (tg_outer rg ++ tg_inner rg) -> normalize_region_rings m t rs o = Panic p -> side_cause m t rs p.
Proof.
  intros V Hg Hi. unfold normalize_region_rings.
  destruct (mmap (normalize_ring m t o) rs) as [nrs|q] eqn:E1; cbn [bind].
  2:{ intros [= ->]. apply mmap_panic in E1 as (r & Hr & E). rewrite (normalize_ring_eq m t o rg r (proj1 V) Hg (Hi r Hr)) in E.
      apply tidy_ring_panic in E as [E|(E & Z)]; [left; assumption|right; left; eauto|].
      eapply seen_ring_good; eauto. }
  pose proof (Forall2_mmap _ (ring_fact t o) _ _ E1) as F1. specialize (F1 (fun r e Hr => normalize_ring_fact m t o rg r e V Hg (Hi r Hr))).
  assert (G : Forall good nrs).
  { clear -F1. induction F1; constructor; [apply H|assumption]. }
  unfold norm_ring in *. destruct (join_adjacent_rings nrs) as [js|q] eqn:E2; cbn [bind].
  - destruct (join_adjacent_ok nrs js G E2) as (cycles & ms & C & F2 & P & T).
    assert (Lp : longs (pool nrs)).
    { apply pool_longs. clear -G. eapply Forall_impl; [|exact G]. intros a Ha. apply Ha. }
    destruct (cycles_good _ _ _ Lp C F2) as (Gc & Gm).
    destruct (sort_rings_ok js) as (s & Es & Ps & S).
    { eapply Permutation_Forall; [symmetry; exact P|]. apply Forall_app.
      split; (eapply Forall_impl; [apply good_keys|]); [apply untouched_good|]; assumption. }
    unfold norm_ring in *. rewrite Es. discriminate.
  - intros [= ->]. apply (join_adjacent_panic nrs) in E2 as (-> & NT); [|assumption]. right. right. split; [reflexivity|].
    destruct (some_redundant t rs) as [H|H]; [assumption|]. exfalso. apply NT.
    assert (U : Forall (Forall (fun e => ~ redundant e)) nrs).
    { clear -F1 H. induction F1 as [|r out rs nrs X F IH]; constructor.
      - apply Forall_forall. intros e He. destruct (in_seen_label t r _ out e (proj1 X) He eq_refl) as (f & Hf & L).
        pose proof (H r f (or_introl eq_refl) Hf) as Y. unfold redundant in *. unfold label in L. congruence.
      - apply IH. intros x e Hx. apply H. right. assumption. }
    destruct (untouched_all nrs U) as (_ & ->). split; constructor.
Qed.

Lemma normalize_region_panic {D} m (t : topology D) rg p : valid t -> In rg (tp_regions t) ->
  normalize_region m t rg = Panic p -> side_cause m t (tg_outer rg ++ tg_inner rg) p.
Proof.
  intros V Hg. unfold normalize_region.
  assert (M : forall rs, incl rs (tg_outer rg ++ tg_inner rg) -> side_cause m t rs p -> side_cause m t (tg_outer rg ++ tg_inner rg) p).
  { intros rs Hi [H|[(H & r & Hr & Z)|(H & r & e & Hr & X)]]; [left; assumption|right; left; eauto|right; right; eauto 10]. }
  destruct (normalize_region_rings m t (tg_outer rg) Clockwise) as [o|q] eqn:Eo; cbn [bind].
  - destruct (normalize_region_rings m t (tg_inner rg) CounterClockwise) as [i|q] eqn:Ei; cbn [bind]; [discriminate|].
    intros [= ->]. eapply M; [|eapply normalize_side_panic; [eassumption|eassumption| |eassumption]]; intros x Hx; apply in_app_iff; auto.
  - intros [= ->]. eapply M; [|eapply normalize_side_panic; [eassumption|eassumption| |eassumption]]; intros x Hx; apply in_app_iff; auto.
Qed.

Lemma crowded ps k : Forall (fun p => has_length p = true) ps -> (2 < count_path k (map Some ps))%nat ->
  exists k', (2 < cnt k' ps)%nat.
Proof.
  intros HL Hk. destruct (has_length k) eqn:E.
  - destruct k as [|a [|b k]]; try discriminate. exists (stored_form [a; b]).
    pose proof (count_le (a :: b :: k) a b ps E eq_refl). lia.
  - exfalso. revert Hk. unfold count_path. clear -HL E. induction HL as [|p ps Hp HL IH]; [cbn; lia|]. cbn [map filter].
    destruct (path_eqb_spec (stored_form p) k) as [X|X]; [|assumption].
    rewrite <- X, has_length_stored in E. congruence.
Qed.

Lemma normalize_panic {D} m (t : topology D) p : valid t -> normalize m t = Panic p ->
  (exists rg, In rg (tp_regions t) /\ side_cause m t (tg_outer rg ++ tg_inner rg) p) \/
  (m = Debug /\ p = POverflow) \/ (p = PAssert /\ ~ at_most_two (topology_paths t)).
Proof.
  intros V H. destruct (mmap (normalize_region m t) (tp_regions t)) as [gs|q] eqn:E.
  - right. assert (B : build_topology m gs = Panic p).
    { unfold normalize in H. rewrite normalize_loop, E in H. exact H. }
    apply build_topology_panic in B as [B|(-> & k & Hk)]; [left; assumption|right]. split; [reflexivity|].
    assert (F : Forall2 (fun rg g => normalize_region m t rg = Ok g /\ In rg (tp_regions t)) (tp_regions t) gs).
    { eapply Forall2_mmap; [eassumption|]. auto. }
    assert (L : Forall (fun g => Forall (fun p => has_length p = true) (out_paths g)) gs).
    { apply Forall_forall. intros g Hg. destruct (Forall2_in_r _ _ _ g F Hg) as (rg & Hin & En & _).
      apply (out_paths_cnt m [] t rg g V Hin En). }
    destruct (expected_paths gs L) as (_ & LE). specialize (LE k).
    destruct (crowded (flat_map out_paths gs) k) as (k' & Hk').
    { apply Forall_flat_map. assumption. }
    { lia. }
    intros A. specialize (A k'). rewrite cnt_filter_sides in A. unfold topology_paths in A.
    assert (cnt k' (flat_map out_paths gs) <= cnt k' (flat_map (region_paths t) (tp_regions t)))%nat; [|lia].
    clear -F V. induction F as [|rg g rgs gs (En & Hin) F IH]; [apply le_n|]. cbn [flat_map]. rewrite !cnt_app.
    destruct (out_paths_cnt m k' t rg g V Hin En). lia.
  - assert (X : forall rgs b, incl rgs (tp_regions t) -> (exists q, mmap (normalize_region m t) rgs = Panic q) ->
      mfold (fun b rg => g <- normalize_region m t rg ;; add_region m b g) rgs b = Panic p ->
      (exists rg, In rg (tp_regions t) /\ side_cause m t (tg_outer rg ++ tg_inner rg) p) \/ (m = Debug /\ p = POverflow)).
    { clear -V. induction rgs as [|rg rgs IH]; intros b Hi (q & Hq); cbn [mfold mmap] in *; [discriminate|].
      destruct (normalize_region m t rg) as [g|q'] eqn:Eg; cbn [bind] in *.
      - destruct (add_region m b g) as [b1|q'] eqn:Ea; cbn [bind].
        + apply IH; [intros x Hx; apply Hi; right; assumption|].
          destruct (mmap (normalize_region m t) rgs); cbn [bind] in Hq; [discriminate|eauto].
        + intros [= <-]. right. eapply add_region_panic; eassumption.
      - intros [= <-]. left. exists rg. assert (In rg (tp_regions t)) by (apply Hi; left; reflexivity).
        split; [assumption|]. eapply normalize_region_panic; eassumption. }
    unfold normalize in H.
    destruct (normalize_loop_panic m t (tp_regions t) builder_new q E) as (p' & E').
    rewrite E' in H. cbn [bind] in H. injection H as ->.
    destruct (X (tp_regions t) builder_new (incl_refl _) (ex_intro _ q E) E') as [Y|Y]; [left|right; left]; assumption.
Qed.

(** ** Areas *)

Lemma area_split es : shoelaces (map ne_points es) =
  shoelaces (map ne_points (useful es)) + shoelaces (map ne_points (filter redundantb es)).
Proof.
  unfold useful. induction es as [|e es IH]; [reflexivity|]. cbn [filter]. destruct (redundantb e); cbn [negb map shoelaces]; lia.
Qed.

Lemma filter_existsb {A} (f : A -> bool) l : existsb f l = false -> filter (fun x => negb (f x)) l = l.
Proof.
  induction l as [|a l IH]; cbn [existsb filter]; [reflexivity|]. intros H. apply orb_false_iff in H as (-> & H).
  cbn [negb]. rewrite (IH H). reflexivity.
Qed.

Lemma filter_forallb {A} (f : A -> bool) l : forallb f l = true -> filter (fun x => negb (f x)) l = [].
Proof.
  induction l as [|a l IH]; cbn [forallb filter]; [reflexivity|]. intros H. apply andb_true_iff in H as (-> & H).
  cbn [negb]. apply IH. assumption.
Qed.

Lemma useful_parts rs : Permutation (useful (concat rs)) (concat (untouched rs) ++ pool rs).
Proof.
  induction rs as [|r rs IH]; [reflexivity|]. cbn [concat]. unfold useful at 1. rewrite filter_app.
  fold (useful r). fold (useful (concat rs)). rewrite IH. unfold untouched, pool, mixed. cbn [filter].
  destruct (existsb redundantb r) eqn:E1; cbn [negb andb].
  - destruct (forallb redundantb r) eqn:E2; cbn [negb].
    + unfold useful at 1. rewrite (filter_forallb redundantb r E2). reflexivity.
    + cbn [map concat]. rewrite !app_assoc. apply Permutation_app_tail, Permutation_app_comm.
  - unfold useful at 1. rewrite (filter_existsb redundantb r E1). cbn [concat]. rewrite <- app_assoc. reflexivity.
Qed.

Lemma shoelaces_concat rs : shoelaces (map ne_points (concat rs)) = sum (map (fun r => shoelaces (map ne_points r)) rs).
Proof.
  induction rs as [|r rs IH]; [reflexivity|]. cbn [concat map sum fold_right]. rewrite map_app, shoelaces_app, IH. reflexivity.
Qed.

Lemma cycles_area cycles ms : Forall good cycles -> Forall2 from_cycle cycles ms ->
  shoelaces (map ne_points (concat ms)) = shoelaces (map ne_points (concat cycles)).
Proof.
  intros G F. induction F as [|c o cs ms (T & _) F IH]; [reflexivity|]. inversion G; subst.
  cbn [concat]. rewrite !map_app, !shoelaces_app, IH by assumption. f_equal. apply good_tidied; assumption.
Qed.

(** The direction of a normal ring. *)
Lemma normal_headed {D} (t : topology D) o r out : good (seen_ring t r) -> normal_ring t r out -> winds o (map ne_points out) ->
  good (headed o (seen_ring t r)) /\ tidied (headed o (seen_ring t r)) out.
Proof.
  intros G (base & HB & (T & _)) W. set (s := seen_ring t r) in *.
  assert (Gb : good base) by (destruct HB as [->| ->]; [assumption|apply flipped_good; assumption]).
  destruct (good_tidied base out Gb T) as (_ & _ & A).
  assert (E : base = headed o s); [|subst base; auto].
  destruct HB as [->| ->]; unfold headed; [|rewrite flipped_area in A]; destruct o; cbn [winds] in W;
    try destruct (Z.ltb_spec 0 (shoelaces (map ne_points s))); try destruct (Z.ltb_spec (shoelaces (map ne_points s)) 0); try lia; reflexivity.
Qed.

Lemma label_redundantb a b : label a = label b -> redundantb a = redundantb b.
Proof. unfold label, redundantb. intros [= -> ->]. reflexivity. Qed.

Lemma run_kind run e : joins run e -> Forall (fun x => redundantb x = redundantb e) run.
Proof. intros (_ & L & _). eapply Forall_impl; [|exact L]. intros x. apply label_redundantb. Qed.

Lemma filter_kind (f : norm_edge -> bool) run b : Forall (fun x => f x = b) run -> filter f run = if b then run else [].
Proof. induction 1 as [|x run Hx H IH]; cbn [filter]; [destruct b; reflexivity|]. rewrite Hx, IH. destruct b; reflexivity. Qed.

Lemma joined_redundant base out : good base -> joined base out ->
  shoelaces (map ne_points (filter redundantb out)) = shoelaces (map ne_points (filter redundantb base)).
Proof.
  intros G (runs & R & F). pose proof (good_rotation _ _ R G) as (_ & _ & p & HC).
  rewrite (shoelaces_perm (map ne_points (filter redundantb base)) (map ne_points (filter redundantb (concat runs)))).
  2:{ apply Permutation_map, Permutation_filter, rotation_perm, R. }
  clear R G base. destruct (ex_intro (fun q => chain p (map ne_points (concat runs)) q) p HC) as (q & HQ). clear HC. revert p HQ.
  induction F as [|run e runs out Hj F IH]; intros p HC; [reflexivity|]. cbn [concat] in *.
  rewrite map_app, chain_app in HC. destruct HC as (c & H1 & H2). rewrite filter_app, map_app, shoelaces_app.
  rewrite (filter_kind redundantb run (redundantb e)) by (apply run_kind; assumption). cbn [filter].
  specialize (IH c H2). pose proof (joins_area run e p c Hj H1) as A.
  destruct (redundantb e); cbn [map shoelaces]; lia.
Qed.

Lemma tidied_redundant base out : good base -> tidied base out ->
  shoelaces (map ne_points (filter redundantb out)) = shoelaces (map ne_points (filter redundantb base)).
Proof.
  intros G [H|(e & e' & H & -> & L & T)]; [apply joined_redundant; assumption|].
  rewrite <- (joined_redundant _ _ G H). cbn [filter]. rewrite (label_redundantb e' e L).
  destruct (redundantb e); [|reflexivity].
  assert (X : tidied base [e']) by (right; exists e, e'; auto).
  destruct (good_tidied base [e'] G X) as (_ & _ & A1). destruct (joined_facts _ _ G H) as (_ & _ & A2). congruence.
Qed.

Lemma side_area {D} (t : topology D) o rs outs :
  (forall r, In r rs -> good (seen_ring t r)) ->
  (forall r, In r rs -> Z.abs (shoelaces (map ne_points (seen_ring t r))) < 2 ^ 63) ->
  cancelling t o rs -> side_fact t o rs outs ->
  sum (map (fun r => shoelaces (map ne_points r)) outs) =
  match o with Clockwise => 1 | CounterClockwise => -1 end * sum (ring_sizes t rs).
Proof.
  intros Gs Hsmall HC (nrs & cycles & ms & F1 & C & F2 & P & _ & _ & _ & _).
  assert (W : Forall2 (fun r out => normal_ring t r out /\ winds o (map ne_points out)) rs nrs).
  { clear -F1 Hsmall. induction F1 as [|r out rs nrs H F IH]; constructor.
    - destruct H as (H1 & _ & _ & _ & _ & W). split; [assumption|]. apply W, Hsmall. left. reflexivity.
    - apply IH. intros x Hx. apply Hsmall. right. assumption. }
  assert (L : longs (pool nrs)).
  { apply pool_longs. clear -F1. induction F1; constructor; [apply H|assumption]. }
  destruct (cycles_good _ _ _ L C F2) as (Gc & _).
  assert (Z0 : shoelaces (map ne_points (filter redundantb (concat nrs))) = 0).
  { assert (E : shoelaces (map ne_points (filter redundantb (concat nrs))) =
                shoelaces (map ne_points (filter redundantb (concat (headed_rings t o rs))))).
    { clear -W Gs. induction W as [|r out rs nrs (N & Wr) W IH]; [reflexivity|]. unfold headed_rings in *. cbn [map concat].
      rewrite !filter_app, !map_app, !shoelaces_app, IH by (intros x Hx; apply Gs; right; assumption).
      destruct (normal_headed t o r out) as (G & T); [apply Gs; left; reflexivity|assumption|assumption|].
      rewrite (tidied_redundant _ _ G T). reflexivity. }
    rewrite E. unfold cancelling in HC. apply shoelaces_perm in HC. rewrite shoelaces_rev in HC. lia. }
  assert (E1 : shoelaces (map ne_points (concat outs)) = shoelaces (map ne_points (concat nrs))).
  { rewrite (area_split (concat nrs)), Z0, Z.add_0_r.
    rewrite (shoelaces_perm _ _ (Permutation_map ne_points (useful_parts nrs))), map_app, shoelaces_app.
    assert (X : forall a b, Permutation a b -> shoelaces (map ne_points (concat a)) = shoelaces (map ne_points (concat b))).
    { intros a b H. rewrite !shoelaces_concat. induction H; cbn [map sum fold_right] in *; unfold sum in *; lia. }
    rewrite (X _ _ P), concat_app, map_app, shoelaces_app. f_equal. rewrite (cycles_area cycles ms Gc F2).
    apply shoelaces_perm, Permutation_map, C. }
  rewrite <- shoelaces_concat, E1, shoelaces_concat. unfold ring_sizes.
  clear -W F1. induction F1 as [|r out rs nrs H F IH]; [destruct o; reflexivity|]. inversion W as [|? ? ? ? (_ & Wr) W']; subst.
  cbn [map sum fold_right]. unfold sum in IH. rewrite (IH W'). destruct H as (_ & _ & _ & _ & A & _).
  destruct o; cbn [winds] in Wr; lia.
Qed.

(** ** Followable sides are mergeable *)

Lemma chain_ends es : forall p q, chain p (map ne_points es) q -> Permutation (starts es ++ [Some q]) (Some p :: ends es).
Proof.
  induction es as [|e es IH]; intros p q; cbn [map chain].
  - intros ->. reflexivity.
  - intros (F & r & E & H). unfold starts, ends. cbn [map]. rewrite F, E. cbn [app]. constructor. apply IH. assumption.
Qed.

Lemma walk_ends run p q : run <> [] -> long (map ne_points run) -> chain p (map ne_points run) q ->
  first (walk run) = Some p /\ final (walk run) = Some q.
Proof.
  intros Ne HL HC. assert (map ne_points run <> []) by (destruct run; [congruence|discriminate]).
  split; [eapply glue_first|eapply glue_final]; eassumption.
Qed.

Lemma joined_pool base out : good base -> joined base out ->
  exists inner, Permutation (starts (useful base)) (starts (useful out) ++ inner) /\
                Permutation (ends (useful base)) (ends (useful out) ++ inner).
Proof.
  intros G (runs & R & F). pose proof (good_rotation _ _ R G) as (_ & HL & p & HC).
  assert (E : Permutation (useful base) (useful (concat runs))) by (apply Permutation_filter, rotation_perm, R).
  assert (X : exists inner, Permutation (starts (useful (concat runs))) (starts (useful out) ++ inner) /\
                Permutation (ends (useful (concat runs))) (ends (useful out) ++ inner)).
  { clear R G E base. destruct (ex_intro (fun q => chain p (map ne_points (concat runs)) q) p HC) as (q & HQ). clear HC. revert p HQ.
    induction F as [|run e runs out Hj F IH]; intros p HC; [exists []; split; reflexivity|]. cbn [concat] in *.
    rewrite map_app in HL, HC. rewrite chain_app in HC. destruct HC as (c & H1 & H2). apply Forall_app in HL as (L1 & L2).
    destruct (IH L2 c H2) as (inner & I1 & I2).
    assert (U : useful (run ++ concat runs) = (if redundantb e then [] else run) ++ useful (concat runs)).
    { unfold useful. rewrite filter_app. f_equal. rewrite (filter_kind _ run (negb (redundantb e))).
      - destruct (redundantb e); reflexivity.
      - eapply Forall_impl; [|apply run_kind; exact Hj]. cbv beta. intros x ->. reflexivity. }
    rewrite U. unfold useful at 2 4. cbn [filter]. fold (useful out). destruct (redundantb e); cbn [negb app].
    - exists inner. auto.
    - destruct run as [|x run]; [destruct Hj; congruence|].
      destruct (walk_ends (x :: run) p c) as (Wf & We); [discriminate|assumption|assumption|].
      destruct Hj as (_ & _ & Ew). rewrite <- Ew in Wf, We.
      exists (starts run ++ inner). rewrite starts_app, ends_app.
      change (starts (e :: useful out)) with (first (ne_points e) :: starts (useful out)).
      change (ends (e :: useful out)) with (final (ne_points e) :: ends (useful out)).
      pose proof (chain_ends (x :: run) p c H1) as CE.
      assert (Fx : first (ne_points x) = Some p) by (cbn in H1; tauto).
      change (starts (x :: run)) with (first (ne_points x) :: starts run) in *. rewrite Fx in *. cbn [app] in *.
      apply Permutation_cons_inv in CE. rewrite I1, I2, Wf, We, <- CE. split.
      + constructor. rewrite !app_assoc. apply Permutation_app_tail, Permutation_app_comm.
      + rewrite <- app_assoc. cbn [app]. rewrite <- Permutation_middle. constructor. rewrite !app_assoc. apply Permutation_app_tail, Permutation_app_comm. }
  destruct X as (inner & X1 & X2). exists inner. split.
  - rewrite (starts_perm _ _ E). assumption.
  - rewrite (ends_perm _ _ E). assumption.
Qed.

Lemma existsb_labels f (base out : list norm_edge) : (forall a b, label a = label b -> f a = f b) ->
  (forall e, In e base -> exists g, In g out /\ label g = label e) ->
  (forall g, In g out -> exists e, In e base /\ label g = label e) -> existsb f out = existsb f base.
Proof.
  intros Hf H1 H2. apply eq_true_iff_eq. rewrite !existsb_exists. split; intros (x & Hx & Fx).
  - destruct (H2 x Hx) as (e & He & L). exists e. split; [assumption|]. rewrite <- (Hf _ _ L). assumption.
  - destruct (H1 x Hx) as (e & He & L). exists e. split; [assumption|]. rewrite (Hf _ _ L). assumption.
Qed.

Lemma forallb_existsb {A} (f : A -> bool) l : forallb f l = negb (existsb (fun x => negb (f x)) l).
Proof. induction l as [|a l IH]; [reflexivity|]. cbn. rewrite IH. destruct (f a); reflexivity. Qed.

Lemma tidied_mixed base out : tidied base out ->
  (existsb redundantb out && negb (forallb redundantb out)) = (existsb redundantb base && negb (forallb redundantb base)).
Proof.
  intros T. destruct (tidied_labels _ _ T) as (H1 & H2).
  rewrite (existsb_labels redundantb base out label_redundantb H1 H2). f_equal. f_equal.
  rewrite !forallb_existsb. f_equal. apply existsb_labels; try assumption.
  intros a b L. rewrite (label_redundantb a b L). reflexivity.
Qed.

Lemma single_not_mixed e : existsb redundantb [e] && negb (forallb redundantb [e]) = false.
Proof. cbn. destruct (redundantb e); reflexivity. Qed.

Lemma followable_mergeable {D} (t : topology D) o rs : (forall r, In r rs -> good (seen_ring t r)) ->
  followable t o rs -> mergeable t o rs.
Proof.
  intros Gs (N & P) nrs W.
  assert (X : exists inner, Permutation (starts (pool (headed_rings t o rs))) (starts (pool nrs) ++ inner) /\
     Permutation (ends (pool (headed_rings t o rs))) (ends (pool nrs) ++ inner)).
  { clear N P. induction W as [|r out rs nrs (Nr & Wr) W IH]; [exists []; split; reflexivity|].
    destruct IH as (inner & I1 & I2); [intros x Hx; apply Gs; right; assumption|].
    destruct (normal_headed t o r out) as (G & T); [apply Gs; left; reflexivity|assumption|assumption|].
    unfold headed_rings in *. cbn [map]. rewrite !(pool_cons _ (map _ rs)), !(pool_cons _ nrs), !starts_app, !ends_app.
    assert (Y : exists inr, Permutation (starts (pool [headed o (seen_ring t r)])) (starts (pool [out]) ++ inr) /\
       Permutation (ends (pool [headed o (seen_ring t r)])) (ends (pool [out]) ++ inr)).
    { unfold pool, mixed. cbn [filter]. rewrite <- (tidied_mixed _ _ T). destruct (existsb redundantb out && negb (forallb redundantb out)) eqn:E.
      - cbn [map concat]. rewrite !app_nil_r. destruct T as [T|(e & e' & T & -> & L & _)].
        + apply joined_pool; assumption.
        + rewrite single_not_mixed in E. discriminate.
      - exists []. split; reflexivity. }
    destruct Y as (inr & Y1 & Y2). exists (inr ++ inner). rewrite Y1, Y2, I1, I2.
    split; rewrite <- !app_assoc; apply Permutation_app_head; rewrite !app_assoc; apply Permutation_app_tail, Permutation_app_comm. }
  destruct X as (inner & X1 & X2). split.
  - apply (Permutation_NoDup X1) in N. apply NoDup_app_l in N. assumption.
  - rewrite X1, X2 in P. apply Permutation_app_inv_r in P. assumption.
Qed.

Lemma dropped_area outs : Forall (fun r => Z.abs (shoelaces (map ne_points r)) < 2 ^ 63) outs ->
  sum (map (fun r => shoelaces (map ne_points r)) (filter (fun r => has_area (into_ring r)) outs)) =
  sum (map (fun r => shoelaces (map ne_points r)) outs).
Proof.
  induction 1 as [|r outs Hr H IH]; [reflexivity|]. cbn [filter]. destruct (has_area (into_ring r)) eqn:E; cbn [map sum fold_right].
  - unfold sum in IH. rewrite IH. reflexivity.
  - unfold sum, norm_ring in *. rewrite IH. enough (shoelaces (map ne_points r) = 0) by lia.
    unfold has_area in E. apply negb_false_iff, Z.eqb_eq in E. cbn [into_ring ring_area] in E.
    apply Z.mod_divide in E as (k & E); [|lia]. lia.
Qed.

(** ** Shapes *)

Lemma sized_area outs : filter (fun r => has_area (into_ring r)) outs = sized outs.
Proof. reflexivity. Qed.

Lemma filter_sorted {A} (R : A -> A -> Prop) f l : StronglySorted R l -> StronglySorted R (filter f l).
Proof.
  induction 1 as [|a l S IH F]; cbn [filter]; [constructor|]. destruct (f a); [|assumption]. constructor; [assumption|].
  rewrite Forall_forall in *. intros x Hx. apply filter_In in Hx as (Hx & _). auto.
Qed.

Lemma in_order_map_filter f outs : in_order (map (map ne_points) outs) -> in_order (map (map ne_points) (filter f outs)).
Proof.
  unfold in_order. induction outs as [|r outs IH]; cbn [map filter]; [auto|]. intros H. apply StronglySorted_inv in H as (H & F).
  destruct (f r); [|auto]. cbn [map]. constructor; [auto|]. rewrite Forall_forall in *. intros x Hx.
  apply F. apply in_map_iff in Hx as (y & <- & Hy). apply filter_In in Hy as (Hy & _). apply in_map. assumption.
Qed.

Lemma side_normal {D} (t : topology D) o rs outs : side_fact t o rs outs -> normal_side t rs outs /\
  Forall (fun out => fewest out /\ starts_smallest (map ne_points out) /\ good out) outs.
Proof.
  intros (nrs & cycles & ms & F1 & C & F2 & P & S & G & _). split.
  - exists nrs, cycles, ms. split; [|auto]. clear -F1. induction F1; constructor; [apply H|assumption].
  - eapply Permutation_Forall; [symmetry; exact P|]. apply Forall_app. split.
    + apply Forall_forall. intros x Hx. apply filter_In in Hx as (Hx & _).
      destruct (Forall2_in_r _ _ _ x F1 Hx) as (r & _ & ((base & _ & (_ & Fw & Ss)) & Gx & _)). auto.
    + clear -F2 G. induction F2 as [|c o cs ms (T & Fw & Ss) F IH]; constructor; inversion G; subst; auto.
Qed.

Lemma normalize_by_region {D} m (t t' : topology D) : valid t -> normalize m t = Ok t' ->
  by_region t t' (fun rg part => exists outs ins,
      side_fact t Clockwise (tg_outer rg) outs /\ side_fact t CounterClockwise (tg_inner rg) ins /\
      part = read_back (tg_data rg) (sized outs) (sized ins)).
Proof.
  intros V H. destruct (normalize_parts m t t' V H) as (parts & E & F). exists parts. split; [assumption|].
  eapply Forall2_impl'; [|exact F]. intros rg part (outs & ins & So & Si & ->).
  rewrite !sized_area. split; [|split].
  - destruct (sized outs); cbn; lia.
  - destruct (sized outs); intros s; [intros []|]. intros [<-|[]]. reflexivity.
  - exists outs, ins. split; [assumption|]. split; [assumption|]. unfold read_back. destruct (sized outs); reflexivity.
Qed.

Lemma by_region_impl {D} (t t' : topology D) (P Q : topo_region D -> list (shape D) -> Prop) :
  (forall rg part, In rg (tp_regions t) -> P rg part -> Q rg part) -> by_region t t' P -> by_region t t' Q.
Proof.
  intros H (parts & E & F). exists parts. split; [assumption|]. clear E. revert H. generalize (incl_refl (tp_regions t)).
  set (all := tp_regions t) in |- * at 2 3. clearbody all. intros I H. induction F as [|rg part rgs parts (L & Dd & X) F IH]; constructor.
  - split; [assumption|]. split; [assumption|]. apply H; [apply I; left; reflexivity|assumption].
  - apply IH. intros x Hx. apply I. right. assumption.
Qed.

Lemma plain_sized {D} (t : topology D) o rs outs :
  (forall r e, In r rs -> In e (seen_ring t r) -> ~ redundant e) -> side_fact t o rs outs ->
  exists nrs, Forall2 (ring_fact t o) rs nrs /\ Permutation outs nrs /\ sized outs = outs.
Proof.
  intros N S. destruct (plain_side t o rs outs N S) as (nrs & F & P & _). exists nrs. split; [assumption|]. split; [assumption|].
  rewrite <- sized_area. eapply plain_side_areas; eassumption.
Qed.

Lemma kept_side {D} (t : topology D) o rg rs outs nrs : valid t -> In rg (tp_regions t) -> incl rs (tg_outer rg ++ tg_inner rg) ->
  Forall2 (ring_fact t o) rs nrs -> Permutation outs nrs -> rings_kept t rs (map as_read outs).
Proof.
  intros V Hg Hi F P. exists (map as_read nrs). split; [apply Permutation_map; assumption|].
  clear P. induction F as [|r out rs nrs H F IH]; cbn [map]; constructor.
  - destruct H as ((base & HB & (T & _)) & G & _). exists (map ne_points out). split; [reflexivity|].
    split; [apply G|].
    assert (Gs : good (seen_ring t r)). { eapply seen_ring_good; [eassumption|eassumption|]. apply Hi. left. reflexivity. }
    assert (Gb : good base) by (destruct HB as [->| ->]; [assumption|apply flipped_good; assumption]).
    destruct (good_tidied base out Gb T) as (_ & T' & _). fold (walk out). destruct HB as [->| ->]; [left; assumption|right].
    rewrite flipped_walk in T' by assumption. assumption.
  - apply IH. intros x Hx. apply Hi. right. assumption.
Qed.

(** ** Deciding the hypotheses of concrete cases *)

Definition adjacentb {D} (t : topology D) (i j : nat) : bool :=
  existsb (fun u => existsb (fun v => Nat.eqb (fst u) (fst v) && Nat.eqb (rr_region (snd u)) i &&
                                      Nat.eqb (rr_region (snd v)) j) (uses (tp_regions t))) (uses (tp_regions t)).

Lemma edge_regions_in {D} (t : topology D) i k :
  In i (edge_regions t k) <-> exists rr, In (k, rr) (uses (tp_regions t)) /\ rr_region rr = i.
Proof.
  unfold edge_regions. rewrite in_map_iff. split; intros (rr & H1 & H2); exists rr.
  - apply users_in in H2. auto.
  - split; [assumption|]. apply users_in. assumption.
Qed.

Lemma adjacentb_spec {D} (t : topology D) i j : adjacentb t i j = true <-> adjacent t i j.
Proof.
  unfold adjacentb, adjacent. rewrite existsb_exists. split.
  - intros ((k & a) & Ha & H). apply existsb_exists in H as ((k' & b) & Hb & H). cbn [fst snd] in H.
    apply andb_true_iff in H as (H & E3). apply andb_true_iff in H as (E1 & E2). apply Nat.eqb_eq in E1, E2, E3. subst.
    exists k'. split; apply edge_regions_in; eauto.
  - intros (k & Hi & Hj). apply edge_regions_in in Hi as (a & Ha & <-). apply edge_regions_in in Hj as (b & Hb & <-).
    exists (k, a). split; [assumption|]. apply existsb_exists. exists (k, b). split; [assumption|]. cbn [fst snd].
    rewrite !Nat.eqb_refl. reflexivity.
Qed.

Definition nothing_redundantb {D} (t : topology D) (rg : topo_region D) : bool :=
  forallb (fun r => forallb (fun e => negb (redundantb e)) (seen_ring t r)) (tg_outer rg ++ tg_inner rg).

Lemma nothing_redundantb_spec {D} (t : topology D) rg : nothing_redundantb t rg = true -> nothing_redundant t rg.
Proof.
  unfold nothing_redundantb. intros H r e Hr He R. rewrite forallb_forall in H. specialize (H r Hr).
  rewrite forallb_forall in H. specialize (H e He). apply negb_true_iff in H. unfold redundant in R.
  unfold redundantb in H. rewrite R in H. destruct (ne_reg1 e); [rewrite Nat.eqb_refl in H|]; discriminate.
Qed.

Definition computable_sideb {D} (t : topology D) (rs : list topo_ring) : bool :=
  forallb (forallb (fun p => (0 <=? px p) && (0 <=? py p))) (rings_paths t rs) &&
  (weights (rings_paths t rs) <? 2 ^ 63) &&
  forallb (fun r => negb (shoelaces (map ne_points (seen_ring t r)) =? 0)) rs.

Lemma computable_sideb_spec {D} (t : topology D) rs : computable_sideb t rs = true -> computable_side t rs.
Proof.
  unfold computable_sideb. intros H. apply andb_true_iff in H as (H & H3). apply andb_true_iff in H as (H1 & H2).
  split; [|split; [apply Z.ltb_lt; assumption|]].
  - apply Forall_forall. intros ps Hp. apply Forall_forall. intros p Hin. rewrite forallb_forall in H1. specialize (H1 ps Hp).
    rewrite forallb_forall in H1. specialize (H1 p Hin). apply andb_true_iff in H1 as (A & B). apply Z.leb_le in A, B. auto.
  - intros r Hr. rewrite forallb_forall in H3. specialize (H3 r Hr). apply negb_true_iff, Z.eqb_neq in H3. assumption.
Qed.

Definition at_most_twob (ps : list (list point)) : bool :=
  forallb (fun k => Nat.leb (length (filter (path_eqb k) (sides ps))) 2) (sides ps).

Lemma at_most_twob_spec ps : at_most_twob ps = true -> at_most_two ps.
Proof.
  unfold at_most_twob. intros H k. rewrite forallb_forall in H.
  destruct (filter (path_eqb k) (sides ps)) as [|x l] eqn:E; [cbn; lia|].
  assert (Hx : In x (filter (path_eqb k) (sides ps))) by (rewrite E; left; reflexivity).
  apply filter_In in Hx as (Hx & Ex). destruct (path_eqb_spec k x) as [->|]; [|discriminate].
  specialize (H x Hx). apply Nat.leb_le in H. rewrite <- E. assumption.
Qed.

Fixpoint remove_one {A} (beq : A -> A -> bool) (x : A) (l : list A) : option (list A) :=
  match l with
  | [] => None
  | y :: t => if beq x y then Some t else option_map (cons y) (remove_one beq x t)
  end.
Fixpoint permb {A} (beq : A -> A -> bool) (a b : list A) : bool :=
  match a with
  | [] => match b with [] => true | _ => false end
  | x :: a' => match remove_one beq x b with Some b' => permb beq a' b' | None => false end
  end.

Lemma permb_spec {A} (beq : A -> A -> bool) : (forall x y, beq x y = true -> x = y) ->
  forall a b, permb beq a b = true -> Permutation a b.
Proof.
  intros Hb. assert (R : forall x l l', remove_one beq x l = Some l' -> Permutation l (x :: l')).
  { induction l as [|y l IH]; intros l'; cbn [remove_one]; [discriminate|]. destruct (beq x y) eqn:E.
    - intros [= ->]. apply Hb in E as ->. reflexivity.
    - destruct (remove_one beq x l) as [k|]; [|discriminate]. intros [= <-]. rewrite (IH k eq_refl). apply perm_swap. }
  induction a as [|x a IH]; intros b; cbn [permb]; [destruct b; [reflexivity|discriminate]|].
  destruct (remove_one beq x b) as [b'|] eqn:E; [|discriminate]. intros H. rewrite (R _ _ _ E). constructor. auto.
Qed.

Definition cancellingb {D} (t : topology D) (o : winding) (rs : list topo_ring) : bool :=
  permb path_eqb (map ne_points (filter redundantb (concat (headed_rings t o rs))))
                 (map (@rev point) (map ne_points (filter redundantb (concat (headed_rings t o rs))))).

Lemma cancellingb_spec {D} (t : topology D) o rs : cancellingb t o rs = true -> cancelling t o rs.
Proof. apply permb_spec. intros x y H. destruct (path_eqb_spec x y); [assumption|discriminate]. Qed.

Definition opt_eqb (a b : option point) : bool :=
  match a, b with Some p, Some q => pt_eqb p q | None, None => true | _, _ => false end.
Lemma opt_eqb_eq a b : opt_eqb a b = true <-> a = b.
Proof.
  destruct a as [p|], b as [q|]; cbn; try (split; congruence). destruct (pt_eqb_spec p q); split; congruence.
Qed.

Fixpoint nodupb (l : list (option point)) : bool :=
  match l with [] => true | x :: t => negb (existsb (opt_eqb x) t) && nodupb t end.

Definition traversableb (es : list norm_edge) : bool := nodupb (starts es) && permb opt_eqb (starts es) (ends es).

Lemma traversableb_spec es : traversableb es = true -> traversable es.
Proof.
  unfold traversableb. intros H. apply andb_true_iff in H as (H1 & H2). split.
  - clear H2. induction (starts es) as [|x l IH]; [constructor|]. cbn [nodupb] in H1. apply andb_true_iff in H1 as (A & B).
    constructor; [|auto]. intros Hx. apply negb_true_iff in A. rewrite <- not_true_iff_false, existsb_exists in A. apply A.
    exists x. split; [assumption|]. apply opt_eqb_eq. reflexivity.
  - eapply permb_spec; [|exact H2]. intros x y. apply opt_eqb_eq.
Qed.
