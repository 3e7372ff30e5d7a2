(** * NormRing: the normal form of one ring *)
From Verif Require Import GeoProofs TopoProofs BuildProofs.
From Verif Require Export NormProofs.

Lemma long_nonempty es : long (map ne_points es) -> nonempty_pts es.
Proof.
  intros H. apply (Forall_map ne_points) in H. eapply Forall_impl; [|exact H]. intros e He. cbv beta in He.
  destruct (ne_points e); [cbn in He; lia|discriminate].
Qed.

Lemma good_rotation a b : rotation a b -> good a -> good b.
Proof.
  intros R (Ne & HL & HC). split; [|split].
  - intros ->. apply rotation_length in R. destruct a; [congruence|discriminate].
  - eapply Permutation_Forall; [apply rotation_perm, rotation_map, R|exact HL].
  - eapply closed_chain_rotation; [apply rotation_map, R|exact HC].
Qed.

(** ** Joined rings *)

Lemma joins_chain run e p q : joins run e -> chain p (map ne_points run) q ->
  first (ne_points e) = Some p /\ final (ne_points e) = Some q.
Proof.
  intros (Ne & _ & ->) H. assert (map ne_points run <> []) by (destruct run; [congruence|discriminate]).
  split; [eapply glue_first; eassumption|eapply glue_final; eassumption].
Qed.

Lemma joins_chains runs out p q : Forall2 joins runs out -> chain p (map ne_points (concat runs)) q ->
  chain p (map ne_points out) q /\ Forall (fun run => exists a b, chain a (map ne_points run) b) runs.
Proof.
  intros HF. revert p. induction HF as [|run e runs out Hj HF IH]; intros p; cbn [concat map chain].
  - auto.
  - rewrite map_app, chain_app. intros (r & H1 & H2). destruct (joins_chain _ _ _ _ Hj H1) as (F & L).
    destruct (IH r H2) as (IH1 & IH2). split; [|constructor; [eauto|assumption]].
    split; [assumption|]. exists r. auto.
Qed.

Lemma joins_long run e : long (map ne_points run) -> joins run e -> (2 <= length (ne_points e))%nat.
Proof.
  intros HL (Ne & _ & ->). destruct run as [|x run]; [congruence|]. inversion HL; subst.
  unfold walk. cbn [map glue]. rewrite app_length. lia.
Qed.

Lemma joins_area run e p q : joins run e -> chain p (map ne_points run) q ->
  shoelace (ne_points e) = shoelaces (map ne_points run).
Proof. intros (_ & _ & ->) H. eapply shoelace_walk. eassumption. Qed.

Lemma long_concat runs : long (map ne_points (concat runs)) -> Forall (fun r => long (map ne_points r)) runs.
Proof.
  induction runs as [|r runs IH]; cbn [concat]; [constructor|]. rewrite map_app. intros H.
  apply Forall_app in H as (H1 & H2). constructor; [assumption|auto].
Qed.

Lemma Forall2_Forall_r {A B} (P : A -> Prop) (R : A -> B -> Prop) (Q : B -> Prop) l l' :
  (forall a b, P a -> R a b -> Q b) -> Forall P l -> Forall2 R l l' -> Forall Q l'.
Proof. intros H HP HF. induction HF; [constructor|]. inversion HP; subst. constructor; eauto. Qed.

Lemma joined_runs_good runs out : good (concat runs) -> Forall2 joins runs out -> good out.
Proof.
  intros (Ne & HL & (p & HC)) HF. split; [|split].
  - intros ->. inversion HF; subst. apply Ne. reflexivity.
  - apply (Forall_map ne_points). eapply Forall2_Forall_r; [|apply long_concat, HL|exact HF].
    intros a b Ha Hb. cbv beta in *. eapply joins_long; eassumption.
  - exists p. eapply joins_chains; eassumption.
Qed.

Lemma walk_runs runs out : nonempty_pts (concat runs) -> Forall2 joins runs out ->
  walk out = walk (concat runs).
Proof.
  intros Hn HF. induction HF as [|run e runs out Hj HF IH]; [reflexivity|].
  cbn [concat] in Hn. apply Forall_app in Hn as (Hn1 & Hn2). cbn [concat].
  destruct Hj as (Ne & Hl & Hp). destruct out as [|f out].
  - inversion HF; subst. cbn [concat]. rewrite app_nil_r. unfold walk at 1. cbn. rewrite app_nil_r. assumption.
  - assert (Nc : concat runs <> []).
    { inversion HF as [|r1 ? rs ? Hj1]; subst. destruct Hj1 as (N1 & _). cbn. destruct r1; [congruence|discriminate]. }
    rewrite walk_app by assumption. rewrite <- IH by assumption.
    unfold walk at 1 3. cbn [map glue]. rewrite Hp.
    f_equal. assert (Nf : ne_points f <> []).
    { inversion HF as [|r1 ? rs ? Hj1]; subst. eapply joins_nonempty; [|exact Hj1].
      cbn [concat] in Hn2. apply Forall_app in Hn2 as (Hn2 & _). exact Hn2. }
    cbn [concat]. destruct (ne_points f); [congruence|reflexivity].
Qed.

Lemma shoelaces_runs runs out p q : Forall2 joins runs out -> chain p (map ne_points (concat runs)) q ->
  shoelaces (map ne_points out) = shoelaces (map ne_points (concat runs)).
Proof.
  intros HF. revert p. induction HF as [|run e runs out Hj HF IH]; intros p; cbn [concat map shoelaces]; [reflexivity|].
  rewrite map_app, chain_app, shoelaces_app. intros (r & H1 & H2). rewrite (joins_area _ _ _ _ Hj H1), (IH r H2).
  reflexivity.
Qed.

Lemma joined_facts es out : good es -> joined es out ->
  good out /\ turned (walk es) (walk out) /\
  shoelaces (map ne_points out) = shoelaces (map ne_points es).
Proof.
  intros G (runs & R & HF). pose proof (good_rotation _ _ R G) as G'. split; [|split].
  - eapply joined_runs_good; eassumption.
  - rewrite (walk_runs runs out (long_nonempty _ (proj1 (proj2 G'))) HF).
    apply glue_turned; [apply G|apply G|apply rotation_map, R].
  - destruct G' as (_ & _ & p & HC). rewrite (shoelaces_runs runs out p p) by assumption.
    apply shoelaces_perm. symmetry. apply rotation_perm, rotation_map, R.
Qed.

Lemma joined_rotation es out out' : joined es out -> rotation out out' -> joined es out'.
Proof.
  intros (runs & R & HF) (l & r & -> & ->). apply Forall2_app_inv_r in HF as (rl & rr & H1 & H2 & ->).
  exists (rr ++ rl). split; [|apply Forall2_app; assumption].
  eapply rotation_trans; [exact R|]. apply rotation_concat. exists rl, rr. auto.
Qed.

Lemma Forall2_in_r {A B} (P : A -> B -> Prop) l l' b : Forall2 P l l' -> In b l' -> exists a, In a l /\ P a b.
Proof. induction 1; cbn; [tauto|]. intros [<-|Hb]; [eauto|]. destruct (IHForall2 Hb) as (a & ? & ?). eauto. Qed.

Lemma joined_labels es out : joined es out ->
  (forall e, In e es -> exists f, In f out /\ label f = label e) /\
  (forall f, In f out -> exists e, In e es /\ label f = label e).
Proof.
  intros (runs & R & HF). split.
  - intros e He. apply (Permutation_in e (rotation_perm _ _ R)) in He. apply in_concat in He as (run & Hr & He).
    destruct (Forall2_in_l _ _ _ _ HF Hr) as (f & Hf & Hj). exists f. split; [assumption|].
    destruct Hj as (_ & Hl & _). rewrite Forall_forall in Hl. symmetry. apply Hl. assumption.
  - intros f Hf. destruct (Forall2_in_r _ _ _ _ HF Hf) as (run & Hr & Hj).
    destruct Hj as (Ne & Hl & _). destruct run as [|e run]; [congruence|]. exists e. split.
    + apply (Permutation_in e (Permutation_sym (rotation_perm _ _ R))). apply in_concat.
      exists (e :: run). split; [assumption|left; reflexivity].
    + inversion Hl; subst. congruence.
Qed.

(** ** Flipping *)

Lemma flipped_points es : map ne_points (flipped es) = map (@rev point) (rev (map ne_points es)).
Proof. unfold flipped. rewrite map_map, <- map_rev, map_map. reflexivity. Qed.

Lemma flipped_app a b : flipped (a ++ b) = flipped b ++ flipped a.
Proof. unfold flipped. rewrite rev_app_distr, map_app. reflexivity. Qed.

Lemma flipped_involutive es : flipped (flipped es) = es.
Proof.
  unfold flipped. rewrite <- map_rev, rev_involutive, map_map. cbn. rewrite <- (map_id es) at 2.
  apply map_ext. intros [ps a b]. cbn. rewrite rev_involutive. reflexivity.
Qed.

Lemma flipped_eq es : rev (map reverse_norm_edge es) = flipped es.
Proof. unfold flipped. rewrite map_rev. reflexivity. Qed.

Lemma flipped_nonempty es : es <> [] -> flipped es <> [].
Proof. intros H E. apply H. rewrite <- (flipped_involutive es), E. reflexivity. Qed.

Lemma flipped_rotation a b : rotation a b -> rotation (flipped a) (flipped b).
Proof. intros (l & r & -> & ->). exists (flipped r), (flipped l). rewrite !flipped_app. auto. Qed.

Lemma in_flipped e es : In e (flipped es) -> exists f, In f es /\ label f = label e /\ ne_points e = rev (ne_points f).
Proof.
  intros H. apply in_map_iff in H as (f & <- & Hf). apply in_rev in Hf. exists f. auto.
Qed.

Lemma flipped_good es : good es -> good (flipped es).
Proof.
  intros (Ne & HL & (p & HC)). split; [apply flipped_nonempty; assumption|]. rewrite flipped_points. split.
  - apply (Forall_map (@rev point)). apply Forall_rev. eapply Forall_impl; [|exact HL]. intros a Ha. cbv beta in *.
    rewrite rev_length. assumption.
  - exists p. apply chain_rev. assumption.
Qed.

Lemma flipped_walk es : good es -> walk (flipped es) = rev (walk es).
Proof.
  intros (Ne & HL & (p & HC)). unfold walk. rewrite flipped_points. apply (glue_rev p _ p); [|assumption].
  destruct es; [congruence|discriminate].
Qed.

Lemma flipped_walk_chain es p q : chain p (map ne_points es) q -> es <> [] -> walk (flipped es) = rev (walk es).
Proof.
  intros HC Ne. unfold walk. rewrite flipped_points. apply (glue_rev p _ q); [|assumption].
  destruct es; [congruence|discriminate].
Qed.

Lemma flipped_area es : shoelaces (map ne_points (flipped es)) = - shoelaces (map ne_points es).
Proof.
  rewrite flipped_points, shoelaces_rev. f_equal. apply shoelaces_perm. symmetry. apply Permutation_rev.
Qed.

Lemma flipped_fewest es : fewest es -> fewest (flipped es).
Proof.
  intros H x y rest R. apply flipped_rotation in R. rewrite flipped_involutive in R.
  assert (E : flipped (x :: y :: rest) = flipped rest ++ flipped [x; y]).
  { change (x :: y :: rest) with ([x; y] ++ rest). apply flipped_app. }
  rewrite E in R. intros L.
  apply (H (NE (rev (ne_points y)) (ne_reg0 y) (ne_reg1 y)) (NE (rev (ne_points x)) (ne_reg0 x) (ne_reg1 x)) (flipped rest)).
  - eapply rotation_trans; [exact R|]. exists (flipped rest), (flipped [x; y]). auto.
  - unfold label in *. cbn. congruence.
Qed.

Lemma flipped_concat runs : flipped (concat runs) = concat (rev (map flipped runs)).
Proof.
  induction runs as [|r runs IH]; [reflexivity|]. cbn [concat map rev]. rewrite flipped_app, IH, concat_app.
  cbn. rewrite app_nil_r. reflexivity.
Qed.

Lemma joined_flipped es out : good es -> joined es out -> joined (flipped es) (flipped out).
Proof.
  intros G (runs & R & HF). exists (rev (map flipped runs)). split.
  - rewrite <- flipped_concat. apply flipped_rotation. assumption.
  - unfold flipped at 2. rewrite map_rev. apply Forall2_rev'.
    destruct (good_rotation _ _ R G) as (_ & _ & p & HC).
    destruct (joins_chains _ _ _ _ HF HC) as (_ & HCs). clear -HF HCs.
    induction HF as [|run e runs out Hj HF IH]; cbn [map]; [constructor|].
    inversion HCs as [|? ? (a & b & Hc) HCs']; subst. constructor; [|auto].
    destruct Hj as (Ne & Hl & Hp). split; [apply flipped_nonempty; assumption|]. split.
    + apply Forall_forall. intros x Hx. apply in_flipped in Hx as (f & Hf & L & _). rewrite <- L.
      rewrite Forall_forall in Hl. apply Hl. assumption.
    + cbn [ne_points]. rewrite Hp. symmetry. eapply flipped_walk_chain; eassumption.
Qed.

(** ** Areas *)

Lemma norm_area_release es a :
  mfold (fun a e => mfold (area_step Release) (pairs (ne_points e)) a) es (wrap_i64 a) =
  Ok (wrap_i64 (a + shoelaces (map ne_points es))).
Proof.
  revert a. induction es as [|e es IH]; intros a; cbn [mfold map shoelaces].
  - rewrite Z.add_0_r. reflexivity.
  - rewrite area_loop_release. cbn [bind]. rewrite IH. do 2 f_equal. lia.
Qed.

Lemma norm_area_debug es a b : fits a ->
  mfold (fun a e => mfold (area_step Debug) (pairs (ne_points e)) a) es a = Ok b ->
  b = a + shoelaces (map ne_points es) /\ fits b.
Proof.
  revert a. induction es as [|e es IH]; intros a Fa; cbn [mfold map shoelaces].
  - intros [= <-]. split; [lia|assumption].
  - destruct (area_loop_debug (ne_points e) a) as [(F & E)|(F & E)]; rewrite E; cbn [bind]; [|discriminate].
    intros H. apply IH in H as (-> & Fb); [|apply path_values_fits_final; assumption]. split; [lia|assumption].
Qed.

Lemma norm_area_ok m es a : norm_area m es = Ok a -> a = wrap_i64 (shoelaces (map ne_points es)).
Proof.
  unfold norm_area. destruct m.
  - intros H. apply norm_area_debug in H as (-> & F); [|apply fits_0]. symmetry. apply wrap_id. assumption.
  - rewrite <- wrap_0 at 1. rewrite norm_area_release. intros [= <-]. reflexivity.
Qed.

Lemma norm_area_debug_ok es a : norm_area Debug es = Ok a ->
  a = shoelaces (map ne_points es) /\ fits (shoelaces (map ne_points es)).
Proof.
  intros H. unfold norm_area in H. apply norm_area_debug in H as (-> & F); [|apply fits_0].
  rewrite Z.add_0_l in *. auto.
Qed.

Lemma weight_nonneg ps : nonneg ps -> 0 <= weight ps.
Proof.
  induction ps as [|p [|q t] IH]; intros H; cbn [weight]; try lia.
  inversion H as [|? ? (H1 & H2) Hq]; subst. specialize (IH Hq). inversion Hq as [|? ? (H3 & H4) _]; subst.
  cbn [weight] in IH. nia.
Qed.

Lemma path_values_weight ps a : nonneg ps -> Z.abs a + weight ps < 2 ^ 63 ->
  Forall fits (path_values a ps) /\ Z.abs (a + shoelace ps) <= Z.abs a + weight ps.
Proof.
  revert a. induction ps as [|p [|q t] IH]; intros a Hn Hw.
  - cbn. split; [constructor|lia].
  - cbn. split; [constructor|lia].
  - inversion Hn as [|? ? (H1 & H2) Hq]; subst. pose proof (weight_nonneg _ Hq) as Wt.
    inversion Hq as [|? ? (H3 & H4) _]; subst.
    change (weight (p :: q :: t)) with (px p * py q + px q * py p + weight (q :: t)) in *.
    change (shoelace (p :: q :: t)) with (det p q + shoelace (q :: t)).
    change (path_values a (p :: q :: t)) with
      (px p * py q :: px q * py p :: det p q :: (a + det p q) :: path_values (a + det p q) (q :: t)).
    assert (0 <= px p * py q) by nia. assert (0 <= px q * py p) by nia.
    assert (Hd : Z.abs (det p q) <= px p * py q + px q * py p) by (unfold det; lia).
    destruct (IH (a + det p q) Hq) as (F & B); [lia|].
    set (v := px p * py q) in *. set (w := px q * py p) in *.
    split; [|lia]. unfold fits at 1. repeat (constructor; [unfold fits; lia|]). exact F.
Qed.

Lemma weights_nonneg es : Forall nonneg es -> 0 <= weights es.
Proof. induction 1; cbn [weights fold_right]; [lia|]. pose proof (weight_nonneg _ H). unfold weights in *. lia. Qed.

Lemma norm_area_small_gen es a : Forall nonneg (map ne_points es) ->
  Z.abs a + weights (map ne_points es) < 2 ^ 63 ->
  mfold (fun a e => mfold (area_step Debug) (pairs (ne_points e)) a) es a =
  Ok (a + shoelaces (map ne_points es)).
Proof.
  revert a. induction es as [|e es IH]; intros a Hn Hw; cbn [mfold map shoelaces].
  - f_equal. lia.
  - inversion Hn as [|? ? Hn1 Hn2]; subst. pose proof (weights_nonneg _ Hn2) as Ws.
    change (weights (map ne_points (e :: es))) with (weight (ne_points e) + weights (map ne_points es)) in Hw.
    destruct (path_values_weight (ne_points e) a Hn1) as (F & B); [lia|].
    destruct (area_loop_debug (ne_points e) a) as [(_ & E)|(F' & _)]; [|contradiction].
    rewrite E. cbn [bind]. rewrite IH; [f_equal; lia|assumption|lia].
Qed.

Lemma norm_area_small m es : Forall nonneg (map ne_points es) -> weights (map ne_points es) < 2 ^ 63 ->
  norm_area m es = Ok (shoelaces (map ne_points es)) /\ Z.abs (shoelaces (map ne_points es)) < 2 ^ 63.
Proof.
  intros Hn Hw. assert (E : norm_area Debug es = Ok (shoelaces (map ne_points es))).
  { unfold norm_area. rewrite norm_area_small_gen; [reflexivity|assumption|cbn; lia]. }
  assert (B : Z.abs (shoelaces (map ne_points es)) <= weights (map ne_points es)).
  { clear E. revert Hw. generalize (map ne_points es) Hn. intros l Hl. induction Hl as [|e l He Hl IH]; intros Hw; [cbn; lia|].
    pose proof (weights_nonneg _ Hl) as Ws. pose proof (weight_nonneg _ He) as We.
    change (weights (e :: l)) with (weight e + weights l) in *. cbn [shoelaces].
    destruct (path_values_weight e 0 He) as (_ & B); [cbn; lia|]. cbn [Z.add Z.abs] in B. specialize (IH ltac:(lia)). lia. }
  split; [|lia]. destruct m; [assumption|].
  unfold norm_area. rewrite <- wrap_0 at 1. rewrite norm_area_release. cbn [Z.add]. rewrite wrap_id; [reflexivity|].
  unfold fits. lia.
Qed.

(** ** Winding *)

Lemma wind_ok m es o out : wind_edges m es o = Ok out ->
  (out = es \/ out = flipped es) /\
  wrap_i64 (shoelaces (map ne_points es)) <> 0 /\
  (Z.abs (shoelaces (map ne_points es)) < 2 ^ 63 -> winds o (map ne_points out)).
Proof.
  unfold wind_edges, norm_winding. destruct (norm_area m es) as [a|] eqn:E; cbn [bind]; [|discriminate].
  apply norm_area_ok in E. unfold rassert. destruct (Z.eqb_spec a 0) as [Z|NZ]; cbn; [discriminate|].
  intros [= <-]. split; [|split].
  - rewrite flipped_eq. destruct (winding_eqb _ _); auto.
  - congruence.
  - intros B. rewrite wrap_id in E by (unfold fits; lia). rewrite flipped_eq. unfold winds.
    destruct (Z.ltb_spec 0 a); destruct o; cbn [winding_eqb]; rewrite ?flipped_area; lia.
Qed.

Lemma wind_returns m es o : Forall nonneg (map ne_points es) -> weights (map ne_points es) < 2 ^ 63 ->
  shoelaces (map ne_points es) <> 0 -> exists out, wind_edges m es o = Ok out.
Proof.
  intros Hn Hw Hs. unfold wind_edges, norm_winding. destruct (norm_area_small m es Hn Hw) as (-> & _).
  cbn [bind]. unfold rassert. destruct (Z.eqb_spec (shoelaces (map ne_points es)) 0); [contradiction|].
  cbn. eauto.
Qed.

(** ** Starting points *)

Lemma pt_ltb_lt p q : pt_ltb p q = true <-> lt_point p q.
Proof. unfold lt_point. destruct (pt_ltb_spec p q); split; auto; discriminate || contradiction. Qed.

Lemma pt_ltb_le p q : pt_ltb p q = false -> le_point q p.
Proof.
  intros H. destruct (pt_ltb q p) eqn:E; [left; apply pt_ltb_lt; assumption|right].
  symmetry. apply pt_ltb_total; assumption.
Qed.

Lemma lt_point_trans p q r : lt_point p q -> lt_point q r -> lt_point p r.
Proof. rewrite <- !pt_ltb_lt. apply pt_ltb_trans. Qed.

Lemma le_point_trans p q r : le_point p q -> le_point q r -> le_point p r.
Proof. intros [H| ->]; [|auto]. intros [H'| <-]; [left; eapply lt_point_trans; eassumption|left; assumption]. Qed.

Lemma lt_le_point_trans p q r : lt_point p q -> le_point q r -> lt_point p r.
Proof. intros H [H'| <-]; [eapply lt_point_trans; eassumption|assumption]. Qed.

Lemma le_point_refl p : le_point p p.
Proof. right. reflexivity. Qed.

Lemma le_point_antisym p q : le_point p q -> le_point q p -> p = q.
Proof. intros [H| ->]; [|auto]. intros [H'| ->]; [|auto]. exfalso. eapply lt_point_asym; eassumption. Qed.

Lemma le_point_total p q : le_point p q \/ le_point q p.
Proof. destruct (pt_ltb p q) eqn:E; [left; left; apply pt_ltb_lt; assumption|right; apply pt_ltb_le; assumption]. Qed.

(** The first of the smallest elements. *)
Definition first_min (l : list point) (j : nat) : Prop :=
  exists p, nth_error l j = Some p /\ (forall q, In q l -> le_point p q) /\
    (forall k q, (k < j)%nat -> nth_error l k = Some q -> lt_point p q).

Lemma first_min_inj l j k : first_min l j -> first_min l k -> j = k.
Proof.
  intros (p & Np & Lp & Fp) (q & Nq & Lq & Fq).
  destruct (lt_eq_lt_dec j k) as [[H|H]|H]; [|assumption|]; exfalso.
  - apply nth_error_In in Nq as Iq. specialize (Lp q Iq). specialize (Fq j p H Np).
    apply (lt_point_irrefl q). eapply lt_le_point_trans; eassumption.
  - apply nth_error_In in Np as Ip. specialize (Lq p Ip). specialize (Fp k q H Nq).
    apply (lt_point_irrefl p). eapply lt_le_point_trans; eassumption.
Qed.

Lemma min_index_from_ok l : forall pre bi b,
  first_min pre bi -> nth_error pre bi = Some b ->
  first_min (pre ++ l) (min_index_from bi b (length pre) l).
Proof.
  induction l as [|p t IH]; intros pre bi b Hm Nb; cbn [min_index_from].
  - rewrite app_nil_r. assumption.
  - assert (Lp : length (pre ++ [p]) = S (length pre)) by (rewrite app_length; cbn; lia).
    replace (pre ++ p :: t) with ((pre ++ [p]) ++ t) by (rewrite <- app_assoc; reflexivity).
    rewrite <- Lp. destruct Hm as (b' & Nb' & Lb & Fb). assert (b' = b) by congruence. subst b'.
    destruct (pt_ltb p b) eqn:E.
    + apply IH.
      * exists p. split; [rewrite nth_error_app2, Nat.sub_diag by lia; reflexivity|]. split.
        -- intros q Hq. apply in_app_iff in Hq as [Hq|[<-|[]]]; [|apply le_point_refl].
           left. apply pt_ltb_lt in E. eapply lt_le_point_trans; [eassumption|auto].
        -- intros k q Hk Nk. rewrite nth_error_app1 in Nk by assumption. apply pt_ltb_lt in E.
           eapply lt_le_point_trans; [eassumption|]. apply Lb. eapply nth_error_In; eassumption.
      * rewrite nth_error_app2, Nat.sub_diag by lia. reflexivity.
    + assert (Hbi : (bi < length pre)%nat) by (apply nth_error_Some; congruence). apply IH.
      * exists b. split; [rewrite nth_error_app1; assumption|]. split.
        -- intros q Hq. apply in_app_iff in Hq as [Hq|[<-|[]]]; [auto|]. apply pt_ltb_le. assumption.
        -- intros k q Hk Nk. rewrite nth_error_app1 in Nk by lia. eauto.
      * rewrite nth_error_app1; assumption.
Qed.

Lemma min_index_ok l j : min_index l = Some j -> first_min l j.
Proof.
  destruct l as [|p t]; [discriminate|]. cbn [min_index]. intros [= <-].
  apply (min_index_from_ok t [p] 0 p); [|reflexivity].
  exists p. split; [reflexivity|]. split.
  - intros q [<-|[]]. apply le_point_refl.
  - intros k q Hk. lia.
Qed.

Lemma min_index_some l : l <> [] -> exists j, min_index l = Some j.
Proof. destruct l; [congruence|]. intros _. cbn. eauto. Qed.

Lemma firstn_app_exact {A} (a b : list A) : firstn (length a) (a ++ b) = a.
Proof. rewrite firstn_app, Nat.sub_diag, firstn_all. cbn. apply app_nil_r. Qed.

Lemma skipn_app_exact {A} (a b : list A) : skipn (length a) (a ++ b) = b.
Proof. rewrite skipn_app, Nat.sub_diag, skipn_all. reflexivity. Qed.

Lemma rotate_island_ok e c : c <> [] -> ne_points e = close c ->
  exists e' c', rotate_island_edge e = Ok e' /\ label e' = label e /\ ne_points e' = close c' /\
    rotation c c' /\ forall q, In q c' -> exists p, first c' = Some p /\ le_point p q.
Proof.
  intros Nc Ec. unfold rotate_island_edge. rewrite Ec.
  destruct (min_index_some (close c)) as (j & Ej); [destruct c; [congruence|discriminate]|]. rewrite Ej.
  apply min_index_ok in Ej as (p & Np & Lp & Fp).
  destruct j as [|j].
  - exists e, c. split; [reflexivity|]. split; [reflexivity|]. split; [assumption|]. split; [apply rotation_refl|].
    intros q Hq. exists p. destruct c as [|x c]; [congruence|]. cbn in Np |- *. split; [assumption|]. apply Lp.
    cbn [close]. apply in_app_iff. left. assumption.
  - destruct c as [|x c]; [congruence|].
    assert (Lc : length (close (x :: c)) = S (S (length c))).
    { cbn [close]. rewrite app_length. cbn. lia. }
    assert (Hj : (S j < S (length c))%nat).
    { assert (S j < length (close (x :: c)))%nat by (apply nth_error_Some; congruence).
      destruct (Nat.eq_dec (S j) (S (length c))) as [E|]; [exfalso|lia].
      rewrite E in Np. cbn [close] in Np. rewrite nth_error_app2, Nat.sub_diag in Np by (cbn; lia).
      cbn in Np. injection Np as ->. apply (lt_point_irrefl p). apply (Fp 0%nat); [lia|reflexivity]. }
    destruct (nth_error_split (x :: c) (S j)) with (a := p) as (l & r & El & Ll).
    { rewrite <- Np. cbn [close]. rewrite nth_error_app1 by (cbn; lia). reflexivity. }
    unfold get, get_or. rewrite Lc. replace (S (S (length c)) - 1)%nat with (S (length c)) by lia.
    replace (nth_error (close (x :: c)) (S (length c))) with (Some x).
    2:{ cbn [close]. rewrite nth_error_app2, Nat.sub_diag by (cbn; lia). reflexivity. }
    cbn [close app nth_error bind]. rewrite pt_eqb_refl. cbn [rassert bind].
    eexists. exists ((p :: r) ++ l). split; [reflexivity|]. split; [reflexivity|]. split; [|split].
    + cbn [ne_points]. change (x :: c ++ [x]) with ((x :: c) ++ [x]). rewrite El. unfold slice.
      assert (Lr : length c = (length l + length r)%nat).
      { apply (f_equal (@length point)) in El. rewrite app_length in El. cbn in El. lia. }
      rewrite <- Ll. replace (S (length c) - length l)%nat with (length (p :: r)) by (cbn [length]; lia).
      rewrite <- app_assoc. rewrite skipn_app_exact, firstn_app_exact.
      replace (length l + 1 - 0)%nat with (length (l ++ [p])) by (rewrite app_length; cbn [length]; lia).
      cbn [skipn]. replace (l ++ (p :: r) ++ [x]) with ((l ++ [p]) ++ r ++ [x]) by (rewrite <- app_assoc; reflexivity).
      rewrite firstn_app_exact. cbn [close app]. rewrite <- !app_assoc. reflexivity.
    + rewrite El. exists l, (p :: r). auto.
    + intros q Hq. exists p. split; [reflexivity|]. apply Lp. cbn [close]. apply in_app_iff. left. rewrite El.
      apply in_app_iff. apply in_app_iff in Hq. tauto.
Qed.

Lemma good_single e : good [e] -> exists c, c <> [] /\ ne_points e = close c.
Proof.
  intros (_ & HL & (p & (F & q & L & E))). cbn in E. subst q. inversion HL as [|? ? Hl _]; subst.
  apply final_some in L as (l & El). exists l. destruct (ne_points e) as [|x [|y ps]]; cbn in Hl; try lia.
  injection F as ->. destruct l as [|z l]; [discriminate|]. cbn in El. injection El as -> ->.
  split; [discriminate|reflexivity].
Qed.

Lemma mmap_firsts es : nonempty_pts es ->
  exists ps, mmap (fun e => get (ne_points e) 0) es = Ok ps /\
    Forall2 (fun e p => first (ne_points e) = Some p) es ps.
Proof.
  induction 1 as [|e es He HF (ps & E & H2)]; cbn [mmap].
  - exists []. auto.
  - destruct (ne_points e) as [|x l] eqn:El; [congruence|]. unfold get at 1, get_or. cbn [nth_error bind].
    rewrite E. cbn [bind]. exists (x :: ps). split; [reflexivity|]. constructor; [|assumption].
    rewrite El. reflexivity.
Qed.

Lemma Forall2_nth {A B} (P : A -> B -> Prop) l l' i b : Forall2 P l l' -> nth_error l' i = Some b ->
  exists a, nth_error l i = Some a /\ P a b.
Proof.
  intros H. revert i. induction H; intros [|i]; cbn; try discriminate.
  - intros [= <-]. eauto.
  - apply IHForall2.
Qed.

Lemma rotate_ok es : good es ->
  exists out, rotate_edges es = Ok out /\ starts_smallest (map ne_points out) /\
    (rotation es out \/ exists e e', es = [e] /\ out = [e'] /\ label e' = label e /\
                                     turned (ne_points e) (ne_points e')).
Proof.
  intros G. destruct es as [|e [|f es]]; [destruct G; congruence| |].
  - destruct (good_single e G) as (c & Nc & Ec). cbn [rotate_edges].
    destruct (rotate_island_ok e c Nc Ec) as (e' & c' & -> & Hl & Ec' & R & Hm). cbn [bind].
    exists [e']. split; [reflexivity|]. split.
    + assert (Nc' : c' <> []) by (intros ->; apply rotation_length in R; destruct c; [congruence|discriminate]).
      destruct c' as [|p c']; [congruence|]. exists (ne_points e'), [], p. split; [reflexivity|].
      rewrite Ec'. split; [reflexivity|]. split; [congruence|]. intros _ q Hq. cbn [close] in Hq.
      apply in_app_iff in Hq as [Hq|[<-|[]]]; [|apply le_point_refl].
      destruct (Hm q Hq) as (p' & [= <-] & L). exact L.
    + right. exists e, e'. repeat split; try assumption. rewrite Ec, Ec'. apply turned_rotation. assumption.
  - set (es' := e :: f :: es) in *. assert (Ne : nonempty_pts es') by (apply long_nonempty, G).
    assert (Lge : (2 <= length es')%nat) by (cbn; lia).
    change (rotate_edges es') with (firsts <- mmap (fun e => get (ne_points e) 0) es' ;;
      match min_index firsts with None | Some O => Ok es' | Some i => Ok (skipn i es' ++ firstn i es') end).
    clearbody es'.
    destruct (mmap_firsts es' Ne) as (ps & -> & HF). cbn [bind].
    destruct (min_index_some ps) as (j & Ej).
    { intros ->. inversion HF. subst. cbn in Lge. lia. }
    rewrite Ej. assert (E : match j with O => Ok es' | S _ => Ok (skipn j es' ++ firstn j es') end =
                            Ok (skipn j es' ++ firstn j es')).
    { destruct j; [|reflexivity]. cbn. rewrite app_nil_r. reflexivity. }
    rewrite E. clear E. apply min_index_ok in Ej as (p & Np & Lp & _).
    destruct (Forall2_nth _ _ _ _ _ HF Np) as (a & Na & Fa).
    destruct (nth_error_split _ _ Na) as (l & r & -> & <-).
    rewrite skipn_app_exact, firstn_app_exact. exists ((a :: r) ++ l). split; [reflexivity|].
    assert (R : rotation (l ++ a :: r) ((a :: r) ++ l)) by (exists l, (a :: r); auto).
    split; [|left; exact R].
    cbn [app map]. exists (ne_points a), (map ne_points (r ++ l)), p. split; [reflexivity|]. split; [assumption|].
    split.
    + intros _ g q Hg Fg. apply Lp. change (ne_points a :: map ne_points (r ++ l)) with (map ne_points ((a :: r) ++ l)) in Hg.
      apply in_map_iff in Hg as (h & <- & Hh).
      apply (Permutation_in h (Permutation_sym (rotation_perm _ _ R))) in Hh.
      destruct (Forall2_in_l _ _ _ _ HF Hh) as (q' & Iq & Fq). cbv beta in Fq. congruence.
    + intros E. exfalso. apply rotation_length in R. apply map_eq_nil in E. cbn [app length] in R.
      rewrite E in R. cbn in R. lia.
Qed.

(** ** The whole ring *)

Definition tidy_ring (m : mode) (o : winding) (es : norm_ring) : res norm_ring :=
  es1 <- join_related_edges es ;; es2 <- wind_edges m es1 o ;; rotate_edges es2.

Lemma good_tidied base out : good base -> tidied base out ->
  good out /\ turned (walk base) (walk out) /\
  shoelaces (map ne_points out) = shoelaces (map ne_points base).
Proof.
  intros G [H|(e & e' & H & -> & L & T)]; [apply joined_facts; assumption|].
  destruct (joined_facts _ _ G H) as (G' & T' & A').
  assert (Ew : forall x, walk [x] = ne_points x) by (intros x; unfold walk; cbn; apply app_nil_r).
  rewrite Ew in T'. destruct (good_single e G') as (c & Nc & Ec).
  apply turned_inv in T as Ti. destruct Ti as (c1 & c2 & R & E1 & E2). rewrite Ec in E1. apply close_inj in E1 as <-.
  split; [|split].
  - assert (N2 : c2 <> []) by (intros ->; apply rotation_length in R; destruct c; [congruence|discriminate]).
    destruct c2 as [|p c2]; [congruence|]. cbn [close] in E2. split; [discriminate|]. split.
    + cbn [map]. rewrite E2. constructor; [|constructor]. cbn [app length]. rewrite app_length. cbn [length]. lia.
    + exists p. cbn [map chain]. rewrite E2. split; [reflexivity|]. exists p. split; [|reflexivity].
      apply final_app.
  - rewrite Ew. eapply turned_trans; eassumption.
  - rewrite <- A'. cbn [map shoelaces]. rewrite (shoelace_turned _ _ T). reflexivity.
Qed.

Lemma tidied_labels base out : tidied base out ->
  (forall e, In e base -> exists f, In f out /\ label f = label e) /\
  (forall f, In f out -> exists e, In e base /\ label f = label e).
Proof.
  intros [H|(e & e' & H & -> & L & _)]; [apply joined_labels; assumption|].
  apply joined_labels in H as (H1 & H2). split.
  - intros x Hx. destruct (H1 x Hx) as (f & [<-|[]] & Hf). exists e'. split; [left; reflexivity|congruence].
  - intros f [<-|[]]. destruct (H2 e (or_introl eq_refl)) as (x & Hx & Lx). exists x. split; [assumption|congruence].
Qed.

Lemma tidy_ring_ok m o es out : good es -> tidy_ring m o es = Ok out ->
  exists base, (base = es \/ base = flipped es) /\ tidied base out /\ fewest out /\
    starts_smallest (map ne_points out) /\
    wrap_i64 (shoelaces (map ne_points es)) <> 0 /\
    (Z.abs (shoelaces (map ne_points es)) < 2 ^ 63 -> winds o (map ne_points out)).
Proof.
  intros G. unfold tidy_ring.
  destruct (join_related_ok es (long_nonempty _ (proj1 (proj2 G)))) as (es1 & -> & J1 & F1). cbn [bind].
  destruct (joined_facts _ _ G J1) as (G1 & T1 & A1).
  destruct (wind_edges m es1 o) as [es2|] eqn:Ew; cbn [bind]; [|discriminate].
  apply wind_ok in Ew as (B2 & Z2 & W2). rewrite A1 in *.
  assert (exists base, (base = es \/ base = flipped es) /\ joined base es2 /\ fewest es2 /\ good es2) as (base & HB & J2 & F2 & G2).
  { destruct B2 as [->| ->].
    - exists es. auto.
    - exists (flipped es). split; [auto|]. split; [apply joined_flipped; assumption|].
      split; [apply flipped_fewest; assumption|apply flipped_good; assumption]. }
  destruct (rotate_ok es2 G2) as (out' & -> & S & R). intros [= <-].
  assert (Gb : good base) by (destruct HB as [->| ->]; [assumption|apply flipped_good; assumption]).
  assert (T3 : tidied base out').
  { destruct R as [R|(e & e' & -> & -> & L & T)].
    - left. eapply joined_rotation; eassumption.
    - right. exists e, e'. auto. }
  exists base. split; [assumption|]. split; [assumption|]. split.
  - destruct R as [R|(e & e' & -> & -> & _)]; [eapply fewest_rotation; eassumption|apply fewest_single].
  - split; [assumption|]. split; [assumption|]. intros B. specialize (W2 B).
    destruct (joined_facts _ _ Gb J2) as (_ & _ & Ab). destruct (good_tidied _ _ Gb T3) as (_ & _ & Ac).
    unfold winds in *. rewrite Ac, <- Ab. exact W2.
Qed.

(** ** Returning *)

Lemma weight_app l1 p l2 : weight (l1 ++ p :: l2) = weight (l1 ++ [p]) + weight (p :: l2).
Proof.
  induction l1 as [|a [|b l] IH]; cbn [app].
  - cbn [weight]. lia.
  - cbn [weight]. destruct l2; cbn [weight]; lia.
  - change (weight (a :: b :: l ++ p :: l2)) with (px a * py b + px b * py a + weight ((b :: l) ++ p :: l2)).
    change (weight (a :: b :: l ++ [p])) with (px a * py b + px b * py a + weight ((b :: l) ++ [p])).
    rewrite IH. lia.
Qed.

Lemma weight_glue p es q : chain p es q -> weight (glue es) = weights es.
Proof.
  revert p. induction es as [|e [|f t] IH]; intros p H; [reflexivity| |].
  - cbn [glue map concat weights fold_right]. rewrite app_nil_r. lia.
  - pose proof (chain_connected _ _ _ H) as HC. destruct H as (F & r & E & H).
    rewrite glue_cons by assumption. change (weights (e :: f :: t)) with (weight e + weights (f :: t)).
    rewrite <- (IH r H). rewrite (final_removelast e r E) at 1.
    rewrite (glue_tl r (f :: t) q) by (assumption || discriminate). cbn [tl]. rewrite <- app_assoc. cbn [app].
    rewrite weight_app, <- (final_removelast e r E). reflexivity.
Qed.

Lemma weights_app a b : weights (a ++ b) = weights a + weights b.
Proof. induction a as [|e a IH]; cbn [app weights fold_right]; [reflexivity|]. unfold weights in *. lia. Qed.

Lemma weights_perm a b : Permutation a b -> weights a = weights b.
Proof. unfold weights. induction 1; cbn [fold_right]; lia. Qed.

Lemma weights_runs runs out p q : Forall2 joins runs out -> chain p (map ne_points (concat runs)) q ->
  weights (map ne_points out) = weights (map ne_points (concat runs)).
Proof.
  intros HF. revert p. induction HF as [|run e runs out Hj HF IH]; intros p; cbn [concat map]; [reflexivity|].
  change (weights (ne_points e :: map ne_points out)) with (weight (ne_points e) + weights (map ne_points out)).
  rewrite map_app, chain_app, weights_app. intros (r & H1 & H2). rewrite (IH r H2).
  destruct Hj as (_ & _ & ->). unfold walk. rewrite (weight_glue _ _ _ H1). reflexivity.
Qed.

Lemma joined_weights es out : good es -> joined es out ->
  weights (map ne_points out) = weights (map ne_points es).
Proof.
  intros G (runs & R & HF). pose proof (good_rotation _ _ R G) as (_ & _ & p & HC).
  rewrite (weights_runs runs out p p) by assumption.
  apply weights_perm. symmetry. apply rotation_perm, rotation_map, R.
Qed.

Lemma nonneg_incl a b : incl b a -> nonneg a -> nonneg b.
Proof. unfold nonneg. rewrite !Forall_forall. intros H Ha p Hp. apply Ha, H, Hp. Qed.

Lemma in_glue es p : In p (glue es) -> exists e, In e es /\ In p e.
Proof.
  destruct es as [|e t]; [intros []|]. cbn [glue]. intros H. apply in_app_iff in H as [H|H].
  - exists e. cbn. auto.
  - apply in_concat in H as (l & Hl & Hp). apply in_map_iff in Hl as (f & <- & Hf). exists f. split; [right; assumption|].
    destruct f; [destruct Hp|right; assumption].
Qed.

Lemma joined_nonneg es out : joined es out -> Forall nonneg (map ne_points es) ->
  Forall nonneg (map ne_points out).
Proof.
  intros (runs & R & HF) Hn. rewrite Forall_forall in *. intros l Hl. apply in_map_iff in Hl as (e & <- & He).
  destruct (Forall2_in_r _ _ _ _ HF He) as (run & Hr & (_ & _ & ->)).
  apply Forall_forall. intros p Hp. apply in_glue in Hp as (l & Hl & Hp). apply in_map_iff in Hl as (f & <- & Hf).
  assert (If : In f es).
  { apply (Permutation_in f (Permutation_sym (rotation_perm _ _ R))). apply in_concat. eauto. }
  specialize (Hn (ne_points f) (in_map _ _ _ If)). unfold nonneg in Hn. rewrite Forall_forall in Hn. apply Hn. assumption.
Qed.

Lemma tidy_ring_returns m o es : good es -> Forall nonneg (map ne_points es) ->
  weights (map ne_points es) < 2 ^ 63 -> shoelaces (map ne_points es) <> 0 ->
  exists out, tidy_ring m o es = Ok out.
Proof.
  intros G Hn Hw Hs. unfold tidy_ring.
  destruct (join_related_ok es (long_nonempty _ (proj1 (proj2 G)))) as (es1 & -> & J1 & F1). cbn [bind].
  destruct (joined_facts _ _ G J1) as (G1 & T1 & A1).
  destruct (wind_returns m es1 o) as (es2 & E).
  - eapply joined_nonneg; eassumption.
  - rewrite (joined_weights es); assumption.
  - congruence.
  - rewrite E. cbn [bind]. apply wind_ok in E as ([->| ->] & _ & _).
    + destruct (rotate_ok es1 G1) as (out & -> & _). eauto.
    + destruct (rotate_ok (flipped es1) (flipped_good _ G1)) as (out & -> & _). eauto.
Qed.
