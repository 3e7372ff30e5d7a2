(** * ClipEdgeProofs: lemmas about clip/types.rs and clip/edge.rs *)
From Verif Require Import ClipSpec GeoProofs TopoProofs BuildProofs.

(** ** Locations *)
Lemma mask_test_spec k p :
  (mask_test k p = Inside /\ inside k p /\ ~ on_line k p /\ ~ outside k p) \/
  (mask_test k p = OnEdge /\ ~ inside k p /\ on_line k p /\ ~ outside k p) \/
  (mask_test k p = Outside /\ ~ inside k p /\ ~ on_line k p /\ outside k p).
Proof.
  unfold mask_test, inside, on_line, outside, axis, level.
  destruct k as [v|v|v|v]; rewrite ?Z.geb_leb;
    repeat match goal with
      | |- context[?a =? ?b] => destruct (Z.eqb_spec a b)
      | |- context[?a <=? ?b] => destruct (Z.leb_spec a b)
      end;
    first [ left; repeat split; (reflexivity || lia)
          | right; left; repeat split; (reflexivity || lia)
          | right; right; repeat split; (reflexivity || lia) ].
Qed.

Lemma mask_test_inside k p : mask_test k p = Inside <-> inside k p.
Proof. destruct (mask_test_spec k p) as [H|[H|H]]; destruct H as (-> & ?); intuition congruence. Qed.
Lemma mask_test_on k p : mask_test k p = OnEdge <-> on_line k p.
Proof. destruct (mask_test_spec k p) as [H|[H|H]]; destruct H as (-> & ?); intuition congruence. Qed.
Lemma mask_test_outside k p : mask_test k p = Outside <-> outside k p.
Proof. destruct (mask_test_spec k p) as [H|[H|H]]; destruct H as (-> & ?); intuition congruence. Qed.

Lemma insideb_loc k p : insideb k p = loc_eqb (mask_test k p) Inside.
Proof.
  destruct (mask_test_spec k p) as [H|[H|H]]; destruct H as (-> & H & _); cbn; unfold insideb, inside in *;
    destruct k; try apply Z.ltb_lt; try apply Z.ltb_ge; lia.
Qed.
Lemma outsideb_loc k p : outsideb k p = loc_eqb (mask_test k p) Outside.
Proof.
  destruct (mask_test_spec k p) as [H|[H|H]]; destruct H as (-> & _ & _ & H); cbn; unfold outsideb, outside in *;
    destruct k; try apply Z.ltb_lt; try apply Z.ltb_ge; lia.
Qed.
Lemma insideb_spec k p : reflect (inside k p) (insideb k p).
Proof. rewrite insideb_loc. apply iff_reflect. rewrite <- mask_test_inside. destruct (mask_test k p); cbn; intuition congruence. Qed.
Lemma outsideb_spec k p : reflect (outside k p) (outsideb k p).
Proof. rewrite outsideb_loc. apply iff_reflect. rewrite <- mask_test_outside. destruct (mask_test k p); cbn; intuition congruence. Qed.

(** ** Intersections *)
Lemma quot_between A C D : 0 < A -> A < D ->
  (0 <= C -> 0 <= Z.quot (A * C) D <= C /\ A * C - D < Z.quot (A * C) D * D <= A * C) /\
  (C < 0 -> C <= Z.quot (A * C) D <= 0 /\ A * C <= Z.quot (A * C) D * D < A * C + D).
Proof.
  intros HA HD. split; intros HC.
  - rewrite Z.quot_div_nonneg by nia.
    pose proof (Z.div_mod (A * C) D ltac:(lia)) as E. pose proof (Z.mod_pos_bound (A * C) D ltac:(lia)) as B.
    set (q := A * C / D) in *. set (r := (A * C) mod D) in *. nia.
  - replace (A * C) with (- (A * - C)) by lia. rewrite Z.quot_opp_l by lia.
    rewrite Z.quot_div_nonneg by nia.
    pose proof (Z.div_mod (A * - C) D ltac:(lia)) as E. pose proof (Z.mod_pos_bound (A * - C) D ltac:(lia)) as B.
    set (q := A * - C / D) in *. set (r := (A * - C) mod D) in *. nia.
Qed.

Lemma quot_interp v a1 c1 a2 c2 :
  (a1 < v < a2 \/ a2 < v < a1) ->
  let q := Z.quot ((v - a1) * (c2 - c1)) (a2 - a1) in
  Z.min c1 c2 <= c1 + q <= Z.max c1 c2 /\
  Z.abs (q * (a2 - a1) - (v - a1) * (c2 - c1)) < Z.abs (a2 - a1) /\
  Z.abs q * Z.abs (a2 - a1) <= Z.abs (v - a1) * Z.abs (c2 - c1).
Proof.
  intros H q. subst q. destruct H as [H|H].
  - destruct (quot_between (v - a1) (c2 - c1) (a2 - a1)) as [P N]; [lia..|].
    set (q := Z.quot ((v - a1) * (c2 - c1)) (a2 - a1)) in *.
    destruct (Z_lt_le_dec (c2 - c1) 0) as [L|L].
    + destruct (N L) as [B1 B2]. split; [lia|]. split; [lia|].
      rewrite (Z.abs_neq q), (Z.abs_eq (a2 - a1)), (Z.abs_eq (v - a1)), (Z.abs_neq (c2 - c1)) by lia. lia.
    + destruct (P L) as [B1 B2]. split; [lia|]. split; [lia|].
      rewrite (Z.abs_eq q), (Z.abs_eq (a2 - a1)), (Z.abs_eq (v - a1)), (Z.abs_eq (c2 - c1)) by lia. lia.
  - destruct (quot_between (a1 - v) (c2 - c1) (a1 - a2)) as [P N]; [lia..|].
    assert (E : Z.quot ((v - a1) * (c2 - c1)) (a2 - a1) = Z.quot ((a1 - v) * (c2 - c1)) (a1 - a2)).
    { rewrite <- (Z.quot_opp_opp ((v - a1) * (c2 - c1)) (a2 - a1)) by lia. f_equal; lia. }
    rewrite E. set (q := Z.quot ((a1 - v) * (c2 - c1)) (a1 - a2)) in *.
    destruct (Z_lt_le_dec (c2 - c1) 0) as [L|L].
    + destruct (N L) as [B1 B2]. split; [lia|]. split; [lia|].
      rewrite (Z.abs_neq q), (Z.abs_neq (a2 - a1)), (Z.abs_neq (v - a1)), (Z.abs_neq (c2 - c1)) by lia. lia.
    + destruct (P L) as [B1 B2]. split; [lia|]. split; [lia|].
      rewrite (Z.abs_eq q), (Z.abs_neq (a2 - a1)), (Z.abs_neq (v - a1)), (Z.abs_eq (c2 - c1)) by lia. lia.
Qed.

Lemma interpolate_ok m v a1 c1 a2 c2 :
  is_u32 v -> is_u32 a1 -> is_u32 c1 -> is_u32 a2 -> is_u32 c2 ->
  (a1 < v < a2 \/ a2 < v < a1) ->
  Z.abs (v - a1) * Z.abs (c2 - c1) < 2 ^ 63 ->
  interpolate m v a1 c1 a2 c2 = Ok (c1 + Z.quot ((v - a1) * (c2 - c1)) (a2 - a1)).
Proof.
  intros Hv H1 H2 H3 H4 Hb Hf. pose proof (quot_interp v a1 c1 a2 c2 Hb) as (Q1 & Q2 & Q3).
  rewrite <- Z.abs_mul in Hf. unfold is_u32 in *.
  unfold interpolate, i64_sub, i64_mul, i64_add, i64_div.
  rewrite (i64_ret_fits m (v - a1)) by (unfold fits; lia). cbn [bind].
  rewrite (i64_ret_fits m (c2 - c1)) by (unfold fits; lia). cbn [bind].
  rewrite (i64_ret_fits m ((v - a1) * (c2 - c1))) by (unfold fits; lia). cbn [bind].
  rewrite (i64_ret_fits m (a2 - a1)) by (unfold fits; lia). cbn [bind].
  destruct (Z.eqb_spec (a2 - a1) 0); [lia|].
  set (q := Z.quot ((v - a1) * (c2 - c1)) (a2 - a1)) in *.
  assert (F : fits q) by (unfold fits; lia).
  rewrite (proj2 (in_i64_fits q) F). cbn [bind]. apply i64_ret_fits. unfold fits. lia.
Qed.

(** The point the code computes, in unbounded integers. *)
Definition crossing (k : clip_mask) (p q : point) : point :=
  let c := along k p + Z.quot ((level k - axis k p) * (along k q - along k p)) (axis k q - axis k p) in
  match k with MinX v | MaxX v => Pt v c | MinY v | MaxY v => Pt c v end.

Lemma opposite_between k p q : opposite k p q ->
  axis k p < level k < axis k q \/ axis k q < level k < axis k p.
Proof. unfold opposite, inside, outside, axis, level. destruct k; lia. Qed.

Lemma wf_axis k p : wf_point p -> is_u32 (axis k p) /\ is_u32 (along k p).
Proof. intros [H1 H2]. destruct k; cbn; auto. Qed.

Lemma mask_intersect_eq m k p q :
  mask_intersect m k p q =
    (c <- interpolate m (level k) (axis k p) (along k p) (axis k q) (along k q) ;;
     Ok (match k with MinX v | MaxX v => Pt v (as_u32 c) | MinY v | MaxY v => Pt (as_u32 c) v end)).
Proof. destruct k; reflexivity. Qed.

Lemma mask_intersect_ok m k p q :
  wf_mask k -> wf_point p -> wf_point q -> opposite k p q ->
  Z.abs (level k - axis k p) * Z.abs (along k q - along k p) < 2 ^ 63 ->
  mask_intersect m k p q = Ok (crossing k p q) /\ rounded_crossing k p q (crossing k p q).
Proof.
  intros Hk Hp Hq Ho Hf. apply opposite_between in Ho.
  destruct (wf_axis k p Hp) as [P1 P2]. destruct (wf_axis k q Hq) as [Q1 Q2].
  pose proof (quot_interp (level k) (axis k p) (along k p) (axis k q) (along k q) Ho) as (B1 & B2 & B3).
  split.
  - rewrite mask_intersect_eq, interpolate_ok by assumption. cbn [bind]. unfold crossing. f_equal.
    assert (E : forall z, Z.min (along k p) (along k q) <= z <= Z.max (along k p) (along k q) -> as_u32 z = z).
    { intros z Hz. nums. apply Z.mod_small. lia. }
    destruct k; rewrite E by assumption; reflexivity.
  - unfold rounded_crossing.
    assert (E : along k (crossing k p q) = along k p + Z.quot ((level k - axis k p) * (along k q - along k p)) (axis k q - axis k p))
      by (destruct k; reflexivity).
    rewrite E. split; [destruct k; reflexivity|]. split; [exact B1|].
    rewrite Z.add_simpl_l. split; [exact B2|exact B3].
Qed.

Lemma mask_intersect_on_line m k p q r : mask_intersect m k p q = Ok r -> on_line k r.
Proof.
  rewrite mask_intersect_eq. intros H. apply bind_Ok in H as (c & _ & H). injection H as <-. destruct k; reflexivity.
Qed.

(** Release never panics on a crossing segment; debug only by overflow. *)
Lemma interpolate_panic m v a1 c1 a2 c2 pn :
  is_u32 v -> is_u32 a1 -> is_u32 c1 -> is_u32 a2 -> is_u32 c2 ->
  (a1 < v < a2 \/ a2 < v < a1) ->
  interpolate m v a1 c1 a2 c2 = Panic pn -> m = Debug /\ pn = POverflow.
Proof.
  intros Hv H1 H2 H3 H4 Hb. unfold is_u32 in *.
  unfold interpolate, i64_sub, i64_mul, i64_add, i64_div.
  rewrite (i64_ret_fits m (v - a1)) by (unfold fits; lia). cbn [bind].
  rewrite (i64_ret_fits m (c2 - c1)) by (unfold fits; lia). cbn [bind].
  destruct m.
  - destruct (fits_dec ((v - a1) * (c2 - c1))) as [F|F].
    2:{ rewrite i64_ret_debug by assumption. cbn. intros [= <-]. auto. }
    rewrite i64_ret_fits by assumption. cbn [bind].
    rewrite (i64_ret_fits Debug (a2 - a1)) by (unfold fits; lia). cbn [bind].
    destruct (Z.eqb_spec (a2 - a1) 0); [lia|].
    destruct (in_i64 (Z.quot _ _)); cbn [bind]; [|intros [= <-]; auto].
    unfold i64_ret. destruct (in_i64 _); [discriminate|]. intros [= <-]. auto.
  - rewrite i64_ret_release. cbn [bind].
    rewrite (i64_ret_fits Release (a2 - a1)) by (unfold fits; lia). cbn [bind].
    destruct (Z.eqb_spec (a2 - a1) 0); [lia|].
    pose proof (wrap_fits ((v - a1) * (c2 - c1))) as F. set (w := wrap_i64 _) in *. clearbody w.
    assert (Fq : fits (Z.quot w (a2 - a1))).
    { assert (Z.abs (Z.quot w (a2 - a1)) < 2 ^ 63); [|unfold fits in *; lia].
      rewrite <- Z.quot_abs by lia.
      assert (2 <= Z.abs (a2 - a1)) by lia.
      assert (Z.quot (Z.abs w) (Z.abs (a2 - a1)) <= Z.quot (Z.abs w) 2) by (apply Z.quot_le_compat_l; lia).
      assert (Z.quot (Z.abs w) 2 <= Z.quot (2 ^ 63) 2) by (apply Z.quot_le_mono; unfold fits in F; lia).
      change (Z.quot (2 ^ 63) 2) with (2 ^ 62) in *. lia. }
    rewrite (proj2 (in_i64_fits _) Fq). cbn [bind]. rewrite i64_ret_release. discriminate.
Qed.

Lemma mask_intersect_panic m k p q pn :
  wf_mask k -> wf_point p -> wf_point q -> opposite k p q ->
  mask_intersect m k p q = Panic pn -> m = Debug /\ pn = POverflow.
Proof.
  intros Hk Hp Hq Ho. apply opposite_between in Ho.
  destruct (wf_axis k p Hp) as [P1 P2]. destruct (wf_axis k q Hq) as [Q1 Q2].
  rewrite mask_intersect_eq. intros H. apply bind_Panic in H as [H|(c & _ & H)]; [|discriminate].
  eapply interpolate_panic; [..|exact H]; assumption.
Qed.

(** The coordinates of the intersection are u32 values in any case. *)
Lemma mask_intersect_wf m k p q r : wf_mask k -> mask_intersect m k p q = Ok r -> wf_point r.
Proof.
  intros Hk. rewrite mask_intersect_eq. intros H. apply bind_Ok in H as (c & _ & H). injection H as <-.
  assert (is_u32 (as_u32 c)) by (nums; apply Z.mod_pos_bound; lia).
  destruct k; split; assumption.
Qed.

(** ** The loop of clip_edge as a pure function *)
Definition step_add (k : clip_mask) (X : point -> point -> point) (ret : list point) (prev p : point) : list point :=
  match mask_test k prev, mask_test k p with
  | Inside, Inside | Inside, OnEdge => [p]
  | Inside, Outside => [X prev p]
  | OnEdge, Inside =>
      if match final ret with Some l => pt_eqb l prev | None => false end then [p] else [prev; p]
  | Outside, Inside => [X prev p; p]
  | _, _ => []
  end.

Fixpoint run (k : clip_mask) (X : point -> point -> point) (ret : list point) (prev : point) (ps : list point) : list point :=
  match ps with
  | [] => ret
  | p :: t => run k X (ret ++ step_add k X ret prev p) p t
  end.

Lemma last_opt_final (l : list point) : last_opt l = final l.
Proof.
  destruct l as [|a l]; [reflexivity|]. rewrite final_last. unfold last_opt. apply nth_error_last.
Qed.

Definition isect (m : mode) (k : clip_mask) (p q : point) : point :=
  match mask_intersect m k p q with Ok x => x | Panic _ => Pt 0 0 end.

Lemma clip_step_ok m k s p s' : cs_loc s = mask_test k (cs_prev s) -> clip_step m k s p = Ok s' ->
  s' = CS (cs_ret s ++ step_add k (isect m k) (cs_ret s) (cs_prev s) p) p (mask_test k p) /\
  (opposite k (cs_prev s) p -> mask_intersect m k (cs_prev s) p = Ok (isect m k (cs_prev s) p)).
Proof.
  intros Hl. unfold clip_step, step_add. rewrite Hl.
  set (prev := cs_prev s). set (ret := cs_ret s).
  assert (HI : forall o, mask_test k prev = o -> opposite k prev p ->
     (o = Inside /\ mask_test k p = Outside) \/ (o = Outside /\ mask_test k p = Inside)).
  { intros o Ho [[H1 H2]|[H1 H2]].
    - left. apply mask_test_inside in H1. apply mask_test_outside in H2. split; congruence.
    - right. apply mask_test_inside in H2. apply mask_test_outside in H1. split; congruence. }
  unfold isect.
  destruct (mask_test k prev) eqn:E1, (mask_test k p) eqn:E2; cbn [loc_eqb bind]; rewrite ?last_opt_final; specialize (HI _ eq_refl);
    try (intros [= <-]; rewrite ?app_nil_r; split; [reflexivity|intros Ho; destruct (HI Ho) as [[]|[]]; discriminate]).
  - destruct (mask_intersect m k prev p); cbn [bind]; [|discriminate]. intros [= <-]. split; reflexivity.
  - intros [= <-]. split; [|intros Ho; destruct (HI Ho) as [[]|[]]; discriminate].
    destruct (match final ret with Some l => pt_eqb l prev | None => false end); rewrite <- ?app_assoc; reflexivity.
  - destruct (mask_intersect m k prev p); cbn [bind]; [|discriminate]. intros [= <-].
    rewrite <- app_assoc. split; reflexivity.
Qed.

Lemma clip_loop_ok m k ps s s' : cs_loc s = mask_test k (cs_prev s) -> mfold (clip_step m k) ps s = Ok s' ->
  cs_ret s' = run k (isect m k) (cs_ret s) (cs_prev s) ps /\
  (forall p q, In (p, q) (combine (cs_prev s :: ps) ps) -> opposite k p q ->
     mask_intersect m k p q = Ok (isect m k p q)).
Proof.
  revert s. induction ps as [|p ps IH]; intros s Hl; cbn [mfold].
  - intros [= <-]. split; [reflexivity|]. intros ? ? [].
  - destruct (clip_step m k s p) as [s1|] eqn:E; [|discriminate]. cbn [bind]. intros H.
    apply clip_step_ok in E as [-> Ho]; [|assumption]. apply IH in H as [H1 H2]; [|reflexivity].
    split; [exact H1|]. intros a b [[= <- <-]|Hin]; [assumption|]. apply H2. exact Hin.
Qed.

Definition run_edge (k : clip_mask) (X : point -> point -> point) (ps : list point) : list point :=
  match ps with
  | [] | [_] => []
  | p0 :: rest => run k X (if insideb k p0 then [p0] else []) p0 rest
  end.

Lemma clip_edge_ok m k ps out : clip_edge m k ps = Ok out ->
  out = run_edge k (isect m k) ps /\
  (forall p q, In (p, q) (combine ps (tl ps)) -> opposite k p q -> mask_intersect m k p q = Ok (isect m k p q)).
Proof.
  unfold clip_edge, run_edge. destruct ps as [|p0 [|p1 rest]].
  - intros [= <-]. split; [reflexivity|]. intros ? ? [].
  - intros [= <-]. split; [reflexivity|]. intros ? ? [].
  - cbv zeta. intros H. apply bind_Ok in H as (s & H & E). injection E as <-.
    apply clip_loop_ok in H as [H1 H2]; [|reflexivity]. cbn [cs_ret cs_prev] in *.
    rewrite insideb_loc. split; [exact H1|exact H2].
Qed.

(** Conversely, clip_edge returns when all crossings are computed. *)
Lemma clip_step_returns m k X s p :
  cs_loc s = mask_test k (cs_prev s) ->
  (opposite k (cs_prev s) p -> mask_intersect m k (cs_prev s) p = Ok (X (cs_prev s) p)) ->
  clip_step m k s p = Ok (CS (cs_ret s ++ step_add k X (cs_ret s) (cs_prev s) p) p (mask_test k p)).
Proof.
  intros Hl Ho. unfold clip_step, step_add. rewrite Hl.
  set (prev := cs_prev s) in *. set (ret := cs_ret s).
  destruct (mask_test k prev) eqn:E1, (mask_test k p) eqn:E2; cbn [loc_eqb bind]; rewrite ?last_opt_final, ?app_nil_r; try reflexivity.
  - rewrite Ho; [reflexivity|]. left. split; [apply mask_test_inside|apply mask_test_outside]; assumption.
  - destruct (match final ret with Some l => pt_eqb l prev | None => false end); rewrite <- ?app_assoc; reflexivity.
  - rewrite Ho; [cbn [bind]; rewrite <- app_assoc; reflexivity|].
    right. split; [apply mask_test_outside|apply mask_test_inside]; assumption.
Qed.

Lemma clip_loop_returns m k X ps s : cs_loc s = mask_test k (cs_prev s) ->
  (forall p q, In (p, q) (combine (cs_prev s :: ps) ps) -> opposite k p q -> mask_intersect m k p q = Ok (X p q)) ->
  exists s', mfold (clip_step m k) ps s = Ok s' /\ cs_ret s' = run k X (cs_ret s) (cs_prev s) ps.
Proof.
  revert s. induction ps as [|p ps IH]; intros s Hl HX; cbn [mfold].
  - exists s. split; reflexivity.
  - rewrite (clip_step_returns m k X); [|assumption|intros Ho; apply HX; [left; reflexivity|assumption]].
    cbn [bind]. apply IH; [reflexivity|]. intros a b Hin. apply HX. right. exact Hin.
Qed.

Lemma clip_edge_returns m k X ps :
  (forall p q, In (p, q) (combine ps (tl ps)) -> opposite k p q -> mask_intersect m k p q = Ok (X p q)) ->
  clip_edge m k ps = Ok (run_edge k X ps).
Proof.
  intros HX. unfold clip_edge, run_edge. destruct ps as [|p0 [|p1 rest]]; [reflexivity|reflexivity|]. cbv zeta.
  rewrite <- insideb_loc.
  destruct (clip_loop_returns m k X (p1 :: rest) (CS (if insideb k p0 then [p0] else []) p0 (mask_test k p0)))
    as (s' & E & R); [reflexivity|exact HX|].
  rewrite E. cbn [bind]. rewrite R. reflexivity.
Qed.

Lemma clip_step_panic m k s p pn : wf_mask k -> wf_point (cs_prev s) -> wf_point p ->
  cs_loc s = mask_test k (cs_prev s) -> clip_step m k s p = Panic pn -> m = Debug /\ pn = POverflow.
Proof.
  intros Hk Hp Hq Hl. unfold clip_step. rewrite Hl. set (prev := cs_prev s) in *.
  destruct (mask_test k prev) eqn:E1, (mask_test k p) eqn:E2; cbn [loc_eqb bind]; try discriminate.
  - destruct (mask_intersect m k prev p) eqn:E; cbn [bind]; [discriminate|]. intros [= ->].
    eapply mask_intersect_panic; [exact Hk|exact Hp|exact Hq| |exact E].
    left. split; [apply mask_test_inside|apply mask_test_outside]; assumption.
  - destruct (mask_intersect m k prev p) eqn:E; cbn [bind]; [discriminate|]. intros [= ->].
    eapply mask_intersect_panic; [exact Hk|exact Hp|exact Hq| |exact E].
    right. split; [apply mask_test_outside|apply mask_test_inside]; assumption.
Qed.

Lemma clip_edge_panic m k ps pn : wf_mask k -> wf_points ps -> clip_edge m k ps = Panic pn -> m = Debug /\ pn = POverflow.
Proof.
  intros Hk Hps. unfold clip_edge. destruct ps as [|p0 [|p1 rest]]; [discriminate|discriminate|]. cbv zeta.
  intros H. apply bind_Panic in H as [H|(s & _ & H)]; [|discriminate]. revert H.
  inversion Hps as [|? ? H0 Hr]; subst. clear Hps. revert H0 Hr. generalize (p1 :: rest). clear p1 rest. intros ps H0 Hr.
  set (s := CS _ _ _). assert (Hs1 : cs_loc s = mask_test k (cs_prev s)) by reflexivity.
  assert (Hs2 : wf_point (cs_prev s)) by exact H0. clearbody s. clear H0.
  revert s Hs1 Hs2. induction Hr as [|p ps Hp Hr IH]; intros s Hs1 Hs2; cbn [mfold]; [discriminate|].
  destruct (clip_step m k s p) as [s1|q] eqn:E; cbn [bind].
  - apply clip_step_ok in E as [-> _]; [|assumption]. apply IH; [reflexivity|exact Hp].
  - intros [= ->]. eapply clip_step_panic; [..|exact E]; assumption.
Qed.

(** ** The loop is the segment-by-segment clip *)
Lemma step_add_parts k X ret prev p : (inside k prev -> final ret = Some prev) ->
  ret ++ step_add k X ret prev p = fold_left append_part (kept_part k (X prev p) prev p) ret /\
  (inside k p -> final (ret ++ step_add k X ret prev p) = Some p).
Proof.
  intros Hi. unfold step_add, kept_part. rewrite !insideb_loc, !outsideb_loc.
  destruct (mask_test_spec k prev) as [H|[H|H]]; destruct H as (-> & H1 & H2 & H3);
  destruct (mask_test_spec k p) as [G|[G|G]]; destruct G as (-> & G1 & G2 & G3);
  cbn [loc_eqb fold_left append_part andb];
  try rewrite (Hi H1), pt_eqb_refl.
  - split; [reflexivity|]. intros _. apply final_app.
  - split; [reflexivity|]. intros _. apply final_app.
  - split; [reflexivity|]. intros HH. contradiction.
  - destruct (match final ret with Some z => pt_eqb z prev | None => false end).
    + split; [reflexivity|]. intros _. apply final_app.
    + split; [reflexivity|]. intros _. change [prev; p] with ([prev] ++ [p]). rewrite app_assoc. apply final_app.
  - rewrite app_nil_r. split; [reflexivity|]. contradiction.
  - rewrite app_nil_r. split; [reflexivity|]. contradiction.
  - split; [reflexivity|]. intros _. change [X prev p; p] with ([X prev p] ++ [p]). rewrite app_assoc. apply final_app.
  - rewrite app_nil_r. split; [reflexivity|]. contradiction.
  - rewrite app_nil_r. split; [reflexivity|]. contradiction.
Qed.

Lemma run_parts k X ps ret prev : (inside k prev -> final ret = Some prev) ->
  run k X ret prev ps = fold_left append_part (kept_parts k X (prev :: ps)) ret.
Proof.
  revert ret prev. induction ps as [|p ps IH]; intros ret prev Hi; [reflexivity|].
  destruct (step_add_parts k X ret prev p Hi) as [E F]. cbn [run]. rewrite IH by exact F.
  unfold kept_parts. cbn [tl combine flat_map fst snd]. rewrite fold_left_app, <- E. reflexivity.
Qed.

Lemma run_edge_clip_path k X ps : run_edge k X ps = clip_path k X ps.
Proof.
  destruct ps as [|p0 [|p1 rest]]; [reflexivity|reflexivity|]. unfold run_edge, clip_path.
  rewrite run_parts.
  - destruct (insideb k p0) eqn:E; [|reflexivity].
    unfold kept_parts. cbn [tl combine flat_map fst snd]. unfold kept_part at 1 3. rewrite E.
    cbn [app fold_left append_part final rev hd_error andb]. rewrite pt_eqb_refl. reflexivity.
  - intros Hi. apply (reflect_iff _ _ (insideb_spec k p0)) in Hi. rewrite Hi. reflexivity.
Qed.

Lemma clip_edge_path m k ps out : clip_edge m k ps = Ok out -> out = clip_path k (isect m k) ps.
Proof. intros H. apply clip_edge_ok in H as [-> _]. apply run_edge_clip_path. Qed.

(** ** Points of the output *)
Definition good_X (k : clip_mask) (X : point -> point -> point) (ps : list point) : Prop :=
  forall p q, In (p, q) (combine ps (tl ps)) -> opposite k p q -> on_line k (X p q).

Lemma clip_edge_good m k ps out : clip_edge m k ps = Ok out -> good_X k (isect m k) ps.
Proof.
  intros H. apply clip_edge_ok in H as [_ H]. intros p q Hin Ho. eapply mask_intersect_on_line, H; eassumption.
Qed.

Lemma on_line_not_inside k p : on_line k p -> insideb k p = false.
Proof.
  intros H. destruct (insideb_spec k p) as [Hi|]; [|reflexivity].
  destruct (mask_test_spec k p) as [G|[G|G]]; tauto.
Qed.
Lemma trichotomy k p : {inside k p} + {on_line k p} + {outside k p}.
Proof.
  destruct (mask_test k p) eqn:E.
  - left. left. apply mask_test_inside, E.
  - left. right. apply mask_test_on, E.
  - right. apply mask_test_outside, E.
Qed.
Lemma outside_not_inside k p : outside k p -> insideb k p = false.
Proof. intros H. destruct (insideb_spec k p) as [Hi|]; [|reflexivity]. destruct (mask_test_spec k p) as [G|[G|G]]; tauto. Qed.

Lemma step_add_inside k X ret prev p : (opposite k prev p -> on_line k (X prev p)) ->
  filter (insideb k) (ret ++ step_add k X ret prev p) = filter (insideb k) ret ++ (if insideb k p then [p] else []).
Proof.
  intros HX. rewrite filter_app. f_equal. unfold step_add. rewrite insideb_loc.
  destruct (mask_test k prev) eqn:E1, (mask_test k p) eqn:E2; cbn [loc_eqb filter]; rewrite ?insideb_loc, ?E1, ?E2; cbn [loc_eqb]; try reflexivity.
  - rewrite <- insideb_loc, on_line_not_inside; [reflexivity|]. apply HX. left. split; [apply mask_test_inside|apply mask_test_outside]; assumption.
  - destruct (match final ret with Some z => pt_eqb z prev | None => false end); cbn [filter]; rewrite ?insideb_loc, ?E1, ?E2; reflexivity.
  - rewrite <- (insideb_loc k (X prev p)), on_line_not_inside; [reflexivity|]. apply HX. right. split; [apply mask_test_outside|apply mask_test_inside]; assumption.
Qed.

Lemma run_inside k X ps ret prev : good_X k X (prev :: ps) ->
  filter (insideb k) (run k X ret prev ps) = filter (insideb k) ret ++ filter (insideb k) ps.
Proof.
  revert ret prev. induction ps as [|p ps IH]; intros ret prev HX; cbn [run].
  - rewrite app_nil_r. reflexivity.
  - rewrite IH by (intros a b H; apply HX; right; exact H).
    rewrite step_add_inside by (intros Ho; apply HX; [left; reflexivity|exact Ho]).
    rewrite <- app_assoc. f_equal. cbn [filter]. destruct (insideb k p); reflexivity.
Qed.

Lemma run_edge_inside k X ps : good_X k X ps -> (2 <= length ps)%nat ->
  filter (insideb k) (run_edge k X ps) = filter (insideb k) ps.
Proof.
  destruct ps as [|p0 [|p1 rest]]; cbn [length]; intros HX Hl; [lia|lia|]. unfold run_edge.
  rewrite run_inside by exact HX. set (t := p1 :: rest). cbn [filter].
  destruct (insideb k p0) eqn:E; cbn [filter app]; rewrite ?E; reflexivity.
Qed.

Definition kept_point (k : clip_mask) (p : point) : Prop := inside k p \/ on_line k p.

Lemma kept_part_points k x p q s : (opposite k p q -> on_line k x) -> In s (kept_part k x p q) ->
  kept_point k (fst (fst s)) /\ kept_point k (snd (fst s)).
Proof.
  intros HX. unfold kept_part, kept_point.
  destruct (insideb_spec k p) as [Hp|Hp].
  - intros [<-|[]]. cbn [fst snd]. split; [left; exact Hp|].
    destruct (outsideb_spec k q) as [Hq|Hq]; [right; apply HX; left; tauto|].
    destruct (trichotomy k q) as [[|]|]; tauto.
  - destruct (insideb_spec k q) as [Hq|Hq]; [|intros []].
    destruct (outsideb_spec k p) as [Hp'|Hp']; (intros [<-|[]]); cbn [fst snd].
    + split; [right; apply HX; right; tauto|left; exact Hq].
    + split; [|left; exact Hq]. destruct (trichotomy k p) as [[|]|]; tauto.
Qed.

Lemma kept_parts_points k X ps s : good_X k X ps -> In s (kept_parts k X ps) ->
  kept_point k (fst (fst s)) /\ kept_point k (snd (fst s)).
Proof.
  intros HX. unfold kept_parts. rewrite in_flat_map. intros ([p q] & Hin & Hs). cbn [fst snd] in Hs.
  eapply kept_part_points; [|exact Hs]. apply HX, Hin.
Qed.

Lemma append_part_in z out s : In z (append_part out s) -> In z out \/ z = fst (fst s) \/ z = snd (fst s).
Proof.
  destruct s as [[a b] v]. cbn [append_part fst snd].
  destruct (v && _); rewrite in_app_iff; cbn; intuition.
Qed.

Lemma fold_parts_in z parts out : In z (fold_left append_part parts out) ->
  In z out \/ exists s, In s parts /\ (z = fst (fst s) \/ z = snd (fst s)).
Proof.
  revert out. induction parts as [|s parts IH]; intros out; cbn [fold_left]; [tauto|].
  intros H. apply IH in H as [H|(s' & Hs & H)].
  - apply append_part_in in H as [H|H]; [tauto|]. right. exists s. split; [left; reflexivity|exact H].
  - right. exists s'. split; [right; exact Hs|exact H].
Qed.

Lemma clip_path_points k X ps : good_X k X ps -> Forall (kept_point k) (clip_path k X ps).
Proof.
  intros HX. apply Forall_forall. intros z Hz. unfold clip_path in Hz.
  apply fold_parts_in in Hz as [[]|(s & Hs & E)]. destruct (kept_parts_points k X ps s HX Hs). destruct E as [->| ->]; assumption.
Qed.

(** Every output point is an input point or a computed crossing of an input segment. *)
Lemma clip_path_origin k X ps z : In z (clip_path k X ps) ->
  In z ps \/ exists p q, In (p, q) (combine ps (tl ps)) /\ opposite k p q /\ z = X p q.
Proof.
  intros Hz. apply fold_parts_in in Hz as [[]|(s & Hs & E)].
  unfold kept_parts in Hs. rewrite in_flat_map in Hs. destruct Hs as ([p q] & Hin & Hs). cbn [fst snd] in Hs.
  pose proof (in_combine_l _ _ _ _ Hin) as Hp. pose proof (in_combine_r _ _ _ _ Hin) as Hq.
  assert (Hq' : In q ps) by (destruct ps; [destruct Hq|right; exact Hq]).
  unfold kept_part in Hs. destruct (insideb_spec k p) as [Ip|Ip].
  - destruct Hs as [<-|[]]. cbn [fst snd] in E. destruct E as [->| ->]; [left; exact Hp|].
    destruct (outsideb_spec k q); [|left; exact Hq']. right. exists p, q. split; [exact Hin|]. split; [left; tauto|reflexivity].
  - destruct (insideb_spec k q) as [Iq|Iq]; [|destruct Hs].
    destruct (outsideb_spec k p) as [Op|Op]; destruct Hs as [<-|[]]; cbn [fst snd] in E.
    + destruct E as [->| ->]; [|left; exact Hq']. right. exists p, q. split; [exact Hin|]. split; [right; tauto|reflexivity].
    + destruct E as [->| ->]; [left; exact Hp|left; exact Hq'].
Qed.

(** ** Lengths *)
Lemma append_part_length out s : (length (append_part out s) <= length out + 2)%nat /\ (length out + 1 <= length (append_part out s))%nat.
Proof. destruct s as [[a b] v]. cbn [append_part]. destruct (v && _); rewrite app_length; cbn; lia. Qed.

Lemma fold_parts_length parts out :
  (length (fold_left append_part parts out) <= length out + 2 * length parts)%nat /\
  (length out + length parts <= length (fold_left append_part parts out))%nat.
Proof.
  revert out. induction parts as [|s parts IH]; intros out; cbn [fold_left length]; [lia|].
  destruct (IH (append_part out s)). destruct (append_part_length out s). lia.
Qed.

Lemma kept_part_length k x p q : (length (kept_part k x p q) <= 1)%nat.
Proof. unfold kept_part. destruct (insideb k p); [cbn; lia|]. destruct (insideb k q); [|cbn; lia]. destruct (outsideb k p); cbn; lia. Qed.

Lemma kept_parts_length k X ps : (length (kept_parts k X ps) <= length ps - 1)%nat.
Proof.
  unfold kept_parts. assert (L : (length (combine ps (tl ps)) <= length ps - 1)%nat).
  { rewrite combine_length. destruct ps; cbn [tl length]; lia. }
  etransitivity; [|exact L]. clear L. induction (combine ps (tl ps)) as [|[p q] l IH]; [cbn; lia|].
  cbn [flat_map fst snd length]. rewrite app_length. pose proof (kept_part_length k (X p q) p q). lia.
Qed.

Lemma clip_path_length k X ps : (length (clip_path k X ps) <= 2 * (length ps - 1))%nat.
Proof.
  unfold clip_path. pose proof (fold_parts_length (kept_parts k X ps) []) as [H _].
  pose proof (kept_parts_length k X ps). cbn [length] in H. lia.
Qed.

Lemma kept_parts_nonempty k X ps : (2 <= length ps)%nat ->
  (kept_parts k X ps = [] <-> forall p, In p ps -> ~ inside k p).
Proof.
  unfold kept_parts. destruct ps as [|p0 ps]; cbn [length]; [lia|]. intros Hl. cbn [tl].
  assert (HP : forall p q, kept_part k (X p q) p q = [] <-> ~ inside k p /\ ~ inside k q).
  { intros p q. unfold kept_part. destruct (insideb_spec k p) as [Ip|Ip]; [split; [discriminate|tauto]|].
    destruct (insideb_spec k q) as [Iq|Iq]; [|tauto]. destruct (outsideb k p); split; (discriminate || tauto). }
  revert p0 Hl. induction ps as [|p1 ps IH]; intros p0 Hl; cbn [length] in Hl; [lia|].
  cbn [combine flat_map fst snd]. destruct ps as [|p2 ps].
  - cbn [combine flat_map]. rewrite app_nil_r, HP. cbn [In]. split; [intros [A B] p [<-|[<-|[]]]; assumption|auto].
  - assert (H2 : (2 <= S (length (p2 :: ps)))%nat) by (cbn; lia). specialize (IH p1 H2).
    split.
    + intros E. apply app_eq_nil in E as [E1 E2]. apply HP in E1 as [A B]. rewrite IH in E2.
      intros p [<-|Hp]; [assumption|auto].
    + intros H. rewrite (proj2 (HP p0 p1)) by (split; apply H; cbn; auto). cbn [app]. apply IH.
      intros p Hp. apply H. right. exact Hp.
Qed.

Lemma clip_path_empty k X ps : (2 <= length ps)%nat ->
  (clip_path k X ps = [] <-> forall p, In p ps -> ~ inside k p) /\
  (clip_path k X ps = [] \/ (2 <= length (clip_path k X ps))%nat).
Proof.
  intros Hl. rewrite <- (kept_parts_nonempty k X ps Hl). unfold clip_path.
  destruct (kept_parts k X ps) as [|[[a b] v] parts]; [split; [tauto|left; reflexivity]|].
  cbn [fold_left append_part final rev hd_error]. rewrite andb_false_r. cbn [app].
  pose proof (fold_parts_length parts [a; b]) as [_ H]. cbn [length] in H.
  split; [|right; lia]. split; [|discriminate]. intros E. rewrite E in H. cbn in H. lia.
Qed.

(** ** Up to repetitions, the output lists the kept parts *)
Lemma fold_parts_dedup parts out r :
  dedup (fold_left append_part parts out ++ r) = dedup (out ++ part_points parts ++ r).
Proof.
  revert out. induction parts as [|[[a b] v] parts IH]; intros out; [reflexivity|].
  cbn [fold_left append_part part_points flat_map fst snd]. rewrite IH.
  destruct (v && _) eqn:E; [|rewrite <- !app_assoc; reflexivity].
  apply andb_true_iff in E as [_ E]. destruct (final out) as [z|] eqn:Ez; [|discriminate].
  apply pt_eqb_eq in E. subst z. apply final_some in Ez as [o ->]. rewrite <- !app_assoc. cbn [app].
  rewrite dedup_app_dup. reflexivity.
Qed.

Lemma clip_path_dedup k X ps : dedup (clip_path k X ps) = dedup (part_points (kept_parts k X ps)).
Proof.
  pose proof (fold_parts_dedup (kept_parts k X ps) [] []) as H. rewrite !app_nil_r in H. exact H.
Qed.

(** ** Joined along the mask line *)
Lemma first_part_on_line k X q t s l : good_X k X (q :: t) -> ~ inside k q ->
  kept_parts k X (q :: t) = s :: l -> on_line k (fst (fst s)).
Proof.
  revert q. induction t as [|r t IH]; intros q HX Hq; [discriminate|].
  unfold kept_parts. cbn [tl combine flat_map fst snd]. unfold kept_part at 1.
  destruct (insideb_spec k q); [contradiction|]. destruct (insideb_spec k r) as [Hr|Hr].
  - destruct (outsideb_spec k q) as [Oq|Oq]; cbn [app]; intros [= <- _]; cbn [fst].
    + apply HX; [left; reflexivity|]. right. tauto.
    + destruct (trichotomy k q) as [[|]|]; tauto.
  - cbn [app]. intros E. apply (IH r); [|assumption|exact E]. intros a b H. apply HX. right. exact H.
Qed.

Lemma kept_parts_joined k X ps : good_X k X ps -> parts_joined k (kept_parts k X ps).
Proof.
  induction ps as [|p ps IH]; intros HX; [exact I|]. destruct ps as [|q t]; [exact I|].
  assert (HX' : good_X k X (q :: t)) by (intros a b H; apply HX; right; exact H).
  specialize (IH HX'). change (kept_parts k X (p :: q :: t)) with (kept_part k (X p q) p q ++ kept_parts k X (q :: t)).
  pose proof (kept_part_length k (X p q) p q) as Hl.
  destruct (kept_part k (X p q) p q) as [|s [|]] eqn:Es; [exact IH| |cbn in Hl; lia]. cbn [app].
  destruct (kept_parts k X (q :: t)) as [|s' l] eqn:E'; [exact I|]. cbn [parts_joined]. split; [|exact IH].
  destruct (insideb_spec k q) as [Iq|Iq].
  - left.
    assert (fst (fst s') = q).
    { destruct t as [|r t]; [discriminate|]. unfold kept_parts in E'. cbn [tl combine flat_map fst snd] in E'.
      unfold kept_part in E' at 1. destruct (insideb_spec k q); [|contradiction]. cbn [app] in E'. injection E' as <- _. reflexivity. }
    unfold kept_part in Es. destruct (insideb k p).
    + injection Es as <-. cbn [fst snd]. destruct (outsideb_spec k q) as [Oq|]; [|congruence].
      destruct (mask_test_spec k q) as [G|[G|G]]; tauto.
    + destruct (insideb_spec k q); [|contradiction]. destruct (outsideb k p); injection Es as <-; cbn [fst snd]; congruence.
  - right. split.
    + unfold kept_part in Es. destruct (insideb_spec k p) as [Ip|Ip].
      * injection Es as <-. cbn [fst snd]. destruct (outsideb_spec k q) as [Oq|Oq].
        -- apply HX; [left; reflexivity|left; tauto].
        -- destruct (trichotomy k q) as [[|]|]; tauto.
      * destruct (insideb_spec k q); [contradiction|discriminate].
    + eapply first_part_on_line; eassumption.
Qed.

(** ** All inside *)
Lemma run_all_inside k X ps ret prev : inside k prev -> Forall (inside k) ps -> run k X ret prev ps = ret ++ ps.
Proof.
  revert ret prev. induction ps as [|p ps IH]; intros ret prev Hp HF; cbn [run]; [rewrite app_nil_r; reflexivity|].
  inversion HF; subst. rewrite IH by assumption. unfold step_add.
  rewrite (proj2 (mask_test_inside k prev)), (proj2 (mask_test_inside k p)) by assumption.
  rewrite <- app_assoc. reflexivity.
Qed.
Lemma run_edge_all_inside k X ps : (2 <= length ps)%nat -> Forall (inside k) ps -> run_edge k X ps = ps.
Proof.
  destruct ps as [|p0 [|p1 rest]]; cbn [length]; intros Hl HF; [lia|lia|]. unfold run_edge.
  inversion HF; subst. rewrite run_all_inside by assumption.
  apply (reflect_iff _ _ (insideb_spec k p0)) in H1. rewrite H1. reflexivity.
Qed.

(** ** Clipping again *)
Definition rerun (k : clip_mask) (X : point -> point -> point) (ps : list point) : list point :=
  match ps with [] => [] | p0 :: rest => run k X (if insideb k p0 then [p0] else []) p0 rest end.

Lemma run_snoc k X ps ret prev p :
  run k X ret prev (ps ++ [p]) =
    run k X ret prev ps ++ step_add k X (run k X ret prev ps) (last (prev :: ps) prev) p.
Proof.
  revert ret prev. induction ps as [|q ps IH]; intros ret prev; [reflexivity|]. cbn [app run]. rewrite IH.
  change (last (prev :: q :: ps) prev) with (last (q :: ps) prev).
  rewrite (last_default (q :: ps) q prev) by discriminate. reflexivity.
Qed.

Lemma rerun_snoc k X ps q p : final ps = Some q ->
  rerun k X (ps ++ [p]) = rerun k X ps ++ step_add k X (rerun k X ps) q p.
Proof.
  destruct ps as [|p0 ps]; [discriminate|]. rewrite final_last. intros Hq. cbn [app rerun]. rewrite run_snoc.
  assert (last (p0 :: ps) p0 = q) by congruence. rewrite H. reflexivity.
Qed.

(** The shapes clip_edge produces: runs of inside points separated by one or two points on the
    line. [strict] additionally forbids repetitions on the line. *)
Inductive out_shape (k : clip_mask) (strict : bool) : list point -> Prop :=
| os_nil : out_shape k strict []
| os_in p : inside k p -> out_shape k strict [p]
| os_on o p : on_line k o -> inside k p -> out_shape k strict [o; p]
| os_in_in l q p : out_shape k strict l -> final l = Some q -> inside k q -> inside k p -> out_shape k strict (l ++ [p])
| os_in_on l q o : out_shape k strict l -> final l = Some q -> inside k q -> on_line k o -> out_shape k strict (l ++ [o])
| os_on_in l q p : out_shape k strict l -> final l = Some q -> on_line k q -> inside k p -> out_shape k strict (l ++ [p])
| os_on_on_in l q o p : out_shape k strict l -> final l = Some q -> on_line k q -> on_line k o -> inside k p ->
    (strict = true -> q <> o) -> out_shape k strict (l ++ [o; p]).

Lemma out_shape_final_kept k b l q : out_shape k b l -> final l = Some q -> kept_point k q.
Proof.
  intros H. unfold kept_point. revert q. induction H; intros z Hz; try discriminate.
  - injection Hz as <-. auto.
  - injection Hz as <-. auto.
  - rewrite final_app in Hz. injection Hz as <-. auto.
  - rewrite final_app in Hz. injection Hz as <-. auto.
  - rewrite final_app in Hz. injection Hz as <-. auto.
  - change [o; p] with ([o] ++ [p]) in Hz. rewrite app_assoc, final_app in Hz. injection Hz as <-. auto.
Qed.

Lemma step_shape k X ret prev p :
  (opposite k prev p -> on_line k (X prev p)) ->
  out_shape k false ret -> (inside k prev -> final ret = Some prev) ->
  out_shape k false (ret ++ step_add k X ret prev p) /\
  (inside k p -> final (ret ++ step_add k X ret prev p) = Some p).
Proof.
  intros HX HS Hi. split; [|apply step_add_parts; exact Hi]. unfold step_add.
  assert (HE : forall o, on_line k o -> inside k p -> out_shape k false (ret ++ [o; p]) \/
            exists q, final ret = Some q /\ inside k q).
  { intros o Ho Hp. destruct (final ret) as [q|] eqn:Eq.
    - destruct (out_shape_final_kept _ _ _ _ HS Eq) as [Hq|Hq]; [right; eauto|].
      left. eapply os_on_on_in; try eassumption. discriminate.
    - left. destruct ret; [|rewrite final_last in Eq; discriminate]. cbn [app]. apply os_on; assumption. }
  destruct (mask_test_spec k prev) as [H|[H|H]]; destruct H as (-> & H1 & H2 & H3);
  destruct (mask_test_spec k p) as [G|[G|G]]; destruct G as (-> & G1 & G2 & G3); rewrite ?app_nil_r; try assumption.
  - eapply os_in_in; eauto.
  - eapply os_in_on; eauto.
  - eapply os_in_on; eauto. apply HX. left. tauto.
  - destruct (final ret) as [z|] eqn:Ez.
    + destruct (pt_eqb_spec z prev) as [->|Hz].
      * eapply os_on_in; eauto.
      * destruct (out_shape_final_kept _ _ _ _ HS Ez) as [Hin|Hon].
        -- change [prev; p] with ([prev] ++ [p]). rewrite app_assoc. eapply os_on_in; [|apply final_app|assumption|assumption].
           eapply os_in_on; eauto.
        -- eapply os_on_on_in; eauto.
    + destruct ret; [|rewrite final_last in Ez; discriminate]. cbn [app]. apply os_on; assumption.
  - assert (Hx : on_line k (X prev p)) by (apply HX; right; tauto).
    destruct (HE _ Hx G1) as [|(q & Eq & Hq)]; [assumption|].
    change [X prev p; p] with ([X prev p] ++ [p]). rewrite app_assoc. eapply os_on_in; [|apply final_app|assumption|assumption].
    eapply os_in_on; eauto.
Qed.

Lemma run_shape k X ps ret prev : good_X k X (prev :: ps) -> out_shape k false ret ->
  (inside k prev -> final ret = Some prev) -> out_shape k false (run k X ret prev ps).
Proof.
  revert ret prev. induction ps as [|p ps IH]; intros ret prev HX HS Hi; cbn [run]; [assumption|].
  destruct (step_shape k X ret prev p) as [S1 S2]; [intros Ho; apply HX; [left; reflexivity|exact Ho]|assumption|assumption|].
  apply IH; [|assumption|assumption]. intros a b H. apply HX. right. exact H.
Qed.

Lemma run_edge_shape k X ps : good_X k X ps -> out_shape k false (run_edge k X ps).
Proof.
  intros HX. destruct ps as [|p0 [|p1 rest]]; [constructor|constructor|]. unfold run_edge.
  apply run_shape; [exact HX| |].
  - destruct (insideb_spec k p0); constructor. assumption.
  - intros Hi. apply (reflect_iff _ _ (insideb_spec k p0)) in Hi. rewrite Hi. reflexivity.
Qed.

Lemma mt_in k p : inside k p -> mask_test k p = Inside.
Proof. apply mask_test_inside. Qed.
Lemma mt_on k p : on_line k p -> mask_test k p = OnEdge.
Proof. apply mask_test_on. Qed.

Lemma rerun_strict k X l : out_shape k true l -> rerun k X l = l.
Proof.
  induction 1 as [ |p Hp|o p Ho Hp|l q p HS IH Hq Iq Ip|l q o HS IH Hq Iq Io|l q p HS IH Hq Iq Ip|l q o p HS IH Hq Iq Io Ip Hne].
  - reflexivity.
  - cbn. apply (reflect_iff _ _ (insideb_spec k p)) in Hp. rewrite Hp. reflexivity.
  - cbn. rewrite on_line_not_inside by assumption. unfold step_add. rewrite (mt_on k o), (mt_in k p) by assumption. reflexivity.
  - rewrite (rerun_snoc _ _ _ q) by assumption. rewrite IH. unfold step_add. rewrite (mt_in k q), (mt_in k p) by assumption. reflexivity.
  - rewrite (rerun_snoc _ _ _ q) by assumption. rewrite IH. unfold step_add. rewrite (mt_in k q), (mt_on k o) by assumption. reflexivity.
  - rewrite (rerun_snoc _ _ _ q) by assumption. rewrite IH. unfold step_add. rewrite (mt_on k q), (mt_in k p) by assumption.
    rewrite Hq, pt_eqb_refl. reflexivity.
  - change [o; p] with ([o] ++ [p]). rewrite app_assoc. rewrite (rerun_snoc _ _ _ o) by apply final_app.
    rewrite (rerun_snoc _ _ _ q) by assumption. rewrite IH. unfold step_add at 1 3. rewrite (mt_on k q), (mt_on k o) by assumption.
    rewrite app_nil_r. unfold step_add. rewrite (mt_on k o), (mt_in k p) by assumption. rewrite Hq.
    destruct (pt_eqb_spec q o); [destruct (Hne eq_refl); assumption|]. rewrite <- app_assoc. reflexivity.
Qed.

(** dedup and appending *)
Lemma dedup_hd p l : exists t, dedup (p :: l) = p :: t.
Proof.
  revert p. induction l as [|q l IH]; intros p; [exists []; reflexivity|]. rewrite dedup_cons2.
  destruct (pt_eqb_spec p q) as [->|]; [apply IH|]. eauto.
Qed.
Lemma dedup_app_l a r : dedup (a ++ r) = dedup (dedup a ++ r).
Proof.
  induction a as [|p [|q t] IH]; [reflexivity|reflexivity|]. rewrite dedup_cons2. cbn [app] in *. rewrite dedup_cons2.
  destruct (pt_eqb_spec p q) as [->|Hn]; [exact IH|]. rewrite IH. destruct (dedup_hd q t) as [t' ->]. cbn [app].
  rewrite dedup_cons2. destruct (pt_eqb_spec p q); [contradiction|]. reflexivity.
Qed.
Lemma dedup_app_cong a b r : dedup a = dedup b -> dedup (a ++ r) = dedup (b ++ r).
Proof. intros H. rewrite (dedup_app_l a), (dedup_app_l b), H. reflexivity. Qed.

Lemma subseq_refl {A} (l : list A) : subseq l l.
Proof. induction l; constructor; assumption. Qed.
Lemma subseq_app {A} (a b c d : list A) : subseq a b -> subseq c d -> subseq (a ++ c) (b ++ d).
Proof. intros H H'. induction H; cbn [app]; [assumption|constructor; assumption|constructor; assumption]. Qed.
Lemma subseq_nil {A} (l : list A) : subseq [] l.
Proof. induction l; constructor; assumption. Qed.

Lemma rerun_shape k X l : out_shape k false l ->
  out_shape k true (rerun k X l) /\ final (rerun k X l) = final l /\
  dedup (rerun k X l) = dedup l /\ subseq (rerun k X l) l.
Proof.
  induction 1 as [ |p Hp|o p Ho Hp|l q p HS IH Hq Iq Ip|l q o HS IH Hq Iq Io|l q p HS IH Hq Iq Ip|l q o p HS IH Hq Iq Io Ip Hne].
  - cbn. repeat split; constructor.
  - rewrite rerun_strict by (constructor; assumption). repeat split; [constructor; assumption|apply subseq_refl].
  - rewrite rerun_strict by (constructor; assumption). repeat split; [constructor; assumption|apply subseq_refl].
  - destruct IH as (I1 & I2 & I3 & I4). rewrite (rerun_snoc _ _ _ q) by assumption.
    unfold step_add. rewrite (mt_in k q), (mt_in k p) by assumption. rewrite !final_app. rewrite Hq in I2.
    split; [eapply os_in_in; eassumption|]. split; [reflexivity|]. split; [apply dedup_app_cong, I3|].
    apply subseq_app; [assumption|apply subseq_refl].
  - destruct IH as (I1 & I2 & I3 & I4). rewrite (rerun_snoc _ _ _ q) by assumption.
    unfold step_add. rewrite (mt_in k q), (mt_on k o) by assumption. rewrite !final_app. rewrite Hq in I2.
    split; [eapply os_in_on; eassumption|]. split; [reflexivity|]. split; [apply dedup_app_cong, I3|].
    apply subseq_app; [assumption|apply subseq_refl].
  - destruct IH as (I1 & I2 & I3 & I4). rewrite (rerun_snoc _ _ _ q) by assumption.
    unfold step_add. rewrite (mt_on k q), (mt_in k p) by assumption. rewrite I2, Hq, pt_eqb_refl. rewrite Hq in I2. rewrite !final_app.
    split; [eapply os_on_in; eassumption|]. split; [reflexivity|]. split; [apply dedup_app_cong, I3|].
    apply subseq_app; [assumption|apply subseq_refl].
  - destruct IH as (I1 & I2 & I3 & I4). rewrite Hq in I2.
    change [o; p] with ([o] ++ [p]). rewrite app_assoc. rewrite (rerun_snoc _ _ _ o) by apply final_app.
    rewrite (rerun_snoc _ _ _ q) by assumption.
    assert (E0 : step_add k X (rerun k X l) q o = []) by (unfold step_add; rewrite (mt_on k q), (mt_on k o) by assumption; reflexivity).
    rewrite E0, app_nil_r.
    unfold step_add. rewrite (mt_on k o), (mt_in k p) by assumption. rewrite I2.
    destruct (pt_eqb_spec q o) as [->|Hqo].
    + rewrite !final_app. split; [eapply os_on_in; eassumption|]. split; [reflexivity|].
      split; [|rewrite <- app_assoc; apply subseq_app; [assumption|apply sub_skip, subseq_refl]].
      rewrite <- app_assoc. cbn [app]. apply final_some in Hq as [l' ->]. rewrite <- app_assoc. cbn [app].
      rewrite dedup_app_dup. rewrite (dedup_app_cong _ _ [p] I3). rewrite <- app_assoc. reflexivity.
    + rewrite <- app_assoc. cbn [app].
      split; [eapply os_on_on_in; try eassumption; intros _; assumption|].
      split; [change [o; p] with ([o] ++ [p]); rewrite !app_assoc, !final_app; reflexivity|].
      split; [apply dedup_app_cong, I3|]. apply subseq_app; [assumption|apply subseq_refl].
Qed.

Lemma run_edge_rerun k X ps : (length ps <> 1)%nat -> run_edge k X ps = rerun k X ps.
Proof. destruct ps as [|p0 [|p1 rest]]; cbn [length]; intros H; [reflexivity|lia|reflexivity]. Qed.

Lemma good_X_kept k X ps : Forall (kept_point k) ps -> good_X k X ps.
Proof.
  intros HF p q Hin Ho. exfalso. rewrite Forall_forall in HF.
  pose proof (HF p (in_combine_l _ _ _ _ Hin)) as Hp.
  pose proof (in_combine_r _ _ _ _ Hin) as Hq. assert (Hq' : In q ps) by (destruct ps; [destruct Hq|right; exact Hq]).
  pose proof (HF q Hq') as Hk. unfold kept_point, opposite in *.
  destruct (mask_test_spec k p) as [G|[G|G]]; destruct (mask_test_spec k q) as [G'|[G'|G']]; tauto.
Qed.

Lemma clip_edge_no_outside m k ps : Forall (kept_point k) ps -> clip_edge m k ps = Ok (run_edge k (isect m k) ps).
Proof.
  intros HF. apply clip_edge_returns. intros p q Hin Ho. exfalso. rewrite Forall_forall in HF.
  pose proof (HF p (in_combine_l _ _ _ _ Hin)) as Hp.
  pose proof (in_combine_r _ _ _ _ Hin) as Hq. assert (Hq' : In q ps) by (destruct ps; [destruct Hq|right; exact Hq]).
  pose proof (HF q Hq') as Hk. unfold kept_point, opposite in *.
  destruct (mask_test_spec k p) as [G|[G|G]]; destruct (mask_test_spec k q) as [G'|[G'|G']]; tauto.
Qed.

Lemma clip_edge_again m k ps out : clip_edge m k ps = Ok out ->
  exists out', clip_edge m k out = Ok out' /\ dedup out' = dedup out /\ subseq out' out /\
    clip_edge m k out' = Ok out'.
Proof.
  intros H. pose proof (clip_edge_good m k ps out H) as HX. pose proof (clip_edge_path m k ps out H) as Hp.
  pose proof (clip_path_points k _ ps HX) as HF. rewrite <- Hp in HF.
  assert (Hs : out_shape k false out).
  { rewrite Hp, <- run_edge_clip_path. apply run_edge_shape, HX. }
  assert (Hl : (length out <> 1)%nat).
  { rewrite Hp. destruct ps as [|p0 [|p1 rest]]; [cbn; lia|cbn; lia|].
    destruct (clip_path_empty k (isect m k) (p0 :: p1 :: rest)) as [_ [->|Hl]]; [cbn; lia|cbn; lia|lia]. }
  exists (run_edge k (isect m k) out). rewrite clip_edge_no_outside by assumption. split; [reflexivity|].
  rewrite run_edge_rerun by assumption. destruct (rerun_shape k (isect m k) out Hs) as (S1 & S2 & S3 & S4).
  split; [assumption|]. split; [assumption|].
  assert (HF' : Forall (kept_point k) (rerun k (isect m k) out)).
  { apply Forall_forall. intros z Hz. rewrite Forall_forall in HF. apply HF. clear - S4 Hz.
    revert Hz. induction S4; [auto|intros; right; auto|intros [->|]; [left; reflexivity|right; auto]]. }
  rewrite clip_edge_no_outside by assumption. f_equal.
  rewrite run_edge_rerun; [apply rerun_strict, S1|].
  clear - S2 S3 Hl S4 S1. intros E. destruct (rerun k (isect m k) out) as [|a [|b l]] eqn:Er; try discriminate.
  inversion S1; subst.
  - (* single inside point *) destruct out as [|x [|y t]]; [inversion S4|cbn in Hl; lia|].
    exfalso. clear E. rewrite <- run_edge_rerun in Er by (cbn; lia). rewrite run_edge_clip_path in Er.
    destruct (clip_path_empty k (isect m k) (x :: y :: t)) as [_ [E|E]]; [cbn; lia|congruence|rewrite Er in E; cbn in E; lia].
  - destruct l; [|destruct l; discriminate]. discriminate.
  - destruct l; [|destruct l; discriminate]. discriminate.
  - destruct l; [|destruct l; discriminate]. discriminate.
  - destruct l; [discriminate|destruct l; discriminate].
Qed.

(** ** Reversal *)
Lemma dedup_snoc a x : dedup (a ++ [x]) = match final a with
  | Some z => if pt_eqb z x then dedup a else dedup a ++ [x] | None => [x] end.
Proof.
  induction a as [|p [|q t] IH]; [reflexivity| |].
  - cbn [app]. rewrite dedup_cons2. cbn. destruct (pt_eqb_spec p x) as [->|]; reflexivity.
  - rewrite final_cons. cbn [app] in *. rewrite !dedup_cons2, IH. destruct (final (q :: t)) as [z|] eqn:Ez.
    + destruct (pt_eqb p q), (pt_eqb z x); reflexivity.
    + rewrite final_last in Ez. discriminate.
Qed.
Lemma dedup_rev l : dedup (rev l) = rev (dedup l).
Proof.
  induction l as [|p l IH]; [reflexivity|]. cbn [rev]. rewrite dedup_snoc, final_rev, IH.
  destruct l as [|q t]; [reflexivity|]. cbn [first hd_error]. rewrite dedup_cons2, pt_eqb_sym.
  destruct (pt_eqb p q); reflexivity.
Qed.

Lemma combine_snoc {A B} (l : list A) (l' : list B) a b : length l = length l' -> combine (l ++ [a]) (l' ++ [b]) = combine l l' ++ [(a, b)].
Proof. revert l'. induction l as [|x l IH]; intros [|y l'] H; try discriminate; [reflexivity|]. cbn. f_equal. apply IH. cbn in H. lia. Qed.

Lemma segs_snoc l p q : final l = Some q -> combine (l ++ [p]) (tl (l ++ [p])) = combine l (tl l) ++ [(q, p)].
Proof.
  revert q. induction l as [|a l IH]; intros q H; [discriminate|]. destruct l as [|b l].
  - injection H as <-. reflexivity.
  - rewrite final_cons in H. specialize (IH q H).
    change ((a, b) :: combine ((b :: l) ++ [p]) (tl ((b :: l) ++ [p])) = ((a, b) :: combine (b :: l) (tl (b :: l))) ++ [(q, p)]).
    rewrite IH. reflexivity.
Qed.

Lemma segs_rev l : combine (rev l) (tl (rev l)) = rev (map (fun s : point * point => (snd s, fst s)) (combine l (tl l))).
Proof.
  induction l as [|p l IH]; [reflexivity|]. cbn [rev]. destruct l as [|q t]; [reflexivity|].
  rewrite (segs_snoc _ _ q) by (rewrite final_rev; reflexivity). rewrite IH. reflexivity.
Qed.

Lemma part_points_app a b : part_points (a ++ b) = part_points a ++ part_points b.
Proof. apply flat_map_app. Qed.

Lemma kept_part_swap k x p q : part_points (kept_part k x q p) = rev (part_points (kept_part k x p q)).
Proof.
  unfold kept_part. destruct (insideb_spec k p) as [Ip|Ip], (insideb_spec k q) as [Iq|Iq];
    destruct (outsideb_spec k p) as [Op|Op], (outsideb_spec k q) as [Oq|Oq]; cbn; try reflexivity; exfalso;
    try (destruct (mask_test_spec k p) as [G|[G|G]]; tauto); destruct (mask_test_spec k q) as [G|[G|G]]; tauto.
Qed.

Lemma kept_parts_rev k X ps : (forall p q, In (p, q) (combine ps (tl ps)) -> opposite k p q -> X q p = X p q) ->
  part_points (kept_parts k X (rev ps)) = rev (part_points (kept_parts k X ps)).
Proof.
  unfold kept_parts. rewrite segs_rev. generalize (combine ps (tl ps)). intros l HX.
  induction l as [|[p q] l IH]; [reflexivity|]. cbn [map rev flat_map fst snd].
  rewrite flat_map_app, part_points_app, IH by (intros; apply HX; [right; assumption|assumption]).
  cbn [flat_map fst snd]. rewrite app_nil_r, part_points_app, rev_app_distr. f_equal.
  rewrite <- (kept_part_swap k (X p q)).
  assert (HE : X q p = X p q \/ ~ opposite k p q).
  { destruct (trichotomy k p) as [[|]|], (trichotomy k q) as [[|]|];
    try (left; apply HX; [left; reflexivity|unfold opposite; tauto]); right; unfold opposite;
    destruct (mask_test_spec k p) as [G|[G|G]]; destruct (mask_test_spec k q) as [G'|[G'|G']]; tauto. }
  destruct HE as [->|Hn]; [reflexivity|]. unfold kept_part.
  destruct (insideb_spec k q) as [Iq|Iq], (insideb_spec k p) as [Ip|Ip];
    destruct (outsideb_spec k p) as [Op|Op], (outsideb_spec k q) as [Oq|Oq]; try reflexivity; exfalso; apply Hn; unfold opposite; tauto.
Qed.

Lemma clip_edge_rev m k ps out out' : clip_edge m k ps = Ok out -> clip_edge m k (rev ps) = Ok out' ->
  (forall p q, In (p, q) (combine ps (tl ps)) -> opposite k p q -> mask_intersect m k q p = mask_intersect m k p q) ->
  dedup out' = rev (dedup out).
Proof.
  intros H H' HX. apply clip_edge_path in H, H'. subst. rewrite !clip_path_dedup, kept_parts_rev, dedup_rev; [reflexivity|].
  intros p q Hin Ho. unfold isect. rewrite HX by assumption. reflexivity.
Qed.
