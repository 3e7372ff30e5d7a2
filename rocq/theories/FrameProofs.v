(** * FrameProofs: clipping an edge in another frame *)
From Coq Require Import Znumtheory Zpow_facts.
From Verif Require Import FrameSpec GeoProofs TopoProofs ClipEdgeProofs.

(** ** Frames *)
Lemma place_inj b o v w : place b o v = place b o w -> v = w.
Proof. unfold place. destruct b; lia. Qed.

Lemma moved_inj f p q : moved f p = moved f q -> p = q.
Proof.
  destruct f as [s fx fy ox oy], p as [a b], q as [c d]. unfold moved. cbn [fr_swap fr_flip_x fr_flip_y fr_x fr_y px py].
  intros H. destruct s; injection H as H1 H2; apply place_inj in H1, H2; subst; reflexivity.
Qed.

Lemma moved_eqb f p q : pt_eqb (moved f p) (moved f q) = pt_eqb p q.
Proof.
  destruct (pt_eqb_spec p q) as [->|H]; [apply pt_eqb_refl|]. apply pt_eqb_neq. intros E. apply H, (moved_inj f), E.
Qed.

Definition inverse (f : frame) : frame :=
  let back (flip : bool) (o : Z) := if flip then o else - o in
  if fr_swap f
  then Frame true (fr_flip_y f) (fr_flip_x f) (back (fr_flip_y f) (fr_y f)) (back (fr_flip_x f) (fr_x f))
  else Frame false (fr_flip_x f) (fr_flip_y f) (back (fr_flip_x f) (fr_x f)) (back (fr_flip_y f) (fr_y f)).

Lemma inverse_moved f p : moved (inverse f) (moved f p) = p.
Proof.
  destruct f as [[] [] [] ox oy], p as [a b]; unfold moved, inverse, place; cbn [fr_swap fr_flip_x fr_flip_y fr_x fr_y px py]; f_equal; lia.
Qed.

Lemma inverse_points f ps : moved_points (inverse f) (moved_points f ps) = ps.
Proof. unfold moved_points. rewrite map_map. rewrite <- (map_id ps) at 2. apply map_ext, inverse_moved. Qed.

Lemma inverse_mask f k : moved_mask (inverse f) (moved_mask f k) = k.
Proof.
  destruct f as [[] [] [] ox oy], k as [v|v|v|v]; unfold moved_mask, inverse, place, level;
    cbn [fr_swap fr_flip_x fr_flip_y fr_x fr_y xorb]; f_equal; lia.
Qed.

(** ** Masks *)
Lemma moved_inside f k p : insideb (moved_mask f k) (moved f p) = insideb k p.
Proof.
  destruct f as [[] [] [] ox oy], k as [v|v|v|v], p as [a b];
    unfold moved_mask, moved, place, insideb, outsideb, level; cbn [fr_swap fr_flip_x fr_flip_y fr_x fr_y xorb px py];
    apply eq_true_iff_eq; rewrite !Z.ltb_lt; lia.
Qed.

Lemma moved_outside f k p : outsideb (moved_mask f k) (moved f p) = outsideb k p.
Proof.
  destruct f as [[] [] [] ox oy], k as [v|v|v|v], p as [a b];
    unfold moved_mask, moved, place, insideb, outsideb, level; cbn [fr_swap fr_flip_x fr_flip_y fr_x fr_y xorb px py];
    apply eq_true_iff_eq; rewrite !Z.ltb_lt; lia.
Qed.

Lemma loc_of k p : mask_test k p = if insideb k p then Inside else if outsideb k p then Outside else OnEdge.
Proof.
  rewrite insideb_loc, outsideb_loc. destruct (mask_test k p); reflexivity.
Qed.

Lemma moved_test f k p : mask_test (moved_mask f k) (moved f p) = mask_test k p.
Proof. rewrite !loc_of, moved_inside, moved_outside. reflexivity. Qed.

Lemma moved_opposite f k p q : opposite (moved_mask f k) (moved f p) (moved f q) <-> opposite k p q.
Proof.
  unfold opposite. rewrite <- !mask_test_inside, <- !mask_test_outside, !moved_test. reflexivity.
Qed.

(** ** Products of two u32 differences *)
Lemma not_two63 a b : Z.abs a < 2 ^ 32 -> Z.abs b < 2 ^ 32 -> Z.abs (a * b) <> 2 ^ 63.
Proof.
  intros Ha Hb. rewrite Z.abs_mul. intros E.
  assert (H : exists n, Z.abs a = 2 ^ n).
  { apply (Zdivide_power_2 (Z.abs a) 2 63); [lia|lia|apply prime_2|exists (Z.abs b); lia]. }
  destruct H as [n Hn]. rewrite Hn in *.
  destruct (Z_lt_le_dec n 0) as [L|L]; [rewrite Z.pow_neg_r in E by exact L; lia|].
  assert (n < 32) by (apply (Z.pow_lt_mono_r_iff 2); lia).
  assert (2 ^ n <= 2 ^ 31) by (apply Z.pow_le_mono_r; lia). nia.
Qed.

Lemma debug_small k p q x : wf_mask k -> wf_point p -> wf_point q -> mask_intersect Debug k p q = Ok x ->
  Z.abs (level k - axis k p) * Z.abs (along k q - along k p) < 2 ^ 63.
Proof.
  intros Hk Hp Hq. destruct (wf_axis k p Hp) as [P1 P2]. destruct (wf_axis k q Hq) as [Q1 Q2]. unfold wf_mask, is_u32 in *.
  rewrite mask_intersect_eq. unfold interpolate, i64_sub, i64_mul.
  rewrite (i64_ret_fits Debug (level k - axis k p)) by (unfold fits; lia). cbn [bind].
  rewrite (i64_ret_fits Debug (along k q - along k p)) by (unfold fits; lia). cbn [bind].
  intros H. apply bind_Ok in H as (c & H & _). apply bind_Ok in H as (n & H & _).
  assert (HF : fits ((level k - axis k p) * (along k q - along k p))).
  { revert H. unfold i64_ret. destruct (in_i64 _) eqn:E; [intros _; apply in_i64_fits, E|discriminate]. }
  pose proof (not_two63 (level k - axis k p) (along k q - along k p) ltac:(lia) ltac:(lia)) as HN.
  rewrite <- Z.abs_mul. unfold fits in HF. lia.
Qed.

Lemma debug_crossing m k p q x : wf_mask k -> wf_point p -> wf_point q -> opposite k p q ->
  mask_intersect Debug k p q = Ok x -> mask_intersect m k p q = Ok (crossing k p q).
Proof.
  intros Hk Hp Hq Ho H. eapply mask_intersect_ok; try assumption. eapply debug_small; eassumption.
Qed.

Lemma moved_along f k p q : Z.abs (along (moved_mask f k) (moved f q) - along (moved_mask f k) (moved f p)) = Z.abs (along k q - along k p).
Proof.
  destruct f as [[] [] [] ox oy], k as [v|v|v|v], p as [a b], q as [c d];
    unfold moved_mask, moved, place, along, level; cbn [fr_swap fr_flip_x fr_flip_y fr_x fr_y xorb px py]; lia.
Qed.

Lemma moved_axis f k p : Z.abs (level (moved_mask f k) - axis (moved_mask f k) (moved f p)) = Z.abs (level k - axis k p).
Proof.
  destruct f as [[] [] [] ox oy], k as [v|v|v|v], p as [a b];
    unfold moved_mask, moved, place, axis, level; cbn [fr_swap fr_flip_x fr_flip_y fr_x fr_y xorb px py]; lia.
Qed.

(** ** Paths *)
Lemma final_map g l : final (map g l) = option_map g (final l).
Proof. unfold final. rewrite <- map_rev. destruct (rev l); reflexivity. Qed.

Lemma pairs_moved f ps p q : In (p, q) (combine (moved_points f ps) (tl (moved_points f ps))) ->
  exists a b, In (a, b) (combine ps (tl ps)) /\ p = moved f a /\ q = moved f b.
Proof.
  unfold moved_points. destruct ps as [|p0 ps]; [intros []|]. cbn [tl map].
  revert p0. induction ps as [|p1 ps IH]; intros p0; cbn [map combine]; [intros []|].
  intros [[= <- <-]|H]; [exists p0, p1; split; [left; reflexivity|auto]|].
  apply IH in H as (a & b & Hin & E). exists a, b. split; [right; exact Hin|exact E].
Qed.

Lemma in_pairs ps (p q : point) : In (p, q) (combine ps (tl ps)) -> In p ps /\ In q ps.
Proof.
  intros H. split; [eapply in_combine_l; exact H|]. apply in_combine_r in H. destruct ps; [destruct H|right; exact H].
Qed.

Lemma clip_edge_crossing m k ps r : wf_mask k -> wf_points ps -> clip_edge Debug k ps = Ok r ->
  (forall p q, In (p, q) (combine ps (tl ps)) -> opposite k p q -> Z.abs (level k - axis k p) * Z.abs (along k q - along k p) < 2 ^ 63) /\
  clip_edge m k ps = Ok r /\ r = run_edge k (crossing k) ps.
Proof.
  intros Hk Hp H. pose proof (clip_edge_ok Debug k ps r H) as [_ HI]. unfold wf_points in Hp. rewrite Forall_forall in Hp.
  assert (HX : forall m0 p q, In (p, q) (combine ps (tl ps)) -> opposite k p q -> mask_intersect m0 k p q = Ok (crossing k p q)).
  { intros m0 p q Hpq Ho. destruct (in_pairs _ _ _ Hpq). eapply debug_crossing; eauto. }
  pose proof (clip_edge_returns Debug k (crossing k) ps (HX Debug)) as E.
  pose proof (clip_edge_returns m k (crossing k) ps (HX m)) as Em.
  assert (Hr : r = run_edge k (crossing k) ps) by congruence. subst r.
  split; [|auto]. intros p q Hpq Ho. destruct (in_pairs _ _ _ Hpq). eapply debug_small; eauto.
Qed.

(** ** Release builds: crossing points that overflow are wrong but still between the ends *)
Lemma wrap_pos n : 2 ^ 63 <= n < 2 ^ 64 -> wrap_i64 n = n - 2 ^ 64.
Proof. intros H. unfold wrap_i64. nums. rewrite <- (Z.mod_unique (n + 2 ^ 63) (2 ^ 64) 1 (n + 2 ^ 63 - 2 ^ 64)); lia. Qed.

Lemma wrap_odd n : Z.abs n < 2 ^ 64 -> Z.abs n <> 2 ^ 63 -> wrap_i64 (- n) = - wrap_i64 n.
Proof.
  intros H1 H2. assert (HW : forall k, 2 ^ 63 < k < 2 ^ 64 -> wrap_i64 (- k) = 2 ^ 64 - k).
  { intros k Hk. unfold wrap_i64. nums. rewrite <- (Z.mod_unique (- k + 2 ^ 63) (2 ^ 64) (-1) (- k + 2 ^ 63 + 2 ^ 64)); lia. }
  destruct (Z_lt_le_dec (Z.abs n) (2 ^ 63)) as [L|L]; [rewrite !wrap_id by (unfold fits; lia); reflexivity|].
  destruct (Z_lt_le_dec n 0) as [N|N].
  - replace (wrap_i64 n) with (2 ^ 64 - - n) by (rewrite <- HW by lia; f_equal; lia). rewrite wrap_pos by lia. lia.
  - rewrite HW by lia. rewrite wrap_pos by lia. lia.
Qed.

(** The step from the first end point to the computed crossing, for a segment of extent [D] along
    the axis and [C] across. *)
Definition rel_step (A C D : Z) : Z := Z.quot (wrap_i64 (A * C)) D.

Lemma rel_step_pos A C D : 0 < A < D -> D < 2 ^ 32 -> 0 <= C < 2 ^ 32 ->
  exists j, 0 <= rel_step A C D + j * 2 ^ 32 <= C.
Proof.
  intros HA HD HC. unfold rel_step. destruct (Z_lt_le_dec (A * C) (2 ^ 63)) as [L|L].
  - exists 0. rewrite wrap_id by (unfold fits; nia). destruct (quot_between A C D) as [P _]; [lia..|]. destruct (P ltac:(lia)). lia.
  - exists 1. rewrite wrap_pos by nia. replace (A * C - 2 ^ 64) with (- (2 ^ 64 - A * C)) by lia.
    rewrite Z.quot_opp_l by lia. rewrite Z.quot_div_nonneg by nia.
    assert (2 ^ 31 < A) by nia.
    assert (2 ^ 32 - C <= (2 ^ 64 - A * C) / D) by (apply Z.div_le_lower_bound; nia).
    assert ((2 ^ 64 - A * C) / D <= 2 ^ 32) by (apply Z.div_le_upper_bound; nia). lia.
Qed.

Lemma rel_step_neg_C A C D : Z.abs A < 2 ^ 32 -> Z.abs C < 2 ^ 32 -> rel_step A (- C) D = - rel_step A C D.
Proof.
  intros HA HC. unfold rel_step. rewrite Z.mul_opp_r, wrap_odd.
  - destruct (Z.eq_dec D 0) as [->|H]; [destruct (wrap_i64 (A * C)); reflexivity|apply Z.quot_opp_l, H].
  - rewrite Z.abs_mul. nia.
  - apply not_two63; assumption.
Qed.

Lemma rel_step_neg_AD A C D : Z.abs A < 2 ^ 32 -> Z.abs C < 2 ^ 32 -> rel_step (- A) C (- D) = rel_step A C D.
Proof.
  intros HA HC. unfold rel_step. rewrite Z.mul_opp_l, wrap_odd.
  - destruct (Z.eq_dec D 0) as [->|H]; [destruct (wrap_i64 (A * C)); reflexivity|apply Z.quot_opp_opp, H].
  - rewrite Z.abs_mul. nia.
  - apply not_two63; assumption.
Qed.

Lemma rel_step_between A C D : (0 < A < D \/ D < A < 0) -> Z.abs D < 2 ^ 32 -> Z.abs C < 2 ^ 32 ->
  exists j, Z.min 0 C <= rel_step A C D + j * 2 ^ 32 <= Z.max 0 C.
Proof.
  assert (HH : forall A D, 0 < A < D -> D < 2 ^ 32 -> Z.abs C < 2 ^ 32 -> exists j, Z.min 0 C <= rel_step A C D + j * 2 ^ 32 <= Z.max 0 C).
  { clear A D. intros A D HA HD HC. destruct (Z_lt_le_dec C 0) as [L|L].
    - destruct (rel_step_pos A (- C) D) as [j Hj]; [lia..|]. rewrite rel_step_neg_C in Hj by lia. exists (- j). lia.
    - destruct (rel_step_pos A C D) as [j Hj]; [lia..|]. exists j. lia. }
  intros [H|H] HD HC; [apply HH; lia|]. rewrite <- rel_step_neg_AD by lia. apply HH; lia.
Qed.

(** The computed crossing point. *)
Definition rel_crossing (k : clip_mask) (p q : point) : point :=
  let c := as_u32 (along k p + rel_step (level k - axis k p) (along k q - along k p) (axis k q - axis k p)) in
  match k with MinX v | MaxX v => Pt v c | MinY v | MaxY v => Pt c v end.

Lemma release_crossing k p q : wf_mask k -> wf_point p -> wf_point q -> opposite k p q ->
  mask_intersect Release k p q = Ok (rel_crossing k p q).
Proof.
  intros Hk Hp Hq Ho. destruct (mask_intersect Release k p q) as [r|pn] eqn:E.
  2:{ apply mask_intersect_panic in E as [E _]; [discriminate|assumption..]. }
  revert E. apply opposite_between in Ho. destruct (wf_axis k p Hp) as [P1 P2]. destruct (wf_axis k q Hq) as [Q1 Q2]. unfold wf_mask, is_u32 in *.
  rewrite mask_intersect_eq. unfold interpolate, i64_sub, i64_mul.
  rewrite (i64_ret_fits Release (level k - axis k p)) by (unfold fits; lia). cbn [bind].
  rewrite (i64_ret_fits Release (along k q - along k p)) by (unfold fits; lia). cbn [bind].
  rewrite i64_ret_release. cbn [bind].
  rewrite (i64_ret_fits Release (axis k q - axis k p)) by (unfold fits; lia). cbn [bind]. unfold i64_div.
  destruct (Z.eqb_spec (axis k q - axis k p) 0); [lia|]. fold (rel_step (level k - axis k p) (along k q - along k p) (axis k q - axis k p)).
  unfold rel_crossing. set (w := rel_step _ _ _). destruct (in_i64 w); [|discriminate]. cbn [bind]. unfold i64_add. rewrite i64_ret_release. cbn [bind].
  assert (EM : as_u32 (wrap_i64 (along k p + w)) = as_u32 (along k p + w)).
  { nums. rewrite Zminus_mod. rewrite <- (Zmod_div_mod 4294967296 18446744073709551616); [|lia|lia|exists 4294967296; reflexivity].
    rewrite <- Zminus_mod. f_equal. lia. }
  rewrite EM. intros [= <-]. reflexivity.
Qed.

Lemma rel_crossing_between k p q : wf_mask k -> wf_point p -> wf_point q -> opposite k p q ->
  exists j, along k (rel_crossing k p q) = along k p + rel_step (level k - axis k p) (along k q - along k p) (axis k q - axis k p) + j * 2 ^ 32 /\
  Z.min (along k p) (along k q) <= along k (rel_crossing k p q) <= Z.max (along k p) (along k q).
Proof.
  intros Hk Hp Hq Ho. apply opposite_between in Ho. destruct (wf_axis k p Hp) as [P1 P2]. destruct (wf_axis k q Hq) as [Q1 Q2]. unfold wf_mask, is_u32 in *.
  destruct (rel_step_between (level k - axis k p) (along k q - along k p) (axis k q - axis k p)) as [j Hj]; [lia..|].
  exists j. assert (E : along k (rel_crossing k p q) = as_u32 (along k p + rel_step (level k - axis k p) (along k q - along k p) (axis k q - axis k p))) by (destruct k; reflexivity).
  rewrite E. set (w := rel_step _ _ _) in *.
  assert (EU : as_u32 (along k p + w) = along k p + w + j * 2 ^ 32).
  { nums. symmetry. apply (Z.mod_unique _ _ (- j)); lia. }
  rewrite EU. lia.
Qed.

(** Equal up to multiples of 2^32, and both u32 values. *)
Lemma u32_same a b j : is_u32 a -> is_u32 b -> a = b + j * 2 ^ 32 -> a = b.
Proof. unfold is_u32. nia. Qed.

Lemma moved_axes f k : exists b o b' o', level (moved_mask f k) = place b o (level k) /\
  (forall p, axis (moved_mask f k) (moved f p) = place b o (axis k p)) /\
  (forall p, along (moved_mask f k) (moved f p) = place b' o' (along k p)).
Proof.
  destruct f as [[] fx fy ox oy], k as [v|v|v|v]; unfold moved_mask, moved, axis, along, level;
    cbn [fr_swap fr_flip_x fr_flip_y fr_x fr_y px py xorb];
    first [exists fx, ox, fy, oy; destruct fx; cbn [xorb]; auto; fail | exists fy, oy, fx, ox; destruct fy; cbn [xorb]; auto; fail].
Qed.

Lemma by_axes k p q : axis k p = axis k q -> along k p = along k q -> p = q.
Proof. destruct k, p, q; cbn; intros; subst; reflexivity. Qed.

Lemma wf_by_axes k p : is_u32 (axis k p) -> is_u32 (along k p) -> wf_point p.
Proof. destruct k; cbn; split; assumption. Qed.

Lemma rel_on_line k p q : axis k (rel_crossing k p q) = level k.
Proof. destruct k; reflexivity. Qed.

Lemma rel_crossing_moved f k p q : wf_mask k -> wf_mask (moved_mask f k) -> wf_point p -> wf_point q ->
  wf_point (moved f p) -> wf_point (moved f q) -> opposite k p q ->
  rel_crossing (moved_mask f k) (moved f p) (moved f q) = moved f (rel_crossing k p q).
Proof.
  intros Hk Hk' Hp Hq Hp' Hq' Ho.
  destruct (rel_crossing_between k p q Hk Hp Hq Ho) as (j & E & B).
  pose proof (proj2 (moved_opposite f k p q) Ho) as Ho'.
  destruct (rel_crossing_between _ _ _ Hk' Hp' Hq' Ho') as (j' & E' & B').
  destruct (moved_axes f k) as (b & o & b' & o' & HL & HA & HC).
  destruct (wf_axis k p Hp) as [P1 P2]. destruct (wf_axis k q Hq) as [Q1 Q2].
  destruct (wf_axis (moved_mask f k) _ Hp') as [P1' P2']. destruct (wf_axis (moved_mask f k) _ Hq') as [Q1' Q2'].
  apply (by_axes (moved_mask f k)); [rewrite rel_on_line, HA, rel_on_line, HL; reflexivity|].
  rewrite HC in P2', Q2' |- *. rewrite !HC in E', B'. rewrite HA in P1', Q1'. rewrite !HA, HL in E'. unfold wf_mask in *. rewrite HL in Hk'.
  set (x := along k (rel_crossing k p q)) in *. set (x' := along (moved_mask f k) _) in *. clearbody x x'.
  assert (ES : rel_step (place b o (level k) - place b o (axis k p)) (place b' o' (along k q) - place b' o' (along k p))
                 (place b o (axis k q) - place b o (axis k p))
             = (if b' then - 1 else 1) * rel_step (level k - axis k p) (along k q - along k p) (axis k q - axis k p)).
  { assert (HAD : rel_step (place b o (level k) - place b o (axis k p)) (place b' o' (along k q) - place b' o' (along k p))
                 (place b o (axis k q) - place b o (axis k p)) =
        rel_step (level k - axis k p) (place b' o' (along k q) - place b' o' (along k p)) (axis k q - axis k p)).
    { destruct b; unfold place at 1 2 5 6.
      - rewrite <- rel_step_neg_AD; [f_equal; lia|unfold is_u32 in *; lia|unfold is_u32 in *; lia].
      - f_equal; lia. }
    rewrite HAD. destruct b'; unfold place.
    - replace (o' - along k q - (o' - along k p)) with (- (along k q - along k p)) by lia.
      rewrite rel_step_neg_C; [lia|unfold is_u32 in *; lia|unfold is_u32 in *; lia].
    - replace (o' + along k q - (o' + along k p)) with (along k q - along k p) by lia. lia. }
  rewrite ES in E'. set (w := rel_step _ _ _) in *. clearbody w.
  apply (u32_same _ _ (if b' then j' + j else j' - j)).
  - unfold is_u32 in *. lia.
  - unfold is_u32 in *. destruct b'; unfold place in *; lia.
  - destruct b'; unfold place in *; lia.
Qed.

Lemma step_add_map f k X X' ret prev p : (opposite k prev p -> X' (moved f prev) (moved f p) = moved f (X prev p)) ->
  step_add (moved_mask f k) X' (moved_points f ret) (moved f prev) (moved f p) = moved_points f (step_add k X ret prev p).
Proof.
  intros HX. unfold step_add, moved_points. rewrite !moved_test, final_map.
  destruct (mask_test k prev) eqn:E1, (mask_test k p) eqn:E2; try reflexivity.
  - rewrite HX; [reflexivity|]. unfold opposite; rewrite <- !mask_test_inside, <- !mask_test_outside; auto.
  - destruct (final ret) as [l|]; cbn [option_map]; [rewrite moved_eqb; destruct (pt_eqb l prev)|]; reflexivity.
  - rewrite HX; [reflexivity|]. unfold opposite; rewrite <- !mask_test_inside, <- !mask_test_outside; auto.
Qed.

Lemma run_map f k X X' ps : forall ret prev,
  (forall p q, In (p, q) (combine (prev :: ps) ps) -> opposite k p q -> X' (moved f p) (moved f q) = moved f (X p q)) ->
  run (moved_mask f k) X' (moved_points f ret) (moved f prev) (moved_points f ps) = moved_points f (run k X ret prev ps).
Proof.
  induction ps as [|p ps IH]; intros ret prev HX; [reflexivity|]. cbn [run moved_points map].
  rewrite (step_add_map f k X) by (apply HX; left; reflexivity). unfold moved_points at 1 2. rewrite <- map_app. apply IH.
  intros a b Hab. apply HX. right. exact Hab.
Qed.

Lemma run_edge_map f k X X' ps :
  (forall p q, In (p, q) (combine ps (tl ps)) -> opposite k p q -> X' (moved f p) (moved f q) = moved f (X p q)) ->
  run_edge (moved_mask f k) X' (moved_points f ps) = moved_points f (run_edge k X ps).
Proof.
  intros HX. destruct ps as [|p [|q ps]]; [reflexivity|reflexivity|]. unfold run_edge, moved_points. cbn [map].
  rewrite moved_inside. pose proof (run_map f k X X' (q :: ps) (if insideb k p then [p] else []) p HX) as H.
  unfold moved_points in H. cbn [map] in H. rewrite <- H. destruct (insideb k p); reflexivity.
Qed.

Lemma clip_edge_release k ps : wf_mask k -> wf_points ps -> clip_edge Release k ps = Ok (run_edge k (rel_crossing k) ps).
Proof.
  intros Hk Hp. apply clip_edge_returns. intros p q Hpq Ho. unfold wf_points in Hp. rewrite Forall_forall in Hp.
  destruct (in_pairs _ _ _ Hpq). apply release_crossing; auto.
Qed.

Lemma clip_edge_moved_release f k ps : wf_mask k -> wf_mask (moved_mask f k) -> wf_points ps -> wf_points (moved_points f ps) ->
  clip_edge Release (moved_mask f k) (moved_points f ps) = Ok (moved_points f (run_edge k (rel_crossing k) ps)).
Proof.
  intros Hk Hk' Hp Hp'. rewrite clip_edge_release by assumption. f_equal. apply run_edge_map. intros p q Hpq Ho.
  unfold wf_points, moved_points in *. rewrite Forall_map in Hp'. rewrite Forall_forall in Hp, Hp'. destruct (in_pairs _ _ _ Hpq).
  apply rel_crossing_moved; auto.
Qed.

Lemma clip_edge_debug_release k ps r : wf_mask k -> wf_points ps -> clip_edge Debug k ps = Ok r -> clip_edge Release k ps = Ok r.
Proof. intros Hk Hp H. apply (clip_edge_crossing Release k ps r Hk Hp H). Qed.

(** A debug build returns exactly if no product overflows. *)
Lemma clip_edge_debug_iff k ps : wf_mask k -> wf_points ps ->
  ((exists r, clip_edge Debug k ps = Ok r) <->
   forall p q, In (p, q) (combine ps (tl ps)) -> opposite k p q -> Z.abs (level k - axis k p) * Z.abs (along k q - along k p) < 2 ^ 63).
Proof.
  intros Hk Hp. split.
  - intros [r H]. apply (clip_edge_crossing Debug k ps r Hk Hp H).
  - intros H. eexists. apply (clip_edge_returns Debug k (crossing k)). intros p q Hpq Ho. unfold wf_points in Hp. rewrite Forall_forall in Hp.
    destruct (in_pairs _ _ _ Hpq). apply mask_intersect_ok; auto.
Qed.

Lemma clip_edge_moved m f k ps : wf_mask k -> wf_mask (moved_mask f k) -> wf_points ps -> wf_points (moved_points f ps) ->
  clip_edge m (moved_mask f k) (moved_points f ps) =
    match clip_edge m k ps with Ok r => Ok (moved_points f r) | Panic p => Panic p end.
Proof.
  intros Hk Hk' Hp Hp'. destruct m; [|rewrite clip_edge_moved_release, (clip_edge_release k ps) by assumption; reflexivity].
  assert (HD : (exists r, clip_edge Debug k ps = Ok r) <-> (exists r, clip_edge Debug (moved_mask f k) (moved_points f ps) = Ok r)).
  { rewrite !clip_edge_debug_iff by assumption. split.
    - intros H p q Hpq Ho. destruct (pairs_moved f ps p q Hpq) as (a & b & Hab & -> & ->). apply moved_opposite in Ho.
      rewrite moved_along, moved_axis. auto.
    - intros H p q Hpq Ho. rewrite <- (moved_along f k p q), <- (moved_axis f k p). apply H; [|apply moved_opposite, Ho].
      clear - Hpq. unfold moved_points. destruct ps as [|p0 ps]; [destruct Hpq|]. cbn [tl map] in *.
      revert p0 Hpq. induction ps as [|p1 ps IH]; intros p0; cbn [map combine]; [intros []|].
      intros [[= <- <-]|H]; [left; reflexivity|right; apply IH, H]. }
  destruct (clip_edge Debug k ps) as [r|pn] eqn:E, (clip_edge Debug (moved_mask f k) (moved_points f ps)) as [r'|pn'] eqn:E'.
  - apply clip_edge_debug_release in E; [|assumption..]. apply clip_edge_debug_release in E'; [|assumption..].
    rewrite clip_edge_moved_release in E' by assumption. rewrite clip_edge_release in E by assumption. congruence.
  - destruct (proj1 HD (ex_intro _ r eq_refl)) as [? ?]. discriminate.
  - destruct (proj2 HD (ex_intro _ r' eq_refl)) as [? ?]. discriminate.
  - apply clip_edge_panic in E as [_ ->]; [|assumption..]. apply clip_edge_panic in E' as [_ ->]; [|assumption..]. reflexivity.
Qed.
