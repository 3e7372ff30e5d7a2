(** * GeoProofs: lemmas about Base and Geo *)
From Verif Require Import Spec.

Ltac nums := unfold fits, is_u32, in_i64, wrap_i64, as_u64, as_u32, two32, two63, two64, u32_max, u64_max in *.

Lemma in_i64_fits z : in_i64 z = true <-> fits z.
Proof. nums. rewrite andb_true_iff, Z.leb_le, Z.ltb_lt. lia. Qed.

Lemma in_i64_false z : in_i64 z = false <-> ~ fits z.
Proof. rewrite <- in_i64_fits. destruct (in_i64 z); intuition congruence. Qed.

Lemma wrap_fits z : fits (wrap_i64 z).
Proof. nums. pose proof (Z.mod_pos_bound (z + 2 ^ 63) (2 ^ 64) ltac:(lia)). lia. Qed.

Lemma wrap_id z : fits z -> wrap_i64 z = z.
Proof. nums. intros. rewrite Z.mod_small by lia. lia. Qed.

Lemma wrap_congr z : exists k, wrap_i64 z = z + k * 2 ^ 64.
Proof.
  nums. exists (- ((z + 2 ^ 63) / 2 ^ 64)).
  pose proof (Z.div_mod (z + 2 ^ 63) (2 ^ 64) ltac:(lia)). lia.
Qed.

Lemma wrap_unique a z k : fits a -> a = z + k * 2 ^ 64 -> a = wrap_i64 z.
Proof.
  intros Hf ->. destruct (wrap_congr z) as [k' Hk'].
  pose proof (wrap_fits z) as Hw. rewrite Hk' in *.
  assert (k = k'); [|lia]. unfold fits in *. nia.
Qed.

Lemma wrap_add_l a b : wrap_i64 (wrap_i64 a + b) = wrap_i64 (a + b).
Proof.
  destruct (wrap_congr a) as [k Hk]. destruct (wrap_congr (wrap_i64 a + b)) as [j Hj].
  apply (wrap_unique _ _ (k + j)); [apply wrap_fits|]. rewrite Hj, Hk. lia.
Qed.
Lemma wrap_add_r a b : wrap_i64 (a + wrap_i64 b) = wrap_i64 (a + b).
Proof. rewrite Z.add_comm, wrap_add_l, Z.add_comm. reflexivity. Qed.
Lemma wrap_sub a b : wrap_i64 (wrap_i64 a - wrap_i64 b) = wrap_i64 (a - b).
Proof.
  destruct (wrap_congr a) as [k Hk]. destruct (wrap_congr b) as [l Hl].
  destruct (wrap_congr (wrap_i64 a - wrap_i64 b)) as [j Hj].
  apply (wrap_unique _ _ (k - l + j)); [apply wrap_fits|]. rewrite Hj, Hk, Hl. lia.
Qed.

Lemma i64_ret_release z : i64_ret Release z = Ok (wrap_i64 z).
Proof.
  unfold i64_ret. destruct (in_i64 z) eqn:E; [|reflexivity].
  apply in_i64_fits in E. rewrite wrap_id; auto.
Qed.
Lemma i64_ret_fits m z : fits z -> i64_ret m z = Ok z.
Proof. intros H. unfold i64_ret. apply in_i64_fits in H. rewrite H. reflexivity. Qed.
Lemma i64_ret_debug z : ~ fits z -> i64_ret Debug z = Panic POverflow.
Proof. intros H. unfold i64_ret. apply in_i64_false in H. rewrite H. reflexivity. Qed.
Lemma i64_ret_ok m z a : i64_ret m z = Ok a -> a = wrap_i64 z.
Proof.
  unfold i64_ret. destruct (in_i64 z) eqn:E.
  - intros [= <-]. apply in_i64_fits in E. symmetry. apply wrap_id, E.
  - destruct m; congruence.
Qed.
Lemma fits_dec z : {fits z} + {~ fits z}.
Proof. destruct (in_i64 z) eqn:E; [left; apply in_i64_fits, E | right; apply in_i64_false, E]. Qed.

(** ** Points *)
Lemma pt_eqb_spec a b : reflect (a = b) (pt_eqb a b).
Proof.
  destruct a as [ax ay], b as [bx by_]. unfold pt_eqb. simpl.
  destruct (Z.eqb_spec ax bx), (Z.eqb_spec ay by_); constructor; congruence.
Qed.
Lemma pt_eqb_refl a : pt_eqb a a = true.
Proof. unfold pt_eqb. rewrite !Z.eqb_refl. reflexivity. Qed.
Lemma pt_eqb_eq a b : pt_eqb a b = true <-> a = b.
Proof. destruct (pt_eqb_spec a b); intuition congruence. Qed.
Lemma pt_eqb_neq a b : pt_eqb a b = false <-> a <> b.
Proof. destruct (pt_eqb_spec a b); intuition congruence. Qed.
Lemma pt_eqb_sym a b : pt_eqb a b = pt_eqb b a.
Proof. unfold pt_eqb. rewrite (Z.eqb_sym (px a)), (Z.eqb_sym (py a)). reflexivity. Qed.
Lemma point_eq_dec (a b : point) : {a = b} + {a <> b}.
Proof. destruct (pt_eqb_spec a b); [left|right]; assumption. Qed.
Lemma pts_eqb_spec a b : reflect (a = b) (pts_eqb a b).
Proof.
  revert b. induction a as [|x a IH]; destruct b as [|y b]; simpl; try (constructor; congruence).
  destruct (pt_eqb_spec x y); simpl; [|constructor; congruence].
  destruct (IH b); constructor; congruence.
Qed.
Lemma pt_ltb_spec a b : reflect (px a < px b \/ (px a = px b /\ py a < py b)) (pt_ltb a b).
Proof.
  unfold pt_ltb. destruct (Z.ltb_spec0 (px a) (px b)); simpl; [constructor; lia|].
  destruct (Z.eqb_spec (px a) (px b)); simpl; [|constructor; lia].
  destruct (Z.ltb_spec0 (py a) (py b)); constructor; lia.
Qed.
Lemma pt_ltb_asym a b : pt_ltb a b = true -> pt_ltb b a = false.
Proof. destruct (pt_ltb_spec a b), (pt_ltb_spec b a); try congruence; lia. Qed.
Lemma pt_ltb_irrefl a : pt_ltb a a = false.
Proof. destruct (pt_ltb_spec a a); [lia|reflexivity]. Qed.
Lemma pt_ltb_total a b : pt_ltb a b = false -> pt_ltb b a = false -> a = b.
Proof.
  destruct (pt_ltb_spec a b), (pt_ltb_spec b a); try congruence. intros _ _.
  destruct a, b; simpl in *. f_equal; lia.
Qed.
Lemma pt_ltb_trans a b c : pt_ltb a b = true -> pt_ltb b c = true -> pt_ltb a c = true.
Proof. destruct (pt_ltb_spec a b), (pt_ltb_spec b c), (pt_ltb_spec a c); try congruence; lia. Qed.

(** ** The area loop *)
Lemma cross_release p q : cross Release p q = Ok (wrap_i64 (det p q)).
Proof.
  unfold cross, i64_mul, i64_sub, det. rewrite !i64_ret_release. cbn [bind].
  rewrite i64_ret_release, wrap_sub. reflexivity.
Qed.

Lemma cross_debug p q :
  (fits (px p * py q) /\ fits (px q * py p) /\ fits (det p q) /\ cross Debug p q = Ok (det p q)) \/
  (~ (fits (px p * py q) /\ fits (px q * py p) /\ fits (det p q)) /\ cross Debug p q = Panic POverflow).
Proof.
  unfold cross, i64_mul, i64_sub.
  destruct (fits_dec (px p * py q)) as [H1|H1].
  2:{ right. rewrite i64_ret_debug by assumption. split; [tauto|reflexivity]. }
  destruct (fits_dec (px q * py p)) as [H2|H2].
  2:{ right. rewrite i64_ret_fits by assumption. rewrite i64_ret_debug by assumption. split; [tauto|reflexivity]. }
  rewrite !i64_ret_fits by assumption. cbn [bind]. fold (det p q).
  destruct (fits_dec (det p q)) as [H3|H3].
  - left. rewrite i64_ret_fits by assumption. tauto.
  - right. rewrite i64_ret_debug by assumption. split; [tauto|reflexivity].
Qed.

Lemma area_loop_release ps a :
  mfold (area_step Release) (pairs ps) (wrap_i64 a) = Ok (wrap_i64 (a + shoelace ps)).
Proof.
  revert a. induction ps as [|p [|q t] IH]; intros a; simpl pairs.
  - simpl. f_equal. f_equal. lia.
  - simpl. f_equal. f_equal. lia.
  - cbn [mfold]. unfold area_step at 1. cbn [fst snd]. rewrite cross_release. cbn [bind].
    unfold i64_add. rewrite i64_ret_release. cbn [bind].
    rewrite wrap_add_l, wrap_add_r. rewrite IH. f_equal. f_equal.
    change (shoelace (p :: q :: t)) with (det p q + shoelace (q :: t)). lia.
Qed.

Lemma wrap_0 : wrap_i64 0 = 0.
Proof. reflexivity. Qed.

Lemma signed_area2_release ps : signed_area2 Release ps = Ok (wrap_i64 (shoelace ps)).
Proof. unfold signed_area2. rewrite <- wrap_0 at 1. apply area_loop_release. Qed.

Lemma not_Forall_cons {A} (P : A -> Prop) x l : ~ Forall P (x :: l) -> (forall y, {P y} + {~ P y}) ->
  ~ P x \/ (P x /\ ~ Forall P l).
Proof.
  intros H D. destruct (D x) as [Hx|Hx]; [right|left; assumption]. split; [assumption|].
  intros Hl. apply H. constructor; assumption.
Qed.

Lemma area_loop_debug ps a :
  (Forall fits (path_values a ps) /\ mfold (area_step Debug) (pairs ps) a = Ok (a + shoelace ps)) \/
  (~ Forall fits (path_values a ps) /\ mfold (area_step Debug) (pairs ps) a = Panic POverflow).
Proof.
  revert a. induction ps as [|p [|q t] IH]; intros a.
  - left. split; [constructor|]. simpl. f_equal. lia.
  - left. split; [constructor|]. simpl. f_equal. lia.
  - change (pairs (p :: q :: t)) with ((p, q) :: pairs (q :: t)).
    change (shoelace (p :: q :: t)) with (det p q + shoelace (q :: t)).
    change (path_values a (p :: q :: t)) with
      (px p * py q :: px q * py p :: det p q :: (a + det p q) :: path_values (a + det p q) (q :: t)).
    cbn [mfold]. unfold area_step at 1 3. cbn [fst snd].
    destruct (cross_debug p q) as [(H1 & H2 & H3 & E)|(H & E)]; rewrite E; cbn [bind].
    + unfold i64_add. destruct (fits_dec (a + det p q)) as [H4|H4].
      * rewrite i64_ret_fits by assumption. cbn [bind].
        destruct (IH (a + det p q)) as [(F & E')|(F & E')]; rewrite E'.
        -- left. split; [repeat (constructor; [assumption|]); assumption|]. f_equal. lia.
        -- right. split; [|reflexivity]. intros HF. apply F.
           repeat match goal with H : Forall _ (_ :: _) |- _ => inversion H; subst; clear H end.
           assumption.
      * rewrite i64_ret_debug by assumption. right. split; [|reflexivity]. intros HF. apply H4.
        repeat match goal with H : Forall _ (_ :: _) |- _ => inversion H; subst; clear H end. assumption.
    + right. split; [|reflexivity]. intros HF. apply H.
      repeat match goal with H : Forall _ (_ :: _) |- _ => inversion H; subst; clear H end. tauto.
Qed.

Lemma signed_area2_debug ps :
  (Forall fits (path_values 0 ps) /\ signed_area2 Debug ps = Ok (shoelace ps)) \/
  (~ Forall fits (path_values 0 ps) /\ signed_area2 Debug ps = Panic POverflow).
Proof. apply (area_loop_debug ps 0). Qed.

Lemma path_values_fits_final a ps : fits a -> Forall fits (path_values a ps) -> fits (a + shoelace ps).
Proof.
  revert a. induction ps as [|p [|q t] IH]; intros a Ha HF.
  - simpl. rewrite Z.add_0_r. assumption.
  - simpl. rewrite Z.add_0_r. assumption.
  - change (path_values a (p :: q :: t)) with
      (px p * py q :: px q * py p :: det p q :: (a + det p q) :: path_values (a + det p q) (q :: t)) in HF.
    repeat match goal with H : Forall _ (_ :: _) |- _ => inversion H; subst; clear H end.
    change (shoelace (p :: q :: t)) with (det p q + shoelace (q :: t)). rewrite Z.add_assoc. auto.
Qed.

Lemma fits_0 : fits 0.
Proof. unfold fits. lia. Qed.

(** What [signed_area2] returns when it returns. *)
Lemma signed_area2_ok m ps a : signed_area2 m ps = Ok a -> a = wrap_i64 (shoelace ps).
Proof.
  destruct m.
  - destruct (signed_area2_debug ps) as [(F & E)|(F & E)]; rewrite E; [|congruence].
    intros [= <-]. symmetry. apply wrap_id. apply (path_values_fits_final 0); [apply fits_0|assumption].
  - rewrite signed_area2_release. congruence.
Qed.

Lemma signed_area2_debug_ok ps a : signed_area2 Debug ps = Ok a -> a = shoelace ps.
Proof. destruct (signed_area2_debug ps) as [(F & E)|(F & E)]; rewrite E; congruence. Qed.

(** Edge rings. *)
Lemma edges_loop_release es a :
  mfold (edges_area_step Release) es (wrap_i64 a) = Ok (wrap_i64 (a + shoelaces es)).
Proof.
  revert a. induction es as [|e t IH]; intros a; cbn [mfold shoelaces].
  - rewrite Z.add_0_r. reflexivity.
  - unfold edges_area_step at 1. rewrite signed_area2_release. cbn [bind].
    unfold i64_add. rewrite i64_ret_release. cbn [bind]. rewrite wrap_add_l, wrap_add_r, IH.
    f_equal. f_equal. lia.
Qed.

Lemma Forall_app_iff {A} (P : A -> Prop) l1 l2 : Forall P (l1 ++ l2) <-> Forall P l1 /\ Forall P l2.
Proof. apply Forall_app. Qed.

Lemma edges_loop_debug es a :
  (Forall fits (paths_values a es) /\ mfold (edges_area_step Debug) es a = Ok (a + shoelaces es)) \/
  (~ Forall fits (paths_values a es) /\ mfold (edges_area_step Debug) es a = Panic POverflow).
Proof.
  revert a. induction es as [|e t IH]; intros a; cbn [mfold shoelaces paths_values].
  - left. rewrite Z.add_0_r. split; [constructor|reflexivity].
  - rewrite Forall_app_iff, Forall_cons_iff. unfold edges_area_step at 1 3.
    destruct (signed_area2_debug e) as [(F & E)|(F & E)]; rewrite E; cbn [bind].
    2:{ right. split; [tauto|reflexivity]. }
    unfold i64_add. destruct (fits_dec (a + shoelace e)) as [H|H].
    2:{ rewrite i64_ret_debug by assumption. right. split; [tauto|reflexivity]. }
    rewrite i64_ret_fits by assumption. cbn [bind].
    destruct (IH (a + shoelace e)) as [(F' & E')|(F' & E')]; rewrite E'.
    + left. split; [tauto|]. f_equal. lia.
    + right. split; [tauto|reflexivity].
Qed.

Lemma paths_values_fits_final a es : fits a -> Forall fits (paths_values a es) -> fits (a + shoelaces es).
Proof.
  revert a. induction es as [|e t IH]; intros a Ha; cbn [shoelaces paths_values].
  - intros _. rewrite Z.add_0_r. assumption.
  - rewrite Forall_app_iff, Forall_cons_iff. intros (_ & H & HF). rewrite Z.add_assoc. auto.
Qed.

Definition raw_ring_area (m : mode) (r : ring) : res Z :=
  match r with
  | REdges es => mfold (edges_area_step m) es 0
  | RPoints ps => signed_area2 m ps
  end.

Lemma ring_area2_and_winding_eq m r :
  ring_area2_and_winding m r = (a <- raw_ring_area m r ;; split_sign m a).
Proof. destruct r; reflexivity. Qed.

Lemma raw_ring_area_release r : raw_ring_area Release r = Ok (wrap_i64 (ring_area r)).
Proof.
  destruct r as [ps|es]; simpl; [apply signed_area2_release|].
  rewrite <- wrap_0 at 1. apply edges_loop_release.
Qed.

Definition ring_loop_values (r : ring) : list Z :=
  match r with RPoints ps => path_values 0 ps | REdges es => paths_values 0 es end.

Lemma ring_values_eq r : ring_values r = ring_loop_values r ++ [Z.abs (ring_area r)].
Proof. destruct r; reflexivity. Qed.

Lemma raw_ring_area_debug r :
  (Forall fits (ring_loop_values r) /\ raw_ring_area Debug r = Ok (ring_area r)) \/
  (~ Forall fits (ring_loop_values r) /\ raw_ring_area Debug r = Panic POverflow).
Proof.
  destruct r as [ps|es]; simpl; [apply signed_area2_debug|]. apply (edges_loop_debug es 0).
Qed.

Lemma ring_loop_fits r : Forall fits (ring_loop_values r) -> fits (ring_area r).
Proof.
  destruct r as [ps|es]; simpl; intros H.
  - apply (path_values_fits_final 0); [apply fits_0|assumption].
  - apply (paths_values_fits_final 0); [apply fits_0|assumption].
Qed.

Lemma raw_ring_area_ok m r a : raw_ring_area m r = Ok a -> a = wrap_i64 (ring_area r).
Proof.
  destruct m.
  - destruct (raw_ring_area_debug r) as [(F & E)|(F & E)]; rewrite E; [|congruence].
    intros [= <-]. symmetry. apply wrap_id, ring_loop_fits, F.
  - rewrite raw_ring_area_release. congruence.
Qed.

Lemma split_sign_release a : fits a -> split_sign Release a = Ok (Z.abs a, winding_of a).
Proof.
  intros H. unfold split_sign, winding_of. destruct (Z.leb_spec 0 a).
  - rewrite Z.abs_eq by assumption. f_equal. f_equal. nums. apply Z.mod_small. lia.
  - unfold i64_neg. rewrite i64_ret_release. cbn [bind]. f_equal. f_equal.
    destruct (wrap_congr (- a)) as [k Hk]. rewrite Hk. nums. rewrite Z_mod_plus_full.
    rewrite Z.mod_small by lia. lia.
Qed.

Lemma split_sign_debug a : fits a ->
  (fits (Z.abs a) /\ split_sign Debug a = Ok (Z.abs a, winding_of a)) \/
  (~ fits (Z.abs a) /\ split_sign Debug a = Panic POverflow).
Proof.
  intros H. unfold split_sign, winding_of. destruct (Z.leb_spec 0 a).
  - left. rewrite Z.abs_eq by assumption. split; [assumption|]. f_equal. f_equal. nums. apply Z.mod_small. lia.
  - replace (Z.abs a) with (- a) by lia. unfold i64_neg. destruct (fits_dec (- a)) as [F|F].
    + left. split; [assumption|]. rewrite i64_ret_fits by assumption. cbn [bind]. f_equal. f_equal.
      nums. apply Z.mod_small. lia.
    + right. split; [assumption|]. rewrite i64_ret_debug by assumption. reflexivity.
Qed.

Lemma split_sign_ok m a x : fits a -> split_sign m a = Ok x -> x = (Z.abs a, winding_of a).
Proof.
  intros H. destruct m.
  - destruct (split_sign_debug a H) as [(F & E)|(F & E)]; rewrite E; congruence.
  - rewrite split_sign_release by assumption. congruence.
Qed.

(** What [Ring::area2_and_winding_order] returns, in release and when it returns. *)
Lemma ring_aw_release r :
  ring_area2_and_winding Release r =
    Ok (Z.abs (wrap_i64 (ring_area r)), winding_of (wrap_i64 (ring_area r))).
Proof.
  rewrite ring_area2_and_winding_eq, raw_ring_area_release. cbn [bind].
  apply split_sign_release, wrap_fits.
Qed.

Lemma ring_aw_ok m r x : ring_area2_and_winding m r = Ok x ->
  x = (Z.abs (wrap_i64 (ring_area r)), winding_of (wrap_i64 (ring_area r))).
Proof.
  rewrite ring_area2_and_winding_eq. destruct (raw_ring_area m r) as [a|p] eqn:E; [|discriminate].
  cbn [bind]. apply raw_ring_area_ok in E. subst a. apply split_sign_ok, wrap_fits.
Qed.

Lemma ring_aw_debug r :
  (Forall fits (ring_values r) /\
     ring_area2_and_winding Debug r = Ok (Z.abs (ring_area r), winding_of (ring_area r))) \/
  (~ Forall fits (ring_values r) /\ ring_area2_and_winding Debug r = Panic POverflow).
Proof.
  rewrite ring_area2_and_winding_eq, ring_values_eq, Forall_app_iff.
  destruct (raw_ring_area_debug r) as [(F & E)|(F & E)]; rewrite E; cbn [bind].
  2:{ right. split; [tauto|reflexivity]. }
  destruct (split_sign_debug (ring_area r) (ring_loop_fits r F)) as [(F' & E')|(F' & E')]; rewrite E'.
  - left. split; [|reflexivity]. split; [assumption|]. constructor; [assumption|constructor].
  - right. split; [|reflexivity]. intros [_ H]. inversion H; subst. contradiction.
Qed.

Lemma ring_aw_debug_ok r x : ring_area2_and_winding Debug r = Ok x ->
  x = (Z.abs (ring_area r), winding_of (ring_area r)) /\ fits (ring_area r).
Proof.
  destruct (ring_aw_debug r) as [(F & E)|(F & E)]; rewrite E; [|congruence].
  intros [= <-]. split; [reflexivity|]. rewrite ring_values_eq, Forall_app_iff in F. apply ring_loop_fits, F.
Qed.

Lemma ring_aw_fits m r : Forall fits (ring_values r) ->
  ring_area2_and_winding m r = Ok (Z.abs (ring_area r), winding_of (ring_area r)).
Proof.
  intros F. destruct m.
  - destruct (ring_aw_debug r) as [(F' & E)|(F' & E)]; [assumption|contradiction].
  - rewrite ring_aw_release. rewrite ring_values_eq, Forall_app_iff in F.
    rewrite wrap_id; [reflexivity|]. apply ring_loop_fits, F.
Qed.

(** ** Shoelace algebra *)
Lemma shoelace_cons2 p q t : shoelace (p :: q :: t) = det p q + shoelace (q :: t).
Proof. reflexivity. Qed.

Lemma shoelace_app l1 p l2 : shoelace (l1 ++ p :: l2) = shoelace (l1 ++ [p]) + shoelace (p :: l2).
Proof.
  induction l1 as [|a l1 IH].
  - reflexivity.
  - destruct l1 as [|b l1].
    + simpl app. rewrite !shoelace_cons2. change (shoelace [p]) with 0. lia.
    + simpl app in *. rewrite !shoelace_cons2. lia.
Qed.

Lemma det_sym p q : det q p = - det p q.
Proof. unfold det. lia. Qed.
Lemma det_same p : det p p = 0.
Proof. unfold det. lia. Qed.

Lemma shoelace_rev ps : shoelace (rev ps) = - shoelace ps.
Proof.
  induction ps as [|p [|q t] IH]; [reflexivity|reflexivity|].
  rewrite shoelace_cons2. simpl rev in *. rewrite <- app_assoc. simpl app.
  rewrite (shoelace_app (rev t) q [p]), IH, shoelace_cons2, (det_sym p q). change (shoelace [p]) with 0. lia.
Qed.

Lemma close_app_hd p c1 c2 : shoelace (close (p :: c1 ++ c2)) = shoelace (p :: c1 ++ c2 ++ [p]).
Proof. simpl. rewrite <- app_assoc. reflexivity. Qed.

Lemma shoelace_rotate c1 c2 : shoelace (close (c1 ++ c2)) = shoelace (close (c2 ++ c1)).
Proof.
  destruct c1 as [|p c1]; [rewrite app_nil_r; reflexivity|].
  destruct c2 as [|q c2]; [rewrite app_nil_r; reflexivity|].
  unfold close. cbn [app]. rewrite <- !app_assoc. cbn [app].
  change (p :: c1 ++ q :: c2 ++ [p]) with ((p :: c1) ++ q :: (c2 ++ [p])).
  change (q :: c2 ++ p :: c1 ++ [q]) with ((q :: c2) ++ p :: (c1 ++ [q])).
  rewrite (shoelace_app (p :: c1) q (c2 ++ [p])), (shoelace_app (q :: c2) p (c1 ++ [q])).
  cbn [app]. lia.
Qed.

(** ** Gluing *)
Lemma final_app l p : final (l ++ [p]) = Some p.
Proof. unfold final. rewrite rev_app_distr. reflexivity. Qed.
Lemma final_cons a b l : final (a :: b :: l) = final (b :: l).
Proof.
  unfold final. simpl. destruct (rev l) as [|c r] eqn:E; simpl; [reflexivity|].
  reflexivity.
Qed.
Lemma final_some l p : final l = Some p <-> exists l', l = l' ++ [p].
Proof.
  split.
  - unfold final. intros H. destruct (rev l) as [|a r] eqn:E; [discriminate|].
    injection H as ->. exists (rev r). rewrite <- (rev_involutive l), E. reflexivity.
  - intros [l' ->]. apply final_app.
Qed.
Lemma first_some (l : list point) p : first l = Some p <-> exists l', l = p :: l'.
Proof.
  destruct l as [|a l]; simpl; split; try discriminate.
  - intros [l' H]. discriminate.
  - intros [= ->]. eauto.
  - intros [l' [= -> _]]. reflexivity.
Qed.
Lemma final_nonempty l : l <> [] -> exists p, final l = Some p.
Proof.
  intros H. destruct (rev l) as [|a r] eqn:E.
  - apply (f_equal (@rev _)) in E. rewrite rev_involutive in E. contradiction.
  - exists a. unfold final. rewrite E. reflexivity.
Qed.
Lemma final_rev l : final (rev l) = first l.
Proof. unfold final, first. rewrite rev_involutive. reflexivity. Qed.
Lemma first_rev l : first (rev l) = final l.
Proof. reflexivity. Qed.

Lemma connected_tail e es : connected (e :: es) -> connected es.
Proof. destruct es; simpl; tauto. Qed.
Lemma connected_nonempty es : connected es -> Forall (fun e => e <> []) es.
Proof.
  induction es as [|e es IH]; intros H; constructor.
  - destruct es; simpl in H; tauto.
  - apply IH, (connected_tail _ _ H).
Qed.

Lemma glue_cons e f t : connected (e :: f :: t) -> glue (e :: f :: t) = e ++ tl (glue (f :: t)).
Proof.
  intros (_ & _ & H). simpl. f_equal.
  assert (f <> []) by (destruct t; simpl in H; tauto).
  destruct f; [contradiction|]. reflexivity.
Qed.

Lemma shoelace_glue es : connected es -> shoelace (glue es) = shoelaces es.
Proof.
  induction es as [|e es IH]; [reflexivity|]. intros H.
  destruct es as [|f t].
  - simpl. rewrite app_nil_r. lia.
  - rewrite glue_cons by assumption. destruct H as (He & Hef & Ht).
    assert (Hf : f <> []) by (destruct t; simpl in Ht; tauto).
    specialize (IH Ht). change (shoelaces (e :: f :: t)) with (shoelace e + shoelaces (f :: t)).
    rewrite <- IH. destruct f as [|p f]; [contradiction|].
    simpl in Hef. apply final_some in Hef. destruct Hef as [e' ->].
    simpl glue. simpl tl. rewrite <- app_assoc. simpl app.
    rewrite (shoelace_app e' p). reflexivity.
Qed.

Lemma shoelace_concat es : connected es -> shoelace (concat es) = shoelaces es.
Proof.
  induction es as [|e es IH]; [reflexivity|]. intros H.
  destruct es as [|f t].
  - simpl. rewrite app_nil_r. lia.
  - destruct H as (He & Hef & Ht).
    assert (Hf : f <> []) by (destruct t; simpl in Ht; tauto).
    specialize (IH Ht). change (shoelaces (e :: f :: t)) with (shoelace e + shoelaces (f :: t)).
    rewrite <- IH. destruct f as [|p f]; [contradiction|].
    simpl in Hef. apply final_some in Hef. destruct Hef as [e' ->].
    simpl concat. rewrite <- app_assoc. simpl app.
    rewrite (shoelace_app e' p). rewrite shoelace_cons2, det_same. lia.
Qed.

Lemma segments_pairs ps : ring_edges (RPoints ps) = segments ps.
Proof.
  simpl. induction ps as [|p [|q t] IH]; [reflexivity|reflexivity|].
  change (pairs (p :: q :: t)) with ((p, q) :: pairs (q :: t)).
  change (segments (p :: q :: t)) with ([p; q] :: segments (q :: t)).
  rewrite <- IH. reflexivity.
Qed.

Lemma segments_connected ps : connected (segments ps).
Proof.
  induction ps as [|p [|q t] IH]; [exact I|exact I|].
  change (segments (p :: q :: t)) with ([p; q] :: segments (q :: t)).
  destruct t as [|r t]; [simpl; discriminate|].
  change (segments (q :: r :: t)) with ([q; r] :: segments (r :: t)) in *.
  split; [discriminate|]. split; [reflexivity|exact IH].
Qed.

Lemma glue_segments ps : (length ps <> 1)%nat -> glue (segments ps) = ps.
Proof.
  intros H. destruct ps as [|p [|q t]]; [reflexivity|simpl in H; lia|].
  change (segments (p :: q :: t)) with ([p; q] :: segments (q :: t)). simpl glue.
  f_equal. f_equal. clear H p. revert q. induction t as [|r t IH]; intros q; [reflexivity|].
  change (segments (q :: r :: t)) with ([q; r] :: segments (r :: t)). simpl. f_equal. apply IH.
Qed.

Lemma shoelaces_segments ps : shoelaces (segments ps) = shoelace ps.
Proof.
  induction ps as [|p [|q t] IH]; [reflexivity|reflexivity|].
  change (segments (p :: q :: t)) with ([p; q] :: segments (q :: t)).
  change (shoelaces ([p; q] :: segments (q :: t))) with (shoelace [p; q] + shoelaces (segments (q :: t))).
  rewrite IH, !shoelace_cons2. change (shoelace [q]) with 0. lia.
Qed.

(** ** Lemmas for GeoProps *)

Lemma winding_of_neg a : a <> 0 -> winding_of (- a) <> winding_of a.
Proof. unfold winding_of. destruct (Z.leb_spec 0 a), (Z.leb_spec 0 (- a)); try congruence; lia. Qed.

Lemma wrap_neg z : wrap_i64 z <> - 2 ^ 63 -> wrap_i64 (- z) = - wrap_i64 z.
Proof.
  intros H. destruct (wrap_congr z) as [k Hk]. pose proof (wrap_fits z) as F.
  symmetry. apply (wrap_unique _ _ (- k)); [unfold fits in *; lia|lia].
Qed.

Lemma wrap_min z : wrap_i64 z = - 2 ^ 63 -> exists k, z = 2 ^ 63 + k * 2 ^ 64.
Proof. intros H. destruct (wrap_congr z) as [k Hk]. exists (- k - 1). lia. Qed.

Lemma area_reverse m ps x y :
  (forall k, shoelace ps <> 2 ^ 63 + k * 2 ^ 64) ->
  ring_area2_and_winding m (RPoints ps) = Ok x ->
  ring_area2_and_winding m (RPoints (rev ps)) = Ok y ->
  fst y = fst x /\ (fst x = 0 -> snd x = Clockwise /\ snd y = Clockwise) /\
  (fst x <> 0 -> snd y <> snd x).
Proof.
  intros Hn Hx Hy. apply ring_aw_ok in Hx, Hy. subst. simpl. rewrite shoelace_rev.
  rewrite wrap_neg. 2:{ intros H. apply wrap_min in H as [k Hk]. apply (Hn k Hk). }
  split; [lia|]. split.
  - intros H. replace (wrap_i64 (shoelace ps)) with 0 by lia. split; reflexivity.
  - intros H. apply winding_of_neg. lia.
Qed.

(** Bounded coordinates keep every intermediate value small. *)
Lemma det_bound B p q : 0 <= px p <= B -> 0 <= py p <= B -> 0 <= px q <= B -> 0 <= py q <= B ->
  0 <= px p * py q <= B * B /\ 0 <= px q * py p <= B * B /\ Z.abs (det p q) <= B * B.
Proof.
  intros. unfold det.
  assert (0 <= px p * py q <= B * B) by nia. assert (0 <= px q * py p <= B * B) by nia. lia.
Qed.

Lemma path_values_bound B ps a :
  Forall (fun p => 0 <= px p <= B /\ 0 <= py p <= B) ps ->
  Forall (fun v => Z.abs v <= Z.abs a + B * B * Z.of_nat (length ps)) (path_values a ps) /\
  Z.abs (a + shoelace ps) <= Z.abs a + B * B * Z.of_nat (length ps).
Proof.
  revert a. induction ps as [|p [|q t] IH]; intros a H.
  - simpl. split; [constructor|lia].
  - simpl. split; [constructor|]. inversion H; subst. nia.
  - inversion H as [|? ? Hp H']; subst. inversion H' as [|? ? Hq _]; subst.
    pose proof (det_bound B p q ltac:(tauto) ltac:(tauto) ltac:(tauto) ltac:(tauto)) as (D1 & D2 & D3).
    destruct (IH (a + det p q) H') as [IH1 IH2].
    change (path_values a (p :: q :: t)) with
      (px p * py q :: px q * py p :: det p q :: (a + det p q) :: path_values (a + det p q) (q :: t)).
    rewrite shoelace_cons2, Z.add_assoc.
    assert (E : Z.of_nat (length (p :: q :: t)) = 1 + Z.of_nat (length (q :: t))) by (simpl length; lia).
    rewrite E. clear E. remember (Z.of_nat (length (q :: t))) as n eqn:En. assert (0 <= n) by lia. clear En.
    assert (0 <= B * B * n) by nia.
    replace (B * B * (1 + n)) with (B * B + B * B * n) by lia.
    split; [|lia]. repeat (constructor; [lia|]).
    eapply Forall_impl; [|exact IH1]. cbv beta. intros v Hv. lia.
Qed.

Lemma small_coordinates_fit B ps :
  Forall (fun p => 0 <= px p <= B /\ 0 <= py p <= B) ps ->
  B * B * Z.of_nat (length ps) < 2 ^ 63 ->
  Forall fits (ring_values (RPoints ps)).
Proof.
  intros H Hb. destruct (path_values_bound B ps 0 H) as [H1 H2]. simpl. rewrite Forall_app_iff. split.
  - eapply Forall_impl; [|exact H1]. intros v Hv. unfold fits. simpl in Hv. lia.
  - constructor; [|constructor]. unfold fits. simpl in H2. lia.
Qed.

(** Removing repetitions. *)
Lemma dedup_cons2 p q t : dedup (p :: q :: t) = if pt_eqb p q then dedup (q :: t) else p :: dedup (q :: t).
Proof. reflexivity. Qed.

Lemma dedup_app_dup l p r : dedup (l ++ p :: p :: r) = dedup (l ++ p :: r).
Proof.
  induction l as [|a l IH].
  - cbn [app]. rewrite dedup_cons2, pt_eqb_refl. reflexivity.
  - destruct l as [|b l].
    + cbn [app] in *. rewrite (dedup_cons2 a p (p :: r)), (dedup_cons2 a p r), IH. reflexivity.
    + cbn [app] in *. rewrite !(dedup_cons2 a b), IH. reflexivity.
Qed.

Lemma dedup_app_congr l p r r' : dedup (p :: r) = dedup (p :: r') ->
  dedup (l ++ p :: r) = dedup (l ++ p :: r').
Proof.
  intros H. induction l as [|a l IH]; [exact H|].
  destruct l as [|b l]; cbn [app] in *; rewrite !dedup_cons2, IH; reflexivity.
Qed.

Lemma concat_glue es : connected es ->
  dedup (concat es) = dedup (glue es) /\
  (length (concat es) = length (glue es) + (length es - 1))%nat.
Proof.
  induction es as [|e es IH]; [split; reflexivity|]. intros H.
  destruct es as [|f t].
  - simpl. rewrite app_nil_r. split; [reflexivity|lia].
  - rewrite glue_cons by assumption. destruct H as (He & Hef & Ht).
    assert (Hf : f <> []) by (destruct t; simpl in Ht; tauto).
    specialize (IH Ht). destruct IH as [IH1 IH2].
    destruct f as [|p f]; [contradiction|].
    simpl in Hef. apply final_some in Hef. destruct Hef as [e' ->].
    change (concat ((e' ++ [p]) :: (p :: f) :: t)) with ((e' ++ [p]) ++ concat ((p :: f) :: t)).
    change (glue ((p :: f) :: t)) with (p :: (f ++ concat (map (@tl point) t))) in *.
    change (concat ((p :: f) :: t)) with (p :: (f ++ concat t)) in *.
    cbn [tl]. rewrite <- !app_assoc. cbn [app]. split.
    + rewrite dedup_app_dup. apply dedup_app_congr, IH1.
    + rewrite !app_length in *. cbn [length] in *. lia.
Qed.

Lemma segments_nth ps k d : (S k < length ps)%nat ->
  nth_error (segments ps) k = Some [nth k ps d; nth (S k) ps d].
Proof.
  revert k. induction ps as [|p [|q t] IH]; intros k H; [simpl in H; lia|simpl in H; lia|].
  change (segments (p :: q :: t)) with ([p; q] :: segments (q :: t)).
  destruct k as [|k]; [reflexivity|]. change (nth_error ([p; q] :: segments (q :: t)) (S k)) with
    (nth_error (segments (q :: t)) k). rewrite IH by (simpl in *; lia). reflexivity.
Qed.
Lemma segments_length ps : length (segments ps) = (length ps - 1)%nat.
Proof.
  induction ps as [|p [|q t] IH]; [reflexivity|reflexivity|].
  change (segments (p :: q :: t)) with ([p; q] :: segments (q :: t)).
  cbn [length] in *. lia.
Qed.
