(** * ClipSteps: clipping by two parallel lines, one after the other *)
From Coq Require Import Lia.
From Verif Require Import ClipStepsSpec GeoProofs TopoProofs BuildProofs ClipEdgeProofs ClipArea.

(** ** Rounding twice *)

(** [r] is [l * w / d], rounded down. *)
Definition down (d l w r : Z) : Prop := r * d <= l * w /\ l * w < r * d + d.

Lemma down_entering d l1 l2 w r s t : 0 < l1 -> l1 < l2 -> l2 < d -> 0 <= w ->
  down d l1 w r -> down (d - l1) (l2 - l1) (w - r) (s - r) -> down d l2 w t -> t - 1 <= s <= t.
Proof.
  intros H1 H2 H3 Hw [R1 R2] [S1 S2] [T1 T2].
  assert (A : s * d * (d - l1) <= l2 * w * (d - l1)) by nia.
  assert (B : l2 * w * (d - l1) < (s * d + d + d) * (d - l1)) by nia.
  assert (A' : s * d <= l2 * w) by (apply Zmult_le_reg_r with (d - l1); lia).
  assert (B' : l2 * w < s * d + d + d) by (apply Zmult_lt_reg_r with (d - l1); lia).
  split; nia.
Qed.

Lemma down_entering_exact d l1 l2 w r s t : 0 < l1 -> l1 < l2 -> l2 < d -> 0 <= w ->
  r * d = l1 * w -> down (d - l1) (l2 - l1) (w - r) (s - r) -> down d l2 w t -> s = t.
Proof.
  intros H1 H2 H3 Hw R [S1 S2] [T1 T2].
  assert (A : s * d * (d - l1) <= l2 * w * (d - l1)) by nia.
  assert (B : l2 * w * (d - l1) < (s * d + d) * (d - l1)) by nia.
  assert (A' : s * d <= l2 * w) by (apply Zmult_le_reg_r with (d - l1); lia).
  assert (B' : l2 * w < s * d + d) by (apply Zmult_lt_reg_r with (d - l1); lia).
  nia.
Qed.

Lemma down_leaving d l1 l2 w r s t : 0 < l2 -> l2 < l1 -> l1 < d -> 0 <= w ->
  down d l1 w r -> down l1 l2 r s -> down d l2 w t -> t - 1 <= s <= t.
Proof.
  intros H1 H2 H3 Hw [R1 R2] [S1 S2] [T1 T2].
  assert (A : s * d * l1 <= l2 * w * l1) by nia.
  assert (B : l2 * w * l1 < (s * d + d + d) * l1) by nia.
  assert (A' : s * d <= l2 * w) by (apply Zmult_le_reg_r with l1; lia).
  assert (B' : l2 * w < s * d + d + d) by (apply Zmult_lt_reg_r with l1; lia).
  split; nia.
Qed.

Lemma down_leaving_exact d l1 l2 w r s t : 0 < l2 -> l2 < l1 -> l1 < d -> 0 <= w ->
  r * d = l1 * w -> down l1 l2 r s -> down d l2 w t -> s = t.
Proof.
  intros H1 H2 H3 Hw R [S1 S2] [T1 T2].
  assert (A : s * d * l1 <= l2 * w * l1) by nia.
  assert (B : l2 * w * l1 < (s * d + d) * l1) by nia.
  assert (A' : s * d <= l2 * w) by (apply Zmult_le_reg_r with l1; lia).
  assert (B' : l2 * w < s * d + d) by (apply Zmult_lt_reg_r with l1; lia).
  nia.
Qed.

Lemma crossing_down_z A B L u w r e : (A < L < B \/ B < L < A) -> e = 1 \/ e = -1 -> 0 <= e * (w - u) ->
  Z.min u w <= r <= Z.max u w ->
  Z.abs ((r - u) * (B - A) - (L - A) * (w - u)) < Z.abs (B - A) ->
  Z.abs (r - u) * Z.abs (B - A) <= Z.abs (L - A) * Z.abs (w - u) ->
  0 <= e * (r - u) <= e * (w - u) /\ down (Z.abs (B - A)) (Z.abs (L - A)) (e * (w - u)) (e * (r - u)).
Proof.
  intros HL He Hw Hb H1 H2. unfold down.
  assert (Ew : Z.abs (w - u) = e * (w - u)) by (destruct He; subst; lia).
  assert (Er : Z.abs (r - u) = e * (r - u)) by (destruct He; subst; lia).
  rewrite Ew, Er in H2. split; [destruct He; subst; lia|]. split; [exact H2|].
  destruct HL as [HL|HL].
  - rewrite (Z.abs_eq (B - A)), (Z.abs_eq (L - A)) in * by lia. destruct He; subst; nia.
  - rewrite (Z.abs_neq (B - A)), (Z.abs_neq (L - A)) in * by lia. destruct He; subst; nia.
Qed.

Lemma opposite_axis k p q : opposite k p q -> axis k p < level k < axis k q \/ axis k q < level k < axis k p.
Proof. unfold opposite, inside, outside. destruct k; cbn [axis level]; lia. Qed.

Lemma crossing_down k p q r e : opposite k p q -> rounded_crossing k p q r -> e = 1 \/ e = -1 -> 0 <= e * (along k q - along k p) ->
  0 <= e * (along k r - along k p) <= e * (along k q - along k p) /\
  down (Z.abs (axis k q - axis k p)) (Z.abs (level k - axis k p)) (e * (along k q - along k p)) (e * (along k r - along k p)).
Proof. intros Ho (_ & H2 & H3 & H4) He Hw. apply crossing_down_z; try assumption. apply opposite_axis, Ho. Qed.

Lemma sign_of z : exists e, (e = 1 \/ e = -1) /\ 0 <= e * z.
Proof. destruct (Z.leb_spec 0 z); [exists 1|exists (-1)]; lia. Qed.

(** ** Two masks *)
Lemma tighter_axis k k' : tighter k k' -> (forall p, axis k' p = axis k p) /\ (forall p, along k' p = along k p).
Proof. destruct k, k'; cbn; try contradiction; auto. Qed.

Lemma tighter_in k k' p : tighter k k' -> (inside k' p -> inside k p) /\ (on_line k' p -> inside k p) /\ (outside k p -> outside k' p) /\ (on_line k p -> outside k' p).
Proof. destruct k, k'; cbn; try contradiction; unfold on_line; cbn; lia. Qed.

Lemma t_in k k' p : tighter k k' -> inside k' p -> inside k p.
Proof. intros T. apply (tighter_in k k' p T). Qed.
Lemma t_on k k' p : tighter k k' -> on_line k' p -> inside k p.
Proof. intros T. apply (tighter_in k k' p T). Qed.
Lemma t_out k k' p : tighter k k' -> outside k p -> outside k' p.
Proof. intros T. apply (tighter_in k k' p T). Qed.
Lemma t_line k k' p : tighter k k' -> on_line k p -> outside k' p.
Proof. intros T. apply (tighter_in k k' p T). Qed.

Lemma tighter_order k k' p q : tighter k k' -> outside k p -> inside k' q ->
  (axis k p < level k /\ level k < level k' /\ level k' < axis k q) \/ (axis k q < level k' /\ level k' < level k /\ level k < axis k p).
Proof. destruct k, k'; cbn; try contradiction; lia. Qed.

Lemma on_line_eq k x y : on_line k x -> on_line k y -> along k x = along k y -> x = y.
Proof. unfold on_line. destruct k, x, y; cbn; intros; f_equal; lia. Qed.

Lemma exact_mod k p q : opposite k p q -> between_points k p q = false ->
  ((level k - axis k p) * (along k q - along k p)) mod (axis k q - axis k p) = 0.
Proof.
  intros Ho. unfold between_points.
  assert (E : (insideb k p && outsideb k q) || (outsideb k p && insideb k q) = true).
  { destruct Ho as [[H1 H2]|[H1 H2]].
    - apply (reflect_iff _ _ (insideb_spec k p)) in H1. apply (reflect_iff _ _ (outsideb_spec k q)) in H2. rewrite H1, H2. reflexivity.
    - apply (reflect_iff _ _ (outsideb_spec k p)) in H1. apply (reflect_iff _ _ (insideb_spec k q)) in H2. rewrite H1, H2. apply orb_true_r. }
  rewrite E. cbn [andb]. intros H. apply negb_false_iff, Z.eqb_eq in H. exact H.
Qed.

(** An exact crossing is not rounded. *)
Lemma exact_crossing k p q r : opposite k p q -> rounded_crossing k p q r -> between_points k p q = false ->
  (along k r - along k p) * (axis k q - axis k p) = (level k - axis k p) * (along k q - along k p).
Proof.
  intros Ho (_ & _ & H & _) Hm. pose proof (opposite_axis k p q Ho) as Hb. apply exact_mod in Hm; [|exact Ho].
  apply Z.mod_divide in Hm; [|lia]. destruct Hm as [z Hz]. rewrite Hz in *.
  replace ((along k r - along k p) * (axis k q - axis k p) - z * (axis k q - axis k p))
    with ((along k r - along k p - z) * (axis k q - axis k p)) in H by lia.
  rewrite Z.abs_mul in H. assert (along k r - along k p - z = 0) by nia. f_equal. lia.
Qed.

Lemma entering k k' p q x y z : tighter k k' -> outside k p -> inside k' q ->
  rounded_crossing k p q x -> rounded_crossing k' x q y -> rounded_crossing k' p q z ->
  beside k' y z /\ (between_points k p q = false -> y = z).
Proof.
  intros T Op Iq X Y Z0. pose proof (tighter_order k k' p q T Op Iq) as O. pose proof (tighter_axis k k' T) as [EA EL].
  assert (Hx : axis k x = level k) by apply X.
  assert (O1 : opposite k p q) by (right; split; [exact Op|apply (t_in k k' q T), Iq]).
  assert (O2 : opposite k' p q) by (right; split; [apply (t_out k k' p T), Op|exact Iq]).
  assert (O3 : opposite k' x q) by (right; split; [apply (t_line k k' x T), X|exact Iq]).
  destruct (sign_of (along k q - along k p)) as (e & He & Hw).
  pose proof (crossing_down k p q x e O1 X He Hw) as [X1 X2].
  pose proof (crossing_down k' p q z e O2 Z0 He) as HZ. rewrite !EA, !EL in HZ. specialize (HZ Hw). destruct HZ as [_ Z2].
  pose proof (crossing_down k' x q y e O3 Y He) as HY. rewrite !EA, !EL, Hx in HY.
  assert (Hq : 0 <= e * (along k q - along k x)) by lia. specialize (HY Hq). destruct HY as [_ Y2].
  set (d := Z.abs (axis k q - axis k p)) in *. set (l1 := Z.abs (level k - axis k p)) in *. set (l2 := Z.abs (level k' - axis k p)) in *.
  replace (Z.abs (axis k q - level k)) with (d - l1) in Y2 by lia. replace (Z.abs (level k' - level k)) with (l2 - l1) in Y2 by lia.
  replace (e * (along k q - along k x)) with (e * (along k q - along k p) - e * (along k x - along k p)) in Y2 by lia.
  replace (e * (along k y - along k x)) with (e * (along k y - along k p) - e * (along k x - along k p)) in Y2 by lia.
  assert (L1 : 0 < l1) by lia. assert (L2 : l1 < l2) by lia. assert (L3 : l2 < d) by lia.
  split.
  - right. split; [apply Y|]. split; [apply Z0|]. rewrite !EL.
    pose proof (down_entering d l1 l2 _ _ _ _ L1 L2 L3 Hw X2 Y2 Z2). destruct He; subst e; lia.
  - intros E. apply (exact_crossing k p q x O1 X) in E. apply (on_line_eq k'); [apply Y|apply Z0|]. rewrite !EL.
    assert (R : e * (along k x - along k p) * d = l1 * (e * (along k q - along k p))).
    { clear - E O. subst d l1. destruct O as [O|O].
      - rewrite (Z.abs_eq (axis k q - axis k p)), (Z.abs_eq (level k - axis k p)) by lia. transitivity (e * ((along k x - along k p) * (axis k q - axis k p))); [ring|rewrite E; ring].
      - rewrite (Z.abs_neq (axis k q - axis k p)), (Z.abs_neq (level k - axis k p)) by lia. transitivity (- e * ((along k x - along k p) * (axis k q - axis k p))); [ring|rewrite E; ring]. }
    pose proof (down_entering_exact d l1 l2 _ _ _ _ L1 L2 L3 Hw R Y2 Z2). destruct He; subst e; lia.
Qed.

Lemma leaving k k' p q x y z : tighter k k' -> inside k' p -> outside k q ->
  rounded_crossing k p q x -> rounded_crossing k' p x y -> rounded_crossing k' p q z ->
  beside k' y z /\ (between_points k p q = false -> y = z).
Proof.
  intros T Ip Oq X Y Z0. pose proof (tighter_order k k' q p T Oq Ip) as O. pose proof (tighter_axis k k' T) as [EA EL].
  assert (Hx : axis k x = level k) by apply X.
  assert (O1 : opposite k p q) by (left; split; [apply (t_in k k' p T), Ip|exact Oq]).
  assert (O2 : opposite k' p q) by (left; split; [exact Ip|apply (t_out k k' q T), Oq]).
  assert (O3 : opposite k' p x) by (left; split; [exact Ip|apply (t_line k k' x T), X]).
  destruct (sign_of (along k q - along k p)) as (e & He & Hw).
  pose proof (crossing_down k p q x e O1 X He Hw) as [X1 X2].
  pose proof (crossing_down k' p q z e O2 Z0 He) as HZ. rewrite !EA, !EL in HZ. specialize (HZ Hw). destruct HZ as [_ Z2].
  pose proof (crossing_down k' p x y e O3 Y He) as HY. rewrite !EA, !EL, Hx in HY.
  specialize (HY (proj1 X1)). destruct HY as [_ Y2].
  set (d := Z.abs (axis k q - axis k p)) in *. set (l1 := Z.abs (level k - axis k p)) in *. set (l2 := Z.abs (level k' - axis k p)) in *.
  assert (L1 : 0 < l2) by lia. assert (L2 : l2 < l1) by lia. assert (L3 : l1 < d) by lia.
  split.
  - right. split; [apply Y|]. split; [apply Z0|]. rewrite !EL.
    pose proof (down_leaving d l1 l2 _ _ _ _ L1 L2 L3 Hw X2 Y2 Z2). destruct He; subst e; lia.
  - intros E. apply (exact_crossing k p q x O1 X) in E. apply (on_line_eq k'); [apply Y|apply Z0|]. rewrite !EL.
    assert (R : e * (along k x - along k p) * d = l1 * (e * (along k q - along k p))).
    { clear - E O. subst d l1. destruct O as [O|O].
      - rewrite (Z.abs_neq (axis k q - axis k p)), (Z.abs_neq (level k - axis k p)) by lia. transitivity (- e * ((along k x - along k p) * (axis k q - axis k p))); [ring|rewrite E; ring].
      - rewrite (Z.abs_eq (axis k q - axis k p)), (Z.abs_eq (level k - axis k p)) by lia. transitivity (e * ((along k x - along k p) * (axis k q - axis k p))); [ring|rewrite E; ring]. }
    pose proof (down_leaving_exact d l1 l2 _ _ _ _ L1 L2 L3 Hw R Y2 Z2). destruct He; subst e; lia.
Qed.

(** ** Parts of parts *)
Definition parts_of (k : clip_mask) (Y : point -> point -> point) (parts : list (point * point * bool)) : list (point * point * bool) :=
  flat_map (fun s => kept_part k (Y (fst (fst s)) (snd (fst s))) (fst (fst s)) (snd (fst s))) parts.

Lemma kept_parts_snoc k Y l z a : final l = Some z -> kept_parts k Y (l ++ [a]) = kept_parts k Y l ++ kept_part k (Y z a) z a.
Proof. intros H. unfold kept_parts. rewrite (segs_snoc l a z H), flat_map_app. cbn [flat_map fst snd]. rewrite app_nil_r. reflexivity. Qed.

Lemma final_snoc' (l : list point) a : final (l ++ [a]) = Some a.
Proof. unfold final. rewrite rev_app_distr. reflexivity. Qed.

Lemma not_kept k x p q : ~ inside k p -> ~ inside k q -> kept_part k x p q = [].
Proof. intros Hp Hq. unfold kept_part. destruct (insideb_spec k p), (insideb_spec k q); tauto. Qed.

Definition starts_well (k : clip_mask) (s : point * point * bool) : Prop := snd s = false -> on_line k (fst (fst s)).

Lemma parts_of_path k k' Y : tighter k k' -> forall parts out z, final out = Some z ->
  parts_joined k ((z, z, true) :: parts) -> Forall (starts_well k) parts ->
  kept_parts k' Y (fold_left append_part parts out) = kept_parts k' Y out ++ parts_of k' Y parts.
Proof.
  intros T. induction parts as [|[[a b] v] parts IH]; intros out z Hz HJ HS; [cbn; rewrite app_nil_r; reflexivity|].
  cbn [fold_left]. inversion HS as [|? ? S1 S2]; subst. destruct HJ as [J1 J2]. cbn [fst snd] in J1.
  assert (J3 : parts_joined k ((b, b, true) :: parts)) by (destruct parts; [exact I|exact J2]).
  unfold append_part at 2. rewrite Hz. destruct (v && pt_eqb z a) eqn:E.
  - apply andb_true_iff in E as [-> E]. apply pt_eqb_eq in E. subst a.
    rewrite (IH (out ++ [b]) b (final_snoc' _ _) J3 S2), (kept_parts_snoc k' Y out z b Hz).
    unfold parts_of. cbn [flat_map fst snd]. rewrite <- app_assoc. reflexivity.
  - replace (out ++ [a; b]) with ((out ++ [a]) ++ [b]) by (rewrite <- app_assoc; reflexivity).
    rewrite (IH _ b (final_snoc' _ _) J3 S2), (kept_parts_snoc k' Y _ a b (final_snoc' _ _)), (kept_parts_snoc k' Y out z a Hz).
    assert (N : kept_part k' (Y z a) z a = []).
    { assert (L : on_line k z /\ on_line k a).
      { destruct J1 as [->|J1]; [|exact J1]. rewrite pt_eqb_refl, andb_true_r in E. subst v. specialize (S1 eq_refl). cbn in S1. auto. }
      destruct L as [L1 L2]. apply not_kept; intros I.
      - apply (t_line k k' z T) in L1. destruct (mask_test_spec k' z) as [G|[G|G]]; tauto.
      - apply (t_line k k' a T) in L2. destruct (mask_test_spec k' a) as [G|[G|G]]; tauto. }
    rewrite N, app_nil_r. unfold parts_of. cbn [flat_map fst snd]. rewrite <- !app_assoc. reflexivity.
Qed.

Lemma kept_starts k X ps : good_X k X ps -> Forall (starts_well k) (kept_parts k X ps).
Proof.
  intros HX. apply Forall_forall. intros s I. unfold kept_parts in I. apply in_flat_map in I as ([p q] & I & J). cbn [fst snd] in J.
  unfold kept_part in J. unfold starts_well. destruct (insideb k p); [destruct J as [<-|[]]; discriminate|].
  destruct (insideb_spec k q) as [Iq|]; [|destruct J]. destruct (outsideb_spec k p) as [Op|]; destruct J as [<-|[]]; [|discriminate].
  intros _. cbn [fst]. apply HX; [exact I|right; auto].
Qed.

Lemma steps_parts k k' X Y ps : tighter k k' -> good_X k X ps ->
  kept_parts k' Y (clip_path k X ps) = parts_of k' Y (kept_parts k X ps).
Proof.
  intros T HX. unfold clip_path. pose proof (kept_parts_joined k X ps HX) as HJ. pose proof (kept_starts k X ps HX) as HS.
  destruct (kept_parts k X ps) as [|[[a b] v] parts]; [reflexivity|]. inversion HS as [|? ? _ S]; subst.
  cbn [fold_left]. assert (A : append_part [] (a, b, v) = [a; b]) by (unfold append_part; cbn; rewrite andb_false_r; reflexivity).
  rewrite A, (parts_of_path k k' Y T parts [a; b] b eq_refl); [|destruct parts; [exact I|exact HJ]|exact S].
  unfold parts_of, kept_parts. cbn [tl combine flat_map fst snd]. rewrite app_nil_r. reflexivity.
Qed.

(** ** One segment *)
Definition near_part (k : clip_mask) (s s' : point * point * bool) : Prop :=
  beside k (fst (fst s)) (fst (fst s')) /\ beside k (snd (fst s)) (snd (fst s')) /\ snd s = snd s'.

Lemma beside_refl k x : beside k x x.
Proof. left. reflexivity. Qed.

Lemma in_not_out k p : inside k p -> ~ outside k p.
Proof. destruct (mask_test_spec k p) as [G|[G|G]]; tauto. Qed.
Lemma on_not_in k p : on_line k p -> ~ inside k p.
Proof. destruct (mask_test_spec k p) as [G|[G|G]]; tauto. Qed.

Lemma segment_steps k k' X Y p q : tighter k k' ->
  (opposite k p q -> rounded_crossing k p q (X p q)) ->
  (forall a b, In (a, b) (map fst (kept_part k (X p q) p q)) -> opposite k' a b -> rounded_crossing k' a b (Y a b)) ->
  (opposite k' p q -> rounded_crossing k' p q (Y p q)) ->
  Forall2 (near_part k') (parts_of k' Y (kept_part k (X p q) p q)) (kept_part k' (Y p q) p q) /\
  ((opposite k' p q -> between_points k p q = false) ->
   parts_of k' Y (kept_part k (X p q) p q) = kept_part k' (Y p q) p q).
Proof.
  intros T HX HY HZ.
  assert (same : kept_part k (X p q) p q = [(p, q, true)] ->
    parts_of k' Y (kept_part k (X p q) p q) = kept_part k' (Y p q) p q).
  { intros E. rewrite E. unfold parts_of. cbn [flat_map fst snd]. apply app_nil_r. }
  assert (refl : forall l l', l = l' -> Forall2 (near_part k') l l' /\ ((opposite k' p q -> between_points k p q = false) -> l = l')).
  { intros l l' ->. split; [|reflexivity]. clear. induction l'; constructor; [|assumption]. repeat split; apply beside_refl. }
  destruct (insideb_spec k' p) as [Ip|Ip].
  - assert (Ip1 : inside k p) by exact (t_in k k' p T Ip). destruct (outsideb_spec k q) as [Oq|Oq].
    + assert (Oq1 : outside k' q) by exact (t_out k k' q T Oq). assert (O1 : opposite k p q) by (left; auto). assert (O2 : opposite k' p q) by (left; auto).
      assert (E : kept_part k (X p q) p q = [(p, X p q, true)]).
      { unfold kept_part. rewrite (proj1 (reflect_iff _ _ (insideb_spec k p)) Ip1), (proj1 (reflect_iff _ _ (outsideb_spec k q)) Oq). reflexivity. }
      assert (Ox : outside k' (X p q)) by (apply (t_line k k' _ T), (HX O1)).
      assert (E' : parts_of k' Y (kept_part k (X p q) p q) = [(p, Y p (X p q), true)]).
      { rewrite E. unfold parts_of, kept_part. cbn [flat_map fst snd]. rewrite (proj1 (reflect_iff _ _ (insideb_spec k' p)) Ip), (proj1 (reflect_iff _ _ (outsideb_spec k' (X p q))) Ox). reflexivity. }
      assert (E2 : kept_part k' (Y p q) p q = [(p, Y p q, true)]).
      { unfold kept_part. rewrite (proj1 (reflect_iff _ _ (insideb_spec k' p)) Ip), (proj1 (reflect_iff _ _ (outsideb_spec k' q)) Oq1). reflexivity. }
      rewrite E', E2. destruct (leaving k k' p q (X p q) (Y p (X p q)) (Y p q) T Ip Oq (HX O1)) as [N1 N2].
      * apply HY; [rewrite E; left; reflexivity|left; auto].
      * apply HZ, O2.
      * split; [constructor; [split; [apply beside_refl|split; [exact N1|reflexivity]]|constructor]|]. intros G. rewrite (N2 (G O2)). reflexivity.
    + apply refl, same. unfold kept_part. rewrite (proj1 (reflect_iff _ _ (insideb_spec k p)) Ip1). destruct (outsideb_spec k q); [contradiction|]. reflexivity.
  - destruct (insideb_spec k' q) as [Iq|Iq].
    + assert (Iq1 : inside k q) by exact (t_in k k' q T Iq). destruct (outsideb_spec k p) as [Op|Op].
      * assert (Op1 : outside k' p) by exact (t_out k k' p T Op). assert (O1 : opposite k p q) by (right; auto). assert (O2 : opposite k' p q) by (right; auto).
        assert (E : kept_part k (X p q) p q = [(X p q, q, false)]).
        { unfold kept_part. rewrite (outside_not_inside k p Op), (proj1 (reflect_iff _ _ (insideb_spec k q)) Iq1), (proj1 (reflect_iff _ _ (outsideb_spec k p)) Op). reflexivity. }
        assert (Ox : outside k' (X p q)) by (apply (t_line k k' _ T), (HX O1)).
        assert (E' : parts_of k' Y (kept_part k (X p q) p q) = [(Y (X p q) q, q, false)]).
        { rewrite E. unfold parts_of, kept_part. cbn [flat_map fst snd].
          rewrite (outside_not_inside k' _ Ox), (proj1 (reflect_iff _ _ (insideb_spec k' q)) Iq), (proj1 (reflect_iff _ _ (outsideb_spec k' (X p q))) Ox). reflexivity. }
        assert (E2 : kept_part k' (Y p q) p q = [(Y p q, q, false)]).
        { unfold kept_part. rewrite (outside_not_inside k' p Op1), (proj1 (reflect_iff _ _ (insideb_spec k' q)) Iq), (proj1 (reflect_iff _ _ (outsideb_spec k' p)) Op1). reflexivity. }
        rewrite E', E2. destruct (entering k k' p q (X p q) (Y (X p q) q) (Y p q) T Op Iq (HX O1)) as [N1 N2].
        -- apply HY; [rewrite E; left; reflexivity|right; auto].
        -- apply HZ, O2.
        -- split; [constructor; [split; [exact N1|split; [apply beside_refl|reflexivity]]|constructor]|]. intros G. rewrite (N2 (G O2)). reflexivity.
      * apply refl, same. unfold kept_part. rewrite (proj1 (reflect_iff _ _ (insideb_spec k q)) Iq1).
        destruct (insideb k p); [|destruct (outsideb_spec k p); [contradiction|reflexivity]].
        destruct (outsideb_spec k q) as [Oq|]; [destruct (in_not_out k q Iq1 Oq)|reflexivity].
    + apply refl. rewrite (not_kept k' (Y p q) p q Ip Iq).
      assert (N : forall a b v, In (a, b, v) (kept_part k (X p q) p q) -> ~ inside k' a /\ ~ inside k' b).
      { assert (NX : opposite k p q -> ~ inside k' (X p q)).
        { intros O J. apply (in_not_out _ _ J), (t_line k k' _ T), (HX O). }
        unfold kept_part. intros a b v J. destruct (insideb_spec k p) as [Ip1|Ip1].
        - destruct J as [[= <- <- _]|[]]. split; [exact Ip|]. destruct (outsideb_spec k q) as [Oq|Oq]; [apply NX; left; auto|exact Iq].
        - destruct (insideb_spec k q) as [Iq1|Iq1]; [|destruct J]. destruct (outsideb_spec k p) as [Op|Op]; destruct J as [[= <- <- _]|[]]; split; auto.
          apply NX; right; auto. }
      clear HY HZ same refl HX. induction (kept_part k (X p q) p q) as [|[[a b] v] l IH]; [reflexivity|].
      unfold parts_of in *. cbn [flat_map fst snd]. destruct (N a b v (or_introl eq_refl)) as [Na Nb]. rewrite (not_kept k' _ a b Na Nb). cbn [app].
      apply IH. intros a' b' v' J. apply (N a' b' v'). right. exact J.
Qed.

(** ** A path *)
Lemma path_steps k k' X Y ps : tighter k k' -> good_X k X ps ->
  (forall p q, In (p, q) (combine ps (tl ps)) ->
     Forall2 (near_part k') (parts_of k' Y (kept_part k (X p q) p q)) (kept_part k' (Y p q) p q) /\
     ((opposite k' p q -> between_points k p q = false) ->
      parts_of k' Y (kept_part k (X p q) p q) = kept_part k' (Y p q) p q)) ->
  Forall2 (near_part k') (kept_parts k' Y (clip_path k X ps)) (kept_parts k' Y ps) /\
  ((forall p q, In (p, q) (combine ps (tl ps)) -> opposite k' p q -> between_points k p q = false) ->
   kept_parts k' Y (clip_path k X ps) = kept_parts k' Y ps).
Proof.
  intros T HX H. rewrite (steps_parts k k' X Y ps T HX). unfold kept_parts, parts_of.
  induction (combine ps (tl ps)) as [|[p q] l IH]; [split; [constructor|reflexivity]|]. cbn [flat_map fst snd]. rewrite flat_map_app.
  destruct (H p q (or_introl eq_refl)) as [H1 H2]. destruct IH as [I1 I2]; [intros a b J; apply H; right; exact J|]. split.
  - apply Forall2_app; [exact H1|exact I1].
  - intros G. f_equal; [apply H2, G; left; reflexivity|apply I2; intros a b J; apply G; right; exact J].
Qed.

Lemma segments_combine ps p q : In [p; q] (segments ps) <-> In (p, q) (combine ps (tl ps)).
Proof.
  induction ps as [|a [|b ps] IH]; [tauto|tauto|].
  change (segments (a :: b :: ps)) with ([a; b] :: segments (b :: ps)). cbn [tl combine] in *. cbn [In]. rewrite IH.
  split; intros [E|J]; auto; left; congruence.
Qed.

Lemma small_sub a b c d : Z.abs a <= Z.abs c -> Z.abs b <= Z.abs d -> Z.abs c * Z.abs d < 2 ^ 63 -> Z.abs a * Z.abs b < 2 ^ 63.
Proof. intros. nia. Qed.

Lemma small_enter k p q x : opposite k p q -> rounded_crossing k p q x -> small_step p q -> small_step x q /\ small_step p x.
Proof.
  intros O (R1 & R2 & _) S. pose proof (opposite_axis k p q O). unfold small_step in *. unfold on_line in R1.
  split; eapply small_sub; try exact S; destruct k; cbn [axis along level] in *; lia.
Qed.

Lemma computed m k p q : wf_mask k -> wf_point p -> wf_point q -> opposite k p q -> small_step p q ->
  mask_intersect m k p q = Ok (isect m k p q) /\ wf_point (isect m k p q) /\ rounded_crossing k p q (isect m k p q).
Proof.
  intros Hk Hp Hq Ho Hf.
  assert (Hf' : Z.abs (level k - axis k p) * Z.abs (along k q - along k p) < 2 ^ 63).
  { pose proof (opposite_between k p q Ho) as Hb. unfold small_step in Hf.
    assert (Z.abs (axis k q - axis k p) * Z.abs (along k q - along k p) < 2 ^ 63) by (destruct k; cbn [axis along]; lia).
    assert (Z.abs (level k - axis k p) <= Z.abs (axis k q - axis k p)) by lia. nia. }
  destruct (mask_intersect_ok m k p q Hk Hp Hq Ho Hf') as [H1 H2]. unfold isect. rewrite H1.
  split; [reflexivity|]. split; [eapply mask_intersect_wf; eassumption|exact H2].
Qed.

(** The segments of a clipped path. *)
Lemma segs_of_path k x y : forall parts out z, final out = Some z ->
  parts_joined k ((z, z, true) :: parts) -> Forall (starts_well k) parts ->
  In (x, y) (combine (fold_left append_part parts out) (tl (fold_left append_part parts out))) ->
  In (x, y) (combine out (tl out)) \/ In (x, y) (map fst parts) \/ (on_line k x /\ on_line k y).
Proof.
  induction parts as [|[[a b] v] parts IH]; intros out z Hz HJ HS I; [left; exact I|].
  cbn [fold_left] in I. inversion HS as [|? ? S1 S2]; subst. destruct HJ as [J1 J2]. cbn [fst snd] in J1.
  assert (J3 : parts_joined k ((b, b, true) :: parts)) by (destruct parts; [exact Logic.I|exact J2]).
  unfold append_part at 2 4 in I. rewrite Hz in I. destruct (v && pt_eqb z a) eqn:E.
  - apply andb_true_iff in E as [-> E]. apply pt_eqb_eq in E. subst a.
    apply (IH (out ++ [b]) b (final_snoc' _ _) J3 S2) in I. rewrite (segs_snoc out b z Hz) in I. cbn [map fst].
    destruct I as [I|[I|I]]; [|right; left; right; exact I|auto]. apply in_app_or in I as [I|[[= <- <-]|[]]]; [auto|right; left; left; reflexivity].
  - replace (out ++ [a; b]) with ((out ++ [a]) ++ [b]) in I by (rewrite <- app_assoc; reflexivity).
    apply (IH _ b (final_snoc' _ _) J3 S2) in I. rewrite (segs_snoc _ b a (final_snoc' _ _)), (segs_snoc out a z Hz) in I. cbn [map fst].
    destruct I as [I|[I|I]]; [|right; left; right; exact I|auto].
    apply in_app_or in I as [I|[[= <- <-]|[]]]; [|right; left; left; reflexivity].
    apply in_app_or in I as [I|[[= <- <-]|[]]]; [auto|]. right. right.
    destruct J1 as [->|J1]; [|exact J1]. rewrite pt_eqb_refl, andb_true_r in E. subst v. specialize (S1 eq_refl). cbn in S1. auto.
Qed.

Lemma segs_of_clip k X ps x y : good_X k X ps -> In (x, y) (combine (clip_path k X ps) (tl (clip_path k X ps))) ->
  In (x, y) (map fst (kept_parts k X ps)) \/ (on_line k x /\ on_line k y).
Proof.
  intros HX. unfold clip_path. pose proof (kept_parts_joined k X ps HX) as HJ. pose proof (kept_starts k X ps HX) as HS.
  destruct (kept_parts k X ps) as [|[[a b] v] parts]; [intros []|]. inversion HS as [|? ? _ S]; subst.
  cbn [fold_left]. assert (A : append_part [] (a, b, v) = [a; b]) by (unfold append_part; cbn; rewrite andb_false_r; reflexivity).
  rewrite A. intros I. apply (segs_of_path k x y parts [a; b] b eq_refl) in I; [|destruct parts; [exact Logic.I|exact HJ]|exact S].
  cbn [map fst]. destruct I as [[[= <- <-]|[]]|[I|I]]; [left; left; reflexivity|left; right; exact I|auto].
Qed.

Section Steps.
  Context (m : mode) (k k' : clip_mask) (ps : list point).
  Hypothesis (T : tighter k k') (Wk : wf_mask k) (Wk' : wf_mask k') (Wp : wf_points ps) (S : small_path ps).

  Lemma seg_wf p q : In (p, q) (combine ps (tl ps)) -> wf_point p /\ wf_point q /\ small_step p q.
  Proof.
    intros I. pose proof (proj2 (segments_combine ps p q) I) as J. split; [|split; [|apply S, J]].
    - apply in_combine_l in I. exact (proj1 (Forall_forall _ _) Wp _ I).
    - apply in_combine_r in I. apply (proj1 (Forall_forall _ _) Wp). destruct ps; [exact I|right; exact I].
  Qed.

  Lemma first_step : clip_edge m k ps = Ok (clip_path k (isect m k) ps).
  Proof.
    rewrite <- run_edge_clip_path. apply clip_edge_returns. intros p q I O. destruct (seg_wf p q I) as (Hp & Hq & Hs). apply computed; assumption.
  Qed.

  Lemma direct_step : clip_edge m k' ps = Ok (clip_path k' (isect m k') ps).
  Proof.
    rewrite <- run_edge_clip_path. apply clip_edge_returns. intros p q I O. destruct (seg_wf p q I) as (Hp & Hq & Hs). apply computed; assumption.
  Qed.

  Lemma part_wf p q a b : In (p, q) (combine ps (tl ps)) -> In (a, b) (map fst (kept_part k (isect m k p q) p q)) ->
    wf_point a /\ wf_point b /\ small_step a b.
  Proof.
    intros I J. destruct (seg_wf p q I) as (Hp & Hq & Hs). apply in_map_iff in J as ([[a' b'] v] & [= -> ->] & J). unfold kept_part in J.
    destruct (insideb_spec k p) as [Ip|Ip].
    - destruct J as [[= <- <- _]|[]]. destruct (outsideb_spec k q) as [Oq|Oq]; [|auto].
      assert (O : opposite k p q) by (left; auto). destruct (computed m k p q Wk Hp Hq O Hs) as (_ & C1 & C2).
      split; [exact Hp|]. split; [exact C1|]. apply (small_enter k p q _ O C2 Hs).
    - destruct (insideb_spec k q) as [Iq|Iq]; [|destruct J]. destruct (outsideb_spec k p) as [Op|Op]; destruct J as [[= <- <- _]|[]]; [|auto].
      assert (O : opposite k p q) by (right; auto). destruct (computed m k p q Wk Hp Hq O Hs) as (_ & C1 & C2).
      split; [exact C1|]. split; [exact Hq|]. apply (small_enter k p q _ O C2 Hs).
  Qed.

  Lemma first_good : good_X k (isect m k) ps.
  Proof. exact (clip_edge_good _ _ _ _ first_step). Qed.

  Lemma second_step : clip_edge m k' (clip_path k (isect m k) ps) = Ok (clip_path k' (isect m k') (clip_path k (isect m k) ps)).
  Proof.
    rewrite <- (run_edge_clip_path k'). apply clip_edge_returns. intros a b I O. apply (segs_of_clip k _ _ a b first_good) in I as [I|[L1 L2]].
    - apply in_map_iff in I as ([[a' b'] v] & [= -> ->] & I). unfold kept_parts in I. apply in_flat_map in I as ([p q] & I & J). cbn [fst snd] in J.
      destruct (part_wf p q a b I) as (Ha & Hb & Hs); [apply (in_map fst) in J; exact J|]. apply computed; assumption.
    - apply (t_line k k' _ T) in L1, L2. destruct O as [[O _]|[_ O]]; [destruct (in_not_out _ _ O L1)|destruct (in_not_out _ _ O L2)].
  Qed.

  Lemma both_steps :
    Forall2 (near_part k') (kept_parts k' (isect m k') (clip_path k (isect m k) ps)) (kept_parts k' (isect m k') ps) /\
    (exact_first k k' ps -> kept_parts k' (isect m k') (clip_path k (isect m k) ps) = kept_parts k' (isect m k') ps).
  Proof.
    destruct (path_steps k k' (isect m k) (isect m k') ps T first_good) as [P1 P2].
    - intros p q I. destruct (seg_wf p q I) as (Hp & Hq & Hs). apply segment_steps; [exact T| | |].
      + intros O. apply computed; assumption.
      + intros a b J O. destruct (part_wf p q a b I J) as (Ha & Hb & Hc). apply computed; assumption.
      + intros O. apply computed; assumption.
    - split; [exact P1|]. intros E. apply P2. intros p q I O. apply E; [apply segments_combine, I|exact O].
  Qed.
End Steps.

Lemma near_points k l l' : Forall2 (near_part k) l l' -> Forall2 (beside k) (part_points l) (part_points l').
Proof.
  induction 1 as [|s s' l l' (H1 & H2 & _) H IH]; [constructor|]. unfold part_points in *. cbn [flat_map].
  apply Forall2_app; [|exact IH]. constructor; [exact H1|]. constructor; [exact H2|constructor].
Qed.

Lemma clip_steps m k k' ps : tighter k k' -> wf_mask k -> wf_mask k' -> wf_points ps -> small_path ps ->
  exists c1 c12 c2 l l', clip_edge m k ps = Ok c1 /\ clip_edge m k' c1 = Ok c12 /\ clip_edge m k' ps = Ok c2 /\
    dedup c12 = dedup l /\ dedup c2 = dedup l' /\ Forall2 (beside k') l l' /\
    filter (insideb k') c12 = filter (insideb k') c2.
Proof.
  intros T W W' P S. pose proof (first_step m k ps W P S) as E1. pose proof (second_step m k k' ps T W W' P S) as E2.
  pose proof (direct_step m k' ps W' P S) as E3. destruct (both_steps m k k' ps T W W' P S) as [N _].
  do 3 eexists. exists (part_points (kept_parts k' (isect m k') (clip_path k (isect m k) ps))), (part_points (kept_parts k' (isect m k') ps)).
  split; [exact E1|]. split; [exact E2|]. split; [exact E3|].
  split; [apply clip_path_dedup|]. split; [apply clip_path_dedup|]. split; [apply near_points, N|].
  pose proof (clip_edge_good _ _ _ _ E1) as G1. pose proof (clip_edge_good _ _ _ _ E2) as G2. pose proof (clip_edge_good _ _ _ _ E3) as G3.
  destruct ps as [|p0 [|p1 ps]]; [reflexivity|reflexivity|]. remember (p0 :: p1 :: ps) as ps'.
  assert (L : (2 <= length ps')%nat) by (subst; cbn; lia).
  rewrite <- (run_edge_clip_path k' (isect m k') ps'), (run_edge_inside k' _ ps' G3 L).
  pose proof (run_edge_inside k _ ps' G1 L) as F1. rewrite run_edge_clip_path in F1.
  assert (Z1 : filter (insideb k') (clip_path k (isect m k) ps') = filter (insideb k') ps').
  { assert (Q : forall l : list point, filter (insideb k') l = filter (insideb k') (filter (insideb k) l)).
    { clear - T. induction l as [|a l IH]; [reflexivity|]. cbn [filter]. destruct (insideb_spec k' a) as [I|I].
      - pose proof (proj1 (reflect_iff _ _ (insideb_spec k a)) (t_in k k' a T I)) as J. rewrite J. cbn [filter].
        rewrite (proj1 (reflect_iff _ _ (insideb_spec k' a)) I), IH. reflexivity.
      - rewrite IH. destruct (insideb k a); [|reflexivity]. cbn [filter]. destruct (insideb_spec k' a); [contradiction|]. reflexivity. }
    rewrite Q, F1, <- Q. reflexivity. }
  destruct (clip_path_empty k (isect m k) ps' L) as [_ [C|C]].
  - rewrite C in *. cbn [filter] in Z1 |- *. cbn. exact Z1.
  - rewrite <- (run_edge_clip_path k' (isect m k') (clip_path k _ ps')), (run_edge_inside k' _ _ G2 C). exact Z1.
Qed.

Lemma clip_steps_exact m k k' ps : tighter k k' -> wf_mask k -> wf_mask k' -> wf_points ps -> small_path ps -> exact_first k k' ps ->
  exists c1 c2, clip_edge m k ps = Ok c1 /\ clip_edge m k' c1 = Ok c2 /\ clip_edge m k' ps = Ok c2.
Proof.
  intros T W W' P S E. do 2 eexists. split; [exact (first_step m k ps W P S)|]. split; [|exact (direct_step m k' ps W' P S)].
  rewrite (second_step m k k' ps T W W' P S). f_equal. unfold clip_path at 1 3. f_equal. exact (proj2 (both_steps m k k' ps T W W' P S) E).
Qed.
