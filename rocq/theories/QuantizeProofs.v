(** * QuantizeProofs: real analysis of the quantizer *)
From Coq Require Import Reals Lra Psatz.
From Flocq Require Import Core.Core Relative Plus_error.
From Flocq Require IEEE754.Binary IEEE754.BinarySingleNaN IEEE754.Bits.
From Verif Require Import QuantizeSpec.
Open Scope R_scope.

Notation fexp64 := (SpecFloat.fexp 53 1024).
Definition RN (x : R) : R := round radix2 fexp64 ZnearestE x.
Notation val := (Binary.B2R 53 1024).
Notation fin := (Binary.is_finite 53 1024).

#[local] Instance prec53 : Prec_gt_0 53 := eq_refl.
#[local] Instance valid64 : Valid_exp fexp64 := FLT_exp_valid (-1074) 53.

Lemma RN_le x y : x <= y -> RN x <= RN y.
Proof. apply round_le; typeclasses eauto. Qed.
Lemma RN_0 : RN 0 = 0.
Proof. apply round_0; typeclasses eauto. Qed.
Lemma RN_val x : RN (val x) = val x.
Proof. apply round_generic; [typeclasses eauto|apply Binary.generic_format_B2R]. Qed.
Lemma RN_opp x : RN (- x) = - RN x.
Proof. apply round_NE_opp. Qed.
Lemma RN_IZR n : (Z.abs n <= 2 ^ 53)%Z -> RN (IZR n) = IZR n.
Proof.
  intros H. apply round_generic; [typeclasses eauto|].
  apply (generic_format_FLT radix2 (-1074) 53). destruct (Z.eq_dec (Z.abs n) (2 ^ 53)) as [E|E].
  - exists (Float radix2 (Z.sgn n) 53).
    + unfold F2R. cbn [Fnum Fexp]. rewrite <- IZR_Zpower by lia. rewrite <- mult_IZR. f_equal. change (Zpower radix2 53) with (2 ^ 53)%Z. lia.
    + cbn [Fnum]. destruct n; cbn; lia.
    + cbn [Fexp]. lia.
  - exists (Float radix2 n 0); [unfold F2R; cbn; ring| |cbn; lia]. cbn [Fnum]. change (radix2 ^ 53)%Z with (2 ^ 53)%Z. lia.
Qed.

Lemma RN_1 : RN 1 = 1.
Proof. apply (RN_IZR 1). lia. Qed.
Lemma RN_M : RN 4294967295 = 4294967295.
Proof. apply (RN_IZR 4294967295). lia. Qed.

(** ** The operations *)
Lemma sub_ok x y : fin x = true -> fin y = true -> Rabs (RN (val x - val y)) < bpow radix2 1024 ->
  val (f64_sub x y) = RN (val x - val y) /\ fin (f64_sub x y) = true.
Proof.
  intros Hx Hy H. unfold f64_sub, Bits.b64_minus.
  pose proof (Binary.Bminus_correct 53 1024 eq_refl eq_refl Bits.binop_nan_pl64 BinarySingleNaN.mode_NE x y Hx Hy) as C.
  cbn [BinarySingleNaN.round_mode] in C. unfold RN in H. rewrite Rlt_bool_true in C by exact H. destruct C as (E & F & _). split; [exact E|exact F].
Qed.

Lemma div_ok x y : fin x = true -> val y <> 0 -> Rabs (RN (val x / val y)) < bpow radix2 1024 ->
  val (f64_div x y) = RN (val x / val y) /\ fin (f64_div x y) = true.
Proof.
  intros Hx Hy H. unfold f64_div, Bits.b64_div.
  pose proof (Binary.Bdiv_correct 53 1024 eq_refl eq_refl Bits.binop_nan_pl64 BinarySingleNaN.mode_NE x y Hy) as C.
  cbn [BinarySingleNaN.round_mode] in C. unfold RN in H. rewrite Rlt_bool_true in C by exact H. destruct C as (E & F & _). split; [exact E|].
  rewrite F. exact Hx.
Qed.

Lemma mul_ok x y : fin x = true -> fin y = true -> Rabs (RN (val x * val y)) < bpow radix2 1024 ->
  val (f64_mul x y) = RN (val x * val y) /\ fin (f64_mul x y) = true.
Proof.
  intros Hx Hy H. unfold f64_mul, Bits.b64_mult.
  pose proof (Binary.Bmult_correct 53 1024 eq_refl eq_refl Bits.binop_nan_pl64 BinarySingleNaN.mode_NE x y) as C.
  cbn [BinarySingleNaN.round_mode] in C. unfold RN in H. rewrite Rlt_bool_true in C by exact H. destruct C as (E & F & _). split; [exact E|].
  rewrite F, Hx, Hy. reflexivity.
Qed.

Lemma as_u32_ok x : fin x = true -> f64_as_u32 x = clamp_u32 (Ztrunc (val x)).
Proof.
  intros H. assert (E : Binary.Btrunc 53 1024 x = Ztrunc (val x)).
  { apply eq_IZR. rewrite (Binary.Btrunc_correct 53 1024 eq_refl x). apply round_FIX_IZR. }
  destruct x; try discriminate H; cbn [f64_as_u32]; rewrite E; reflexivity.
Qed.

Lemma M_val : val f64_u32_max = 4294967295 /\ fin f64_u32_max = true.
Proof. split; [|reflexivity]. unfold f64_u32_max, f64_of_bits. vm_compute. lra. Qed.

(** ** Lengths of sides *)
Lemma RN_limit x : x < bpow radix2 1024 - bpow radix2 970 -> RN x < bpow radix2 1024.
Proof.
  intros H. pose (u := pred radix2 fexp64 (bpow radix2 1024)).
  assert (F : generic_format radix2 fexp64 (bpow radix2 1024)) by (apply generic_format_bpow; cbn; lia).
  assert (Eu : u = bpow radix2 1024 - bpow radix2 971) by apply pred_bpow.
  assert (Es : succ radix2 fexp64 u = bpow radix2 1024) by (apply succ_pred; [typeclasses eauto|exact F]).
  assert (D : bpow radix2 971 = 2 * bpow radix2 970) by (change 971%Z with (1 + 970)%Z; rewrite bpow_plus; reflexivity).
  pose proof (bpow_gt_0 radix2 970).
  apply Rle_lt_trans with u; [|lra].
  apply round_N_le_midp; [typeclasses eauto|apply generic_format_pred; [typeclasses eauto|exact F]|].
  rewrite Es, Eu. lra.
Qed.

Lemma RN_diff_pos x y : val y < val x -> 0 < RN (val x - val y).
Proof.
  intros H. assert (0 <= RN (val x - val y)) by (rewrite <- RN_0; apply RN_le; lra).
  assert (RN (val x - val y) <> 0); [|lra].
  unfold RN, Rminus. apply round_plus_neq_0; try typeclasses eauto; try lra.
  - apply Binary.generic_format_B2R.
  - apply generic_format_opp, Binary.generic_format_B2R.
Qed.

(** ** One coordinate *)

(** [o] is the origin, [e] the other end; [s] is 1 or -1. *)
Definition between (s : R) (o e v : f64) : Prop :=
  fin o = true /\ fin e = true /\ fin v = true /\ (s = 1 \/ s = -1) /\
  0 <= s * (val v - val o) <= s * (val e - val o) /\ 0 < s * (val e - val o) < bpow radix2 1024 - bpow radix2 970.

(** The computed position before truncation. *)
Definition position (s : R) (o e v : f64) : R :=
  RN (RN (RN (s * (val v - val o)) / RN (s * (val e - val o))) * 4294967295).

Lemma Rabs_lt_pos x b : 0 <= x < b -> Rabs x < b.
Proof. intros H. rewrite Rabs_pos_eq; lra. Qed.

Lemma big : 4294967295 < bpow radix2 1024.
Proof.
  apply Rlt_trans with (bpow radix2 32); [|apply bpow_lt; lia].
  change (bpow radix2 32) with 4294967296. lra.
Qed.

Lemma RN_sign s x : s = 1 \/ s = -1 -> RN (s * x) = s * RN x.
Proof. intros [-> | ->]; [rewrite !Rmult_1_l; reflexivity|]. replace (-1 * x) with (- x) by ring. rewrite RN_opp. ring. Qed.

Lemma between_facts s o e v : between s o e v ->
  0 < RN (s * (val e - val o)) < bpow radix2 1024 /\
  0 <= RN (s * (val v - val o)) <= RN (s * (val e - val o)) /\
  0 <= RN (s * (val v - val o)) / RN (s * (val e - val o)) <= 1.
Proof.
  intros (_ & _ & _ & Hs & Hv & He).
  assert (W : 0 < RN (s * (val e - val o))).
  { destruct Hs as [-> | ->].
    - rewrite Rmult_1_l in *. apply RN_diff_pos. lra.
    - replace (-1 * (val e - val o)) with (val o - val e) by ring. apply RN_diff_pos. lra. }
  assert (T : 0 <= RN (s * (val v - val o)) <= RN (s * (val e - val o))).
  { split; [rewrite <- RN_0|]; apply RN_le; lra. }
  split; [split; [exact W|apply RN_limit; lra]|]. split; [exact T|].
  split; [apply Rmult_le_pos; [lra|left; apply Rinv_0_lt_compat, W]|].
  apply (Rmult_le_reg_r (RN (s * (val e - val o)))); [exact W|]. unfold Rdiv. rewrite Rmult_assoc, Rinv_l by lra. lra.
Qed.

Lemma position_range s o e v : between s o e v -> 0 <= position s o e v <= 4294967295.
Proof.
  intros H. destruct (between_facts s o e v H) as (_ & _ & Q). unfold position.
  assert (0 <= RN (RN (s * (val v - val o)) / RN (s * (val e - val o))) <= 1).
  { split; [rewrite <- RN_0|rewrite <- RN_1]; apply RN_le; lra. }
  split; [rewrite <- RN_0; apply RN_le; lra|]. apply Rle_trans with (RN 4294967295); [apply RN_le; lra|rewrite RN_M; lra].
Qed.

Lemma trunc_range x : 0 <= x <= 4294967295 -> (0 <= Ztrunc x <= 4294967295)%Z.
Proof.
  intros [H1 H2]. split.
  - rewrite <- (Ztrunc_IZR 0). apply Ztrunc_le. exact H1.
  - rewrite <- (Ztrunc_IZR 4294967295). apply Ztrunc_le. exact H2.
Qed.

Lemma quantize1_position s o e v : between s o e v -> quantize1 v o (f64_sub e o) = Ztrunc (position s o e v).
Proof.
  intros H. pose proof (position_range s o e v H) as P. destruct (between_facts s o e v H) as (W & T & Q).
  destruct H as (Fo & Fe & Fv & Hs & Hv & He). unfold quantize1.
  assert (S2 : s * s = 1) by (destruct Hs as [-> | ->]; ring).
  assert (AB : forall x, Rabs (s * x) = Rabs x) by (intros x; rewrite Rabs_mult; destruct Hs as [-> | ->]; [rewrite Rabs_R1|replace (-1) with (- (1)) by ring; rewrite Rabs_Ropp, Rabs_R1]; ring).
  rewrite (RN_sign s (val e - val o) Hs) in W, T, Q. rewrite (RN_sign s (val v - val o) Hs) in T, Q.
  assert (We : Rabs (RN (val e - val o)) < bpow radix2 1024) by (rewrite <- AB; apply Rabs_lt_pos; lra).
  assert (Wv : Rabs (RN (val v - val o)) < bpow radix2 1024) by (rewrite <- AB; apply Rabs_lt_pos; lra).
  destruct (sub_ok e o Fe Fo We) as [E1 F1]. destruct (sub_ok v o Fv Fo Wv) as [E2 F2].
  assert (N : val (f64_sub e o) <> 0) by (rewrite E1; intros X; rewrite X in W; lra).
  assert (DQ : RN (val v - val o) / RN (val e - val o) = s * RN (val v - val o) / (s * RN (val e - val o))).
  { assert (s <> 0) by (destruct Hs; lra). rewrite E1 in N. field. auto. }
  assert (QR : 0 <= RN (RN (val v - val o) / RN (val e - val o)) <= 1).
  { rewrite DQ. split; [rewrite <- RN_0|rewrite <- RN_1]; apply RN_le; lra. }
  pose proof big as B.
  destruct (div_ok (f64_sub v o) (f64_sub e o) F2 N) as [E3 F3].
  { rewrite E1, E2. apply Rabs_lt_pos. lra. }
  rewrite E1, E2 in E3. destruct M_val as [EM FM].
  assert (EP : RN (val (f64_div (f64_sub v o) (f64_sub e o)) * val f64_u32_max) = position s o e v).
  { rewrite E3, EM. unfold position. rewrite (RN_sign s (val e - val o) Hs), (RN_sign s (val v - val o) Hs), DQ. reflexivity. }
  destruct (mul_ok (f64_div (f64_sub v o) (f64_sub e o)) f64_u32_max F3 FM) as [E4 F4].
  { rewrite EP. apply Rabs_lt_pos. lra. }
  rewrite as_u32_ok by exact F4. rewrite E4, EP. unfold clamp_u32. change u32_max with 4294967295%Z. pose proof (trunc_range _ P). lia.
Qed.

Lemma position_origin s o e : position s o e o = 0.
Proof. unfold position. replace (s * (val o - val o)) with 0 by ring. rewrite RN_0. unfold Rdiv. rewrite Rmult_0_l, RN_0, Rmult_0_l. apply RN_0. Qed.

Lemma position_end s o e : between s o e e -> position s o e e = 4294967295.
Proof.
  intros H. destruct (between_facts s o e e H) as (W & _). unfold position. unfold Rdiv. rewrite Rinv_r by lra. rewrite RN_1, Rmult_1_l. apply RN_M.
Qed.

Lemma position_mono s o e v w : between s o e v -> between s o e w -> s * val v <= s * val w -> position s o e v <= position s o e w.
Proof.
  intros Hv Hw L. destruct (between_facts s o e v Hv) as (W & _). unfold position. apply RN_le, Rmult_le_compat_r; [lra|]. apply RN_le.
  apply Rmult_le_compat_r; [left; apply Rinv_0_lt_compat, W|]. apply RN_le. lra.
Qed.

(** A position depends on the value only. *)
Lemma position_val s o e v w : val v = val w -> position s o e v = position s o e w.
Proof. unfold position. intros ->. reflexivity. Qed.

(** ** Rounding errors *)
Lemma Rabs_le_both x b : Rabs x <= b -> - b <= x <= b.
Proof. apply Rabs_le_inv. Qed.

Lemma RN_error x : Rabs (RN x - x) <= / 9007199254740992 * Rabs x + / 9007199254740992 * / 9007199254740992.
Proof.
  destruct (error_N_FLT radix2 (-1074) 53 eq_refl (fun x => negb (Z.even x)) x) as (eps & eta & He & Ht & _ & E).
  change (RN x = x * (1 + eps) + eta) in E. rewrite E. replace (x * (1 + eps) + eta - x) with (eps * x + eta) by ring.
  assert (A : Rabs eps <= / 9007199254740992).
  { eapply Rle_trans; [exact He|]. apply Req_le. change (bpow radix2 (- (53) + 1)) with (/ 4503599627370496). lra. }
  assert (B : Rabs eta <= / 9007199254740992 * / 9007199254740992).
  { eapply Rle_trans; [exact Ht|]. apply Rle_trans with (bpow radix2 (-106)).
    - apply Rle_trans with (1 * bpow radix2 (-1074)); [apply Rmult_le_compat_r; [apply bpow_ge_0|lra]|]. rewrite Rmult_1_l. apply bpow_le. lia.
    - replace (-106)%Z with (-53 + -53)%Z by lia. rewrite bpow_plus. change (bpow radix2 (-53)) with (/ 9007199254740992). lra. }
  eapply Rle_trans; [apply Rabs_triang|]. rewrite Rabs_mult. pose proof (Rabs_pos x). nra.
Qed.

Lemma RN_diff_error x y : Rabs (RN (val x - val y) - (val x - val y)) <= / 9007199254740992 * Rabs (val x - val y).
Proof.
  destruct (FLT_plus_error_N_ex radix2 (-1074) 53 (fun x => negb (Z.even x)) (val x) (- val y)) as (eps & He & E).
  - apply (Binary.generic_format_B2R 53 1024).
  - apply generic_format_opp, (Binary.generic_format_B2R 53 1024).
  - change (RN (val x - val y) = (val x - val y) * (1 + eps)) in E. rewrite E.
    replace ((val x - val y) * (1 + eps) - (val x - val y)) with (eps * (val x - val y)) by ring. rewrite Rabs_mult.
    apply Rmult_le_compat_r; [apply Rabs_pos|]. eapply Rle_trans; [exact He|].
    unfold u_ro. change (bpow radix2 (- (53) + 1)) with (/ 4503599627370496). 
    apply (Rmult_le_reg_r (1 + / 2 * / 4503599627370496)); [lra|]. unfold Rdiv. rewrite Rmult_assoc, Rinv_l by lra. lra.
Qed.

Lemma position_error s o e v : between s o e v ->
  Rabs (position s o e v - (s * (val v - val o)) / (s * (val e - val o)) * 4294967295) <= / 262144.
Proof.
  intros H. destruct (between_facts s o e v H) as (W & T & Q). destruct H as (_ & _ & _ & Hs & Hv & He). unfold position.
  set (t := s * (val v - val o)) in *. set (w := s * (val e - val o)) in *. set (u := / 9007199254740992).
  assert (Hu : 0 < u) by (unfold u; lra).
  assert (ET : Rabs (RN t - t) <= u * t /\ Rabs (RN w - w) <= u * w).
  { assert (D : forall a b, 0 <= s * (val a - val b) -> Rabs (RN (s * (val a - val b)) - s * (val a - val b)) <= u * (s * (val a - val b))).
    { intros a b P. rewrite RN_sign by exact Hs.
      replace (s * RN (val a - val b) - s * (val a - val b)) with (s * (RN (val a - val b) - (val a - val b))) by ring.
      rewrite Rabs_mult. assert (A : Rabs s = 1) by (destruct Hs as [-> | ->]; [apply Rabs_R1|rewrite Rabs_left; lra]). rewrite A, Rmult_1_l.
      eapply Rle_trans; [apply RN_diff_error|]. apply Rmult_le_compat_l; [lra|].
      rewrite <- (Rabs_pos_eq _ P), Rabs_mult, A. lra. }
    split; apply D; fold t w; lra. }
  destruct ET as [ET EW]. apply Rabs_le_both in ET. apply Rabs_le_both in EW.
  set (T' := RN t) in *. set (W' := RN w) in *.
  set (r := t / w). assert (Er : t = r * w) by (unfold r; field; lra). assert (Hr : 0 <= r <= 1) by nra.
  set (a := T' / W') in *. assert (Ea : T' = a * W') by (unfold a; field; lra).
  assert (A1 : Rabs (a - r) <= 3 * u).
  { apply Rabs_le. assert (a * W' - r * W' = T' - r * W') by lra. split.
    - apply Rnot_lt_le. intros X. assert (a * W' < (r - 3 * u) * W') by nra. assert ((1 - u) * w <= W') by lra.
      assert (3 * u * ((1 - u) * w) <= 3 * u * W') by nra. assert (u * u * w <= / 4 * (u * w)) by (assert (u <= / 4) by (unfold u; lra); nra).
      assert (r * W' <= r * ((1 + u) * w)) by nra. assert (r * (u * w) <= u * w) by nra. assert (0 < u * w) by nra. nra.
    - apply Rnot_lt_le. intros X. assert ((r + 3 * u) * W' < a * W') by nra. assert ((1 - u) * w <= W') by lra.
      assert (3 * u * ((1 - u) * w) <= 3 * u * W') by nra. assert (u * u * w <= / 4 * (u * w)) by (assert (u <= / 4) by (unfold u; lra); nra).
      assert (r * ((1 - u) * w) <= r * W') by nra. assert (r * (u * w) <= u * w) by nra. assert (0 < u * w) by nra. nra. }
  set (q := RN a). assert (A2 : Rabs (q - a) <= u + u * u).
  { eapply Rle_trans; [apply RN_error|]. fold u. rewrite (Rabs_pos_eq a) by lra. assert (u * a <= u * 1) by (apply Rmult_le_compat_l; lra). lra. }
  assert (Q2 : 0 <= q <= 1) by (unfold q; split; [rewrite <- RN_0|rewrite <- RN_1]; apply RN_le; lra).
  assert (A3 : Rabs (RN (q * 4294967295) - q * 4294967295) <= u * 4294967295 + u * u).
  { eapply Rle_trans; [apply RN_error|]. fold u. rewrite (Rabs_pos_eq (q * 4294967295)) by lra. assert (u * (q * 4294967295) <= u * 4294967295) by (apply Rmult_le_compat_l; lra). lra. }
  apply Rabs_le_both in A1. apply Rabs_le_both in A2. apply Rabs_le_both in A3. apply Rabs_le.
  assert (u * u <= / 1000000 * u) by (assert (u <= / 1000000) by (unfold u; lra); nra).
  assert (Hb : u * 36028797018963968 = 4) by (unfold u; lra). split; lra.
Qed.
