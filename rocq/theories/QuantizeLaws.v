(** * QuantizeLaws: bounding boxes, borders and degenerate cases *)
From Coq Require Import Reals Lra Psatz.
From Flocq Require Import Core.Core.
From Flocq Require IEEE754.Binary IEEE754.BinarySingleNaN IEEE754.Bits.
From Verif Require Import QuantizeSpec GeoProofs SfProofs QuantizeProofs.
Open Scope R_scope.

Lemma within_between lo hi v : side lo hi -> within lo hi v ->
  between 1 (f64_of_bits lo) (f64_of_bits hi) (f64_of_bits v) /\ between (-1) (f64_of_bits hi) (f64_of_bits lo) (f64_of_bits v).
Proof.
  unfold side, within, is_real, real_of, between, f64_of_bits. intros (Fl & Fh & L & D) (Fv & V1 & V2).
  split; (split; [assumption|]); (split; [assumption|]); (split; [assumption|]).
  - split; [left; reflexivity|]. lra.
  - split; [right; reflexivity|]. lra.
Qed.

Lemma within_lo lo hi : side lo hi -> within lo hi lo.
Proof. intros (F & _ & L & _). split; [exact F|lra]. Qed.
Lemma within_hi lo hi : side lo hi -> within lo hi hi.
Proof. intros (_ & F & L & _). split; [exact F|lra]. Qed.

Lemma quantize_x b p : box_ok b -> in_box b p ->
  px (quantize (quantizer_new b) p) = Ztrunc (position 1 (f64_of_bits (bb_xmin b)) (f64_of_bits (bb_xmax b)) (f64_of_bits (sp_x p))).
Proof. intros [Hx _] [Px _]. cbn [quantize quantizer_new px q_x q_w]. apply quantize1_position, within_between; assumption. Qed.

Lemma quantize_y b p : box_ok b -> in_box b p ->
  py (quantize (quantizer_new b) p) = Ztrunc (position (-1) (f64_of_bits (bb_ymax b)) (f64_of_bits (bb_ymin b)) (f64_of_bits (sp_y p))).
Proof. intros [_ Hy] [_ Py]. cbn [quantize quantizer_new py q_y q_h]. apply quantize1_position, within_between; assumption. Qed.

Lemma quantize_range b p : box_ok b -> in_box b p -> wf_point (quantize (quantizer_new b) p).
Proof.
  intros Hb Hp. split.
  - rewrite quantize_x by assumption. destruct (trunc_range _ (position_range 1 _ _ _ (proj1 (within_between _ _ _ (proj1 Hb) (proj1 Hp))))).
    split; [assumption|]. change (2 ^ 32)%Z with 4294967296%Z. lia.
  - rewrite quantize_y by assumption. destruct (trunc_range _ (position_range (-1) _ _ _ (proj2 (within_between _ _ _ (proj2 Hb) (proj2 Hp))))).
    split; [assumption|]. change (2 ^ 32)%Z with 4294967296%Z. lia.
Qed.

(** No saturation: before the conversion to u32 the number is already in range. *)
Lemma quantize_exact_range b p : box_ok b -> in_box b p ->
  exists u v : R, 0 <= u <= 4294967295 /\ 0 <= v <= 4294967295 /\
    quantize (quantizer_new b) p = Pt (Ztrunc u) (Ztrunc v).
Proof.
  intros Hb Hp. eexists. eexists.
  split; [apply (position_range 1 _ _ _ (proj1 (within_between _ _ _ (proj1 Hb) (proj1 Hp))))|].
  split; [apply (position_range (-1) _ _ _ (proj2 (within_between _ _ _ (proj2 Hb) (proj2 Hp))))|].
  rewrite <- quantize_x, <- quantize_y by assumption. destruct (quantize (quantizer_new b) p). reflexivity.
Qed.

Lemma quantize_left b p : box_ok b -> in_box b p -> real_of (sp_x p) = real_of (bb_xmin b) -> px (quantize (quantizer_new b) p) = 0%Z.
Proof. intros Hb Hp E. rewrite quantize_x by assumption. rewrite (position_val 1 _ _ _ (f64_of_bits (bb_xmin b)) E), position_origin. apply (Ztrunc_IZR 0). Qed.
Lemma quantize_top b p : box_ok b -> in_box b p -> real_of (sp_y p) = real_of (bb_ymax b) -> py (quantize (quantizer_new b) p) = 0%Z.
Proof. intros Hb Hp E. rewrite quantize_y by assumption. rewrite (position_val (-1) _ _ _ (f64_of_bits (bb_ymax b)) E), position_origin. apply (Ztrunc_IZR 0). Qed.
Lemma quantize_right b p : box_ok b -> in_box b p -> real_of (sp_x p) = real_of (bb_xmax b) -> px (quantize (quantizer_new b) p) = 4294967295%Z.
Proof.
  intros Hb Hp E. rewrite quantize_x by assumption. rewrite (position_val 1 _ _ _ (f64_of_bits (bb_xmax b)) E), position_end.
  - apply (Ztrunc_IZR 4294967295).
  - apply within_between; [apply Hb|apply within_hi, Hb].
Qed.
Lemma quantize_bottom b p : box_ok b -> in_box b p -> real_of (sp_y p) = real_of (bb_ymin b) -> py (quantize (quantizer_new b) p) = 4294967295%Z.
Proof.
  intros Hb Hp E. rewrite quantize_y by assumption. rewrite (position_val (-1) _ _ _ (f64_of_bits (bb_ymin b)) E), position_end.
  - apply (Ztrunc_IZR 4294967295).
  - apply within_between; [apply Hb|apply within_lo, Hb].
Qed.

Lemma quantize_mono_x b p q : box_ok b -> in_box b p -> in_box b q -> real_of (sp_x p) <= real_of (sp_x q) ->
  (px (quantize (quantizer_new b) p) <= px (quantize (quantizer_new b) q))%Z.
Proof.
  intros Hb Hp Hq L. rewrite !quantize_x by assumption. apply Ztrunc_le, position_mono.
  - apply within_between; [apply Hb|apply Hp].
  - apply within_between; [apply Hb|apply Hq].
  - rewrite !Rmult_1_l. exact L.
Qed.
Lemma quantize_anti_y b p q : box_ok b -> in_box b p -> in_box b q -> real_of (sp_y p) <= real_of (sp_y q) ->
  (py (quantize (quantizer_new b) q) <= py (quantize (quantizer_new b) p))%Z.
Proof.
  intros Hb Hp Hq L. rewrite !quantize_y by assumption. apply Ztrunc_le, position_mono.
  - apply within_between; [apply Hb|apply Hq].
  - apply within_between; [apply Hb|apply Hp].
  - unfold real_of in L. unfold f64_of_bits. lra.
Qed.

(** ** Accuracy *)
Lemma trunc_error x y : 0 <= x -> Rabs (x - y) <= / 262144 -> y - 1 - / 262144 < IZR (Ztrunc x) <= y + / 262144.
Proof.
  intros H E. apply Rabs_le_both in E. rewrite Ztrunc_floor by exact H. pose proof (Zfloor_lb x). pose proof (Zfloor_ub x). lra.
Qed.

Lemma quantize_near_x b p : box_ok b -> in_box b p ->
  grid_x b p - 1 - / 262144 < IZR (px (quantize (quantizer_new b) p)) <= grid_x b p + / 262144.
Proof.
  intros Hb Hp. rewrite quantize_x by assumption. destruct (within_between _ _ _ (proj1 Hb) (proj1 Hp)) as [B _].
  apply trunc_error; [apply (position_range 1 _ _ _ B)|]. pose proof (position_error 1 _ _ _ B) as E. rewrite !Rmult_1_l in E. exact E.
Qed.
Lemma quantize_near_y b p : box_ok b -> in_box b p ->
  grid_y b p - 1 - / 262144 < IZR (py (quantize (quantizer_new b) p)) <= grid_y b p + / 262144.
Proof.
  intros Hb Hp. rewrite quantize_y by assumption. destruct (within_between _ _ _ (proj2 Hb) (proj2 Hp)) as [_ B].
  apply trunc_error; [apply (position_range (-1) _ _ _ B)|]. pose proof (position_error (-1) _ _ _ B) as E.
  destruct B as (_ & _ & _ & _ & _ & B).
  unfold grid_y, real_of. unfold f64_of_bits in *.
  replace ((val (Bits.b64_of_bits (bb_ymax b)) - val (Bits.b64_of_bits (sp_y p))) / (val (Bits.b64_of_bits (bb_ymax b)) - val (Bits.b64_of_bits (bb_ymin b))))
    with (-1 * (val (Bits.b64_of_bits (sp_y p)) - val (Bits.b64_of_bits (bb_ymax b))) / (-1 * (val (Bits.b64_of_bits (bb_ymin b)) - val (Bits.b64_of_bits (bb_ymax b))))); [exact E|].
  field. lra.
Qed.

(** ** Numbers outside the box *)
Definition sgn (b : bool) : R := if b then -1 else 1.
(** At least [c] in the direction [b], infinity included. *)
Definition reach (b : bool) (c : R) (x : f64) : Prop :=
  x = Binary.B754_infinity 53 1024 b \/ (fin x = true /\ c <= sgn b * val x).

Lemma overflow_inf (x : f64) b : Binary.B2FF 53 1024 x = Binary.binary_overflow 53 1024 BinarySingleNaN.mode_NE b -> x = Binary.B754_infinity 53 1024 b.
Proof. destruct x; cbn; intros E; try discriminate E. injection E as ->. reflexivity. Qed.

Lemma sign_val (x : f64) : fin x = true -> if Binary.Bsign 53 1024 x then val x <= 0 else 0 <= val x.
Proof.
  destruct x as [s|s|s pl e|s m e B]; try discriminate; intros _.
  - cbn. destruct s; lra.
  - cbn [Binary.Bsign Binary.B2R]. destruct s; [apply F2R_le_0|apply F2R_ge_0]; cbn; lia.
Qed.

Lemma sgn_sq b : sgn b * sgn b = 1.
Proof. destruct b; cbn; lra. Qed.
Lemma sgn_xorb a b : sgn (xorb a b) = sgn a * sgn b.
Proof. destruct a, b; cbn; lra. Qed.
Lemma sgn_cases b : sgn b = 1 \/ sgn b = -1.
Proof. destruct b; cbn; auto. Qed.

Lemma sub_reach b c v o : fin v = true -> fin o = true -> 0 <= c -> c <= sgn b * (val v - val o) -> reach b (RN c) (f64_sub v o).
Proof.
  intros Fv Fo Hc H. destruct (Rlt_le_dec (Rabs (RN (val v - val o))) (bpow radix2 1024)) as [L|L].
  - destruct (sub_ok v o Fv Fo L) as [E F]. right. split; [exact F|]. rewrite E, <- RN_sign by apply sgn_cases. apply RN_le, H.
  - left. unfold f64_sub, Bits.b64_minus.
    pose proof (Binary.Bminus_correct 53 1024 eq_refl eq_refl Bits.binop_nan_pl64 BinarySingleNaN.mode_NE v o Fv Fo) as C.
    cbn [BinarySingleNaN.round_mode] in C. unfold RN in L. rewrite Rlt_bool_false in C by exact L. destruct C as [E S]. apply overflow_inf in E. rewrite E. f_equal.
    pose proof (sign_val v Fv) as Sv. pose proof (sign_val o Fo) as So. rewrite S in Sv |- *.
    assert (val v - val o <> 0).
    { intros X. rewrite X in L. fold (RN 0) in L. rewrite RN_0, Rabs_R0 in L. pose proof (bpow_gt_0 radix2 1024). lra. }
    destruct b, (Binary.Bsign 53 1024 o); cbn [sgn negb] in *; try reflexivity; exfalso; lra.
Qed.

Lemma div_reach b bw c t w : 0 <= c -> reach b c t -> fin w = true -> 0 < sgn bw * val w -> reach (xorb b bw) (RN (c / (sgn bw * val w))) (f64_div t w).
Proof.
  intros Hc R Fw Hw.
  assert (Sw : Binary.Bsign 53 1024 w = bw).
  { pose proof (sign_val w Fw). destruct bw, (Binary.Bsign 53 1024 w); cbn [sgn negb] in *; try reflexivity; exfalso; lra. }
  assert (Nw : val w <> 0) by (intros X; rewrite X in Hw; lra).
  destruct R as [-> |[Ft Hv]].
  - left. destruct w as [s|s|s pl e|s m e B]; try discriminate Fw; [cbn in Nw; lra|]. cbn in Sw. subst s. reflexivity.
  - assert (Q : c / (sgn bw * val w) <= sgn (xorb b bw) * (val t / val w)).
    { rewrite sgn_xorb. replace (sgn b * sgn bw * (val t / val w)) with (sgn b * val t / (sgn bw * val w)).
      - apply Rmult_le_compat_r; [left; apply Rinv_0_lt_compat, Hw|exact Hv].
      - destruct (sgn_cases bw) as [-> | ->]; field; exact Nw. }
    assert (Q0 : 0 <= c / (sgn bw * val w)) by (apply Rmult_le_pos; [exact Hc|left; apply Rinv_0_lt_compat, Hw]).
    destruct (Rlt_le_dec (Rabs (RN (val t / val w))) (bpow radix2 1024)) as [L|L].
    + destruct (div_ok t w Ft Nw L) as [E F]. right. split; [exact F|]. rewrite E, <- RN_sign by apply sgn_cases. apply RN_le, Q.
    + left. unfold f64_div, Bits.b64_div.
      pose proof (Binary.Bdiv_correct 53 1024 eq_refl eq_refl Bits.binop_nan_pl64 BinarySingleNaN.mode_NE t w Nw) as C.
      cbn [BinarySingleNaN.round_mode] in C. unfold RN in L. rewrite Rlt_bool_false in C by exact L. apply overflow_inf in C. rewrite C. f_equal. rewrite Sw.
      f_equal. pose proof (sign_val t Ft) as St.
      assert (val t <> 0).
      { intros X. rewrite X in L. replace (0 / val w) with 0 in L by (field; exact Nw). fold (RN 0) in L. rewrite RN_0, Rabs_R0 in L. pose proof (bpow_gt_0 radix2 1024). lra. }
      destruct b, (Binary.Bsign 53 1024 t); cbn [sgn negb] in *; try reflexivity; exfalso; lra.
Qed.

Lemma mul_reach b c q : 0 <= c -> reach b c q -> reach b (RN (c * 4294967295)) (f64_mul q f64_u32_max).
Proof.
  intros Hc R. destruct M_val as [EM FM]. destruct R as [-> |[Fq Hq]].
  - left. destruct b; reflexivity.
  - assert (Q : c * 4294967295 <= sgn b * (val q * val f64_u32_max)) by (rewrite EM, <- Rmult_assoc; apply Rmult_le_compat_r; lra).
    destruct (Rlt_le_dec (Rabs (RN (val q * val f64_u32_max))) (bpow radix2 1024)) as [L|L].
    + destruct (mul_ok q f64_u32_max Fq FM L) as [E F]. right. split; [exact F|]. rewrite E, <- RN_sign by apply sgn_cases. apply RN_le, Q.
    + left. unfold f64_mul, Bits.b64_mult.
      pose proof (Binary.Bmult_correct 53 1024 eq_refl eq_refl Bits.binop_nan_pl64 BinarySingleNaN.mode_NE q f64_u32_max) as C.
      cbn [BinarySingleNaN.round_mode] in C. unfold RN in L. rewrite Rlt_bool_false in C by exact L. apply overflow_inf in C. rewrite C. f_equal.
      change (Binary.Bsign 53 1024 f64_u32_max) with false. rewrite Bool.xorb_false_r. pose proof (sign_val q Fq) as Sq.
      assert (val q <> 0).
      { intros X. rewrite X, Rmult_0_l in L. fold (RN 0) in L. rewrite RN_0, Rabs_R0 in L. pose proof (bpow_gt_0 radix2 1024). lra. }
      destruct b, (Binary.Bsign 53 1024 q); cbn [sgn negb] in *; try reflexivity; exfalso; lra.
Qed.

Lemma as_u32_low x : reach true 0 x -> f64_as_u32 x = 0%Z.
Proof.
  intros [-> |[F H]]; [reflexivity|]. rewrite as_u32_ok by exact F. cbn [sgn] in H.
  assert (Ztrunc (val x) <= 0)%Z by (rewrite <- (Ztrunc_IZR 0); apply Ztrunc_le; lra). unfold clamp_u32. change u32_max with 4294967295%Z. lia.
Qed.
Lemma as_u32_high x : reach false 4294967295 x -> f64_as_u32 x = 4294967295%Z.
Proof.
  intros [-> |[F H]]; [reflexivity|]. rewrite as_u32_ok by exact F. cbn [sgn] in H.
  assert (4294967295 <= Ztrunc (val x))%Z by (rewrite <- (Ztrunc_IZR 4294967295); apply Ztrunc_le; lra). unfold clamp_u32. change u32_max with 4294967295%Z. lia.
Qed.

(** [bw] is the direction from the origin [o] to the end [e]. *)
Lemma quantize1_before bw v o e : fin v = true -> fin o = true -> fin e = true ->
  0 < sgn bw * (val e - val o) < bpow radix2 1024 - bpow radix2 970 -> sgn bw * (val v - val o) <= 0 -> quantize1 v o (f64_sub e o) = 0%Z.
Proof.
  intros Fv Fo Fe W H.
  assert (B : between (sgn bw) o e e) by (repeat (split; [assumption || apply sgn_cases|]); split; lra).
  destruct (between_facts _ _ _ _ B) as (W' & _). rewrite RN_sign in W' by apply sgn_cases.
  destruct (sub_ok e o Fe Fo) as [Ew Fw].
  { replace (RN (val e - val o)) with (sgn bw * (sgn bw * RN (val e - val o))) by (rewrite <- Rmult_assoc, sgn_sq; ring).
    rewrite Rabs_mult. replace (Rabs (sgn bw)) with 1 by (destruct bw; cbn [sgn]; [rewrite Rabs_left; lra|rewrite Rabs_R1; reflexivity]). rewrite Rmult_1_l. apply Rabs_lt_pos. lra. }
  assert (R1 : reach (negb bw) (RN 0) (f64_sub v o)).
  { apply sub_reach; try assumption; [lra|]. destruct bw; cbn [sgn negb] in *; lra. }
  rewrite RN_0 in R1. apply (div_reach _ bw _ _ (f64_sub e o)) in R1; [|lra|exact Fw|rewrite Ew; lra].
  unfold Rdiv in R1. rewrite Rmult_0_l, RN_0 in R1. replace (xorb (negb bw) bw) with true in R1 by (destruct bw; reflexivity).
  apply mul_reach in R1; [|lra]. rewrite Rmult_0_l, RN_0 in R1. apply as_u32_low, R1.
Qed.

Lemma quantize1_after bw v o e : fin v = true -> fin o = true -> fin e = true ->
  0 < sgn bw * (val e - val o) < bpow radix2 1024 - bpow radix2 970 -> sgn bw * (val e - val o) <= sgn bw * (val v - val o) ->
  quantize1 v o (f64_sub e o) = 4294967295%Z.
Proof.
  intros Fv Fo Fe W H.
  assert (B : between (sgn bw) o e e) by (repeat (split; [assumption || apply sgn_cases|]); split; lra).
  destruct (between_facts _ _ _ _ B) as (W' & _). rewrite RN_sign in W' by apply sgn_cases.
  destruct (sub_ok e o Fe Fo) as [Ew Fw].
  { replace (RN (val e - val o)) with (sgn bw * (sgn bw * RN (val e - val o))) by (rewrite <- Rmult_assoc, sgn_sq; ring).
    rewrite Rabs_mult. replace (Rabs (sgn bw)) with 1 by (destruct bw; cbn [sgn]; [rewrite Rabs_left; lra|rewrite Rabs_R1; reflexivity]). rewrite Rmult_1_l. apply Rabs_lt_pos. lra. }
  assert (R1 : reach bw (RN (sgn bw * (val e - val o))) (f64_sub v o)) by (apply sub_reach; try assumption; lra).
  rewrite RN_sign in R1 by apply sgn_cases.
  apply (div_reach _ bw _ _ (f64_sub e o)) in R1; [|lra|exact Fw|rewrite Ew; lra].
  rewrite Ew in R1. unfold Rdiv in R1. rewrite Rinv_r, RN_1 in R1 by lra. replace (xorb bw bw) with false in R1 by (destruct bw; reflexivity).
  apply mul_reach in R1; [|lra]. rewrite Rmult_1_l, RN_M in R1. apply as_u32_high, R1.
Qed.

(** ** Degenerate sides *)

(** A side of length zero: points on it go to 0. *)
Lemma quantize1_flat v o e : fin v = true -> fin o = true -> fin e = true -> val v = val o -> val e = val o -> quantize1 v o (f64_sub e o) = 0%Z.
Proof.
  intros Fv Fo Fe Ev Ee.
  assert (Z0 : forall x, fin x = true -> val x = val o -> exists s, f64_sub x o = Binary.B754_zero 53 1024 s).
  { intros x Fx Ex. destruct (sub_ok x o Fx Fo) as [E F]; rewrite Ex in *; replace (val o - val o) with 0 in * by ring; rewrite RN_0 in *.
    - rewrite Rabs_R0. apply bpow_gt_0.
    - destruct (f64_sub x o) as [s|s|s pl ex|s m ex B]; try discriminate F; [exists s; reflexivity|]. exfalso.
      cbn [Binary.B2R] in E. apply eq_0_F2R in E. destruct s; discriminate E. }
  unfold quantize1. destruct (Z0 v Fv Ev) as [s1 ->]. destruct (Z0 e Fe Ee) as [s2 ->]. destruct s1, s2; reflexivity.
Qed.

(** A side so long that its length is infinite: everything goes to 0. *)
Lemma sub_not_nan v o : fin v = true -> fin o = true -> Binary.is_nan 53 1024 (f64_sub v o) = false.
Proof.
  intros Fv Fo. destruct (Rle_dec (val o) (val v)) as [L|L].
  - destruct (sub_reach false 0 v o Fv Fo) as [-> |[F _]]; [lra|cbn; lra|reflexivity|]. destruct (f64_sub v o); try discriminate F; reflexivity.
  - destruct (sub_reach true 0 v o Fv Fo) as [-> |[F _]]; [lra|cbn; lra|reflexivity|]. destruct (f64_sub v o); try discriminate F; reflexivity.
Qed.

Lemma quantize1_infinite v o e b : fin v = true -> fin o = true ->
  f64_sub e o = Binary.B754_infinity 53 1024 b -> quantize1 v o (f64_sub e o) = 0%Z.
Proof.
  intros Fv Fo ->. unfold quantize1. pose proof (sub_not_nan v o Fv Fo) as N.
  destruct (f64_sub v o) as [s|s|s pl ex|s m ex B]; try discriminate N; destruct s, b; reflexivity.
Qed.

Lemma RN_tie : RN (bpow radix2 1024 - bpow radix2 970) = bpow radix2 1024.
Proof.
  assert (P : 0 < bpow radix2 970) by apply bpow_gt_0.
  assert (E1 : bpow radix2 1024 = 18014398509481984 * bpow radix2 970) by (change 1024%Z with (54 + 970)%Z; rewrite bpow_plus; reflexivity).
  assert (E2 : bpow radix2 1023 = 9007199254740992 * bpow radix2 970) by (change 1023%Z with (53 + 970)%Z; rewrite bpow_plus; reflexivity).
  assert (C : cexp radix2 fexp64 (bpow radix2 1024 - bpow radix2 970) = 971%Z).
  { unfold cexp. rewrite (mag_unique radix2 _ 1024); [reflexivity|]. change (1024 - 1)%Z with 1023%Z. rewrite Rabs_pos_eq by lra. lra. }
  unfold RN, round, scaled_mantissa. rewrite C. unfold F2R. cbn [Fnum Fexp].
  assert (E3 : (bpow radix2 1024 - bpow radix2 970) * bpow radix2 (- (971)) = IZR 9007199254740991 + / 2).
  { rewrite Rmult_minus_distr_r. rewrite <- !bpow_plus. change (1024 + - (971))%Z with 53%Z. change (970 + - (971))%Z with (-1)%Z.
    change (bpow radix2 53) with 9007199254740992. change (bpow radix2 (-1)) with (/ 2). lra. }
  rewrite E3. replace (ZnearestE (IZR 9007199254740991 + / 2)) with 9007199254740992%Z.
  - change 1024%Z with (53 + 971)%Z. rewrite bpow_plus. reflexivity.
  - unfold Znearest. assert (F : Zfloor (IZR 9007199254740991 + / 2) = 9007199254740991%Z) by (apply Zfloor_imp; rewrite plus_IZR; lra).
    rewrite F. rewrite Rcompare_Eq by lra. cbn [Z.even negb]. rewrite Zceil_floor_neq; rewrite F; [reflexivity|lra].
Qed.

Lemma sub_infinite v o : fin v = true -> fin o = true -> bpow radix2 1024 - bpow radix2 970 <= Rabs (val v - val o) ->
  exists b, f64_sub v o = Binary.B754_infinity 53 1024 b.
Proof.
  intros Fv Fo H.
  assert (D : exists b, bpow radix2 1024 - bpow radix2 970 <= sgn b * (val v - val o)).
  { destruct (Rle_dec 0 (val v - val o)) as [L|L].
    - exists false. rewrite Rabs_pos_eq in H by exact L. cbn [sgn]. lra.
    - exists true. rewrite Rabs_left in H by lra. cbn [sgn]. lra. }
  destruct D as [b D]. apply sub_reach in D; try assumption; [|pose proof (bpow_le radix2 970 1024 ltac:(lia)); lra].
  rewrite RN_tie in D. destruct D as [-> |[_ D]]; [exists b; reflexivity|]. exfalso.
  pose proof (Binary.abs_B2R_lt_emax 53 1024 (f64_sub v o)) as A.
  assert (sgn b * val (f64_sub v o) <= Rabs (val (f64_sub v o))).
  { destruct b; cbn [sgn]; [rewrite <- Rabs_Ropp|]; eapply Rle_trans; [|apply RRle_abs| |apply RRle_abs]; lra. }
  lra.
Qed.

(** ** Rectangles *)
Lemma corner_in b x y : box_ok b -> (x = bb_xmin b \/ x = bb_xmax b) -> (y = bb_ymin b \/ y = bb_ymax b) -> in_box b (SP x y).
Proof.
  intros [Hx Hy] X Y. split; cbn [sp_x sp_y].
  - destruct X as [-> | ->]; [apply within_lo|apply within_hi]; exact Hx.
  - destruct Y as [-> | ->]; [apply within_lo|apply within_hi]; exact Hy.
Qed.

Lemma corners b : box_ok b -> let f := quantize (quantizer_new b) in
  f (SP (bb_xmin b) (bb_ymin b)) = Pt 0 4294967295 /\ f (SP (bb_xmin b) (bb_ymax b)) = Pt 0 0 /\
  f (SP (bb_xmax b) (bb_ymax b)) = Pt 4294967295 0 /\ f (SP (bb_xmax b) (bb_ymin b)) = Pt 4294967295 4294967295.
Proof.
  intros Hb f.
  assert (E : forall p, f p = Pt (px (f p)) (py (f p))) by (intros p; destruct (f p); reflexivity).
  unfold f in *.
  repeat split; rewrite E.
  - rewrite (quantize_left b), (quantize_bottom b); try reflexivity; try exact Hb; apply corner_in; auto.
  - rewrite (quantize_left b), (quantize_top b); try reflexivity; try exact Hb; apply corner_in; auto.
  - rewrite (quantize_right b), (quantize_top b); try reflexivity; try exact Hb; apply corner_in; auto.
  - rewrite (quantize_right b), (quantize_bottom b); try reflexivity; try exact Hb; apply corner_in; auto.
Qed.

Definition square (i : nat) : list point :=
  let sw := Pt 0 4294967295 in let nw := Pt 0 0 in let ne := Pt 4294967295 0 in let se := Pt 4294967295 4294967295 in
  nth i [[sw; nw; ne; se; sw]; [nw; ne; se; sw; nw]; [ne; se; sw; nw; ne]; [se; sw; nw; ne; se]] [].

Lemma rectangle_square b ps : box_ok b -> In ps (rectangles b) -> exists i, (i < 4)%nat /\ map (quantize (quantizer_new b)) ps = square i.
Proof.
  intros Hb Hin. destruct (corners b Hb) as (A & B & C & D).
  destruct Hin as [<-|[<-|[<-|[<-|[]]]]]; [exists 0%nat|exists 1%nat|exists 2%nat|exists 3%nat]; (split; [lia|]); cbn [map]; rewrite A, B, C, D; reflexivity.
Qed.

Lemma square_partition i : (i < 4)%nat ->
  partition_rings Release [RPoints (square i)] [] [] = Ok ([], [RPoints (square i)]) /\
  partition_rings Debug [RPoints (square i)] [] [] = Panic POverflow /\
  (0 < ring_area (RPoints (square i)))%Z.
Proof. intros H. destruct i as [|[|[|[|]]]]; try lia; vm_compute; auto. Qed.

(** A record with one ring that covers the box. *)
Lemma rectangle_region afs afd r ps d r' : box_ok (sf_bounding_box r) -> In ps (rectangles (sf_bounding_box r)) ->
  sf_next afs afd r = Ok (Some (ROk (SfRecord [ps] d)), r') ->
  let f := quantize (quantizer_new (sf_bounding_box r)) in
  (0 < ring_area (RPoints (map f ps)))%Z /\
  geo_next Debug afs afd (geo_iterator_new r) = Panic POverflow /\
  exists g, geo_next Release afs afd (geo_iterator_new r) = Ok (Some (ROk (Region d [] [RPoints (map f ps)])), g).
Proof.
  intros Hb Hin E f. destruct (rectangle_square _ ps Hb Hin) as (i & Hi & Es). destruct (square_partition i Hi) as (P1 & P2 & P3).
  unfold f. rewrite Es. split; [exact P3|].
  rewrite !(geo_next_eq _ afs afd (geo_iterator_new r) _ _ E). cbn [geo_item gi_quantizer geo_iterator_new sfr_rings sfr_data quantized map].
  rewrite Es, P1, P2. split; [reflexivity|]. eexists. reflexivity.
Qed.

(** ** Small rectangles *)
Lemma rect_area x0 y0 x1 y1 : ring_area (RPoints [Pt x0 y0; Pt x0 y1; Pt x1 y1; Pt x1 y0; Pt x0 y0]) = (2 * ((x1 - x0) * (y0 - y1)))%Z.
Proof. cbn [ring_area shoelace]. unfold det. cbn [px py]. ring. Qed.

Lemma quantize_pt f p : quantize f p = Pt (px (quantize f p)) (py (quantize f p)).
Proof. destruct (quantize f p). reflexivity. Qed.

Lemma grid_range_x b p : box_ok b -> in_box b p -> 0 <= grid_x b p <= 4294967295.
Proof.
  intros [(_ & _ & L & _) _] [[_ V] _]. unfold grid_x. assert (D : 0 < real_of (bb_xmax b) - real_of (bb_xmin b)) by lra.
  assert (0 <= (real_of (sp_x p) - real_of (bb_xmin b)) / (real_of (bb_xmax b) - real_of (bb_xmin b)) <= 1); [|lra]. split.
  - apply Rmult_le_pos; [lra|left; apply Rinv_0_lt_compat, D].
  - apply (Rmult_le_reg_r _ _ _ D). unfold Rdiv. rewrite Rmult_assoc, Rinv_l by lra. lra.
Qed.
Lemma grid_range_y b p : box_ok b -> in_box b p -> 0 <= grid_y b p <= 4294967295.
Proof.
  intros [_ (_ & _ & L & _)] [_ [_ V]]. unfold grid_y. assert (D : 0 < real_of (bb_ymax b) - real_of (bb_ymin b)) by lra.
  assert (0 <= (real_of (bb_ymax b) - real_of (sp_y p)) / (real_of (bb_ymax b) - real_of (bb_ymin b)) <= 1); [|lra]. split.
  - apply Rmult_le_pos; [lra|left; apply Rinv_0_lt_compat, D].
  - apply (Rmult_le_reg_r _ _ _ D). unfold Rdiv. rewrite Rmult_assoc, Rinv_l by lra. lra.
Qed.

Lemma small_rectangle b x0 y0 x1 y1 : box_ok b -> in_box b (SP x0 y0) -> in_box b (SP x1 y1) ->
  real_of x0 <= real_of x1 -> real_of y0 <= real_of y1 ->
  100 * ((real_of x1 - real_of x0) * (real_of y1 - real_of y0)) <=
  24 * ((real_of (bb_xmax b) - real_of (bb_xmin b)) * (real_of (bb_ymax b) - real_of (bb_ymin b))) ->
  (0 <= ring_area (RPoints (map (quantize (quantizer_new b)) [SP x0 y0; SP x0 y1; SP x1 y1; SP x1 y0; SP x0 y0])) < 2 ^ 63)%Z.
Proof.
  intros Hb H0 H1 Lx Ly HA.
  set (f := quantize (quantizer_new b)).
  assert (E : map f [SP x0 y0; SP x0 y1; SP x1 y1; SP x1 y0; SP x0 y0] =
    [Pt (px (f (SP x0 y0))) (py (f (SP x0 y0))); Pt (px (f (SP x0 y0))) (py (f (SP x1 y1))); Pt (px (f (SP x1 y1))) (py (f (SP x1 y1)));
     Pt (px (f (SP x1 y1))) (py (f (SP x0 y0))); Pt (px (f (SP x0 y0))) (py (f (SP x0 y0)))]) by reflexivity.
  rewrite E, rect_area. clear E.
  pose proof (quantize_mono_x b _ _ Hb H0 H1 Lx) as Mx. pose proof (quantize_anti_y b _ _ Hb H0 H1 Ly) as My.
  pose proof (quantize_near_x b _ Hb H0) as X0. pose proof (quantize_near_x b _ Hb H1) as X1.
  pose proof (quantize_near_y b _ Hb H0) as Y0. pose proof (quantize_near_y b _ Hb H1) as Y1.
  fold f in Mx, My, X0, X1, Y0, Y1.
  set (a0 := px (f (SP x0 y0))) in *. set (a1 := px (f (SP x1 y1))) in *. set (c0 := py (f (SP x0 y0))) in *. set (c1 := py (f (SP x1 y1))) in *.
  pose proof (grid_range_x b _ Hb H0) as G0. pose proof (grid_range_x b _ Hb H1) as G1.
  pose proof (grid_range_y b _ Hb H0) as K0. pose proof (grid_range_y b _ Hb H1) as K1.
  assert (AR : (grid_x b (SP x1 y1) - grid_x b (SP x0 y0)) * (grid_y b (SP x0 y0) - grid_y b (SP x1 y1)) <= 24 / 100 * 4294967295 * 4294967295).
  { unfold grid_x, grid_y. cbn [sp_x sp_y]. destruct Hb as [(_ & _ & Dx & _) (_ & _ & Dy & _)].
    set (DX := real_of (bb_xmax b) - real_of (bb_xmin b)) in *. set (DY := real_of (bb_ymax b) - real_of (bb_ymin b)) in *.
    assert (PX : 0 < DX) by (unfold DX; lra). assert (PY : 0 < DY) by (unfold DY; lra).
    match goal with |- ?x <= _ => replace x with ((real_of x1 - real_of x0) * (real_of y1 - real_of y0) * 4294967295 * 4294967295 * (/ DX * / DY)) by (field; lra) end.
    assert (PI : 0 < / DX * / DY) by (apply Rmult_lt_0_compat; apply Rinv_0_lt_compat; assumption).
    replace (24 / 100 * 4294967295 * 4294967295) with (24 / 100 * (DX * DY) * 4294967295 * 4294967295 * (/ DX * / DY)) by (field; lra).
    apply Rmult_le_compat_r; [lra|]. lra. }
  set (A := grid_x b (SP x1 y1) - grid_x b (SP x0 y0)) in *. set (B := grid_y b (SP x0 y0) - grid_y b (SP x1 y1)) in *.
  assert (BA : - / 100 <= A <= 4294967295) by (unfold A; apply IZR_le in Mx; split; [|lra]; assert (0 <= A); [|unfold A in *; lra];
    unfold A, grid_x; cbn [sp_x sp_y]; destruct Hb as [(_ & _ & Dx & _) _];
    rewrite <- Rmult_minus_distr_r; apply Rmult_le_pos; [|lra]; unfold Rdiv; rewrite <- Rmult_minus_distr_r; apply Rmult_le_pos; [lra|left; apply Rinv_0_lt_compat; lra]).
  assert (BB : - / 100 <= B <= 4294967295) by (unfold B; apply IZR_le in My; split; [|lra]; assert (0 <= B); [|unfold B in *; lra];
    unfold B, grid_y; cbn [sp_x sp_y]; destruct Hb as [_ (_ & _ & Dx & _)];
    rewrite <- Rmult_minus_distr_r; apply Rmult_le_pos; [|lra]; unfold Rdiv; rewrite <- Rmult_minus_distr_r; apply Rmult_le_pos; [lra|left; apply Rinv_0_lt_compat; lra]).
  assert (UX : IZR (a1 - a0) <= A + 1.1) by (rewrite minus_IZR; unfold A; lra).
  assert (UY : IZR (c0 - c1) <= B + 1.1) by (rewrite minus_IZR; unfold B; lra).
  split; [nia|]. apply lt_IZR. rewrite !mult_IZR.
  assert (0 <= IZR (a1 - a0)) by (apply IZR_le; lia). assert (0 <= IZR (c0 - c1)) by (apply IZR_le; lia).
  change (IZR (2 ^ 63)) with 9223372036854775808.
  assert (IZR (a1 - a0) * IZR (c0 - c1) <= (A + 1.1) * (B + 1.1)) by (apply Rmult_le_compat; assumption).
  nra.
Qed.

Lemma release_outer ps : (0 <= ring_area (RPoints ps) < 2 ^ 63)%Z -> partition_rings Release [RPoints ps] [] [] = Ok ([RPoints ps], []).
Proof.
  intros H. cbn [partition_rings]. unfold ring_winding_order. rewrite ring_aw_release, wrap_id by (split; [|apply H]; change (- 2 ^ 63)%Z with (-9223372036854775808)%Z; lia).
  cbn [bind snd]. unfold winding_of. destruct (Z.leb_spec 0 (ring_area (RPoints ps))); [reflexivity|lia].
Qed.

Lemma small_region afs afd r x0 y0 x1 y1 d r' : let b := sf_bounding_box r in
  box_ok b -> in_box b (SP x0 y0) -> in_box b (SP x1 y1) -> real_of x0 <= real_of x1 -> real_of y0 <= real_of y1 ->
  100 * ((real_of x1 - real_of x0) * (real_of y1 - real_of y0)) <=
  24 * ((real_of (bb_xmax b) - real_of (bb_xmin b)) * (real_of (bb_ymax b) - real_of (bb_ymin b))) ->
  let ps := [SP x0 y0; SP x0 y1; SP x1 y1; SP x1 y0; SP x0 y0] in
  sf_next afs afd r = Ok (Some (ROk (SfRecord [ps] d)), r') ->
  exists g, geo_next Release afs afd (geo_iterator_new r) = Ok (Some (ROk (Region d [RPoints (map (quantize (quantizer_new b)) ps)] [])), g).
Proof.
  intros b Hb H0 H1 Lx Ly HA ps E. rewrite (geo_next_eq _ afs afd (geo_iterator_new r) _ _ E).
  change (gi_quantizer (geo_iterator_new r)) with (quantizer_new b). cbn [geo_item sfr_rings sfr_data].
  change (quantized (quantize (quantizer_new b)) [ps]) with [RPoints (map (quantize (quantizer_new b)) ps)].
  rewrite release_outer by (apply small_rectangle; assumption). cbn [bind]. eexists. reflexivity.
Qed.
