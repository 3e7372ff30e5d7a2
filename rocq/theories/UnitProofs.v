(** * UnitProofs: rounding and powers of two *)
From Coq Require Import Reals Lra.
From Flocq Require Import Core.Core.
From Flocq Require Import Plus_error Mult_error.
From Flocq Require IEEE754.Binary IEEE754.Bits.
From Verif Require Import UnitSpec QuantizeProofs QuantizeLaws PipelineProofs.
Open Scope R_scope.

#[local] Instance prec53' : Prec_gt_0 53 := eq_refl.

Lemma FLX_scale x e : round radix2 (FLX_exp 53) ZnearestE (x * bpow radix2 e) = round radix2 (FLX_exp 53) ZnearestE x * bpow radix2 e.
Proof.
  destruct (Req_dec x 0) as [->|N]; [rewrite Rmult_0_l, round_0, Rmult_0_l by typeclasses eauto; reflexivity|].
  unfold round, scaled_mantissa, F2R, cexp, FLX_exp. cbn [Fnum Fexp]. rewrite mag_mult_bpow by exact N.
  replace (x * bpow radix2 e * bpow radix2 (- (mag radix2 x + e - 53))) with (x * bpow radix2 (- (mag radix2 x - 53))).
  - rewrite Rmult_assoc, <- bpow_plus. do 2 f_equal. lia.
  - rewrite Rmult_assoc, <- bpow_plus. do 2 f_equal. lia.
Qed.

Lemma RN_diff_scale_pos x y e : (0 <= e)%Z -> RN ((val x - val y) * bpow radix2 e) = RN (val x - val y) * bpow radix2 e.
Proof.
  intros He. destruct (Rle_or_lt (Rabs (val x - val y)) (bpow radix2 (53 + -1074))) as [L|L].
  - assert (F : generic_format radix2 (FLT_exp (-1074) 53) (val x - val y)).
    { unfold Rminus. apply FLT_format_plus_small; [typeclasses eauto|apply (Binary.generic_format_B2R 53 1024)| |exact L].
      apply generic_format_opp, (Binary.generic_format_B2R 53 1024). }
    unfold RN. change fexp64 with (FLT_exp (-1074) 53). rewrite (round_generic _ _ _ (val x - val y)) by assumption.
    apply round_generic; [typeclasses eauto|]. apply mult_bpow_pos_exact_FLT; [exact F|exact He].
  - assert (B : bpow radix2 (-1074 + 53 - 1) <= Rabs (val x - val y)).
    { apply Rle_trans with (bpow radix2 (53 + -1074)); [apply bpow_le; lia|lra]. }
    assert (B' : bpow radix2 (-1074 + 53 - 1) <= Rabs ((val x - val y) * bpow radix2 e)).
    { rewrite Rabs_mult, (Rabs_pos_eq (bpow radix2 e)) by apply bpow_ge_0.
      apply Rle_trans with (Rabs (val x - val y) * 1); [lra|]. apply Rmult_le_compat_l; [apply Rabs_pos|].
      change 1 with (bpow radix2 0). apply bpow_le. exact He. }
    unfold RN. change fexp64 with (FLT_exp (-1074) 53). rewrite !round_FLT_FLX by assumption. apply FLX_scale.
Qed.

Lemma RN_diff_scale x y x' y' e : val x' - val y' = (val x - val y) * bpow radix2 e ->
  RN (val x' - val y') = RN (val x - val y) * bpow radix2 e.
Proof.
  intros E. destruct (Z_le_gt_dec 0 e) as [L|L].
  - rewrite E. apply RN_diff_scale_pos. exact L.
  - assert (E' : val x - val y = (val x' - val y') * bpow radix2 (- e)).
    { rewrite E, Rmult_assoc, <- bpow_plus. replace (e + - e)%Z with 0%Z by lia. cbn. ring. }
    rewrite E', RN_diff_scale_pos by lia. rewrite Rmult_assoc, <- bpow_plus. replace (- e + e)%Z with 0%Z by lia. cbn. ring.
Qed.

Lemma position_scale s o e v o' e' v' k : s = 1 \/ s = -1 -> RN (s * (val e - val o)) <> 0 ->
  val v' - val o' = (val v - val o) * bpow radix2 k -> val e' - val o' = (val e - val o) * bpow radix2 k ->
  position s o' e' v' = position s o e v.
Proof.
  intros Hs N Ev Ee. unfold position. pose proof (bpow_gt_0 radix2 k) as B.
  rewrite (RN_sign s (val v' - val o') Hs), (RN_sign s (val e' - val o') Hs).
  rewrite (RN_diff_scale _ _ _ _ _ Ev), (RN_diff_scale _ _ _ _ _ Ee). rewrite <- !Rmult_assoc, <- !RN_sign by exact Hs.
  set (x := RN (s * (val v - val o))). set (y := RN (s * (val e - val o))) in *.
  replace (x * bpow radix2 k / (y * bpow radix2 k)) with (x / y); [reflexivity|]. field. split; [lra|exact N].
Qed.

Lemma converted_within e c lo hi lo' hi' v v' :
  converted e c lo lo' -> converted e c hi hi' -> converted e c v v' -> is_real v' -> within lo hi v -> within lo' hi' v'.
Proof.
  unfold converted, within. intros -> -> -> F (_ & A & B). split; [exact F|]. pose proof (bpow_gt_0 radix2 e).
  split; apply Rplus_le_compat_r, Rmult_le_compat_l; lra.
Qed.

Lemma quantize_converted e cx cy b b' p p' : box_ok b -> box_ok b' -> converted_box e cx cy b b' -> converted_point e cx cy b p p' ->
  quantize (quantizer_new b') p' = quantize (quantizer_new b) p.
Proof.
  intros Hb Hb' (X0 & X1 & Y0 & Y1) (Hp & Fx & Fy & Px & Py).
  assert (Hp' : QuantizeSpec.in_box b' p').
  { destruct Hp as [A B]. split; eapply converted_within; eassumption. }
  destruct (quantize (quantizer_new b') p') as [x' y'] eqn:E', (quantize (quantizer_new b) p) as [x y] eqn:E.
  pose proof (quantize_x b p Hb Hp) as A. pose proof (quantize_x b' p' Hb' Hp') as A'.
  pose proof (quantize_y b p Hb Hp) as B. pose proof (quantize_y b' p' Hb' Hp') as B'.
  rewrite E in A, B. rewrite E' in A', B'. cbn [px py] in *. subst x y x' y'.
  unfold converted, real_of in *. fold f64_of_bits in *.
  f_equal; f_equal; apply position_scale with (k := e).
  - left; reflexivity.
  - pose proof (between_facts _ _ _ _ (proj1 (within_between _ _ _ (proj1 Hb) (proj1 Hp)))) as (W & _). lra.
  - unfold f64_of_bits. rewrite Px, X0. ring.
  - unfold f64_of_bits. rewrite X1, X0. ring.
  - right; reflexivity.
  - pose proof (between_facts _ _ _ _ (proj2 (within_between _ _ _ (proj2 Hb) (proj2 Hp)))) as (W & _). lra.
  - unfold f64_of_bits. rewrite Py, Y1. ring.
  - unfold f64_of_bits. rewrite Y1, Y0. ring.
Qed.

Lemma quantized_converted e cx cy b b' rings rings' : box_ok b -> box_ok b' -> converted_box e cx cy b b' ->
  Forall2 (Forall2 (converted_point e cx cy b)) rings rings' ->
  quantized (quantize (quantizer_new b')) rings' = quantized (quantize (quantizer_new b)) rings.
Proof.
  intros Hb Hb' HB H. unfold quantized. induction H as [|r r' rs rs' Hr H IH]; [reflexivity|]. cbn [map]. f_equal; [|exact IH].
  f_equal. clear IH H. induction Hr as [|p p' ps ps' Hp H IH]; [reflexivity|]. cbn [map]. f_equal; [|exact IH].
  eapply quantize_converted; eassumption.
Qed.

Lemma paired_converted e cx cy b b' shapes shapes' : box_ok b -> box_ok b' -> converted_box e cx cy b b' ->
  Forall2 (converted_shape e cx cy b) shapes shapes' -> forall datas,
  Forall2 (fun rec rec' => sfr_data rec' = sfr_data rec /\
    quantized (quantize (quantizer_new b')) (sfr_rings rec') = quantized (quantize (quantizer_new b)) (sfr_rings rec))
    (paired shapes datas) (paired shapes' datas).
Proof.
  intros Hb Hb' HB H. unfold paired. induction H as [|x x' xs xs' Hx H IH]; intros datas; cbn [combine map]; [constructor|].
  destruct datas as [|d datas]; cbn [map]; constructor; [|apply IH]. cbn [sfr_data sfr_rings]. split; [reflexivity|].
  eapply quantized_converted; eassumption.
Qed.

Lemma imported_unique f f' recs recs' : Forall2 (fun rec rec' => sfr_data rec' = sfr_data rec /\ quantized f' (sfr_rings rec') = quantized f (sfr_rings rec)) recs recs' ->
  forall regs regs', Forall2 (imported f) recs regs -> Forall2 (imported f') recs' regs' -> regs' = regs.
Proof.
  induction 1 as [|x x' xs xs' (D & Q) H IH]; intros regs regs' A B; inversion A; inversion B; subst; [reflexivity|]. f_equal; [|auto].
  match goal with X : imported f x ?y, Y : imported f' x' ?z |- _ => destruct y as [d o i], z as [d' o' i'], X as (X1 & X2 & X3), Y as (Y1 & Y2 & Y3) end.
  cbn in *. congruence.
Qed.

Lemma import_converted m afs afd enc e cx cy b b' shapes shapes' fs datas (s s' d : stream) :
  leaves_suffix afd -> bytes_ok s -> bytes_ok s' -> is_shp b shapes s -> is_shp b' shapes' s' -> is_dbf enc fs datas d ->
  box_ok b -> box_ok b' -> converted_box e cx cy b b' -> Forall2 (converted_shape e cx cy b) shapes shapes' ->
  Forall (fun rec => item_fits (quantize (quantizer_new b)) (Some (ROk rec))) (paired shapes datas) ->
  import m afs afd enc (Some s') (Some d) = import m afs afd enc (Some s) (Some d).
Proof.
  intros Ha B B' S S' Hd Hb Hb' HB HS HF.
  pose proof (paired_converted e cx cy b b' shapes shapes' Hb Hb' HB HS datas) as HP.
  assert (HF' : Forall (fun rec => item_fits (quantize (quantizer_new b')) (Some (ROk rec))) (paired shapes' datas)).
  { clear -HP HF. induction HP as [|x x' xs xs' (_ & Q) H IH]; [constructor|]. inversion HF; subst. constructor; [|auto].
    cbn [item_fits] in *. rewrite Q. assumption. }
  destruct (import_file m afs afd enc b shapes fs datas s d Ha B S Hd HF) as (regs & R & I).
  destruct (import_file m afs afd enc b' shapes' fs datas s' d Ha B' S' Hd HF') as (regs' & R' & I').
  rewrite I, I', (imported_unique _ _ _ _ HP regs regs' R R'). unfold length_check.
  assert (length shapes' = length shapes) as -> by (clear -HS; induction HS; cbn; congruence). reflexivity.
Qed.
