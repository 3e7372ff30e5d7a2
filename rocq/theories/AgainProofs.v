(** * AgainProofs: dividing by 2^32-1 and multiplying again *)
From Coq Require Import Reals Lra.
From Flocq Require Import Core.Core.
From Flocq Require Import Plus_error.
From Flocq Require IEEE754.Binary IEEE754.Bits.
From Verif Require Import AgainSpec QuantizeProofs QuantizeLaws PipelineProofs UnitProofs.
Open Scope R_scope.

#[local] Instance prec53'' : Prec_gt_0 53 := eq_refl.
#[local] Instance valid64 : Valid_exp fexp64 := FLT_exp_valid (-1074) 53.

Definition M : R := 4294967295.

Section Inside.
  Variables (x m : Z).
  Hypothesis Hm : (1 <= m <= 32)%Z.
  Hypothesis Hx : (2 ^ (m - 1) <= x < 2 ^ m)%Z.
  Hypothesis HM : (x < 4294967295)%Z.

  Lemma x_range : bpow radix2 (m - 1) <= IZR x < bpow radix2 m.
  Proof.
    rewrite <- !(IZR_Zpower radix2) by lia. change (Z.pow radix2) with (Z.pow 2). split; [apply IZR_le|apply IZR_lt]; lia.
  Qed.

  Lemma x_pos : 0 < IZR x.
  Proof. pose proof x_range. pose proof (bpow_gt_0 radix2 (m - 1)). lra. Qed.

  Lemma x_mag : mag radix2 (IZR x) = m :> Z.
  Proof. apply mag_unique. pose proof x_pos. rewrite Rabs_pos_eq by lra. exact x_range. Qed.

  Lemma two32 : bpow radix2 32 = 4294967296.
  Proof. reflexivity. Qed.

  Lemma quotient_range : bpow radix2 (m - 33) <= IZR x / M < bpow radix2 (m - 32).
  Proof.
    pose proof x_range as (A & B). unfold M.
    assert (E : bpow radix2 (m - 1) = bpow radix2 (m - 33) * 4294967296) by (rewrite <- two32, <- bpow_plus; f_equal; lia).
    assert (E' : bpow radix2 m = bpow radix2 (m - 32) * 4294967296) by (rewrite <- two32, <- bpow_plus; f_equal; lia).
    pose proof (bpow_gt_0 radix2 (m - 33)) as P. pose proof (bpow_gt_0 radix2 (m - 32)) as P'. split.
    - apply Rmult_le_reg_r with 4294967295; [lra|]. unfold Rdiv. rewrite Rmult_assoc, Rinv_l, Rmult_1_r by lra. lra.
    - apply Rmult_lt_reg_r with 4294967295; [lra|]. unfold Rdiv. rewrite Rmult_assoc, Rinv_l, Rmult_1_r by lra.
      replace (bpow radix2 (m - 32) * 4294967295) with (bpow radix2 m - bpow radix2 (m - 32)) by lra.
      destruct (Z.eq_dec m 32) as [->|N].
      + change (bpow radix2 32) with 4294967296. change (bpow radix2 (32 - 32)) with 1. replace (4294967296 - 1) with 4294967295 by lra. apply IZR_lt, HM.
      + assert (L : bpow radix2 (m - 32) < 1) by (change 1 with (bpow radix2 0); apply bpow_lt; lia).
        assert (IZR x <= bpow radix2 m - 1); [|lra]. rewrite <- (IZR_Zpower radix2) by lia. change (Z.pow radix2) with (Z.pow 2).
        rewrite <- minus_IZR. apply IZR_le. lia.
  Qed.

  Lemma quotient_error : Rabs (RN (IZR x / M) - IZR x / M) <= bpow radix2 (m - 86).
  Proof.
    pose proof quotient_range as Q. pose proof (bpow_gt_0 radix2 (m - 33)) as P.
    eapply Rle_trans; [apply (error_le_half_ulp radix2 fexp64)|]. rewrite ulp_neq_0 by lra. unfold cexp.
    rewrite (mag_unique radix2 (IZR x / M) (m - 32)).
    - change (fexp64 (m - 32)) with (Z.max (m - 32 - 53) (-1074)). rewrite Z.max_l by lia.
      replace (m - 32 - 53)%Z with (1 + (m - 86))%Z by lia. rewrite bpow_plus. change (bpow radix2 1) with 2. lra.
    - rewrite Rabs_pos_eq by lra. replace (m - 32 - 1)%Z with (m - 33)%Z by lia. exact Q.
  Qed.

  Lemma product_error : Rabs (RN (IZR x / M) * M - IZR x) < bpow radix2 (m - 54).
  Proof.
    pose proof quotient_error as E. apply Rabs_le_inv in E. pose proof (bpow_gt_0 radix2 (m - 86)) as P.
    assert (B : bpow radix2 (m - 54) = bpow radix2 (m - 86) * 4294967296) by (rewrite <- two32, <- bpow_plus; f_equal; lia).
    assert (D : IZR x = IZR x / M * M) by (unfold M; field). set (q := RN (IZR x / M)) in *. set (y := IZR x / M) in *. rewrite D. rewrite B.
    apply Rabs_lt. unfold M. nra.
  Qed.

  Lemma x_format : generic_format radix2 fexp64 (IZR x).
  Proof.
    rewrite <- (RN_IZR x); [|lia]. apply generic_format_round; typeclasses eauto.
  Qed.

  Lemma x_ulp : ulp radix2 fexp64 (IZR x) = 2 * bpow radix2 (m - 54).
  Proof.
    pose proof x_pos. rewrite ulp_neq_0 by lra. unfold cexp. rewrite x_mag. change (fexp64 m) with (Z.max (m - 53) (-1074)). rewrite Z.max_l by lia.
    replace (m - 53)%Z with (1 + (m - 54))%Z by lia. rewrite bpow_plus. reflexivity.
  Qed.

  Lemma product_upper : RN (RN (IZR x / M) * M) <= IZR x.
  Proof.
    apply (round_N_le_midp radix2 fexp64); [exact x_format|]. pose proof x_pos. rewrite succ_eq_pos, x_ulp by lra.
    pose proof product_error as E. apply Rabs_def2 in E. lra.
  Qed.

  Lemma product_lower : IZR x <= RN (RN (IZR x / M) * M).
  Proof.
    apply (round_N_ge_midp radix2 fexp64); [exact x_format|]. pose proof x_pos as P.
    pose proof product_error as E. apply Rabs_def2 in E.
    rewrite pred_eq_pos by lra. unfold pred_pos. rewrite x_mag. case Req_bool_spec; intros H.
    - assert (H' : IZR x = bpow radix2 (m - 33) * 4294967296) by (rewrite H, <- two32, <- bpow_plus; f_equal; lia).
      assert (F : generic_format radix2 fexp64 (bpow radix2 (m - 33) * (1 + / 4294967296))).
      { replace (bpow radix2 (m - 33) * (1 + / 4294967296)) with (F2R (Float radix2 4294967297 (m - 65))).
        - apply generic_format_FLT. exists (Float radix2 4294967297 (m - 65)); [reflexivity|cbn; lia|cbn; lia].
        - unfold F2R. cbn [Fnum Fexp]. replace (m - 33)%Z with (32 + (m - 65))%Z by lia. rewrite bpow_plus, two32. lra. }
      assert (Q : bpow radix2 (m - 33) * (1 + / 4294967296) <= RN (IZR x / M)).
      { unfold RN. apply round_ge_generic; [typeclasses eauto..|exact F|]. rewrite H'. unfold M.
        apply Rmult_le_reg_r with 4294967295; [lra|]. unfold Rdiv. pose proof (bpow_gt_0 radix2 (m - 33)). 
        replace (bpow radix2 (m - 33) * 4294967296 * / 4294967295 * 4294967295) with (bpow radix2 (m - 33) * 4294967296) by field. lra. }
      change (fexp64 (m - 1)) with (Z.max (m - 1 - 53) (-1074)). rewrite Z.max_l by lia.
      assert (B : bpow radix2 (m - 33) = bpow radix2 (m - 86) * 9007199254740992) by (change 9007199254740992 with (bpow radix2 53); rewrite <- bpow_plus; f_equal; lia).
      assert (B' : bpow radix2 (m - 1 - 53) = bpow radix2 (m - 86) * 4294967296) by (rewrite <- two32, <- bpow_plus; f_equal; lia).
      pose proof (bpow_gt_0 radix2 (m - 86)) as P'. unfold M in *. set (q := RN (IZR x / 4294967295)) in *. rewrite H', B', B. rewrite B in Q. nra.
    - rewrite x_ulp. lra.
  Qed.
End Inside.

Lemma divide_multiply x : (0 <= x <= 4294967295)%Z -> RN (RN (IZR x / 4294967295) * 4294967295) = IZR x.
Proof.
  intros H. destruct (Z.eq_dec x 0) as [->|N0]; [unfold Rdiv; rewrite Rmult_0_l, RN_0, Rmult_0_l; apply RN_0|].
  destruct (Z.eq_dec x 4294967295) as [->|N1].
  { unfold Rdiv. rewrite Rinv_r by lra. rewrite RN_1, Rmult_1_l. apply RN_M. }
  set (m := (Z.log2 x + 1)%Z). pose proof (Z.log2_spec x ltac:(lia)) as L. pose proof (Z.log2_nonneg x).
  assert (Hm : (1 <= m <= 32)%Z).
  { split; [unfold m; lia|]. assert (Z.log2 x < 32)%Z; [apply Z.log2_lt_pow2; lia|unfold m; lia]. }
  assert (Hx : (2 ^ (m - 1) <= x < 2 ^ m)%Z) by (unfold m; replace (Z.log2 x + 1 - 1)%Z with (Z.log2 x) by lia; rewrite Z.add_1_r; exact L).
  apply Rle_antisym; [apply (product_upper x m); (assumption || lia)|apply (product_lower x m); (assumption || lia)].
Qed.

(** ** Points of the grid *)

Lemma scaled_format x k v o : (0 <= x <= 4294967295)%Z -> val v - val o = IZR x * bpow radix2 k -> RN (val v - val o) = IZR x * bpow radix2 k.
Proof.
  intros H E. destruct (Z_le_gt_dec (-1074) k) as [L|L].
  - rewrite E. unfold RN. apply round_generic; [typeclasses eauto|].
    change fexp64 with (FLT_exp (-1074) 53). apply generic_format_FLT. exists (Float radix2 x k); [reflexivity|cbn; lia|exact L].
  - rewrite <- E. unfold RN. apply round_generic; [typeclasses eauto|]. change fexp64 with (FLT_exp (-1074) 53). unfold Rminus.
    apply FLT_format_plus_small; [typeclasses eauto|apply (Binary.generic_format_B2R 53 1024)|apply generic_format_opp, (Binary.generic_format_B2R 53 1024)|].
    change (val v + - val o) with (val v - val o).
    rewrite E, Rabs_mult, (Rabs_pos_eq (bpow radix2 k)) by apply bpow_ge_0. rewrite Rabs_pos_eq by (apply (IZR_le 0); lia).
    apply Rle_trans with (bpow radix2 32 * bpow radix2 (-1074)).
    + apply Rmult_le_compat; [apply (IZR_le 0); lia|apply bpow_ge_0|rewrite two32; apply IZR_le; lia|apply bpow_le; lia].
    + rewrite <- bpow_plus. apply bpow_le. lia.
Qed.

Lemma position_grid s o e v x k : s = 1 \/ s = -1 -> (0 <= x <= 4294967295)%Z ->
  val v - val o = s * (IZR x * bpow radix2 k) -> val e - val o = s * (IZR 4294967295 * bpow radix2 k) ->
  position s o e v = IZR x.
Proof.
  intros Hs Hx Ev Ee. unfold position. pose proof (bpow_gt_0 radix2 k) as B.
  assert (A : forall (a b : f64) n, (0 <= n <= 4294967295)%Z -> val a - val b = s * (IZR n * bpow radix2 k) -> RN (s * (val a - val b)) = IZR n * bpow radix2 k).
  { intros a b n Hn E. destruct Hs as [-> | ->].
    - rewrite Rmult_1_l. apply scaled_format; [exact Hn|]. rewrite E. ring.
    - replace (-1 * (val a - val b)) with (val b - val a) by ring. apply scaled_format; [exact Hn|]. lra. }
  rewrite (A v o x Hx Ev), (A e o 4294967295%Z ltac:(lia) Ee).
  replace (IZR x * bpow radix2 k / (4294967295 * bpow radix2 k)) with (IZR x / 4294967295) by (field; lra).
  apply divide_multiply. exact Hx.
Qed.

Lemma quantize_written e ox oy b q p : grid_box e ox oy b -> written_point e b q p -> quantize (quantizer_new b) p = q.
Proof.
  intros (Hb & X0 & X1 & Y0 & Y1) ((Qx & Qy) & Fx & Fy & Px & Py). unfold is_u32 in *.
  pose proof (bpow_gt_0 radix2 e) as B.
  assert (Rx : 0 <= IZR (px q) <= 4294967295) by (split; [apply (IZR_le 0)|apply (IZR_le _ 4294967295)]; lia).
  assert (Ry : 0 <= IZR (py q) <= 4294967295) by (split; [apply (IZR_le 0)|apply (IZR_le _ 4294967295)]; lia).
  assert (Hp : QuantizeSpec.in_box b p).
  { split; (split; [assumption|]); [rewrite Px, X1, X0|rewrite Py, Y1, Y0]; split; nra. }
  destruct q as [x y]. cbn [px py] in *.
  pose proof (quantize_x b p Hb Hp) as A. pose proof (quantize_y b p Hb Hp) as C.
  destruct (quantize (quantizer_new b) p) as [x' y']. cbn [px py] in A, C. subst x' y'. unfold real_of in *. fold f64_of_bits in *.
  f_equal; rewrite <- Ztrunc_IZR; f_equal.
  - apply position_grid with (k := e); [left; reflexivity|lia|unfold f64_of_bits; rewrite Px; ring|unfold f64_of_bits; rewrite X1, X0; ring].
  - apply position_grid with (k := e); [right; reflexivity|lia|unfold f64_of_bits; rewrite Py; ring|unfold f64_of_bits; rewrite Y1, Y0; ring].
Qed.

Lemma quantized_written e ox oy b rs rings : grid_box e ox oy b -> Forall2 (written_ring e b) rs rings ->
  quantized (quantize (quantizer_new b)) rings = rs.
Proof.
  intros Hb H. unfold quantized. induction H as [|r ps rs pss (qs & -> & Hr) H IH]; [reflexivity|]. cbn [map]. f_equal; [|exact IH].
  f_equal. clear IH H. induction Hr as [|q p qs ps Hp H IH]; [reflexivity|]. cbn [map]. f_equal; [|exact IH].
  eapply quantize_written; eassumption.
Qed.

Lemma filter_all {A} (f : A -> bool) l : Forall (fun x => f x = true) l -> filter f l = l.
Proof. induction 1 as [|x l H F IH]; [reflexivity|]. cbn. rewrite H, IH. reflexivity. Qed.
Lemma filter_none {A} (f : A -> bool) l : Forall (fun x => f x = false) l -> filter f l = [].
Proof. induction 1 as [|x l H F IH]; [reflexivity|]. cbn. rewrite H. exact IH. Qed.

Lemma imported_written e ox oy b g x d reg : grid_box e ox oy b -> written_region e b g x d ->
  imported (quantize (quantizer_new b)) (SfRecord (fr_rings x) d) reg -> reg = g.
Proof.
  intros Hb (D & W & O & I & _) (A & B & C). cbn [sfr_data sfr_rings] in *. rewrite (quantized_written _ _ _ _ _ _ Hb W) in B, C.
  rewrite filter_app in B, C. destruct reg as [d' o i], g as [d'' o' i']. cbn [rg_data rg_outer rg_inner] in *. subst d' d''. f_equal.
  - rewrite B, filter_all, filter_none, app_nil_r; [reflexivity| |]; (eapply Forall_impl; [|eassumption]); cbv beta; intros r H; [apply Z.leb_gt|apply Z.leb_le]; exact H.
  - rewrite C, filter_none, filter_all; [reflexivity| |]; (eapply Forall_impl; [|eassumption]); cbv beta; intros r H; [apply Z.ltb_lt|apply Z.ltb_ge]; exact H.
Qed.

Lemma import_written m afs afd enc e ox oy b regs shapes fs datas (s d : stream) :
  leaves_suffix afd -> bytes_ok s -> is_shp b shapes s -> is_dbf enc fs datas d -> grid_box e ox oy b -> written e b regs shapes datas ->
  import m afs afd enc (Some s) (Some d) = match build_topology m regs with Ok t => Ok (ROk (t, length regs)) | Panic p => Panic p end.
Proof.
  intros Ha B S Hd Hb W.
  assert (HF : Forall (fun rec => item_fits (quantize (quantizer_new b)) (Some (ROk rec))) (paired shapes datas)).
  { clear -Hb W. induction W as [|g gs x xs c cs H W IH]; [constructor|]. unfold paired in *. cbn [combine map]. constructor; [|exact IH].
    cbn [item_fits sfr_rings]. destruct H as (_ & H & _ & _ & F). rewrite (quantized_written _ _ _ _ _ _ Hb H). exact F. }
  assert (L : length shapes = length datas /\ length shapes = length regs) by (clear -W; induction W; cbn; lia).
  destruct (import_file m afs afd enc b shapes fs datas s d Ha B S Hd HF) as (regs' & R & I).
  assert (regs' = regs) as ->.
  { clear -Hb W R. revert regs' R. induction W as [|g gs x xs c cs H W IH]; intros regs' R; unfold paired in *; cbn [combine map] in R; inversion R; subst; [reflexivity|].
    f_equal; [eapply imported_written; eassumption|apply IH; assumption]. }
  rewrite I. unfold length_check. destruct L as (L1 & L2). rewrite <- L1, Nat.eqb_refl, L2. reflexivity.
Qed.
