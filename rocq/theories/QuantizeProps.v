(** * QuantizeProps: C59, C60, C68, C69 and C70, quantization

    The theorems speak about real numbers: [Print Assumptions] lists the axioms of Coq's
    standard library of reals. *)
From Coq Require Import Reals Lra.
From Flocq Require Import Core.Core.
From Flocq Require IEEE754.Binary IEEE754.Bits.
From Verif Require Import QuantizeSpec BytesProofs SfProofs QuantizeProofs QuantizeLaws ShpProps DbfProps SfProps.
Open Scope R_scope.

(** ** C59: the bounding box is mapped onto the u32 square *)

(** The coordinates are the exact positions rounded down, up to 2^-18: no saturation, no
    wrap-around. *)
Theorem C59_position : forall b p, box_ok b -> in_box b p ->
  grid_x b p - 1 - / 262144 < IZR (px (quantize (quantizer_new b) p)) <= grid_x b p + / 262144 /\
  grid_y b p - 1 - / 262144 < IZR (py (quantize (quantizer_new b) p)) <= grid_y b p + / 262144.
Proof. intros b p Hb Hp. split; [apply quantize_near_x|apply quantize_near_y]; assumption. Qed.
Print Assumptions C59_position.

Theorem C59_range : forall b p, box_ok b -> in_box b p -> wf_point (quantize (quantizer_new b) p).
Proof. exact quantize_range. Qed.
Print Assumptions C59_range.

Theorem C59_borders : forall b p, box_ok b -> in_box b p ->
  (real_of (sp_x p) = real_of (bb_xmin b) -> px (quantize (quantizer_new b) p) = 0%Z) /\
  (real_of (sp_x p) = real_of (bb_xmax b) -> px (quantize (quantizer_new b) p) = 4294967295%Z) /\
  (real_of (sp_y p) = real_of (bb_ymax b) -> py (quantize (quantizer_new b) p) = 0%Z) /\
  (real_of (sp_y p) = real_of (bb_ymin b) -> py (quantize (quantizer_new b) p) = 4294967295%Z).
Proof.
  intros b p Hb Hp. split; [apply quantize_left; assumption|]. split; [apply quantize_right; assumption|].
  split; [apply quantize_top|apply quantize_bottom]; assumption.
Qed.
Print Assumptions C59_borders.

Theorem C59_monotone : forall b p q, box_ok b -> in_box b p -> in_box b q ->
  (real_of (sp_x p) <= real_of (sp_x q) -> (px (quantize (quantizer_new b) p) <= px (quantize (quantizer_new b) q))%Z) /\
  (real_of (sp_y p) <= real_of (sp_y q) -> (py (quantize (quantizer_new b) q) <= py (quantize (quantizer_new b) p))%Z).
Proof. intros b p q Hb Hp Hq. split; [apply quantize_mono_x|apply quantize_anti_y]; assumption. Qed.
Print Assumptions C59_monotone.

Lemma one_val : real_of 4607182418800017408 = 1 /\ real_of 0 = 0 /\ real_of 4602678819172646912 = / 2.
Proof. unfold real_of. vm_compute. lra. Qed.
Lemma unit_side : side 0 4607182418800017408.
Proof.
  destruct one_val as (E1 & E0 & _). split; [reflexivity|]. split; [reflexivity|]. rewrite E1, E0. split; [lra|].
  pose proof (bpow_lt radix2 970 1023 ltac:(lia)). pose proof (bpow_le radix2 0 1023 ltac:(lia)) as H0.
  change (bpow radix2 1024) with (bpow radix2 (1 + 1023)). rewrite bpow_plus. change (bpow radix2 1) with 2. change (bpow radix2 0) with 1 in H0.
  pose proof (bpow_lt radix2 970 1022 ltac:(lia)). assert (bpow radix2 1023 = 2 * bpow radix2 1022) by (change 1023%Z with (1 + 1022)%Z; rewrite bpow_plus; reflexivity).
  pose proof (bpow_le radix2 0 1022 ltac:(lia)) as H3. change (bpow radix2 0) with 1 in H3. lra.
Qed.
(** The unit square and its centre. *)
Example C59_case : box_ok unit_box /\ in_box unit_box (SP 4602678819172646912 4602678819172646912) /\
  quantize (quantizer_new unit_box) (SP 4602678819172646912 4602678819172646912) = Pt 2147483647 2147483647.
Proof.
  destruct one_val as (E1 & E0 & E2). split; [split; exact unit_side|]. split; [|vm_compute; reflexivity].
  split; (split; [reflexivity|]); cbn [bb_xmin bb_xmax bb_ymin bb_ymax unit_box sp_x sp_y]; rewrite E1, E0, E2; lra.
Qed.

(** ** C60: a shape that covers its bounding box *)

(** The claim is false for every rectangle: a release build takes the ring for a hole, a
    debug build panics. *)
Theorem C60_rectangle_refuted :
  (exists b s d, box_ok b /\ is_shp b [FR 1 zero_box (firstn 1 (rectangles b))] s /\ is_dbf ascii sample_fs [sample_rec] d) /\
  forall m afs afd enc b rn box ps fs d s t,
  leaves_suffix afd -> is_shp b [FR rn box [ps]] s -> is_dbf enc fs [d] t -> box_ok b -> In ps (rectangles b) ->
  let ring := RPoints (map (quantize (quantizer_new b)) ps) in
  (0 < ring_area ring)%Z /\
  exists r, sf_reader_new m afs afd enc s t = Ok (ROk r) /\
    geo_next Debug afs afd (geo_iterator_new r) = Panic POverflow /\
    exists g, geo_next Release afs afd (geo_iterator_new r) = Ok (Some (ROk (Region d [] [ring])), g).
Proof.
  split.
  - exists unit_box. eexists. exists (dbf_of 1). split; [split; exact unit_side|]. split; [|apply (dbf_of_is_dbf 1); lia].
    exists (repeat 0%Z 20), (repeat 0%Z 32), []. split; [|split; [|split; [|reflexivity]]].
    + unfold header_fields, in_bytes. vm_compute. repeat split; congruence.
    + constructor; [|constructor]. unfold fr_ok, record_ok, in_bytes. cbn [fr_number fr_box fr_rings firstn rectangles unit_box bb_xmin bb_xmax bb_ymin bb_ymax].
      split; [vm_compute; split; congruence|]. split; [reflexivity|].
      split; [repeat constructor; cbn; unfold in_bytes; cbn; lia|]. split; [repeat constructor|]. split; [repeat constructor|]. vm_compute; split; congruence.
    + vm_compute. reflexivity.
  - intros m afs afd enc b rn box ps fs d s t Ha Hs Ht Hb Hin.
    destruct (shapefile_read m afs afd enc b _ fs _ s t Ha Hs Ht) as (r & E & B & _ & C). specialize (C 0%nat).
    cbn [length Nat.max Nat.add Nat.sub combine map app repeat calls] in C.
    destruct (sf_next afs afd r) as [[x r']|] eqn:En; [|discriminate C]. injection C as C. subst x b.
    destruct (rectangle_region afs afd r ps d r' Hb Hin En) as (A & P & g & R). split; [exact A|]. exists r. eauto.
Qed.
Print Assumptions C60_rectangle_refuted.

(** What holds: in a release build, a clockwise rectangle that covers at most 24% of the
    bounding box of the file becomes a region with one outer ring. *)
Theorem C60_small_partial : forall afs afd r r' x0 y0 x1 y1 d, let b := sf_bounding_box r in
  box_ok b -> in_box b (SP x0 y0) -> in_box b (SP x1 y1) -> real_of x0 <= real_of x1 -> real_of y0 <= real_of y1 ->
  100 * ((real_of x1 - real_of x0) * (real_of y1 - real_of y0)) <=
  24 * ((real_of (bb_xmax b) - real_of (bb_xmin b)) * (real_of (bb_ymax b) - real_of (bb_ymin b))) ->
  let ps := [SP x0 y0; SP x0 y1; SP x1 y1; SP x1 y0; SP x0 y0] in
  sf_next afs afd r = Ok (Some (ROk (SfRecord [ps] d)), r') ->
  exists g, geo_next Release afs afd (geo_iterator_new r) = Ok (Some (ROk (Region d [RPoints (map (quantize (quantizer_new b)) ps)] [])), g).
Proof. intros afs afd r r' x0 y0 x1 y1 d. exact (small_region afs afd r x0 y0 x1 y1 d r'). Qed.
Print Assumptions C60_small_partial.

(** The rectangle from (1/4, 1/4) to (1/2, 1/2) of the unit square. *)
Example C60_case : let q := 4598175219545276416%Z in let h := 4602678819172646912%Z in
  in_box unit_box (SP q q) /\ in_box unit_box (SP h h) /\
  100 * ((real_of h - real_of q) * (real_of h - real_of q)) <= 24 * ((1 - 0) * (1 - 0)) /\
  map (quantize (quantizer_new unit_box)) [SP q q; SP h h] = [Pt 1073741823 3221225471; Pt 2147483647 2147483647].
Proof.
  cbv zeta. destruct one_val as (E1 & E0 & E2). assert (E4 : real_of 4598175219545276416 = / 4) by (unfold real_of; vm_compute; lra).
  split; [|split; [|split; [rewrite E2, E4; lra|vm_compute; reflexivity]]];
    split; (split; [reflexivity|]); cbn [bb_xmin bb_xmax bb_ymin bb_ymax unit_box sp_x sp_y]; rewrite ?E1, ?E0, ?E2, ?E4; lra.
Qed.

(** ** C68: points more than a cell apart stay apart *)
Theorem C68_x : forall b p q, box_ok b -> in_box b p -> in_box b q -> grid_x b p + 1 + / 131072 <= grid_x b q ->
  (px (quantize (quantizer_new b) p) < px (quantize (quantizer_new b) q))%Z.
Proof.
  intros b p q Hb Hp Hq L. apply lt_IZR. pose proof (quantize_near_x b p Hb Hp). pose proof (quantize_near_x b q Hb Hq). lra.
Qed.
Print Assumptions C68_x.

Theorem C68_y : forall b p q, box_ok b -> in_box b p -> in_box b q -> grid_y b p + 1 + / 131072 <= grid_y b q ->
  (py (quantize (quantizer_new b) p) < py (quantize (quantizer_new b) q))%Z.
Proof.
  intros b p q Hb Hp Hq L. apply lt_IZR. pose proof (quantize_near_y b p Hb Hp). pose proof (quantize_near_y b q Hb Hq). lra.
Qed.
Print Assumptions C68_y.

Example C68_case : let h := 4602678819172646912%Z in
  grid_x unit_box (SP 0 0) + 1 + / 131072 <= grid_x unit_box (SP h h) /\ grid_y unit_box (SP h h) + 1 + / 131072 <= grid_y unit_box (SP 0 0).
Proof.
  cbv zeta. destruct one_val as (E1 & E0 & E2). unfold grid_x, grid_y. cbn [bb_xmin bb_xmax bb_ymin bb_ymax unit_box sp_x sp_y]. rewrite E1, E0, E2. lra.
Qed.

(** ** C69: points outside the box are moved to its border *)
Theorem C69_x : forall b p, side (bb_xmin b) (bb_xmax b) -> is_real (sp_x p) ->
  (real_of (sp_x p) <= real_of (bb_xmin b) -> px (quantize (quantizer_new b) p) = 0%Z) /\
  (real_of (bb_xmax b) <= real_of (sp_x p) -> px (quantize (quantizer_new b) p) = 4294967295%Z).
Proof.
  intros b p (F0 & F1 & L & D) Fp. cbn [quantize quantizer_new px q_x q_w]. split; intros H.
  - apply (quantize1_before false); try assumption; unfold sgn, real_of, f64_of_bits in *; lra.
  - apply (quantize1_after false); try assumption; unfold sgn, real_of, f64_of_bits in *; lra.
Qed.
Print Assumptions C69_x.

Theorem C69_y : forall b p, side (bb_ymin b) (bb_ymax b) -> is_real (sp_y p) ->
  (real_of (bb_ymax b) <= real_of (sp_y p) -> py (quantize (quantizer_new b) p) = 0%Z) /\
  (real_of (sp_y p) <= real_of (bb_ymin b) -> py (quantize (quantizer_new b) p) = 4294967295%Z).
Proof.
  intros b p (F0 & F1 & L & D) Fp. cbn [quantize quantizer_new py q_y q_h]. split; intros H.
  - apply (quantize1_before true); try assumption; unfold sgn, real_of, f64_of_bits in *; lra.
  - apply (quantize1_after true); try assumption; unfold sgn, real_of, f64_of_bits in *; lra.
Qed.
Print Assumptions C69_y.

(** -1.5 and the largest double. *)
Example C69_case : is_real 13832806255468478464 /\ is_real 9218868437227405311 /\
  quantize (quantizer_new unit_box) (SP 13832806255468478464 9218868437227405311) = Pt 0 0.
Proof. split; [reflexivity|]. split; [reflexivity|]. vm_compute. reflexivity. Qed.

(** ** C70: degenerate boxes *)

(** A box without width or height: its points get the coordinate 0. *)
Theorem C70_flat : forall b p,
  (is_real (bb_xmin b) -> is_real (bb_xmax b) -> is_real (sp_x p) ->
   real_of (bb_xmax b) = real_of (bb_xmin b) -> real_of (sp_x p) = real_of (bb_xmin b) -> px (quantize (quantizer_new b) p) = 0%Z) /\
  (is_real (bb_ymin b) -> is_real (bb_ymax b) -> is_real (sp_y p) ->
   real_of (bb_ymin b) = real_of (bb_ymax b) -> real_of (sp_y p) = real_of (bb_ymax b) -> py (quantize (quantizer_new b) p) = 0%Z).
Proof. intros b p. split; intros F0 F1 Fp E1 E2; cbn [quantize quantizer_new px py q_x q_y q_w q_h]; apply quantize1_flat; assumption. Qed.
Print Assumptions C70_flat.

(** A box whose width or height is not a double: every point gets the coordinate 0.  The
    limit is the one of [side]. *)
Theorem C70_infinite : forall b p,
  (is_real (bb_xmin b) -> is_real (bb_xmax b) -> is_real (sp_x p) ->
   bpow radix2 1024 - bpow radix2 970 <= real_of (bb_xmax b) - real_of (bb_xmin b) -> px (quantize (quantizer_new b) p) = 0%Z) /\
  (is_real (bb_ymin b) -> is_real (bb_ymax b) -> is_real (sp_y p) ->
   bpow radix2 1024 - bpow radix2 970 <= real_of (bb_ymax b) - real_of (bb_ymin b) -> py (quantize (quantizer_new b) p) = 0%Z).
Proof.
  intros b p. pose proof (bpow_lt radix2 970 1024 ltac:(lia)) as Q. split; intros F0 F1 Fp H; cbn [quantize quantizer_new px py q_x q_y q_w q_h].
  - destruct (sub_infinite (f64_of_bits (bb_xmax b)) (f64_of_bits (bb_xmin b)) F1 F0) as [s E].
    { eapply Rle_trans; [exact H|apply RRle_abs]. }
    apply (quantize1_infinite _ _ _ s); assumption.
  - destruct (sub_infinite (f64_of_bits (bb_ymin b)) (f64_of_bits (bb_ymax b)) F0 F1) as [s E].
    { rewrite Rabs_minus_sym. eapply Rle_trans; [exact H|apply RRle_abs]. }
    apply (quantize1_infinite _ _ _ s); assumption.
Qed.
Print Assumptions C70_infinite.

(** From minus to plus the largest double; a box without width. *)
Example C70_case :
  quantize (quantizer_new (SBBox 18442240474082181119 0 9218868437227405311 4607182418800017408)) (SP 9218868437227405311 0) = Pt 0 4294967295 /\
  quantize (quantizer_new (SBBox 5 0 5 4607182418800017408)) (SP 5 0) = Pt 0 4294967295.
Proof. vm_compute. auto. Qed.
