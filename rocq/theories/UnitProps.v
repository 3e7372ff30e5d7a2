(** * UnitProps: C135, maps in other units *)
From Coq Require Import Reals Lra.
From Flocq Require Import Core.Core.
From Flocq Require IEEE754.Binary IEEE754.Bits.
From Verif Require Import BytesProofs UnitSpec QuantizeProofs QuantizeLaws UnitProofs ShpProps DbfProps SfProps QuantizeProps PipelineProps.
Open Scope R_scope.

(** Coordinates in a unit that is a power of two times smaller or larger, counted from another
    origin: every point keeps its place on the grid.  The numbers need only be exact; the
    differences may be rounded, and may be subnormal. *)
Theorem C135_point : forall e cx cy b b' p p', box_ok b -> box_ok b' -> converted_box e cx cy b b' -> converted_point e cx cy b p p' ->
  quantize (quantizer_new b') p' = quantize (quantizer_new b) p.
Proof. exact quantize_converted. Qed.
Print Assumptions C135_point.

(** The import of the converted file returns the same: the same topology, error or panic. *)
Theorem C135_import : forall m afs afd enc e cx cy b b' shapes shapes' fs datas (s s' d : stream),
  leaves_suffix afd -> bytes_ok s -> bytes_ok s' -> is_shp b shapes s -> is_shp b' shapes' s' -> is_dbf enc fs datas d ->
  box_ok b -> box_ok b' -> converted_box e cx cy b b' -> Forall2 (converted_shape e cx cy b) shapes shapes' ->
  Forall (fun rec => item_fits (quantize (quantizer_new b)) (Some (ROk rec))) (paired shapes datas) ->
  import m afs afd enc (Some s') (Some d) = import m afs afd enc (Some s) (Some d).
Proof. exact import_converted. Qed.
Print Assumptions C135_import.

(** The two triangles of [C75_case] in half the unit, moved to the right by one. *)
Definition half_box : shp_bbox := SBBox 4607182418800017408 0 4613937818241073152 4611686018427387904.
Definition half_triangles : list file_record :=
  let o := 4607182418800017408%Z in let a := 4607191214893039616%Z in let y0 := 4611686018427387904%Z in let y1 := 4611677011228133163%Z in
  [FR 1 zero_box [[SP o y0; SP a y0; SP a y1; SP o y0]]; FR 2 zero_box [[SP o y0; SP a y1; SP o y1; SP o y0]]].
Definition half_shp : list Z :=
  header_bytes 9994 (repeat 0%Z 20) (file_size half_triangles / 2)%Z 1000 5 4607182418800017408 0 4613937818241073152 4611686018427387904 (repeat 0%Z 32) ++
  concat (map fr_bytes half_triangles).

Lemma half_is_shp : is_shp half_box half_triangles half_shp.
Proof.
  assert (E : file_size half_triangles = 340%Z) by (vm_compute; reflexivity).
  exists (repeat 0%Z 20), (repeat 0%Z 32), []. unfold half_shp. rewrite app_nil_r, E.
  split; [unfold header_fields, in_bytes; cbn; repeat split; lia|].
  split; [|split; [lia|reflexivity]].
  constructor; [|constructor; [|constructor]]; (split; [unfold in_bytes; cbn; lia|]); (split; [reflexivity|]);
    (split; [repeat constructor; cbn; unfold in_bytes; cbn; lia|]); (split; [repeat constructor|]); (split; [repeat constructor|]);
    unfold in_bytes; vm_compute; split; congruence.
Qed.

Lemma half_bytes : bytes_ok half_shp.
Proof.
  assert (E : forallb (fun z => (0 <=? z) && (z <? 256))%Z half_shp = true) by (vm_compute; reflexivity).
  apply Forall_forall. intros z Hz. rewrite forallb_forall in E. apply E, andb_true_iff in Hz. unfold is_byte. lia.
Qed.

Lemma short_side lo hi : is_real lo -> is_real hi -> 0 < real_of hi - real_of lo <= 12884901885 -> QuantizeSpec.side lo hi.
Proof.
  intros Fl Fh H. split; [exact Fl|]. split; [exact Fh|]. split; [lra|].
  assert (A : bpow radix2 1024 = 2 * bpow radix2 1023) by (change 1024%Z with (1 + 1023)%Z; rewrite bpow_plus; reflexivity).
  pose proof (bpow_lt radix2 970 1023 ltac:(lia)). pose proof (bpow_le radix2 34 1023 ltac:(lia)) as B.
  change (bpow radix2 34) with 17179869184 in B. lra.
Qed.

Lemma values : real_of 0 = 0 /\ real_of 4607182418800017408 = 1 /\ real_of 4613937818241073152 = 3 /\ real_of 4611686018427387904 = 2 /\
  real_of 4562146422526312448 = / 1024 /\ real_of 4607191214893039616 = 1 + / 512 /\
  real_of 4611677011228133163 = 2 * real_of 4607173411600762667 /\ 0 <= real_of 4607173411600762667 <= 1.
Proof. unfold real_of. vm_compute. lra. Qed.

Example C135_case : box_ok unit_box /\ box_ok half_box /\ converted_box 1 1 0 unit_box half_box /\
  Forall2 (converted_shape 1 1 0 unit_box) two_triangles half_triangles /\
  is_shp half_box half_triangles half_shp /\ bytes_ok half_shp /\
  (forall m afs, import m afs forget ascii (Some half_shp) (Some (dbf_of 2)) = import m afs forget ascii (Some triangles_shp) (Some (dbf_of 2))) /\
  half_shp <> triangles_shp.
Proof.
  destruct values as (V0 & V1 & V3 & V2 & Va & Va' & Vy & Vr).
  assert (Bu : box_ok unit_box) by (split; exact unit_side).
  assert (Bh : box_ok half_box) by (split; apply short_side; try reflexivity; cbn [bb_xmin bb_xmax bb_ymin bb_ymax half_box]; lra).
  assert (Cb : converted_box 1 1 0 unit_box half_box).
  { unfold converted_box, converted. cbn [bb_xmin bb_xmax bb_ymin bb_ymax unit_box half_box]. change (bpow radix2 1) with 2. lra. }
  assert (Cs : Forall2 (converted_shape 1 1 0 unit_box) two_triangles half_triangles).
  { unfold two_triangles, half_triangles. cbv zeta.
    constructor; [|constructor; [|constructor]]; unfold converted_shape; cbn [fr_rings]; (constructor; [|constructor]);
      repeat (constructor; [unfold converted_point, QuantizeSpec.in_box, within, converted;
        cbn [bb_xmin bb_xmax bb_ymin bb_ymax unit_box sp_x sp_y]; change (bpow radix2 1) with 2;
        split; [split; (split; [reflexivity|lra])|split; [reflexivity|split; [reflexivity|lra]]]|]); constructor. }
  split; [exact Bu|]. split; [exact Bh|]. split; [exact Cb|]. split; [exact Cs|]. split; [exact half_is_shp|]. split; [exact half_bytes|].
  split; [|intros X; apply (f_equal (fun l => nth 43 l 0%Z)) in X; vm_compute in X; discriminate X].
  intros m afs. destruct C75_case as (Hf & _ & _ & Hd & HF & _).
  exact (import_converted m afs forget ascii 1 1 0 unit_box half_box two_triangles half_triangles sample_fs (repeat sample_rec 2)
    triangles_shp half_shp (dbf_of 2) Hf triangles_bytes half_bytes triangles_is_shp half_is_shp Hd Bu Bh Cb Cs HF).
Qed.

(** For other units this is false: a point in the column 5, with three times the coordinates,
    is in the column 4. *)
Definition small_box (lo hi : Z) : shp_bbox := SBBox lo 0 hi 4607182418800017408.
Example C135_three :
  let lo := 4375247037990436864%Z in let v := 4617315517961601024%Z in let hi := 4751297606873776128%Z in
  let lo' := 4382565387384913920%Z in let v' := 4624633867356078080%Z in let hi' := 4758053006315356160%Z in
  box_ok (small_box lo hi) /\ box_ok (small_box lo' hi') /\
  real_of lo' = 3 * real_of lo /\ real_of v' = 3 * real_of v /\ real_of hi' = 3 * real_of hi /\
  QuantizeSpec.in_box (small_box lo hi) (SP v 0) /\ QuantizeSpec.in_box (small_box lo' hi') (SP v' 0) /\
  px (quantize (quantizer_new (small_box lo hi)) (SP v 0)) = 5%Z /\
  px (quantize (quantizer_new (small_box lo' hi')) (SP v' 0)) = 4%Z.
Proof.
  cbv zeta. destruct values as (V0 & V1 & _).
  assert (W : real_of 4382565387384913920 = 3 * real_of 4375247037990436864 /\ 0 < real_of 4375247037990436864 < 1 /\
    real_of 4617315517961601024 = 5 /\ real_of 4624633867356078080 = 15 /\
    real_of 4751297606873776128 = 4294967295 /\ real_of 4758053006315356160 = 12884901885) by (unfold real_of; vm_compute; lra).
  destruct W as (W1 & W2 & W3 & W4 & W5 & W6). unfold small_box.
  split; [split; apply short_side; try reflexivity; cbn [bb_xmin bb_xmax bb_ymin bb_ymax]; lra|].
  split; [split; apply short_side; try reflexivity; cbn [bb_xmin bb_xmax bb_ymin bb_ymax]; lra|].
  split; [lra|]. split; [lra|]. split; [lra|].
  split; [split; (split; [reflexivity|]); cbn [bb_xmin bb_xmax bb_ymin bb_ymax sp_x sp_y]; lra|].
  split; [split; (split; [reflexivity|]); cbn [bb_xmin bb_xmax bb_ymin bb_ymax sp_x sp_y]; lra|].
  split; vm_compute; reflexivity.
Qed.
