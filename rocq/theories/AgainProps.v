(** * AgainProps: C137, integer coordinates written to a file and imported again *)
From Coq Require Import Reals Lra.
From Flocq Require Import Core.Core.
From Flocq Require IEEE754.Binary IEEE754.Bits.
From Verif Require Import BytesProofs AgainSpec QuantizeProofs QuantizeLaws AgainProofs ShpProps DbfProps SfProps QuantizeProps PipelineProps UnitProps.
Open Scope R_scope.

(** Division by 2^32-1 and multiplication with it are both rounded; a point of the grid is
    exactly where it was, not one cell to the left or above. *)
Theorem C137_point : forall e ox oy b q p, grid_box e ox oy b -> written_point e b q p -> quantize (quantizer_new b) p = q.
Proof. exact quantize_written. Qed.
Print Assumptions C137_point.

(** Points that were moved to the grid once are not moved again. *)
Theorem C137_twice : forall e ox oy b b' p p', box_ok b -> QuantizeSpec.in_box b p ->
  grid_box e ox oy b' -> is_real (sp_x p') -> is_real (sp_y p') ->
  let q := quantize (quantizer_new b) p in
  real_of (sp_x p') = ox + bpow radix2 e * IZR (px q) -> real_of (sp_y p') = oy + bpow radix2 e * (4294967295 - IZR (py q)) ->
  quantize (quantizer_new b') p' = q.
Proof.
  intros e ox oy b b' p p' Hb Hp Hb' Fx Fy q Ex Ey. apply (quantize_written e ox oy); [exact Hb'|].
  destruct Hb' as (_ & X0 & _ & _ & Y1). split; [apply quantize_range; assumption|]. split; [exact Fx|]. split; [exact Fy|]. split; [rewrite X0; exact Ex|]. rewrite Y1, Ey. ring.
Qed.
Print Assumptions C137_twice.

(** Regions of integer points, written to a file, are the regions that the import adds. *)
Theorem C137_import : forall m afs afd enc e ox oy b regs shapes fs datas (s d : stream),
  leaves_suffix afd -> bytes_ok s -> is_shp b shapes s -> is_dbf enc fs datas d -> grid_box e ox oy b -> written e b regs shapes datas ->
  import m afs afd enc (Some s) (Some d) = match build_topology m regs with Ok t => Ok (ROk (t, length regs)) | Panic p => Panic p end.
Proof. exact import_written. Qed.
Print Assumptions C137_import.

(** A long rectangle with a hole, and a square in the hole. *)
Definition whole_box : shp_bbox := SBBox 0 0 4751297606873776128 4751297606873776128.
Definition holed : list (region dbf_record) :=
  [ Region sample_rec [RPoints [Pt 0 0; Pt 3000000001 0; Pt 3000000001 7; Pt 0 7; Pt 0 0]] [RPoints [Pt 1 3; Pt 1 5; Pt 3 5; Pt 3 3; Pt 1 3]];
    Region sample_rec [RPoints [Pt 1 3; Pt 3 3; Pt 3 5; Pt 1 5; Pt 1 3]] [] ].
Definition holed_shapes : list file_record :=
  let x1 := 4607182418800017408%Z in let x3 := 4613937818241073152%Z in let xl := 4748581863623229440%Z in
  let y0 := 4751297606873776128%Z in let y3 := 4751297606867484672%Z in let y5 := 4751297606863290368%Z in let y7 := 4751297606859096064%Z in
  [ FR 1 zero_box [[SP 0 y0; SP xl y0; SP xl y7; SP 0 y7; SP 0 y0]; [SP x1 y3; SP x1 y5; SP x3 y5; SP x3 y3; SP x1 y3]];
    FR 2 zero_box [[SP x1 y3; SP x3 y3; SP x3 y5; SP x1 y5; SP x1 y3]] ].
Definition holed_shp : list Z :=
  header_bytes 9994 (repeat 0%Z 20) (file_size holed_shapes / 2)%Z 1000 5 0 0 4751297606873776128 4751297606873776128 (repeat 0%Z 32) ++
  concat (map fr_bytes holed_shapes).

Lemma holed_is_shp : is_shp whole_box holed_shapes holed_shp.
Proof.
  assert (E : file_size holed_shapes = file_size holed_shapes) by reflexivity. 
  match type of E with _ = ?x => let v := eval vm_compute in x in change x with v in E at 2 end.
  exists (repeat 0%Z 20), (repeat 0%Z 32), []. unfold holed_shp. rewrite app_nil_r, E.
  split; [unfold header_fields, in_bytes; cbn; repeat split; lia|].
  split; [|split; [lia|reflexivity]].
  constructor; [|constructor; [|constructor]]; (split; [unfold in_bytes; cbn; lia|]); (split; [reflexivity|]);
    (split; [repeat constructor; cbn; unfold in_bytes; cbn; lia|]); (split; [repeat constructor|]); (split; [repeat constructor|]);
    unfold in_bytes; vm_compute; split; congruence.
Qed.

Lemma holed_bytes : bytes_ok holed_shp.
Proof.
  assert (E : forallb (fun z => (0 <=? z) && (z <? 256))%Z holed_shp = true) by (vm_compute; reflexivity).
  apply Forall_forall. intros z Hz. rewrite forallb_forall in E. apply E, andb_true_iff in Hz. unfold is_byte. lia.
Qed.

Lemma grid_values : real_of 0 = 0 /\ real_of 4607182418800017408 = 1 /\ real_of 4613937818241073152 = 3 /\ real_of 4748581863623229440 = 3000000001 /\
  real_of 4751297606873776128 = 4294967295 /\ real_of 4751297606867484672 = 4294967292 /\ real_of 4751297606863290368 = 4294967290 /\
  real_of 4751297606859096064 = 4294967288.
Proof. unfold real_of. vm_compute. lra. Qed.

Lemma holed_written : grid_box 0 0 0 whole_box /\ written 0 whole_box holed holed_shapes (repeat sample_rec 2).
Proof.
  destruct grid_values as (V0 & V1 & V3 & Vl & W0 & W3 & W5 & W7). split.
  - split; [split; apply short_side; try reflexivity; cbn [bb_xmin bb_xmax bb_ymin bb_ymax whole_box]; lra|].
    cbn [bb_xmin bb_xmax bb_ymin bb_ymax whole_box]. change (bpow radix2 0) with 1. lra.
  - unfold holed, holed_shapes. cbv zeta. cbn [repeat].
    constructor; [|constructor; [|constructor]]; (split; [reflexivity|]); cbn [rg_outer rg_inner app fr_rings]; split.
    1, 3: repeat (constructor; [eexists; split; [reflexivity|];
      repeat (constructor; [unfold written_point, wf_point, is_u32; cbn [px py sp_x sp_y bb_xmin bb_ymax whole_box]; change (bpow radix2 0) with 1;
        split; [lia|split; [reflexivity|split; [reflexivity|lra]]]|]); constructor|]); constructor.
    all: split; [repeat (constructor; [vm_compute; congruence|]); constructor|]; split; [repeat (constructor; [vm_compute; reflexivity|]); constructor|];
      repeat (constructor; [repeat (constructor; [vm_compute; split; congruence|]); constructor|]); constructor.
Qed.

Example C137_case : leaves_suffix forget /\ bytes_ok holed_shp /\ is_shp whole_box holed_shapes holed_shp /\
  is_dbf ascii sample_fs (repeat sample_rec 2) (dbf_of 2) /\ grid_box 0 0 0 whole_box /\ written 0 whole_box holed holed_shapes (repeat sample_rec 2) /\
  exists t, import Debug forget forget ascii (Some holed_shp) (Some (dbf_of 2)) = Ok (ROk (t, 2%nat)) /\ build_topology Debug holed = Ok t /\
    describe t = Description 2 2 1 8 4 4 16.
Proof.
  destruct holed_written as (A & B).
  split; [intros s n; exists s; symmetry; apply app_nil_r|]. split; [exact holed_bytes|]. split; [exact holed_is_shp|].
  split; [apply dbf_of_is_dbf; lia|]. split; [exact A|]. split; [exact B|].
  eexists. split; [vm_compute; reflexivity|]. split; vm_compute; reflexivity.
Qed.
