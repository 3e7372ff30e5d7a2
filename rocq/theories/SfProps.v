(** * SfProps: C57, C58, C66 and C67, reading shapefiles *)
From Verif Require Import QuantizeSpec TopoProofs BytesProofs ShpProofs ShpLaws DbfProofs DbfLaws SfProofs ShpProps DbfProps.

(** A shapefile of the two records of [sample_file] and one or two data records. *)
Definition unit_box : shp_bbox := SBBox 0 0 4607182418800017408 4607182418800017408.
Definition sample_shp : list Z :=
  header_bytes 9994 (repeat 0 20) 212 1000 5 0 0 4607182418800017408 4607182418800017408 (repeat 0 32) ++ concat (map fr_bytes sample_file).
Definition dbf_of (n : nat) : list Z :=
  dbf_prefix 3 116 12 31 (Z.of_nat n) 15 (repeat 0 20) sample_ds [13] ++ concat (repeat sample_rec n) ++ [26].

Lemma sample_is_shp : is_shp unit_box sample_file sample_shp.
Proof.
  exists (repeat 0 20), (repeat 0 32), []. destruct C47_case as [H1 H2]. rewrite app_nil_r, H2.
  split; [unfold header_fields, in_bytes; cbn; repeat split; lia|]. split; [exact H1|]. split; [lia|reflexivity].
Qed.
Lemma dbf_of_is_dbf n : (n < 256)%nat -> is_dbf ascii sample_fs (repeat sample_rec n) (dbf_of n).
Proof.
  intros H. exists 3, 116, 12, 31, 15, (repeat 0 20), sample_ds, [13], [26]. rewrite repeat_length.
  split; [unfold dbf_header_fields, in_bytes; cbn [length sample_ds]; repeat split; cbn; lia|].
  split; [exact sample_ds_ok|]. split; [cbn; lia|]. split; [lia|]. split; [lia|]. split; [exact sample_described|].
  split; [|reflexivity]. apply Forall_forall. intros r Hr. apply repeat_spec in Hr. subst. reflexivity.
Qed.

(** ** C57: the k-th shape and the k-th data record *)
Theorem C57_file : forall m afs afd enc b shapes fs datas s d, leaves_suffix afd -> is_shp b shapes s -> is_dbf enc fs datas d ->
  exists r, sf_reader_new m afs afd enc s d = Ok (ROk r) /\ sf_bounding_box r = b /\ sf_dbf_fields r = fs /\
    forall k, calls (sf_next afs afd) (Nat.max (length shapes) (length datas) + k) r =
      Ok (map (fun '(f, d) => Some (ROk (SfRecord (fr_rings f) d))) (combine shapes datas) ++
          repeat (Some (RErr SFMoreShp)) (length shapes - length datas) ++
          repeat (Some (RErr SFMoreDbf)) (length datas - length shapes) ++ repeat None k).
Proof. exact shapefile_read. Qed.
Print Assumptions C57_file.

Example C57_case : is_shp unit_box sample_file sample_shp /\ is_dbf ascii sample_fs (repeat sample_rec 1) (dbf_of 1) /\ leaves_suffix forget /\
  match sf_reader_new Debug forget forget ascii sample_shp (dbf_of 1) with
  | Ok (ROk r) => calls (sf_next forget forget) 4 r = Ok [Some (ROk (SfRecord sample_rings sample_rec)); Some (RErr SFMoreShp); None; None]
  | _ => False
  end.
Proof.
  split; [exact sample_is_shp|]. split; [apply dbf_of_is_dbf; lia|].
  split; [intros s n; exists s; symmetry; apply app_nil_r|vm_compute; reflexivity].
Qed.

(** ** C58: regions keep all rings, split by winding order *)

(** In both build modes the region has the record's data, and the outer and inner rings
    are a partition, in order, of the record's rings. *)
Theorem C58_kept : forall m afs afd g reg g', geo_next m afs afd g = Ok (Some (ROk reg), g') ->
  exists rec, sf_next afs afd (gi_reader g) = Ok (Some (ROk rec), gi_reader g') /\ rg_data reg = sfr_data rec /\
    exists c : ring -> bool,
      rg_outer reg = filter c (quantized (quantize (gi_quantizer g)) (sfr_rings rec)) /\
      rg_inner reg = filter (fun r => negb (c r)) (quantized (quantize (gi_quantizer g)) (sfr_rings rec)).
Proof.
  intros m afs afd g reg g' E. destruct (geo_next_region m afs afd g reg g' E) as (rec & E1 & _ & E2 & E3).
  exists rec. split; [exact E1|]. split; [exact E2|]. eapply partition_lossless, E3.
Qed.
Print Assumptions C58_kept.

(** The split is not always by winding order: areas overflow in a release build. *)
Theorem C58_split_refuted : exists s d r, bytes_ok s /\ bytes_ok d /\
  sf_reader_new Release forget forget ascii s d = Ok (ROk r) /\
  exists reg g ring, geo_next Release forget forget (geo_iterator_new r) = Ok (Some (ROk reg), g) /\
    rg_outer reg = [] /\ rg_inner reg = [ring] /\ 0 < ring_area ring.
Proof.
  pose (o := 4607182418800017408).
  exists (header_bytes 9994 (repeat 0 20) 118 1000 5 0 0 o o (repeat 0 32) ++ record_bytes 1 zero_box [[SP 0 0; SP 0 o; SP o o; SP o 0; SP 0 0]]), (dbf_of 1).
  eexists. split; [|split; [|split; [vm_compute; reflexivity|]]].
  - apply Forall_forall. intros z Hz. vm_compute in Hz. unfold is_byte. decompose [or] Hz; subst; (contradiction || (cbn; lia)).
  - apply Forall_forall. intros z Hz. vm_compute in Hz. unfold is_byte. decompose [or] Hz; subst; (contradiction || (cbn; lia)).
  - eexists. eexists. eexists. split; [vm_compute; reflexivity|]. split; [reflexivity|]. split; [reflexivity|]. vm_compute. reflexivity.
Qed.
Print Assumptions C58_split_refuted.

(** If no area overflows, every item of the shapefile becomes its region, in both modes. *)
Theorem C58_regions_partial : forall m afs afd r k items, calls (sf_next afs afd) k r = Ok items ->
  let f := quantize (quantizer_new (sf_bounding_box r)) in
  Forall (item_fits f) items ->
  exists outs, calls (geo_next m afs afd) k (geo_iterator_new r) = Ok outs /\ Forall2 (item_imported f) items outs.
Proof. intros m afs afd r k items E f H. exact (geo_calls_fits m afs afd k (geo_iterator_new r) items E H). Qed.
Print Assumptions C58_regions_partial.

(** A debug build splits correctly or panics. *)
Theorem C58_debug_partial : forall afs afd r k outs, calls (geo_next Debug afs afd) k (geo_iterator_new r) = Ok outs ->
  let f := quantize (quantizer_new (sf_bounding_box r)) in
  exists items, calls (sf_next afs afd) k r = Ok items /\ Forall2 (item_imported f) items outs.
Proof. intros afs afd r k outs E f. exact (geo_calls_debug afs afd k (geo_iterator_new r) outs E). Qed.
Print Assumptions C58_debug_partial.

(** A small clockwise ring and a small counter-clockwise one, 0 to 2^-10 in the unit box. *)
Definition small_rings : list (list shp_point) :=
  let a := 4562146422526312448 in
  [[SP 0 4607182418800017408; SP a 4607182418800017408; SP a 4607173411600762667; SP 0 4607182418800017408];
   [SP 0 4607182418800017408; SP a 4607173411600762667; SP a 4607182418800017408; SP 0 4607182418800017408]].
Lemma small_quantized : quantized (quantize (quantizer_new unit_box)) small_rings =
  [RPoints [Pt 0 0; Pt 4194303 0; Pt 4194303 4294967; Pt 0 0]; RPoints [Pt 0 0; Pt 4194303 4294967; Pt 4194303 0; Pt 0 0]].
Proof. vm_compute. reflexivity. Qed.
Example C58_case : let f := quantize (quantizer_new unit_box) in
  item_fits f (Some (ROk (SfRecord small_rings sample_rec))) /\
  item_imported f (Some (ROk (SfRecord small_rings sample_rec)))
    (Some (ROk (Region sample_rec [RPoints [Pt 0 0; Pt 4194303 0; Pt 4194303 4294967; Pt 0 0]]
                                  [RPoints [Pt 0 0; Pt 4194303 4294967; Pt 4194303 0; Pt 0 0]]))).
Proof.
  cbv zeta. unfold item_fits, item_imported, imported. cbn [sfr_rings sfr_data rg_data rg_outer rg_inner]. rewrite small_quantized.
  split; [|repeat split; reflexivity].
  repeat (constructor; [repeat (constructor; [vm_compute; split; congruence|]); constructor|]). constructor.
Qed.

(** ** C66: errors do not shift the pairing *)
Theorem C66_join : forall afs afd k r shapes datas,
  calls (shp_next afs) k (sf_shp r) = Ok shapes -> calls (dbf_step afd) k (sf_dbf r) = Ok datas ->
  calls (sf_next afs afd) k r = Ok (map (fun '(a, b) => join_items a b) (combine shapes datas)).
Proof. exact sf_calls. Qed.
Print Assumptions C66_join.

Theorem C66_panic : forall afs afd k r p,
  calls (sf_next afs afd) k r = Panic p <-> calls (shp_next afs) k (sf_shp r) = Panic p.
Proof. exact sf_calls_panic_iff. Qed.
Print Assumptions C66_panic.

(** The first record has a wrong type; the second is still paired with the second data record. *)
Example C66_case :
  let bad := be_bytes 4 1 ++ be_bytes 4 24 ++ le_bytes 4 3 ++ repeat 0 44 in
  let s := bad ++ record_bytes 2 zero_box sample_rings in
  let shp := ShpReader s 100 (SHeader (100 + Z.of_nat (length s)) STPolygon unit_box) in
  exists e, calls (sf_next forget forget) 2 (SfReader shp (DbfReader [1; 2] 0 (DMeta 2 1 []))) =
    Ok [Some (RErr (SFShp e)); Some (ROk (SfRecord sample_rings [2]))].
Proof. eexists. vm_compute. reflexivity. Qed.

(** ** C67: opening *)
Theorem C67_new : forall m afs afd enc s d r, sf_reader_new m afs afd enc s d = Ok (ROk r) <->
  shp_reader_new m afs s = Ok (ROk (sf_shp r)) /\ dbf_reader_new m afd enc d = Ok (ROk (sf_dbf r)).
Proof.
  intros m afs afd enc s d r. unfold sf_reader_new.
  destruct (shp_reader_new m afs s) as [[a|ea]|]; destruct (dbf_reader_new m afd enc d) as [[b|eb]|]; cbn [bind]; split;
    try (intros [? ?]; congruence); try discriminate.
  - intros [= <-]. auto.
  - intros [[= ->] [= ->]]. destruct r. reflexivity.
Qed.
Print Assumptions C67_new.

(** The error of the .shp file comes first. *)
Theorem C67_new_error : forall m afs afd enc s d e, sf_reader_new m afs afd enc s d = Ok (RErr e) ->
  (exists a, shp_reader_new m afs s = Ok (RErr a) /\ e = SFShp a) \/
  (exists a b, shp_reader_new m afs s = Ok (ROk a) /\ dbf_reader_new m afd enc d = Ok (RErr b) /\ e = SFDbf b).
Proof.
  intros m afs afd enc s d e. unfold sf_reader_new.
  destruct (shp_reader_new m afs s) as [[a|ea]|]; destruct (dbf_reader_new m afd enc d) as [[b|eb]|]; cbn [bind]; try discriminate; intros [= <-].
  - right. exists a, eb. auto.
  - left. exists ea. auto.
  - left. exists ea. auto.
Qed.
Print Assumptions C67_new_error.

(** [open] gives what [new] gives on the contents of the two files. *)
Theorem C67_open_new : forall m afs afd enc s d x, sf_reader_new m afs afd enc s d = Ok x -> sf_open m afs afd enc (Some s) (Some d) = Ok x.
Proof.
  intros m afs afd enc s d x. unfold sf_reader_new, sf_open.
  destruct (shp_reader_new m afs s) as [[a|ea]|]; destruct (dbf_reader_new m afd enc d) as [[b|eb]|]; cbn [bind]; try discriminate; auto.
Qed.
Print Assumptions C67_open_new.

(** A missing file is an I/O error of that file. *)
Theorem C67_missing : forall m afs afd enc s d,
  sf_open m afs afd enc None d = Ok (RErr (SFShp SEIo)) /\
  (forall a, shp_reader_new m afs s = Ok (ROk a) -> sf_open m afs afd enc (Some s) None = Ok (RErr (SFDbf DEIo))).
Proof. intros m afs afd enc s d. split; [reflexivity|]. intros a E. unfold sf_open. rewrite E. reflexivity. Qed.
Print Assumptions C67_missing.

Example C67_case :
  (exists r, sf_open Debug forget forget ascii (Some sample_shp) (Some (dbf_of 2)) = Ok (ROk r)) /\
  sf_reader_new Debug forget forget ascii [] [] = Ok (RErr (SFShp SEIo)) /\
  sf_open Debug forget forget ascii (Some []) (Some (repeat 0 32)) = Ok (RErr (SFShp SEIo)).
Proof. split; [eexists|split]; vm_compute; reflexivity. Qed.
