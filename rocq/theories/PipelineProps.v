(** * PipelineProps: C75-C77, the example programs *)
From Verif Require Import BuildProofs NormTopo ComposeProofs PipelineProofs QuantizeSpec ShpProps DbfProps SfProps NormProps ComposeProps.

(** ** C75: importing a shapefile *)

(** The import returns a topology exactly if the files open, the iterator yields regions and then
    ends, and a topology can be built from these regions; the counter is their number. *)
Theorem C75_ok : forall m afs afd enc shp dbf t n, bytes_opt shp ->
  import m afs afd enc shp dbf = Ok (ROk (t, n)) <->
  exists r regs, sf_open m afs afd enc shp dbf = Ok (ROk r) /\
    calls (geo_next m afs afd) (S n) (geo_iterator_new r) = Ok (map (fun reg => Some (ROk reg)) regs ++ [None]) /\
    build_topology m regs = Ok t /\ n = length regs.
Proof. exact import_ok_iff. Qed.
Print Assumptions C75_ok.

(** It fails with an error exactly if opening fails with that error, or it is the first error of
    the iterator. *)
Theorem C75_err : forall m afs afd enc shp dbf e, bytes_opt shp ->
  import m afs afd enc shp dbf = Ok (RErr e) <->
  sf_open m afs afd enc shp dbf = Ok (RErr e) \/
  exists r regs b, sf_open m afs afd enc shp dbf = Ok (ROk r) /\
    calls (geo_next m afs afd) (S (length regs)) (geo_iterator_new r) = Ok (map (fun reg => Some (ROk reg)) regs ++ [Some (RErr e)]) /\
    add_regions m builder_new regs = Ok b.
Proof. exact import_err_iff. Qed.
Print Assumptions C75_err.

(** Well-formed files of equal length: the topology has, for every record with an outer ring of
    non-zero area, a region with the record's data and the record's quantized rings. *)
Theorem C75_file : forall m afs afd enc b shapes fs datas (s d : stream),
  leaves_suffix afd -> bytes_ok s -> is_shp b shapes s -> is_dbf enc fs datas d -> length shapes = length datas ->
  let f := quantize (quantizer_new b) in
  Forall (fun rec => item_fits f (Some (ROk rec))) (paired shapes datas) ->
  exists regs, Forall2 (imported f) (paired shapes datas) regs /\
    ((forall k, (count_path k (all_paths (expected regs)) <= 2)%nat) ->
       exists t, import m afs afd enc (Some s) (Some d) = Ok (ROk (t, length shapes)) /\ read_topology t = expected regs) /\
    (forall k, (2 < count_path k (all_paths (expected regs)))%nat -> import m afs afd enc (Some s) (Some d) = Panic PAssert).
Proof.
  intros m afs afd enc b shapes fs datas s d Ha Hb Hs Hd HL f HF.
  destruct (import_file m afs afd enc b shapes fs datas s d Ha Hb Hs Hd HF) as (regs & HR & HI). fold f in HR.
  exists regs. split; [exact HR|]. unfold length_check in HI. rewrite HL, Nat.eqb_refl in HI. rewrite <- HL in HI.
  destruct (point_regions_return m regs builder_new) as (bl & A).
  { clear -HR HF. induction HR as [|rec reg recs regs H HR IH]; constructor; inversion HF; subst; [|auto].
    eapply imported_fits; eassumption. }
  destruct (into_topology_iff m regs bl A) as (I1 & I2). unfold build_topology in HI. rewrite A in HI. cbn [bind] in HI. split.
  - intros HC. apply I1 in HC as (t & Et). rewrite Et in HI. exists t. split; [exact HI|].
    apply (build_read m regs). unfold build_topology. rewrite A. exact Et.
  - intros k HC. destruct (into_topology bl) as [t|p] eqn:Et.
    + exfalso. assert (X : forall k, (count_path k (all_paths (expected regs)) <= 2)%nat) by (apply I1; eauto). specialize (X k). lia.
    + rewrite HI. f_equal. auto.
Qed.
Print Assumptions C75_file.

(** Files of different length are rejected. *)
Theorem C75_length : forall m afs afd enc b shapes fs datas (s d : stream),
  leaves_suffix afd -> bytes_ok s -> is_shp b shapes s -> is_dbf enc fs datas d ->
  Forall (fun rec => item_fits (quantize (quantizer_new b)) (Some (ROk rec))) (paired shapes datas) ->
  ((length datas < length shapes)%nat -> import m afs afd enc (Some s) (Some d) = Ok (RErr SFMoreShp)) /\
  ((length shapes < length datas)%nat -> import m afs afd enc (Some s) (Some d) = Ok (RErr SFMoreDbf)).
Proof.
  intros m afs afd enc b shapes fs datas s d Ha Hb Hs Hd HF.
  destruct (import_file m afs afd enc b shapes fs datas s d Ha Hb Hs Hd HF) as (regs & _ & HI).
  rewrite HI. unfold length_check. split; intros HL.
  - destruct (Nat.eqb_spec (length shapes) (length datas)); [lia|]. destruct (Nat.ltb_spec (length datas) (length shapes)); [reflexivity|lia].
  - destruct (Nat.eqb_spec (length shapes) (length datas)); [lia|]. destruct (Nat.ltb_spec (length datas) (length shapes)); [lia|reflexivity].
Qed.
Print Assumptions C75_length.

(** A triangle, and the triangle on the other side of its long edge. *)
Definition two_triangles : list file_record :=
  let a := 4562146422526312448 in let y0 := 4607182418800017408 in let y1 := 4607173411600762667 in
  [FR 1 zero_box [[SP 0 y0; SP a y0; SP a y1; SP 0 y0]]; FR 2 zero_box [[SP 0 y0; SP a y1; SP 0 y1; SP 0 y0]]].
Definition triangles_shp : list Z :=
  header_bytes 9994 (repeat 0 20) (file_size two_triangles / 2) 1000 5 0 0 4607182418800017408 4607182418800017408 (repeat 0 32) ++
  concat (map fr_bytes two_triangles).

Definition triangle_rings (k : nat) : list (list shp_point) := fr_rings (nth k two_triangles (FR 0 [] [])).
Lemma triangle_0 : quantized (quantize (quantizer_new unit_box)) (triangle_rings 0) =
  [RPoints [Pt 0 0; Pt 4194303 0; Pt 4194303 4294967; Pt 0 0]].
Proof. vm_compute. reflexivity. Qed.
Lemma triangle_1 : quantized (quantize (quantizer_new unit_box)) (triangle_rings 1) =
  [RPoints [Pt 0 0; Pt 4194303 4294967; Pt 0 4294967; Pt 0 0]].
Proof. vm_compute. reflexivity. Qed.

Lemma triangles_is_shp : is_shp unit_box two_triangles triangles_shp.
Proof.
  assert (E : file_size two_triangles = 340) by (vm_compute; reflexivity).
  exists (repeat 0 20), (repeat 0 32), []. unfold triangles_shp. rewrite app_nil_r, E.
  split; [unfold header_fields, in_bytes; cbn; repeat split; lia|].
  split; [|split; [lia|reflexivity]].
  constructor; [|constructor; [|constructor]]; (split; [unfold in_bytes; cbn; lia|]); (split; [reflexivity|]);
    (split; [repeat constructor; cbn; unfold in_bytes; cbn; lia|]); (split; [repeat constructor|]); (split; [repeat constructor|]);
    unfold in_bytes; vm_compute; split; congruence.
Qed.

Lemma triangles_bytes : bytes_ok triangles_shp.
Proof.
  assert (E : forallb (fun z => (0 <=? z) && (z <? 256)) triangles_shp = true) by (vm_compute; reflexivity).
  apply Forall_forall. intros z Hz. rewrite forallb_forall in E. apply E, andb_true_iff in Hz. unfold is_byte. lia.
Qed.

Example C75_case : leaves_suffix forget /\ bytes_ok triangles_shp /\ is_shp unit_box two_triangles triangles_shp /\
  is_dbf ascii sample_fs (repeat sample_rec 2) (dbf_of 2) /\
  Forall (fun rec => item_fits (quantize (quantizer_new unit_box)) (Some (ROk rec))) (paired two_triangles (repeat sample_rec 2)) /\
  exists t, import Debug forget forget ascii (Some triangles_shp) (Some (dbf_of 2)) = Ok (ROk (t, 2%nat)) /\
    read_topology t =
    [ Shape sample_rec [[Some [Pt 0 0; Pt 4194303 0]; Some [Pt 4194303 0; Pt 4194303 4294967]; Some [Pt 4194303 4294967; Pt 0 0]]] [];
      Shape sample_rec [[Some [Pt 0 0; Pt 4194303 4294967]; Some [Pt 4194303 4294967; Pt 0 4294967]; Some [Pt 0 4294967; Pt 0 0]]] [] ] /\
    describe t = Description 2 2 0 5 1 4 10.
Proof.
  split; [intros s n; exists s; symmetry; apply app_nil_r|].
  split; [exact triangles_bytes|].
  split; [exact triangles_is_shp|].
  split; [apply dbf_of_is_dbf; lia|]. split.
  { change (paired two_triangles (repeat sample_rec 2)) with [SfRecord (triangle_rings 0) sample_rec; SfRecord (triangle_rings 1) sample_rec].
    constructor; [|constructor; [|constructor]]; unfold item_fits; cbn [sfr_rings]; [rewrite triangle_0|rewrite triangle_1];
      repeat (constructor; [repeat (constructor; [vm_compute; split; congruence|]); constructor|]); constructor. }
  eexists. split; [vm_compute; reflexivity|]. split; vm_compute; reflexivity.
Qed.

(** ** C76: the printed counts *)

(** Every printed number is what its label says. *)
Theorem C76_counts : forall D (t : topology D),
  let d := describe t in
  d_regions d = length (tp_regions t) /\
  d_outer d = list_sum (map (fun rg => length (tg_outer rg)) (tp_regions t)) /\
  d_inner d = list_sum (map (fun rg => length (tg_inner rg)) (tp_regions t)) /\
  d_edges d = length (tp_edges t) /\
  d_shared d = length (filter is_shared (tp_edges t)) /\
  (d_shared d + d_lone d = d_edges d)%nat /\
  d_points d = list_sum (map (fun e => length (te_points e)) (tp_edges t)).
Proof.
  intros D t. cbv zeta. rewrite describe_eq. cbn [d_regions d_outer d_inner d_edges d_shared d_lone d_points].
  repeat (split; [reflexivity|]). split; [|reflexivity].
  induction (tp_edges t) as [|e es IH]; [reflexivity|]. cbn [filter length]. destruct (is_shared e); cbn [negb filter length]; lia.
Qed.
Print Assumptions C76_counts.

(** Lone edges, plus shared edges counted twice, are all the edges of all rings. *)
Theorem C76_uses : forall D (t : topology D), exact_references t -> all_used t ->
  (d_lone (describe t) + 2 * d_shared (describe t) = total_uses t)%nat.
Proof.
  intros D t X U. rewrite describe_eq. cbn [d_shared d_lone]. rewrite (count_uses t X).
  assert (E : filter is_unused (tp_edges t) = []).
  { clear X. unfold all_used in U. induction (tp_edges t) as [|e es IH]; [reflexivity|]. cbn [filter].
    pose proof (U e (or_introl eq_refl)) as Ue. unfold is_unused at 1. destruct (te_ring0 e); [|congruence]. apply IH. intros x Hx. apply U. right. assumption. }
  rewrite E. cbn. lia.
Qed.
Print Assumptions C76_uses.

(** In general, edges that no ring uses are counted as lone edges. *)
Theorem C76_unused : forall D (t : topology D), exact_references t ->
  (d_lone (describe t) + 2 * d_shared (describe t) = total_uses t + length (filter is_unused (tp_edges t)))%nat.
Proof. intros D t X. rewrite describe_eq. exact (count_uses t X). Qed.
Print Assumptions C76_unused.

Theorem C76_built : forall D m (rs : list (region D)) t, build_topology m rs = Ok t -> exact_references t /\ all_used t.
Proof.
  intros D m rs t H. pose proof (build_topology_ok m rs t H) as (b & _ & _ & Hx & _). split; [exact Hx|].
  intros e He. apply In_nth_error in He as [i Hi]. pose proof (build_used m rs t H i e Hi) as Hu.
  destruct Hx as (_ & _ & Hx). destruct (Hx i e Hi) as (_ & -> & _).
  destruct (users i (uses (tp_regions t))); [contradiction|discriminate].
Qed.
Print Assumptions C76_built.

Theorem C76_normalized : forall D m (t t' : topology D), normalize m t = Ok t' -> exact_references t' /\ all_used t'.
Proof. intros D m t t' H. apply normalize_Ok in H as (gs & _ & B). exact (C76_built D m gs t' B). Qed.
Print Assumptions C76_normalized.

Example C76_case : describe (built frame) = Description 2 2 1 8 4 4 16 /\ total_uses (built frame) = 12%nat /\
  describe (normalized (built frame)) = Description 2 2 1 2 1 1 10 /\ total_uses (normalized (built frame)) = 3%nat.
Proof. vm_compute. auto. Qed.

(** ** C77: the programs end *)

(** [PFuel] would mean that the model ran out of iterations: reading as many bytes as the .shp file
    has is enough.  The panics are those of the parts: an index out of bounds in a record, an edge
    used more than twice, an overflow in a debug build, or a huge allocation in a release build. *)
Theorem C77_import : forall m afs afd enc shp dbf p, bytes_opt shp -> bytes_opt dbf ->
  import m afs afd enc shp dbf = Panic p ->
  p = PIndex \/ p = PAssert \/ (m = Debug /\ p = POverflow) \/ (m = Release /\ p = PCapacity).
Proof. exact import_panic. Qed.
Print Assumptions C77_import.

(** [cat-shp] prints the records before the first error, the first record whose reading panics, or
    the first record that cannot be shown; the cases of [listing] say how the program ends. *)
Theorem C77_cat : forall v m afs afd enc shp dbf lines fin, bytes_opt shp -> cat_shp v m afs afd enc shp dbf = (lines, fin) ->
  (exists p, sf_open m afs afd enc shp dbf = Panic p /\ lines = [] /\ fin = Crashed p) \/
  (exists e, sf_open m afs afd enc shp dbf = Ok (RErr e) /\ lines = [] /\ fin = Exited 1 [show_sf_error v e]) \/
  (exists r, sf_open m afs afd enc shp dbf = Ok (ROk r) /\ listing v (sf_dbf_fields r) (sf_next afs afd) r lines fin).
Proof.
  intros v m afs afd enc shp dbf lines fin Hb. unfold cat_shp. destruct (sf_open m afs afd enc shp dbf) as [[r|e]|p] eqn:EO.
  - pose proof (cat_loop_listing v afs afd (sf_dbf_fields r) r (open_bytes m afs afd enc shp dbf r Hb EO)) as H. cbv zeta in H.
    intros E. rewrite E in H. eauto.
  - intros [= <- <-]. eauto 6.
  - intros [= <- <-]. eauto 6.
Qed.
Print Assumptions C77_cat.

(** A record cannot be shown exactly if reading one of its fields panics, and the fields before
    that one can be read. *)
Theorem C77_show : forall v fs rec p, show_sf_record v fs rec = Panic p <->
  exists before f after vs, fs = before ++ f :: after /\ Forall2 (fun f v => read_string f (sfr_data rec) = Ok (ROk v)) before vs /\
    read_string f (sfr_data rec) = Panic p.
Proof. exact show_panic_iff. Qed.
Print Assumptions C77_show.

(** The fuel of the model is never used up. *)
Theorem C77_cat_panic : forall v m afs afd enc shp dbf lines p, bytes_opt shp -> bytes_opt dbf ->
  cat_shp v m afs afd enc shp dbf = (lines, Crashed p) ->
  p = PIndex \/ p = PUnimplemented \/ (m = Debug /\ p = POverflow) \/ (m = Release /\ p = PCapacity).
Proof. exact cat_panic. Qed.
Print Assumptions C77_cat_panic.

Definition plain : texts := Texts [] [] [] (fun b => if b =? 0 then str "0" else str "?").
Example C77_case : bytes_opt (Some triangles_shp) /\
  cat_shp plain Debug forget forget ascii (Some triangles_shp) (Some (dbf_of 1)) =
    ([str "ShapefileRecord({foo:ba; n:-1.5; l:258}; rings: [(0,?),(?,?),(?,?),(0,?)])"],
     Exited 1 [str "Error during read: Parse error: '.shp' file has more records than '.dbf' record"]).
Proof. split; [exact triangles_bytes|vm_compute; reflexivity]. Qed.

(** ** C86: listing a well-formed shapefile *)

(** A .dbf file with a date field: the first record cannot be shown. *)
Definition date_dbf : list Z := dbf_prefix 3 116 12 31 2 9 (repeat 0 20) [sample_desc [100] 68 8] [13] ++
  concat (repeat (32 :: str "20161231") 2) ++ [26].
Theorem C86_list_refuted : exists b shapes fs datas s d, bytes_ok s /\ bytes_ok d /\ is_shp b shapes s /\ is_dbf ascii fs datas d /\
  length shapes = length datas /\ shapes <> [] /\
  forall v m afs afd, cat_shp v m afs afd ascii (Some s) (Some d) = ([], Crashed PUnimplemented).
Proof.
  exists unit_box, two_triangles, [DField [100] DTDate 1 8], (repeat (32 :: str "20161231") 2), triangles_shp, date_dbf.
  split; [exact triangles_bytes|]. split.
  { assert (E : forallb (fun z => (0 <=? z) && (z <? 256)) date_dbf = true) by (vm_compute; reflexivity).
    apply Forall_forall. intros z Hz. rewrite forallb_forall in E. apply E, andb_true_iff in Hz. unfold is_byte. lia. }
  split; [exact triangles_is_shp|]. split.
  { exists 3, 116, 12, 31, 9, (repeat 0 20), [sample_desc [100] 68 8], [13], [26].
    split; [unfold dbf_header_fields, in_bytes; cbn [length repeat]; repeat split; cbn; lia|].
    split; [constructor; [|constructor]; split; [reflexivity|]; split; [intros [X|[]]; discriminate|]; split; [right; eexists; reflexivity|]; repeat split; cbn; lia|].
    split; [cbn; lia|]. split; [lia|]. split; [lia|]. split; [|split; [repeat constructor|reflexivity]].
    repeat split; try reflexivity; unfold type_of_code; cbn; tauto. }
  split; [reflexivity|]. split; [discriminate|]. intros v [] afs afd; vm_compute; reflexivity.
Qed.
Print Assumptions C86_list_refuted.

(** If the fields are characters, numbers and four-byte integers inside the records, then the
    program prints a line for every pair of records and ends well, or with the error about the
    lengths of the files. *)
Theorem C86_list_partial : forall v m afs afd enc b shapes fs datas (s d : stream), leaves_suffix afd -> bytes_ok s ->
  is_shp b shapes s -> is_dbf enc fs datas d -> Forall (fun data => Forall (fun f => printable f data) fs) datas ->
  exists lines, shown v fs (paired shapes datas) lines /\
    cat_shp v m afs afd enc (Some s) (Some d) =
      match length_check shapes datas with
      | None => (lines ++ [str "Read " ++ decimal (Z.of_nat (length shapes)) ++ str " records"], Exited 0 [])
      | Some e => (lines, Exited 1 [str "Error during read: " ++ show_sf_error v e])
      end.
Proof.
  intros v m afs afd enc b shapes fs datas s d Ha Hb Hs Hd HP. destruct (shown_all v fs (paired shapes datas)) as (lines & HL).
  - apply Forall_forall. intros rec Hr. unfold paired in Hr. apply in_map_iff in Hr as ((x & y) & <- & Hr). apply in_combine_r in Hr.
    rewrite Forall_forall in HP. exact (HP y Hr).
  - exists lines. split; [exact HL|]. exact (cat_file v m afs afd enc b shapes fs datas s d lines Ha Hb Hs Hd HL).
Qed.
Print Assumptions C86_list_partial.

Example C86_case : Forall (fun f => printable f sample_rec) sample_fs /\
  let line p := str "ShapefileRecord({foo:ba; n:-1.5; l:258}; rings: " ++ p ++ str ")" in
  cat_shp plain Release forget forget ascii (Some triangles_shp) (Some (dbf_of 2)) =
    ([line (str "[(0,?),(?,?),(?,?),(0,?)]"); line (str "[(0,?),(?,?),(0,?),(0,?)]"); str "Read 2 records"], Exited 0 []).
Proof.
  split; [|vm_compute; reflexivity]. unfold printable, readable, sample_fs.
  repeat (constructor; [split; [first [left; eexists; reflexivity|right; left; reflexivity|right; right; reflexivity]|split; [cbn; lia|first [discriminate|cbn; lia]]]|]). constructor.
Qed.
