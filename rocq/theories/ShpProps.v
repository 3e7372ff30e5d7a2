(** * ShpProps: C45-C50, the .shp reader *)
From Verif Require Import ShpSpec TopoProofs BytesProofs ShpProofs ShpLaws.

(** Two rings: four and five points. *)
Definition sample_rings : list (list shp_point) :=
  [[SP 1 2; SP 3 4; SP 5 6; SP 1 2]; [SP 7 8; SP 9 10; SP 11 12; SP 13 (2 ^ 64 - 1); SP 7 8]].
Definition zero_box : list Z := repeat 0 32.
Definition drop_all : after_fail := fun _ _ => [].
Definition keep_all : after_fail := fun s _ => s.

Lemma sample_ok rn : in_bytes 4 rn -> record_ok rn zero_box sample_rings.
Proof.
  intros H. unfold record_ok. split; [exact H|]. split; [reflexivity|].
  split; [repeat constructor; cbn; unfold in_bytes; cbn; lia|]. split; [repeat constructor|]. split; [repeat constructor|].
  unfold in_bytes. vm_compute. split; congruence.
Qed.

(** ** C45: polygon records round-trip *)
Theorem C45_roundtrip : forall af rn box rings rest,
  record_ok rn box rings ->
  read_polygon_record af (record_bytes rn box rings ++ rest) =
  Ok (ROk (SRecord rn rings, Z.of_nat (length (record_bytes rn box rings))), rest).
Proof. exact record_read. Qed.
Print Assumptions C45_roundtrip.

Example C45_case : record_ok 7 zero_box sample_rings /\
  read_polygon_record drop_all (record_bytes 7 zero_box sample_rings ++ [99]) = Ok (ROk (SRecord 7 sample_rings, 204), [99]).
Proof. split; [apply sample_ok; unfold in_bytes; cbn; lia|vm_compute; reflexivity]. Qed.

(** ** C46: the header *)
Theorem C46_accept : forall m af s r, bytes_ok s ->
  shp_reader_new m af s = Ok (ROk r) <->
  exists unused len x0 y0 x1 y1 zm rest,
    header_fields 9994 unused len 1000 5 x0 y0 x1 y1 zm /\
    s = header_bytes 9994 unused len 1000 5 x0 y0 x1 y1 zm ++ rest /\
    (m = Debug -> len < 2 ^ 31) /\
    r = ShpReader rest 100 (SHeader ((2 * len) mod 2 ^ 32) STPolygon (SBBox x0 y0 x1 y1)).
Proof. exact new_accept. Qed.
Print Assumptions C46_accept.

Theorem C46_errors : forall m af magic unused len version ty x0 y0 x1 y1 zm rest,
  header_fields magic unused len version ty x0 y0 x1 y1 zm ->
  let new := shp_reader_new m af (header_bytes magic unused len version ty x0 y0 x1 y1 zm ++ rest) in
  (magic <> 9994 -> new = Ok (RErr (SEMagic magic))) /\
  (magic = 9994 -> version <> 1000 -> new = Ok (RErr (SEVersion version))) /\
  (magic = 9994 -> version = 1000 -> forall t, In (ty, t) type_codes -> t <> STPolygon -> new = Ok (RErr (SEUnsupported t))) /\
  (magic = 9994 -> version = 1000 -> (forall t, ~ In (ty, t) type_codes) -> new = Ok (RErr (SENoType ty))).
Proof. exact new_errors. Qed.
Print Assumptions C46_errors.

(** These are all cases: 100 bytes always have this form, fewer give an I/O error. *)
Theorem C46_form : forall s, bytes_ok s -> (100 <= length s)%nat ->
  exists magic unused len version ty x0 y0 x1 y1 zm rest,
    header_fields magic unused len version ty x0 y0 x1 y1 zm /\
    s = header_bytes magic unused len version ty x0 y0 x1 y1 zm ++ rest.
Proof. exact header_form. Qed.
Print Assumptions C46_form.

Theorem C46_short : forall m af s, (length s < 100)%nat -> shp_reader_new m af s = Ok (RErr SEIo).
Proof. exact new_short. Qed.
Print Assumptions C46_short.

Definition sample_header (magic len version ty : Z) : list Z :=
  header_bytes magic (repeat 0 20) len version ty 1 2 3 4 (repeat 0 32).
Example C46_case :
  shp_reader_new Debug drop_all (sample_header 9994 110 1000 5 ++ [1; 2]) =
    Ok (ROk (ShpReader [1; 2] 100 (SHeader 220 STPolygon (SBBox 1 2 3 4)))) /\
  shp_reader_new Debug drop_all (sample_header 9995 110 1000 5) = Ok (RErr (SEMagic 9995)) /\
  shp_reader_new Debug drop_all (sample_header 9994 110 1001 5) = Ok (RErr (SEVersion 1001)) /\
  shp_reader_new Debug drop_all (sample_header 9994 110 1000 15) = Ok (RErr (SEUnsupported STPolygonZ)) /\
  shp_reader_new Debug drop_all (sample_header 9994 110 1000 4) = Ok (RErr (SENoType 4)).
Proof. vm_compute. auto. Qed.

(** ** C47: whole files *)
Theorem C47_file : forall m af unused x0 y0 x1 y1 zm rs junk k,
  header_fields 9994 unused (file_size rs / 2) 1000 5 x0 y0 x1 y1 zm ->
  Forall fr_ok rs -> file_size rs < 2 ^ 32 ->
  exists r,
    shp_reader_new m af (header_bytes 9994 unused (file_size rs / 2) 1000 5 x0 y0 x1 y1 zm ++ concat (map fr_bytes rs) ++ junk) = Ok (ROk r) /\
    sh_bytes (shr_header r) = file_size rs /\ sh_bbox (shr_header r) = SBBox x0 y0 x1 y1 /\
    calls (shp_next af) (length rs + k) r = Ok (map (fun f => Some (ROk (fr_record f))) rs ++ repeat None k).
Proof. exact file_read. Qed.
Print Assumptions C47_file.

Definition sample_file : list file_record := [FR 1 zero_box sample_rings; FR 2 zero_box [[SP 0 0; SP 0 1; SP 1 1; SP 0 0]]].
Example C47_case : Forall fr_ok sample_file /\ file_size sample_file = 424.
Proof.
  split; [|vm_compute; reflexivity]. constructor; [apply sample_ok; unfold in_bytes; cbn; lia|]. constructor; [|constructor].
  split; [unfold in_bytes; cbn; lia|]. split; [reflexivity|]. split; [repeat constructor; cbn; unfold in_bytes; cbn; lia|].
  split; [repeat constructor|]. split; [repeat constructor|]. unfold in_bytes. vm_compute. split; congruence.
Qed.

(** ** C48: accepted records are internally consistent, and exactly these are accepted *)
Theorem C48_accept : forall buf rn rec, bytes_ok buf ->
  parse_polygon_record buf rn = Ok (ROk rec) <->
  exists box starts points,
    polygon_fields box starts points /\ buf = polygon_bytes box starts points /\
    starts_ok (Z.of_nat (length points)) starts /\
    rec = SRecord rn (slices starts (Z.of_nat (length points)) points).
Proof. exact parse_accept. Qed.
Print Assumptions C48_accept.

Theorem C48_sizes : forall buf rn rec, bytes_ok buf -> parse_polygon_record buf rn = Ok (ROk rec) ->
  sr_number rec = rn /\ sr_rings rec <> [] /\
  Forall (fun r => 3 <= length r)%nat (sr_rings rec) /\ (4 <= length (last (sr_rings rec) []))%nat /\
  44 + 4 * Z.of_nat (length (sr_rings rec)) + 16 * Z.of_nat (length (concat (sr_rings rec))) <= Z.of_nat (length buf).
Proof. exact parse_sizes. Qed.
Print Assumptions C48_sizes.

(** A first ring of three points is accepted; points before the first ring are ignored. *)
Example C48_case :
  parse_polygon_record (polygon_bytes zero_box [1; 4] [SP 0 0; SP 1 1; SP 2 2; SP 3 3; SP 4 4; SP 5 5; SP 6 6; SP 7 7]) 1 =
  Ok (ROk (SRecord 1 [[SP 1 1; SP 2 2; SP 3 3]; [SP 4 4; SP 5 5; SP 6 6; SP 7 7]])).
Proof. vm_compute. reflexivity. Qed.

(** ** C49: panics on malformed input *)

(** The claim is false: a record of two bytes, or a length field of 2^31. *)
Theorem C49_panic_refuted :
  (exists s r, bytes_ok s /\ (forall m af, shp_reader_new m af s = Ok (ROk r) /\ shp_next af r = Panic PIndex)) /\
  (exists s, bytes_ok s /\ forall af, shp_reader_new Debug af s = Panic POverflow).
Proof.
  split.
  - exists (sample_header 9994 55 1000 5 ++ be_bytes 4 1 ++ be_bytes 4 1 ++ [5; 0]), (ShpReader (be_bytes 4 1 ++ be_bytes 4 1 ++ [5; 0]) 100 (SHeader 110 STPolygon (SBBox 1 2 3 4))).
    split; [|intros [] af; vm_compute; auto]. repeat (constructor; [vm_compute; split; congruence|]). constructor.
  - exists (sample_header 9994 (2 ^ 31) 1000 5). split; [|intros af; vm_compute; reflexivity].
    repeat (constructor; [vm_compute; split; congruence|]). constructor.
Qed.
Print Assumptions C49_panic_refuted.

(** These are the only panics. *)
Theorem C49_new_partial : forall m af s p, bytes_ok s ->
  shp_reader_new m af s = Panic p <->
  m = Debug /\ p = POverflow /\
  exists unused len x0 y0 x1 y1 zm rest,
    header_fields 9994 unused len 1000 5 x0 y0 x1 y1 zm /\
    s = header_bytes 9994 unused len 1000 5 x0 y0 x1 y1 zm ++ rest /\ 2 ^ 31 <= len.
Proof. exact new_panic. Qed.
Print Assumptions C49_new_partial.

Theorem C49_next_partial : forall af r p, bytes_ok (shr_file r) ->
  shp_next af r = Panic p <->
  p = PIndex /\ shr_read r < sh_bytes (shr_header r) /\
  exists rn words c rest,
    shr_file r = be_bytes 4 rn ++ be_bytes 4 words ++ c ++ rest /\ in_bytes 4 rn /\ in_bytes 4 words /\
    Z.of_nat (length c) = words * 2 /\ short_content c.
Proof. exact next_panic. Qed.
Print Assumptions C49_next_partial.

(** Non-vacuity: the second reader of a file with a wrong point count does not panic. *)
Example C49_case : shp_next drop_all (ShpReader (be_bytes 4 1 ++ be_bytes 4 24 ++ content 5 zero_box 1 9 [0; 0; 0; 0]) 100 (SHeader 200 STPolygon (SBBox 1 2 3 4))) =
  Ok (Some (RErr (SELength 1 192 1 9 48)), ShpReader [] 100 (SHeader 200 STPolygon (SBBox 1 2 3 4))).
Proof. vm_compute. reflexivity. Qed.

(** ** C50: iterating ends *)

(** The claim is false: a file shorter than its header says gives errors forever. *)
Theorem C50_ends_refuted : exists s, bytes_ok s /\ forall m af, leaves_suffix af ->
  exists r, shp_reader_new m af s = Ok (ROk r) /\ forall k, calls (shp_next af) k r = Ok (repeat (Some (RErr SEIo)) k).
Proof.
  exists (sample_header 9994 110 1000 5). split; [repeat (constructor; [vm_compute; split; congruence|]); constructor|].
  intros m af Ha. exists (ShpReader [] 100 (SHeader 220 STPolygon (SBBox 1 2 3 4))). split; [destruct m; vm_compute; reflexivity|].
  intros k. apply stuck; [exact Ha|constructor|cbn; lia|cbn; lia].
Qed.
Print Assumptions C50_ends_refuted.

(** What holds: after at most [length/8 + 1] calls, every further call gives [None], or
    every further call gives an I/O error, or a call panicked. *)
Theorem C50_settles_partial : forall af r, leaves_suffix af -> bytes_ok (shr_file r) ->
  exists k, (8 * k <= length (shr_file r) + 8)%nat /\
    ((exists p, calls (shp_next af) k r = Panic p) \/
     exists items x, (x = None \/ x = Some (RErr SEIo)) /\ length items = k /\
       forall j, calls (shp_next af) (k + j) r = Ok (items ++ repeat x j)).
Proof. exact settles. Qed.
Print Assumptions C50_settles_partial.

(** The number of records is bounded by the length in the header. *)
Theorem C50_records_partial : forall af r k items, leaves_suffix af -> bytes_ok (shr_file r) ->
  calls (shp_next af) k r = Ok items ->
  120 * Z.of_nat (length (filter is_record items)) <= Z.max 0 (sh_bytes (shr_header r) - shr_read r).
Proof. exact record_bound. Qed.
Print Assumptions C50_records_partial.

Example C50_case : leaves_suffix drop_all /\ leaves_suffix keep_all /\
  calls (shp_next drop_all) 5 (ShpReader (concat (map fr_bytes sample_file)) 100 (SHeader 424 STPolygon (SBBox 1 2 3 4))) =
  Ok [Some (ROk (SRecord 1 sample_rings)); Some (ROk (SRecord 2 [[SP 0 0; SP 0 1; SP 1 1; SP 0 0]])); None; None; None].
Proof.
  split; [intros s n; exists s; symmetry; apply app_nil_r|]. split; [intros s n; exists []; reflexivity|]. vm_compute. reflexivity.
Qed.
