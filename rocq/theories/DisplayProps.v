(** * DisplayProps: C84-C85, what is printed *)
From Verif Require Import PipelineProofs DisplaySpec DisplayProofs DisplayLaws.

(** ** C84: printed geometry can be read back *)

(** Numbers are decimal numerals without leading zeros. *)
Theorem C84_number : forall n, is_usize n -> is_numeral n (decimal n).
Proof. exact decimal_ok. Qed.
Print Assumptions C84_number.

(** The format of points, edges, rings and regions. *)
Theorem C84_format : forall p e r D (rg : region D), wf_point p -> wf_points e -> wf_ring r -> Forall wf_ring (rg_outer rg ++ rg_inner rg) ->
  point_text p (show_point p) /\ edge_text e (show_edge e) /\ ring_text r (show_ring r) /\ region_text rg (show_region rg).
Proof.
  intros p e r D rg Hp He Hr Hg. split; [apply point_shown, Hp|]. split; [apply edge_shown, He|]. split; [apply ring_shown, Hr|apply region_shown, Hg].
Qed.
Print Assumptions C84_format.

Theorem C84_point : forall p q, wf_point p -> wf_point q -> show_point p = show_point q <-> p = q.
Proof.
  intros p q Hp Hq. split; [|congruence]. intros E. apply (point_split p q [] []); [assumption|assumption|]. rewrite !app_nil_r. exact E.
Qed.
Print Assumptions C84_point.

Theorem C84_edge : forall a b, wf_points a -> wf_points b -> show_edge a = show_edge b <-> a = b.
Proof.
  intros a b Ha Hb. split; [|congruence]. intros E. apply (edge_split a b [] []); [assumption|assumption|]. rewrite !app_nil_r. exact E.
Qed.
Print Assumptions C84_edge.

(** Two rings are printed alike only if they are equal, or both are empty. *)
Theorem C84_ring : forall a b, wf_ring a -> wf_ring b -> show_ring a = show_ring b <-> looks_alike a b.
Proof.
  intros a b Ha Hb. split; [|apply alike_show]. intros E. apply (ring_split a b [] []); [assumption|assumption|]. rewrite !app_nil_r. exact E.
Qed.
Print Assumptions C84_ring.

(** A printed region shows its rings, and which of them are outer rings; but not its data. *)
Theorem C84_region : forall D D' (a : region D) (b : region D'),
  Forall wf_ring (rg_outer a ++ rg_inner a) -> Forall wf_ring (rg_outer b ++ rg_inner b) ->
  show_region a = show_region b <-> Forall2 looks_alike (rg_outer a) (rg_outer b) /\ Forall2 looks_alike (rg_inner a) (rg_inner b).
Proof.
  intros D D' a b Ha Hb. split; [apply region_split; assumption|]. intros [H1 H2]. unfold show_region.
  rewrite (alike_rings _ _ H1), (alike_rings _ _ H2). reflexivity.
Qed.
Print Assumptions C84_region.

Example C84_case :
  let a := Region tt [RPoints [Pt 1 2; Pt 30 4; Pt 5 4294967295; Pt 1 2]; REdges [[Pt 0 0; Pt 9 0]; [Pt 9 0; Pt 0 0]]] [RPoints []] in
  Forall wf_ring (rg_outer a ++ rg_inner a) /\
  show_region a = str "Region([data], outer:[[(1,2),(30,4),(5,4294967295),(1,2)], [Edge((0,0),(9,0)),Edge((9,0),(0,0))]], inner:[[]])" /\
  show_ring (RPoints []) = show_ring (REdges []).
Proof.
  split; [repeat constructor; cbn; lia|]. split; vm_compute; reflexivity.
Qed.

(** ** C85: error messages tell errors apart *)

(** Errors with a message of this crate are equal if their messages are. *)
Theorem C85_messages : forall v e e', own_message e -> own_message e' ->
  Forall is_usize (error_values e) -> Forall is_usize (error_values e') ->
  show_sf_error v e = show_sf_error v e' -> e = e'.
Proof. exact sf_message_inj. Qed.
Print Assumptions C85_messages.

(** The values of the errors that come from opening and reading files fit a [usize]. *)
Theorem C85_open : forall m afs afd enc shp dbf e, bytes_opt shp -> sf_open m afs afd enc shp dbf = Ok (RErr e) ->
  Forall is_usize (error_values e).
Proof. exact open_values. Qed.
Print Assumptions C85_open.

Theorem C85_read : forall m afs afd enc shp dbf r n items e, bytes_opt shp -> leaves_suffix afs ->
  sf_open m afs afd enc shp dbf = Ok (ROk r) -> calls (sf_next afs afd) n r = Ok items -> In (Some (RErr e)) items ->
  Forall is_usize (error_values e).
Proof.
  intros m afs afd enc shp dbf r n items e Hb Ha EO EC HI.
  exact (sf_calls_values afs afd e Ha n r items (open_reads m afs afd enc shp dbf r Hb EO) EC HI).
Qed.
Print Assumptions C85_read.

Example C85_case : forall v,
  let e := SFShp (SELength 7 80 1 2 90) in
  own_message e /\ Forall is_usize (error_values e) /\
  show_sf_error v e = str "Parse error: Record number 7 needs 80 bytes (it has 1 parts and 2 points), but the record header says it has 90 bytes" /\
  show_sf_error v (SFShp (SEUnsupported STPolyLineM)) = str "Parse error: File has unsupported type: found PolyLineM, expected Polygon".
Proof.
  intros v. split; [exact I|]. split; [cbn [error_values shp_values]; repeat constructor; unfold is_usize; lia|]. split; vm_compute; reflexivity.
Qed.

(** ** C65: printed records *)

(** The whole text of a record, also if a field cannot be read. *)
Theorem C65_printed : forall v fs rec s, show_sf_record v fs rec = Ok s -> record_text v fs rec s.
Proof. exact record_shown. Qed.
Print Assumptions C65_printed.

(** A record whose number is no number. *)
Example C65_printed_case : forall v,
  show_sf_record v [DField (str "a") (DTCharacter (fun bs => Some bs)) 1 2; DField (str "n") DTNumeric 3 1] (SfRecord [] (32 :: str "xy7")) =
    Ok (str "ShapefileRecord({a:xy; n:7}; rings: )") /\
  show_sf_record v [DField (str "a") (DTCharacter (fun bs => Some bs)) 1 2; DField (str "n") DTNumeric 3 1] (SfRecord [] (32 :: str "xyz")) =
    Ok (str "ShapefileRecord({Invalid DBF record: ParseError(""Bytes in numeric record do not represent a number"")}; rings: )").
Proof. intros v. split; vm_compute; reflexivity. Qed.
