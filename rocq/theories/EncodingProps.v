(** * EncodingProps: C89-C93, paths, encodings and the command line *)
From Verif Require Import EncodingProofs PipelineProofs ProgramProofs ShpProps DbfProps SfProps PipelineProps ProgramProps.

(** ** C89: the .dbf file beside the .shp file *)

(** The extension, from the last dot on, is replaced. *)
Theorem C89_sibling : forall dir base ext, directory dir -> base <> [] -> no_slash base -> no_slash ext -> no_dot ext ->
  base ++ str "." ++ ext <> str ".." ->
  set_extension (dir ++ base ++ str "." ++ ext) (str "dbf") = dir ++ base ++ str ".dbf".
Proof.
  intros dir base ext HD HB S1 S2 HE HN. change (str ".") with [46] in *. unfold set_extension.
  rewrite split_name; [rewrite stem_ext by assumption; reflexivity|exact HD|]. split; [|split; [|split]].
  - intros H. apply in_app_iff in H as [H|H]; [exact (S1 H)|]. cbn [app In] in H. destruct H as [H|H]; [discriminate|exact (S2 H)].
  - destruct base; discriminate.
  - destruct base as [|b [|c t]]; [congruence|discriminate|discriminate].
  - exact HN.
Qed.
Print Assumptions C89_sibling.

(** A name without extension (a dot at its start does not count) gets one. *)
Theorem C89_plain : forall dir n, directory dir -> file_name n -> no_dot (tl n) ->
  set_extension (dir ++ n) (str "dbf") = dir ++ n ++ str ".dbf".
Proof. intros dir n HD HN H. unfold set_extension. rewrite split_name by assumption. rewrite stem_plain by exact H. reflexivity. Qed.
Print Assumptions C89_plain.

(** Every path either stays as it is, or becomes the path of a .dbf file in the same directory. *)
Theorem C89_shape : forall p,
  set_extension p (str "dbf") = p \/
  exists dir base rest, directory dir /\ base <> [] /\ no_slash base /\ p = dir ++ base ++ rest /\
    set_extension p (str "dbf") = dir ++ base ++ str ".dbf".
Proof.
  intros p. unfold set_extension. destruct (split_file_name p) as [[dir n]|] eqn:E; [|left; reflexivity]. right.
  apply split_parts in E as (HD & (HS & N1 & _) & rest & ->). destruct (stem_cases n N1) as (HB & HS').
  exists dir, (file_stem n). destruct (name_cases n) as [H|(base & ext & B1 & B2 & ->)].
  - rewrite (stem_plain n H). exists rest. auto.
  - rewrite stem_ext by assumption. exists ([46] ++ ext ++ rest). split; [exact HD|]. split; [exact B1|]. split.
    + rewrite stem_ext in HS' by assumption. apply HS', HS.
    + split; [rewrite <- !app_assoc; reflexivity|reflexivity].
Qed.
Print Assumptions C89_shape.

Theorem C89_idempotent : forall p, let q := set_extension p (str "dbf") in set_extension q (str "dbf") = q.
Proof.
  intros p q. destruct (C89_shape p) as [H|(dir & base & rest & HD & HB & HS & -> & H)]; fold q in H; [unfold q at 2; rewrite <- H at 1; fold q; rewrite H; reflexivity|].
  rewrite H. apply (C89_sibling dir base (str "dbf")); try assumption.
  - intros HI. vm_compute in HI. intuition discriminate.
  - intros HI. vm_compute in HI. intuition discriminate.
  - intros E. apply (f_equal (@length Z)) in E. rewrite !app_length in E. change (length (str "dbf")) with 3%nat in E.
    change (length (str "..")) with 2%nat in E. lia.
Qed.
Print Assumptions C89_idempotent.

(** Opening reads these two files and no other. *)
Theorem C89_open : forall m afs afd fs dir base enc, directory dir -> base <> [] -> no_slash base ->
  open_path m afs afd fs (dir ++ base ++ str ".shp") enc =
  sf_open m afs afd enc (fs (dir ++ base ++ str ".shp")) (fs (dir ++ base ++ str ".dbf")).
Proof.
  intros m afs afd fs dir base enc HD HB HS. unfold open_path. f_equal. f_equal. apply (C89_sibling dir base (str "shp")); try assumption.
  - intros HI. vm_compute in HI. intuition discriminate.
  - intros HI. vm_compute in HI. intuition discriminate.
  - intros E. apply (f_equal (@length Z)) in E. rewrite !app_length in E. change (length (str "shp")) with 3%nat in E.
    change (length (str "..")) with 2%nat in E. lia.
Qed.
Print Assumptions C89_open.

Theorem C89_files : forall m afs afd fs fs' path enc,
  fs path = fs' path -> fs (set_extension path (str "dbf")) = fs' (set_extension path (str "dbf")) ->
  open_path m afs afd fs path enc = open_path m afs afd fs' path enc.
Proof. intros m afs afd fs fs' path enc H1 H2. unfold open_path. rewrite H1, H2. reflexivity. Qed.
Print Assumptions C89_files.

Fixpoint files (l : list (list Z * stream)) : file_system :=
  fun p => match l with [] => None | (q, s) :: t => if text_eqb q p then Some s else files t p end.
(** An upper-case name needs a .dbf file with a lower-case extension. *)
Example C89_case :
  directory (str "/data/") /\ no_slash (str "a.b") /\
  set_extension (str "/data/a.b.shp") (str "dbf") = str "/data/a.b.dbf" /\
  set_extension (str ".shp") (str "dbf") = str ".shp.dbf" /\ set_extension (str "x/..") (str "dbf") = str "x/.." /\
  set_extension (str "a.shp/") (str "dbf") = str "a.dbf" /\
  (exists r, open_windows1252 Debug forget forget (files [(str "A/B.shp", triangles_shp); (str "A/B.dbf", dbf_of 2)]) (str "A/B.shp") = Ok (ROk r)) /\
  open_windows1252 Debug forget forget (files [(str "A/B.SHP", triangles_shp); (str "A/B.DBF", dbf_of 2)]) (str "A/B.SHP") = Ok (RErr (SFDbf DEIo)).
Proof.
  split; [right; exists (str "/data"); reflexivity|]. split; [intros H; vm_compute in H; intuition discriminate|].
  do 4 (split; [vm_compute; reflexivity|]). split; [eexists|]; vm_compute; reflexivity.
Qed.

(** ** C90: the decoders *)

Theorem C90_ascii : forall bs s, decode_ascii bs = Some s <-> s = bs /\ Forall is_ascii bs.
Proof. exact ascii_iff. Qed.
Print Assumptions C90_ascii.

(** UTF-8 texts decode to what was encoded, and nothing else is accepted. *)
Theorem C90_utf8 : forall bs s, bytes_ok bs -> decode_utf8 bs = Some s <-> Forall scalar s /\ bs = utf8_bytes s.
Proof. exact utf8_iff. Qed.
Print Assumptions C90_utf8.

(** Windows-1252 decodes everything, one character per byte, without loss. *)
Theorem C90_windows1252 : forall bs, bytes_ok bs ->
  exists s, decode_windows1252 bs = Some s /\ length s = length bs /\ Forall scalar s /\
    (forall bs', bytes_ok bs' -> decode_windows1252 bs' = Some s -> bs' = bs).
Proof.
  intros bs HB. exists (map windows_1252_char bs). split; [reflexivity|]. split; [apply map_length|]. split.
  - apply Forall_forall. intros c Hc. apply in_map_iff in Hc as (b & <- & Hb). apply windows_char_cases. unfold bytes_ok in HB. rewrite Forall_forall in HB. apply HB, Hb.
  - intros bs' HB' E. apply windows_inj; [exact HB'|exact HB|]. exact E.
Qed.
Print Assumptions C90_windows1252.

Theorem C90_agree : extends decode_ascii decode_utf8 /\ extends decode_ascii decode_windows1252.
Proof. split; [exact ascii_utf8|exact ascii_windows]. Qed.
Print Assumptions C90_agree.

(** What the three openers mean for the texts of the files: an ASCII reader returns the bytes of
    ASCII texts, a UTF-8 reader returns what was encoded, a windows-1252 reader returns one
    character per byte; ASCII and UTF-8 readers reject all other bytes. *)
Definition text_of (f : dbf_field) (rec : dbf_record) (core : list Z) : Prop :=
  (exists e, df_type f = DTCharacter e) /\ no_trailing_space core /\ exists k, holds f rec (core ++ repeat 32 k).
Theorem C90_openers : forall m afs afd fs path r f rec core, In f (sf_dbf_fields r) -> text_of f rec core ->
  (open_ascii m afs afd fs path = Ok (ROk r) ->
     (forall s, read_string f rec = Ok (ROk s) <-> s = core /\ Forall is_ascii core) /\
     (~ Forall is_ascii core -> read_string f rec = Ok (RErr DEDecode))) /\
  (open_utf8 m afs afd fs path = Ok (ROk r) -> bytes_ok core ->
     (forall s, read_string f rec = Ok (ROk s) <-> Forall scalar s /\ core = utf8_bytes s) /\
     ((forall s, Forall scalar s -> core <> utf8_bytes s) -> read_string f rec = Ok (RErr DEDecode))) /\
  (open_windows1252 m afs afd fs path = Ok (ROk r) -> bytes_ok core ->
     exists s, read_string f rec = Ok (ROk s) /\ Forall2 (fun b c => decode_windows1252 [b] = Some [c]) core s).
Proof.
  intros m afs afd fs path r f rec core Hf ((e & He) & Hc & k & Hh).
  assert (HD : forall d, open_path m afs afd fs path d = Ok (ROk r) ->
    read_string f rec = Ok (match d core with Some s => ROk s | None => RErr DEDecode end)).
  { intros d E. unfold open_path in E. apply open_decoder in E. rewrite Forall_forall in E. rewrite <- (E f Hf e He).
    exact (C54_character f rec _ e core k He Hh eq_refl Hc). }
  split; [|split]; intros E; try intros HB; rewrite (HD _ E).
  - split; [intros s; rewrite <- C90_ascii; destruct (decode_ascii core); split; congruence|].
    intros HN. destruct (decode_ascii core) as [s|] eqn:Ed; [|reflexivity]. apply C90_ascii in Ed. tauto.
  - split; [intros s; rewrite <- (C90_utf8 core s HB); destruct (decode_utf8 core); split; congruence|].
    intros HN. destruct (decode_utf8 core) as [s|] eqn:Ed; [|reflexivity]. apply (C90_utf8 core s HB) in Ed as [H1 H2]. destruct (HN s H1 H2).
  - exists (map windows_1252_char core). split; [reflexivity|]. clear. induction core; cbn [map]; constructor; [reflexivity|assumption].
Qed.
Print Assumptions C90_openers.

(** "Zürich" in the two encodings; 0x80 is the euro sign. *)
Example C90_case :
  decode_utf8 [90; 195; 188; 114; 105; 99; 104] = Some [90; 252; 114; 105; 99; 104] /\
  decode_windows1252 [90; 252; 114; 105; 99; 104] = Some [90; 252; 114; 105; 99; 104] /\
  decode_windows1252 [128; 129] = Some [8364; 129] /\
  decode_utf8 [90; 252; 114] = None /\ decode_utf8 [192; 128] = None /\ decode_utf8 [237; 160; 128] = None /\
  decode_utf8 [240; 159; 140; 141] = Some [127757] /\ decode_ascii [90; 252] = None.
Proof. repeat split; vm_compute; reflexivity. Qed.

(** ** C91: the encoding only matters for names and texts *)

(** If a decoder accepts the field names, so do the decoders that extend it, and opening has the
    same result up to the decoder for texts. *)
Theorem C91_open : forall d d' m afs afd fs path, extends d d' ->
  open_path m afs afd fs path d <> Ok (RErr (SFDbf DEName)) ->
  (forall r, open_path m afs afd fs path d = Ok (ROk r) ->
     exists r', open_path m afs afd fs path d' = Ok (ROk r') /\ same_sf d d' r r' /\
       forall k, calls (sf_next afs afd) k r' = calls (sf_next afs afd) k r) /\
  (forall e, open_path m afs afd fs path d = Ok (RErr e) -> open_path m afs afd fs path d' = Ok (RErr e)) /\
  (forall p, open_path m afs afd fs path d = Panic p -> open_path m afs afd fs path d' = Panic p).
Proof.
  intros d d' m afs afd fs path HE HN. unfold open_path in *. pose proof (open_redecode d d' HE m afs afd (fs path) (fs (set_extension path (str "dbf")))) as H.
  split; [|split].
  - intros r E. rewrite E in H. destruct (sf_open m afs afd d' _ _) as [[r'|e]|p]; try contradiction. exists r'. split; [reflexivity|]. split; [exact H|].
    intros k. symmetry. apply (sf_calls_same d d'), H.
  - intros e E. rewrite E in *. destruct H as [->|H]; [congruence|exact H].
  - intros p E. rewrite E in H. exact H.
Qed.
Print Assumptions C91_open.

(** A text that one decoder can decode is the same with a decoder that extends it; all other values
    are the same, and so are errors and panics. *)
Theorem C91_values : forall d d' f f' rec, extends d d' -> same_field d d' f f' ->
  read_string f rec <> Ok (RErr DEDecode) -> read_string f' rec = read_string f rec.
Proof. intros d d' f f' rec HE HF HN. exact (string_redecode d d' HE f f' rec HF HN). Qed.
Print Assumptions C91_values.

(** The import does not depend on the encoding. *)
Theorem C91_import : forall v d d' m afs afd shp dbf, extends d d' ->
  sf_open m afs afd d shp dbf <> Ok (RErr (SFDbf DEName)) ->
  shp_to_geo_data v m afs afd d' shp dbf = shp_to_geo_data v m afs afd d shp dbf.
Proof. intros v d d' m afs afd shp dbf HE HN. exact (program_same d d' HE v m afs afd shp dbf HN). Qed.
Print Assumptions C91_import.

(** A listing does not either, if the texts can be decoded. *)
Theorem C91_listing : forall v d d' m afs afd shp dbf, extends d d' ->
  sf_open m afs afd d shp dbf <> Ok (RErr (SFDbf DEName)) ->
  (forall r, sf_open m afs afd d shp dbf = Ok (ROk r) -> decodable afs afd r) ->
  cat_shp v m afs afd d' shp dbf = cat_shp v m afs afd d shp dbf.
Proof. intros v d d' m afs afd shp dbf HE HN HD. exact (cat_same d d' HE v m afs afd shp dbf HN HD). Qed.
Print Assumptions C91_listing.

(** With windows-1252 decoding never fails. *)
Theorem C91_windows1252 : forall m afs afd fs path,
  open_windows1252 m afs afd fs path <> Ok (RErr (SFDbf DEName)) /\
  forall r, open_windows1252 m afs afd fs path = Ok (ROk r) -> decodable afs afd r.
Proof.
  intros m afs afd fs path. split; [exact (total_open _ m afs afd _ _ windows_total)|].
  intros r E. exact (total_decodable _ m afs afd _ _ r windows_total E).
Qed.
Print Assumptions C91_windows1252.

(** A file with the text "Zü " in its first record. *)
Definition umlaut_dbf : list Z :=
  dbf_prefix 3 116 12 31 1 15 (repeat 0 20) sample_ds [13] ++ [32; 90; 252; 32; 32; 32; 32; 45; 49; 46; 53; 2; 1; 0; 0].
Definition opened (d : decoder) (dbf : stream) : option sf_reader :=
  match sf_open Debug forget forget d (Some triangles_shp) (Some dbf) with Ok (ROk r) => Some r | _ => None end.
Definition first_text (d : decoder) (dbf : stream) : option (res (result text dbf_error)) :=
  match opened d dbf with
  | Some r => match calls (sf_next forget forget) 1 r, sf_dbf_fields r with
              | Ok [Some (ROk rec)], f :: _ => Some (read_string f (sfr_data rec))
              | _, _ => None
              end
  | None => None
  end.
Example C91_case :
  first_text decode_ascii (dbf_of 2) = Some (Ok (ROk (str "ba"))) /\ first_text decode_utf8 (dbf_of 2) = Some (Ok (ROk (str "ba"))) /\
  first_text decode_utf8 umlaut_dbf = Some (Ok (RErr DEDecode)) /\ first_text decode_windows1252 umlaut_dbf = Some (Ok (ROk [90; 252])).
Proof. repeat split; vm_compute; reflexivity. Qed.

(** The same file opened in three ways: the byte 252 is neither ASCII nor UTF-8. *)
Example C90_openers_case : let fs := files [(str "a.shp", triangles_shp); (str "a.dbf", umlaut_dbf)] in
  let f d := DField (str "foo") (DTCharacter d) 1 4 in
  let rec := skipn (length umlaut_dbf - 15) umlaut_dbf in
  (forall d, text_of (f d) rec [90; 252]) /\
  (exists r, open_ascii Debug forget forget fs (str "a.shp") = Ok (ROk r) /\ In (f decode_ascii) (sf_dbf_fields r)) /\
  (exists r, open_utf8 Debug forget forget fs (str "a.shp") = Ok (ROk r) /\ In (f decode_utf8) (sf_dbf_fields r)) /\
  (exists r, open_windows1252 Debug forget forget fs (str "a.shp") = Ok (ROk r) /\ In (f decode_windows1252) (sf_dbf_fields r)) /\
  read_string (f decode_utf8) rec = Ok (RErr DEDecode) /\ read_string (f decode_windows1252) rec = Ok (ROk [90; 252]).
Proof.
  cbn zeta. split.
  { intros d. split; [eexists; reflexivity|]. split; [intros l E; apply (f_equal (fun l => last l 0)) in E; rewrite last_last in E; discriminate|]. exists 2%nat.
    exists [32], [32; 32; 45; 49; 46; 53; 2; 1; 0; 0]. split; [vm_compute; reflexivity|]. split; reflexivity. }
  do 3 (split; [eexists; split; [vm_compute; reflexivity|vm_compute; left; reflexivity]|]). split; vm_compute; reflexivity.
Qed.

(** ** C92: [dbf::open_ascii] *)

(** The full claim: [dbf::open_ascii] reads ASCII files, as [shapefile::open_ascii] does. It does
    not: it is a reader of windows-1252 files. *)
Theorem C92_open_ascii_refuted : exists m af fs path r f rec s,
  dbf_open_ascii m af fs path = Ok (ROk r) /\ In f (dm_fields (dbr_meta r)) /\ fst (dbf_next af r) = Some (ROk rec) /\
  read_string f rec = Ok (ROk s) /\ ~ Forall is_ascii s /\
  exists r0 f0, dbf_open m af fs path decode_ascii = Ok (ROk r0) /\ In f0 (dm_fields (dbr_meta r0)) /\ df_name f0 = df_name f /\
    read_string f0 rec = Ok (RErr DEDecode).
Proof.
  exists Debug, forget, (files [([120], umlaut_dbf)]), [120].
  set (x := match dbf_reader_new Debug forget decode_windows1252 umlaut_dbf with Ok (ROk r) => r | _ => DbfReader [] 0 (DMeta 0 0 []) end).
  set (x0 := match dbf_reader_new Debug forget decode_ascii umlaut_dbf with Ok (ROk r) => r | _ => DbfReader [] 0 (DMeta 0 0 []) end).
  exists x, (DField (str "foo") (DTCharacter decode_windows1252) 1 4), (skipn (length umlaut_dbf - 15) umlaut_dbf), [90; 252].
  split; [vm_compute; reflexivity|]. split; [vm_compute; left; reflexivity|]. split; [vm_compute; reflexivity|]. split; [vm_compute; reflexivity|].
  split.
  - intros H. inversion H as [|a l _ H2]; subst. inversion H2 as [|a l H3 _]; subst. unfold is_ascii in H3. lia.
  - exists x0, (DField (str "foo") (DTCharacter decode_ascii) 1 4). split; [vm_compute; reflexivity|]. split; [vm_compute; left; reflexivity|]. split; vm_compute; reflexivity.
Qed.
Print Assumptions C92_open_ascii_refuted.

(** Missing in the partial theorem: that other files are rejected. What an ASCII reader reads,
    [dbf::open_ascii] reads as well: the same records, with the same values. *)
Theorem C92_open_ascii_partial : forall m af fs path r,
  dbf_open m af fs path decode_ascii = Ok (ROk r) ->
  exists r', dbf_open_ascii m af fs path = Ok (ROk r') /\ same_dbf decode_ascii decode_windows1252 r r' /\
    (forall k, calls (dbf_step af) k r' = calls (dbf_step af) k r) /\
    Forall2 (fun f f' => df_name f' = df_name f /\ forall rec, read_string f rec <> Ok (RErr DEDecode) -> read_string f' rec = read_string f rec)
      (dm_fields (dbr_meta r)) (dm_fields (dbr_meta r')).
Proof.
  intros m af fs path r. unfold dbf_open_ascii, dbf_open. destruct (fs path) as [s|]; [|discriminate]. intros E.
  pose proof (new_redecode _ _ ascii_windows m af s) as H. rewrite E in H. destruct (dbf_reader_new m af decode_windows1252 s) as [[r'|e]|p]; try contradiction.
  exists r'. split; [reflexivity|]. split; [exact H|]. split; [intros k; symmetry; apply (dbf_calls_same _ _ af k r r' H)|].
  destruct H as (_ & _ & _ & _ & H). induction H as [|f f' l l' HF H IH]; constructor; [|exact IH].
  split; [symmetry; apply HF|]. intros rec. apply (string_redecode _ _ ascii_windows), HF.
Qed.
Print Assumptions C92_open_ascii_partial.

Example C92_case : exists r, dbf_open Debug forget (files [([120], dbf_of 2)]) [120] decode_ascii = Ok (ROk r).
Proof. eexists. vm_compute. reflexivity. Qed.

(** ** C93: the command line *)

(** With a program name and a path, both programs read the files of the path as windows-1252. *)
Theorem C93_run : forall v m afs afd fs program path, bytes_ok program -> bytes_ok path ->
  (exists s, Forall scalar s /\ program = utf8_bytes s) -> (exists s, Forall scalar s /\ path = utf8_bytes s) ->
  main_shp_to_geo_data v m afs afd fs [program; path] =
    shp_to_geo_data v m afs afd decode_windows1252 (fs path) (fs (set_extension path (str "dbf"))) /\
  main_cat_shp v m afs afd fs [program; path] =
    cat_shp v m afs afd decode_windows1252 (fs path) (fs (set_extension path (str "dbf"))).
Proof.
  intros v m afs afd fs program path B1 B2 (s & H1) (s' & H2). apply utf8_iff in H1; [|exact B1]. apply utf8_iff in H2; [|exact B2].
  unfold main_shp_to_geo_data, main_cat_shp. rewrite !(args_path _ _ _ _ _ H1 H2). split; reflexivity.
Qed.
Print Assumptions C93_run.

(** With any other number of arguments, they print how they are used, and exit with 1. *)
Theorem C93_usage : forall v m afs afd fs name rest, Forall scalar name -> length rest <> 1%nat ->
  main_shp_to_geo_data v m afs afd fs (utf8_bytes name :: rest) = ([], Exited 1 [usage name]) /\
  main_cat_shp v m afs afd fs (utf8_bytes name :: rest) = ([], Exited 1 [usage name]).
Proof.
  intros v m afs afd fs name rest HS HL.
  assert (E : decode_utf8 (utf8_bytes name) = Some name) by (apply utf8_iff; [apply utf8_bytes_ok, HS|auto]).
  unfold main_shp_to_geo_data, main_cat_shp. destruct rest as [|a [|b rest]]; [|cbn in HL; lia|]; cbn [with_args]; rewrite E; split; reflexivity.
Qed.
Print Assumptions C93_usage.

(** The panics: those of the programs, and a missing program name or an argument that is not UTF-8. *)
Theorem C93_panics : forall v m afs afd fs args lines p, (forall path, bytes_opt (fs path)) ->
  main_shp_to_geo_data v m afs afd fs args = (lines, Crashed p) \/ main_cat_shp v m afs afd fs args = (lines, Crashed p) ->
  (p = PUnwrap /\ lines = [] /\ (args = [] \/ exists a, In a args /\ decode_utf8 a = None)) \/
  p = PIndex \/ p = PAssert \/ p = PExplicit \/ p = PUnimplemented \/ (m = Debug /\ p = POverflow) \/ (m = Release /\ p = PCapacity).
Proof.
  intros v m afs afd fs args lines p HB [H|H]; unfold main_shp_to_geo_data, main_cat_shp in H; apply args_crash in H as [H|(program & path & _ & H)]; auto; right.
  - apply program_panic in H; [|apply HB|apply HB]. unfold program_panics in H. tauto.
  - apply cat_panic in H; [|apply HB|apply HB]. tauto.
Qed.
Print Assumptions C93_panics.

Definition shelf : file_system := files [(str "d/t.shp", triangles_shp); (str "d/t.dbf", dbf_of 1)].
Example C93_case :
  main_cat_shp plain Debug forget forget shelf [str "cat-shp"; str "d/t.shp"] = cat_shp plain Debug forget forget decode_windows1252 (Some triangles_shp) (Some (dbf_of 1)) /\
  snd (main_cat_shp plain Debug forget forget shelf [str "cat-shp"; str "d/t.shp"]) = Exited 1 [str "Error during read: Parse error: '.shp' file has more records than '.dbf' record"] /\
  main_shp_to_geo_data plain Debug forget forget shelf [str "import"] = ([], Exited 1 [str "Usage: import <SHP_PATH>"]) /\
  main_shp_to_geo_data plain Debug forget forget shelf [str "import"; [255]] = ([], Crashed PUnwrap).
Proof. repeat split; vm_compute; reflexivity. Qed.
