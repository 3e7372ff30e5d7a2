(** * DbfProps: C51-C56, C64 and C65, the .dbf reader *)
From Verif Require Import DbfSpec TopoProofs BytesProofs ShpProofs ShpLaws DbfProofs DbfLaws.

(** The ASCII decoder, and a table with a character, a numeric and a long field. *)
Definition ascii : decoder := fun bs => if forallb (fun b => (0 <=? b) && (b <? 128)) bs then Some bs else None.
Definition forget : after_fail := fun _ _ => [].
Definition sample_desc (name : list Z) (code len : Z) : descriptor :=
  Desc name (repeat 0 (11 - length name)) code (repeat 0 4) len (repeat 0 15).
Definition sample_ds : list descriptor := [sample_desc [102; 111; 111] 67 4; sample_desc [110] 78 6; sample_desc [108] 43 4].
Definition sample_fs : list dbf_field :=
  [DField [102; 111; 111] (DTCharacter ascii) 1 4; DField [110] DTNumeric 5 6; DField [108] DTLong 11 4].
(** " bar ␣-1.5␣␣..": flag, "ba  ", "  -1.5", 258. *)
Definition sample_rec : dbf_record := [32; 98; 97; 32; 32; 32; 32; 45; 49; 46; 53; 2; 1; 0; 0].
Definition sample_dbf : list Z := dbf_prefix 3 116 12 31 2 15 (repeat 0 20) sample_ds [13] ++ sample_rec ++ sample_rec ++ [26].

(** ** C51: .dbf files round-trip *)
Theorem C51_file : forall m af enc version year month day n rlen reserved ds tail fs recs junk k,
  leaves_suffix af ->
  dbf_header_fields version year month day n (32 + 32 * Z.of_nat (length ds) + Z.of_nat (length tail)) rlen reserved ->
  Forall descriptor_ok ds -> (length tail < 32)%nat -> month <= 12 -> day <= 31 -> described enc 1 ds fs ->
  n = Z.of_nat (length recs) -> Forall (fun r => length r = Z.to_nat rlen) recs ->
  exists r,
    dbf_reader_new m af enc (dbf_prefix version year month day n rlen reserved ds tail ++ concat recs ++ junk) = Ok (ROk r) /\
    dbr_meta r = DMeta n rlen fs /\
    calls (dbf_step af) (length recs + k) r = Ok (map (fun x => Some (ROk x)) recs ++ repeat None k).
Proof.
  intros m af enc v y mo d n rlen res ds tail fs recs junk k Ha HF HD HT Hmo Hd Hfs Hn HR.
  destruct (prefix_read m af enc v y mo d n rlen res ds tail fs (concat recs ++ junk) HF HD HT Hmo Hd Hfs) as (fs' & H' & E).
  rewrite (described_fun _ _ _ _ _ H' Hfs) in E. eexists. split; [exact E|]. split; [reflexivity|].
  apply dbf_file; auto. apply HF.
Qed.
Print Assumptions C51_file.

(** The fields of a record lie one after another behind the deletion flag, without overlap. *)
Theorem C51_fields : forall enc ds fs flag vs post,
  described enc 1 ds fs -> Forall2 (fun d v => length v = Z.to_nat (de_len d)) ds vs ->
  Forall2 (fun f v => holds f ([flag] ++ concat vs ++ post) v) fs vs.
Proof. intros enc ds fs flag vs post H HV. exact (described_holds enc ds fs [flag] vs post H HV). Qed.
Print Assumptions C51_fields.

(** Every file the reader accepts has this form. *)
Theorem C51_accepted : forall m af enc s r, bytes_ok s -> dbf_reader_new m af enc s = Ok (ROk r) ->
  exists version year month day n rlen reserved ds tail rest,
    dbf_header_fields version year month day n (32 + 32 * Z.of_nat (length ds) + Z.of_nat (length tail)) rlen reserved /\
    Forall descriptor_ok ds /\ (length tail < 32)%nat /\ month <= 12 /\ day <= 31 /\
    s = dbf_prefix version year month day n rlen reserved ds tail ++ rest /\
    exists fs, described enc 1 ds fs /\ r = DbfReader rest 0 (DMeta n rlen fs).
Proof.
  intros m af enc s r Hs E. pose proof (dbf_new_outcome m af enc s Hs) as O. rewrite E in O. remember (Ok (ROk r)) as o eqn:Eo.
  destruct O; try discriminate. injection Eo as <-.
  exists v, y, mo, d, n, r0, res, ds, tail, rest. repeat (split; [assumption || reflexivity|]). exists fs. auto.
Qed.
Print Assumptions C51_accepted.

Lemma sample_described : described ascii 1 sample_ds sample_fs.
Proof. repeat split; try reflexivity; unfold type_of_code; cbn; tauto. Qed.
Lemma sample_ds_ok : Forall descriptor_ok sample_ds.
Proof.
  assert (H : forall name code len, (length name < 11)%nat -> ~ In 0 name -> is_byte len -> descriptor_ok (sample_desc name code len)).
  { intros name code len HL H0 Hl. unfold descriptor_ok, sample_desc. cbn [de_name de_fill de_code de_a de_len de_b].
    split; [rewrite app_length, repeat_length; lia|]. split; [exact H0|]. split; [|repeat split; apply Hl].
    right. destruct (11 - length name)%nat as [|n] eqn:E; [lia|]. eexists. reflexivity. }
  constructor; [|constructor; [|constructor; [|constructor]]]; apply H; cbn; unfold is_byte; try lia; intros X; decompose [or] X; try discriminate; contradiction.
Qed.
Example C51_case : described ascii 1 sample_ds sample_fs /\ Forall descriptor_ok sample_ds /\
  dbf_header_fields 3 116 12 31 2 (32 + 32 * Z.of_nat (length sample_ds) + Z.of_nat (length [13])) 15 (repeat 0 20) /\
  match dbf_reader_new Debug forget ascii sample_dbf with
  | Ok (ROk r) => calls (dbf_step forget) 4 r = Ok [Some (ROk sample_rec); Some (ROk sample_rec); None; None]
  | _ => False
  end.
Proof.
  split; [exact sample_described|]. split; [exact sample_ds_ok|]. split; [|vm_compute; reflexivity].
  unfold dbf_header_fields, in_bytes. cbn. repeat split; lia.
Qed.

(** ** C52: exactly n_records items *)
Theorem C52_items : forall m af enc s r k, leaves_suffix af -> bytes_ok s -> dbf_reader_new m af enc s = Ok (ROk r) ->
  let n := Z.to_nat (dm_records (dbr_meta r)) in
  let size := Z.to_nat (dm_record_bytes (dbr_meta r)) in
  calls (dbf_step af) (n + k) r = Ok (map (fun i => Some (item_at size (dbr_file r) i)) (seq 0 n) ++ repeat None k).
Proof.
  intros m af enc s r k Ha Hs E. destruct (C51_accepted m af enc s r Hs E) as (v & y & mo & d & n & rlen & res & ds & tail & rest & HF & _ & _ & _ & _ & _ & fs & _ & ->).
  cbn [dbr_meta dm_records dm_record_bytes dbr_file]. apply dbf_iterate; [exact Ha|apply HF|]. cbn. destruct HF as [[H _] _]. lia.
Qed.
Print Assumptions C52_items.

(** A truncated file: three records announced, one and a half there. *)
Example C52_case : match dbf_reader_new Debug forget ascii (dbf_prefix 3 116 12 31 3 15 (repeat 0 20) sample_ds [13] ++ sample_rec ++ [1; 2; 3]) with
  | Ok (ROk r) => calls (dbf_step forget) 5 r = Ok [Some (ROk sample_rec); Some (RErr DEIo); Some (RErr DEIo); None; None]
  | _ => False
  end.
Proof. vm_compute. reflexivity. Qed.

(** ** C53: numeric fields *)
Theorem C53_numeric : forall f r v, df_type f = DTNumeric -> holds f r v ->
  (forall s, read_string f r = Ok (ROk s) <-> exists k, v = repeat 32 k ++ s /\ is_number s) /\
  ((forall s, read_string f r <> Ok (ROk s)) -> read_string f r = Ok (RErr DENumber)).
Proof. exact read_numeric. Qed.
Print Assumptions C53_numeric.

Example C53_case : holds (DField [110] DTNumeric 5 6) sample_rec [32; 32; 45; 49; 46; 53] /\ is_number [45; 49; 46; 53] /\
  read_string (DField [110] DTNumeric 5 6) sample_rec = Ok (ROk [45; 49; 46; 53]) /\
  read_string (DField [110] DTNumeric 1 4) sample_rec = Ok (RErr DENumber).
Proof.
  split; [exists [32; 98; 97; 32; 32], [2; 1; 0; 0]; auto|]. split; [|vm_compute; auto].
  exists [45], [49], [46; 53]. split; [reflexivity|]. split; [auto|]. split; [split; [discriminate|repeat constructor; lia]|].
  right. exists [53]. split; [reflexivity|]. split; [discriminate|repeat constructor; lia].
Qed.

(** ** C54: character fields *)
Theorem C54_character : forall f r v enc core k,
  df_type f = DTCharacter enc -> holds f r v -> v = core ++ repeat 32 k -> no_trailing_space core ->
  read_string f r = Ok (match enc core with Some s => ROk s | None => RErr DEDecode end).
Proof. exact read_character. Qed.
Print Assumptions C54_character.

(** Every value has this form. *)
Theorem C54_form : forall v, exists core k, v = core ++ repeat 32 k /\ no_trailing_space core.
Proof. exact trim_form. Qed.
Print Assumptions C54_form.

Example C54_case : holds (DField [102; 111; 111] (DTCharacter ascii) 1 4) sample_rec [98; 97; 32; 32] /\
  read_string (DField [102; 111; 111] (DTCharacter ascii) 1 4) sample_rec = Ok (ROk [98; 97]) /\
  read_string (DField [102; 111; 111] (DTCharacter ascii) 5 3) sample_rec = Ok (ROk [32; 32; 45]).
Proof. split; [exists [32], (skipn 5 sample_rec); auto|vm_compute; auto]. Qed.

(** ** C55: get_field *)
Theorem C55_found : forall r name f, get_field r name = Some f <->
  exists pre post, dm_fields (dbr_meta r) = pre ++ f :: post /\ df_name f = name /\ Forall (fun g => df_name g <> name) pre.
Proof. exact get_field_some. Qed.
Print Assumptions C55_found.

Theorem C55_missing : forall r name, get_field r name = None <-> Forall (fun g => df_name g <> name) (dm_fields (dbr_meta r)).
Proof. exact get_field_none. Qed.
Print Assumptions C55_missing.

Example C55_case : get_field (DbfReader [] 0 (DMeta 0 15 (sample_fs ++ [DField [110] DTLong 15 9]))) [110] = Some (DField [110] DTNumeric 5 6) /\
  get_field (DbfReader [] 0 (DMeta 0 15 sample_fs)) [120] = None.
Proof. vm_compute. auto. Qed.

(** ** C56: panics on malformed input *)

(** The claim is false: a header length below 32; a record shorter than its fields; a
    short long field; a date field. *)
Theorem C56_panic_refuted :
  (exists s, bytes_ok s /\ forall m af enc, exists p, dbf_reader_new m af enc s = Panic p) /\
  (exists f r, read_string f r = Panic PIndex) /\
  (exists s r rec, bytes_ok s /\ (forall m, dbf_reader_new m forget ascii s = Ok (ROk r)) /\
     fst (dbf_next forget r) = Some (ROk rec) /\
     exists f, In f (dm_fields (dbr_meta r)) /\ df_type f = DTDate /\ read_string f rec = Panic PUnimplemented).
Proof.
  split; [|split].
  - exists (repeat 0 32). split; [repeat constructor; lia|]. intros [] af enc; eexists; vm_compute; reflexivity.
  - exists (DField [108] DTLong 1 2), [32; 5; 5]. vm_compute. reflexivity.
  - exists (dbf_prefix 3 116 12 31 1 3 (repeat 0 20) [sample_desc [100] 68 2] [13] ++ [32; 49; 50]),
      (DbfReader [32; 49; 50] 0 (DMeta 1 3 [DField [100] DTDate 1 2])), [32; 49; 50].
    split; [repeat (constructor; [vm_compute; split; congruence|]); constructor|]. split; [intros []; vm_compute; reflexivity|].
    split; [vm_compute; reflexivity|]. eexists. split; [left; reflexivity|]. split; [reflexivity|vm_compute; reflexivity].
Qed.
Print Assumptions C56_panic_refuted.

(** These are the only panics of [new] and [read_string]; [next] has none. *)
Theorem C56_new_partial : forall m af enc s p, bytes_ok s ->
  dbf_reader_new m af enc s = Panic p <->
  p = (match m with Debug => POverflow | Release => PCapacity end) /\
  exists version year month day n hlen rlen reserved rest,
    dbf_header_fields version year month day n hlen rlen reserved /\ month <= 12 /\ day <= 31 /\ hlen < 32 /\
    s = dbf_header_bytes version year month day n hlen rlen reserved ++ rest.
Proof. exact dbf_new_panic. Qed.
Print Assumptions C56_new_partial.

Theorem C56_read_string_partial : forall f r p, read_string f r = Panic p <->
  (p = PIndex /\ (length r < df_offset f + df_len f)%nat) \/
  (p = PIndex /\ (df_offset f + df_len f <= length r)%nat /\ df_type f = DTLong /\ (df_len f < 4)%nat) \/
  (p = PUnimplemented /\ (df_offset f + df_len f <= length r)%nat /\ ~ readable (df_type f)).
Proof. exact read_panic. Qed.
Print Assumptions C56_read_string_partial.

(** So reading the fields of a well-formed record does not panic. *)
Theorem C56_fields_partial : forall f r v p, holds f r v -> readable (df_type f) -> (df_type f = DTLong -> 4 <= df_len f)%nat ->
  read_string f r <> Panic p.
Proof.
  intros f r v p (pre & post & -> & Ho & Hl) Hr H4 E. apply read_panic in E. rewrite !app_length in E.
  destruct E as [[_ E]|[(_ & _ & E & E')|(_ & _ & E)]]; [lia| |exact (E Hr)]. specialize (H4 E). lia.
Qed.
Print Assumptions C56_fields_partial.

Example C56_case : Forall (fun f => readable (df_type f)) sample_fs /\ holds (DField [108] DTLong 11 4) sample_rec [2; 1; 0; 0].
Proof.
  split; [unfold readable; constructor; [left; eexists; reflexivity|repeat constructor; cbn; tauto]|].
  exists (firstn 11 sample_rec), []. auto.
Qed.

(** ** C64: long fields *)
Theorem C64_long : forall f r n more, df_type f = DTLong -> in_bytes 4 n -> holds f r (le_bytes 4 n ++ more) ->
  exists s, read_string f r = Ok (ROk s) /\ is_numeral n s.
Proof. exact read_long. Qed.
Print Assumptions C64_long.

(** Numerals are unique. *)
Theorem C64_unique : forall n s t, is_numeral n s -> is_numeral n t -> s = t.
Proof. exact numeral_unique. Qed.
Print Assumptions C64_unique.

Example C64_case : read_string (DField [108] DTLong 11 4) sample_rec = Ok (ROk [50; 53; 56]) /\ is_numeral 258 [50; 53; 56].
Proof. split; [vm_compute; reflexivity|]. split; [split; [discriminate|repeat constructor; lia]|]. split; [reflexivity|right; discriminate]. Qed.

(** ** C65: Display of a record *)
Theorem C65_display : forall fs r vs, Forall2 (fun f v => read_string f r = Ok (ROk v)) fs vs ->
  display_record fs r = Ok (ROk (joined (map (fun '(f, v) => df_name f ++ [58] ++ v) (combine fs vs)))).
Proof. intros fs r vs H. unfold display_record. rewrite (display_from fs r 0 [] vs H). reflexivity. Qed.
Print Assumptions C65_display.

Theorem C65_first_error : forall before f after r vs e,
  Forall2 (fun f v => read_string f r = Ok (ROk v)) before vs -> read_string f r = Ok (RErr e) ->
  display_record (before ++ f :: after) r = Ok (RErr e).
Proof. intros before f after r vs e H He. exact (display_error before f after r 0 [] vs e H He). Qed.
Print Assumptions C65_first_error.

(** "foo:ba; n:-1.5; l:258". *)
Example C65_case : display_record sample_fs sample_rec =
  Ok (ROk [102; 111; 111; 58; 98; 97; 59; 32; 110; 58; 45; 49; 46; 53; 59; 32; 108; 58; 50; 53; 56]).
Proof. vm_compute. reflexivity. Qed.
