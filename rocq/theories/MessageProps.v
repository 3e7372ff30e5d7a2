(** * MessageProps: C85 and C90 with texts and tables *)
From Verif Require Import SfSpec MessageSpec BytesProofs DbfProps SfProps DisplayProps EncodingProps.

Lemma filled_literal l T ns s : firstn (length l) T = l -> forallb (fun c => negb (c =? 123)) l = true ->
  filled (skipn (length l) T) ns s -> filled T ns (l ++ s).
Proof.
  intros E F H. rewrite <- (firstn_skipn (length l) T), E. clear E. revert H. generalize (skipn (length l) T) as t. intros t H.
  induction l as [|c l IH]; [exact H|]. cbn [forallb app] in *. apply andb_prop in F as [C F]. constructor; [intros ->; discriminate C|apply IH, F].
Qed.
Lemma filled_hole T n num ns s : firstn 2 T = str "{}" -> is_numeral n num -> filled (skipn 2 T) ns s -> filled T (n :: ns) (num ++ s).
Proof. intros E N H. rewrite <- (firstn_skipn 2 T), E. constructor; assumption. Qed.
Lemma filled_last l T : T = l -> forallb (fun c => negb (c =? 123)) l = true -> filled T [] l.
Proof.
  intros -> F. rewrite <- (app_nil_r l) at 2. apply filled_literal; [apply firstn_all|exact F|]. rewrite skipn_all. constructor.
Qed.
Lemma filled_hole_last T n num : T = str "{}" -> is_numeral n num -> filled T [n] num.
Proof. intros -> N. rewrite <- (app_nil_r num). apply filled_hole; [reflexivity|exact N|constructor]. Qed.

(** ** C85: the messages *)

(** The text of every message; numbers are shown as their decimal numerals. *)
Theorem C85_text : forall v e, Forall is_usize (error_values e) -> message_text v e (show_sf_error v e).
Proof.
  assert (N : forall n, is_usize n -> is_numeral n (decimal n)) by exact C84_number.
  intros v [e|e| |] H; [| |reflexivity|reflexivity]; [|destruct e; try reflexivity; unfold message_text, show_sf_error, show_dbf_error, dbf_message; rewrite ?app_assoc; reflexivity].
  destruct e; cbn [error_values shp_values] in H;
    repeat match goal with X : Forall is_usize (_ :: _) |- _ => let A := fresh "A" in let B := fresh "B" in inversion X as [|? ? A B]; subst; clear X; apply N in A end;
    unfold message_text, show_sf_error, show_shp_error, shp_message;
    try (repeat first
      [ apply filled_last; [vm_compute; reflexivity|vm_compute; reflexivity]
      | apply filled_hole_last; [vm_compute; reflexivity|assumption]
      | apply filled_hole; [vm_compute; reflexivity|assumption|]
      | apply filled_literal; [vm_compute; reflexivity|vm_compute; reflexivity|] ]; fail).
  - reflexivity.
  - destruct t; match goal with |- context [shape_type_name ?k] =>
      let nm := eval cbn [shape_type_name] in (shape_type_name k) in
      let rec go l := match l with (?c, ?n) :: ?l' => first [unify n nm; exists c, n|go l'] end in
      let l := eval unfold type_names in type_names in go l end;
    (split; [unfold type_names; cbn [In]; tauto|split; reflexivity]).
Qed.
Print Assumptions C85_text.

Example C85_text_case : show_sf_error (Texts [] [] [] (fun _ => [])) (SFShp (SELength 3 116 1 4 100)) =
  str "Parse error: Record number 3 needs 116 bytes (it has 1 parts and 4 points), but the record header says it has 100 bytes" /\
  Forall is_usize (error_values (SFShp (SELength 3 116 1 4 100))).
Proof. split; [vm_compute; reflexivity|]. repeat constructor; vm_compute; congruence. Qed.

(** ** C90: the table of windows-1252 *)

(** 27 bytes stand for characters that are not their own numbers; every other byte is its own
    number, and characters are decoded one by one. *)
Theorem C90_table : decode_windows1252 special_bytes = decode_utf8 special_characters /\
  (forall b, is_byte b -> ~ In b special_bytes -> decode_windows1252 [b] = Some [b]) /\
  (forall a b, exists s t, decode_windows1252 a = Some s /\ decode_windows1252 b = Some t /\ decode_windows1252 (a ++ b) = Some (s ++ t)).
Proof.
  split; [vm_compute; reflexivity|]. split.
  - intros b Hb Hn. unfold decode_windows1252. cbn [map]. do 2 f_equal. unfold windows_1252_char.
    destruct (Z.leb_spec 128 b) as [L|L], (Z.leb_spec b 159) as [U|U]; try reflexivity.
    assert (X : In b (map Z.of_nat (seq 128 32))).
    { apply in_map_iff. exists (Z.to_nat b). split; [lia|]. apply in_seq. lia. }
    cbn in X. repeat (destruct X as [<-|X]; [first [vm_compute; reflexivity|exfalso; apply Hn; unfold special_bytes; cbn [In]; tauto]|]). contradiction.
  - intros a b. exists (map windows_1252_char a), (map windows_1252_char b). unfold decode_windows1252. rewrite map_app. auto.
Qed.
Print Assumptions C90_table.

Example C90_table_case : length special_bytes = 27%nat /\ decode_windows1252 [67; 97; 102; 233; 32; 128] = Some [67; 97; 102; 233; 32; 8364] /\
  is_byte 233 /\ ~ In 233 special_bytes.
Proof. split; [reflexivity|]. split; [vm_compute; reflexivity|]. split; [unfold is_byte; lia|]. unfold special_bytes. cbn [In]. intuition discriminate. Qed.

(** ** C55: get_field of a shapefile *)

(** After opening a well-formed pair of files, a name finds the first field of that name. *)
Theorem C55_shapefile : forall m afs afd enc b shapes fs datas s d name, leaves_suffix afd -> is_shp b shapes s -> is_dbf enc fs datas d ->
  exists r, sf_reader_new m afs afd enc s d = Ok (ROk r) /\
    (forall f, sf_get_field r name = Some f <-> exists before after, fs = before ++ f :: after /\ df_name f = name /\ Forall (fun g => df_name g <> name) before) /\
    (sf_get_field r name = None <-> Forall (fun g => df_name g <> name) fs).
Proof.
  intros m afs afd enc b shapes fs datas s d name Ha Hs Hd.
  destruct (C57_file m afs afd enc b shapes fs datas s d Ha Hs Hd) as (r & E & _ & F & _). exists r. split; [exact E|]. unfold sf_get_field. rewrite <- F. unfold sf_dbf_fields.
  split; [intros f; apply C55_found|apply C55_missing].
Qed.
Print Assumptions C55_shapefile.

Example C55_shapefile_case : match sf_reader_new Debug forget forget ascii sample_shp (dbf_of 1) with
  | Ok (ROk r) => option_map df_offset (sf_get_field r [110]) = Some 5%nat /\ sf_get_field r [120] = None
  | _ => False
  end.
Proof. vm_compute. split; reflexivity. Qed.

(** ** C92: opening a .dbf file by its path *)

(** A file that cannot be opened is an I/O error; otherwise the records of the file are read with the given encoding. *)
Theorem C92_open : forall m af fs path enc fields datas d, leaves_suffix af -> is_dbf enc fields datas d ->
  (fs path = None -> dbf_open m af fs path enc = Ok (RErr DEIo)) /\
  (fs path = Some d -> exists r, dbf_open m af fs path enc = Ok (ROk r) /\ dm_fields (dbr_meta r) = fields /\
    forall k, calls (dbf_step af) (length datas + k) r = Ok (map (fun x => Some (ROk x)) datas ++ repeat None k)).
Proof.
  intros m af fs path enc fields datas d Ha (version & year & month & day & rlen & reserved & ds & tail & junk & H1 & H2 & H3 & H4 & H5 & H6 & H7 & ->).
  unfold dbf_open. split; intros ->; [reflexivity|].
  destruct (C51_file m af enc version year month day (Z.of_nat (length datas)) rlen reserved ds tail fields datas junk 0%nat Ha H1 H2 H3 H4 H5 H6 eq_refl H7) as (r & E & M & _).
  exists r. split; [exact E|]. split; [rewrite M; reflexivity|]. intros k.
  destruct (C51_file m af enc version year month day (Z.of_nat (length datas)) rlen reserved ds tail fields datas junk k Ha H1 H2 H3 H4 H5 H6 eq_refl H7) as (r' & E' & _ & K).
  rewrite E in E'. injection E' as <-. exact K.
Qed.
Print Assumptions C92_open.

Example C92_open_case : is_dbf ascii sample_fs (repeat sample_rec 2) (dbf_of 2) /\
  dbf_open Debug forget (fun _ => None) (str "x") ascii = Ok (RErr DEIo).
Proof. split; [apply dbf_of_is_dbf; lia|reflexivity]. Qed.
