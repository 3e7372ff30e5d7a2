(** * EncodingProofs: lemmas on decoders, paths and the command line *)
From Verif Require Import BytesProofs ShpProofs DbfProofs DbfLaws PipelineProofs.
From Verif Require Export EncodingSpec.

(** ** Decoders *)

Lemma ascii_iff bs s : decode_ascii bs = Some s <-> s = bs /\ Forall is_ascii bs.
Proof.
  unfold decode_ascii. destruct (forallb _ bs) eqn:E.
  - rewrite forallb_forall in E. split; [intros [= <-]; split; [reflexivity|]; apply Forall_forall; intros b Hb; specialize (E b Hb); unfold is_ascii; lia|].
    intros [-> _]. reflexivity.
  - split; [discriminate|]. intros (_ & H). rewrite Forall_forall in H. exfalso. assert (X : forallb (fun b => (0 <=? b) && (b <=? 127)) bs = true).
    { apply forallb_forall. intros b Hb. specialize (H b Hb). unfold is_ascii in H. lia. }
    congruence.
Qed.

Lemma windows_char_cases b : 0 <= b < 256 -> scalar (windows_1252_char b).
Proof.
  intros H. assert (X : forallb (fun b => let c := windows_1252_char b in (0 <=? c) && (c <=? 0x10FFFF) && negb ((0xD800 <=? c) && (c <=? 0xDFFF))) (map Z.of_nat (seq 0 256)) = true) by (vm_compute; reflexivity).
  rewrite forallb_forall in X. specialize (X b). unfold scalar. cbv zeta in X.
  assert (In b (map Z.of_nat (seq 0 256))) as HI. { apply in_map_iff. exists (Z.to_nat b). split; [lia|]. apply in_seq. lia. }
  specialize (X HI). lia.
Qed.

Lemma windows_char_inj a b : 0 <= a < 256 -> 0 <= b < 256 -> windows_1252_char a = windows_1252_char b -> a = b.
Proof.
  intros Ha Hb E. assert (X : forallb (fun a => forallb (fun b => (a =? b) || negb (windows_1252_char a =? windows_1252_char b)) (map Z.of_nat (seq 0 256))) (map Z.of_nat (seq 0 256)) = true)
    by (vm_compute; reflexivity).
  assert (I : forall b, 0 <= b < 256 -> In b (map Z.of_nat (seq 0 256))). { intros c Hc. apply in_map_iff. exists (Z.to_nat c). split; [lia|]. apply in_seq. lia. }
  rewrite forallb_forall in X. specialize (X a (I a Ha)). rewrite forallb_forall in X. specialize (X b (I b Hb)). lia.
Qed.

Lemma windows_char_ascii b : is_ascii b -> windows_1252_char b = b.
Proof. unfold is_ascii, windows_1252_char. intros H. destruct (Z.leb_spec 128 b); [lia|reflexivity]. Qed.

Lemma windows_inj bs bs' : bytes_ok bs -> bytes_ok bs' -> decode_windows1252 bs = decode_windows1252 bs' -> bs = bs'.
Proof.
  unfold decode_windows1252. intros H. revert bs'. induction H as [|b bs Hb H IH]; intros bs' H' E; destruct H' as [|b' bs' Hb' H'];
    try discriminate; [reflexivity|]. cbn [map] in E. assert (E1 : windows_1252_char b = windows_1252_char b') by congruence.
  f_equal; [apply windows_char_inj; assumption|]. apply IH; [assumption|]. congruence.
Qed.

Lemma windows_ascii bs : Forall is_ascii bs -> decode_windows1252 bs = Some bs.
Proof.
  intros H. unfold decode_windows1252. f_equal. induction H; [reflexivity|]. cbn [map]. rewrite windows_char_ascii by assumption. f_equal. assumption.
Qed.

Ltac bools := repeat match goal with
  | |- context[?a <? ?b] => destruct (Z.ltb_spec a b); try lia
  | |- context[?a <=? ?b] => destruct (Z.leb_spec a b); try lia
  | |- context[?a =? ?b] => destruct (Z.eqb_spec a b); try lia
  end.

(** Decide the outermost condition of the left-hand side. *)
Ltac decide_if := match goal with |- (if ?x then _ else _) = _ =>
  first [replace x with true by (symmetry; lia) | replace x with false by (symmetry; lia)]; cbv iota end.

Lemma utf8_char c t : scalar c -> decode_utf8 (utf8_of c ++ t) = option_map (cons c) (decode_utf8 t).
Proof.
  intros (H1 & H2). unfold utf8_of, decode_utf8.
  destruct (Z.ltb_spec c 0x80); [|destruct (Z.ltb_spec c 0x800); [|destruct (Z.ltb_spec c 0x10000)]]; cbn [app utf8_run].
  - decide_if. reflexivity.
  - assert (A : 2 <= c / 64 <= 31 /\ 0 <= c mod 64 < 64 /\ c = c / 64 * 64 + c mod 64) by (Z.to_euclidean_division_equations; lia).
    generalize dependent (c / 64). generalize dependent (c mod 64). intros r q (A1 & A2 & A3).
    do 2 decide_if. decide_if. do 2 f_equal. lia.
  - assert (A : 0 <= c / 4096 <= 15 /\ 0 <= c / 64 mod 64 < 64 /\ 0 <= c mod 64 < 64 /\ c = (c / 4096 * 64 + c / 64 mod 64) * 64 + c mod 64)
      by (Z.to_euclidean_division_equations; lia).
    generalize dependent (c / 4096). generalize dependent (c / 64 mod 64). generalize dependent (c mod 64). intros r r1 q (A1 & A2 & A3 & A4).
    do 3 decide_if. destruct (Z.eqb_spec (0xE0 + q) 0xE0), (Z.eqb_spec (0xE0 + q) 0xED); do 2 decide_if; do 2 f_equal; lia.
  - assert (A : 0 <= c / 262144 <= 4 /\ 0 <= c / 4096 mod 64 < 64 /\ 0 <= c / 64 mod 64 < 64 /\ 0 <= c mod 64 < 64 /\ c = ((c / 262144 * 64 + c / 4096 mod 64) * 64 + c / 64 mod 64) * 64 + c mod 64)
      by (Z.to_euclidean_division_equations; lia).
    generalize dependent (c / 262144). generalize dependent (c / 4096 mod 64). generalize dependent (c / 64 mod 64). generalize dependent (c mod 64). intros r r1 r2 q (A1 & A2 & A3 & A4 & A5).
    do 4 decide_if. destruct (Z.eqb_spec (0xF0 + q) 0xF0), (Z.eqb_spec (0xF0 + q) 0xF4); do 3 decide_if; do 2 f_equal; lia.
Qed.

Lemma some_cons {A} (c : A) o s : option_map (cons c) o = Some s -> exists s', o = Some s' /\ s = c :: s'.
Proof. destruct o as [s'|]; [|discriminate]. intros [= <-]. eauto. Qed.

Lemma utf8_split bs s : bytes_ok bs -> decode_utf8 bs = Some s -> bs = [] /\ s = [] \/
  exists c t s', scalar c /\ bs = utf8_of c ++ t /\ bytes_ok t /\ s = c :: s' /\ decode_utf8 t = Some s'.
Proof.
  unfold decode_utf8. intros H E. destruct H as [|b t Hb H]; [injection E as <-; auto|]. right. cbn [utf8_run] in E.
  assert (G : forall c u s', scalar c -> b :: t = utf8_of c ++ u -> bytes_ok u -> s = c :: s' -> utf8_run 0 0 0 0 u = Some s' ->
    exists c t' s', scalar c /\ b :: t = utf8_of c ++ t' /\ bytes_ok t' /\ s = c :: s' /\ utf8_run 0 0 0 0 t' = Some s') by eauto 10.
  destruct ((0 <=? b) && (b <=? 0x7F)) eqn:E1.
  { apply some_cons in E as (s' & E & ->). apply (G b t s'); unfold scalar, utf8_of; [lia| |assumption|reflexivity|assumption].
    destruct (Z.ltb_spec b 0x80); [reflexivity|lia]. }
  destruct ((0xC2 <=? b) && (b <=? 0xDF)) eqn:E2.
  { destruct H as [|b1 t Hb1 H]; [discriminate|]. cbn [utf8_run] in E. destruct ((_ <=? b1) && _) eqn:E3; [|discriminate].
    apply some_cons in E as (s' & E & ->). apply (G ((b - 0xC0) * 64 + (b1 - 0x80)) t s'); [unfold scalar; lia| |assumption|reflexivity|assumption].
    unfold utf8_of. bools. cbn [app]. repeat f_equal; Z.to_euclidean_division_equations; lia. }
  destruct ((0xE0 <=? b) && (b <=? 0xEF)) eqn:E3.
  { destruct H as [|b1 t Hb1 H]; [discriminate|]. cbn [utf8_run] in E. destruct ((_ <=? b1) && _) eqn:E4; [|discriminate].
    destruct H as [|b2 t Hb2 H]; [discriminate|]. cbn [utf8_run] in E. destruct ((_ <=? b2) && _) eqn:E5; [|discriminate].
    apply some_cons in E as (s' & E & ->). apply (G (((b - 0xE0) * 64 + (b1 - 0x80)) * 64 + (b2 - 0x80)) t s'); [| |assumption|reflexivity|assumption].
    - unfold scalar. destruct (Z.eqb_spec b 0xE0), (Z.eqb_spec b 0xED); lia.
    - unfold utf8_of. destruct (Z.eqb_spec b 0xE0), (Z.eqb_spec b 0xED); try lia; bools; cbn [app]; repeat f_equal; Z.to_euclidean_division_equations; lia. }
  destruct ((0xF0 <=? b) && (b <=? 0xF4)) eqn:E4; [|discriminate].
  destruct H as [|b1 t Hb1 H]; [discriminate|]. cbn [utf8_run] in E. destruct ((_ <=? b1) && _) eqn:E5; [|discriminate].
  destruct H as [|b2 t Hb2 H]; [discriminate|]. cbn [utf8_run] in E. destruct ((_ <=? b2) && _) eqn:E6; [|discriminate].
  destruct H as [|b3 t Hb3 H]; [discriminate|]. cbn [utf8_run] in E. destruct ((_ <=? b3) && _) eqn:E7; [|discriminate].
  apply some_cons in E as (s' & E & ->). apply (G ((((b - 0xF0) * 64 + (b1 - 0x80)) * 64 + (b2 - 0x80)) * 64 + (b3 - 0x80)) t s'); [| |assumption|reflexivity|assumption].
  - unfold scalar. destruct (Z.eqb_spec b 0xF0), (Z.eqb_spec b 0xF4); lia.
  - unfold utf8_of. destruct (Z.eqb_spec b 0xF0), (Z.eqb_spec b 0xF4); try lia; bools; cbn [app]; repeat f_equal; Z.to_euclidean_division_equations; lia.
Qed.

Lemma utf8_of_nonempty c : (1 <= length (utf8_of c))%nat.
Proof. unfold utf8_of. destruct (c <? 0x80), (c <? 0x800), (c <? 0x10000); cbn; lia. Qed.

Lemma utf8_iff bs s : bytes_ok bs -> decode_utf8 bs = Some s <-> Forall scalar s /\ bs = utf8_bytes s.
Proof.
  intros H. split.
  - remember (length bs) as n eqn:En. assert (Hn : (length bs <= n)%nat) by lia. clear En. revert bs s H Hn.
    induction n as [|n IH]; intros bs s H Hn E; (destruct (utf8_split bs s H E) as [(-> & ->)|(c & t & s' & Hc & -> & Ht & -> & E')]; [split; [constructor|reflexivity]|]).
    + pose proof (utf8_of_nonempty c). rewrite app_length in Hn. lia.
    + pose proof (utf8_of_nonempty c). rewrite app_length in Hn. destruct (IH t s' Ht ltac:(lia) E') as (F & ->). split; [constructor; assumption|reflexivity].
  - intros (F & ->). clear H. induction F as [|c s Hc F IH]; [reflexivity|]. unfold utf8_bytes. cbn [map concat]. rewrite utf8_char by assumption.
    fold (utf8_bytes s). rewrite IH. reflexivity.
Qed.

Lemma utf8_ascii bs : Forall is_ascii bs -> decode_utf8 bs = Some bs.
Proof.
  intros H. induction H as [|b bs Hb H IH]; [reflexivity|]. unfold is_ascii in Hb. change (b :: bs) with ([b] ++ bs).
  assert (E : [b] = utf8_of b) by (unfold utf8_of; bools; reflexivity). rewrite E at 1. rewrite utf8_char, IH; [reflexivity|]. unfold scalar. lia.
Qed.

Lemma utf8_bytes_ok s : Forall scalar s -> bytes_ok (utf8_bytes s).
Proof.
  intros H. unfold bytes_ok, utf8_bytes. induction H as [|c s (H1 & H2) H IH]; [constructor|]. cbn [map concat]. apply Forall_app. split; [|exact IH].
  unfold utf8_of, is_byte. bools; repeat (constructor; [Z.to_euclidean_division_equations; lia|]); constructor.
Qed.

(** ** Other decoders *)

Section Redecode.
Variables d d' : decoder.
Hypothesis DD : extends d d'.

Lemma same_code c : same_type d d' (dbf_type_with_code c d) (dbf_type_with_code c d').
Proof.
  pose proof (type_code_ok d c) as H. pose proof (type_code_ok d' c) as H'. unfold type_of_code, same_type in *.
  destruct H as [(-> & ->)|H]; [right; auto|]. left.
  destruct H' as [(-> & _)|H']; [exfalso; cbn [In] in H; intuition congruence|].
  assert (X : dbf_type_with_code c d = dbf_type_with_code c d') by (cbn [In] in *; intuition congruence).
  split; [exact X|]. intros e E. rewrite E in *. cbn [In] in *. intuition congruence.
Qed.

Lemma field_redecode c o :
  match parse_dbf_field c d o, parse_dbf_field c d' o with
  | Ok (ROk f), Ok (ROk f') => same_field d d' f f'
  | Ok (RErr e), _ => e = DEName
  | Panic p, y => y = Panic p
  | _, _ => False
  end.
Proof.
  unfold parse_dbf_field. destruct (sub_bytes c 0 11) as [nb|p]; cbn [bind]; [|reflexivity].
  destruct (d (until_zero nb)) as [name|] eqn:Ed; [|reflexivity]. rewrite (DD _ _ Ed). destruct (get c 11) as [code|p]; cbn [bind]; [|reflexivity]. destruct (get c 16) as [len|p]; cbn [bind]; [|reflexivity].
  unfold same_field. cbn [df_name df_type df_offset df_len]. auto using same_code.
Qed.

Lemma fields_redecode cs : forall o v v', Forall2 (same_field d d') v v' ->
  match parse_fields d cs o v, parse_fields d' cs o v' with
  | Ok (ROk fs), Ok (ROk fs') => Forall2 (same_field d d') fs fs'
  | Ok (RErr e), _ => e = DEName
  | Panic p, y => y = Panic p
  | _, _ => False
  end.
Proof.
  induction cs as [|c cs IH]; intros o v v' HV; cbn [parse_fields]; [exact HV|]. destruct (negb _); [exact HV|].
  pose proof (field_redecode c o) as HF. destruct (parse_dbf_field c d o) as [[f|e]|p]; cbn [bind].
  - destruct (parse_dbf_field c d' o) as [[f'|e']|p']; try contradiction. cbn [bind]. assert (df_len f' = df_len f) as -> by (symmetry; apply HF).
    apply IH. apply Forall2_app; [exact HV|]. constructor; [exact HF|constructor].
  - exact HF.
  - rewrite HF. reflexivity.
Qed.

Lemma new_redecode m af s :
  match dbf_reader_new m af d s, dbf_reader_new m af d' s with
  | Ok (ROk r), Ok (ROk r') => same_dbf d d' r r'
  | Ok (RErr e), y => e = DEName \/ y = Ok (RErr e)
  | Panic p, y => y = Panic p
  | _, _ => False
  end.
Proof.
  unfold dbf_reader_new, read_dbf_meta. destruct (read_dbf_header af s) as [[[h|e] s1]|p]; cbn [bind]; auto.
  unfold read_dbf_fields. destruct (header_rest m h) as [n|p]; cbn [bind]; auto.
  destruct (read_exact af n s1) as [[buf|] s2]; cbn [bind]; auto.
  pose proof (fields_redecode (chunks 32 buf) 1 [] [] (Forall2_nil _)) as HF.
  destruct (parse_fields d (chunks 32 buf) 1 []) as [[fs|e]|p]; cbn [bind].
  - destruct (parse_fields d' (chunks 32 buf) 1 []) as [[fs'|e']|p']; try contradiction. cbn [bind]. unfold same_dbf. cbn. auto.
  - auto.
  - rewrite HF. reflexivity.
Qed.

Lemma open_redecode m afs afd shp dbf :
  match sf_open m afs afd d shp dbf, sf_open m afs afd d' shp dbf with
  | Ok (ROk r), Ok (ROk r') => same_sf d d' r r'
  | Ok (RErr e), y => e = SFDbf DEName \/ y = Ok (RErr e)
  | Panic p, y => y = Panic p
  | _, _ => False
  end.
Proof.
  unfold sf_open. destruct (match shp with None => _ | Some s => _ end) as [[x|e]|p]; cbn [bind]; auto.
  destruct dbf as [s|]; cbn [bind]; auto. pose proof (new_redecode m afd s) as HN.
  destruct (dbf_reader_new m afd d s) as [[r|e]|p]; cbn [bind].
  - destruct (dbf_reader_new m afd d' s) as [[r'|e']|p']; try contradiction. cbn [bind]. split; [reflexivity|exact HN].
  - destruct HN as [->|HN]; [left; reflexivity|]. right. rewrite HN. reflexivity.
  - rewrite HN. reflexivity.
Qed.

Lemma string_redecode f f' r : same_field d d' f f' -> read_string f r <> Ok (RErr DEDecode) -> read_string f' r = read_string f r.
Proof.
  intros (_ & HT & HO & HL). unfold read_string. rewrite <- HO, <- HL. destruct (sub_bytes r _ _) as [bytes|p]; cbn [bind]; [|reflexivity].
  destruct HT as [(<- & HT)|(-> & ->)]; [reflexivity|]. destruct (d (trim_end_spaces bytes)) as [s|] eqn:Ed; [|congruence]. rewrite (DD _ _ Ed). reflexivity.
Qed.

Lemma display_redecode r fs fs' : Forall2 (same_field d d') fs fs' -> (forall f, In f fs -> read_string f r <> Ok (RErr DEDecode)) ->
  forall i s, display_fields i fs' r s = display_fields i fs r s.
Proof.
  induction 1 as [|f f' fs fs' HF H IH]; intros HD i s; [reflexivity|]. cbn [display_fields].
  rewrite (string_redecode f f' r HF (HD f (or_introl eq_refl))). destruct (read_string f r) as [[x|e]|p]; cbn [bind]; auto.
  rewrite <- (proj1 HF). apply IH. intros g Hg. apply HD. right. exact Hg.
Qed.

Lemma show_redecode v fs fs' rec : Forall2 (same_field d d') fs fs' -> (forall f, In f fs -> read_string f (sfr_data rec) <> Ok (RErr DEDecode)) ->
  show_sf_record v fs' rec = show_sf_record v fs rec.
Proof. intros H HD. unfold show_sf_record, show_dbf_record, display_record. rewrite (display_redecode _ _ _ H HD). reflexivity. Qed.

(** Readers of the same files give the same records. *)

Lemma dbf_next_same af r r' : same_dbf d d' r r' ->
  fst (dbf_next af r) = fst (dbf_next af r') /\ same_dbf d d' (snd (dbf_next af r)) (snd (dbf_next af r')).
Proof.
  intros (HF & HI & HR & HB & HX). unfold dbf_next. rewrite <- HI, <- HR. destruct (_ =? _); [cbn; unfold same_dbf; auto 10|].
  unfold read_dbf_record. rewrite <- HB, <- HF. destruct (read_exact af _ _) as [[buf|] s']; cbn; unfold same_dbf; cbn; auto 10.
Qed.

Lemma dbf_calls_same af k : forall r r', same_dbf d d' r r' -> calls (dbf_step af) k r = calls (dbf_step af) k r'.
Proof.
  induction k as [|k IH]; intros r r' H; [reflexivity|]. cbn [calls]. unfold dbf_step at 1 3. destruct (dbf_next_same af r r' H) as [E HS].
  destruct (dbf_next af r) as [a r1], (dbf_next af r') as [b r2]. cbn [fst snd] in *. subst b. rewrite (IH r1 r2 HS). reflexivity.
Qed.

Lemma sf_next_same afs afd r r' : same_sf d d' r r' ->
  match sf_next afs afd r, sf_next afs afd r' with
  | Ok (x, q), Ok (x', q') => x = x' /\ same_sf d d' q q'
  | Panic p, Panic p' => p = p'
  | _, _ => False
  end.
Proof.
  intros (HS & HD). unfold sf_next. rewrite <- HS. destruct (shp_next afs (sf_shp r)) as [[a rs]|p]; cbn [bind]; [|reflexivity].
  pose proof (dbf_next_same afd _ _ HD) as (E & HD'). destruct (dbf_next afd (sf_dbf r)) as [b rd], (dbf_next afd (sf_dbf r')) as [b' rd'].
  cbn [fst snd] in *. subst b'. split; [reflexivity|]. split; [reflexivity|exact HD'].
Qed.

Lemma geo_next_same m afs afd g g' : same_sf d d' (gi_reader g) (gi_reader g') -> gi_quantizer g = gi_quantizer g' ->
  match geo_next m afs afd g, geo_next m afs afd g' with
  | Ok (x, q), Ok (x', q') => x = x' /\ same_sf d d' (gi_reader q) (gi_reader q') /\ gi_quantizer q = gi_quantizer q'
  | Panic p, Panic p' => p = p'
  | _, _ => False
  end.
Proof.
  intros HR HQ. unfold geo_next. rewrite <- HQ. pose proof (sf_next_same afs afd _ _ HR) as HN.
  destruct (sf_next afs afd (gi_reader g)) as [[x q]|p], (sf_next afs afd (gi_reader g')) as [[x' q']|p']; try contradiction; cbn [bind]; [|exact HN].
  destruct HN as (<- & HN). destruct x as [[rec|e]|]; auto. destruct (partition_rings _ _ _ _) as [[o i]|p]; cbn [bind]; auto.
Qed.

Lemma import_loop_same m afs afd fuel : forall g g' b n, same_sf d d' (gi_reader g) (gi_reader g') -> gi_quantizer g = gi_quantizer g' ->
  import_loop fuel m afs afd g b n = import_loop fuel m afs afd g' b n.
Proof.
  induction fuel as [|fuel IH]; intros g g' b n HR HQ; [reflexivity|]. cbn [import_loop]. pose proof (geo_next_same m afs afd g g' HR HQ) as HN.
  destruct (geo_next m afs afd g) as [[x q]|p], (geo_next m afs afd g') as [[x' q']|p']; try contradiction; cbn [bind]; [|congruence].
  destruct HN as (<- & HN1 & HN2). destruct x as [[reg|e]|]; auto. destruct (add_region m b reg); cbn [bind]; auto.
Qed.

Lemma program_same v m afs afd shp dbf :
  sf_open m afs afd d shp dbf <> Ok (RErr (SFDbf DEName)) -> shp_to_geo_data v m afs afd d' shp dbf = shp_to_geo_data v m afs afd d shp dbf.
Proof.
  intros HN. pose proof (open_redecode m afs afd shp dbf) as HO. unfold shp_to_geo_data.
  destruct (sf_open m afs afd d shp dbf) as [[r|e]|p].
  - destruct (sf_open m afs afd d' shp dbf) as [[r'|e']|p']; try contradiction.
    assert (EQ : gi_quantizer (geo_iterator_new r) = gi_quantizer (geo_iterator_new r')).
    { cbn [geo_iterator_new gi_quantizer]. unfold sf_bounding_box. rewrite (proj1 HO). reflexivity. }
    assert (EF : import_fuel (geo_iterator_new r) = import_fuel (geo_iterator_new r')).
    { unfold import_fuel. cbn [geo_iterator_new gi_reader]. rewrite (proj1 HO). reflexivity. }
    cbv zeta. rewrite <- EF, (import_loop_same m afs afd _ (geo_iterator_new r) (geo_iterator_new r') builder_new 0 HO EQ). reflexivity.
  - destruct HO as [->|HO]; [congruence|]. rewrite HO. reflexivity.
  - rewrite HO. reflexivity.
Qed.

Lemma cat_loop_same v afs afd fs fs' fuel : Forall2 (same_field d d') fs fs' -> forall r r' n out, same_sf d d' r r' ->
  (forall k items rec f, calls (sf_next afs afd) k r = Ok items -> In (Some (ROk rec)) items -> In f fs -> read_string f (sfr_data rec) <> Ok (RErr DEDecode)) ->
  cat_loop fuel v afs afd fs' r' n out = cat_loop fuel v afs afd fs r n out.
Proof.
  intros HF. induction fuel as [|fuel IH]; intros r r' n out HR HD; [reflexivity|]. cbn [cat_loop]. pose proof (sf_next_same afs afd r r' HR) as HN.
  destruct (sf_next afs afd r) as [[x q]|p] eqn:E, (sf_next afs afd r') as [[x' q']|p']; try contradiction; [|congruence].
  destruct HN as (<- & HN). destruct x as [[rec|e]|]; [|reflexivity|reflexivity].
  rewrite (show_redecode v fs fs' rec HF).
  2:{ intros f Hf. apply (HD 1%nat [Some (ROk rec)] rec f); [|left; reflexivity|exact Hf]. cbn [calls]. rewrite E. reflexivity. }
  destruct (show_sf_record v fs rec); [|reflexivity]. apply IH; [exact HN|].
  intros k items rec' f HC HI Hf. apply (HD (S k) (Some (ROk rec) :: items) rec' f); [|right; exact HI|exact Hf]. cbn [calls]. rewrite E. cbn [bind]. rewrite HC. reflexivity.
Qed.

Lemma cat_same v m afs afd shp dbf : sf_open m afs afd d shp dbf <> Ok (RErr (SFDbf DEName)) ->
  (forall r, sf_open m afs afd d shp dbf = Ok (ROk r) -> decodable afs afd r) ->
  cat_shp v m afs afd d' shp dbf = cat_shp v m afs afd d shp dbf.
Proof.
  intros HN HD. pose proof (open_redecode m afs afd shp dbf) as HO. unfold cat_shp.
  destruct (sf_open m afs afd d shp dbf) as [[r|e]|p].
  - destruct (sf_open m afs afd d' shp dbf) as [[r'|e']|p']; try contradiction. rewrite <- (proj1 HO).
    apply cat_loop_same; [apply HO|exact HO|]. exact (HD r eq_refl).
  - destruct HO as [->|HO]; [congruence|]. rewrite HO. reflexivity.
  - rewrite HO. reflexivity.
Qed.
End Redecode.

(** A decoder that never fails. *)
Lemma total_fields d : (forall bs, d bs <> None) -> forall cs o v e, parse_fields d cs o v <> Ok (RErr e).
Proof.
  intros HD. induction cs as [|c cs IH]; intros o v e; cbn [parse_fields]; [discriminate|]. destruct (negb _); [discriminate|].
  destruct (parse_dbf_field c d o) as [[f|e']|p] eqn:E; cbn [bind]; [apply IH| |discriminate]. exfalso. revert E. unfold parse_dbf_field.
  destruct (sub_bytes c 0 11) as [nb|p]; cbn [bind]; [|discriminate]. specialize (HD (until_zero nb)). destruct (d (until_zero nb)); [|contradiction].
  destruct (get c 11); cbn [bind]; [|discriminate]. destruct (get c 16); cbn [bind]; discriminate.
Qed.

Lemma total_new d m af s : (forall bs, d bs <> None) -> dbf_reader_new m af d s <> Ok (RErr DEName).
Proof.
  intros HD. unfold dbf_reader_new, read_dbf_meta, read_dbf_header, read_dbf_fields. destruct (read_exact af 32 s) as [[buf|] s1]; cbn [bind]; [|discriminate].
  destruct (get buf 2); cbn [bind]; [|discriminate]. destruct (get buf 3); cbn [bind]; [|discriminate]. destruct (_ || _); cbn [bind]; [discriminate|].
  destruct (le_at buf 4 4); cbn [bind]; [|discriminate]. destruct (le_at buf 8 2); cbn [bind]; [|discriminate]. destruct (le_at buf 10 2); cbn [bind]; [|discriminate].
  destruct (header_rest m _); cbn [bind]; [|discriminate]. destruct (read_exact af _ s1) as [[buf'|] s2]; cbn [bind]; [|discriminate].
  pose proof (total_fields d HD (chunks 32 buf') 1 [] DEName) as HF. destruct (parse_fields d _ _ _) as [[fs|e]|p]; cbn [bind]; congruence.
Qed.

Lemma total_open d m afs afd shp dbf : (forall bs, d bs <> None) -> sf_open m afs afd d shp dbf <> Ok (RErr (SFDbf DEName)).
Proof.
  intros HD. unfold sf_open. destruct (match shp with None => _ | Some s => _ end) as [[x|e]|p] eqn:E; cbn [bind]; [| |discriminate].
  - destruct dbf as [s|]; cbn [bind]; [|discriminate]. pose proof (total_new d m afd s HD) as HN.
    destruct (dbf_reader_new m afd d s) as [[r|e]|p]; cbn [bind]; congruence.
  - destruct shp; [destruct (shp_reader_new m afs s) as [[x|e']|p]; cbn [bind] in E; congruence|congruence].
Qed.

Lemma fields_decoder d cs : forall o v fs, parse_fields d cs o v = Ok (ROk fs) -> Forall (fun f => forall e, df_type f = DTCharacter e -> e = d) v ->
  Forall (fun f => forall e, df_type f = DTCharacter e -> e = d) fs.
Proof.
  induction cs as [|c cs IH]; intros o v fs; cbn [parse_fields]; [intros [= <-]; auto|]. destruct (negb _); [intros [= <-]; auto|].
  destruct (parse_dbf_field c d o) as [[f|e']|p] eqn:E; cbn [bind]; try discriminate. intros EP HV. eapply IH; [exact EP|].
  apply Forall_app. split; [exact HV|]. constructor; [|constructor]. revert E. unfold parse_dbf_field.
  destruct (sub_bytes c 0 11) as [nb|p]; cbn [bind]; [|discriminate]. destruct (d (until_zero nb)); [|discriminate].
  destruct (get c 11) as [code|]; cbn [bind]; [|discriminate]. destruct (get c 16); cbn [bind]; [|discriminate]. intros [= <-]. cbn [df_type].
  intros e HE. pose proof (type_code_ok d code) as HT. rewrite HE in HT. unfold type_of_code in HT. cbn [In] in HT. intuition congruence.
Qed.

Lemma open_decoder d m afs afd shp dbf r : sf_open m afs afd d shp dbf = Ok (ROk r) ->
  Forall (fun f => forall e, df_type f = DTCharacter e -> e = d) (sf_dbf_fields r).
Proof.
  unfold sf_open. destruct (match shp with None => _ | Some s => _ end) as [[x|e]|p]; cbn [bind]; try discriminate.
  destruct dbf as [s|]; [|discriminate]. destruct (dbf_reader_new m afd d s) as [[q|e]|p] eqn:E; cbn [bind]; try discriminate. intros [= <-].
  revert E. unfold dbf_reader_new, read_dbf_meta, read_dbf_fields. destruct (read_dbf_header afd s) as [[[h|e] s1]|p]; cbn [bind]; try discriminate.
  destruct (header_rest m h); cbn [bind]; [|discriminate]. destruct (read_exact afd _ s1) as [[buf'|] s2]; cbn [bind]; [|discriminate].
  destruct (parse_fields d (chunks 32 buf') 1 []) as [[fs|e]|p] eqn:E; cbn [bind]; try discriminate. intros [= <-]. cbn.
  eapply fields_decoder; [exact E|constructor].
Qed.

Lemma total_decodable d m afs afd shp dbf r : (forall bs, d bs <> None) -> sf_open m afs afd d shp dbf = Ok (ROk r) -> decodable afs afd r.
Proof.
  intros HD E k items rec f _ _ HF. pose proof (open_decoder d m afs afd shp dbf r E) as HT. rewrite Forall_forall in HT. specialize (HT f HF).
  unfold read_string. destruct (sub_bytes _ _ _) as [bs|p]; cbn [bind]; [|discriminate]. destruct (df_type f); try discriminate.
  - rewrite (HT _ eq_refl). specialize (HD (trim_end_spaces bs)). destruct (d _); [discriminate|contradiction].
  - destruct (match_number bs); discriminate.
  - destruct (read_le 4 bs); cbn [bind]; discriminate.
Qed.

(** ** Paths *)

Lemma span_app c l : fst (span_until c l) ++ snd (span_until c l) = l.
Proof. induction l as [|b t IH]; [reflexivity|]. cbn [span_until]. destruct (b =? c); [reflexivity|]. destruct (span_until c t). cbn [fst snd app] in *. congruence. Qed.

Lemma span_fst c l : ~ In c (fst (span_until c l)).
Proof. induction l as [|b t IH]; [intros []|]. cbn [span_until]. destruct (Z.eqb_spec b c); [intros []|]. destruct (span_until c t). cbn [fst] in *. intros [H|H]; auto. Qed.

Lemma span_snd c l : snd (span_until c l) = [] \/ exists t, snd (span_until c l) = c :: t.
Proof. induction l as [|b t IH]; [left; reflexivity|]. cbn [span_until]. destruct (Z.eqb_spec b c); [right; subst; exists t; reflexivity|]. destruct (span_until c t). exact IH. Qed.

Lemma span_at c a b : ~ In c a -> (b = [] \/ exists t, b = c :: t) -> span_until c (a ++ b) = (a, b).
Proof.
  intros HA HB. induction a as [|x a IH]; cbn [app].
  - destruct HB as [->|(t & ->)]; [reflexivity|]. cbn [span_until]. rewrite Z.eqb_refl. reflexivity.
  - cbn [span_until]. destruct (Z.eqb_spec x c); [exfalso; apply HA; left; assumption|]. rewrite IH by (intros H; apply HA; right; exact H). reflexivity.
Qed.

Lemma strip_idem r : strip_end (strip_end r) = strip_end r.
Proof.
  remember (length r) as n. assert (HL : (length r <= n)%nat) by lia. clear Heqn. revert r HL. induction n as [|n IH]; intros r HL.
  - destruct r; [reflexivity|cbn in HL; lia].
  - destruct r as [|b t]; [reflexivity|]. cbn [length] in HL. destruct (Z.eq_dec b 47) as [->|N1]; [cbn [strip_end]; apply IH; lia|].
    destruct (Z.eq_dec b 46) as [->|N2].
    + destruct t as [|c t]; [reflexivity|]. destruct (Z.eq_dec c 47) as [->|N3]; [cbn [strip_end]; apply IH; cbn [length] in HL; lia|].
      assert (E : strip_end (46 :: c :: t) = 46 :: c :: t) by (destruct c as [|q|q]; try reflexivity; do 6 (destruct q as [q|q|]; try reflexivity); congruence).
      rewrite !E. reflexivity.
    + assert (E : strip_end (b :: t) = b :: t).
      { destruct b as [|q|q]; try reflexivity. do 6 (destruct q as [q|q|]; try reflexivity); congruence. }
      rewrite !E. reflexivity.
Qed.

Lemma strip_keep b t : b <> 47 -> (b = 46 -> forall t', t <> 47 :: t') -> strip_end (b :: t) = b :: t.
Proof.
  intros H1 H2. destruct (Z.eq_dec b 46) as [->|N].
  - specialize (H2 eq_refl). destruct t as [|c t]; [reflexivity|]. assert (c <> 47) by (intros ->; eapply H2; reflexivity).
    destruct c as [|q|q]; try reflexivity. do 6 (destruct q as [q|q|]; try reflexivity); congruence.
  - destruct b as [|q|q]; try reflexivity. do 6 (destruct q as [q|q|]; try reflexivity); congruence.
Qed.

Lemma directory_rev d : directory d -> rev d = [] \/ exists t, rev d = 47 :: t.
Proof. intros [->|(d' & ->)]; [left; reflexivity|]. right. exists (rev d'). rewrite rev_app_distr. reflexivity. Qed.

(** A path that ends in a file name. *)
Lemma split_name dir n : directory dir -> file_name n -> split_file_name (dir ++ n) = Some (dir, n).
Proof.
  intros HD (HS & N1 & N2 & N3). unfold split_file_name. rewrite rev_app_distr.
  assert (Nr : rev n <> []) by (intros E; apply N1; rewrite <- (rev_involutive n), E; reflexivity).
  assert (Er : forall l, rev n = l -> n = rev l) by (intros l <-; rewrite rev_involutive; reflexivity).
  assert (X : strip_end (rev n ++ rev dir) = rev n ++ rev dir).
  { destruct (rev n) as [|b t] eqn:E; [congruence|]. specialize (Er _ eq_refl). cbn [app]. apply strip_keep.
    - intros ->. apply HS. rewrite in_rev, E. left. reflexivity.
    - intros -> t' Et. destruct t as [|c t]; [apply N2; exact Er|]. injection Et as -> _. apply HS. rewrite in_rev, E. right. left. reflexivity. }
  rewrite X, span_at; [|intros H; apply HS; rewrite in_rev; exact H|apply directory_rev, HD].
  destruct (rev n) as [|b t] eqn:E; [congruence|]. specialize (Er _ eq_refl).
  assert (Y : b :: t <> [46]) by (intros Y; rewrite Y in Er; apply N2; exact Er).
  assert (Y' : b :: t <> [46; 46]) by (intros Y'; rewrite Y' in Er; apply N3; exact Er).
  replace (Some (dir, n)) with (Some (rev (rev dir), rev (b :: t))) by (rewrite rev_involutive, <- Er; reflexivity).
  clear -Y Y'. destruct t as [|c t].
  - destruct b as [|q|q]; try reflexivity. do 6 (destruct q as [q|q|]; try reflexivity). congruence.
  - destruct t as [|e t].
    + destruct b as [|q|q]; try reflexivity. do 6 (destruct q as [q|q|]; try reflexivity). destruct c as [|q|q]; try reflexivity. do 6 (destruct q as [q|q|]; try reflexivity). congruence.
    + destruct b as [|q|q]; try reflexivity. do 6 (destruct q as [q|q|]; try reflexivity). destruct c as [|q|q]; try reflexivity. do 6 (destruct q as [q|q|]; try reflexivity).
Qed.

Lemma split_parts p dir n : split_file_name p = Some (dir, n) -> directory dir /\ file_name n /\ exists rest, p = dir ++ n ++ rest.
Proof.
  unfold split_file_name. pose proof (span_app 47 (strip_end (rev p))) as HA. pose proof (span_fst 47 (strip_end (rev p))) as HF. pose proof (span_snd 47 (strip_end (rev p))) as HS.
  destruct (span_until 47 (strip_end (rev p))) as [x y]. cbn [fst snd] in *. intros E.
  assert (X : x <> [] /\ x <> [46] /\ x <> [46; 46] /\ dir = rev y /\ n = rev x).
  { repeat split; try (intros ->; cbn in E; discriminate).
    - destruct x as [|b t]; [discriminate|]. repeat match type of E with context [match ?z with _ => _ end] => destruct z; try discriminate end; congruence.
    - destruct x as [|b t]; [discriminate|]. repeat match type of E with context [match ?z with _ => _ end] => destruct z; try discriminate end; congruence. }
  destruct X as (X1 & X2 & X3 & -> & ->). split; [|split].
  - destruct HS as [->|(t & ->)]; [left; reflexivity|]. right. exists (rev t). reflexivity.
  - repeat split.
    + intros H. rewrite <- in_rev in H. exact (HF H).
    + intros H. apply X1. rewrite <- (rev_involutive x), H. reflexivity.
    + intros H. apply X2. rewrite <- (rev_involutive x), H. reflexivity.
    + intros H. apply X3. rewrite <- (rev_involutive x), H. reflexivity.
  - assert (Y : forall r, exists p', r = p' ++ strip_end r).
    { clear. intros r. remember (length r) as n. assert (HL : (length r <= n)%nat) by lia. clear Heqn. revert r HL. induction n as [|n IH]; intros r HL.
      - destruct r; [exists []; reflexivity|cbn in HL; lia].
      - destruct r as [|b t]; [exists []; reflexivity|]. cbn [length] in HL. destruct (Z.eq_dec b 47) as [->|N1].
        + destruct (IH t) as (q & E); [lia|]. exists (47 :: q). cbn [strip_end app]. congruence.
        + destruct (Z.eq_dec b 46) as [->|N2].
          * destruct t as [|c t]; [exists []; reflexivity|]. destruct (Z.eq_dec c 47) as [->|N3].
            -- destruct (IH t) as (q & E); [cbn [length] in HL; lia|]. exists (46 :: 47 :: q). cbn [strip_end app]. congruence.
            -- exists []. rewrite strip_keep; [reflexivity|lia|]. intros _ t' Et. congruence.
          * exists []. rewrite strip_keep; [reflexivity|assumption|]. intros; congruence. }
    destruct (Y (rev p)) as (q & Eq). rewrite <- HA in Eq. exists (rev q). rewrite app_assoc, <- rev_app_distr, <- rev_app_distr, <- Eq, rev_involutive. reflexivity.
Qed.

Lemma stem_ext base ext : base <> [] -> no_dot ext -> file_stem (base ++ [46] ++ ext) = base.
Proof.
  intros HB HE. unfold file_stem. rewrite !rev_app_distr. change (rev [46]) with [46]. rewrite <- app_assoc. cbn [app].
  rewrite span_at; [|intros H; apply HE; rewrite in_rev; exact H|right; eexists; reflexivity].
  destruct (rev base) as [|b t] eqn:E; [exfalso; apply HB; rewrite <- (rev_involutive base), E; reflexivity|]. rewrite <- E. apply rev_involutive.
Qed.

Lemma stem_plain n : no_dot (tl n) -> file_stem n = n.
Proof.
  intros H. unfold file_stem. destruct n as [|b t]; [reflexivity|]. cbn [tl rev] in *.
  destruct (Z.eq_dec b 46) as [->|N].
  - rewrite span_at; [reflexivity| |right; eexists; reflexivity]. intros HI. apply H. rewrite in_rev. exact HI.
  - rewrite <- (app_nil_r (rev t ++ [b])), span_at; [reflexivity| |left; reflexivity].
    rewrite in_app_iff. intros [HI|[HI|[]]]; [apply H; rewrite in_rev; exact HI|congruence].
Qed.

(** A name is a stem without extension, or a stem, a dot and an extension. *)
Lemma name_cases n : no_dot (tl n) \/ exists base ext, base <> [] /\ no_dot ext /\ n = base ++ [46] ++ ext.
Proof.
  pose proof (span_app 46 (rev n)) as HA. pose proof (span_fst 46 (rev n)) as HF. pose proof (span_snd 46 (rev n)) as HS.
  destruct (span_until 46 (rev n)) as [x y]. cbn [fst snd] in *.
  assert (En : n = rev y ++ rev x) by (rewrite <- rev_app_distr, HA, rev_involutive; reflexivity).
  assert (Hx : no_dot (rev x)) by (intros H; apply HF; rewrite in_rev; exact H).
  destruct HS as [->|(t & ->)].
  - left. rewrite En. cbn [rev app]. intros H. apply Hx. destruct (rev x); [exact H|right; exact H].
  - destruct t as [|c t].
    + left. rewrite En. cbn [rev app tl]. exact Hx.
    + right. exists (rev (c :: t)), (rev x). split; [cbn [rev]; destruct (rev t); discriminate|]. split; [exact Hx|]. rewrite En. cbn [rev]. rewrite <- !app_assoc. reflexivity.
Qed.

Lemma stem_cases n : n <> [] -> file_stem n <> [] /\ (no_slash n -> no_slash (file_stem n)).
Proof.
  intros HN. destruct (name_cases n) as [H|(base & ext & HB & HE & ->)].
  - rewrite stem_plain by exact H. auto.
  - rewrite stem_ext by assumption. split; [exact HB|]. intros HS HI. apply HS. apply in_app_iff. auto.
Qed.

(** ** The command line *)

Lemma args_path run program path s s' : decode_utf8 program = Some s -> decode_utf8 path = Some s' -> with_args run [program; path] = run path.
Proof. intros H1 H2. cbn. rewrite H1, H2. reflexivity. Qed.

Lemma sf_calls_same d d' afs afd k : forall r r', same_sf d d' r r' -> calls (sf_next afs afd) k r = calls (sf_next afs afd) k r'.
Proof.
  induction k as [|k IH]; intros r r' H; [reflexivity|]. cbn [calls]. pose proof (sf_next_same d d' afs afd r r' H) as HN.
  destruct (sf_next afs afd r) as [[x q]|p], (sf_next afs afd r') as [[x' q']|p']; try contradiction; cbn [bind]; [|congruence].
  destruct HN as (<- & HN). rewrite (IH q q' HN). reflexivity.
Qed.

Lemma windows_total bs : decode_windows1252 bs <> None.
Proof. discriminate. Qed.

Lemma ascii_utf8 : extends decode_ascii decode_utf8.
Proof. intros bs s H. apply ascii_iff in H as (-> & H). apply utf8_ascii, H. Qed.
Lemma ascii_windows : extends decode_ascii decode_windows1252.
Proof. intros bs s H. apply ascii_iff in H as (-> & H). apply windows_ascii, H. Qed.

Lemma args_crash run args lines p : with_args run args = (lines, Crashed p) ->
  (p = PUnwrap /\ lines = [] /\ (args = [] \/ exists a, In a args /\ decode_utf8 a = None)) \/
  exists program path, args = [program; path] /\ run path = (lines, Crashed p).
Proof.
  destruct args as [|a [|b [|c rest]]]; cbn [with_args]; [intros [= <- <-]; auto| | |].
  - destruct (decode_utf8 a) eqn:E; [discriminate|]. intros [= <- <-]. left. repeat split. right. exists a. split; [left; reflexivity|exact E].
  - destruct (decode_utf8 a) eqn:E; [|intros [= <- <-]; left; repeat split; right; exists a; split; [left; reflexivity|exact E]].
    destruct (decode_utf8 b) eqn:E'; [|intros [= <- <-]; left; repeat split; right; exists b; split; [right; left; reflexivity|exact E']].
    intros H. right. eauto.
  - destruct (decode_utf8 a) eqn:E; [discriminate|]. intros [= <- <-]. left. repeat split. right. exists a. split; [left; reflexivity|exact E].
Qed.
