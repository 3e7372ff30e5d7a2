(** * DbfProofs: lemmas about the .dbf reader *)
From Verif Require Import DbfSpec GeoProofs TopoProofs BytesProofs ShpProofs ShpLaws.

(** ** Header *)
Lemma dbf_header_length v y mo d n h r res : dbf_header_fields v y mo d n h r res -> length (dbf_header_bytes v y mo d n h r res) = 32%nat.
Proof. intros (_ & _ & _ & H). unfold dbf_header_bytes. lens. cbn [length]. lia. Qed.

Lemma dbf_header_read af v y mo d n h r res rest : dbf_header_fields v y mo d n h r res ->
  read_dbf_header af (dbf_header_bytes v y mo d n h r res ++ rest) =
  Ok (if (12 <? mo) || (31 <? d) then RErr DEDate else ROk (DHeader n h r), rest).
Proof.
  intros HF. pose proof (dbf_header_length v y mo d n h r res HF) as HL. destruct HF as (Hn & Hh & Hr & Hres).
  unfold read_dbf_header. rewrite read_exact_app by (rewrite HL; reflexivity).
  unfold dbf_header_bytes. cbn [app get get_or nth_error bind].
  change (get (v :: y :: mo :: d :: le_bytes 4 n ++ le_bytes 2 h ++ le_bytes 2 r ++ res) 2) with (Ok mo).
  change (get (v :: y :: mo :: d :: le_bytes 4 n ++ le_bytes 2 h ++ le_bytes 2 r ++ res) 3) with (Ok d). cbn [bind].
  destruct ((12 <? mo) || (31 <? d)); [reflexivity|].
  rewrite (le_at_app [v; y; mo; d] _ 4 4 n eq_refl Hn : le_at (v :: y :: mo :: d :: le_bytes 4 n ++ _) 4 4 = _). cbn [bind].
  assert (E : le_at (v :: y :: mo :: d :: le_bytes 4 n ++ le_bytes 2 h ++ le_bytes 2 r ++ res) 8 2 = Ok h).
  { change (v :: y :: mo :: d :: le_bytes 4 n ++ le_bytes 2 h ++ le_bytes 2 r ++ res) with ([v; y; mo; d] ++ le_bytes 4 n ++ le_bytes 2 h ++ le_bytes 2 r ++ res).
    apply le_at_app2; [lens; reflexivity|exact Hh]. }
  rewrite E. clear E. cbn [bind].
  assert (E : le_at (v :: y :: mo :: d :: le_bytes 4 n ++ le_bytes 2 h ++ le_bytes 2 r ++ res) 10 2 = Ok r).
  { change (v :: y :: mo :: d :: le_bytes 4 n ++ le_bytes 2 h ++ le_bytes 2 r ++ res) with ([v; y; mo; d] ++ le_bytes 4 n ++ le_bytes 2 h ++ le_bytes 2 r ++ res).
    rewrite app_assoc. apply le_at_app2; [lens; reflexivity|exact Hr]. }
  rewrite E. reflexivity.
Qed.

Lemma dbf_header_form s : bytes_ok s -> (32 <= length s)%nat ->
  exists v y mo d n h r res rest, dbf_header_fields v y mo d n h r res /\ is_byte mo /\ is_byte d /\
    s = dbf_header_bytes v y mo d n h r res ++ rest /\ bytes_ok rest.
Proof.
  intros H HL. destruct (cut 4 s H) as (a1 & s1 & -> & L1 & O1 & H1); [lia|]. rewrite app_length in HL.
  destruct (cut 4 s1 H1) as (a2 & s2 & -> & L2 & O2 & H2); [lia|]. rewrite app_length in HL.
  destruct (cut 2 s2 H2) as (a3 & s3 & -> & L3 & O3 & H3); [lia|]. rewrite app_length in HL.
  destruct (cut 2 s3 H3) as (a4 & s4 & -> & L4 & O4 & H4); [lia|]. rewrite app_length in HL.
  destruct (cut 20 s4 H4) as (a5 & s5 & -> & L5 & O5 & H5); [lia|].
  destruct (le_form 4 a2 O2 L2) as (n & In' & ->). destruct (le_form 2 a3 O3 L3) as (h & Ih & ->). destruct (le_form 2 a4 O4 L4) as (r & Ir & ->).
  destruct a1 as [|v [|y [|mo [|d [|]]]]]; try discriminate. inversion O1 as [|? ? ? O1']; subst. inversion O1' as [|? ? ? O1'']; subst.
  inversion O1'' as [|? ? Hmo O1''']; subst. inversion O1''' as [|? ? Hd _]; subst.
  exists v, y, mo, d, n, h, r, a5, s5. unfold dbf_header_fields, dbf_header_bytes. rewrite <- !app_assoc. tauto.
Qed.

(** ** Descriptors *)
Lemma descriptor_length d : descriptor_ok d -> length (descriptor_bytes d) = 32%nat.
Proof.
  intros (H1 & _ & _ & H2 & _ & H3). unfold descriptor_bytes. rewrite app_assoc, app_length, H1, !app_length, H2, H3. reflexivity.
Qed.

Lemma until_zero_app name fill : ~ In 0 name -> (fill = [] \/ exists t, fill = 0 :: t) -> until_zero (name ++ fill) = name.
Proof.
  intros Hn Hf. induction name as [|b name IH]; cbn.
  - destruct Hf as [->|[t ->]]; reflexivity.
  - destruct (Z.eqb_spec b 0) as [->|]; [exfalso; apply Hn; left; reflexivity|]. rewrite IH; [reflexivity|]. intros H. apply Hn. right. exact H.
Qed.

Lemma type_code_ok enc c : type_of_code enc c (dbf_type_with_code c enc).
Proof.
  destruct (in_dec Z.eq_dec c [67; 78; 76; 68; 70; 64; 79; 43; 124]) as [H|H].
  - cbn in H. unfold type_of_code. decompose [or] H; subst; try contradiction; cbn [dbf_type_with_code]; tauto.
  - unfold type_of_code. right. right. right. right. right. right. right. right. split; [exact H|].
    unfold dbf_type_with_code. repeat match goal with |- context [match ?x with _ => _ end] => is_var x; destruct x; try reflexivity end; exfalso; apply H; cbn; tauto.
Qed.

Lemma get_app {A} (a : list A) x b i : length a = i -> get (a ++ x :: b) i = Ok x.
Proof. intros <-. unfold get, get_or. rewrite nth_error_app2 by lia. rewrite Nat.sub_diag. reflexivity. Qed.

Lemma parse_descriptor enc d o : descriptor_ok d ->
  parse_dbf_field (descriptor_bytes d) enc o =
  Ok (match enc (de_name d) with
      | None => RErr DEName
      | Some name => ROk (DField name (dbf_type_with_code (de_code d) enc) o (Z.to_nat (de_len d)))
      end).
Proof.
  intros (H1 & Hz & Hf & H2 & _ & H3). unfold parse_dbf_field.
  assert (E : sub_bytes (descriptor_bytes d) 0 11 = Ok (de_name d ++ de_fill d)).
  { unfold descriptor_bytes. rewrite app_assoc. apply (sub_bytes_app [] (de_name d ++ de_fill d)); [reflexivity|]. rewrite H1. reflexivity. }
  rewrite E. clear E. cbn [bind]. rewrite until_zero_app by assumption. destruct (enc (de_name d)) as [name|]; [|reflexivity].
  assert (E : get (descriptor_bytes d) 11 = Ok (de_code d)).
  { unfold descriptor_bytes. rewrite app_assoc. apply get_app. exact H1. }
  rewrite E. clear E. cbn [bind].
  assert (E : get (descriptor_bytes d) 16 = Ok (de_len d)).
  { unfold descriptor_bytes. rewrite 3 app_assoc. apply get_app. rewrite !app_length. cbn [length]. rewrite !app_length in H1. lia. }
  rewrite E. reflexivity.
Qed.

(** Every 32 bytes are a descriptor. *)
Lemma name_form l : exists name fill, l = name ++ fill /\ ~ In 0 name /\ (fill = [] \/ exists t, fill = 0 :: t).
Proof.
  induction l as [|b l (name & fill & -> & Hn & Hf)]; [exists [], []; auto|]. destruct (Z.eq_dec b 0) as [->|Hb].
  - exists [], (0 :: name ++ fill). split; [reflexivity|]. split; [auto|]. right. eexists. reflexivity.
  - exists (b :: name), fill. split; [reflexivity|]. split; [|exact Hf]. intros [H|H]; [congruence|exact (Hn H)].
Qed.
Lemma descriptor_form c : bytes_ok c -> length c = 32%nat -> exists d, c = descriptor_bytes d /\ descriptor_ok d.
Proof.
  intros H HL. destruct (cut 11 c H) as (a1 & s1 & -> & L1 & O1 & H1); [lia|]. rewrite app_length in HL.
  destruct (cut 1 s1 H1) as (a2 & s2 & -> & L2 & O2 & H2); [lia|]. rewrite app_length in HL.
  destruct (cut 4 s2 H2) as (a3 & s3 & -> & L3 & O3 & H3); [lia|]. rewrite app_length in HL.
  destruct (cut 1 s3 H3) as (a4 & s4 & -> & L4 & O4 & H4); [lia|]. rewrite app_length in HL.
  destruct (name_form a1) as (name & fill & -> & Hn & Hf). destruct a2 as [|code [|]]; try discriminate. destruct a4 as [|len [|]]; try discriminate.
  inversion O4; subst. exists (Desc name fill code a3 len s4). unfold descriptor_bytes, descriptor_ok. cbn [de_name de_fill de_code de_a de_len de_b].
  split; [rewrite <- !app_assoc; reflexivity|]. repeat split; try assumption; cbn [length] in *; try lia; apply H6.
Qed.

(** The loop over the descriptors. *)
Inductive parsed_fields (enc : decoder) (o : nat) (v : list dbf_field) : list descriptor -> result (list dbf_field) dbf_error -> Prop :=
| PFOk ds fs : described enc o ds fs -> parsed_fields enc o v ds (ROk (v ++ fs))
| PFErr ds : (exists d, In d ds /\ enc (de_name d) = None) -> parsed_fields enc o v ds (RErr DEName).

Lemma parse_fields_ok enc ds tail o v : Forall descriptor_ok ds -> (length tail < 32)%nat ->
  exists out, parse_fields enc (map descriptor_bytes ds ++ match tail with [] => [] | _ => [tail] end) o v = Ok out /\ parsed_fields enc o v ds out.
Proof.
  intros H Ht. revert o v. induction H as [|d ds Hd H IH]; intros o v.
  - exists (ROk v). split; [|rewrite <- (app_nil_r v) at 2; constructor; exact I]. destruct tail as [|x t]; [reflexivity|].
    cbn [map app parse_fields]. destruct (Nat.eqb_spec (length (x :: t)) 32); [lia|reflexivity].
  - cbn [map app parse_fields]. rewrite descriptor_length by exact Hd. cbn [Nat.eqb negb]. rewrite parse_descriptor by exact Hd. cbn [bind].
    destruct (enc (de_name d)) as [name|] eqn:En.
    + destruct (IH (o + Z.to_nat (de_len d))%nat (v ++ [DField name (dbf_type_with_code (de_code d) enc) o (Z.to_nat (de_len d))])) as (out & E & P).
      cbn [df_len]. rewrite E. exists out. split; [reflexivity|]. destruct P as [ds fs P|ds (d' & Hin & Hd')].
      * rewrite <- app_assoc. cbn [app]. constructor. cbn [described df_name df_type df_offset df_len]. repeat split; try assumption. apply type_code_ok.
      * constructor. exists d'. split; [right; exact Hin|exact Hd'].
    + exists (RErr DEName). split; [reflexivity|]. constructor. exists d. split; [left; reflexivity|exact En].
Qed.

Lemma described_names enc o ds fs : described enc o ds fs -> Forall (fun d => enc (de_name d) <> None) ds.
Proof.
  revert o fs. induction ds as [|d ds IH]; intros o fs H; [constructor|]. destruct fs as [|f fs]; [contradiction|].
  destruct H as (H1 & _ & _ & _ & H2). constructor; [congruence|eapply IH, H2].
Qed.

(** ** The file prefix *)
Lemma prefix_new m af enc v y mo d n rlen res ds tail rest :
  dbf_header_fields v y mo d n (32 + 32 * Z.of_nat (length ds) + Z.of_nat (length tail)) rlen res ->
  Forall descriptor_ok ds -> (length tail < 32)%nat -> mo <= 12 -> d <= 31 ->
  exists out, parsed_fields enc 1 [] ds out /\
    dbf_reader_new m af enc (dbf_prefix v y mo d n rlen res ds tail ++ rest) =
    Ok (match out with ROk fs => ROk (DbfReader rest 0 (DMeta n rlen fs)) | RErr e => RErr e end).
Proof.
  intros HF HD HT Hmo Hd. destruct (parse_fields_ok enc ds tail 1 [] HD HT) as (out & E & P). exists out. split; [exact P|].
  unfold dbf_prefix. rewrite <- !app_assoc. unfold dbf_reader_new, read_dbf_meta. rewrite dbf_header_read by exact HF.
  destruct (Z.ltb_spec 12 mo); [lia|]. destruct (Z.ltb_spec 31 d); [lia|]. cbn [orb bind].
  unfold read_dbf_fields, header_rest. cbn [dh_header_bytes].
  destruct (Z.ltb_spec (32 + 32 * Z.of_nat (length ds) + Z.of_nat (length tail)) 32); [lia|]. cbn [bind].
  assert (F : Forall (fun c => length c = 32%nat) (map descriptor_bytes ds)).
  { apply Forall_map. eapply Forall_impl; [|exact HD]. intros x. apply descriptor_length. }
  rewrite app_assoc. rewrite read_exact_app.
  2:{ rewrite app_length, (concat_length_const 32) by exact F. rewrite map_length. lia. }
  rewrite chunks_concat by (try exact F; lia). rewrite E. cbn [bind]. destruct out; reflexivity.
Qed.

Lemma prefix_read m af enc v y mo d n rlen res ds tail fs rest :
  dbf_header_fields v y mo d n (32 + 32 * Z.of_nat (length ds) + Z.of_nat (length tail)) rlen res ->
  Forall descriptor_ok ds -> (length tail < 32)%nat -> mo <= 12 -> d <= 31 -> described enc 1 ds fs ->
  exists fs', described enc 1 ds fs' /\
    dbf_reader_new m af enc (dbf_prefix v y mo d n rlen res ds tail ++ rest) = Ok (ROk (DbfReader rest 0 (DMeta n rlen fs'))).
Proof.
  intros HF HD HT Hmo Hd Hfs. destruct (prefix_new m af enc v y mo d n rlen res ds tail rest HF HD HT Hmo Hd) as (out & P & E).
  destruct P as [ds fs' P|ds (d' & Hin & Hn)]; [exists fs'; split; [exact P|exact E]|].
  exfalso. apply described_names in Hfs. rewrite Forall_forall in Hfs. exact (Hfs d' Hin Hn).
Qed.

Lemma type_of_code_fun enc c t t' : type_of_code enc c t -> type_of_code enc c t' -> t = t'.
Proof.
  unfold type_of_code. cbn [In]. intros H H'. decompose [or and] H; decompose [or and] H'; subst; try discriminate; try reflexivity; exfalso; tauto.
Qed.
Lemma described_fun enc o ds fs fs' : described enc o ds fs -> described enc o ds fs' -> fs = fs'.
Proof.
  revert o fs fs'. induction ds as [|d ds IH]; intros o [|f fs] [|f' fs']; cbn [described]; try contradiction; auto.
  intros (H1 & H2 & H3 & H4 & H5) (H1' & H2' & H3' & H4' & H5').
  assert (Hl : df_len f = df_len f') by congruence. rewrite Hl in H5. f_equal; [|exact (IH _ _ _ H5 H5')].
  destruct f as [n1 t1 o1 l1], f' as [n2 t2 o2 l2]. cbn [df_name df_type df_offset df_len] in *. f_equal; try congruence. exact (type_of_code_fun _ _ _ _ H2 H2').
Qed.

(** Fields lie one after another. *)
Lemma described_holds enc ds fs pre vs post :
  described enc (length pre) ds fs -> Forall2 (fun d v => length v = Z.to_nat (de_len d)) ds vs ->
  Forall2 (fun f v => holds f (pre ++ concat vs ++ post) v) fs vs.
Proof.
  intros H HV. revert pre fs H. induction HV as [|d v ds vs Hv HV IH]; intros pre fs H; destruct fs as [|f fs]; try contradiction; [constructor|].
  destruct H as (_ & _ & Ho & Hl & H). constructor.
  - exists pre, (concat vs ++ post). cbn [concat]. rewrite <- app_assoc. split; [reflexivity|]. split; [exact Ho|congruence].
  - cbn [concat]. rewrite <- app_assoc, app_assoc. apply IH. rewrite app_length. replace (length v) with (df_len f) by congruence. exact H.
Qed.

(** ** Iterating *)
Lemma calls_fail af meta n : leaves_suffix af -> forall s k it, (length s < Z.to_nat (dm_record_bytes meta))%nat ->
  it + Z.of_nat n = dm_records meta ->
  calls (dbf_step af) (n + k) (DbfReader s it meta) = Ok (repeat (Some (RErr DEIo)) n ++ repeat None k).
Proof.
  intros Ha. induction n as [|n IH]; intros s k it Hs Hit.
  - apply calls_fixed. unfold dbf_step, dbf_next. cbn [dbr_iterated dbr_meta]. destruct (Z.eqb_spec it (dm_records meta)); [reflexivity|lia].
  - cbn [Nat.add repeat app]. rewrite (calls_app _ _ (Some (RErr DEIo)) (DbfReader (af s (dm_record_bytes meta)) (it + 1) meta)).
    + rewrite IH; [reflexivity| |lia]. pose proof (af_length af s (dm_record_bytes meta) Ha). lia.
    + unfold dbf_step, dbf_next. cbn [dbr_iterated dbr_meta dbr_file]. destruct (Z.eqb_spec it (dm_records meta)); [lia|].
      unfold read_dbf_record. rewrite read_exact_short by lia. reflexivity.
Qed.

Lemma skipn_skipn' {A} a b (l : list A) : skipn a (skipn b l) = skipn (b + a) l.
Proof. revert l. induction b as [|b IH]; intros l; cbn [Nat.add skipn]; [reflexivity|]. destruct l; [apply skipn_nil|apply IH]. Qed.
Lemma map_repeat {A B} (f : A -> B) l b : (forall a, In a l -> f a = b) -> map f l = repeat b (length l).
Proof. induction l as [|a l IH]; intros H; cbn; [reflexivity|]. rewrite H by (left; reflexivity). rewrite IH; [reflexivity|]. intros; apply H; right; assumption. Qed.

Lemma dbf_iterate af meta n : leaves_suffix af -> 0 <= dm_record_bytes meta -> forall s k it,
  it + Z.of_nat n = dm_records meta ->
  calls (dbf_step af) (n + k) (DbfReader s it meta) =
  Ok (map (fun i => Some (item_at (Z.to_nat (dm_record_bytes meta)) s i)) (seq 0 n) ++ repeat None k).
Proof.
  intros Ha Hrb. set (rb := Z.to_nat (dm_record_bytes meta)). induction n as [|n IH]; intros s k it Hit.
  - apply calls_fixed. unfold dbf_step, dbf_next. cbn [dbr_iterated dbr_meta]. destruct (Z.eqb_spec it (dm_records meta)); [reflexivity|lia].
  - destruct (Nat.lt_ge_cases (length s) rb) as [HL|HL].
    + rewrite calls_fail by (auto; lia). f_equal. f_equal. symmetry. rewrite (map_repeat _ _ (Some (RErr DEIo))); [rewrite seq_length; reflexivity|].
      intros i _. unfold item_at. destruct (Nat.leb_spec ((i + 1) * rb) (length s)); [nia|reflexivity].
    + cbn [Nat.add]. assert (Es : s = firstn rb s ++ skipn rb s) by (symmetry; apply firstn_skipn).
      rewrite (calls_app _ _ (Some (ROk (firstn rb s))) (DbfReader (skipn rb s) (it + 1) meta)).
      * rewrite IH by lia. cbn [seq map app]. f_equal. f_equal.
        -- unfold item_at. cbn [Nat.add Nat.mul skipn]. destruct (Nat.leb_spec (rb + 0) (length s)); [reflexivity|lia].
        -- f_equal. rewrite <- seq_shift, map_map. apply map_ext. intros i. f_equal. unfold item_at. rewrite skipn_length.
           destruct (Nat.leb_spec ((i + 1) * rb) (length s - rb)), (Nat.leb_spec ((S i + 1) * rb) (length s)); try nia; try reflexivity.
           rewrite skipn_skipn'. reflexivity.
      * unfold dbf_step, dbf_next. cbn [dbr_iterated dbr_meta dbr_file]. destruct (Z.eqb_spec it (dm_records meta)); [lia|].
        unfold read_dbf_record. rewrite Es at 1. rewrite read_exact_app by (rewrite firstn_length; unfold rb; lia). reflexivity.
Qed.

(** ** Reading fields *)
Lemma drop_spaces_app k l : drop_spaces (repeat 32 k ++ l) = drop_spaces l.
Proof. induction k as [|k IH]; cbn; [reflexivity|]. exact IH. Qed.
Lemma drop_spaces_stop b l : b <> 32 -> drop_spaces (b :: l) = b :: l.
Proof. intros H. cbn. destruct (Z.eqb_spec b 32); [contradiction|reflexivity]. Qed.
Lemma drop_spaces_form l : exists k, l = repeat 32 k ++ drop_spaces l /\ (drop_spaces l = [] \/ exists b t, drop_spaces l = b :: t /\ b <> 32).
Proof.
  induction l as [|b l (k & IH & H)]; [exists 0%nat; auto|]. cbn [drop_spaces]. destruct (Z.eqb_spec b 32) as [->|Hb].
  - exists (S k). split; [cbn; rewrite <- IH; reflexivity|exact H].
  - exists 0%nat. split; [reflexivity|]. right. exists b, l. auto.
Qed.

Lemma rev_repeat' {A} (x : A) k : rev (repeat x k) = repeat x k.
Proof.
  induction k as [|k IH]; cbn; [reflexivity|]. rewrite IH. clear IH. induction k as [|k IH]; cbn; [reflexivity|]. rewrite IH. reflexivity.
Qed.
Lemma trim_app core k : no_trailing_space core -> trim_end_spaces (core ++ repeat 32 k) = core.
Proof.
  intros H. unfold trim_end_spaces. rewrite rev_app_distr, rev_repeat', drop_spaces_app.
  rewrite <- (rev_involutive core) in H. rewrite <- (rev_involutive core) at 2. f_equal.
  destruct (rev core) as [|b l]; [reflexivity|]. apply drop_spaces_stop. intros ->. apply (H (rev l)). reflexivity.
Qed.
Lemma trim_form l : exists core k, l = core ++ repeat 32 k /\ no_trailing_space core.
Proof.
  destruct (drop_spaces_form (rev l)) as (k & E & H). exists (rev (drop_spaces (rev l))), k. split.
  - rewrite <- (rev_involutive l), E at 1. rewrite rev_app_distr, rev_repeat'. reflexivity.
  - intros t Ht. apply (f_equal (@rev Z)) in Ht. rewrite rev_involutive, rev_app_distr in Ht. cbn in Ht.
    destruct H as [H|(b & t' & H & Hb)]; rewrite H in Ht; [discriminate|]. injection Ht as -> _. contradiction.
Qed.

Lemma is_digit_ok b : is_digit b = true <-> 48 <= b <= 57.
Proof. unfold is_digit. rewrite andb_true_iff, !Z.leb_le. tauto. Qed.
Lemma span_digits_app d rest : Forall (fun b => 48 <= b <= 57) d -> (rest = [] \/ exists b t, rest = b :: t /\ ~ 48 <= b <= 57) ->
  span_digits (d ++ rest) = (d, rest).
Proof.
  intros H Hr. induction H as [|b d Hb H IH]; cbn [app span_digits].
  - destruct Hr as [->|(b & t & -> & Hb)]; [reflexivity|]. cbn. destruct (is_digit b) eqn:E; [apply is_digit_ok in E; contradiction|reflexivity].
  - apply is_digit_ok in Hb. rewrite Hb, IH. reflexivity.
Qed.
Lemma span_digits_form l : exists d rest, l = d ++ rest /\ span_digits l = (d, rest) /\ Forall (fun b => 48 <= b <= 57) d /\ (rest = [] \/ exists b t, rest = b :: t /\ ~ 48 <= b <= 57).
Proof.
  induction l as [|b l (d & rest & -> & E & H & Hr)]; [exists [], []; cbn; auto|]. cbn [span_digits]. destruct (is_digit b) eqn:Eb.
  - exists (b :: d), rest. rewrite E. split; [reflexivity|]. split; [reflexivity|]. split; [|exact Hr]. constructor; [apply is_digit_ok, Eb|exact H].
  - exists [], (b :: d ++ rest). split; [reflexivity|]. split; [reflexivity|]. split; [constructor|]. right. exists b, (d ++ rest). split; [reflexivity|].
    intros Hb. apply is_digit_ok in Hb. congruence.
Qed.

Lemma match_number_ok l s : match_number l = Some s <-> exists k, l = repeat 32 k ++ s /\ is_number s.
Proof.
  split.
  - unfold match_number. destruct (drop_spaces_form l) as (k & El & _). set (l1 := drop_spaces l) in *. clearbody l1. subst l.
    assert (HS : exists sign l2, l1 = sign ++ l2 /\ (sign = [] \/ sign = [45]) /\ match l1 with 45 :: t => ([45], t) | _ => ([], l1) end = (sign, l2)).
    { destruct l1 as [|b l1]; [exists [], []; auto|]. destruct (Z.eq_dec b 45) as [->|Hb]; [exists [45], l1; auto|].
      exists [], (b :: l1). split; [reflexivity|]. split; [auto|].
      destruct b as [|p|p]; try reflexivity. do 6 (try (destruct p as [p|p|])); try reflexivity. contradiction. }
    destruct HS as (sign & l2 & -> & Hsign & E). rewrite E. clear E.
    destruct (span_digits_form l2) as (ip & l3 & -> & -> & Hip & Hl3). destruct ip as [|b ip]; [discriminate|].
    destruct l3 as [|c l4].
    + intros [= <-]. exists k. rewrite app_nil_r. split; [reflexivity|]. exists sign, (b :: ip), []. rewrite app_nil_r. split; [reflexivity|]. split; [exact Hsign|]. split; [split; [discriminate|exact Hip]|auto].
    + intros E. destruct (Z.eq_dec c 46) as [->|Hc].
      2:{ exfalso. revert E. destruct c as [|p|p]; try discriminate. do 6 (try (destruct p as [p|p|])); try discriminate. contradiction. }
      destruct (span_digits_form l4) as (fp & l5 & -> & E5 & Hfp & _). rewrite E5 in E. destruct fp as [|f fp]; [discriminate|]. destruct l5; [|discriminate].
      injection E as <-. exists k. rewrite app_nil_r. split; [reflexivity|]. exists sign, (b :: ip), (46 :: f :: fp). split; [reflexivity|].
      split; [exact Hsign|]. split; [split; [discriminate|exact Hip]|]. right. exists (f :: fp). split; [reflexivity|]. split; [discriminate|exact Hfp].
  - intros (k & -> & sign & ip & frac & -> & Hsign & [Hne Hip] & Hfrac). unfold match_number. rewrite drop_spaces_app.
    destruct ip as [|b ip]; [congruence|]. pose proof (Forall_inv Hip) as Hb. cbn beta in Hb.
    assert (E1 : drop_spaces (sign ++ (b :: ip) ++ frac) = sign ++ (b :: ip) ++ frac).
    { destruct Hsign as [->| ->]; cbn [app]; apply drop_spaces_stop; lia. }
    rewrite E1. clear E1.
    assert (E2 : match sign ++ (b :: ip) ++ frac with 45 :: t => ([45], t) | _ => ([], sign ++ (b :: ip) ++ frac) end = (sign, (b :: ip) ++ frac)).
    { destruct Hsign as [->| ->]; [|reflexivity]. cbn [app]. destruct b as [|p|p]; try reflexivity. do 6 (try (destruct p as [p|p|])); try reflexivity. lia. }
    rewrite E2. clear E2.
    rewrite span_digits_app; [|exact Hip|].
    2:{ destruct Hfrac as [->|(fp & -> & _)]; [auto|]. right. exists 46, fp. split; [reflexivity|lia]. }
    destruct Hfrac as [->|(fp & -> & Hfne & Hfp)]; [rewrite app_nil_r; reflexivity|].
    rewrite <- (app_nil_r fp) at 1. rewrite span_digits_app; [|exact Hfp|auto]. destruct fp as [|f fp]; [congruence|]. reflexivity.
Qed.

Lemma holds_bytes f r v : holds f r v -> sub_bytes r (df_offset f) (df_offset f + df_len f) = Ok v.
Proof. intros (pre & post & -> & -> & ->). apply sub_bytes_app; reflexivity. Qed.
Lemma holds_exists f r : (df_offset f + df_len f <= length r)%nat -> exists v, holds f r v.
Proof.
  intros H. exists (firstn (df_len f) (skipn (df_offset f) r)), (firstn (df_offset f) r), (skipn (df_len f) (skipn (df_offset f) r)).
  rewrite !firstn_skipn. split; [reflexivity|]. rewrite !firstn_length, skipn_length. lia.
Qed.

(** ** Numerals *)
Lemma numeral_value_app a s t : numeral_value a (s ++ t) = numeral_value (numeral_value a s) t.
Proof. revert a. induction s as [|d s IH]; intros a; cbn; [reflexivity|]. apply IH. Qed.

Lemma dec_digits_ok fuel n acc : (0 < fuel)%nat -> 0 <= n < 10 ^ Z.of_nat fuel -> exists s, dec_digits fuel n acc = s ++ acc /\ is_numeral n s.
Proof.
  intros Hf. destruct fuel as [|fuel]; [lia|]. clear Hf. revert n acc. induction fuel as [|fuel IH]; intros n acc H.
  - cbn [dec_digits]. assert (n < 10) by (cbn in H; lia). destruct (Z.ltb_spec n 10); [|lia]. rewrite Z.mod_small by lia.
    exists [48 + n]. split; [reflexivity|]. split; [split; [discriminate|repeat constructor; lia]|]. split; [cbn [numeral_value]; lia|]. destruct (Z.eq_dec n 0) as [->|]; [left; reflexivity|right; cbn [hd]; lia].
  - rewrite Nat2Z.inj_succ, Z.pow_succ_r in H by lia. cbn [dec_digits]. destruct (Z.ltb_spec n 10) as [Hn|Hn].
    + rewrite Z.mod_small by lia. exists [48 + n]. split; [reflexivity|]. split; [split; [discriminate|repeat constructor; lia]|]. split; [cbn [numeral_value]; lia|]. destruct (Z.eq_dec n 0) as [->|]; [left; reflexivity|right; cbn [hd]; lia].
    + pose proof (Z.div_mod n 10 ltac:(lia)) as Hdm. pose proof (Z.mod_pos_bound n 10 ltac:(lia)) as Hm.
      destruct (IH (n / 10) ((48 + n mod 10) :: acc)) as (s & E & [Hne Hd] & Hv & Hz); [split; [apply Z.div_pos; lia|apply Z.div_lt_upper_bound; [lia|apply H]]|].
      change (dec_digits (S fuel) (n / 10) ((48 + n mod 10) :: acc) = s ++ (48 + n mod 10) :: acc) in E. cbn [dec_digits] in E. rewrite E.
      exists (s ++ [48 + n mod 10]). rewrite <- app_assoc. split; [reflexivity|]. split; [|split].
      * split; [destruct s; discriminate|]. apply Forall_app. split; [exact Hd|repeat constructor; lia].
      * rewrite numeral_value_app, Hv. cbn [numeral_value]. lia.
      * right. destruct s as [|x s]; [congruence|]. cbn [app hd]. destruct Hz as [Hz|Hz]; [|exact Hz]. injection Hz as -> ->. cbn in Hv. lia.
Qed.
Lemma u32_to_string_ok n : in_bytes 4 n -> is_numeral n (u32_to_string n).
Proof.
  intros [H1 H2]. unfold u32_to_string. destruct (dec_digits_ok 10 n []) as (s & -> & H); [lia| |rewrite app_nil_r; exact H].
  change (256 ^ Z.of_nat 4) with 4294967296 in H2. change (10 ^ Z.of_nat 10) with 10000000000. lia.
Qed.

Lemma digits_value s a : Forall (fun b => 48 <= b <= 57) s -> 0 <= a -> a * 10 ^ Z.of_nat (length s) <= numeral_value a s < (a + 1) * 10 ^ Z.of_nat (length s).
Proof.
  intros H. revert a. induction H as [|b s Hb H IH]; intros a Ha; cbn [numeral_value length]; [cbn; lia|].
  rewrite Nat2Z.inj_succ, Z.pow_succ_r by lia. specialize (IH (10 * a + (b - 48)) ltac:(lia)).
  assert (0 < 10 ^ Z.of_nat (length s)) by (apply Z.pow_pos_nonneg; lia). nia.
Qed.

Lemma numeral_same_length s t a : Forall (fun b => 48 <= b <= 57) s -> Forall (fun b => 48 <= b <= 57) t -> 0 <= a -> length s = length t ->
  numeral_value a s = numeral_value a t -> s = t.
Proof.
  intros Hs Ht Ha HL E. revert t a Ht Ha HL E. induction Hs as [|x s Hx Hs IH]; intros t a Ht Ha HL E; destruct t as [|y t]; try discriminate; [reflexivity|].
  inversion Ht as [|? ? Hy Ht']; subst. cbn [length numeral_value] in *. injection HL as HL.
  pose proof (digits_value s (10 * a + (x - 48)) Hs ltac:(lia)) as B1. pose proof (digits_value t (10 * a + (y - 48)) Ht' ltac:(lia)) as B2.
  rewrite <- HL in B2. assert (0 < 10 ^ Z.of_nat (length s)) by (apply Z.pow_pos_nonneg; lia).
  assert (x = y) by nia. subst y. f_equal. apply (IH t (10 * a + (x - 48))); auto. lia.
Qed.

Lemma numeral_length n s : is_numeral n s -> 0 < n -> 10 ^ (Z.of_nat (length s) - 1) <= n < 10 ^ Z.of_nat (length s).
Proof.
  intros ([Hne Hd] & Hv & Hz) Hn. destruct s as [|d s]; [congruence|]. inversion Hd as [|? ? Hd1 Hd']; subst. cbn [length numeral_value] in *.
  replace (Z.of_nat (S (length s)) - 1) with (Z.of_nat (length s)) by lia. rewrite Nat2Z.inj_succ, Z.pow_succ_r by lia.
  pose proof (digits_value s (10 * 0 + (d - 48)) Hd' ltac:(lia)) as B. assert (0 < 10 ^ Z.of_nat (length s)) by (apply Z.pow_pos_nonneg; lia).
  assert (d <> 48). { destruct Hz as [Hz|Hz]; [|exact Hz]. injection Hz as -> ->. cbn in Hn. lia. }
  nia.
Qed.

Lemma numeral_unique n s t : is_numeral n s -> is_numeral n t -> s = t.
Proof.
  intros Hs Ht. pose proof Hs as ([_ Ds] & Vs & Zs). pose proof Ht as ([_ Dt] & Vt & Zt).
  assert (Hn : 0 <= n). { pose proof (digits_value s 0 Ds ltac:(lia)). lia. }
  destruct (Z.eq_dec n 0) as [->|H0].
  - assert (Z0 : forall u, is_numeral 0 u -> u = [48]).
    { intros u ([Hne Du] & Vu & [Zu|Zu]); [exact Zu|]. destruct u as [|d u]; [congruence|]. inversion Du as [|? ? Hd Du']; subst. cbn [hd numeral_value] in *.
      pose proof (digits_value u (10 * 0 + (d - 48)) Du' ltac:(lia)) as B. assert (0 < 10 ^ Z.of_nat (length u)) by (apply Z.pow_pos_nonneg; lia). nia. }
    rewrite (Z0 s Hs), (Z0 t Ht). reflexivity.
  - pose proof (numeral_length n s Hs ltac:(lia)) as Ls. pose proof (numeral_length n t Ht ltac:(lia)) as Lt.
    apply (numeral_same_length s t 0); auto; [lia| |congruence].
    assert (L1 : (length s <> 0)%nat) by (destruct s; [destruct Hs as [[Hs _] _]; congruence|discriminate]).
    assert (L2 : (length t <> 0)%nat) by (destruct t; [destruct Ht as [[Ht _] _]; congruence|discriminate]).
    destruct (Nat.lt_trichotomy (length s) (length t)) as [H|[H|H]]; [|exact H|]; exfalso.
    + assert (10 ^ Z.of_nat (length s) <= 10 ^ (Z.of_nat (length t) - 1)) by (apply Z.pow_le_mono_r; lia). lia.
    + assert (10 ^ Z.of_nat (length t) <= 10 ^ (Z.of_nat (length s) - 1)) by (apply Z.pow_le_mono_r; lia). lia.
Qed.
