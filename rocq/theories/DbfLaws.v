(** * DbfLaws: outcomes of the .dbf and shapefile readers on every byte string *)
From Verif Require Import DbfSpec Shapefile GeoProofs TopoProofs BytesProofs ShpProofs ShpLaws DbfProofs.

(** ** [DbfReader::new] *)
Inductive new_outcome (m : mode) (enc : decoder) : list Z -> res (result dbf_reader dbf_error) -> Prop :=
| NOShort s : (length s < 32)%nat -> new_outcome m enc s (Ok (RErr DEIo))
| NODate v y mo d n h r res rest : dbf_header_fields v y mo d n h r res -> 12 < mo \/ 31 < d ->
    new_outcome m enc (dbf_header_bytes v y mo d n h r res ++ rest) (Ok (RErr DEDate))
| NOPanic v y mo d n h r res rest : dbf_header_fields v y mo d n h r res -> mo <= 12 -> d <= 31 -> h < 32 ->
    new_outcome m enc (dbf_header_bytes v y mo d n h r res ++ rest) (Panic (match m with Debug => POverflow | Release => PCapacity end))
| NOTruncated v y mo d n h r res rest : dbf_header_fields v y mo d n h r res -> mo <= 12 -> d <= 31 -> 32 <= h -> Z.of_nat (length rest) < h - 32 ->
    new_outcome m enc (dbf_header_bytes v y mo d n h r res ++ rest) (Ok (RErr DEIo))
| NOName v y mo d n r res ds tail rest :
    dbf_header_fields v y mo d n (32 + 32 * Z.of_nat (length ds) + Z.of_nat (length tail)) r res -> mo <= 12 -> d <= 31 ->
    Forall descriptor_ok ds -> (length tail < 32)%nat -> (exists x, In x ds /\ enc (de_name x) = None) ->
    new_outcome m enc (dbf_prefix v y mo d n r res ds tail ++ rest) (Ok (RErr DEName))
| NOOk v y mo d n r res ds tail rest fs :
    dbf_header_fields v y mo d n (32 + 32 * Z.of_nat (length ds) + Z.of_nat (length tail)) r res -> mo <= 12 -> d <= 31 ->
    Forall descriptor_ok ds -> (length tail < 32)%nat -> described enc 1 ds fs -> bytes_ok rest ->
    new_outcome m enc (dbf_prefix v y mo d n r res ds tail ++ rest) (Ok (ROk (DbfReader rest 0 (DMeta n r fs)))).

Lemma descriptors_form l : Forall (fun c => length c = 32%nat /\ bytes_ok c) l -> exists ds, l = map descriptor_bytes ds /\ Forall descriptor_ok ds.
Proof.
  induction 1 as [|c l [H1 H2] H (ds & -> & IH)]; [exists []; auto|]. destruct (descriptor_form c H2 H1) as (d & -> & Hd). exists (d :: ds). cbn. auto.
Qed.

Lemma dbf_new_outcome m af enc s : bytes_ok s -> new_outcome m enc s (dbf_reader_new m af enc s).
Proof.
  intros Hs. destruct (Nat.lt_ge_cases (length s) 32) as [HL|HL].
  { unfold dbf_reader_new, read_dbf_meta, read_dbf_header. rewrite read_exact_short by lia. cbn [bind]. constructor. exact HL. }
  destruct (dbf_header_form s Hs HL) as (v & y & mo & d & n & h & r & res & rest & HF & Hmo & Hd & -> & Hrest).
  destruct (Z.lt_ge_cases 12 mo) as [H12|H12].
  { unfold dbf_reader_new, read_dbf_meta. rewrite dbf_header_read by exact HF. destruct (Z.ltb_spec 12 mo); [|lia]. cbn [orb bind]. apply NODate; auto. }
  destruct (Z.lt_ge_cases 31 d) as [H31|H31].
  { unfold dbf_reader_new, read_dbf_meta. rewrite dbf_header_read by exact HF. destruct (Z.ltb_spec 31 d); [|lia]. rewrite orb_true_r. cbn [bind]. apply NODate; auto. }
  destruct (Z.lt_ge_cases h 32) as [H32|H32].
  { unfold dbf_reader_new, read_dbf_meta. rewrite dbf_header_read by exact HF. destruct (Z.ltb_spec 12 mo); [lia|]. destruct (Z.ltb_spec 31 d); [lia|]. cbn [orb bind].
    unfold read_dbf_fields, header_rest. cbn [dh_header_bytes]. destruct (Z.ltb_spec h 32); [|lia].
    pose proof (NOPanic m enc v y mo d n h r res rest HF H12 H31 H32) as P. destruct m; exact P. }
  destruct (Z.lt_ge_cases (Z.of_nat (length rest)) (h - 32)) as [HR|HR].
  { unfold dbf_reader_new, read_dbf_meta. rewrite dbf_header_read by exact HF. destruct (Z.ltb_spec 12 mo); [lia|]. destruct (Z.ltb_spec 31 d); [lia|]. cbn [orb bind].
    unfold read_dbf_fields, header_rest. cbn [dh_header_bytes]. destruct (Z.ltb_spec h 32); [lia|]. cbn [bind]. rewrite read_exact_short by lia. apply NOTruncated; assumption. }
  destruct (cut (Z.to_nat (h - 32)) rest Hrest) as (buf & rest' & -> & Lb & Ob & Or); [lia|].
  assert (Hk : exists k, (32 * k <= length buf < 32 * k + 32)%nat).
  { exists (length buf / 32)%nat. pose proof (Nat.div_mod (length buf) 32 ltac:(lia)). pose proof (Nat.mod_upper_bound (length buf) 32 ltac:(lia)). lia. }
  destruct Hk as [k Hk]. destruct (cut (32 * k) buf Ob) as (body & tail & -> & Lbody & Obody & Otail); [lia|].
  destruct (chunks_form 32 k body Obody Lbody) as (l & -> & Lk & Fl). destruct (descriptors_form l Fl) as (ds & -> & HD). rewrite map_length in Lk.
  rewrite app_length in Hk, Lb. assert (HT : (length tail < 32)%nat) by lia.
  assert (Hh : h = 32 + 32 * Z.of_nat (length ds) + Z.of_nat (length tail)) by lia. subst h.
  destruct (prefix_new m af enc v y mo d n r res ds tail rest' HF HD HT H12 H31) as (out & P & E).
  replace (dbf_header_bytes v y mo d n (32 + 32 * Z.of_nat (length ds) + Z.of_nat (length tail)) r res ++ (concat (map descriptor_bytes ds) ++ tail) ++ rest')
    with (dbf_prefix v y mo d n r res ds tail ++ rest') by (unfold dbf_prefix; rewrite <- !app_assoc; reflexivity).
  rewrite E. destruct P as [ds fs P|ds P]; [apply NOOk|apply NOName]; assumption.
Qed.

(** Headers are determined by their bytes. *)
Lemma dbf_header_inj v y mo d n h r res rest v' y' mo' d' n' h' r' res' rest' :
  dbf_header_fields v y mo d n h r res -> dbf_header_fields v' y' mo' d' n' h' r' res' ->
  dbf_header_bytes v y mo d n h r res ++ rest = dbf_header_bytes v' y' mo' d' n' h' r' res' ++ rest' -> mo = mo' /\ d = d' /\ h = h'.
Proof.
  intros HF HF' E. pose proof (dbf_header_length _ _ _ _ _ _ _ _ HF) as L. pose proof (dbf_header_length _ _ _ _ _ _ _ _ HF') as L'.
  apply (f_equal (firstn 32)) in E. rewrite !firstn_exact in E by assumption. unfold dbf_header_bytes in E.
  pose proof (f_equal (firstn 4) E) as E4. cbn [firstn app] in E4. injection E4 as -> -> -> ->.
  destruct HF as (_ & Hh & _). destruct HF' as (_ & Hh' & _). rewrite !(app_assoc [v'; y'; mo'; d']) in E.
  apply (f_equal (skipn 8)) in E. rewrite !skipn_exact in E by (lens; reflexivity). apply (f_equal (firstn 2)) in E.
  rewrite !firstn_exact in E by apply le_bytes_length. split; [reflexivity|]. split; [reflexivity|]. apply (le_bytes_inj 2); assumption.
Qed.

Lemma dbf_new_panic m af enc s p : bytes_ok s ->
  dbf_reader_new m af enc s = Panic p <->
  p = (match m with Debug => POverflow | Release => PCapacity end) /\
  exists v y mo d n h r res rest, dbf_header_fields v y mo d n h r res /\ mo <= 12 /\ d <= 31 /\ h < 32 /\
    s = dbf_header_bytes v y mo d n h r res ++ rest.
Proof.
  intros Hs. split.
  - intros E. pose proof (dbf_new_outcome m af enc s Hs) as O. rewrite E in O. remember (Panic p) as o eqn:Eo. destruct O; try discriminate.
    injection Eo as <-. split; [reflexivity|]. exists v, y, mo, d, n, h, r, res, rest. auto.
  - intros (-> & v & y & mo & d & n & h & r & res & rest & HF & H12 & H31 & H32 & ->).
    unfold dbf_reader_new, read_dbf_meta. rewrite dbf_header_read by exact HF. destruct (Z.ltb_spec 12 mo); [lia|]. destruct (Z.ltb_spec 31 d); [lia|]. cbn [orb bind].
    unfold read_dbf_fields, header_rest. cbn [dh_header_bytes]. destruct (Z.ltb_spec h 32); [|lia]. destruct m; reflexivity.
Qed.

(** ** [read_string] *)
Lemma read_character f r v enc core k : df_type f = DTCharacter enc -> holds f r v -> v = core ++ repeat 32 k -> no_trailing_space core ->
  read_string f r = Ok (match enc core with Some s => ROk s | None => RErr DEDecode end).
Proof.
  intros Ht Hv -> Hc. unfold read_string. rewrite (holds_bytes f r _ Hv). cbn [bind]. rewrite Ht, trim_app by exact Hc. reflexivity.
Qed.
Lemma read_numeric f r v : df_type f = DTNumeric -> holds f r v ->
  (forall s, read_string f r = Ok (ROk s) <-> exists k, v = repeat 32 k ++ s /\ is_number s) /\
  ((forall s, read_string f r <> Ok (ROk s)) -> read_string f r = Ok (RErr DENumber)).
Proof.
  intros Ht Hv. unfold read_string. rewrite (holds_bytes f r _ Hv). cbn [bind]. rewrite Ht. split.
  - intros s. rewrite <- match_number_ok. destruct (match_number v); split; congruence.
  - intros H. destruct (match_number v) as [s|]; [exfalso; exact (H s eq_refl)|reflexivity].
Qed.
Lemma read_long f r n more : df_type f = DTLong -> in_bytes 4 n -> holds f r (le_bytes 4 n ++ more) ->
  exists s, read_string f r = Ok (ROk s) /\ is_numeral n s.
Proof.
  intros Ht Hn Hv. unfold read_string. rewrite (holds_bytes f r _ Hv). cbn [bind]. rewrite Ht. unfold read_le.
  rewrite (sub_bytes_app [] (le_bytes 4 n) more 0 4 eq_refl eq_refl : sub_bytes (le_bytes 4 n ++ more) 0 4 = _).
  cbn [bind]. rewrite le_value_bytes by exact Hn. eexists. split; [reflexivity|]. apply u32_to_string_ok, Hn.
Qed.

Lemma read_panic f r p : read_string f r = Panic p <->
  (p = PIndex /\ (length r < df_offset f + df_len f)%nat) \/
  (p = PIndex /\ (df_offset f + df_len f <= length r)%nat /\ df_type f = DTLong /\ (df_len f < 4)%nat) \/
  (p = PUnimplemented /\ (df_offset f + df_len f <= length r)%nat /\ ~ readable (df_type f)).
Proof.
  unfold read_string. destruct (Nat.lt_ge_cases (length r) (df_offset f + df_len f)) as [HL|HL].
  - rewrite sub_bytes_panic by exact HL. cbn [bind]. split.
    + intros [= <-]. left. auto.
    + intros [[-> _]|[(_ & H & _)|(_ & H & _)]]; [reflexivity|lia|lia].
  - destruct (holds_exists f r HL) as [v Hv]. rewrite (holds_bytes f r v Hv). cbn [bind].
    assert (Lv : length v = df_len f) by (destruct Hv as (pre & post & _ & _ & ->); reflexivity).
    destruct (df_type f) as [enc| | | | | | | |] eqn:Et.
    + split; [discriminate|]. intros [[_ H]|[(_ & _ & H & _)|(_ & _ & H)]]; [lia|discriminate|]. exfalso. apply H. left. eexists. reflexivity.
    + split; [discriminate|]. intros [[_ H]|[(_ & _ & H & _)|(_ & _ & H)]]; [lia|discriminate|]. exfalso. apply H. right. left. reflexivity.
    + split; [intros [= <-]; right; right; split; [reflexivity|split; [exact HL|]]|]; [intros [[? H]|[H|H]]; discriminate|]. intros [[_ H]|[(_ & _ & H & _)|(-> & _ & _)]]; [lia|discriminate|reflexivity].
    + split; [intros [= <-]; right; right; split; [reflexivity|split; [exact HL|]]|]; [intros [[? H]|[H|H]]; discriminate|]. intros [[_ H]|[(_ & _ & H & _)|(-> & _ & _)]]; [lia|discriminate|reflexivity].
    + split; [intros [= <-]; right; right; split; [reflexivity|split; [exact HL|]]|]; [intros [[? H]|[H|H]]; discriminate|]. intros [[_ H]|[(_ & _ & H & _)|(-> & _ & _)]]; [lia|discriminate|reflexivity].
    + split; [intros [= <-]; right; right; split; [reflexivity|split; [exact HL|]]|]; [intros [[? H]|[H|H]]; discriminate|]. intros [[_ H]|[(_ & _ & H & _)|(-> & _ & _)]]; [lia|discriminate|reflexivity].
    + split; [intros [= <-]; right; right; split; [reflexivity|split; [exact HL|]]|]; [intros [[? H]|[H|H]]; discriminate|]. intros [[_ H]|[(_ & _ & H & _)|(-> & _ & _)]]; [lia|discriminate|reflexivity].
    + unfold read_le. destruct (Nat.lt_ge_cases (length v) 4) as [H4|H4].
      * rewrite sub_bytes_panic by exact H4. cbn [bind]. split; [intros [= <-]; right; left; repeat split; try assumption; lia|].
        intros [[_ H]|[(-> & _)|(_ & _ & H)]]; [lia|reflexivity|]. exfalso. apply H. right. right. reflexivity.
      * assert (E : exists w, sub_bytes v 0 4 = Ok w).
        { unfold sub_bytes. destruct (Nat.leb_spec 4 (length v)); [|lia]. eexists. reflexivity. }
        destruct E as [w ->]. cbn [bind]. split; [discriminate|]. intros [[_ H]|[(_ & _ & _ & H)|(_ & _ & H)]]; [lia|lia|]. exfalso. apply H. right. right. reflexivity.
    + split; [intros [= <-]; right; right; split; [reflexivity|split; [exact HL|]]|]; [intros [[? H]|[H|H]]; discriminate|]. intros [[_ H]|[(_ & _ & H & _)|(-> & _ & _)]]; [lia|discriminate|reflexivity].
Qed.

(** ** [get_field] *)
Lemma text_eqb_ok a b : text_eqb a b = true <-> a = b.
Proof.
  revert b. induction a as [|x a IH]; intros [|y b]; cbn; try (split; congruence). rewrite andb_true_iff, Z.eqb_eq, IH. split; [intros [-> ->]; reflexivity|intros [= -> ->]; auto].
Qed.
Lemma find_first {A} (p : A -> bool) l a : find p l = Some a <-> exists pre post, l = pre ++ a :: post /\ p a = true /\ Forall (fun x => p x = false) pre.
Proof.
  split.
  - induction l as [|x l IH]; cbn; [discriminate|]. destruct (p x) eqn:E.
    + intros [= <-]. exists [], l. auto.
    + intros H. destruct (IH H) as (pre & post & -> & Ha & HF). exists (x :: pre), post. auto.
  - intros (pre & post & -> & Ha & HF). induction HF as [|x pre Hx HF IH]; cbn; [rewrite Ha; reflexivity|]. rewrite Hx. exact IH.
Qed.
Lemma get_field_some r name f : get_field r name = Some f <->
  exists pre post, dm_fields (dbr_meta r) = pre ++ f :: post /\ df_name f = name /\ Forall (fun g => df_name g <> name) pre.
Proof.
  unfold get_field. rewrite find_first. split; intros (pre & post & H1 & H2 & H3); exists pre, post; (split; [exact H1|]).
  - apply text_eqb_ok in H2. split; [exact H2|]. eapply Forall_impl; [|exact H3]. cbn beta. intros g Hg E. apply text_eqb_ok in E. congruence.
  - split; [apply text_eqb_ok; exact H2|]. eapply Forall_impl; [|exact H3]. cbn beta. intros g Hg. destruct (text_eqb (df_name g) name) eqn:E; [apply text_eqb_ok in E; contradiction|reflexivity].
Qed.
Lemma get_field_none r name : get_field r name = None <-> Forall (fun g => df_name g <> name) (dm_fields (dbr_meta r)).
Proof.
  unfold get_field. split.
  - intros H. apply Forall_forall. intros g Hg E. pose proof (find_none _ _ H g Hg) as F. cbn beta in F. apply text_eqb_ok in E. congruence.
  - intros H. destruct (find _ _) as [f|] eqn:E; [|reflexivity]. apply find_some in E as [E1 E2]. apply text_eqb_ok in E2.
    rewrite Forall_forall in H. exfalso. exact (H f E1 E2).
Qed.

(** ** Display *)
Lemma display_from fs r i s vs : Forall2 (fun f v => read_string f r = Ok (ROk v)) fs vs ->
  display_fields i fs r s = Ok (ROk (s ++ (match i, fs with S _, _ :: _ => [59; 32] | _, _ => [] end) ++ joined (map (fun '(f, v) => df_name f ++ [58] ++ v) (combine fs vs)))).
Proof.
  intros H. revert i s. induction H as [|f v fs vs Hf H IH]; intros i s; cbn [display_fields].
  - destruct i; cbn; rewrite app_nil_r; reflexivity.
  - rewrite Hf. cbn [bind]. rewrite IH. f_equal. f_equal. rewrite Nat.add_1_r. cbn [combine map joined]. destruct H as [|g w fs vs Hg H].
    + cbn [combine map]. rewrite app_nil_r. destruct i; cbn [Nat.eqb]; rewrite <- ?app_assoc; cbn [app]; rewrite <- ?app_assoc; reflexivity.
    + cbn [combine map]. set (R := joined _). destruct i; cbn [Nat.eqb]; rewrite <- ?app_assoc; cbn [app]; rewrite <- ?app_assoc; reflexivity.
Qed.
Lemma display_error fs f rest r i s vs e : Forall2 (fun f v => read_string f r = Ok (ROk v)) fs vs -> read_string f r = Ok (RErr e) ->
  display_fields i (fs ++ f :: rest) r s = Ok (RErr e).
Proof.
  intros H He. revert i s. induction H as [|g v fs vs Hg H IH]; intros i s; cbn [app display_fields].
  - rewrite He. reflexivity.
  - rewrite Hg. cbn [bind]. apply IH.
Qed.

(** ** Whole .dbf files *)
Lemma item_at_concat rb recs junk i rec : Forall (fun x => length x = rb) recs -> nth_error recs i = Some rec ->
  item_at rb (concat recs ++ junk) i = ROk rec.
Proof.
  intros H Hi. unfold item_at. assert (HL : length (concat recs) = (rb * length recs)%nat) by (apply concat_length_const; exact H).
  assert (Hlt : (i < length recs)%nat) by (apply nth_error_Some; congruence).
  rewrite app_length, HL. destruct (Nat.leb_spec ((i + 1) * rb) (rb * length recs + length junk)); [|nia]. f_equal.
  destruct (nth_error_split recs i Hi) as (l1 & l2 & -> & Hl). apply Forall_app in H as [H1 H2]. inversion H2; subst.
  rewrite concat_app, <- app_assoc. cbn [concat]. rewrite <- app_assoc. rewrite skipn_exact by (rewrite (concat_length_const (length rec)) by exact H1; lia).
  apply firstn_exact. reflexivity.
Qed.

Lemma dbf_file af n rlen fs recs junk k : leaves_suffix af -> 0 <= rlen -> n = Z.of_nat (length recs) ->
  Forall (fun x => length x = Z.to_nat rlen) recs ->
  calls (dbf_step af) (length recs + k) (DbfReader (concat recs ++ junk) 0 (DMeta n rlen fs)) =
  Ok (map (fun x => Some (ROk x)) recs ++ repeat None k).
Proof.
  intros Ha Hr Hn HF. rewrite dbf_iterate by (cbn; auto; lia). f_equal. f_equal. cbn [dm_record_bytes].
  apply nth_error_ext. intros i. rewrite !nth_error_map. destruct (nth_error recs i) as [rec|] eqn:E.
  - assert (Hlt : (i < length recs)%nat) by (apply nth_error_Some; congruence).
    replace (nth_error (seq 0 (length recs)) i) with (Some i).
    2:{ symmetry. rewrite (nth_error_nth' _ 0%nat) by (rewrite seq_length; exact Hlt). rewrite seq_nth by exact Hlt. reflexivity. }
    cbn [option_map]. rewrite (item_at_concat _ _ _ _ rec) by assumption. reflexivity.
  - apply nth_error_None in E. replace (nth_error (seq 0 (length recs)) i) with (@None nat); [reflexivity|]. symmetry. apply nth_error_None. rewrite seq_length. exact E.
Qed.

(** ** The shapefile reader *)

Lemma sf_next_join afs afd r a rs b rd : shp_next afs (sf_shp r) = Ok (a, rs) -> dbf_next afd (sf_dbf r) = (b, rd) ->
  sf_next afs afd r = Ok (join_items a b, SfReader rs rd).
Proof. intros Ea Eb. unfold sf_next. rewrite Ea. cbn [bind]. rewrite Eb. destruct a as [[shape|e]|], b as [[data|e']|]; reflexivity. Qed.

Lemma sf_calls afs afd k : forall r la lb,
  calls (shp_next afs) k (sf_shp r) = Ok la -> calls (dbf_step afd) k (sf_dbf r) = Ok lb ->
  calls (sf_next afs afd) k r = Ok (map (fun '(a, b) => join_items a b) (combine la lb)).
Proof.
  induction k as [|k IH]; intros r la lb; cbn [calls].
  - intros [= <-] [= <-]. reflexivity.
  - destruct (shp_next afs (sf_shp r)) as [[a rs]|] eqn:Ea; [|discriminate]. destruct (calls (shp_next afs) k rs) as [la'|] eqn:Ela; [|discriminate]. intros [= <-].
    unfold dbf_step at 1. destruct (dbf_next afd (sf_dbf r)) as [b rd] eqn:Eb. destruct (calls (dbf_step afd) k rd) as [lb'|] eqn:Elb; [|discriminate]. intros [= <-].
    rewrite (sf_next_join afs afd r a rs b rd Ea Eb). rewrite (IH (SfReader rs rd) la' lb') by assumption. reflexivity.
Qed.

Lemma sf_calls_panic afs afd k : forall r p, calls (shp_next afs) k (sf_shp r) = Panic p -> calls (sf_next afs afd) k r = Panic p.
Proof.
  induction k as [|k IH]; intros r p; cbn [calls]; [discriminate|].
  destruct (shp_next afs (sf_shp r)) as [[a rs]|q] eqn:Ea.
  - destruct (dbf_next afd (sf_dbf r)) as [b rd] eqn:Eb. rewrite (sf_next_join afs afd r a rs b rd Ea Eb).
    destruct (calls (shp_next afs) k rs) as [la|q] eqn:E; [discriminate|]. intros [= ->]. rewrite (IH (SfReader rs rd) p E). reflexivity.
  - intros [= ->]. unfold sf_next. rewrite Ea. reflexivity.
Qed.

(** A panic can only come from the shapes. *)
Lemma sf_calls_panic_iff afs afd k r p : calls (sf_next afs afd) k r = Panic p <-> calls (shp_next afs) k (sf_shp r) = Panic p.
Proof.
  split; [|apply sf_calls_panic]. intros H. destruct (calls (shp_next afs) k (sf_shp r)) as [la|q] eqn:E.
  - assert (D : exists lb, calls (dbf_step afd) k (sf_dbf r) = Ok lb).
    { generalize (sf_dbf r). clear. induction k as [|k IH]; intros d; cbn [calls]; [eexists; reflexivity|].
      unfold dbf_step at 1. destruct (dbf_next afd d) as [b rd]. destruct (IH rd) as [lb ->]. eexists. reflexivity. }
    destruct D as [lb D]. rewrite (sf_calls afs afd k r la lb E D) in H. discriminate.
  - rewrite (sf_calls_panic afs afd k r q E) in H. congruence.
Qed.

Lemma combine_app' {A B} (a a' : list A) (b b' : list B) : length a = length b -> combine (a ++ a') (b ++ b') = combine a b ++ combine a' b'.
Proof. revert b. induction a as [|x a IH]; intros [|y b] H; cbn in *; try discriminate; [reflexivity|]. rewrite IH by lia. reflexivity. Qed.
Lemma repeat_add {A} (x : A) n m : repeat x (n + m) = repeat x n ++ repeat x m.
Proof. induction n as [|n IH]; cbn; [reflexivity|]. rewrite IH. reflexivity. Qed.
Lemma combine_repeat {A B} (a : A) (b : B) k : combine (repeat a k) (repeat b k) = repeat (a, b) k.
Proof. induction k as [|k IH]; cbn; [reflexivity|]. rewrite IH. reflexivity. Qed.
Lemma map_repeat' {A B} (f : A -> B) a k : map f (repeat a k) = repeat (f a) k.
Proof. induction k as [|k IH]; cbn; [reflexivity|]. rewrite IH. reflexivity. Qed.

Lemma join_lists (shapes : list shp_record) (datas : list dbf_record) k :
  map (fun '(a, b) => join_items a b)
    (combine (map (fun x => Some (ROk x)) shapes ++ repeat None (length datas - length shapes + k))
             (map (fun x => Some (ROk x)) datas ++ repeat None (length shapes - length datas + k))) =
  map (fun '(s, d) => Some (ROk (SfRecord (sr_rings s) d))) (combine shapes datas) ++
  repeat (Some (RErr SFMoreShp)) (length shapes - length datas) ++ repeat (Some (RErr SFMoreDbf)) (length datas - length shapes) ++ repeat None k.
Proof.
  revert datas. induction shapes as [|s shapes IH]; intros datas.
  - cbn [map app length Nat.sub combine Nat.add repeat]. rewrite Nat.sub_0_r, repeat_add. rewrite combine_app' by (rewrite repeat_length, map_length; reflexivity).
    rewrite combine_repeat, map_app, map_repeat'. cbn [join_items]. f_equal.
    induction datas as [|d datas IHd]; cbn; [reflexivity|]. rewrite IHd. reflexivity.
  - destruct datas as [|d datas].
    + clear IH. cbn [length Nat.sub Nat.add combine map app]. cbn [repeat app combine map join_items]. f_equal. rewrite repeat_add.
      rewrite combine_app' by (rewrite repeat_length, map_length; reflexivity). rewrite combine_repeat, map_app, map_repeat'. cbn [join_items]. f_equal.
      induction shapes as [|x shapes IHs]; cbn; [reflexivity|]. rewrite IHs. reflexivity.
    + cbn [length Nat.sub map app combine join_items]. rewrite IH. reflexivity.
Qed.
