(** * ShpLaws: outcomes of the .shp reader on every byte string *)
From Verif Require Import ShpSpec GeoProofs TopoProofs BytesProofs ShpProofs.

Lemma skipn_form {A} n (l : list A) : exists p, l = p ++ skipn n l.
Proof. exists (firstn n l). symmetry. apply firstn_skipn. Qed.

(** ** The header *)
Lemma u32_mul2_ok m len : in_bytes 4 len ->
  u32_mul2 m len = if 2 ^ 31 <=? len then match m with Debug => Panic POverflow | Release => Ok ((2 * len) mod 2 ^ 32) end else Ok ((2 * len) mod 2 ^ 32).
Proof.
  intros [H1 H2]. change (256 ^ Z.of_nat 4) with (2 ^ 32) in H2. unfold u32_mul2, as_u32, two32. rewrite (Z.mul_comm len 2).
  destruct (Z.ltb_spec (2 * len) (2 ^ 32)), (Z.leb_spec (2 ^ 31) len); try lia.
  - rewrite Z.mod_small by lia. reflexivity.
  - destruct m; reflexivity.
Qed.

Lemma new_accept m af s r : bytes_ok s ->
  shp_reader_new m af s = Ok (ROk r) <->
  exists unused len x0 y0 x1 y1 zm rest,
    header_fields 9994 unused len 1000 5 x0 y0 x1 y1 zm /\
    s = header_bytes 9994 unused len 1000 5 x0 y0 x1 y1 zm ++ rest /\
    (m = Debug -> len < 2 ^ 31) /\
    r = ShpReader rest 100 (SHeader ((2 * len) mod 2 ^ 32) STPolygon (SBBox x0 y0 x1 y1)).
Proof.
  intros Hs. split.
  - intros E. destruct (Nat.lt_ge_cases (length s) 100) as [HL|HL].
    { unfold shp_reader_new, read_shp_header in E. rewrite read_exact_short in E by (unfold shp_header_length; lia). discriminate. }
    destruct (header_form s Hs HL) as (magic & u1 & len & v & ty & x0 & y0 & x1 & y1 & u2 & rest & HF & ->).
    rewrite header_new in E by exact HF. unfold header_result in E.
    destruct (Z.eqb_spec magic shp_magic) as [->|]; [cbn [negb] in E|discriminate].
    destruct (Z.eqb_spec v shp_version) as [->|]; [cbn [negb] in E|discriminate].
    destruct (shape_type_with_u32 ty) as [t|] eqn:Et; [|discriminate].
    pose proof (with_u32_codes ty) as Hc. rewrite Et in Hc.
    assert (HP : t = STPolygon /\ ty = 5).
    { destruct t; try discriminate E. split; [reflexivity|]. cbn in Hc. decompose [or] Hc; try congruence; contradiction. }
    destruct HP as [-> ->]. rewrite u32_mul2_ok in E by apply HF. exists u1, len, x0, y0, x1, y1, u2, rest.
    split; [exact HF|]. split; [reflexivity|].
    destruct (Z.leb_spec (2 ^ 31) len).
    + destruct m; cbn [bind] in E; [discriminate|]. injection E as <-. split; [discriminate|reflexivity].
    + cbn [bind] in E. injection E as <-. split; [auto|reflexivity].
  - intros (u1 & len & x0 & y0 & x1 & y1 & u2 & rest & HF & -> & Hm & ->). rewrite header_new by exact HF.
    unfold header_result. cbn [Z.eqb Pos.eqb shp_magic shp_version negb shape_type_with_u32]. rewrite u32_mul2_ok by apply HF.
    destruct (Z.leb_spec (2 ^ 31) len); [|reflexivity]. destruct m; [specialize (Hm eq_refl); lia|reflexivity].
Qed.

Lemma new_panic m af s p : bytes_ok s ->
  shp_reader_new m af s = Panic p <->
  m = Debug /\ p = POverflow /\
  exists unused len x0 y0 x1 y1 zm rest,
    header_fields 9994 unused len 1000 5 x0 y0 x1 y1 zm /\
    s = header_bytes 9994 unused len 1000 5 x0 y0 x1 y1 zm ++ rest /\ 2 ^ 31 <= len.
Proof.
  intros Hs. split.
  - intros E. destruct (Nat.lt_ge_cases (length s) 100) as [HL|HL].
    { unfold shp_reader_new, read_shp_header in E. rewrite read_exact_short in E by (unfold shp_header_length; lia). discriminate. }
    destruct (header_form s Hs HL) as (magic & u1 & len & v & ty & x0 & y0 & x1 & y1 & u2 & rest & HF & ->).
    rewrite header_new in E by exact HF. unfold header_result in E.
    destruct (Z.eqb_spec magic shp_magic) as [->|]; [cbn [negb] in E|discriminate].
    destruct (Z.eqb_spec v shp_version) as [->|]; [cbn [negb] in E|discriminate].
    destruct (shape_type_with_u32 ty) as [t|] eqn:Et; [|discriminate].
    pose proof (with_u32_codes ty) as Hc. rewrite Et in Hc.
    assert (HP : t = STPolygon /\ ty = 5).
    { destruct t; try discriminate E. split; [reflexivity|]. cbn in Hc. decompose [or] Hc; try congruence; contradiction. }
    destruct HP as [-> ->]. rewrite u32_mul2_ok in E by apply HF.
    destruct (Z.leb_spec (2 ^ 31) len); [|discriminate]. destruct m; [|discriminate]. cbn [bind] in E. injection E as <-.
    split; [reflexivity|]. split; [reflexivity|]. exists u1, len, x0, y0, x1, y1, u2, rest. auto.
  - intros (-> & -> & u1 & len & x0 & y0 & x1 & y1 & u2 & rest & HF & -> & Hm). rewrite header_new by exact HF.
    unfold header_result. cbn [Z.eqb Pos.eqb shp_magic shp_version negb shape_type_with_u32]. rewrite u32_mul2_ok by apply HF.
    destruct (Z.leb_spec (2 ^ 31) len); [reflexivity|lia].
Qed.

Lemma new_errors m af magic u1 len v ty x0 y0 x1 y1 u2 rest : header_fields magic u1 len v ty x0 y0 x1 y1 u2 ->
  let new := shp_reader_new m af (header_bytes magic u1 len v ty x0 y0 x1 y1 u2 ++ rest) in
  (magic <> 9994 -> new = Ok (RErr (SEMagic magic))) /\
  (magic = 9994 -> v <> 1000 -> new = Ok (RErr (SEVersion v))) /\
  (magic = 9994 -> v = 1000 -> forall t, In (ty, t) type_codes -> t <> STPolygon -> new = Ok (RErr (SEUnsupported t))) /\
  (magic = 9994 -> v = 1000 -> (forall t, ~ In (ty, t) type_codes) -> new = Ok (RErr (SENoType ty))).
Proof.
  intros HF new. subst new. rewrite header_new by exact HF. unfold header_result, shp_magic, shp_version.
  pose proof (with_u32_codes ty) as Hc. repeat split.
  - intros H. destruct (Z.eqb_spec magic 9994); [contradiction|]. reflexivity.
  - intros -> H. rewrite Z.eqb_refl. destruct (Z.eqb_spec v 1000); [contradiction|]. reflexivity.
  - intros -> -> t Ht Hn. cbn in Ht. decompose [or] Ht; try contradiction;
      match goal with H : _ = _ |- _ => injection H as <- <- end; try congruence; reflexivity.
  - intros -> -> H. rewrite !Z.eqb_refl. cbn [negb]. destruct (shape_type_with_u32 ty) as [t|]; [exfalso; exact (H t Hc)|reflexivity].
Qed.

Lemma new_short m af s : (length s < 100)%nat -> shp_reader_new m af s = Ok (RErr SEIo).
Proof.
  intros H. unfold shp_reader_new, read_shp_header. rewrite read_exact_short by (unfold shp_header_length; lia). reflexivity.
Qed.

(** ** Accepted records *)
Lemma parse_accept buf rn rec : bytes_ok buf ->
  parse_polygon_record buf rn = Ok (ROk rec) <->
  exists box starts points,
    polygon_fields box starts points /\ buf = polygon_bytes box starts points /\
    starts_ok (Z.of_nat (length points)) starts /\
    rec = SRecord rn (slices starts (Z.of_nat (length points)) points).
Proof.
  intros Hb. split.
  - intros E. pose proof (parsed_ok buf rn Hb) as P. rewrite E in P. remember (Ok (ROk rec)) as o eqn:Eo.
    destruct P as [| | | | | |box starts points HF Hne]; try discriminate. injection Eo as Eo.
    apply polygon_result_ok in Eo; [|apply starts_pos, HF|exact Hne]. exists box, starts, points. tauto.
  - intros (box & starts & points & HF & -> & Hok & ->). assert (Hne : starts <> []) by (intros ->; exact Hok).
    rewrite polygon_parse by assumption. f_equal. apply polygon_result_ok; [apply starts_pos, HF|exact Hne|auto].
Qed.

Lemma slices_length {A} starts n (l : list A) : length (slices starts n l) = length starts.
Proof.
  induction starts as [|s t IH]; [reflexivity|]. destruct t as [|e t]; [reflexivity|]. cbn [slices length] in *. rewrite IH. reflexivity.
Qed.

Lemma starts_ok_bound n starts : Forall (fun z => 0 <= z) starts -> starts_ok n starts -> 4 <= n.
Proof.
  induction starts as [|s t IH]; [contradiction|]. intros Hp. inversion Hp; subst. destruct t as [|e t]; [cbn; lia|]. intros [_ H']. apply IH; assumption.
Qed.

Lemma slice_length {A} s e (l : list A) : 0 <= s <= e -> e <= Z.of_nat (length l) -> length (slice s e l) = Z.to_nat (e - s).
Proof. intros H1 H2. unfold slice. rewrite firstn_length, skipn_length. lia. Qed.

Lemma slices_sizes {A} starts (l : list A) : Forall (fun z => 0 <= z) starts -> starts_ok (Z.of_nat (length l)) starts ->
  Forall (fun r => 3 <= length r)%nat (slices starts (Z.of_nat (length l)) l) /\
  (4 <= length (last (slices starts (Z.of_nat (length l)) l) []))%nat.
Proof.
  induction starts as [|s t IH]; [contradiction|]. intros Hp. inversion Hp; subst. destruct t as [|e t].
  - cbn [starts_ok slices last]. intros H'. rewrite slice_length by lia. split; [constructor; [rewrite slice_length by lia; lia|constructor]|lia].
  - intros [H' H'']. destruct (IH ltac:(assumption) H'') as [I1 I2]. change (slices (s :: e :: t) (Z.of_nat (length l)) l) with (slice s e l :: slices (e :: t) (Z.of_nat (length l)) l). split.
    + constructor; [rewrite slice_length by lia; lia|exact I1].
    + destruct (slices (e :: t) (Z.of_nat (length l)) l) eqn:E; [destruct t; discriminate|]. exact I2.
Qed.

(** ** Panics *)

Lemma firstn_exact {A} n (a b : list A) : length a = n -> firstn n (a ++ b) = a.
Proof. intros <-. rewrite firstn_app, firstn_all, Nat.sub_diag. cbn. apply app_nil_r. Qed.
Lemma skipn_exact {A} n (a b : list A) : length a = n -> skipn n (a ++ b) = b.
Proof. intros <-. rewrite skipn_app, skipn_all, Nat.sub_diag. reflexivity. Qed.

Lemma le_bytes_inj n x y : in_bytes n x -> in_bytes n y -> le_bytes n x = le_bytes n y -> x = y.
Proof. intros Hx Hy E. rewrite <- (le_value_bytes n x Hx), <- (le_value_bytes n y Hy), E. reflexivity. Qed.

Lemma parse_panic buf rn p : bytes_ok buf -> parse_polygon_record buf rn = Panic p <-> p = PIndex /\ short_content buf.
Proof.
  intros Hb. pose proof (parsed_ok buf rn Hb) as P.
  assert (F5 : forall r, firstn 4 (le_bytes 4 5 ++ r) = le_bytes 4 5) by (intros r; apply firstn_exact; apply le_bytes_length).
  assert (S36 : forall box r, length box = 32%nat -> skipn 36 (le_bytes 4 5 ++ box ++ r) = r).
  { intros box r Hbox. rewrite app_assoc. apply skipn_exact. lens. lia. }
  destruct P as [buf HL|ty rest Hty Hne|rest HL|box rest Hbox|box a rest Hbox Ha Hne HL|box a b rest Hbox Ha Hbb Hne HL|box starts points HF Hne].
  - split; [intros [= <-]; split; [reflexivity|left; exact HL]|intros [-> _]; reflexivity].
  - split; [discriminate|]. intros [_ [H|[H _]]]; [revert H; lens; lia|]. exfalso. apply Hne.
    rewrite firstn_exact in H by apply le_bytes_length. apply (le_bytes_inj 4 ty 5) in H; [exact H|exact Hty|unfold in_bytes; cbn; lia].
  - split; [intros [= <-]; split; [reflexivity|]|intros [-> _]; reflexivity]. right. split; [apply F5|]. left. lens. lia.
  - split; [discriminate|]. intros [_ [H|[_ [H|[_ H]]]]]; [revert H; lens; lia|revert H; lens; lia|].
    exfalso. apply H. rewrite S36 by exact Hbox. apply firstn_exact. reflexivity.
  - split; [intros [= <-]; split; [reflexivity|]|intros [-> _]; reflexivity]. right. split; [apply F5|]. right. split; [lens; lia|].
    rewrite S36 by exact Hbox. rewrite firstn_exact by apply le_bytes_length. intros E. apply Hne.
    apply (le_bytes_inj 4 a 0); [exact Ha|unfold in_bytes; cbn; lia|rewrite E; reflexivity].
  - split; [discriminate|]. intros [_ [H|[_ [H|[H _]]]]]; revert H; rewrite content_length by exact Hbox; lia.
  - split; [discriminate|]. intros [_ [H|[_ [H|[H _]]]]]; revert H; rewrite polygon_length by exact HF; lia.
Qed.

(** ** Records and iteration *)
Lemma read_cases af s : bytes_ok s ->
  ((length s < 8)%nat /\ read_polygon_record af s = Ok (RErr SEIo, af s 8)) \/
  exists rn words s1, in_bytes 4 rn /\ in_bytes 4 words /\ s = be_bytes 4 rn ++ be_bytes 4 words ++ s1 /\ bytes_ok s1 /\
    ((Z.of_nat (length s1) < words * 2 /\ read_polygon_record af s = Ok (RErr SEIo, af s1 (words * 2))) \/
     exists buf s2, s1 = buf ++ s2 /\ bytes_ok buf /\ bytes_ok s2 /\ Z.of_nat (length buf) = words * 2 /\
       read_polygon_record af s =
       match parse_polygon_record buf rn with
       | Panic p => Panic p
       | Ok (ROk rec) => Ok (ROk (rec, 8 + Z.of_nat (length buf)), s2)
       | Ok (RErr e) => Ok (RErr e, s2)
       end).
Proof.
  intros H. destruct (Nat.lt_ge_cases (length s) 8) as [HL|HL].
  { left. split; [exact HL|]. unfold read_polygon_record. rewrite read_exact_short by lia. reflexivity. }
  right. destruct (cut 4 s H) as (a1 & s0 & -> & L1 & O1 & H1); [lia|]. rewrite app_length in HL.
  destruct (cut 4 s0 H1) as (a2 & s1 & -> & L2 & O2 & H2); [lia|].
  destruct (be_form 4 a1 O1 L1) as (rn & Hrn & ->). destruct (be_form 4 a2 O2 L2) as (words & Hw & ->).
  exists rn, words, s1. split; [exact Hrn|]. split; [exact Hw|]. split; [reflexivity|]. split; [exact H2|].
  unfold read_polygon_record. rewrite app_assoc. rewrite read_exact_app by (lens; reflexivity).
  rewrite (be_at_app [] _ 0 4 rn eq_refl Hrn : be_at (be_bytes 4 rn ++ _) 0 4 = _). cbn [bind].
  rewrite be_at_end by (lens; auto). cbn [bind]. pose proof Hw as [Hw0 _].
  destruct (Z.lt_ge_cases (Z.of_nat (length s1)) (words * 2)) as [HS|HS].
  - left. split; [exact HS|]. rewrite read_exact_short by exact HS. reflexivity.
  - right. destruct (cut (Z.to_nat (words * 2)) s1 H2) as (buf & s2 & -> & Lb & Ob & O3); [lia|]. exists buf, s2.
    assert (Lb' : Z.of_nat (length buf) = words * 2) by lia. split; [reflexivity|]. split; [exact Ob|]. split; [exact O3|]. split; [exact Lb'|].
    rewrite read_exact_app by exact Lb'. destruct (parse_polygon_record buf rn) as [[rec|e]|p]; reflexivity.
Qed.

Lemma next_panic af r p : bytes_ok (shr_file r) ->
  shp_next af r = Panic p <->
  p = PIndex /\ shr_read r < sh_bytes (shr_header r) /\
  exists rn words c rest, shr_file r = be_bytes 4 rn ++ be_bytes 4 words ++ c ++ rest /\ in_bytes 4 rn /\ in_bytes 4 words /\
    Z.of_nat (length c) = words * 2 /\ short_content c.
Proof.
  intros Hb. unfold shp_next. destruct (Z.leb_spec (sh_bytes (shr_header r)) (shr_read r)) as [HL|HL].
  { split; [discriminate|]. intros (_ & H & _). lia. }
  split.
  - intros E. destruct (read_cases af (shr_file r) Hb) as [[_ E']|(rn & words & s1 & Hrn & Hw & Es & H1 & [[_ E']|(buf & s2 & -> & Ob & O2 & Lb & E')])];
      rewrite E' in E; try discriminate.
    destruct (parse_polygon_record buf rn) as [[rec|e]|p'] eqn:Ep; try discriminate. cbn [bind] in E. injection E as <-.
    apply parse_panic in Ep as [-> Hs]; [|exact Ob]. split; [reflexivity|]. split; [exact HL|]. exists rn, words, buf, s2. auto.
  - intros (-> & _ & rn & words & c & rest & Es & Hrn & Hw & Lc & Hc).
    assert (Ob : bytes_ok c).
    { rewrite Es in Hb. apply Forall_app in Hb as [_ Hb]. apply Forall_app in Hb as [_ Hb]. apply Forall_app in Hb as [Hb _]. exact Hb. }
    assert (E : read_polygon_record af (shr_file r) = Panic PIndex).
    { rewrite Es. unfold read_polygon_record. rewrite app_assoc. rewrite read_exact_app by (lens; reflexivity).
      rewrite (be_at_app [] _ 0 4 rn eq_refl Hrn : be_at (be_bytes 4 rn ++ _) 0 4 = _). cbn [bind].
      rewrite be_at_end by (lens; auto). cbn [bind]. rewrite read_exact_app by exact Lc.
      assert (E : parse_polygon_record c rn = Panic PIndex) by (apply parse_panic; auto). rewrite E. reflexivity. }
    rewrite E. reflexivity.
Qed.

Lemma af_length af s n : leaves_suffix af -> (length (af s n) <= length s)%nat.
Proof. intros H. destruct (H s n) as [p E]. rewrite E at 2. rewrite app_length. lia. Qed.
Lemma af_ok af s n : leaves_suffix af -> bytes_ok s -> bytes_ok (af s n).
Proof. intros H Hb. destruct (H s n) as [p E]. rewrite E in Hb. apply Forall_app in Hb. apply Hb. Qed.

(** The steps of the iteration. *)
Lemma next_steps af r : leaves_suffix af -> bytes_ok (shr_file r) ->
  (exists p, shp_next af r = Panic p) \/
  (sh_bytes (shr_header r) <= shr_read r /\ shp_next af r = Ok (None, r)) \/
  (shr_read r < sh_bytes (shr_header r) /\ exists item r', shp_next af r = Ok (Some item, r') /\ shr_header r' = shr_header r /\ bytes_ok (shr_file r') /\
     (((length (shr_file r) < 8)%nat /\ item = RErr SEIo /\ shr_read r' = shr_read r /\ (length (shr_file r') < 8)%nat) \/
      ((length (shr_file r') + 8 <= length (shr_file r))%nat /\ shr_read r <= shr_read r' /\
       forall rec, item = ROk rec -> shr_read r + 120 <= shr_read r' <= sh_bytes (shr_header r)))).
Proof.
  intros Ha Hb. unfold shp_next. destruct (Z.leb_spec (sh_bytes (shr_header r)) (shr_read r)) as [HL|HL]; [right; left; split; [exact HL|destruct r; reflexivity]|].
  destruct (read_cases af (shr_file r) Hb) as [[Hs E']|(rn & words & s1 & Hrn & Hw & Es & H1 & [[Hs E']|(buf & s2 & -> & Ob & O2 & Lb & E')])]; rewrite E'; cbn [bind].
  - right. right. split; [exact HL|]. eexists _, _. split; [reflexivity|]. cbn [shr_file shr_read shr_header]. split; [reflexivity|]. split; [apply af_ok; assumption|].
    left. pose proof (af_length af (shr_file r) 8 Ha). repeat split; auto; lia.
  - right. right. split; [exact HL|]. eexists _, _. split; [reflexivity|]. cbn [shr_file shr_read shr_header]. split; [reflexivity|]. split; [apply af_ok; assumption|].
    right. pose proof (af_length af s1 (words * 2) Ha). rewrite Es. lens. split; [lia|]. split; [lia|]. discriminate.
  - destruct (parse_polygon_record buf rn) as [[rec|e]|p] eqn:Ep; [| |left; eexists; reflexivity]; right; right; (split; [exact HL|]); cbn [bind].
    + eexists _, _. split; [reflexivity|]. cbn [shr_file shr_read shr_header]. split; [reflexivity|]. split; [exact O2|]. right. rewrite Es. lens. split; [lia|].
      split; [lia|]. intros rec' Hrec. apply parse_accept in Ep as (box & starts & points & HF & -> & Hok & ->); [|exact Ob].
      rewrite polygon_length in * by exact HF. pose proof (starts_ok_bound _ _ (starts_pos _ (proj1 (proj2 (proj2 (proj2 HF))))) Hok).
      assert (1 <= length starts)%nat by (destruct starts; [contradiction|cbn; lia]).
      destruct (Z.ltb_spec (sh_bytes (shr_header r)) (shr_read r + (8 + Z.of_nat (44 + 4 * length starts + 16 * length points)))); [discriminate|]. lia.
    + eexists _, _. split; [reflexivity|]. cbn [shr_file shr_read shr_header]. split; [reflexivity|]. split; [exact O2|]. right. rewrite Es. lens. split; [lia|]. split; [lia|]. discriminate.
Qed.

Lemma stuck af r : leaves_suffix af -> bytes_ok (shr_file r) -> shr_read r < sh_bytes (shr_header r) -> (length (shr_file r) < 8)%nat ->
  forall j, calls (shp_next af) j r = Ok (repeat (Some (RErr SEIo)) j).
Proof.
  intros Ha Hb HL Hs j. revert r Hb HL Hs. induction j as [|j IH]; intros r Hb HL Hs; [reflexivity|].
  assert (E : exists r', shp_next af r = Ok (Some (RErr SEIo), r') /\ bytes_ok (shr_file r') /\ shr_header r' = shr_header r /\ shr_read r' = shr_read r /\ (length (shr_file r') < 8)%nat).
  { unfold shp_next. destruct (Z.leb_spec (sh_bytes (shr_header r)) (shr_read r)); [lia|]. unfold read_polygon_record. rewrite read_exact_short by lia. cbn [bind].
    eexists. split; [reflexivity|]. cbn. pose proof (af_length af (shr_file r) 8 Ha). repeat split; auto; try lia. apply af_ok; assumption. }
  destruct E as (r' & E & Hb' & Hh & Hr & Hs'). rewrite (calls_app _ _ _ r') by exact E.
  rewrite IH; [reflexivity|exact Hb'|rewrite Hh, Hr; exact HL|exact Hs'].
Qed.

Lemma settles af r : leaves_suffix af -> bytes_ok (shr_file r) ->
  exists k, (8 * k <= length (shr_file r) + 8)%nat /\
    ((exists p, calls (shp_next af) k r = Panic p) \/
     exists items x, (x = None \/ x = Some (RErr SEIo)) /\ length items = k /\
       forall j, calls (shp_next af) (k + j) r = Ok (items ++ repeat x j)).
Proof.
  intros Ha. remember (length (shr_file r)) as n eqn:Hn. revert r Hn. induction n as [n IH] using lt_wf_ind. intros r Hn Hb.
  destruct (next_steps af r Ha Hb) as [[p E]|[[HL E]|(HL & item & r' & E & Hh & Hb' & [(Hs & -> & Hr & Hs')|(Hlen & Hread & Hrec)])]].
  - exists 1%nat. split; [lia|]. left. exists p. cbn. rewrite E. reflexivity.
  - exists 0%nat. split; [lia|]. right. exists [], None. split; [auto|]. split; [reflexivity|]. intros j. apply calls_fixed. exact E.
  - exists 0%nat. split; [lia|]. right. exists [], (Some (RErr SEIo)). split; [auto|]. split; [reflexivity|]. intros j. apply stuck; auto.
  - destruct (IH (length (shr_file r')) ltac:(lia) r' eq_refl Hb') as (k & Hk & Hc). exists (S k). split; [lia|].
    destruct Hc as [[p Ep]|(items & x & Hx & Hi & Hc)].
    + left. exists p. rewrite (calls_app _ _ _ r') by exact E. rewrite Ep. reflexivity.
    + right. exists (Some item :: items), x. split; [exact Hx|]. split; [cbn; congruence|]. intros j. cbn [Nat.add app]. rewrite (calls_app _ _ _ r') by exact E. rewrite Hc. reflexivity.
Qed.

Lemma record_bound af r k items : leaves_suffix af -> bytes_ok (shr_file r) -> calls (shp_next af) k r = Ok items ->
  120 * Z.of_nat (length (filter is_record items)) <= Z.max 0 (sh_bytes (shr_header r) - shr_read r).
Proof.
  intros Ha. revert r items. induction k as [|k IH]; intros r items Hb E; [injection E as <-; cbn; lia|].
  destruct (next_steps af r Ha Hb) as [[p En]|[[HL En]|(HL & item & r' & En & Hh & Hb' & Hcase)]].
  - cbn in E. rewrite En in E. discriminate.
  - rewrite (calls_fixed _ r None) in E by exact En.
    assert (H : forall n, filter is_record (repeat None n) = []) by (intros n; induction n; cbn; auto).
    assert (E' : items = repeat None (S k)) by congruence. rewrite E', H. cbn [length]. lia.
  - rewrite (calls_app _ _ _ r') in E by exact En. destruct (calls (shp_next af) k r') as [l|] eqn:El; [|discriminate]. injection E as <-.
    specialize (IH r' l Hb' El). rewrite Hh in IH. destruct item as [rec|e]; cbn [filter is_record].
    + destruct Hcase as [(_ & ? & _)|(_ & _ & Hrec)]; [discriminate|]. specialize (Hrec rec eq_refl). cbn [length]. lia.
    + destruct Hcase as [(_ & _ & Hr & _)|(_ & Hr & _)]; lia.
Qed.

(** ** Whole files *)
Lemma fr_bytes_even r : fr_ok r -> exists z, Z.of_nat (length (fr_bytes r)) = 2 * z.
Proof. intros H. rewrite fr_bytes_length by exact H. eexists (26 + 2 * Z.of_nat (length (fr_rings r)) + 8 * Z.of_nat (length (concat (fr_rings r)))). lia. Qed.
Lemma file_even rs : Forall fr_ok rs -> exists z, file_size rs = 2 * z.
Proof.
  unfold file_size. induction 1 as [|r rs Hr H [z IH]]; cbn [map concat].
  - exists 50. reflexivity.
  - destruct (fr_bytes_even r Hr) as [y Hy]. rewrite app_length. exists (z + y). lia.
Qed.

Lemma file_read m af unused x0 y0 x1 y1 zm rs junk k :
  header_fields 9994 unused (file_size rs / 2) 1000 5 x0 y0 x1 y1 zm ->
  Forall fr_ok rs -> file_size rs < 2 ^ 32 ->
  exists r,
    shp_reader_new m af (header_bytes 9994 unused (file_size rs / 2) 1000 5 x0 y0 x1 y1 zm ++ concat (map fr_bytes rs) ++ junk) = Ok (ROk r) /\
    sh_bytes (shr_header r) = file_size rs /\ sh_bbox (shr_header r) = SBBox x0 y0 x1 y1 /\
    calls (shp_next af) (length rs + k) r = Ok (map (fun f => Some (ROk (fr_record f))) rs ++ repeat None k).
Proof.
  intros HF HR HS. destruct (file_even rs HR) as [z Hz]. assert (Hz2 : file_size rs / 2 = z) by (rewrite Hz, Z.mul_comm, Z.div_mul; lia).
  assert (H0 : 0 <= file_size rs) by (unfold file_size; lia).
  assert (Hd : (2 * (file_size rs / 2)) mod 2 ^ 32 = file_size rs) by (rewrite Hz2, <- Hz; apply Z.mod_small; lia).
  exists (ShpReader (concat (map fr_bytes rs) ++ junk) 100 (SHeader (file_size rs) STPolygon (SBBox x0 y0 x1 y1))).
  split; [|split; [reflexivity|split; [reflexivity|]]].
  - rewrite header_new by exact HF. unfold header_result. cbn [Z.eqb Pos.eqb shp_magic shp_version negb shape_type_with_u32].
    rewrite u32_mul2_ok by apply HF. rewrite Hd. destruct (Z.leb_spec (2 ^ 31) (file_size rs / 2)); [lia|]. reflexivity.
  - apply file_iterate; [exact HR|]. reflexivity.
Qed.

Lemma slice_in {A} s e (l : list A) : (length (slice s e l) <= length l)%nat.
Proof. unfold slice. rewrite firstn_length, skipn_length. lia. Qed.

Lemma slices_total {A} s t (l : list A) : Forall (fun z => 0 <= z) (s :: t) -> starts_ok (Z.of_nat (length l)) (s :: t) ->
  Z.of_nat (length (concat (slices (s :: t) (Z.of_nat (length l)) l))) = Z.of_nat (length l) - s.
Proof.
  revert s. induction t as [|e t IH]; intros s Hp Hok; inversion Hp; subst.
  - cbn [slices concat starts_ok] in *. rewrite app_nil_r, slice_length; lia.
  - destruct Hok as [H' H'']. change (slices (s :: e :: t) (Z.of_nat (length l)) l) with (slice s e l :: slices (e :: t) (Z.of_nat (length l)) l).
    cbn [concat]. rewrite app_length, Nat2Z.inj_add, IH by assumption. rewrite slice_length; lia.
Qed.

Lemma parse_sizes buf rn rec : bytes_ok buf -> parse_polygon_record buf rn = Ok (ROk rec) ->
  sr_number rec = rn /\ sr_rings rec <> [] /\
  Forall (fun r => 3 <= length r)%nat (sr_rings rec) /\ (4 <= length (last (sr_rings rec) []))%nat /\
  44 + 4 * Z.of_nat (length (sr_rings rec)) + 16 * Z.of_nat (length (concat (sr_rings rec))) <= Z.of_nat (length buf).
Proof.
  intros Hb E. apply parse_accept in E as (box & starts & points & HF & -> & Hok & ->); [|exact Hb]. cbn [sr_number sr_rings].
  pose proof (starts_pos _ (proj1 (proj2 (proj2 (proj2 HF))))) as Hp. destruct (slices_sizes starts points Hp Hok) as [H1 H2].
  split; [reflexivity|]. split; [|split; [exact H1|split; [exact H2|]]].
  - intros E. rewrite E in H2. cbn in H2. lia.
  - rewrite polygon_length by exact HF. rewrite slices_length. destruct starts as [|s t]; [contradiction|]. rewrite slices_total by assumption.
    inversion Hp; subst. lia.
Qed.
