(** * DamageProofs: reading .shp files with damaged records *)
From Verif Require Import DamageSpec BytesProofs ShpProofs ShpLaws.

Lemma rings_about rn n points w : forall acc e, parse_rings rn n points w acc = RErr e -> about e = Some rn.
Proof.
  induction w as [|(s, e0) w IH]; intros acc e; cbn [parse_rings]; [discriminate|].
  destruct (_ || _); [intros [= <-]; reflexivity|]. destruct (e0 <? s + 3); [intros [= <-]; reflexivity|]. apply IH.
Qed.

Lemma parse_about buf rn e : parse_polygon_record buf rn = Ok (RErr e) -> about e = Some rn.
Proof.
  unfold parse_polygon_record. destruct (le_at buf 0 4) as [ty|]; [|discriminate]. cbn [bind]. destruct (negb (ty =? 5)); [intros [= <-]; reflexivity|].
  destruct (le_at buf 36 4) as [np|]; [|discriminate]. cbn [bind]. destruct (np =? 0); [intros [= <-]; reflexivity|].
  destruct (le_at buf 40 4) as [n|]; [|discriminate]. cbn [bind]. cbv zeta. destruct (negb _); [intros [= <-]; reflexivity|].
  destruct (sub_bytes buf (Z.to_nat (44 + 4 * np)) (length buf)) as [pbuf|]; [|discriminate]. cbn [bind].
  destruct (mmap parse_point _) as [points|]; [|discriminate]. cbn [bind]. destruct (sub_bytes buf 44 _) as [abuf|]; [|discriminate]. cbn [bind].
  destruct (mmap (read_le 4) _) as [parts|]; [|discriminate]. cbn [bind]. destruct (parse_rings _ _ _ _ _) as [rings|e'] eqn:E.
  - destruct (rev parts) as [|l ?]; [discriminate|]. cbn [bind]. destruct (_ <=? _); [intros [= <-]; reflexivity|discriminate].
  - intros [= <-]. exact (rings_about _ _ _ _ _ _ E).
Qed.

Lemma frame_length f : length (frame_bytes f) = (8 + length (fm_content f))%nat.
Proof. unfold frame_bytes. rewrite !app_length, !be_bytes_length. lia. Qed.
Lemma frame_words f : frame_ok f -> Z.of_nat (length (fm_content f)) = Z.of_nat (length (fm_content f)) / 2 * 2.
Proof. intros (_ & _ & (n & ->) & _). replace (Z.of_nat (2 * n)) with (Z.of_nat n * 2) by lia. rewrite Z.div_mul by lia. reflexivity. Qed.

Lemma frame_parse f : frame_ok f -> exists x, parse_polygon_record (fm_content f) (fm_number f) = Ok x /\
  match x with ROk rec => intact f rec | RErr e => damaged f /\ about e = Some (fm_number f) end.
Proof.
  intros (Hn & Hb & He & Hw & Hs). destruct (parse_polygon_record (fm_content f) (fm_number f)) as [[rec|e]|p] eqn:E.
  - eexists. split; [reflexivity|]. apply parse_accept in E as (box & starts & points & E); [|exact Hb]. exists box, starts, points. exact E.
  - eexists. split; [reflexivity|]. split; [|exact (parse_about _ _ _ E)]. intros rec (box & starts & points & I).
    assert (parse_polygon_record (fm_content f) (fm_number f) = Ok (ROk rec)) by (apply parse_accept; [exact Hb|exists box, starts, points; exact I]). congruence.
  - exfalso. apply Hs. apply (parse_panic _ (fm_number f) p Hb) in E. apply E.
Qed.

Lemma frame_read af f rest : frame_ok f ->
  read_polygon_record af (frame_bytes f ++ rest) =
  match parse_polygon_record (fm_content f) (fm_number f) with
  | Panic p => Panic p
  | Ok (ROk rec) => Ok (ROk (rec, Z.of_nat (length (frame_bytes f))), rest)
  | Ok (RErr e) => Ok (RErr e, rest)
  end.
Proof.
  intros H. pose proof (frame_words f H) as W. destruct H as (Hn & _ & _ & Hw & _). unfold read_polygon_record. unfold frame_bytes at 1. rewrite <- !app_assoc. rewrite app_assoc.
  rewrite read_exact_app by (rewrite app_length, !be_bytes_length; reflexivity).
  rewrite (be_at_app [] _ 0 4 (fm_number f) eq_refl Hn : be_at (be_bytes 4 (fm_number f) ++ _) 0 4 = _). cbn [bind].
  rewrite be_at_end by (rewrite ?be_bytes_length; auto). cbn [bind]. rewrite read_exact_app by exact W.
  destruct (parse_polygon_record _ _) as [[rec|e]|p]; [|reflexivity..]. cbn [bind]. repeat f_equal. rewrite frame_length. lia.
Qed.

(** Bytes of intact records: these are the ones that the reader counts. *)
Lemma damage_iterate af h fs junk : Forall frame_ok fs -> forall pos, pos + Z.of_nat (length (concat (map frame_bytes fs))) <= sh_bytes h ->
  exists items pos', Forall2 answers fs items /\ pos <= pos' <= pos + Z.of_nat (length (concat (map frame_bytes fs))) /\
    (pos' = pos + Z.of_nat (length (concat (map frame_bytes fs))) <-> Forall (fun f => exists rec, intact f rec) fs) /\
    forall k, calls (shp_next af) (length fs + k) (ShpReader (concat (map frame_bytes fs) ++ junk) pos h) =
      match calls (shp_next af) k (ShpReader junk pos' h) with Ok l => Ok (items ++ l) | Panic p => Panic p end.
Proof.
  intros H. induction H as [|f fs Hf H IH]; intros pos Hb; cbn [map concat length app] in *.
  - exists [], pos. split; [constructor|]. split; [lia|]. split; [split; [constructor|lia]|]. intros k. cbn. destruct (calls _ _ _); reflexivity.
  - rewrite app_length in *. pose proof (frame_length f) as HL. destruct (frame_parse f Hf) as (x & E & X).
    pose proof (frame_read af f (concat (map frame_bytes fs) ++ junk) Hf) as R. rewrite E in R. destruct x as [rec|e].
    + destruct (IH (pos + Z.of_nat (length (frame_bytes f))) ltac:(lia)) as (items & pos' & A & P & Q & C). exists (Some (ROk rec) :: items), pos'.
      split; [constructor; [left; eauto|exact A]|]. split; [lia|].
      split; [split; [intros Ep; constructor; [eauto|apply Q; lia]|intros F; inversion F; subst; apply Q in H3; lia]|].
      intros k. cbn [Nat.add]. rewrite (calls_app _ _ (Some (ROk rec)) (ShpReader (concat (map frame_bytes fs) ++ junk) (pos + Z.of_nat (length (frame_bytes f))) h)).
      * rewrite C. destruct (calls _ k _); reflexivity.
      * unfold shp_next. cbn [shr_read shr_header shr_file]. destruct (Z.leb_spec (sh_bytes h) pos); [lia|]. rewrite <- app_assoc, R. cbn [bind].
        destruct (Z.ltb_spec (sh_bytes h) (pos + Z.of_nat (length (frame_bytes f)))); [lia|]. reflexivity.
    + destruct X as (Dm & Ab). destruct (IH pos ltac:(lia)) as (items & pos' & A & P & Q & C). exists (Some (RErr e) :: items), pos'.
      split; [constructor; [right; eauto|exact A]|]. split; [lia|].
      split; [split; [lia|intros F; inversion F as [|? ? (rec & I) ?]; subst; exfalso; exact (Dm rec I)]|].
      intros k. cbn [Nat.add]. rewrite (calls_app _ _ (Some (RErr e)) (ShpReader (concat (map frame_bytes fs) ++ junk) pos h)).
      * rewrite C. destruct (calls _ k _); reflexivity.
      * unfold shp_next. cbn [shr_read shr_header shr_file]. destruct (Z.leb_spec (sh_bytes h) pos); [lia|]. rewrite <- app_assoc, R. reflexivity.
Qed.

Lemma frames_even fs : Forall frame_ok fs -> frames_size fs = frames_size fs / 2 * 2.
Proof.
  intros H. assert (exists z, frames_size fs = z * 2) as (z & ->); [|rewrite Z.div_mul by lia; reflexivity]. unfold frames_size.
  induction H as [|f fs Hf H (z & IH)]; [exists 50; reflexivity|]. cbn [map concat]. rewrite app_length, frame_length. destruct Hf as (_ & _ & (n & ->) & _).
  exists (z + 4 + Z.of_nat n). lia.
Qed.

Lemma damage_read m af unused x0 y0 x1 y1 zm fs junk :
  header_fields 9994 unused (frames_size fs / 2) 1000 5 x0 y0 x1 y1 zm -> Forall frame_ok fs -> frames_size fs < 2 ^ 32 ->
  exists r items pos,
    shp_reader_new m af (header_bytes 9994 unused (frames_size fs / 2) 1000 5 x0 y0 x1 y1 zm ++ concat (map frame_bytes fs) ++ junk) = Ok (ROk r) /\
    shr_header r = SHeader (frames_size fs) STPolygon (SBBox x0 y0 x1 y1) /\
    Forall2 answers fs items /\ 100 <= pos <= frames_size fs /\ (pos = frames_size fs <-> Forall (fun f => exists rec, intact f rec) fs) /\
    forall k, calls (shp_next af) (length fs + k) r =
      match calls (shp_next af) k (ShpReader junk pos (shr_header r)) with Ok l => Ok (items ++ l) | Panic p => Panic p end.
Proof.
  intros HF HR HS. pose proof (frames_even fs HR) as Hz. assert (H0 : 100 <= frames_size fs) by (unfold frames_size; lia).
  assert (Hd : (2 * (frames_size fs / 2)) mod 2 ^ 32 = frames_size fs) by (rewrite Z.mul_comm, <- Hz; apply Z.mod_small; lia).
  set (h := SHeader (frames_size fs) STPolygon (SBBox x0 y0 x1 y1)).
  destruct (damage_iterate af h fs junk HR 100) as (items & pos & A & P & Q & C); [unfold h; cbn; unfold frames_size; lia|].
  exists (ShpReader (concat (map frame_bytes fs) ++ junk) 100 h), items, pos. split; [|split; [reflexivity|split; [exact A|split; [exact P|split; [exact Q|exact C]]]]].
  rewrite header_new by exact HF. unfold header_result. cbn [Z.eqb Pos.eqb shp_magic shp_version negb shape_type_with_u32].
  rewrite u32_mul2_ok by apply HF. rewrite Hd. destruct (Z.leb_spec (2 ^ 31) (frames_size fs / 2)); [lia|]. reflexivity.
Qed.
