(** * DamageProps: C130, .shp files with damaged records *)
From Verif Require Import DamageSpec DamageProofs BytesProofs ShpProofs ShpLaws ShpProps.

(** Every record of a file is answered for by itself and in order, and errors name the record.  Missing: that
    the reader ends after the last record (refuted below). *)
Theorem C130_records_partial : forall m af unused x0 y0 x1 y1 zm fs junk,
  header_fields 9994 unused (frames_size fs / 2) 1000 5 x0 y0 x1 y1 zm -> Forall frame_ok fs -> frames_size fs < 2 ^ 32 ->
  exists r items,
    shp_reader_new m af (header_bytes 9994 unused (frames_size fs / 2) 1000 5 x0 y0 x1 y1 zm ++ concat (map frame_bytes fs) ++ junk) = Ok (ROk r) /\
    shr_header r = SHeader (frames_size fs) STPolygon (SBBox x0 y0 x1 y1) /\
    Forall2 answers fs items /\ calls (shp_next af) (length fs) r = Ok items.
Proof.
  intros m af unused x0 y0 x1 y1 zm fs junk HF HR HS. destruct (damage_read m af unused x0 y0 x1 y1 zm fs junk HF HR HS) as (r & items & pos & N & H & A & _ & _ & C).
  exists r, items. split; [exact N|]. split; [exact H|]. split; [exact A|]. specialize (C 0%nat). rewrite Nat.add_0_r in C. rewrite C. cbn. rewrite app_nil_r. reflexivity.
Qed.
Print Assumptions C130_records_partial.

(** After the last record the reader ends if all records were intact; otherwise it goes on, without end. *)
Theorem C130_end_partial : forall m af unused x0 y0 x1 y1 zm fs, leaves_suffix af ->
  header_fields 9994 unused (frames_size fs / 2) 1000 5 x0 y0 x1 y1 zm -> Forall frame_ok fs -> frames_size fs < 2 ^ 32 ->
  exists r items,
    shp_reader_new m af (header_bytes 9994 unused (frames_size fs / 2) 1000 5 x0 y0 x1 y1 zm ++ concat (map frame_bytes fs)) = Ok (ROk r) /\
    Forall2 answers fs items /\
    (Forall (fun f => exists rec, intact f rec) fs -> forall k, calls (shp_next af) (length fs + k) r = Ok (items ++ repeat None k)) /\
    (Exists damaged fs -> forall k, calls (shp_next af) (length fs + k) r = Ok (items ++ repeat (Some (RErr SEIo)) k)).
Proof.
  intros m af unused x0 y0 x1 y1 zm fs Ha HF HR HS. destruct (damage_read m af unused x0 y0 x1 y1 zm fs [] HF HR HS) as (r & items & pos & N & H & A & P & Q & C).
  rewrite app_nil_r in N. exists r, items. split; [exact N|]. split; [exact A|]. split.
  - intros F k. apply Q in F. rewrite C. rewrite (calls_fixed _ _ None); [reflexivity|]. unfold shp_next. rewrite H. cbn [shr_read shr_header sh_bytes].
    destruct (Z.leb_spec (frames_size fs) pos); [reflexivity|lia].
  - intros F k. assert (pos <> frames_size fs).
    { intros E. apply Q in E. apply Exists_exists in F as (f & Hf & D). rewrite Forall_forall in E. destruct (E f Hf) as (rec & I). exact (D rec I). }
    rewrite C, (stuck af); [reflexivity|exact Ha|apply Forall_nil|cbn [shr_read shr_header]; rewrite H; cbn [sh_bytes]; lia|cbn; lia].
Qed.
Print Assumptions C130_end_partial.

(** A record of type 3, and an intact one. *)
Definition broken : list frame := [Frame 1 (le_bytes 4 3 ++ repeat 0 196); Frame 2 (record_content zero_box sample_rings)].
Lemma broken_ok : Forall frame_ok broken.
Proof.
  repeat constructor; cbn [fm_number fm_content]; try (vm_compute; congruence); try (vm_compute; repeat constructor; discriminate).
  - exists 100%nat. reflexivity.
  - intros [H|(H & _)]; [vm_compute in H; lia|vm_compute in H; discriminate].
  - exists 98%nat. reflexivity.
  - intros [H|(_ & [H|(H & _)])]; vm_compute in H; lia.
Qed.

Theorem C130_end_refuted : exists s n, bytes_ok s /\ forall m af, leaves_suffix af -> exists r items,
  shp_reader_new m af s = Ok (ROk r) /\ length items = n /\ (exists rec, In (Some (ROk rec)) items) /\
  forall k, calls (shp_next af) (n + k) r = Ok (items ++ repeat (Some (RErr SEIo)) k).
Proof.
  exists (header_bytes 9994 (repeat 0 20) (frames_size broken / 2) 1000 5 1 2 3 4 (repeat 0 32) ++ concat (map frame_bytes broken)), 2%nat.
  split; [repeat (constructor; [vm_compute; split; congruence|]); constructor|]. intros m af Ha.
  set (h := SHeader (frames_size broken) STPolygon (SBBox 1 2 3 4)).
  exists (ShpReader (concat (map frame_bytes broken)) 100 h), [Some (RErr (SERecordType 1 3)); Some (ROk (SRecord 2 sample_rings))].
  split; [destruct m; vm_compute; reflexivity|]. split; [reflexivity|]. split; [exists (SRecord 2 sample_rings); right; left; reflexivity|]. intros k.
  cbn [Nat.add]. rewrite (calls_app _ _ (Some (RErr (SERecordType 1 3))) (ShpReader (frame_bytes (nth 1 broken (Frame 0 []))) 100 h)) by (vm_compute; reflexivity).
  rewrite (calls_app _ _ (Some (ROk (SRecord 2 sample_rings))) (ShpReader [] 304 h)) by (vm_compute; reflexivity).
  rewrite (stuck af); [reflexivity|exact Ha|apply Forall_nil|vm_compute; reflexivity|cbn; lia].
Qed.
Print Assumptions C130_end_refuted.

(** What follows the declared end of the file is read as well. *)
Theorem C130_beyond_refuted : exists fs junk rec, Forall frame_ok fs /\ forall m af, exists r,
  shp_reader_new m af (header_bytes 9994 (repeat 0 20) (frames_size fs / 2) 1000 5 1 2 3 4 (repeat 0 32) ++ concat (map frame_bytes fs) ++ junk) = Ok (ROk r) /\
  exists items, calls (shp_next af) (length fs + 1) r = Ok (items ++ [Some (ROk rec)]) /\ length items = length fs.
Proof.
  exists broken, (frame_bytes (Frame 3 (record_content zero_box [[SP 1 1; SP 2 1; SP 2 2; SP 1 1]]))).
  exists (SRecord 3 [[SP 1 1; SP 2 1; SP 2 2; SP 1 1]]).
  split; [exact broken_ok|]. intros m af. eexists. split; [destruct m; vm_compute; reflexivity|].
  exists [Some (RErr (SERecordType 1 3)); Some (ROk (SRecord 2 sample_rings))]. split; [vm_compute; reflexivity|reflexivity].
Qed.
Print Assumptions C130_beyond_refuted.

Example C130_case : Forall frame_ok broken /\ frames_size broken = 512 /\
  header_fields 9994 (repeat 0 20) (frames_size broken / 2) 1000 5 1 2 3 4 (repeat 0 32).
Proof. split; [exact broken_ok|]. split; [vm_compute; reflexivity|]. unfold header_fields, in_bytes. repeat split; vm_compute; congruence. Qed.
