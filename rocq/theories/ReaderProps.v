(** * ReaderProps: it does not matter how the bytes arrive *)
From Verif Require Import ReaderSpec ReaderProofs SfProps DbfProps ShpProps.

(** Sources that deliver the same bytes and errors, in whatever pieces, are read alike. *)
Theorem C114_shp_pieces : forall S T (a : source S) (b : source T) ia ib m k s t,
  delivers a ia -> delivers b ib -> ia s = ib t -> shp_seen a m k s = shp_seen b m k t.
Proof. intros S T. exact shp_pieces. Qed.
Print Assumptions C114_shp_pieces.

Theorem C114_dbf_pieces : forall S T (a : source S) (b : source T) ia ib m enc k s t,
  delivers a ia -> delivers b ib -> ia s = ib t -> dbf_seen a m enc k s = dbf_seen b m enc k t.
Proof. intros S T. exact dbf_pieces. Qed.
Print Assumptions C114_dbf_pieces.

Theorem C114_pieces : forall S T S' T' (a : source S) (b : source T) (a' : source S') (b' : source T') ia ib ia' ib' m enc k s t s' t',
  delivers a ia -> delivers b ib -> delivers a' ia' -> delivers b' ib' -> ia s = ib t -> ia' s' = ib' t' ->
  sf_seen a a' m enc k s s' = sf_seen b b' m enc k t t'.
Proof. intros S T S' T' a b a' b' ia ib ia' ib' m enc k s t s' t' Ha Hb Ha' Hb'. exact (sf_pieces a b a' b' ia ib ia' ib' Ha Hb Ha' Hb' m enc k s t s' t'). Qed.
Print Assumptions C114_pieces.

(** So buffering, with a buffer of any size, changes nothing. *)
Theorem C114_buffered : forall S cap (src : source S) items, (0 < cap)%nat -> delivers src items ->
  delivers (buffered cap src) (fun st => map Byte (fst st) ++ items (snd st)).
Proof. intros S. exact buffered_delivers. Qed.
Print Assumptions C114_buffered.

Theorem C114_open : forall S S' cap cap' (a : source S) (a' : source S') ia ia' m enc k s s',
  (0 < cap)%nat -> (0 < cap')%nat -> delivers a ia -> delivers a' ia' ->
  let fill {T} (x : io_error + T) := match x with inl e => inl e | inr s => inr (@nil Z, s) end in
  sf_open_seen (buffered cap a) (buffered cap' a') m enc k (fill s) (fill s') = sf_open_seen a a' m enc k s s'.
Proof.
  intros S S' cap cap' a a' ia ia' m enc k s s' Hc Hc' Ha Ha' fill.
  apply (sf_open_pieces _ _ _ _ _ _ _ _ (buffered_delivers cap a ia Hc Ha) Ha (buffered_delivers cap' a' ia' Hc' Ha') Ha').
  - destruct s; reflexivity.
  - destruct s'; reflexivity.
Qed.
Print Assumptions C114_open.

(** A source that delivers some bytes and then the end of the data is read as the list of these
    bytes; the only [io::Error] is [UnexpectedEof]. *)
Theorem C114_shp_bytes : forall S (src : source S) items m k s bs, delivers src items -> items s = map Byte bs ->
  seen_map shp_plain (shp_seen src m k s) = shp_bytes_seen m k bs /\ Forall (eq UnexpectedEof) (io_errors (shp_seen src m k s)).
Proof. intros S. exact shp_as_bytes. Qed.
Print Assumptions C114_shp_bytes.

Theorem C114_dbf_bytes : forall S (src : source S) items m enc k s bs, delivers src items -> items s = map Byte bs ->
  seen_map dbf_plain (dbf_seen src m enc k s) = dbf_bytes_seen m enc k bs /\ Forall (eq UnexpectedEof) (io_errors (dbf_seen src m enc k s)).
Proof. intros S. exact dbf_as_bytes. Qed.
Print Assumptions C114_dbf_bytes.

Theorem C114_bytes : forall S T (a : source S) (b : source T) ia ib m enc k s t bs cs,
  delivers a ia -> delivers b ib -> ia s = map Byte bs -> ib t = map Byte cs ->
  seen_map sf_plain (sf_seen a b m enc k s t) = sf_bytes_seen m enc k bs cs /\
  Forall (eq UnexpectedEof) (fst (sf_io_errors (sf_seen a b m enc k s t))) /\ Forall (eq UnexpectedEof) (snd (sf_io_errors (sf_seen a b m enc k s t))).
Proof. intros S T. exact sf_as_bytes. Qed.
Print Assumptions C114_bytes.

(** If a device fails, everything before the fault is read as if the file ended there, and the
    error that stops the reader is that of the device. *)
Theorem C114_shp_fault : forall S (src : source S) items m k s bs rest af,
  delivers src items -> items s = map Byte bs ++ rest -> no_byte_next rest ->
  let seen := watch_to_error sho_header (shp_next_from (source_exact src)) k (shp_new_from (source_exact src) m s) in
  seen_map shp_plain seen = watch_to_error shr_header (shp_next af) k (shp_reader_new m af bs) /\ Forall (eq (stopped_by rest)) (io_errors seen).
Proof. intros S. exact shp_stopped. Qed.
Print Assumptions C114_shp_fault.

Theorem C114_dbf_fault : forall S (src : source S) items m enc k s bs rest af,
  delivers src items -> items s = map Byte bs ++ rest -> no_byte_next rest ->
  let seen := watch_to_error dbo_meta (fun r => Ok (dbf_next_from (source_exact src) r)) k (dbf_new_from (source_exact src) m enc s) in
  seen_map dbf_plain seen = watch_to_error dbr_meta (fun r => Ok (dbf_next af r)) k (dbf_reader_new m af enc bs) /\ Forall (eq (stopped_by rest)) (io_errors seen).
Proof. intros S. exact dbf_stopped. Qed.
Print Assumptions C114_dbf_fault.

Theorem C114_fault : forall S T (a : source S) (b : source T) ia ib m enc k s t bs cs rest rest' afs afd,
  delivers a ia -> delivers b ib -> ia s = map Byte bs ++ rest -> ib t = map Byte cs ++ rest' -> no_byte_next rest -> no_byte_next rest' ->
  let seen := watch_to_error sf_about (sf_next_from (source_exact a) (source_exact b)) k (sf_new_from (source_exact a) (source_exact b) m enc s t) in
  seen_map sf_plain seen = watch_to_error sf_bytes_about (sf_next afs afd) k (sf_reader_new m afs afd enc bs cs) /\
  Forall (eq (stopped_by rest)) (fst (sf_io_errors seen)) /\ Forall (eq (stopped_by rest')) (snd (sf_io_errors seen)).
Proof. intros S T. exact sf_stopped. Qed.
Print Assumptions C114_fault.

(** A source given by what happens at the calls of [read]: a piece arrives (of which some may be
    left for the next call), the call is interrupted, or the device fails. *)
Inductive event := Piece (bs : list Z) | Interruption | Defect (e : Z).
Definition drip_read (n : nat) (s : list event) : outcome * list event :=
  match s with
  | [] => (Got [], [])
  | Piece bs :: t => (Got (firstn n bs), match skipn n bs with [] => t | r => Piece r :: t end)
  | Interruption :: t => (Interrupted, t)
  | Defect e :: t => (Failed e, t)
  end.
Definition drip : source (list event) := Source drip_read (fun s => length (filter (fun e => match e with Interruption => true | _ => false end) s)).
Definition drip_items (s : list event) : list item :=
  flat_map (fun e => match e with Piece [] => [Pause] | Piece bs => map Byte bs | Interruption => [] | Defect e => [Fault e] end) s.
Lemma drip_delivers : delivers drip drip_items.
Proof.
  intros n [|[bs| |e] t] Hn; cbn [drip sc_read drip_read].
  - split; [right; split; reflexivity|lia].
  - destruct bs as [|b bs].
    + rewrite firstn_nil, skipn_nil. split; [left; reflexivity|cbn; lia].
    + destruct (got_part (b :: bs) n ltac:(discriminate) Hn) as (x & l & E & L). rewrite E. split; [exact L|].
      rewrite <- E. destruct (skipn n (b :: bs)) as [|y r] eqn:K.
      * split; [|cbn; lia]. rewrite <- (app_nil_r (firstn n (b :: bs))), <- K, firstn_skipn. reflexivity.
      * split; [|cbn; lia]. cbn [drip_items flat_map]. rewrite app_assoc, <- map_app, <- K, firstn_skipn. reflexivity.
  - split; [reflexivity|cbn; lia].
  - split; [reflexivity|cbn; lia].
Qed.

(** The sample file arrives in pieces of 7 bytes with interruptions, and is read through a buffer of
    10 bytes; and its device fails after 400 bytes. *)
Fixpoint sevens (fuel : nat) (bs : list Z) : list event :=
  match fuel, bs with S f, _ :: _ => Piece (firstn 7 bs) :: Interruption :: sevens f (skipn 7 bs) | _, _ => [] end.
Example C114_case :
  drip_items (sevens 100 sample_shp) = map Byte sample_shp /\
  shp_seen (buffered 10 drip) Debug 3 ([], sevens 100 sample_shp) = shp_seen drip Debug 3 [Piece sample_shp] /\
  (exists h, shp_seen drip Debug 3 [Piece sample_shp] =
    Ok (ROk (h, [Some (ROk (SRecord 1 sample_rings)); Some (ROk (SRecord 2 [[SP 0 0; SP 0 1; SP 1 1; SP 0 0]])); None]))) /\
  (exists h, shp_seen (buffered 10 drip) Debug 3 ([], sevens 100 (firstn 400 sample_shp) ++ [Defect 5]) =
    Ok (ROk (h, [Some (ROk (SRecord 1 sample_rings)); Some (RErr (inl (Device 5))); Some (RErr (inl UnexpectedEof))]))).
Proof.
  split; [vm_compute; reflexivity|]. split; [vm_compute; reflexivity|].
  split; eexists; vm_compute; reflexivity.
Qed.
