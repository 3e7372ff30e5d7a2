(** * ShuffleFileProps: C131, the order of the records of a shapefile *)
From Verif Require Import BytesProofs ShuffleSpec PipelineSpec PipelineProofs ShuffleBuild ShuffleLaws ShpProps DbfProps SfProps PipelineProps.

Lemma imported_permuted f recs recs' : Permutation recs recs' -> forall regs, Forall2 (imported f) recs regs ->
  exists regs', Permutation regs regs' /\ Forall2 (imported f) recs' regs'.
Proof.
  induction 1 as [|x l l' P IH|x y l|l l' l'' P IH P' IH']; intros regs H.
  - inversion H; subst. exists []. split; constructor.
  - inversion H as [|? g ? gs A B]; subst. destruct (IH gs B) as (gs' & Q & C). exists (g :: gs'). split; [constructor; exact Q|constructor; assumption].
  - inversion H as [|? g ? gs A B]; subst. inversion B as [|? g' ? gs' A' B']; subst. exists (g' :: g :: gs'). split; [apply perm_swap|]. constructor; [assumption|]. constructor; assumption.
  - destruct (IH _ H) as (gs & Q & A). destruct (IH' _ A) as (gs' & Q' & A'). exists gs'. split; [eapply Permutation_trans; eassumption|exact A'].
Qed.

Lemma imported_same f recs : forall regs regs', Forall2 (imported f) recs regs -> Forall2 (imported f) recs regs' -> regs = regs'.
Proof.
  induction recs as [|x xs IH]; intros regs regs' A B; inversion A as [|? g ? gs A1 A2]; inversion B as [|? g' ? gs' B1 B2]; subst; [reflexivity|].
  f_equal; [|apply IH; assumption]. destruct g, g', A1 as (X1 & X2 & X3), B1 as (Y1 & Y2 & Y3). cbn in *. congruence.
Qed.

(** The records of both files in another order: the import returns the same topology with other
    numbers. *)
Theorem C131_import : forall m afs afd enc b shapes shapes' fs datas datas' (s s' d d' : stream) t n,
  leaves_suffix afd -> bytes_ok s -> bytes_ok s' -> is_shp b shapes s -> is_shp b shapes' s' -> is_dbf enc fs datas d -> is_dbf enc fs datas' d' ->
  length shapes' = length datas' -> Permutation (paired shapes datas) (paired shapes' datas') ->
  Forall (fun rec => item_fits (quantize (quantizer_new b)) (Some (ROk rec))) (paired shapes datas) ->
  import m afs afd enc (Some s) (Some d) = Ok (ROk (t, n)) ->
  exists t', import m afs afd enc (Some s') (Some d') = Ok (ROk (t', n)) /\ shuffled t t'.
Proof.
  intros m afs afd enc b shapes shapes' fs datas datas' s s' d d' t n Ha B B' S S' Hd Hd' L' P HF I.
  assert (HF' : Forall (fun rec => item_fits (quantize (quantizer_new b)) (Some (ROk rec))) (paired shapes' datas')).
  { apply Forall_forall. intros x Hx. rewrite Forall_forall in HF. apply HF. eapply Permutation_in; [apply Permutation_sym, P|exact Hx]. }
  destruct (import_file m afs afd enc b shapes fs datas s d Ha B S Hd HF) as (regs & R & E).
  destruct (import_file m afs afd enc b shapes' fs datas' s' d' Ha B' S' Hd' HF') as (regs' & R' & E').
  destruct (imported_permuted _ _ _ P _ R) as (regs'' & Q & R''). rewrite <- (imported_same _ _ _ _ R' R'') in Q. clear R'' regs''.
  rewrite I in E. rewrite E'. unfold length_check in *. rewrite L', Nat.eqb_refl.
  destruct (Nat.eqb_spec (length shapes) (length datas)) as [L|L]; [|destruct (length datas <? length shapes)%nat; discriminate E].
  destruct (build_topology m regs) as [t0|] eqn:Et; [|discriminate E]. injection E as <- ->.
  destruct (build_shuffled m regs regs' t Q Et) as (t' & -> & Sh). exists t'. split; [|exact Sh].
  apply Permutation_length in P. unfold paired in P. rewrite !map_length, !combine_length in P. do 3 f_equal. lia.
Qed.
Print Assumptions C131_import.

(** The two triangles of [C75_case] in the other order: the edges get other numbers. *)
Definition swapped_triangles : list file_record := rev two_triangles.
Definition swapped_shp : list Z :=
  header_bytes 9994 (repeat 0%Z 20) (file_size swapped_triangles / 2)%Z 1000 5 0 0 4607182418800017408 4607182418800017408 (repeat 0%Z 32) ++
  concat (map fr_bytes swapped_triangles).

Lemma swapped_is_shp : is_shp unit_box swapped_triangles swapped_shp.
Proof.
  assert (E : file_size swapped_triangles = 340) by (vm_compute; reflexivity).
  exists (repeat 0%Z 20), (repeat 0%Z 32), []. unfold swapped_shp. rewrite app_nil_r, E.
  split; [unfold header_fields, in_bytes; cbn; repeat split; lia|].
  split; [|split; [lia|reflexivity]].
  constructor; [|constructor; [|constructor]]; (split; [unfold in_bytes; cbn; lia|]); (split; [reflexivity|]);
    (split; [repeat constructor; cbn; unfold in_bytes; cbn; lia|]); (split; [repeat constructor|]); (split; [repeat constructor|]);
    unfold in_bytes; vm_compute; split; congruence.
Qed.

Lemma swapped_bytes : bytes_ok swapped_shp.
Proof.
  assert (E : forallb (fun z => (0 <=? z) && (z <? 256))%Z swapped_shp = true) by (vm_compute; reflexivity).
  apply Forall_forall. intros z Hz. rewrite forallb_forall in E. apply E, andb_true_iff in Hz. unfold is_byte. lia.
Qed.

Example C131_import_case : is_shp unit_box swapped_triangles swapped_shp /\ bytes_ok swapped_shp /\
  Permutation (paired two_triangles (repeat sample_rec 2)) (paired swapped_triangles (repeat sample_rec 2)) /\
  exists t t', import Debug forget forget ascii (Some triangles_shp) (Some (dbf_of 2)) = Ok (ROk (t, 2%nat)) /\
    import Debug forget forget ascii (Some swapped_shp) (Some (dbf_of 2)) = Ok (ROk (t', 2%nat)) /\
    map te_points (tp_edges t) <> map te_points (tp_edges t').
Proof.
  split; [exact swapped_is_shp|]. split; [exact swapped_bytes|]. split; [apply perm_swap|].
  eexists. eexists. split; [vm_compute; reflexivity|]. split; [vm_compute; reflexivity|]. vm_compute. discriminate.
Qed.
