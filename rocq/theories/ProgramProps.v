(** * ProgramProps: C87 and C88, unclosed rings and the whole shp-to-geo-data program *)
From Verif Require Import BuildProofs NormTopo ClipTopoLaws ComposeProofs NormSafe PipelineProofs ProgramProofs QuantizeSpec ShpProps DbfProps SfProps NormProps
  ClipTopoProps ComposeProps PipelineProps.

(** ** C87: normalizing topologies whose rings need not be closed *)

Theorem C87_panics : forall D m (t : topology D) p, traversable t -> normalize m t = Panic p ->
  p = PAssert \/ p = PExplicit \/ (m = Debug /\ p = POverflow).
Proof.
  intros D m t p T E. pose proof (normalize_sane (fun _ => True) m t T (fun _ _ _ _ => I)) as H. rewrite E in H. exact H.
Qed.
Print Assumptions C87_panics.

(** The result is of the same kind, it has no new points, and no new regions. *)
Theorem C87_result : forall D m (t t' : topology D), traversable t -> normalize m t = Ok t' ->
  traversable t' /\
  (forall e z, In e (tp_edges t') -> In z (te_points e) -> exists e0, In e0 (tp_edges t) /\ In z (te_points e0)) /\
  (length (tp_regions t') <= length (tp_regions t))%nat.
Proof.
  intros D m t t' T E.
  pose proof (normalize_sane (fun z => exists e0, In e0 (tp_edges t) /\ In z (te_points e0)) m t T (fun e z He Hz => ex_intro _ e (conj He Hz))) as H.
  rewrite E in H. destruct H as (T' & H). split; [exact T'|]. split; [exact H|]. eapply normalize_count, E.
Qed.
Print Assumptions C87_result.

(** Every topology of the builder is of this kind. *)
Theorem C87_built : forall D m (rs : list (region D)) t, build_topology m rs = Ok t -> traversable t.
Proof. intros D. exact built_traversable. Qed.
Print Assumptions C87_built.

(** The ring of three sides of a square is not closed.  Whether normalizing it panics depends on
    where it starts. *)
Definition open_ring (ps : list point) : list (region Z) := [Region 1 [RPoints ps] []].
Definition open_a : list (region Z) := open_ring [Pt 0 0; Pt 9 0; Pt 9 9; Pt 0 9].
Definition open_b : list (region Z) := open_ring [Pt 0 9; Pt 0 0; Pt 9 0; Pt 9 9].
Example C87_case :
  (exists t t', build_topology Debug open_a = Ok t /\ traversable t /\ normalize Debug t = Ok t' /\
     map te_points (tp_edges t') = [[Pt 0 0; Pt 9 0; Pt 9 9; Pt 0 9]]) /\
  (exists t, build_topology Debug open_b = Ok t /\ traversable t /\ normalize Debug t = Panic PAssert).
Proof.
  split.
  - destruct (build_topology Debug open_a) as [t|p] eqn:E; [|vm_compute in E; discriminate]. exists t.
    destruct (normalize Debug t) as [t'|p] eqn:E'; [|vm_compute in E; injection E as <-; vm_compute in E'; discriminate]. exists t'.
    split; [reflexivity|]. split; [exact (C87_built _ _ _ _ E)|]. split; [reflexivity|].
    vm_compute in E; injection E as <-; vm_compute in E'; injection E' as <-. reflexivity.
  - destruct (build_topology Debug open_b) as [t|p] eqn:E; [|vm_compute in E; discriminate]. exists t.
    split; [reflexivity|]. split; [exact (C87_built _ _ _ _ E)|]. vm_compute in E; injection E as <-. vm_compute. reflexivity.
Qed.

(** ** C88: shp-to-geo-data *)

(** Exit code 0, exactly if all steps succeed: the number of regions and three descriptions. *)
Theorem C88_zero : forall v m afs afd enc shp dbf lines err,
  shp_to_geo_data v m afs afd enc shp dbf = (lines, Exited 0 err) <->
  exists n t1 t2 t3, import m afs afd enc shp dbf = Ok (ROk (t1, n)) /\ normalize m t1 = Ok t2 /\
    clip_topology m t2 (MinX (2 ^ 31)) = Ok t3 /\ lines = report n [t1; t2; t3] /\ err = [].
Proof.
  intros v m afs afd enc shp dbf lines err. pose proof (program_run v m afs afd enc shp dbf) as H. cbv zeta in H. split.
  - intros E. rewrite E in H. cbn [fst snd] in H. destruct (import m afs afd enc shp dbf) as [[[t1 n]|e]|p];
      [|destruct H as (_ & H); discriminate|destruct H as (H & _); discriminate].
    destruct (normalize m t1) as [t2|p] eqn:E2; [|discriminate]. destruct (clip_topology m t2 (MinX (2 ^ 31))) as [t3|p] eqn:E3; [|discriminate].
    injection H as -> ->. exists n, t1, t2, t3. auto.
  - intros (n & t1 & t2 & t3 & E1 & E2 & E3 & -> & ->). rewrite E1, E2, E3 in H. exact H.
Qed.
Print Assumptions C88_zero.

(** Otherwise, unless it panics, exit code 1, exactly if the import fails: nothing is printed but
    the error, with a prefix if the files could be opened. *)
Theorem C88_one : forall v m afs afd enc shp dbf lines c err, c <> 0 ->
  shp_to_geo_data v m afs afd enc shp dbf = (lines, Exited c err) <->
  c = 1 /\ lines = [] /\ exists e, import m afs afd enc shp dbf = Ok (RErr e) /\
    ((exists e', sf_open m afs afd enc shp dbf = Ok (RErr e')) /\ err = [show_sf_error v e] \/
     (exists r, sf_open m afs afd enc shp dbf = Ok (ROk r)) /\ err = [str "Error during read: " ++ show_sf_error v e]).
Proof.
  intros v m afs afd enc shp dbf lines c err Hc. pose proof (program_run v m afs afd enc shp dbf) as H. cbv zeta in H. split.
  - intros E. rewrite E in H. cbn [fst snd] in H. destruct (import m afs afd enc shp dbf) as [[[t1 n]|e]|p] eqn:EI; [| |destruct H as (H & _); discriminate].
    + destruct (normalize m t1) as [t2|p]; [|discriminate]. destruct (clip_topology m t2 (MinX (2 ^ 31))); [|discriminate]. congruence.
    + destruct H as (-> & H). injection H as -> ->. split; [reflexivity|]. split; [reflexivity|]. exists e. split; [reflexivity|].
      destruct (sf_open m afs afd enc shp dbf) as [[r|e']|p] eqn:EO; [right|left|]; [split; [exists r; reflexivity|reflexivity]|split; [exists e'; reflexivity|reflexivity]|].
      unfold import in EI. rewrite EO in EI. discriminate.
  - intros (-> & -> & e & E & X). rewrite E in H. destruct H as (H1 & H2). rewrite (surjective_pairing (shp_to_geo_data _ _ _ _ _ _ _)), H1, H2.
    destruct X as [((e' & EO) & ->)|((r & EO) & ->)]; rewrite EO; reflexivity.
Qed.
Print Assumptions C88_one.

(** A panic happens in one of the steps; the results of the earlier steps have been printed. *)
Theorem C88_crash : forall v m afs afd enc shp dbf lines p,
  shp_to_geo_data v m afs afd enc shp dbf = (lines, Crashed p) ->
  (import m afs afd enc shp dbf = Panic p /\ (lines = [] \/ exists n, lines = report n (@nil (topology dbf_record)))) \/
  (exists n t1, import m afs afd enc shp dbf = Ok (ROk (t1, n)) /\ normalize m t1 = Panic p /\ lines = report n [t1]) \/
  (exists n t1 t2, import m afs afd enc shp dbf = Ok (ROk (t1, n)) /\ normalize m t1 = Ok t2 /\
     clip_topology m t2 (MinX (2 ^ 31)) = Panic p /\ lines = report n [t1; t2]).
Proof.
  intros v m afs afd enc shp dbf lines p E. pose proof (program_run v m afs afd enc shp dbf) as H. cbv zeta in H. rewrite E in H. cbn [fst snd] in H.
  destruct (import m afs afd enc shp dbf) as [[[t1 n]|e]|q]; [|destruct H as (_ & H); discriminate|destruct H as ([= ->] & H); auto].
  right. destruct (normalize m t1) as [t2|q] eqn:E2.
  - destruct (clip_topology m t2 (MinX (2 ^ 31))) as [t3|q] eqn:E3; [discriminate|]. injection H as -> ->. right. exists n, t1, t2. auto.
  - injection H as -> ->. left. exists n, t1. auto.
Qed.
Print Assumptions C88_crash.

(** Whatever the bytes of the files are, the only panics are these. *)
Theorem C88_panics : forall v m afs afd enc shp dbf lines p, bytes_opt shp -> bytes_opt dbf ->
  shp_to_geo_data v m afs afd enc shp dbf = (lines, Crashed p) ->
  p = PIndex \/ p = PAssert \/ p = PExplicit \/ (m = Debug /\ p = POverflow) \/ (m = Release /\ p = PCapacity).
Proof. exact program_panic. Qed.
Print Assumptions C88_panics.

(** If the program exits with code 0, the numbers of regions it prints do not increase, all
    coordinates are u32 values, and nothing is left west of the mask. *)
Theorem C88_counts : forall v m afs afd enc shp dbf lines err, bytes_opt shp ->
  shp_to_geo_data v m afs afd enc shp dbf = (lines, Exited 0 err) ->
  exists n (t1 t2 t3 : topology dbf_record), lines = report n [t1; t2; t3] /\ length lines = 25%nat /\
    (d_regions (describe t3) <= d_regions (describe t2) <= d_regions (describe t1))%nat /\ (d_regions (describe t1) <= n)%nat /\
    (forall t, In t [t1; t2] -> traversable t /\ all_points wf_point t /\ (d_lone (describe t) + 2 * d_shared (describe t) = total_uses t)%nat) /\
    exact_references t3 /\ all_points (fun z => 2 ^ 31 <= px z) t3.
Proof.
  intros v m afs afd enc shp dbf lines err Hb E. apply C88_zero in E as (n & t1 & t2 & t3 & E1 & E2 & E3 & -> & ->).
  destruct (imported_ok _ _ _ _ _ _ _ _ Hb E1) as (T1 & W1 & N1). pose proof (normalize_sane wf_point m t1 T1 W1) as HN. rewrite E2 in HN.
  destruct HN as (T2 & W2). exists n, t1, t2, t3. split; [reflexivity|]. split; [reflexivity|].
  rewrite !(proj1 (C76_counts _ _)). split; [split; [eapply clip_count, E3|eapply normalize_count, E2]|]. split; [exact N1|]. split.
  - intros t [<-|[<-|[]]]; (split; [assumption|split; [assumption|]]).
    + apply import_ok_iff in E1 as (r & regs & _ & _ & B & _); [|exact Hb]. destruct (C76_built _ _ _ _ B). apply C76_uses; assumption.
    + destruct (C76_normalized _ _ _ _ E2). apply C76_uses; assumption.
  - split; [exact (C29_references _ _ _ _ _ E3)|]. intros e z He Hz. destruct (C24_inside _ _ _ _ _ e z E3 He Hz) as ([H|H] & _); unfold inside, on_line, axis, level in H; lia.
Qed.
Print Assumptions C88_counts.

(** Well-formed files of the same length: the program reads all regions, and unless an edge is used
    more than twice it describes the topology of the expected regions. *)
Theorem C88_file : forall v m afs afd enc b shapes fs datas (s d : stream),
  leaves_suffix afd -> bytes_ok s -> is_shp b shapes s -> is_dbf enc fs datas d -> length shapes = length datas ->
  let f := quantize (quantizer_new b) in
  Forall (fun rec => item_fits f (Some (ROk rec))) (paired shapes datas) ->
  exists regs, Forall2 (imported f) (paired shapes datas) regs /\
    ((forall k, (count_path k (all_paths (expected regs)) <= 2)%nat) ->
     exists t rest, read_topology t = expected regs /\
       fst (shp_to_geo_data v m afs afd enc (Some s) (Some d)) = report (length shapes) [t] ++ rest /\
       forall c err, snd (shp_to_geo_data v m afs afd enc (Some s) (Some d)) = Exited c err -> c = 0).
Proof.
  intros v m afs afd enc b shapes fs datas s d Ha Hb Hs Hd HL f HF.
  destruct (C75_file m afs afd enc b shapes fs datas s d Ha Hb Hs Hd HL HF) as (regs & HR & HI & _). exists regs. split; [exact HR|].
  intros HC. destruct (HI HC) as (t & Et & Rt). exists t.
  pose proof (program_run v m afs afd enc (Some s) (Some d)) as H. cbv zeta in H. rewrite Et in H.
  assert (X : forall l : list (topology dbf_record), exists rest, report (length shapes) (t :: l) = report (length shapes) [t] ++ rest).
  { intros l. unfold report. cbn [combine map concat app]. rewrite app_nil_r. eexists. rewrite <- ?app_assoc. reflexivity. }
  destruct (normalize m t) as [t2|p].
  - destruct (clip_topology m t2 (MinX (2 ^ 31))) as [t3|p]; rewrite H; cbn [fst snd].
    + destruct (X [t2; t3]) as (rest & E). exists rest. split; [exact Rt|]. split; [exact E|]. intros c err [= <- _]. reflexivity.
    + destruct (X [t2]) as (rest & E). exists rest. split; [exact Rt|]. split; [exact E|]. discriminate.
  - rewrite H. cbn [fst snd]. exists []. split; [exact Rt|]. rewrite app_nil_r. split; [reflexivity|]. discriminate.
Qed.
Print Assumptions C88_file.

(** Two triangles across the middle of the map. *)
Definition middle_triangles : list file_record :=
  let x0 := 4602678810582712320 in let x1 := 4602678827762581504 in let y0 := 4607182418800017408 in let y1 := 4607173411600762667 in
  [FR 1 zero_box [[SP x0 y0; SP x1 y0; SP x1 y1; SP x0 y0]]; FR 2 zero_box [[SP x0 y0; SP x1 y1; SP x0 y1; SP x0 y0]]].
Definition shp_bytes (recs : list file_record) : list Z :=
  header_bytes 9994 (repeat 0 20) (file_size recs / 2) 1000 5 0 0 4607182418800017408 4607182418800017408 (repeat 0 32) ++ concat (map fr_bytes recs).

(** Three sides of a rectangle, not starting at the smallest point. *)
Definition three_sides : list file_record :=
  let x0 := 4602678810582712320 in let x1 := 4602678827762581504 in let y0 := 4607182418800017408 in let y1 := 4607173411600762667 in
  [FR 1 zero_box [[SP x1 y0; SP x1 y1; SP x0 y1; SP x0 y0]]].

Definition described (r o i e s l p : Z) : list text :=
  [ str "  Regions:      " ++ decimal r; str "  Outer rings:  " ++ decimal o; str "  Inner rings:  " ++ decimal i;
    str "  Edges:        " ++ decimal e; str "  Shared edges: " ++ decimal s; str "  Lone edges:   " ++ decimal l; str "  Points:       " ++ decimal p ].

Example C88_case :
  shp_to_geo_data plain Debug forget forget ascii (Some (shp_bytes middle_triangles)) (Some (dbf_of 2)) =
    (str "Read 2 regions" :: str "Formed initial topology:" :: described 2 2 0 5 1 4 10 ++
     str "Normalized topology:" :: described 2 2 0 3 1 2 8 ++ str "Clipped topology:" :: described 2 2 0 5 1 4 11, Exited 0 []) /\
  shp_to_geo_data plain Debug forget forget ascii (Some (shp_bytes middle_triangles)) (Some (dbf_of 1)) =
    ([], Exited 1 [str "Error during read: Parse error: '.shp' file has more records than '.dbf' record"]) /\
  shp_to_geo_data plain Debug forget forget ascii (Some (shp_bytes three_sides)) (Some (dbf_of 1)) =
    (str "Read 1 regions" :: str "Formed initial topology:" :: described 1 1 0 3 0 3 6, Crashed PAssert).
Proof. split; [|split]; vm_compute; reflexivity. Qed.
