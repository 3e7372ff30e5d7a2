(** * TurnProps: C136, how rings are written down *)
From Verif Require Import TurnSpec BytesProofs NormTopo NormCanon TurnProofs ShpProps DbfProps SfProps PipelineProps NormProps NormCanonProps.

(** ** C136: it does not matter where the rings of the input start, which way they run and in what
    order a region lists them *)

(** Release builds accept both inputs or none. *)
Theorem C136_builds : forall D (rs1 rs2 : list (region D)) t1, Forall2 same_input rs1 rs2 ->
  build_topology Release rs1 = Ok t1 -> exists t2, build_topology Release rs2 = Ok t2.
Proof. intros D. exact input_builds. Qed.
Print Assumptions C136_builds.

(** The topologies show the same map, with the same regions on both sides of each segment. *)
Theorem C136_map : forall D m1 m2 (rs1 rs2 : list (region D)) t1 t2, Forall2 same_input rs1 rs2 ->
  build_topology m1 rs1 = Ok t1 -> build_topology m2 rs2 = Ok t2 -> same_map t1 t2.
Proof. intros D. exact input_same_map. Qed.
Print Assumptions C136_map.

(** Normalization brings them together: the same rings of the same edges, and the same topology
    unless rings come back to their starts or start at the same point. *)
Theorem C136_normalized : forall D m1 m2 (rs1 rs2 : list (region D)) t1 t2 s1 s2, Forall2 same_input rs1 rs2 -> small_input rs1 ->
  build_topology m1 rs1 = Ok t1 -> build_topology m2 rs2 = Ok t2 -> normalize m1 t1 = Ok s1 -> normalize m2 t2 = Ok s2 ->
  Forall2 same_shape (read_topology s1) (read_topology s2) /\ (Forall clear_shape (read_topology s1) -> s1 = s2).
Proof.
  intros D m1 m2 rs1 rs2 t1 t2 s1 s2 F A B1 B2 N1 N2. destruct (input_closed rs1 rs2 F) as (C1 & C2).
  pose proof (built_valid m1 rs1 t1 C1 B1) as V1. pose proof (built_valid m2 rs2 t2 C2 B2) as V2.
  pose proof (input_same_map m1 m2 rs1 rs2 t1 t2 F B1 B2) as M. pose proof (input_small m1 rs1 t1 A B1) as S.
  split; [exact (C110_rings D m1 m2 t1 t2 s1 s2 V1 V2 M S N1 N2)|exact (C110_unique_partial D m1 m2 t1 t2 s1 s2 V1 V2 M S N1 N2)].
Qed.
Print Assumptions C136_normalized.

(** The same for the rings of the records of a .shp file, in their direction. *)
Theorem C136_import : forall m1 m2 afs afd enc b shapes shapes' fs datas (s s' d : stream) t t' n n',
  leaves_suffix afd -> bytes_ok s -> bytes_ok s' -> is_shp b shapes s -> is_shp b shapes' s' -> is_dbf enc fs datas d ->
  Forall2 same_record shapes shapes' ->
  Forall (fun rec => item_fits (quantize (quantizer_new b)) (Some (ROk rec))) (paired shapes datas) ->
  Forall (fun rec => item_fits (quantize (quantizer_new b)) (Some (ROk rec))) (paired shapes' datas) ->
  import m1 afs afd enc (Some s) (Some d) = Ok (ROk (t, n)) -> import m2 afs afd enc (Some s') (Some d) = Ok (ROk (t', n')) ->
  same_map t t' /\
  forall u u', normalize m1 t = Ok u -> normalize m2 t' = Ok u' ->
    Forall2 same_shape (read_topology u) (read_topology u') /\ (Forall clear_shape (read_topology u) -> u = u').
Proof.
  intros m1 m2 afs afd enc b shapes shapes' fs datas s s' d t t' n n' Ha B B' S S' Hd F H H' I I'.
  destruct (import_same_input m1 m2 afs afd enc b shapes shapes' fs datas s s' d t t' n n' Ha B B' S S' Hd F H H' I I') as (regs & regs' & Q & E & E' & R).
  split; [exact (input_same_map m1 m2 regs regs' t t' Q E E')|]. intros u u' N N'.
  exact (C136_normalized _ m1 m2 regs regs' t t' u u' Q (imported_small _ _ _ H R) E E' N N').
Qed.
Print Assumptions C136_import.

(** The quilt with other starts, directions and orders. *)
Definition turned_quilt : list (region Z) :=
  [ Region 1 [RPoints [Pt 20 10; Pt 20 0; Pt 10 0; Pt 10 10; Pt 20 10]; RPoints [Pt 10 10; Pt 0 10; Pt 0 0; Pt 10 0; Pt 10 10]] [];
    Region 2 [RPoints [Pt 20 10; Pt 20 20; Pt 10 20; Pt 10 10; Pt 20 10]] [RPoints [Pt 16 16; Pt 16 12; Pt 12 12; Pt 12 16; Pt 16 16]];
    Region 3 [RPoints [Pt 16 12; Pt 12 12; Pt 12 16; Pt 16 16; Pt 16 12]] [] ].

Lemma outline_by (flip : bool) (n : nat) c c' ps : c <> [] -> (if flip then rev ps else ps) = close c -> skipn n c ++ firstn n c = c' ->
  same_outline (RPoints ps) (RPoints (close c')).
Proof.
  intros N E <-. exists ps, (close (skipn n c ++ firstn n c)). split; [reflexivity|]. split; [reflexivity|]. split.
  - intros ->. destruct c; [congruence|]. destruct flip; discriminate E.
  - assert (T : turned (close c) (close (skipn n c ++ firstn n c))) by (exists (firstn n c), (skipn n c); rewrite firstn_skipn; auto).
    rewrite <- E in T. destruct flip; [right|left]; exact T.
Qed.

Example C136_case : Forall2 same_input quilt turned_quilt /\ small_input quilt /\ built quilt <> built turned_quilt /\
  build_topology Debug quilt = Ok (built quilt) /\ build_topology Debug turned_quilt = Ok (built turned_quilt) /\
  normalize Debug (built quilt) = Ok (normalized (built quilt)) /\ normalize Debug (built turned_quilt) = Ok (normalized (built quilt)).
Proof.
  split; [|split; [|split; [vm_compute; discriminate|split; [vm_compute; reflexivity|split; [vm_compute; reflexivity|split; vm_compute; reflexivity]]]]].
  - constructor; [|constructor; [|constructor; [|constructor]]]; (split; [reflexivity|]); split; cbn [rg_outer rg_inner].
    + eexists. split; [apply perm_swap|]. constructor; [|constructor; [|constructor]].
      * apply (outline_by false 2 [Pt 0 0; Pt 10 0; Pt 10 10; Pt 0 10] [Pt 10 10; Pt 0 10; Pt 0 0; Pt 10 0]); [discriminate|reflexivity..].
      * apply (outline_by true 2 [Pt 10 0; Pt 10 10; Pt 20 10; Pt 20 0] [Pt 20 10; Pt 20 0; Pt 10 0; Pt 10 10]); [discriminate|reflexivity..].
    + exists []. split; constructor.
    + eexists. split; [apply Permutation_refl|]. constructor; [|constructor].
      apply (outline_by false 1 [Pt 10 10; Pt 20 10; Pt 20 20; Pt 10 20] [Pt 20 10; Pt 20 20; Pt 10 20; Pt 10 10]); [discriminate|reflexivity..].
    + eexists. split; [apply Permutation_refl|]. constructor; [|constructor].
      apply (outline_by true 2 [Pt 12 12; Pt 12 16; Pt 16 16; Pt 16 12] [Pt 16 16; Pt 16 12; Pt 12 12; Pt 12 16]); [discriminate|reflexivity..].
    + eexists. split; [apply Permutation_refl|]. constructor; [|constructor].
      apply (outline_by true 3 [Pt 12 12; Pt 12 16; Pt 16 16; Pt 16 12] [Pt 16 12; Pt 12 12; Pt 12 16; Pt 16 16]); [discriminate|reflexivity..].
    + exists []. split; constructor.
  - intros g r [<-|[<-|[<-|[]]]]; cbn [rg_outer rg_inner app In]; intros Hr; repeat (destruct Hr as [<-|Hr]; [vm_compute; reflexivity|]); destruct Hr.
Qed.

(** The two triangles with other starts. *)
Definition turned_triangles : list file_record :=
  let a := 4562146422526312448 in let y0 := 4607182418800017408 in let y1 := 4607173411600762667 in
  [FR 1 zero_box [[SP a y0; SP a y1; SP 0 y0; SP a y0]]; FR 2 zero_box [[SP 0 y1; SP 0 y0; SP a y1; SP 0 y1]]].
Definition turned_shp : list Z :=
  header_bytes 9994 (repeat 0 20) (file_size turned_triangles / 2) 1000 5 0 0 4607182418800017408 4607182418800017408 (repeat 0 32) ++
  concat (map fr_bytes turned_triangles).
Lemma turned_is_shp : is_shp unit_box turned_triangles turned_shp.
Proof.
  assert (E : file_size turned_triangles = 340) by (vm_compute; reflexivity).
  exists (repeat 0 20), (repeat 0 32), []. unfold turned_shp. rewrite app_nil_r, E.
  split; [unfold header_fields, in_bytes; cbn; repeat split; lia|].
  split; [|split; [lia|reflexivity]].
  constructor; [|constructor; [|constructor]]; (split; [unfold in_bytes; cbn; lia|]); (split; [reflexivity|]);
    (split; [repeat constructor; cbn; unfold in_bytes; cbn; lia|]); (split; [repeat constructor|]); (split; [repeat constructor|]);
    unfold in_bytes; vm_compute; split; congruence.
Qed.

Definition both_import (s : list Z) : res (list (shape dbf_record)) :=
  x <- import Debug forget forget ascii (Some s) (Some (dbf_of 2)) ;;
  match x with ROk (t, _) => u <- normalize Debug t ;; Ok (read_topology u) | RErr _ => Panic PAssert end.

Example C136_import_case : is_shp unit_box turned_triangles turned_shp /\ Forall2 same_record two_triangles turned_triangles /\
  Forall (fun rec => item_fits (quantize (quantizer_new unit_box)) (Some (ROk rec))) (paired turned_triangles (repeat sample_rec 2)) /\
  turned_shp <> triangles_shp /\ both_import turned_shp = both_import triangles_shp /\
  match both_import triangles_shp with Ok ss => length ss = 2%nat | _ => False end.
Proof.
  split; [exact turned_is_shp|]. split; [|split; [|split; [|split; vm_compute; reflexivity]]].
  - unfold two_triangles, turned_triangles. cbv zeta. constructor; [|constructor; [|constructor]]; (eexists; split; [apply Permutation_refl|]); cbn [fr_rings]; (constructor; [|constructor]).
    + exists [SP 0 4607182418800017408], [SP 4562146422526312448 4607182418800017408; SP 4562146422526312448 4607173411600762667]. split; [discriminate|]. split; reflexivity.
    + exists [SP 0 4607182418800017408; SP 4562146422526312448 4607173411600762667], [SP 0 4607173411600762667]. split; [discriminate|]. split; reflexivity.
  - unfold paired, turned_triangles. cbn [combine repeat map fr_rings]. constructor; [|constructor; [|constructor]]; unfold item_fits; cbn [sfr_rings];
      (match goal with |- Forall _ ?q => let v := eval vm_compute in q in change q with v end);
      repeat (constructor; [repeat (constructor; [vm_compute; split; congruence|]); constructor|]); constructor.
  - intros X. apply (f_equal (fun l => nth 162 l 0)) in X. vm_compute in X. discriminate X.
Qed.
