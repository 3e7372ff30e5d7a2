(** * ExportProps: C138, a normalized map written as rings of points and read again *)
From Verif Require Import ExportSpec BytesProofs NormLaws NormTopo NormCanon TurnProofs ExportProofs AgainProofs ShpProps DbfProps SfProps PipelineProps NormProps NormCanonProps TurnProps AgainProps.

(** ** C138: topologies written as rings of points *)

(** Without normalization it is the same topology, numbers and references included. *)
Theorem C138_built : forall D m (rs : list (region D)) t, outlines_only rs -> build_topology m rs = Ok t ->
  build_topology Release (exported t) = Ok t /\ forall m' t', build_topology m' (exported t) = Ok t' -> t' = t.
Proof. intros D. exact export_built. Qed.
Print Assumptions C138_built.

(** The rings of the normalized topology are accepted as input. *)
Theorem C138_builds : forall D m (rs : list (region D)) t u, outlines_only rs -> build_topology m rs = Ok t ->
  (forall rg, In rg (tp_regions t) -> nothing_redundant t rg) -> normalize m t = Ok u ->
  exists t', build_topology Release (exported u) = Ok t'.
Proof. intros D. exact export_builds. Qed.
Print Assumptions C138_builds.

(** They show the map that was normalized, although normalization may have cut the same line
    differently for its two sides. *)
Theorem C138_map : forall D m (rs : list (region D)) t u m' t', outlines_only rs -> build_topology m rs = Ok t ->
  (forall rg, In rg (tp_regions t) -> nothing_redundant t rg) -> normalize m t = Ok u ->
  build_topology m' (exported u) = Ok t' -> same_map t t'.
Proof. intros D m rs t u m' t' A E N U E'. exact (proj1 (export_map m rs t u A E N U m' t' E')). Qed.
Print Assumptions C138_map.

(** Normalization then finds the same rings of the same edges, and the same topology unless rings
    come back to their starts or start at the same point. *)
Theorem C138_normalized : forall D m (rs : list (region D)) t u m' t' u', outlines_only rs -> small_input rs -> build_topology m rs = Ok t ->
  (forall rg, In rg (tp_regions t) -> nothing_redundant t rg) -> normalize m t = Ok u ->
  build_topology m' (exported u) = Ok t' -> normalize m' t' = Ok u' ->
  Forall2 same_shape (read_topology u) (read_topology u') /\ (Forall clear_shape (read_topology u) -> u' = u).
Proof.
  intros D m rs t u m' t' u' A S E N U E' U'. destruct (export_map m rs t u A E N U m' t' E') as (M & V').
  pose proof (export_valid m rs t A E) as V. pose proof (input_small m rs t S E) as S'.
  split; [exact (C110_rings D m m' t t' u u' V V' M S' U U')|]. intros C. symmetry. exact (C110_unique_partial D m m' t t' u u' V V' M S' U U' C).
Qed.
Print Assumptions C138_normalized.

(** The same by way of a shapefile whose bounding box has sides of 2^32-1 units. *)
Theorem C138_import : forall m (rs : list (region dbf_record)) t u m' afs afd enc e ox oy b shapes fs datas (s d : stream) t' n u',
  outlines_only rs -> small_input rs -> build_topology m rs = Ok t -> (forall rg, In rg (tp_regions t) -> nothing_redundant t rg) -> normalize m t = Ok u ->
  leaves_suffix afd -> bytes_ok s -> is_shp b shapes s -> is_dbf enc fs datas d -> grid_box e ox oy b -> written e b (exported u) shapes datas ->
  import m' afs afd enc (Some s) (Some d) = Ok (ROk (t', n)) -> normalize m' t' = Ok u' ->
  Forall2 same_shape (read_topology u) (read_topology u') /\ (Forall clear_shape (read_topology u) -> u' = u).
Proof.
  intros m rs t u m' afs afd enc e ox oy b shapes fs datas s d t' n u' A S E N U Ha B Hs Hd Hb W I U'.
  rewrite (import_written m' afs afd enc e ox oy b (exported u) shapes fs datas s d Ha B Hs Hd Hb W) in I.
  destruct (build_topology m' (exported u)) as [t1|] eqn:E'; [|discriminate I]. injection I as -> _.
  exact (C138_normalized _ m rs t u m' t' u' A S E N U E' U').
Qed.
Print Assumptions C138_import.

(** The regions of [holed] with other starts and directions; normalization brings them to the form
    in which [C137_case] has written them, and the import finds them again. *)
Definition turned_holed : list (region dbf_record) :=
  [ Region sample_rec [RPoints [Pt 3000000001 7; Pt 3000000001 0; Pt 0 0; Pt 0 7; Pt 3000000001 7]] [RPoints [Pt 3 5; Pt 3 3; Pt 1 3; Pt 1 5; Pt 3 5]];
    Region sample_rec [RPoints [Pt 1 5; Pt 1 3; Pt 3 3; Pt 3 5; Pt 1 5]] [] ].

Example C138_case : outlines_only turned_holed /\ small_input turned_holed /\
  exists t u, build_topology Debug turned_holed = Ok t /\ (forall rg, In rg (tp_regions t) -> nothing_redundant t rg) /\
    normalize Debug t = Ok u /\ exported u = holed /\ t <> u /\ Forall clear_shape (read_topology u) /\
    exists t', import Debug forget forget ascii (Some holed_shp) (Some (dbf_of 2)) = Ok (ROk (t', 2%nat)) /\ t' <> u /\ normalize Debug t' = Ok u.
Proof.
  split; [|split].
  - intros g r [<-|[<-|[]]]; cbn [rg_outer rg_inner app In]; intros Hr; repeat (destruct Hr as [<-|Hr]; [eexists; split; [reflexivity|]; split; [discriminate|reflexivity]|]); destruct Hr.
  - intros g r [<-|[<-|[]]]; cbn [rg_outer rg_inner app In]; intros Hr; repeat (destruct Hr as [<-|Hr]; [vm_compute; reflexivity|]); destruct Hr.
  - eexists. eexists. split; [vm_compute; reflexivity|]. split; [|split; [vm_compute; reflexivity|split; [vm_compute; reflexivity|split; [discriminate|split]]]].
    + intros rg Hg. apply nothing_redundantb_spec. revert rg Hg. apply forallb_forall. vm_compute. reflexivity.
    + match goal with |- Forall _ ?l => let v := eval vm_compute in l in change l with v end.
      assert (X : forall p c, ~ In p c -> clear_side [[Some (p :: c ++ [p])]]).
      { intros p c H. split; (constructor; [|constructor]); [|intros []]. exists [p :: c ++ [p]], p. split; [reflexivity|]. split; [reflexivity|].
        cbn [tl]. rewrite removelast_last. exact H. }
      assert (Y : clear_side []) by (split; constructor).
      constructor; [|constructor; [|constructor]]; (split; [|try exact Y]).
      * apply (X (Pt 0 0) [Pt 3000000001 0; Pt 3000000001 7; Pt 0 7]). cbn. intuition discriminate.
      * apply (X (Pt 1 3) [Pt 1 5; Pt 3 5; Pt 3 3]). cbn. intuition discriminate.
      * apply (X (Pt 1 3) [Pt 3 3; Pt 3 5; Pt 1 5]). cbn. intuition discriminate.
    + eexists. split; [vm_compute; reflexivity|]. split; [discriminate|vm_compute; reflexivity].
Qed.

(** Flat rings and repeated points are not in the topology, so its rings are not those of the input. *)
Definition messy : list (region Z) :=
  [ Region 5 [RPoints [Pt 0 0; Pt 4 0; Pt 4 0; Pt 4 4; Pt 0 0]; RPoints [Pt 7 7; Pt 9 9; Pt 7 7]] []; Region 6 [RPoints [Pt 1 1; Pt 2 2; Pt 1 1]] [] ].
Example C138_built_case : outlines_only messy /\ exists t, build_topology Debug messy = Ok t /\ build_topology Debug (exported t) = Ok t /\
  exported t = [Region 5 [RPoints [Pt 0 0; Pt 4 0; Pt 4 4; Pt 0 0]] []].
Proof.
  split.
  - intros g r [<-|[<-|[]]]; cbn [rg_outer rg_inner app In]; intros Hr; repeat (destruct Hr as [<-|Hr]; [eexists; split; [reflexivity|]; split; [discriminate|reflexivity]|]); destruct Hr.
  - eexists. split; [vm_compute; reflexivity|]. split; vm_compute; reflexivity.
Qed.
