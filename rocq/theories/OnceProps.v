(** * OnceProps: C125 and C126, what types.rs promises about edges *)
From Verif Require Import OnceSpec OnceProofs Simplify NormProps NormTopo ClipStepsProps CrossProofs CrossProps BuildProofs GeoProofs SimplifyProofs SimplifyLaws.

(** ** C125: a topology contains each path once *)

(** Building and normalizing: edges from one node to another, and loops around an area, are stored once for
    both directions.  Missing: loops without area (see C12_closed_canonical_refuted). *)
Theorem C125_build_partial : forall D m (rs : list (region D)) t, build_topology m rs = Ok t ->
  (forall e, In e (tp_edges t) -> open_or_wide (te_points e)) -> stored_once t.
Proof. intros D. exact build_once. Qed.
Print Assumptions C125_build_partial.

Theorem C125_normalize_partial : forall D m (t t' : topology D), normalize m t = Ok t' ->
  (forall e, In e (tp_edges t') -> open_or_wide (te_points e)) -> stored_once t'.
Proof. intros D m t t' H. apply normalize_Ok in H as (gs & _ & B). exact (build_once m gs t' B). Qed.
Print Assumptions C125_normalize_partial.

(** Three countries: one between two rivers with the same ends, and one on each side. *)
Definition island_country : list (region Z) :=
  [ Region 1 [RPoints [Pt 0 10; Pt 10 9; Pt 20 10; Pt 10 11; Pt 0 10]] [];
    Region 2 [RPoints [Pt 0 10; Pt 0 0; Pt 20 0; Pt 20 10; Pt 10 9; Pt 0 10]] [];
    Region 3 [RPoints [Pt 0 10; Pt 10 11; Pt 20 10; Pt 20 20; Pt 0 20; Pt 0 10]] [] ].

Lemma island_steps : let t := normalized (built island_country) in
  build_topology Debug island_country = Ok (built island_country) /\ normalize Debug (built island_country) = Ok t /\
  simplify Debug t 100 = Ok (simplified t 100) /\
  map te_points (tp_edges t) =
    [[Pt 0 10; Pt 10 9; Pt 20 10]; [Pt 0 10; Pt 10 11; Pt 20 10];
     [Pt 0 10; Pt 0 0; Pt 20 0; Pt 20 10]; [Pt 0 10; Pt 0 20; Pt 20 20; Pt 20 10]] /\
  map te_points (tp_edges (simplified t 100)) =
    [[Pt 0 10; Pt 20 10]; [Pt 0 10; Pt 20 10]; [Pt 0 10; Pt 0 0; Pt 20 10]; [Pt 0 10; Pt 0 20; Pt 20 10]].
Proof. cbv zeta. repeat (split; [vm_compute; reflexivity|]). vm_compute. reflexivity. Qed.

(** When both rivers are straightened, the same line is there twice. *)
Theorem C125_simplify_refuted : ~ forall (rs : list (region Z)) t0 t thr t', build_topology Debug rs = Ok t0 ->
  normalize Debug t0 = Ok t -> stored_once t -> simplify Debug t thr = Ok t' -> stored_once t'.
Proof.
  intros H. destruct island_steps as (B & N & S & P & Q).
  assert (O : stored_once (normalized (built island_country))).
  { apply (C125_normalize_partial _ _ _ _ N). intros e He. left. apply (in_map te_points) in He. rewrite P in He. destruct He as [<-|[<-|[<-|[<-|[]]]]]; discriminate. }
  specialize (H _ _ _ 100 _ B N O S). clear - H Q. set (t := simplified (normalized (built island_country)) 100) in *. clearbody t.
  destruct (tp_edges t) as [|e [|f es]] eqn:E; try discriminate. cbn in Q. injection Q as Qe Qf _.
  apply (H 0%nat 1%nat e f); [lia|rewrite E; reflexivity|rewrite E; reflexivity|]. left. congruence.
Qed.
Print Assumptions C125_simplify_refuted.

(** Edges that become the same have the same nodes at their ends, and what is left are points that they have
    in common.  So edges that share their nodes only become the same only if both become straight lines between
    their nodes.  Missing: that this does not happen (refuted above). *)
Theorem C125_simplify_partial : forall D m (t t' : topology D) thr i j e f e' f', thr <= 2 ^ 64 - 1 -> simplify m t thr = Ok t' ->
  nth_error (tp_edges t) i = Some e -> nth_error (tp_edges t) j = Some f ->
  nth_error (tp_edges t') i = Some e' -> nth_error (tp_edges t') j = Some f' ->
  same_path (te_points e') (te_points f') ->
  same_ends (te_points e) (te_points f) /\ forall p, In p (te_points e') -> In p (te_points e) /\ In p (te_points f).
Proof.
  intros D m t t' thr i j e f e' f' Ht H Hi Hj Hi' Hj' E.
  destruct (simplified_edge m t t' thr i e' Ht H Hi') as (e0 & A0 & A1 & A2 & A3). rewrite Hi in A0. injection A0 as <-.
  destruct (simplified_edge m t t' thr j f' Ht H Hj') as (f0 & B0 & B1 & B2 & B3). rewrite Hj in B0. injection B0 as <-.
  split.
  - pose proof (same_path_ends _ _ E) as X. unfold same_ends in *. rewrite A2, A3, B2, B3 in X. exact X.
  - intros p Hp. split; [eapply subseq_in; eassumption|]. eapply subseq_in; [exact B1|]. destruct E as [->| ->]; [exact Hp|apply in_rev in Hp; exact Hp].
Qed.
Print Assumptions C125_simplify_partial.

(** The delta of a river: far from its tip its arms are apart; near the tip they are closer than one unit, and
    clipping makes the same line of both.  The neighbours of the country between them now meet at this line
    without sharing an edge. *)
Definition delta : list (region Z) :=
  [ Region 1 [RPoints [Pt 0 10; Pt 10 10; Pt 10 11; Pt 0 10]] [];
    Region 2 [RPoints [Pt 0 10; Pt 0 0; Pt 10 0; Pt 10 10; Pt 0 10]] [];
    Region 3 [RPoints [Pt 0 10; Pt 10 11; Pt 10 20; Pt 0 20; Pt 0 10]] [] ].
Theorem C125_clip_refuted : exists (rs : list (region Z)) t t' k, build_topology Debug rs = Ok t /\
  planar t /\ stored_once t /\ clip_topology Debug t k = Ok t' /\
  map tg_data (tp_regions t') = [2; 3] /\
  exists e f, nth_error (tp_edges t') 0 = Some e /\ nth_error (tp_edges t') 1 = Some f /\
    te_points e = te_points f /\ te_ring1 e = None /\ te_ring1 f = None /\ te_ring0 e <> te_ring0 f.
Proof.
  exists delta, (built delta), (clipped (MaxX 1) (built delta)), (MaxX 1).
  assert (B : build_topology Debug delta = Ok (built delta)) by (vm_compute; reflexivity).
  split; [exact B|]. split; [apply planarb_spec; vm_compute; reflexivity|]. split.
  { exact (C125_build_partial _ _ _ _ B (all_openb_ok (tp_edges (built delta)) ltac:(vm_compute; reflexivity))). }
  split; [vm_compute; reflexivity|]. split; [vm_compute; reflexivity|]. do 2 eexists. split; [vm_compute; reflexivity|]. split; [vm_compute; reflexivity|]. vm_compute. repeat split. discriminate.
Qed.
Print Assumptions C125_clip_refuted.

(** If crossings with the line of the mask are exact and edges have at most points in common, the edges of the
    clipped topology are different paths.  Missing: crossings that are rounded (refuted above). *)
Theorem C125_clip_partial : forall D m k (t t' : topology D),
  wf_mask k -> wf_topology t -> small_steps t -> closed_rings t -> exact_crossings k t ->
  no_overlaps t -> no_stops t -> clip_topology m t k = Ok t' -> stored_once t'.
Proof. intros D. exact clip_once. Qed.
Print Assumptions C125_clip_partial.

Example C125_case : let t := wedge in
  wf_topology t /\ small_steps t /\ closed_rings t /\ exact_crossings (MinX 4) t /\ no_overlaps t /\ no_stops t /\
  clip_topology Debug t (MinX 4) = Ok (clipped (MinX 4) t).
Proof.
  cbv zeta. destruct C120_clip_case as (A & B & C & X & _ & E & _). split; [exact A|]. split; [exact B|]. split; [exact C|]. split; [exact X|]. split; [apply no_overlapsb_ok; vm_compute; reflexivity|]. split; [|exact E].
  intros e a He. apply (in_map te_points) in He. replace (map te_points (tp_edges wedge)) with [[Pt 0 0; Pt 10 5]; [Pt 0 10; Pt 10 5]; [Pt 0 0; Pt 0 10]] in He by (vm_compute; reflexivity).
  destruct He as [<-|[<-|[<-|[]]]]; intros [H|[]]; injection H; intros; congruence.
Qed.

(** ** C126: edges go from the top-left to the bottom-right node *)

Theorem C126_build : forall D m (rs : list (region D)) t, build_topology m rs = Ok t -> canonical_edges t.
Proof. intros D. exact build_canonical. Qed.
Print Assumptions C126_build.

Theorem C126_normalize : forall D m (t t' : topology D), normalize m t = Ok t' -> canonical_edges t'.
Proof. intros D m t t' H. apply normalize_Ok in H as (gs & _ & B). exact (build_canonical m gs t' B). Qed.
Print Assumptions C126_normalize.

Theorem C126_simplify : forall D m (t t' : topology D) thr, thr <= 2 ^ 64 - 1 -> simplify m t thr = Ok t' ->
  canonical_edges t <-> canonical_edges t'.
Proof. intros D. exact simplify_canonical. Qed.
Print Assumptions C126_simplify.

(** The line from (0, 10) to (1, 0) is clipped at y = 5, where x = 1/2 is rounded to 0: its new end is
    above its start. *)
Definition slope : list (region Z) := [ Region 1 [RPoints [Pt 0 10; Pt 1 0; Pt 5 10; Pt 0 10]] []].
Theorem C126_clip_refuted : ~ forall (rs : list (region Z)) t k t', build_topology Debug rs = Ok t ->
  clip_topology Debug t k = Ok t' -> canonical_edges t'.
Proof.
  intros H. specialize (H slope (built slope) (MinY 5) (clipped (MinY 5) (built slope)) ltac:(vm_compute; reflexivity) ltac:(vm_compute; reflexivity)).
  assert (In [Pt 0 10; Pt 0 5] (map te_points (tp_edges (clipped (MinY 5) (built slope))))) as I by (vm_compute; auto).
  revert H I. generalize (clipped (MinY 5) (built slope)) as t'. intros t' H I.
  apply in_map_iff in I as (e & E & I). specialize (H e (Pt 0 10) (Pt 0 5) I). rewrite E in H. specialize (H eq_refl eq_refl ltac:(congruence)).
  unfold lt_point in H. cbn in H. lia.
Qed.
Print Assumptions C126_clip_refuted.

(** Without rounding it happens to edges of several segments: this one comes back to the line above where
    it left it. *)
Theorem C126_clip_exact_refuted : exists ps a b, first ps = Some a /\ final ps = Some b /\ lt_point a b /\
  (forall p q, In [p; q] (segments ps) -> between_points (MinX 2) p q = false) /\
  clip_edge Debug (MinX 2) ps = Ok [Pt 2 9; Pt 5 9; Pt 5 3; Pt 2 3].
Proof.
  exists [Pt 0 9; Pt 5 9; Pt 5 3; Pt 1 3], (Pt 0 9), (Pt 1 3). split; [reflexivity|]. split; [reflexivity|]. split; [unfold lt_point; cbn; lia|]. split; [|vm_compute; reflexivity].
  intros p q [H|[H|[H|[]]]]; injection H as <- <-; vm_compute; reflexivity.
Qed.
Print Assumptions C126_clip_exact_refuted.

(** Lines along the mask that close rings are canonical; so are other edges of the result that have no end on
    the line of the mask, or only one if the line is vertical; and single segments, if their crossing with
    the line is exact.  Missing: the other cases (refuted above). *)
Theorem C126_clip_partial : forall D m k (t t' : topology D), clip_topology m t k = Ok t' -> canonical_edges t ->
  forall e' a b, In e' (tp_edges t') -> first (te_points e') = Some a -> final (te_points e') = Some b -> a <> b ->
  settled k (te_points e') \/
  (exists e p q, In e (tp_edges t) /\ clip_edge m k (te_points e) = Ok (te_points e') /\ te_points e = [p; q] /\
     wf_mask k /\ wf_point p /\ wf_point q /\ small_step p q /\ between_points k p q = false) \/
  (forall e, In e (tp_edges t) -> clip_edge m k (te_points e) <> Ok (te_points e')) ->
  lt_point a b.
Proof. intros D. exact clip_canonical. Qed.
Print Assumptions C126_clip_partial.

Example C126_case : canonical_edges (built slope) /\
  clip_topology Debug (built slope) (MaxX 4) = Ok (clipped (MaxX 4) (built slope)) /\
  map te_points (tp_edges (clipped (MaxX 4) (built slope))) =
    [[Pt 0 10; Pt 1 0]; [Pt 1 0; Pt 4 7]; [Pt 0 10; Pt 4 10]; [Pt 4 7; Pt 4 10]] /\
  settled (MaxX 4) [Pt 1 0; Pt 4 7].
Proof.
  split; [apply (C126_build _ Debug slope); vm_compute; reflexivity|]. split; [vm_compute; reflexivity|]. split; [vm_compute; reflexivity|].
  intros a b [= <-] [= <-] [L _]. vm_compute in L. discriminate.
Qed.
