(** * CrossProps: C120 *)
From Verif Require Import CrossProofs Simplify NormProps ClipStepsTopo BuildProofs ClipStepsProps.

(** ** C120: operations do not make edges cross *)

(** Two segments cross if they have a common point inside both. If no two lines of the input do,
    no two edges of the topology do. *)
Theorem C120_build : forall D m (rs : list (region D)) t, build_topology m rs = Ok t ->
  no_crossings (input_paths rs) -> planar t.
Proof. intros D m rs t. apply build_planar. Qed.
Print Assumptions C120_build.

Theorem C120_normalize : forall D m (t t' : topology D), valid t -> normalize m t = Ok t' -> planar t -> planar t'.
Proof. intros D m t t'. apply normalize_planar. Qed.
Print Assumptions C120_normalize.

Definition no_crossingsb (es : list (list point)) : bool :=
  let ss := flat_map segment_pairs es in forallb (fun s => forallb (fun z => negb (segments_crossb s z)) ss) ss.
Lemma no_crossingsb_spec es : no_crossingsb es = true -> no_crossings es.
Proof.
  intros H. set (t := Topology ([] : list (topo_region Z)) (map (fun ps => TEdge ps None None) es)).
  assert (E : map te_points (tp_edges t) = es) by (cbn; rewrite map_map; apply map_id).
  pose proof (proj1 (planarb_spec t)) as P. unfold planar in P. rewrite E in P. apply P. unfold planarb.
  replace (flat_map (fun e => segment_pairs (te_points e)) (tp_edges t)) with (flat_map segment_pairs es); [exact H|].
  cbn. clear. induction es as [|e es IH]; [reflexivity|]. cbn. rewrite IH. reflexivity.
Qed.

Example C120_build_case : build_topology Debug quilt = Ok (built quilt) /\ no_crossings (input_paths quilt) /\
  planar (built quilt) /\ normalize Debug (built quilt) = Ok (normalized (built quilt)) /\ planar (normalized (built quilt)).
Proof.
  split; [vm_compute; reflexivity|]. split; [apply no_crossingsb_spec; vm_compute; reflexivity|].
  split; [apply planarb_spec; vm_compute; reflexivity|]. split; [vm_compute; reflexivity|]. apply planarb_spec; vm_compute; reflexivity.
Qed.

(** Lines that cross make a topology that is not planar: nothing splits them. *)
Example C120_build_crossing : build_topology Debug [Region 1 [RPoints [Pt 0 0; Pt 10 10; Pt 20 0; Pt 0 12; Pt 0 0]] []]
  = Ok (built [Region 1 [RPoints [Pt 0 0; Pt 10 10; Pt 20 0; Pt 0 12; Pt 0 0]] []]) /\
  ~ planar (built [Region 1 [RPoints [Pt 0 0; Pt 10 10; Pt 20 0; Pt 0 12; Pt 0 0]] []]).
Proof. split; [vm_compute; reflexivity|]. intros H. apply planarb_spec in H. vm_compute in H. discriminate. Qed.

(** *** Simplifying can make edges cross *)

(** A headland with a lake at its foot: the headland goes, the lake stays, and is half in the sea. *)
Definition headland : list (region Z) :=
  [ Region 1 [RPoints [Pt 0 0; Pt 100 0; Pt 100 100; Pt 55 100; Pt 50 140; Pt 45 100; Pt 0 100; Pt 0 0]]
             [RPoints [Pt 49 90; Pt 51 90; Pt 50 120; Pt 49 90]];
    Region 2 [RPoints [Pt 49 90; Pt 51 90; Pt 50 120; Pt 49 90]] [] ].
Definition simplified (t : topology Z) (thr : Z) : topology Z :=
  match simplify Debug t thr with Ok t => t | Panic _ => Topology [] [] end.

Lemma headland_steps : let t := normalized (built headland) in
  build_topology Debug headland = Ok (built headland) /\ normalize Debug (built headland) = Ok t /\
  simplify Debug t 410 = Ok (simplified t 410) /\ planarb t = true /\ planarb (simplified t 410) = false.
Proof. cbv zeta. repeat (split; [vm_compute; reflexivity|]). vm_compute. reflexivity. Qed.

Theorem C120_simplify_refuted : ~ forall (rs : list (region Z)) t0 t thr t',
  no_crossings (input_paths rs) -> build_topology Debug rs = Ok t0 -> normalize Debug t0 = Ok t -> simplify Debug t thr = Ok t' -> planar t'.
Proof.
  intros H. destruct headland_steps as (B & N & S & _ & P).
  assert (X : planar (simplified (normalized (built headland)) 410)).
  { eapply (H headland); [|exact B|exact N|exact S]. apply no_crossingsb_spec. vm_compute. reflexivity. }
  apply planarb_spec in X. congruence.
Qed.
Print Assumptions C120_simplify_refuted.

(** Every segment of a simplified edge replaces a stretch of the edge; if two of them cross, no
    line separates the stretches that they replace (such as two stretches with disjoint bounding boxes).
    Missing: that crossings do not happen (refuted above). *)
Theorem C120_simplify_partial : forall D m (t t' : topology D) thr, thr <= 2 ^ 64 - 1 -> simplify m t thr = Ok t' ->
  forall i j e' f', nth_error (tp_edges t') i = Some e' -> nth_error (tp_edges t') j = Some f' ->
  forall a b c d, In [a; b] (segments (te_points e')) -> In [c; d] (segments (te_points f')) ->
  exists e f x y, nth_error (tp_edges t) i = Some e /\ nth_error (tp_edges t) j = Some f /\
    part_of x (te_points e) /\ first x = Some a /\ final x = Some b /\
    part_of y (te_points f) /\ first y = Some c /\ final y = Some d /\
    (segments_cross a b c d -> ~ separated x y).
Proof.
  intros D m t t' thr Ht H i j e' f' Hi Hj a b c d Ha Hc.
  pose proof (simplify_cross m t t' thr Ht H) as F.
  assert (G : forall i e', nth_error (tp_edges t') i = Some e' -> forall a b, In [a; b] (segments (te_points e')) ->
    exists e x, nth_error (tp_edges t) i = Some e /\ part_of x (te_points e) /\ first x = Some a /\ final x = Some b).
  { clear -F. induction F as [|e e1 es es1 R F IH]; intros i e' Hi a b Hs; [destruct i; discriminate|].
    destruct i as [|i]; cbn in Hi; [|exact (IH i e' Hi a b Hs)]. injection Hi as <-. destruct (R a b Hs) as (x & X). exists e, x. tauto. }
  destruct (G i e' Hi a b Ha) as (e & x & E1 & E2 & E3 & E4). destruct (G j f' Hj c d Hc) as (f & y & F1 & F2 & F3 & F4).
  exists e, f, x, y. repeat (split; [assumption|]). intros X S.
  destruct (part_ends x a b E3 E4) as [A1 A2]. destruct (part_ends y c d F3 F4) as [B1 B2].
  exact (separated_apart x y a b c d S A1 A2 B1 B2 X).
Qed.
Print Assumptions C120_simplify_partial.

(** The two segments that cross, and the stretches they replace: neither is on one side of the other. *)
Example C120_simplify_case :
  let t := normalized (built headland) in
  map te_points (tp_edges t) =
    [[Pt 0 0; Pt 100 0; Pt 100 100; Pt 55 100; Pt 50 140; Pt 45 100; Pt 0 100; Pt 0 0];
     [Pt 49 90; Pt 51 90; Pt 50 120; Pt 49 90]] /\
  map te_points (tp_edges (simplified t 410)) =
    [[Pt 0 0; Pt 100 100; Pt 45 100; Pt 0 0]; [Pt 49 90; Pt 51 90; Pt 50 120; Pt 49 90]] /\
  segments_cross (Pt 100 100) (Pt 45 100) (Pt 51 90) (Pt 50 120) /\
  ~ separated [Pt 100 100; Pt 55 100; Pt 50 140; Pt 45 100] [Pt 51 90; Pt 50 120].
Proof.
  cbv zeta. split; [vm_compute; reflexivity|]. split; [vm_compute; reflexivity|]. split; [split; vm_compute; reflexivity|].
  intros S. apply (separated_apart _ _ (Pt 100 100) (Pt 45 100) (Pt 51 90) (Pt 50 120) S); cbn; try tauto. split; vm_compute; reflexivity.
Qed.

(** Stretches on different sides of the line [x = 50]. *)
Example C120_separated_case : separated [Pt 0 0; Pt 30 40; Pt 50 10] [Pt 50 10; Pt 90 70; Pt 60 0].
Proof.
  exists 1, 0, 50. split; [left; lia|]. split; intros p [<-|[<-|[<-|[]]]]; cbn; lia.
Qed.

(** *** Clipping can make edges cross *)

(** Where edges cross the line of the mask, they are moved to integer coordinates, beyond other points. *)
Definition wedges : list (region Z) :=
  [ Region 1 [RPoints [Pt 7 5; Pt 22 9; Pt 7 20; Pt 7 5]] [];
    Region 2 [RPoints [Pt 2 2; Pt 12 0; Pt 12 6; Pt 2 2]] [] ].

Theorem C120_clip_refuted : ~ forall (rs : list (region Z)) k t t',
  no_crossings (input_paths rs) -> build_topology Debug rs = Ok t -> clip_topology Debug t k = Ok t' -> planar t'.
Proof.
  intros H. assert (X : planar (clipped (MinX 10) (built wedges))).
  { apply (H wedges (MinX 10) (built wedges)); [|vm_compute; reflexivity|vm_compute; reflexivity].
    apply no_crossingsb_spec. vm_compute. reflexivity. }
  apply planarb_spec in X. vm_compute in X. discriminate.
Qed.
Print Assumptions C120_clip_refuted.

(** If every edge crosses the line at integer coordinates (or none does), nothing is moved and no
    crossings are made. Missing: edges whose crossing with the line is rounded (refuted above). *)
Theorem C120_clip_partial : forall D m k (t t' : topology D),
  wf_mask k -> wf_topology t -> small_steps t -> closed_rings t -> exact_crossings k t ->
  clip_topology m t k = Ok t' -> planar t -> planar t'.
Proof. intros D m k t t'. apply clip_planar. Qed.
Print Assumptions C120_clip_partial.

Example C120_clip_case : let t := wedge in
  wf_topology t /\ small_steps t /\ closed_rings t /\ exact_crossings (MinX 4) t /\ planar t /\
  clip_topology Debug t (MinX 4) = Ok (clipped (MinX 4) t) /\ planar (clipped (MinX 4) t) /\
  map te_points (tp_edges (clipped (MinX 4) t)) = [[Pt 4 2; Pt 10 5]; [Pt 4 8; Pt 10 5]; [Pt 4 2; Pt 4 8]].
Proof.
  cbv zeta. destruct C116_case as (A & B & C & _).
  split; [exact A|]. split; [exact B|]. split; [exact C|]. split.
  { assert (S : map te_points (tp_edges wedge) = [[Pt 0 0; Pt 10 5]; [Pt 0 10; Pt 10 5]; [Pt 0 0; Pt 0 10]]) by (vm_compute; reflexivity).
    intros e p q He Hp. apply (in_map te_points) in He. rewrite S in He.
    destruct He as [E|[E|[E|[]]]]; rewrite <- E in Hp; destruct Hp as [H|[]]; injection H as <- <-; vm_compute; reflexivity. }
  split; [apply planarb_spec; vm_compute; reflexivity|]. split; [vm_compute; reflexivity|].
  split; [apply planarb_spec; vm_compute; reflexivity|]. vm_compute. reflexivity.
Qed.
