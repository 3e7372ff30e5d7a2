(** * MergeProps: C118 and C119, and C37 and C71 when rings are merged *)
From Verif Require Import NormMerged NormProps.

(** ** C118: regions of a normalized topology use each edge once *)

(** If no segment lies on two edges of [t], no edge of the result has the same region on both sides. *)
Theorem C118_nothing_redundant : forall D m (t t' : topology D), valid t -> separate t -> normalize m t = Ok t' ->
  forall rg, In rg (tp_regions t') -> nothing_redundant t' rg.
Proof. intros D m t t' V S H rg Hg. eapply normal_not_redundant; eassumption. Qed.
Print Assumptions C118_nothing_redundant.

(** Counted: the rings of a region contain each edge at most once, in one of its directions. *)
Theorem C118_each_once : forall D m (t t' : topology D), valid t -> separate t -> normalize m t = Ok t' ->
  forall rg, In rg (tp_regions t') -> NoDup (map de_edge (flat_map tr_des (tg_outer rg ++ tg_inner rg))).
Proof. intros D m t t' V S H rg Hg. apply uses_once_distinct. intros k. eapply normal_uses_once; eassumption. Qed.
Print Assumptions C118_each_once.

(** The topologies that import builds. *)
Theorem C118_built : forall D m (rs : list (region D)) t t', build_topology m rs = Ok t -> normalize m t = Ok t' ->
  (forall rg r, In rg rs -> In r (rg_outer rg ++ rg_inner rg) -> (exists ps, r = RPoints ps) /\ closed_ring r) ->
  forall rg, In rg (tp_regions t') -> nothing_redundant t' rg.
Proof.
  intros D m rs t t' B H R. apply (C118_nothing_redundant D m t t'); [| |assumption].
  - apply (built_valid m rs); [|assumption]. intros x r Hx Hr. apply (R x r Hx Hr).
  - apply (points_separate m rs t B). intros rg r Hg Hr. apply (R rg r Hg Hr).
Qed.
Print Assumptions C118_built.

(** In [quilt], the two squares of region 1 have a common side; it is gone after normalizing. *)
Example C118_case : build_topology Debug quilt = Ok (built quilt) /\
  normalize Debug (built quilt) = Ok (normalized (built quilt)) /\
  (forall rg r, In rg quilt -> In r (rg_outer rg ++ rg_inner rg) -> (exists ps, r = RPoints ps) /\ closed_ring r) /\
  map (nothing_redundantb (built quilt)) (tp_regions (built quilt)) = [false; true; true] /\
  map (nothing_redundantb (normalized (built quilt))) (tp_regions (normalized (built quilt))) = [true; true; true].
Proof.
  split; [vm_compute; reflexivity|]. split; [vm_compute; reflexivity|]. split.
  { intros x r [<-|[<-|[<-|[]]]]; cbn [rg_outer rg_inner app In]; intuition (subst; (proper || (eexists; reflexivity))). }
  split; vm_compute; reflexivity.
Qed.

(** Where a segment lies on two edges, joining edges can make them one: the region's own edges
    (10,0)-(10,10) and (10,10)-(10,20) become the edge (10,0)-(10,10)-(10,20) of its other ring. *)
Definition doubled : list (region Z) :=
  [ Region 1 [REdges [[Pt 10 0; Pt 10 10; Pt 10 20]; [Pt 10 20; Pt 0 10; Pt 10 0]];
              REdges [[Pt 10 20; Pt 10 10]; [Pt 10 10; Pt 10 0]; [Pt 10 0; Pt 20 10; Pt 10 20]]] [];
    Region 2 [REdges [[Pt 10 20; Pt 0 10; Pt 10 0]; [Pt 10 0; Pt 0 0; Pt 0 20; Pt 10 20]]] [];
    Region 3 [REdges [[Pt 10 20; Pt 20 10; Pt 10 0]; [Pt 10 0; Pt 30 10; Pt 10 20]]] [] ].
Lemma nothing_redundantb_true {D} (t : topology D) rg : nothing_redundant t rg -> nothing_redundantb t rg = true.
Proof.
  intros N. apply forallb_forall. intros r Hr. apply forallb_forall. intros e He. specialize (N r e Hr He). unfold redundant in N. unfold redundantb.
  destruct (ne_reg0 e) as [a|], (ne_reg1 e) as [b|]; try reflexivity; [|congruence]. destruct (Nat.eqb_spec a b); [congruence|reflexivity].
Qed.
Local Ltac proper_chain := cbn [chain]; repeat (split; [reflexivity|eexists; split; [reflexivity|]]); reflexivity.
Example C118_needs_separate : exists t t', build_topology Debug doubled = Ok t /\ valid t /\ normalize Debug t = Ok t' /\
  ~ forall rg, In rg (tp_regions t') -> nothing_redundant t' rg.
Proof.
  exists (built doubled), (normalized (built doubled)).
  assert (B : build_topology Debug doubled = Ok (built doubled)) by (vm_compute; reflexivity). split; [exact B|]. split.
  { apply (built_valid Debug doubled); [|exact B].
    intros x r [<-|[<-|[<-|[]]]]; cbn [rg_outer rg_inner app In]; intros Hr;
      repeat destruct Hr as [<-|Hr]; try destruct Hr; first [exists (Pt 10 0); proper_chain|exists (Pt 10 20); proper_chain]. }
  split; [vm_compute; reflexivity|]. intros N.
  assert (F : forallb (nothing_redundantb (normalized (built doubled))) (tp_regions (normalized (built doubled))) = true).
  { apply forallb_forall. intros rg Hg. apply nothing_redundantb_true, N. exact Hg. }
  vm_compute in F. discriminate.
Qed.

(** ** C119: edges of a normalized ring lie between different pairs of regions *)

Definition same_labelb (a b : norm_edge) : bool := nat_opt_eqb (ne_reg0 a) (ne_reg0 b) && nat_opt_eqb (ne_reg1 a) (ne_reg1 b).
Fixpoint repeatsb (es : list norm_edge) : bool :=
  match es with a :: ((b :: _) as t) => same_labelb a b || repeatsb t | _ => false end.
Lemma fewest_repeats es : fewest es -> repeatsb es = false.
Proof.
  assert (O : forall a b, nat_opt_eqb a b = true -> a = b).
  { intros [x|] [y|]; cbn; try discriminate; [|reflexivity]. intros H. apply Nat.eqb_eq in H. congruence. }
  intros F. destruct (repeatsb es) eqn:E; [|reflexivity]. exfalso.
  assert (X : exists a x y b, es = a ++ x :: y :: b /\ label x = label y).
  { clear F. induction es as [|x [|y es] IH]; try discriminate. cbn [repeatsb] in E. apply orb_true_iff in E as [E|E].
    - apply andb_true_iff in E as (E1 & E2). apply O in E1, E2. exists [], x, y, es. split; [reflexivity|]. unfold label. congruence.
    - destruct (IH E) as (a & u & v & b & -> & L). exists (x :: a), u, v, b. auto. }
  destruct X as (a & x & y & b & -> & L). apply (F x y (b ++ a)); [|assumption]. exists a, (x :: y :: b). auto.
Qed.

(** In [touching], the ring of region 1 has edges next to each other between region 1 and nothing. *)
Theorem C119_refuted : exists (rs : list (region Z)) t t',
  (forall x q, In x rs -> In q (rg_outer x ++ rg_inner x) -> closed_ring q /\ 0 < ring_area q) /\
  build_topology Debug rs = Ok t /\ valid t /\ normalize Debug t = Ok t' /\
  ~ forall rg r, In rg (tp_regions t') -> In r (tg_outer rg ++ tg_inner rg) -> ring_alternates t' r.
Proof.
  exists touching, (built touching), (normalized (built touching)).
  assert (C : forall x r, In x touching -> In r (rg_outer x ++ rg_inner x) -> closed_ring r /\ 0 < ring_area r).
  { intros x r [<-|[<-|[]]]; cbn [rg_outer rg_inner app In]; intuition (subst; proper). }
  assert (B : build_topology Debug touching = Ok (built touching)) by (vm_compute; reflexivity).
  split; [exact C|]. split; [exact B|].
  split; [apply (built_valid Debug touching); [intros x q Hx Hq; apply (C x q Hx Hq)|exact B]|].
  split; [vm_compute; reflexivity|]. intros N.
  assert (F : forallb (fun rg => forallb (fun r => negb (repeatsb (seen_ring (normalized (built touching)) r))) (tg_outer rg ++ tg_inner rg))
    (tp_regions (normalized (built touching))) = true).
  { apply forallb_forall. intros rg Hg. apply forallb_forall. intros r Hr. rewrite (fewest_repeats _ (N rg r Hg Hr)). reflexivity. }
  vm_compute in F. discriminate.
Qed.
Print Assumptions C119_refuted.

(** Missing: regions whose outline passes twice through a point, as in the witness; regions without
    outer edges towards others, which are dropped; topologies with a segment on two edges. *)
Theorem C119_merged_partial : forall D m (t t' : topology D), valid t -> separate t -> normalize m t = Ok t' ->
  (forall rg, In rg (tp_regions t) -> simple_outline t rg /\ measured_outline t rg) ->
  (forall rg r, In rg (tp_regions t) -> In r (tg_outer rg ++ tg_inner rg) ->
     Z.abs (shoelaces (map ne_points (seen_ring t r))) < 2 ^ 63) ->
  forall rg r, In rg (tp_regions t') -> In r (tg_outer rg ++ tg_inner rg) -> ring_alternates t' r.
Proof. exact @merged_alternates. Qed.
Print Assumptions C119_merged_partial.

(** ** C37: neighbours when rings are merged *)

(** Missing: the same as for C119. *)
Theorem C37_merged_partial : forall D m (t t' : topology D), valid t -> separate t -> normalize m t = Ok t' ->
  (forall rg, In rg (tp_regions t) -> simple_outline t rg /\ measured_outline t rg) ->
  (forall rg r, In rg (tp_regions t) -> In r (tg_outer rg ++ tg_inner rg) ->
     Z.abs (shoelaces (map ne_points (seen_ring t r))) < 2 ^ 63) ->
  map tg_data (tp_regions t') = map tg_data (tp_regions t) /\
  forall i j, i <> j -> adjacent t i j <-> adjacent t' i j.
Proof.
  intros D m t t' V S H P A. split; [eapply merged_data; eassumption|eapply merged_neighbours; eassumption].
Qed.
Print Assumptions C37_merged_partial.

(** [quilt]: the rings of region 1 are merged; region 2 is a neighbour of 1 and of 3. *)
Lemma quilt_valid : valid (built quilt) /\ separate (built quilt).
Proof.
  assert (B : build_topology Debug quilt = Ok (built quilt)) by (vm_compute; reflexivity). split.
  - apply (built_valid Debug quilt); [|exact B]. intros x r [<-|[<-|[<-|[]]]]; cbn [rg_outer rg_inner app In]; intuition (subst; proper).
  - apply (points_separate Debug quilt _ B). intros x r [<-|[<-|[<-|[]]]]; cbn [rg_outer rg_inner app In]; intuition (subst; eexists; reflexivity).
Qed.
Lemma quilt_small : forall rg r, In rg (tp_regions (built quilt)) -> In r (tg_outer rg ++ tg_inner rg) ->
  Z.abs (shoelaces (map ne_points (seen_ring (built quilt) r))) < 2 ^ 63.
Proof.
  assert (X : forallb (fun rg => forallb (fun r => Z.abs (shoelaces (map ne_points (seen_ring (built quilt) r))) <? 2 ^ 63)
    (tg_outer rg ++ tg_inner rg)) (tp_regions (built quilt)) = true) by (vm_compute; reflexivity).
  intros rg r Hg Hr. rewrite forallb_forall in X. specialize (X rg Hg). rewrite forallb_forall in X. apply Z.ltb_lt, X. assumption.
Qed.
Example C37_merged_case : valid (built quilt) /\ separate (built quilt) /\
  normalize Debug (built quilt) = Ok (normalized (built quilt)) /\
  (forall rg, In rg (tp_regions (built quilt)) -> simple_outline (built quilt) rg /\ measured_outline (built quilt) rg) /\
  (forall rg r, In rg (tp_regions (built quilt)) -> In r (tg_outer rg ++ tg_inner rg) ->
     Z.abs (shoelaces (map ne_points (seen_ring (built quilt) r))) < 2 ^ 63) /\
  adjacent (normalized (built quilt)) 0 1 /\ adjacent (normalized (built quilt)) 1 2 /\ ~ adjacent (normalized (built quilt)) 0 2 /\
  map (fun rg => length (tg_outer rg)) (tp_regions (built quilt)) = [2; 1; 1]%nat /\
  map (fun rg => length (tg_outer rg)) (tp_regions (normalized (built quilt))) = [1; 1; 1]%nat.
Proof.
  split; [apply quilt_valid|]. split; [apply quilt_valid|]. split; [vm_compute; reflexivity|]. split.
  { intros rg Hg. split.
    - apply simple_outlineb_spec. revert rg Hg. apply forallb_forall. vm_compute. reflexivity.
    - apply measured_outlineb_spec. revert rg Hg. apply forallb_forall. vm_compute. reflexivity. }
  split; [exact quilt_small|]. split; [apply adjacentb_spec; vm_compute; reflexivity|]. split; [apply adjacentb_spec; vm_compute; reflexivity|].
  split; [intros A; apply adjacentb_spec in A; vm_compute in A; discriminate|]. split; vm_compute; reflexivity.
Qed.

(** ** C71: normalizing twice when rings are merged *)

(** Another reason why the second normalization can change something: two rings merged around a hole
    make a counter-clockwise outer ring (C35), which the second normalization reverses. *)
Theorem C71_hole_refuted : exists (rs : list (region Z)) t t' t'',
  build_topology Debug rs = Ok t /\ valid t /\ separate t /\
  (forall rg, In rg (tp_regions t) -> simple_outline t rg /\ measured_outline t rg) /\
  normalize Debug t = Ok t' /\ normalize Debug t' = Ok t'' /\ read_topology t'' <> read_topology t'.
Proof.
  exists ring_of_two, (built ring_of_two), (normalized (built ring_of_two)), (normalized (normalized (built ring_of_two))).
  assert (B : build_topology Debug ring_of_two = Ok (built ring_of_two)) by (vm_compute; reflexivity).
  split; [exact B|]. split.
  { apply (built_valid Debug ring_of_two); [|exact B]. intros x r [<-|[]]; cbn; intuition (subst; proper). }
  split.
  { apply (points_separate Debug ring_of_two _ B). intros x r [<-|[]]; cbn; intuition (subst; eexists; reflexivity). }
  split.
  { intros rg Hg. split.
    - apply simple_outlineb_spec. revert rg Hg. apply forallb_forall. vm_compute. reflexivity.
    - apply measured_outlineb_spec. revert rg Hg. apply forallb_forall. vm_compute. reflexivity. }
  split; [vm_compute; reflexivity|]. split; [vm_compute; reflexivity|]. vm_compute. discriminate.
Qed.
Print Assumptions C71_hole_refuted.

(** Missing: regions whose outline passes twice through a point ([C71_refuted]); merged rings that
    wind the wrong way ([C71_hole_refuted]); regions without outer edges towards others, which are
    dropped; topologies with a segment on two edges. *)
Theorem C71_merged_partial : forall D m (t t' : topology D), valid t -> separate t -> normalize m t = Ok t' ->
  (forall rg, In rg (tp_regions t) -> simple_outline t rg /\ wound_outline t rg) ->
  (forall rg, In rg (tp_regions t) -> computable_side t (tg_outer rg) /\ computable_side t (tg_inner rg)) ->
  normalize m t' = Ok t'.
Proof.
  intros D m t t' V S H P C. destruct (merged_twice m t t' True V S H P) as [E|(_ & N & _)]; [|auto|assumption|tauto].
  intros rg r Hg Hr. destruct (C rg Hg) as (Co & Ci).
  assert (Cr : computable (map ne_points (seen_ring t r))).
  { apply in_app_iff in Hr as [Hr|Hr]; [exact (computable_side_ring t _ r Co Hr)|exact (computable_side_ring t _ r Ci Hr)]. }
  destruct Cr as (A & B & _). apply (norm_area_small Debug); assumption.
Qed.
Print Assumptions C71_merged_partial.

(** The topologies that import builds. *)
Theorem C71_built_merged_partial : forall D m (rs : list (region D)) t t', build_topology m rs = Ok t -> normalize m t = Ok t' ->
  (forall rg r, In rg rs -> In r (rg_outer rg ++ rg_inner rg) -> (exists ps, r = RPoints ps) /\ closed_ring r) ->
  (forall rg, In rg (tp_regions t) -> simple_outline t rg /\ wound_outline t rg) ->
  (forall rg, In rg (tp_regions t) -> computable_side t (tg_outer rg) /\ computable_side t (tg_inner rg)) ->
  normalize m t' = Ok t'.
Proof.
  intros D m rs t t' B H R P C. apply (C71_merged_partial D m t); try assumption.
  - apply (built_valid m rs); [|assumption]. intros x r Hx Hr. apply (R x r Hx Hr).
  - apply (points_separate m rs t B). intros rg r Hg Hr. apply (R rg r Hg Hr).
Qed.
Print Assumptions C71_built_merged_partial.

Example C71_merged_case : build_topology Debug quilt = Ok (built quilt) /\
  normalize Debug (built quilt) = Ok (normalized (built quilt)) /\ normalized (built quilt) <> built quilt /\
  (forall rg r, In rg quilt -> In r (rg_outer rg ++ rg_inner rg) -> (exists ps, r = RPoints ps) /\ closed_ring r) /\
  (forall rg, In rg (tp_regions (built quilt)) -> simple_outline (built quilt) rg /\ wound_outline (built quilt) rg) /\
  (forall rg, In rg (tp_regions (built quilt)) -> computable_side (built quilt) (tg_outer rg) /\ computable_side (built quilt) (tg_inner rg)).
Proof.
  split; [vm_compute; reflexivity|]. split; [vm_compute; reflexivity|]. split; [vm_compute; discriminate|]. split.
  { intros x r [<-|[<-|[<-|[]]]]; cbn [rg_outer rg_inner app In]; intuition (subst; (proper || (eexists; reflexivity))). }
  split.
  - intros rg Hg. split.
    + apply simple_outlineb_spec. revert rg Hg. apply forallb_forall. vm_compute. reflexivity.
    + apply wound_outlineb_spec. revert rg Hg. apply forallb_forall. vm_compute. reflexivity.
  - intros rg Hg. split; apply computable_sideb_spec; revert rg Hg; apply forallb_forall; vm_compute; reflexivity.
Qed.
