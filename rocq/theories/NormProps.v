(** * NormProps: C30-C37, C71 and C72, normalizing a topology *)
From Verif Require Import NormLaws NormAdjacent NormTwice.

Definition square (x y n : Z) : ring :=
  RPoints [Pt x y; Pt (x + n) y; Pt (x + n) (y + n); Pt x (y + n); Pt x y].

Ltac proper := vm_compute; repeat split; discriminate.

(** Two squares of one region side by side; below the second, a region with a hole, which a third
    region fills. *)
Definition quilt : list (region Z) :=
  [ Region 1 [square 0 0 10; square 10 0 10] []; Region 2 [square 10 10 10] [square 12 12 4];
    Region 3 [square 12 12 4] [] ].
Definition built {D} (rs : list (region D)) : topology D :=
  match build_topology Debug rs with Ok t => t | Panic _ => Topology [] [] end.
Definition normalized {D} (t : topology D) : topology D :=
  match normalize Debug t with Ok t => t | Panic _ => Topology [] [] end.

Example quilt_ok : build_topology Debug quilt = Ok (built quilt) /\
  normalize Debug (built quilt) = Ok (normalized (built quilt)) /\
  read_topology (normalized (built quilt)) =
  [ Shape 1 [[Some [Pt 10 10; Pt 0 10; Pt 0 0; Pt 10 0; Pt 20 0; Pt 20 10]; Some [Pt 20 10; Pt 10 10]]] [];
    Shape 2 [[Some [Pt 10 10; Pt 20 10]; Some [Pt 20 10; Pt 20 20; Pt 10 20; Pt 10 10]]]
            [[Some [Pt 12 12; Pt 12 16; Pt 16 16; Pt 16 12; Pt 12 12]]];
    Shape 3 [[Some [Pt 12 12; Pt 16 12; Pt 16 16; Pt 12 16; Pt 12 12]]] [] ].
Proof. vm_compute. auto. Qed.

Example quilt_valid : valid (built quilt).
Proof.
  apply (built_valid Debug quilt); [|apply quilt_ok].
  intros x r [<-|[<-|[<-|[]]]]; cbn; intuition (subst; proper).
Qed.

Example quilt_plain : forall i rg, (1 <= i)%nat -> nth_error (tp_regions (built quilt)) i = Some rg ->
  nothing_redundant (built quilt) rg.
Proof.
  intros i rg Hi H. apply nothing_redundantb_spec. destruct i as [|[|[|i]]]; [lia| | |].
  - vm_compute in H. injection H as <-. vm_compute. reflexivity.
  - vm_compute in H. injection H as <-. vm_compute. reflexivity.
  - assert (length (tp_regions (built quilt)) = 3%nat) by (vm_compute; reflexivity).
    assert (S (S (S i)) < length (tp_regions (built quilt)))%nat; [|lia]. apply nth_error_Some. congruence.
Qed.

(** ** C30: rings are only turned and reversed *)
Theorem C30_rings_kept : forall D m (t t' : topology D), valid t -> normalize m t = Ok t' ->
  by_region t t' (fun rg part => nothing_redundant t rg -> tg_outer rg <> [] ->
    exists outs ins, part = [Shape (tg_data rg) outs ins] /\
      rings_kept t (tg_outer rg) outs /\ rings_kept t (tg_inner rg) ins).
Proof.
  intros D m t t' V H. eapply by_region_impl; [|exact (normalize_by_region m t t' V H)].
  intros rg part Hg (outs & ins & So & Si & ->) N Ne.
  destruct (plain_sized t Clockwise (tg_outer rg) outs) as (no & F1 & P1 & ->); [intros r e Hr; apply N; apply in_app_iff; auto|assumption|].
  destruct (plain_sized t CounterClockwise (tg_inner rg) ins) as (ni & F2 & P2 & ->); [intros r e Hr; apply N; apply in_app_iff; auto|assumption|].
  exists (map as_read outs), (map as_read ins). split; [|split].
  - unfold read_back. destruct outs; [|reflexivity]. exfalso. apply Permutation_nil in P1. subst. inversion F1. congruence.
  - eapply kept_side; [eassumption|eassumption| |eassumption|eassumption]. intros x Hx. apply in_app_iff. auto.
  - eapply kept_side; [eassumption|eassumption| |eassumption|eassumption]. intros x Hx. apply in_app_iff. auto.
Qed.
Print Assumptions C30_rings_kept.

(** The second region of [quilt] meets the hypotheses; its ring and its hole are reversed or
    turned ([quilt_ok]). *)
Example C30_case : by_region (built quilt) (normalized (built quilt)) (fun rg part =>
  nothing_redundant (built quilt) rg -> tg_outer rg <> [] ->
    exists outs ins, part = [Shape (tg_data rg) outs ins] /\
      rings_kept (built quilt) (tg_outer rg) outs /\ rings_kept (built quilt) (tg_inner rg) ins).
Proof. apply (C30_rings_kept Z Debug); [apply quilt_valid|apply quilt_ok]. Qed.

(** ** C31: rings wind correctly *)
Theorem C31_winding : forall D m (t t' : topology D), valid t -> normalize m t = Ok t' ->
  by_region t t' (fun rg part => nothing_redundant t rg ->
    (forall r, In r (tg_outer rg ++ tg_inner rg) -> Z.abs (shoelaces (map ne_points (seen_ring t r))) < 2 ^ 63) ->
    forall s, In s part ->
      (forall out, In out (s_outer s) -> exists es, out = map Some es /\ winds Clockwise es) /\
      (forall out, In out (s_inner s) -> exists es, out = map Some es /\ winds CounterClockwise es)).
Proof.
  intros D m t t' V H. eapply by_region_impl; [|exact (normalize_by_region m t t' V H)].
  intros rg part Hg (outs & ins & So & Si & ->) N HA s Hs.
  destruct (plain_sized t Clockwise (tg_outer rg) outs) as (no & F1 & P1 & E1); [intros r e Hr; apply N; apply in_app_iff; auto|assumption|].
  destruct (plain_sized t CounterClockwise (tg_inner rg) ins) as (ni & F2 & P2 & E2); [intros r e Hr; apply N; apply in_app_iff; auto|assumption|].
  rewrite E1, E2 in Hs. assert (Es : s = Shape (tg_data rg) (map as_read outs) (map as_read ins)).
  { unfold read_back in Hs. destruct outs; [destruct Hs|]. destruct Hs as [<-|[]]. reflexivity. }
  subst s. cbn [s_outer s_inner].
  assert (X : forall o rs l nl, Forall2 (ring_fact t o) rs nl -> Permutation l nl -> incl rs (tg_outer rg ++ tg_inner rg) ->
     forall out, In out (map as_read l) -> exists es, out = map Some es /\ winds o es).
  { intros o rs l nl F P Hi out Ho. apply in_map_iff in Ho as (es & <- & He). apply (Permutation_in _ P) in He.
    destruct (Forall2_in_r _ _ _ es F He) as (r & Hr & (_ & _ & _ & _ & _ & W)). exists (map ne_points es). split; [reflexivity|].
    apply W, HA, Hi. assumption. }
  split; [eapply X; [exact F1|exact P1|]|eapply X; [exact F2|exact P2|]]; intros x Hx; apply in_app_iff; auto.
Qed.
Print Assumptions C31_winding.

Example C31_case : forall rg r, In rg (tp_regions (built quilt)) -> In r (tg_outer rg ++ tg_inner rg) ->
  Z.abs (shoelaces (map ne_points (seen_ring (built quilt) r))) < 2 ^ 63.
Proof.
  assert (X : forallb (fun rg => forallb (fun r => Z.abs (shoelaces (map ne_points (seen_ring (built quilt) r))) <? 2 ^ 63)
    (tg_outer rg ++ tg_inner rg)) (tp_regions (built quilt)) = true) by (vm_compute; reflexivity).
  intros rg r Hg Hr. rewrite forallb_forall in X. specialize (X rg Hg). rewrite forallb_forall in X.
  apply Z.ltb_lt, X. assumption.
Qed.

(** ** C32: where rings start *)
Theorem C32_starts : forall D m (t t' : topology D) s, valid t -> normalize m t = Ok t' -> In s (read_topology t') ->
  exists outs ins, s_outer s = map (map Some) outs /\ s_inner s = map (map Some) ins /\
    Forall starts_smallest outs /\ Forall starts_smallest ins /\ in_order outs /\ in_order ins.
Proof.
  intros D m t t' s V H Hs. destruct (normalize_by_region m t t' V H) as (parts & E & F). rewrite E in Hs.
  apply in_concat in Hs as (part & Hp & Hs). destruct (Forall2_in_r _ _ _ part F Hp) as (rg & Hg & _ & _ & (outs & ins & So & Si & ->)).
  assert (Es : s = Shape (tg_data rg) (map as_read (sized outs)) (map as_read (sized ins))).
  { unfold read_back in Hs. destruct (sized outs); [destruct Hs|]. destruct Hs as [<-|[]]. reflexivity. }
  subst s. cbn [s_outer s_inner].
  destruct (side_normal _ _ _ _ So) as ((n1 & c1 & m1 & _ & _ & _ & _ & O1) & F1).
  destruct (side_normal _ _ _ _ Si) as ((n2 & c2 & m2 & _ & _ & _ & _ & O2) & F2).
  exists (map (map ne_points) (sized outs)), (map (map ne_points) (sized ins)).
  rewrite !map_map. split; [reflexivity|]. split; [reflexivity|].
  assert (X : forall l, Forall (fun out => fewest out /\ starts_smallest (map ne_points out) /\ good out) l ->
     Forall starts_smallest (map (map ne_points) (sized l))).
  { intros l Fl. apply Forall_forall. intros x Hx. apply in_map_iff in Hx as (y & <- & Hy). apply filter_In in Hy as (Hy & _).
    rewrite Forall_forall in Fl. apply Fl. assumption. }
  split; [apply X; assumption|]. split; [apply X; assumption|].
  split; apply in_order_map_filter; assumption.
Qed.
Print Assumptions C32_starts.

(** Rings of [quilt] were not in this form before ([quilt_ok] shows the result). *)
Example C32_case : exists s r, nth_error (read_topology (built quilt)) 0 = Some s /\ nth_error (s_outer s) 1 = Some r /\
  r = [Some [Pt 10 0; Pt 20 0]; Some [Pt 20 0; Pt 20 10]; Some [Pt 20 10; Pt 10 10]; Some [Pt 10 10; Pt 10 0]].
Proof. eexists. eexists. vm_compute. repeat split. Qed.

(** ** C33: fewest edges *)
Theorem C33_fewest : forall D m (t t' : topology D), valid t -> normalize m t = Ok t' ->
  by_region t t' (fun rg part => exists outs ins,
    part = read_back (tg_data rg) (sized outs) (sized ins) /\
    normal_side t (tg_outer rg) outs /\ normal_side t (tg_inner rg) ins /\
    Forall fewest outs /\ Forall fewest ins).
Proof.
  intros D m t t' V H. eapply by_region_impl; [|exact (normalize_by_region m t t' V H)].
  intros rg part Hg (outs & ins & So & Si & ->). exists outs, ins. split; [reflexivity|].
  destruct (side_normal _ _ _ _ So) as (S1 & F1). destruct (side_normal _ _ _ _ Si) as (S2 & F2).
  split; [assumption|]. split; [assumption|]. split; (eapply Forall_impl; [|eassumption]); cbv beta; tauto.
Qed.
Print Assumptions C33_fewest.

Example C33_case : by_region (built quilt) (normalized (built quilt)) (fun rg part => exists outs ins,
    part = read_back (tg_data rg) (sized outs) (sized ins) /\
    normal_side (built quilt) (tg_outer rg) outs /\ normal_side (built quilt) (tg_inner rg) ins /\
    Forall fewest outs /\ Forall fewest ins).
Proof. apply (C33_fewest Z Debug); [apply quilt_valid|apply quilt_ok]. Qed.

(** ** C34: merging *)
Theorem C34_merge : forall rs out, Forall good rs -> join_adjacent_rings rs = Ok out ->
  exists cycles ms, cycles_of (pool rs) cycles /\ Forall2 from_cycle cycles ms /\ Permutation out (untouched rs ++ ms).
Proof.
  intros rs out G H. destruct (join_adjacent_ok rs out G H) as (cycles & ms & C & F & P & _). exists cycles, ms. auto.
Qed.
Print Assumptions C34_merge.

Theorem C34_returns : forall rs, Forall good rs ->
  ((exists out, join_adjacent_rings rs = Ok out) <-> traversable (pool rs)) /\
  (forall p, join_adjacent_rings rs = Panic p -> p = PExplicit).
Proof.
  intros rs G. split; [split|].
  - intros (out & H). destruct (join_adjacent_ok rs out G H) as (_ & _ & _ & _ & _ & T). exact T.
  - apply join_adjacent_returns. assumption.
  - intros p H. apply (join_adjacent_panic rs p G H).
Qed.
Print Assumptions C34_returns.

(** Two squares that share an edge (region 0 on both sides) become one ring; a ring of redundant
    edges only vanishes; a ring without redundant edges stays. *)
Definition tiles : list (list norm_edge) :=
  [ [NE [Pt 0 0; Pt 10 0] (Some 0%nat) None; NE [Pt 10 0; Pt 10 10] (Some 0%nat) (Some 0%nat);
     NE [Pt 10 10; Pt 0 10; Pt 0 0] (Some 0%nat) None];
    [NE [Pt 10 0; Pt 20 0; Pt 20 10; Pt 10 10] (Some 0%nat) None; NE [Pt 10 10; Pt 10 0] (Some 0%nat) (Some 0%nat)];
    [NE [Pt 40 0; Pt 50 0; Pt 40 10; Pt 40 0] (Some 0%nat) (Some 0%nat)];
    [NE [Pt 20 20; Pt 30 20; Pt 20 30; Pt 20 20] (Some 0%nat) (Some 1%nat)] ].

Example C34_case : Forall good tiles /\ join_adjacent_rings tiles = Ok
  [ [NE [Pt 0 0; Pt 10 0; Pt 20 0; Pt 20 10; Pt 10 10; Pt 0 10; Pt 0 0] (Some 0%nat) None];
    [NE [Pt 20 20; Pt 30 20; Pt 20 30; Pt 20 20] (Some 0%nat) (Some 1%nat)] ].
Proof.
  split; [|vm_compute; reflexivity]. unfold tiles. repeat constructor; try discriminate; eexists; cbn; eauto 20.
Qed.

(** ** C35: outer rings of merged regions *)

(** Two C-shaped rings around a hole. *)
Definition ring_of_two : list (region Z) :=
  [ Region 1 [RPoints [Pt 15 0; Pt 15 10; Pt 10 10; Pt 10 20; Pt 15 20; Pt 15 30; Pt 0 30; Pt 0 0; Pt 15 0];
              RPoints [Pt 15 0; Pt 30 0; Pt 30 30; Pt 15 30; Pt 15 20; Pt 20 20; Pt 20 10; Pt 15 10; Pt 15 0]] [] ].

Theorem C35_refuted : exists (rs : list (region Z)) t t' s out es,
  (forall x r, In x rs -> In r (rg_outer x ++ rg_inner x) -> closed_ring r /\ 0 < ring_area r) /\
  build_topology Debug rs = Ok t /\ valid t /\ normalize Debug t = Ok t' /\
  In s (read_topology t') /\ In out (s_outer s) /\ out = map Some es /\ winds CounterClockwise es.
Proof.
  exists ring_of_two, (built ring_of_two), (normalized (built ring_of_two)).
  eexists. eexists. exists [[Pt 10 10; Pt 10 20; Pt 15 20; Pt 20 20; Pt 20 10; Pt 15 10; Pt 10 10]].
  assert (C : forall x r, In x ring_of_two -> In r (rg_outer x ++ rg_inner x) -> closed_ring r /\ 0 < ring_area r).
  { intros x r [<-|[]]; cbn [rg_outer rg_inner app In]. intros [<-|[<-|[]]]; proper. }
  assert (B : build_topology Debug ring_of_two = Ok (built ring_of_two)) by (vm_compute; reflexivity).
  split; [exact C|]. split; [exact B|].
  split; [apply (built_valid Debug ring_of_two); [intros x r Hx Hr; apply (C x r Hx Hr)|exact B]|].
  split; [vm_compute; reflexivity|]. split; [vm_compute; left; reflexivity|].
  split; [cbn [s_outer]; right; left; reflexivity|]. split; [reflexivity|]. vm_compute. reflexivity.
Qed.
Print Assumptions C35_refuted.

(** What does hold of merged regions: the areas of the rings add up to those of the input, if every
    redundant edge is passed in both directions.  Missing: that each ring is clockwise (it is not). *)
Theorem C35_total_area_partial : forall D m (t t' : topology D), valid t -> normalize m t = Ok t' ->
  by_region t t' (fun rg part => computable_side t (tg_outer rg) -> cancelling t Clockwise (tg_outer rg) ->
    exists outs, concat (map s_outer part) = map (map Some) outs /\
      sum (map shoelaces outs) = sum (ring_sizes t (tg_outer rg))).
Proof.
  intros D m t t' V H. eapply by_region_impl; [|exact (normalize_by_region m t t' V H)].
  intros rg part Hg (outs & ins & So & Si & ->) HC HX. exists (map (map ne_points) (sized outs)). split.
  - unfold read_back. rewrite (map_map (map ne_points) (map Some)). destruct (sized outs) as [|x l]; [reflexivity|].
    cbn [map concat s_outer]. rewrite app_nil_r. reflexivity.
  - assert (HG : forall r, In r (tg_outer rg) -> good (seen_ring t r)).
    { intros r Hr. eapply seen_ring_good; [eassumption|eassumption|]. apply in_app_iff. auto. }
    assert (HA : forall r, In r (tg_outer rg) -> Z.abs (shoelaces (map ne_points (seen_ring t r))) < 2 ^ 63).
    { intros r Hr. destruct (computable_side_ring t _ r HC Hr) as (H1 & H2 & _). apply (norm_area_small Debug); assumption. }
    rewrite map_map, <- sized_area. pose proof (dropped_area outs) as DA. unfold norm_ring in *. rewrite DA.
    + rewrite (side_area t Clockwise (tg_outer rg) outs HG HA HX So). lia.
    + pose proof (side_small t Clockwise (tg_outer rg) outs) as SS.
      assert (SM : Forall small_ring (map into_ring outs)).
      { apply SS; assumption. }
      rewrite (Forall_map into_ring) in SM. eapply Forall_impl; [|exact SM]. intros es (A & B). cbn [into_ring paths] in A, B.
      apply (norm_area_small Debug); assumption.
Qed.
Print Assumptions C35_total_area_partial.

(** The two C shapes meet the hypotheses: the areas 400 and 400 become 900 and -100 (both doubled). *)
Example C35_case : (forall rg, In rg (tp_regions (built ring_of_two)) ->
    computable_side (built ring_of_two) (tg_outer rg) /\ cancelling (built ring_of_two) Clockwise (tg_outer rg)) /\
  map (ring_sizes (built ring_of_two)) (map tg_outer (tp_regions (built ring_of_two))) = [[800; 800]] /\
  map (map (fun r => shoelaces (map ne_points r))) (map (map (seen_ring (normalized (built ring_of_two))))
    (map tg_outer (tp_regions (normalized (built ring_of_two))))) = [[1800; -200]].
Proof.
  split; [|split; vm_compute; reflexivity]. intros rg Hg.
  split; [apply computable_sideb_spec|apply cancellingb_spec]; revert rg Hg; apply forallb_forall; vm_compute; reflexivity.
Qed.

(** And without redundant edges every outer ring is clockwise. *)
Theorem C35_outer_partial : forall D m (t t' : topology D) s out, valid t -> normalize m t = Ok t' ->
  (forall rg, In rg (tp_regions t) -> nothing_redundant t rg /\
     forall r, In r (tg_outer rg ++ tg_inner rg) -> Z.abs (shoelaces (map ne_points (seen_ring t r))) < 2 ^ 63) ->
  In s (read_topology t') -> In out (s_outer s) -> exists es, out = map Some es /\ winds Clockwise es.
Proof.
  intros D m t t' s out V H N Hs Ho. destruct (C31_winding D m t t' V H) as (parts & E & F). rewrite E in Hs.
  apply in_concat in Hs as (part & Hp & Hs). destruct (Forall2_in_r _ _ _ part F Hp) as (rg & Hg & _ & _ & X).
  destruct (N rg Hg) as (N1 & N2). apply (X N1 N2 s Hs). assumption.
Qed.
Print Assumptions C35_outer_partial.

(** ** C36: whether normalization returns *)

(** Two kites of one region, each of two triangles, touching at the tip where their axes end. *)
Definition triangle (a b c : point) : ring := RPoints [a; b; c; a].
Definition kites : list (region Z) :=
  [ Region 1 [triangle (Pt 10 10) (Pt 15 0) (Pt 10 0); triangle (Pt 10 10) (Pt 10 0) (Pt 5 0);
              triangle (Pt 10 10) (Pt 5 20) (Pt 10 20); triangle (Pt 10 10) (Pt 10 20) (Pt 15 20)] [] ].
(** A region with a hole and an island in the hole that shares an edge with it. *)
Definition island : list (region Z) :=
  [ Region 1 [square 0 0 30; RPoints [Pt 10 10; Pt 20 10; Pt 15 15; Pt 10 10]] [square 10 10 10] ].

Theorem C36_refuted : forall rs, rs = kites \/ rs = island ->
  (forall x r, In x rs -> In r (rg_outer x ++ rg_inner x) -> closed_ring r /\ ring_area r <> 0) /\
  (forall m, exists t, build_topology m rs = Ok t /\ valid t /\
    (forall rg, In rg (tp_regions t) -> computable_side t (tg_outer rg) /\ computable_side t (tg_inner rg)) /\
    at_most_two (topology_paths t) /\ normalize m t = Panic PExplicit).
Proof.
  intros rs Hrs.
  assert (C : forall x r, In x rs -> In r (rg_outer x ++ rg_inner x) -> closed_ring r /\ ring_area r <> 0).
  { destruct Hrs as [->| ->]; intros x r [<-|[]]; cbn [rg_outer rg_inner app In];
      intuition (subst; proper). }
  split; [exact C|]. intros m. exists (built rs).
  assert (B : build_topology m rs = Ok (built rs)) by (destruct Hrs as [->| ->]; destruct m; vm_compute; reflexivity).
  split; [exact B|]. split; [apply (built_valid m rs); [intros x r Hx Hr; apply (C x r Hx Hr)|exact B]|].
  split; [|split; [apply at_most_twob_spec; destruct Hrs as [->| ->]; vm_compute; reflexivity|]].
  2:{ destruct Hrs as [->| ->]; destruct m; vm_compute; reflexivity. }
  intros rg Hg. assert (X : forallb (fun rg => computable_sideb (built rs) (tg_outer rg) && computable_sideb (built rs) (tg_inner rg)) (tp_regions (built rs)) = true)
    by (destruct Hrs as [->| ->]; vm_compute; reflexivity).
  rewrite forallb_forall in X. specialize (X rg Hg). apply andb_true_iff in X as (X1 & X2).
  split; apply computable_sideb_spec; assumption.
Qed.
Print Assumptions C36_refuted.

(** Normalization returns if the useful edges of partly redundant rings can be followed without
    ambiguity.  Missing: that this is so for every valid topology (it is not). *)
Theorem C36_returns_partial : forall D m (t : topology D), valid t ->
  (forall rg, In rg (tp_regions t) -> computable_side t (tg_outer rg) /\ computable_side t (tg_inner rg)) ->
  at_most_two (topology_paths t) ->
  (forall rg, In rg (tp_regions t) -> mergeable t Clockwise (tg_outer rg) /\ mergeable t CounterClockwise (tg_inner rg)) ->
  exists t', normalize m t = Ok t'.
Proof. intros D m t. apply normalize_returns. Qed.
Print Assumptions C36_returns_partial.

(** A condition that can be checked on the topology itself: the useful edges of partly redundant
    rings form disjoint cycles. *)
Theorem C36_followable_partial : forall D m (t : topology D), valid t ->
  (forall rg, In rg (tp_regions t) -> computable_side t (tg_outer rg) /\ computable_side t (tg_inner rg)) ->
  at_most_two (topology_paths t) ->
  (forall rg, In rg (tp_regions t) -> followable t Clockwise (tg_outer rg) /\ followable t CounterClockwise (tg_inner rg)) ->
  exists t', normalize m t = Ok t'.
Proof.
  intros D m t V HC H2 HF. apply normalize_returns; try assumption. intros rg Hg. destruct (HF rg Hg) as (F1 & F2).
  split; (apply followable_mergeable; [|assumption]); intros r Hr; (eapply seen_ring_good; [eassumption|eassumption|]);
    apply in_app_iff; auto.
Qed.
Print Assumptions C36_followable_partial.

(** [quilt], in which two rings are merged. *)
Example C36_followable_case : valid (built quilt) /\
  (forall rg, In rg (tp_regions (built quilt)) ->
     computable_side (built quilt) (tg_outer rg) /\ computable_side (built quilt) (tg_inner rg)) /\
  at_most_two (topology_paths (built quilt)) /\
  (forall rg, In rg (tp_regions (built quilt)) ->
     followable (built quilt) Clockwise (tg_outer rg) /\ followable (built quilt) CounterClockwise (tg_inner rg)).
Proof.
  split; [apply quilt_valid|]. split; [|split].
  - intros rg Hg. split; apply computable_sideb_spec; revert rg Hg; apply forallb_forall; vm_compute; reflexivity.
  - apply at_most_twob_spec. vm_compute. reflexivity.
  - intros rg Hg. split; apply traversableb_spec; revert rg Hg; apply forallb_forall; vm_compute; reflexivity.
Qed.

(** In particular if no region has redundant edges. *)
Theorem C36_plain_partial : forall D m (t : topology D), valid t ->
  (forall rg, In rg (tp_regions t) -> computable_side t (tg_outer rg) /\ computable_side t (tg_inner rg)) ->
  at_most_two (topology_paths t) -> (forall rg, In rg (tp_regions t) -> nothing_redundant t rg) ->
  exists t', normalize m t = Ok t'.
Proof.
  intros D m t V HC H2 N. apply normalize_returns; try assumption. intros rg Hg.
  split; apply plain_mergeable; intros r e Hr; apply (N rg Hg); apply in_app_iff; auto.
Qed.
Print Assumptions C36_plain_partial.

(** Three regions: a square with a hole, the filling of the hole, and a neighbour. *)
Definition plain_land : list (region Z) :=
  [ Region 1 [square 0 0 10] [square 2 2 4]; Region 2 [square 2 2 4] []; Region 3 [square 10 0 10] [] ].
Example C36_case : valid (built plain_land) /\
  (forall rg, In rg (tp_regions (built plain_land)) ->
     computable_side (built plain_land) (tg_outer rg) /\ computable_side (built plain_land) (tg_inner rg)) /\
  at_most_two (topology_paths (built plain_land)) /\
  (forall rg, In rg (tp_regions (built plain_land)) -> nothing_redundant (built plain_land) rg).
Proof.
  split; [|split; [|split]].
  - apply (built_valid Debug plain_land); [|vm_compute; reflexivity].
    intros x r [<-|[<-|[<-|[]]]]; cbn; intuition (subst; proper).
  - intros rg Hg. assert (X : forallb (fun rg => computable_sideb (built plain_land) (tg_outer rg) && computable_sideb (built plain_land) (tg_inner rg)) (tp_regions (built plain_land)) = true)
      by (vm_compute; reflexivity).
    rewrite forallb_forall in X. specialize (X rg Hg). apply andb_true_iff in X as (X1 & X2).
    split; apply computable_sideb_spec; assumption.
  - apply at_most_twob_spec. vm_compute. reflexivity.
  - intros rg Hg. apply nothing_redundantb_spec. revert rg Hg. apply forallb_forall. vm_compute. reflexivity.
Qed.

(** ** C37: adjacency *)

(** The second region meets the first along two edges, with rings that touch in between. *)
Definition touching : list (region Z) :=
  [ Region 1 [RPoints [Pt 10 0; Pt 20 10; Pt 10 10; Pt 0 10; Pt 10 0]] [];
    Region 2 [triangle (Pt 0 10) (Pt 10 10) (Pt 5 20); triangle (Pt 10 10) (Pt 20 10) (Pt 15 20)] [] ].

Theorem C37_refuted : exists (rs : list (region Z)) t t',
  (forall x r, In x rs -> In r (rg_outer x ++ rg_inner x) -> closed_ring r /\ 0 < ring_area r) /\
  build_topology Debug rs = Ok t /\ valid t /\ normalize Debug t = Ok t' /\
  map tg_data (tp_regions t') = map tg_data (tp_regions t) /\ adjacent t 0 1 /\ ~ adjacent t' 0 1.
Proof.
  exists touching, (built touching), (normalized (built touching)).
  assert (C : forall x r, In x touching -> In r (rg_outer x ++ rg_inner x) -> closed_ring r /\ 0 < ring_area r).
  { intros x r [<-|[<-|[]]]; cbn [rg_outer rg_inner app In]; intuition (subst; proper). }
  assert (B : build_topology Debug touching = Ok (built touching)) by (vm_compute; reflexivity).
  split; [exact C|]. split; [exact B|].
  split; [apply (built_valid Debug touching); [intros x r Hx Hr; apply (C x r Hx Hr)|exact B]|].
  split; [vm_compute; reflexivity|]. split; [vm_compute; reflexivity|].
  split; [apply adjacentb_spec; vm_compute; reflexivity|].
  intros A. apply adjacentb_spec in A. vm_compute in A. discriminate.
Qed.
Print Assumptions C37_refuted.

(** Missing: regions whose rings pass twice through a point or touch each other, as in the witness
    above; regions with two rings along one edge, which are merged; regions without outer rings,
    which are dropped. *)
Theorem C37_simple_partial : forall D m (t t' : topology D), valid t -> normalize m t = Ok t' ->
  (forall rg, In rg (tp_regions t) -> tg_outer rg <> [] /\ nothing_redundant t rg /\ simple_boundary t rg) ->
  (forall rg r, In rg (tp_regions t) -> In r (tg_outer rg ++ tg_inner rg) ->
     Z.abs (shoelaces (map ne_points (seen_ring t r))) < 2 ^ 63) ->
  map s_data (read_topology t') = map tg_data (tp_regions t) /\
  forall i j, i <> j -> adjacent t i j -> adjacent t' i j.
Proof.
  intros D m t t' V H P A. split; [|apply (adjacent_kept m t t' V H P A)].
  pose proof (plain_regions m t t' V H (fun rg Hg => conj (proj1 (P rg Hg)) (proj1 (proj2 (P rg Hg))))) as F.
  clear P A. induction F as [|rg s rgs ss (outs & ins & nos & nis & -> & _) F IH]; [reflexivity|]. cbn [map s_data]. f_equal. exact IH.
Qed.
Print Assumptions C37_simple_partial.

(** Two squares side by side, the second with a hole that a third region fills. *)
Definition mosaic : list (region Z) :=
  [ Region 1 [square 0 0 10] []; Region 2 [square 10 0 10] [square 12 2 4]; Region 3 [square 12 2 4] [] ].

Example C37_case : valid (built mosaic) /\ normalize Debug (built mosaic) = Ok (normalized (built mosaic)) /\
  (forall rg, In rg (tp_regions (built mosaic)) ->
     tg_outer rg <> [] /\ nothing_redundant (built mosaic) rg /\ simple_boundary (built mosaic) rg) /\
  (forall rg r, In rg (tp_regions (built mosaic)) -> In r (tg_outer rg ++ tg_inner rg) ->
     Z.abs (shoelaces (map ne_points (seen_ring (built mosaic) r))) < 2 ^ 63) /\
  adjacent (built mosaic) 0 1 /\ adjacent (built mosaic) 1 2 /\
  adjacent (normalized (built mosaic)) 0 1 /\ adjacent (normalized (built mosaic)) 1 2.
Proof.
  split; [apply (built_valid Debug mosaic); [|vm_compute; reflexivity];
    intros x r [<-|[<-|[<-|[]]]]; cbn [rg_outer rg_inner app In]; intuition (subst; proper)|].
  split; [vm_compute; reflexivity|]. split.
  { intros rg Hg. split; [|split].
    - assert (X : forallb (fun rg => match tg_outer rg with [] => false | _ => true end) (tp_regions (built mosaic)) = true)
        by (vm_compute; reflexivity).
      rewrite forallb_forall in X. specialize (X rg Hg). destruct (tg_outer rg); congruence.
    - apply nothing_redundantb_spec. revert rg Hg. apply forallb_forall. vm_compute. reflexivity.
    - apply simple_boundaryb_spec. revert rg Hg. apply forallb_forall. vm_compute. reflexivity. }
  split.
  { assert (X : forallb (fun rg => forallb (fun r => Z.abs (shoelaces (map ne_points (seen_ring (built mosaic) r))) <? 2 ^ 63)
      (tg_outer rg ++ tg_inner rg)) (tp_regions (built mosaic)) = true) by (vm_compute; reflexivity).
    intros rg r Hg Hr. rewrite forallb_forall in X. specialize (X rg Hg). rewrite forallb_forall in X.
    apply Z.ltb_lt, X. assumption. }
  repeat split; apply adjacentb_spec; vm_compute; reflexivity.
Qed.

(** ** C71: normalizing twice *)
Theorem C71_refuted : exists (rs : list (region Z)) t t' t'',
  build_topology Debug rs = Ok t /\ valid t /\ normalize Debug t = Ok t' /\ normalize Debug t' = Ok t'' /\
  read_topology t'' <> read_topology t'.
Proof.
  exists touching, (built touching), (normalized (built touching)), (normalized (normalized (built touching))).
  assert (B : build_topology Debug touching = Ok (built touching)) by (vm_compute; reflexivity).
  split; [exact B|].
  split; [apply (built_valid Debug touching); [|exact B]; intros x r [<-|[<-|[]]]; cbn; intuition (subst; proper)|].
  split; [vm_compute; reflexivity|]. split; [vm_compute; reflexivity|]. vm_compute. discriminate.
Qed.
Print Assumptions C71_refuted.

(** Missing: regions whose rings pass twice through a point or touch each other, as in the witness;
    regions with two rings along one edge, which are merged; regions without outer rings, which are
    dropped; topologies with the same segment on two edges. *)
Theorem C71_simple_partial : forall D m (t t' : topology D), valid t -> normalize m t = Ok t' ->
  (forall rg, In rg (tp_regions t) -> tg_outer rg <> [] /\ nothing_redundant t rg /\ simple_boundary t rg) ->
  separate t ->
  (forall rg r, In rg (tp_regions t) -> In r (tg_outer rg ++ tg_inner rg) ->
     computable (map ne_points (seen_ring t r))) ->
  normalize m t' = Ok t'.
Proof.
  intros D m t t' V H P S C.
  destruct (normalize_twice m t t' True V H P) as [E|(_ & N & _)]; [| |intros _| |tauto]; try assumption.
  - intros rg r Hg Hr. destruct (C rg r Hg Hr) as (A & B & _). apply (norm_area_small Debug); assumption.
  - intros rg r Hg Hr. destruct (C rg r Hg Hr) as (A & B & _). auto.
Qed.
Print Assumptions C71_simple_partial.

(** For coordinates of any size: the areas need only fit an i64. A debug build may then overflow
    while it sums an area from another starting edge. *)
Theorem C71_overflow_partial : forall D m (t t' : topology D), valid t -> normalize m t = Ok t' ->
  (forall rg, In rg (tp_regions t) -> tg_outer rg <> [] /\ nothing_redundant t rg /\ simple_boundary t rg) ->
  separate t ->
  (forall rg r, In rg (tp_regions t) -> In r (tg_outer rg ++ tg_inner rg) ->
     Z.abs (shoelaces (map ne_points (seen_ring t r))) < 2 ^ 63) ->
  normalize m t' = Ok t' \/ (m = Debug /\ normalize m t' = Panic POverflow).
Proof.
  intros D m t t' V H P S A.
  destruct (normalize_twice m t t' False V H P) as [E|(-> & _ & E)]; auto. intros [].
Qed.
Print Assumptions C71_overflow_partial.

(** The topologies that import builds: rings of points put every segment on one edge. *)
Theorem C71_built_partial : forall D m (rs : list (region D)) t t', build_topology m rs = Ok t -> normalize m t = Ok t' ->
  (forall rg r, In rg rs -> In r (rg_outer rg ++ rg_inner rg) -> (exists ps, r = RPoints ps) /\ closed_ring r) ->
  (forall rg, In rg (tp_regions t) -> nothing_redundant t rg /\ simple_boundary t rg) ->
  (forall rg r, In rg (tp_regions t) -> In r (tg_outer rg ++ tg_inner rg) ->
     computable (map ne_points (seen_ring t r))) ->
  normalize m t' = Ok t'.
Proof.
  intros D m rs t t' B H R P C. apply (C71_simple_partial D m t); [| | | |exact C]; [|assumption| |].
  - apply (built_valid m rs); [|assumption]. intros x r Hx Hr. apply (R x r Hx Hr).
  - intros rg Hg. split; [eapply built_outer; eassumption|apply P; assumption].
  - apply (points_separate m rs t B). intros rg r Hg Hr. apply (R rg r Hg Hr).
Qed.
Print Assumptions C71_built_partial.

Example C71_case : exists t, build_topology Debug mosaic = Ok t /\ normalize Debug t = Ok (normalized t) /\
  normalized t <> t /\
  (forall rg r, In rg mosaic -> In r (rg_outer rg ++ rg_inner rg) -> (exists ps, r = RPoints ps) /\ closed_ring r) /\
  (forall rg, In rg (tp_regions t) -> nothing_redundant t rg /\ simple_boundary t rg) /\
  (forall rg r, In rg (tp_regions t) -> In r (tg_outer rg ++ tg_inner rg) ->
     computable (map ne_points (seen_ring t r))).
Proof.
  exists (built mosaic). split; [vm_compute; reflexivity|]. split; [vm_compute; reflexivity|].
  split; [vm_compute; discriminate|]. split.
  { intros x r [<-|[<-|[<-|[]]]]; cbn [rg_outer rg_inner app In]; intuition (subst; (proper || (eexists; reflexivity))). }
  split.
  - intros rg Hg. split.
    + apply nothing_redundantb_spec. revert rg Hg. apply forallb_forall. vm_compute. reflexivity.
    + apply simple_boundaryb_spec. revert rg Hg. apply forallb_forall. vm_compute. reflexivity.
  - intros rg r Hg. apply computable_side_ring. apply computable_sideb_spec. revert rg Hg. apply forallb_forall. vm_compute. reflexivity.
Qed.

(** ** C72: how normalization fails *)
Theorem C72_panics : forall D m (t : topology D) p, valid t -> normalize m t = Panic p ->
  (m = Debug /\ p = POverflow) \/
  (p = PAssert /\
    ((exists rg r, In rg (tp_regions t) /\ In r (tg_outer rg ++ tg_inner rg) /\
        i64_of (shoelaces (map ne_points (seen_ring t r))) = 0) \/
     ~ at_most_two (topology_paths t))) \/
  (p = PExplicit /\ exists rg, In rg (tp_regions t) /\ ~ nothing_redundant t rg).
Proof.
  intros D m t p V H. apply normalize_panic in H as [(rg & Hg & [X|[(-> & r & Hr & Z)|(-> & r & e & Hr & He & R)]])|[X|(-> & X)]];
    [left; assumption| | |left; assumption| |assumption].
  - right. left. split; [reflexivity|]. left. exists rg, r. auto.
  - right. right. split; [reflexivity|]. exists rg. split; [assumption|]. intros N. apply (N r e Hr He R).
  - right. left. auto.
Qed.
Print Assumptions C72_panics.

Example C72_case : valid (built kites) /\ normalize Release (built kites) = Panic PExplicit.
Proof.
  split; [|vm_compute; reflexivity]. apply (built_valid Debug kites); [|vm_compute; reflexivity].
  intros x r [<-|[]]; cbn; intuition (subst; proper).
Qed.
