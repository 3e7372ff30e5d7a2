(** * ShuffleProps: C131, the order of the regions *)
From Coq Require Import Permutation.
From Verif Require Import ShuffleSpec ShuffleBuild ShuffleNorm ShuffleTopo ShuffleClip ShuffleClipped ShuffleLaws ClipTopoProps.
From Verif Require Import Normalize Clip Simplify.
Open Scope Z_scope.

(** ** C131: the order of the regions does not matter *)

(** From the same regions in another order the same topology is built, apart from the numbers of regions and
    edges. By symmetry one succeeds exactly if the other one does. *)
Theorem C131_build : forall D m (rs1 rs2 : list (region D)) t1, Permutation rs1 rs2 -> build_topology m rs1 = Ok t1 ->
  exists t2, build_topology m rs2 = Ok t2 /\ shuffled t1 t2.
Proof. exact @build_shuffled. Qed.
Print Assumptions C131_build.

(** All operations keep it that way. *)
Theorem C131_clip : forall D m k (t1 t2 t1' : topology D), shuffled t1 t2 -> clip_topology m t1 k = Ok t1' ->
  exists t2', clip_topology m t2 k = Ok t2' /\ shuffled t1' t2'.
Proof. exact @clip_shuffled. Qed.
Print Assumptions C131_clip.

Theorem C131_normalize : forall D m (t1 t2 t1' : topology D), shuffled t1 t2 -> normalize m t1 = Ok t1' ->
  exists t2', normalize m t2 = Ok t2' /\ shuffled t1' t2'.
Proof. exact @normalize_shuffled. Qed.
Print Assumptions C131_normalize.

Theorem C131_simplify : forall D m threshold (t1 t2 t1' : topology D), shuffled t1 t2 -> simplify m t1 threshold = Ok t1' ->
  exists t2', simplify m t2 threshold = Ok t2' /\ shuffled t1' t2'.
Proof. exact @simplify_shuffled. Qed.
Print Assumptions C131_simplify.

(** It goes both ways, and what can be read is the same in another order. *)
Theorem C131_same : forall D (t1 t2 : topology D), shuffled t1 t2 ->
  shuffled t2 t1 /\ Permutation (read_topology t1) (read_topology t2) /\
  Permutation (map te_points (tp_edges t1)) (map te_points (tp_edges t2)).
Proof.
  intros D t1 t2 S. split; [apply shuffled_sym, S|]. split; [apply shuffled_read, S|].
  destruct S as (_ & _ & p & s & (_ & Is & _ & L & _ & E)). exact (perm_by2 _ _ s _ _ Is L E).
Qed.
Print Assumptions C131_same.

(** All operations one after the other. *)
Theorem C131_chain : forall D m k threshold (rs1 rs2 : list (region D)), Permutation rs1 rs2 ->
  let chain rs := t <- build_topology m rs ;; t1 <- clip_topology m t k ;; t2 <- simplify m t1 threshold ;; normalize m t2 in
  forall t1, chain rs1 = Ok t1 -> exists t2, chain rs2 = Ok t2 /\ Permutation (read_topology t1) (read_topology t2).
Proof.
  intros D m k threshold rs1 rs2 P chain t1 H. unfold chain in *.
  destruct (build_topology m rs1) as [a|] eqn:A; [|discriminate]. destruct (build_shuffled m rs1 rs2 a P A) as (a' & -> & SA). cbn [bind] in *.
  destruct (clip_topology m a k) as [b|] eqn:B; [|discriminate]. destruct (clip_shuffled m k a a' b SA B) as (b' & -> & SB). cbn [bind] in *.
  destruct (simplify m b threshold) as [c|] eqn:C; [|discriminate]. destruct (simplify_shuffled m threshold b b' c SB C) as (c' & -> & SC). cbn [bind] in *.
  destruct (normalize_shuffled m c c' t1 SC H) as (t2 & -> & S). exists t2. split; [reflexivity|apply shuffled_read, S].
Qed.
Print Assumptions C131_chain.

(** The regions of [land] from last to first: the edges have other numbers, before and after clipping. *)
Example C131_case : Permutation land (rev land) /\
  exists t, build_topology Debug (rev land) = Ok t /\ shuffled land_topology t /\
    tp_edges t <> tp_edges land_topology /\ map tg_data (tp_regions t) = [3; 2; 1] /\
    exists t', clip_topology Debug t (MinY 5) = Ok t' /\ shuffled clipped_land t' /\
      map te_points (tp_edges t') <> map te_points (tp_edges clipped_land) /\ map tg_data (tp_regions t') = [2; 1].
Proof.
  split; [apply Permutation_rev|]. destruct land_ok as (E1 & E2 & _).
  destruct (C131_build Z Debug land (rev land) land_topology (Permutation_rev land) E1) as (t & Et & S).
  exists t. split; [exact Et|]. split; [exact S|].
  destruct (C131_clip Z Debug (MinY 5) land_topology t clipped_land S E2) as (t' & Et' & S').
  assert (V : exists v, build_topology Debug (rev land) = Ok v /\ tp_edges v <> tp_edges land_topology /\ map tg_data (tp_regions v) = [3; 2; 1]).
  { eexists. split; [vm_compute; reflexivity|]. split; [vm_compute; discriminate|reflexivity]. }
  destruct V as (v & Ev & V1 & V2). assert (t = v) by congruence. subst v. split; [exact V1|]. split; [exact V2|].
  exists t'. split; [exact Et'|]. split; [exact S'|].
  assert (W : exists w, (t <- build_topology Debug (rev land) ;; clip_topology Debug t (MinY 5)) = Ok w /\
    map te_points (tp_edges w) <> map te_points (tp_edges clipped_land) /\ map tg_data (tp_regions w) = [2; 1]).
  { eexists. split; [vm_compute; reflexivity|]. split; [vm_compute; discriminate|reflexivity]. }
  destruct W as (w & Ew & W1 & W2). rewrite Et in Ew. cbn [bind] in Ew. assert (t' = w) by congruence. subst w. auto.
Qed.
