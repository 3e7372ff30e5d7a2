(** * SimplifyOrderProps: C98 and C99, simplifying by two thresholds and twice *)
From Verif Require Import ClipTopoSpec Simplify SimplifySpec SimplifyProofs SimplifyLaws SimplifyHeap SimplifyWeights SimplifyOrder.

(** ** C98: a larger threshold keeps no more points *)
Theorem C98_fewer_refuted : exists ps t1 t2 r1 r2, wf_points ps /\ NoDup ps /\ ~ is_closed ps /\ t1 < t2 /\
  simplify_edge Debug ps t1 = Ok r1 /\ simplify_edge Debug ps t2 = Ok r2 /\ (length r1 < length r2)%nat.
Proof.
  exists [Pt 11 2; Pt 3 4; Pt 10 11; Pt 6 11; Pt 11 1; Pt 7 11; Pt 2 5], 258, 396, [Pt 11 2; Pt 3 4; Pt 2 5], [Pt 11 2; Pt 10 11; Pt 7 11; Pt 2 5].
  split; [repeat constructor; vm_compute; intuition congruence|]. split; [repeat constructor; cbn [In]; intuition congruence|].
  split; [intros [_ H]; discriminate|]. split; [reflexivity|]. split; [vm_compute; reflexivity|]. split; [vm_compute; reflexivity|]. cbn [length]. repeat constructor.
Qed.
Print Assumptions C98_fewer_refuted.

(** With at most two interior points it holds: the larger threshold's points are among the
    smaller one's. *)
Theorem C98_few_partial : forall m ps t1 t2 r1 r2, (length ps <= 4)%nat -> ~ is_closed ps -> t1 <= t2 -> t2 <= 2 ^ 64 - 1 ->
  simplify_edge m ps t1 = Ok r1 -> simplify_edge m ps t2 = Ok r2 -> subseq r2 r1.
Proof. exact few_fewer. Qed.
Print Assumptions C98_few_partial.

(** In general both thresholds remove points in the same order, and the larger one goes on
    where the smaller one stopped.  The points left then have to reach the threshold with their
    neighbours. *)
Theorem C98_order_partial : forall m ps t1 t2 r1 r2, t1 <= t2 -> t2 <= 2 ^ 64 - 1 ->
  simplify_edge m ps t1 = Ok r1 -> simplify_edge m ps t2 = Ok r2 ->
  exists gone more, NoDup (gone ++ more) /\ (forall i, In i (gone ++ more) -> (0 < i < length ps - 1)%nat) /\
    (~ is_closed ps \/ (4 < length r1)%nat -> left_by m ps gone t1 r1) /\
    (~ is_closed ps \/ (4 < length r2)%nat -> left_by m ps (gone ++ more) t2 r2).
Proof. exact simplify_further. Qed.
Print Assumptions C98_order_partial.

Example C98_case :
  simplify_edge Release [Pt 0 0; Pt 1 5; Pt 2 0; Pt 3 1; Pt 4 0; Pt 5 5; Pt 6 0] 5 = Ok [Pt 0 0; Pt 1 5; Pt 4 0; Pt 5 5; Pt 6 0] /\
  simplify_edge Release [Pt 0 0; Pt 1 5; Pt 2 0; Pt 3 1; Pt 4 0; Pt 5 5; Pt 6 0] 30 = Ok [Pt 0 0; Pt 1 5; Pt 6 0] /\
  left_by Release [Pt 0 0; Pt 1 5; Pt 2 0; Pt 3 1; Pt 4 0; Pt 5 5; Pt 6 0] [2; 3]%nat 5 [Pt 0 0; Pt 1 5; Pt 4 0; Pt 5 5; Pt 6 0].
Proof.
  split; [vm_compute; reflexivity|]. split; [vm_compute; reflexivity|]. exists (fun _ => true). split; [reflexivity|]. split; [reflexivity|]. split; [reflexivity|].
  intros A j i k B E. vm_compute in E.
  do 3 (destruct A as [|x A]; [injection E as <- <- <- <-; vm_compute; eexists; split; reflexivity|injection E as <- E]).
  apply (f_equal (@length _)) in E. rewrite app_length in E. cbn in E. rewrite !Nat.add_succ_r in E. discriminate.
Qed.

(** ** C99: simplifying twice by the same threshold is simplifying once *)
Theorem C99_twice_refuted : exists ps thr r r', wf_points ps /\ NoDup ps /\ ~ is_closed ps /\
  simplify_edge Debug ps thr = Ok r /\ simplify_edge Debug r thr = Ok r' /\ (length r' < length r)%nat.
Proof.
  exists [Pt 1 4; Pt 5 6; Pt 6 5; Pt 5 0; Pt 1 2], 29, [Pt 1 4; Pt 5 0; Pt 1 2], [Pt 1 4; Pt 1 2].
  split; [repeat constructor; vm_compute; intuition congruence|]. split; [repeat constructor; cbn [In]; intuition congruence|].
  split; [intros [_ H]; discriminate|]. split; [vm_compute; reflexivity|]. split; [vm_compute; reflexivity|]. repeat constructor.
Qed.
Print Assumptions C99_twice_refuted.

(** It holds exactly for the results in which every interior point reaches the threshold. *)
Theorem C99_iff_partial : forall m ps thr r, 0 <= thr <= 2 ^ 64 - 1 -> ~ is_closed ps -> simplify_edge m ps thr = Ok r ->
  (simplify_edge m r thr = Ok r <-> settled m thr r).
Proof. exact again_iff. Qed.
Print Assumptions C99_iff_partial.

(** Such rings stay as they are, too. *)
Theorem C99_settled_partial : forall m thr r, (2 <= length r)%nat -> (is_closed r -> (4 <= length r)%nat) -> 0 <= thr <= 2 ^ 64 - 1 ->
  settled m thr r -> simplify_edge m r thr = Ok r.
Proof. intros m thr r H2 H4. exact (settled_stays m thr r (conj H2 H4)). Qed.
Print Assumptions C99_settled_partial.

Example C99_case :
  simplify_edge Debug [Pt 0 0; Pt 1 5; Pt 2 4; Pt 9 0] 11 = Ok [Pt 0 0; Pt 1 5; Pt 9 0] /\
  simplify_edge Debug [Pt 0 0; Pt 1 5; Pt 9 0] 11 = Ok [Pt 0 0; Pt 1 5; Pt 9 0] /\
  simplify_edge Debug [Pt 1 1; Pt 9 1; Pt 9 9; Pt 1 9; Pt 1 1] 64 = Ok [Pt 1 1; Pt 9 1; Pt 9 9; Pt 1 9; Pt 1 1].
Proof. vm_compute. auto. Qed.
