(** * CostProps: C124 *)
From Verif Require Import Simplify TopoProofs BuildProofs SimplifyProofs SimplifyHeap CostSpec CostProofs.
Local Open Scope nat_scope.

(** ** C124: simplifying takes about n log n steps *)

(** Counting steps changes nothing: the counting functions return, and panic, like those of the model. *)
Theorem C124_same : forall m ps thr, erase (simplify_edge_c m ps thr) = simplify_edge m ps thr.
Proof. exact simplify_edge_erase. Qed.
Print Assumptions C124_same.

Theorem C124_edge : forall m ps thr r, simplify_edge m ps thr = Ok r ->
  exists n, simplify_edge_c m ps thr = Ok (r, n) /\ n <= length ps * (4 * Nat.log2 (length ps) + 5).
Proof.
  intros m ps thr r E. rewrite <- simplify_edge_erase in E. unfold erase in E. destruct (simplify_edge_c m ps thr) as [[r' n]|] eqn:X; [|discriminate]. cbn in E. injection E as ->.
  exists n. split; [reflexivity|]. exact (simplify_edge_cost _ _ _ _ _ X).
Qed.
Print Assumptions C124_edge.

(** All edges of a topology, with [n] points in all. *)
Theorem C124_topology : forall D m (t t' : topology D) thr, simplify m t thr = Ok t' ->
  let n := length (concat (map te_points (tp_edges t))) in
  exists steps, simplify_all_c m (map te_points (tp_edges t)) thr = Ok (map te_points (tp_edges t'), steps) /\
    steps <= n * (4 * Nat.log2 n + 5).
Proof.
  intros D m t t' thr E n. unfold simplify in E.
  destruct (mmap _ (tp_edges t)) as [es|] eqn:Em; [|discriminate]. cbn [bind] in E. injection E as <-. cbn [tp_edges].
  assert (X : mmap (fun ps => simplify_edge m ps thr) (map te_points (tp_edges t)) = Ok (map te_points es)).
  { clear n. revert es Em. induction (tp_edges t) as [|e l IH]; intros es Em; cbn [mmap map] in *; [injection Em as <-; reflexivity|].
    destruct (simplify_edge m (te_points e) thr) as [ps|]; [|discriminate]. cbn [bind] in *. destruct (mmap _ l) as [es'|]; [|discriminate]. cbn [bind] in Em. injection Em as <-. rewrite (IH es' eq_refl). reflexivity. }
  rewrite <- simplify_all_erase in X. unfold erase in X. destruct (simplify_all_c m (map te_points (tp_edges t)) thr) as [[rs k]|] eqn:Y; [|discriminate]. cbn in X. injection X as ->.
  exists k. split; [reflexivity|]. apply simplify_all_cost in Y. eapply Nat.le_trans; [exact Y|]. unfold n. clear. induction (map te_points (tp_edges t)) as [|e l IH]; [cbn; lia|].
  cbn [fold_right concat]. rewrite app_length. pose proof (Nat.log2_le_mono (length e) (length e + length (concat l)) ltac:(lia)). pose proof (Nat.log2_le_mono (length (concat l)) (length e + length (concat l)) ltac:(lia)). nia.
Qed.
Print Assumptions C124_topology.

(** The loops of [sift_down] and [sift_up] go around at most as often as the heap has levels. *)
Theorem C124_sift : forall fuel h start end_ h' n, sift_down_c fuel h start start end_ = Ok (h', n) -> n <= Nat.log2 (end_ + 1).
Proof. intros fuel h start end_ h' n E. apply log_bound; [lia|]. destruct (sift_down_cost _ _ _ _ _ _ _ E) as [-> |X]; [auto|]. right. nia. Qed.
Print Assumptions C124_sift.

Definition zigzag (n : nat) : list point := map (fun i => Pt (10 * Z.of_nat i)%Z (Z.of_nat (i * i * 7 mod 31))) (seq 0 n).
Example C124_case : exists r, simplify_edge_c Debug (zigzag 40) 100000000 = Ok (r, 348) /\ length r = 2 /\ 40 * (4 * Nat.log2 40 + 5) = 1000.
Proof. eexists. split; [vm_compute; reflexivity|]. split; reflexivity. Qed.
