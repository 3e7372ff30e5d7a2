(** * SimplifyWeightProps: C94 and C95, the points simplification keeps *)
From Verif Require Import ClipTopoSpec Simplify SimplifySpec GeoProofs TopoProofs BuildProofs ClipEdgeProofs SimplifyProofs SimplifyLaws SimplifyHeap SimplifyWeights.

(** ** C94: what decides whether a point is kept *)
Theorem C94_kept : forall m ps thr r, thr <= 2 ^ 64 - 1 -> simplify_edge m ps thr = Ok r ->
  exists ws, length ws = length ps /\
    (forall i, (0 < i < length ps - 1)%nat -> final_weight m ps thr ws i) /\
    nth_error ws 0 = Some (2 ^ 64 - 1) /\ nth_error ws (length ps - 1) = Some (2 ^ 64 - 1) /\
    (~ is_closed ps \/ (4 <= length (kept_by ps ws thr))%nat -> r = kept_by ps ws thr) /\
    (is_closed ps -> (length (kept_by ps ws thr) < 4)%nat -> best_two ps ws r).
Proof.
  intros m ps thr r Ht E. destruct (edge_ok_dec ps) as [HE|HE]; [|rewrite simplify_edge_rejects in E by exact HE; discriminate].
  exact (simplify_weights m ps thr r HE Ht E).
Qed.
Print Assumptions C94_kept.

(** An open edge losing two of its points, and a ring brought back to four points. *)
Example C94_case :
  simplify_edge Debug [Pt 0 0; Pt 1 5; Pt 2 0; Pt 3 1; Pt 4 0; Pt 5 5; Pt 6 0] 5 = Ok [Pt 0 0; Pt 1 5; Pt 4 0; Pt 5 5; Pt 6 0] /\
  simplify_edge Debug [Pt 3 3; Pt 4 3; Pt 5 3; Pt 5 4; Pt 4 5; Pt 3 4; Pt 3 3] (2 ^ 64 - 1) = Ok [Pt 3 3; Pt 5 3; Pt 5 4; Pt 3 3].
Proof. vm_compute. auto. Qed.

(** ** C95: no remaining point is below the threshold *)
Theorem C95_settled_refuted : exists ps thr r, wf_points ps /\ ~ is_closed ps /\
  simplify_edge Debug ps thr = Ok r /\ ~ settled Debug thr r.
Proof.
  exists [Pt 1 4; Pt 5 6; Pt 6 5; Pt 5 0; Pt 1 2], 29, [Pt 1 4; Pt 5 0; Pt 1 2].
  split; [repeat constructor; vm_compute; intuition congruence|]. split; [intros [_ H]; discriminate|]. split; [vm_compute; reflexivity|].
  intros H. destruct (H (Pt 1 4) (Pt 5 0) (Pt 1 2) [] [] eq_refl) as (w & Ew & Hw). vm_compute in Ew. injection Ew as <-. apply Hw. reflexivity.
Qed.
Print Assumptions C95_settled_refuted.

(** With at most two interior points it holds. *)
Theorem C95_few_partial : forall m ps thr r, thr <= 2 ^ 64 - 1 -> (length ps <= 4)%nat -> ~ is_closed ps ->
  simplify_edge m ps thr = Ok r -> settled m thr r.
Proof. intros m ps thr r Ht HL Hc E. exact (few_settled m ps thr r HL Hc Ht E). Qed.
Print Assumptions C95_few_partial.

Example C95_case : simplify_edge Debug [Pt 0 0; Pt 1 5; Pt 2 4; Pt 9 0] 11 = Ok [Pt 0 0; Pt 1 5; Pt 9 0] /\
  weight2 Debug (Pt 0 0) (Pt 1 5) (Pt 9 0) = Ok 45.
Proof. vm_compute. auto. Qed.
