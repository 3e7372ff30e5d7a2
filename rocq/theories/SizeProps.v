(** * SizeProps: C121 *)
From Verif Require Import Simplify NormProps ClipStepsProps CrossProps TopoProofs BuildProofs NormProofs NormTopo NormReturn NormLaws ComposeLaws ClipEdgeProofs SizeProofs.
Local Open Scope nat_scope.

(** ** C121: results are not much larger than inputs *)

(** Sizes are counted in edges, in uses of edges by rings, and in line segments. *)
Theorem C121_build : forall D m (rs : list (region D)) t, build_topology m rs = Ok t ->
  n_edges t <= n_uses t /\ n_uses t <= length (input_paths rs) /\
  size t <= used_size t /\ used_size t <= n_segments (input_paths rs).
Proof.
  intros D m rs t B. destruct (build_size (fun _ => 1) m rs t (fun _ => eq_refl) B) as [A1 A2]. destruct (build_size n_segs m rs t n_segs_rev B) as [B1 B2].
  rewrite (built_uses m rs t B), used_size_eq, size_eq, n_edges_eq, n_segments_total, <- (total_1 (input_paths rs)). auto.
Qed.
Print Assumptions C121_build.

Theorem C121_normalize : forall D m (t t' : topology D), valid t -> normalize m t = Ok t' ->
  n_edges t' <= n_uses t' /\ n_uses t' <= n_uses t /\ size t' <= used_size t' /\ used_size t' <= used_size t.
Proof.
  intros D m t t' V H.
  assert (J : forall run : list norm_edge, run <> [] -> 1 <= total (ne_val (fun _ => 1)) run).
  { intros [|e run] N; [congruence|]. rewrite total_cons. unfold ne_val at 1. lia. }
  destruct (normalize_size (fun _ => 1) (fun _ => eq_refl) (fun _ _ _ => eq_refl) J m t t' V H) as [A1 A2].
  destruct (normalize_size n_segs n_segs_rev same_length_segs walk_segs m t t' V H) as [B1 B2].
  assert (E : n_uses t' = used (fun _ => 1) t') by (apply normalize_Ok in H as (gs & _ & B); exact (built_uses m gs t' B)).
  rewrite (n_uses_used t (proj1 V)), E, !used_size_eq, size_eq, n_edges_eq. auto.
Qed.
Print Assumptions C121_normalize.

Theorem C121_simplify : forall D m (t t' : topology D) thr, (thr <= 2 ^ 64 - 1)%Z -> simplify m t thr = Ok t' ->
  n_edges t' = n_edges t /\ n_uses t' = n_uses t /\ size t' <= size t /\ used_size t' <= used_size t.
Proof. intros D m t t' thr. apply simplify_size. Qed.
Print Assumptions C121_simplify.

(** Each edge becomes at most half as long again; each use of an edge by a ring needs at most one
    new edge. *)
Theorem C121_clip : forall D m k (t t' : topology D), clip_topology m t k = Ok t' ->
  n_edges t' <= n_edges t + n_uses t /\ n_uses t' <= 2 * n_uses t /\ 2 * size t' <= 3 * size t + 2 * n_uses t.
Proof. intros D m k t t' H. destruct (clip_size m k t t' H) as [A B]. pose proof (clip_uses m k t t' H). auto. Qed.
Print Assumptions C121_clip.

Theorem C121_clip_edge : forall m k ps c, clip_edge m k ps = Ok c -> 2 * length (segments c) <= 3 * length (segments ps).
Proof. intros m k ps c H. apply clip_edge_path in H. subst c. apply clip_path_size. Qed.
Print Assumptions C121_clip_edge.

(** Where at most two rings use an edge (as in all results, see C13, C29 and C76), the numbers are within
    a factor of two of each other. *)
Theorem C121_uses : forall D (t : topology D), exact_references t -> n_uses t <= 2 * n_edges t /\ used_size t <= 2 * size t.
Proof.
  intros D t R. rewrite (n_uses_used t R), used_size_eq, size_eq, n_edges_eq. split; [exact (references_size (fun _ => 1) t R)|exact (references_size n_segs t R)].
Qed.
Print Assumptions C121_uses.

(** 20 sides of five squares make 14 edges, used 20 times; normalized, they are 4 edges of 13 segments. *)
Example C121_case : build_topology Debug quilt = Ok (built quilt) /\
  normalize Debug (built quilt) = Ok (normalized (built quilt)) /\
  (length (input_paths quilt), n_segments (input_paths quilt)) = (20, 20) /\
  (n_edges (built quilt), n_uses (built quilt), size (built quilt), used_size (built quilt)) = (14, 20, 14, 20) /\
  (n_edges (normalized (built quilt)), n_uses (normalized (built quilt)), size (normalized (built quilt)), used_size (normalized (built quilt))) = (4, 6, 13, 18).
Proof. repeat (split; [vm_compute; reflexivity|]). vm_compute. reflexivity. Qed.

(** The bound for clipped edges is reached: an edge that leaves and enters again. *)
Example C121_clip_case : clip_edge Debug (MinX 10) [Pt 20 0; Pt 0 5; Pt 20 10] = Ok [Pt 20 0; Pt 10 2; Pt 10 7; Pt 20 10] /\
  2 * length (segments [Pt 20 0; Pt 10 2; Pt 10 7; Pt 20 10]) = 3 * length (segments [Pt 20 0; Pt 0 5; Pt 20 10]) /\
  clip_topology Debug wedge (MinX 4) = Ok (clipped (MinX 4) wedge) /\
  (n_edges wedge, n_uses wedge, size wedge) = (3, 3, 3) /\
  (n_edges (clipped (MinX 4) wedge), n_uses (clipped (MinX 4) wedge), size (clipped (MinX 4) wedge)) = (3, 3, 3).
Proof. repeat (split; [vm_compute; reflexivity|]). vm_compute. reflexivity. Qed.

(** Two of three edges are simplified to one segment. *)
Definition teeth : topology Z :=
  built [Region 1%Z [REdges [[Pt 20 0; Pt 0 5; Pt 20 10]; [Pt 20 10; Pt 0 15; Pt 20 20]; [Pt 20 20; Pt 30 10; Pt 20 0]]] []].
Example C121_simplify_case : simplify Debug teeth 1000%Z = Ok (simplified teeth 1000) /\
  (n_edges teeth, n_uses teeth, size teeth) = (3, 3, 6) /\
  (n_edges (simplified teeth 1000), n_uses (simplified teeth 1000), size (simplified teeth 1000)) = (3, 3, 4).
Proof. repeat (split; [vm_compute; reflexivity|]). vm_compute. reflexivity. Qed.
