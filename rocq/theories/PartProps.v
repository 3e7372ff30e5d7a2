(** * PartProps: C132, unrelated parts of a map *)
From Coq Require Import Permutation.
From Verif Require Import PartSpec PartProofs PartClip BuildProofs ClipTopoProps.
From Verif Require Import Normalize Simplify Clip.
Open Scope Z_scope.

(** ** C132: regions without common paths do not influence each other *)

(** Building: some regions alone give the part of the topology that belongs to them. *)
Theorem C132_build : forall D m (rs1 rs2 rs : list (region D)) t, unrelated rs1 rs2 -> Permutation (rs1 ++ rs2) rs ->
  build_topology m rs = Ok t -> exists t1, build_topology m rs1 = Ok t1 /\ part_of t t1.
Proof. exact @build_part. Qed.
Print Assumptions C132_build.

(** If both parts can be built, so can the whole, and it has no other edges. *)
Theorem C132_union : forall D m (rs1 rs2 : list (region D)) t1 t2, unrelated rs1 rs2 ->
  build_topology m rs1 = Ok t1 -> build_topology m rs2 = Ok t2 ->
  exists t, build_topology m (rs1 ++ rs2) = Ok t /\ read_topology t = read_topology t1 ++ read_topology t2 /\
    map te_points (tp_edges t) = map te_points (tp_edges t1) ++ map te_points (tp_edges t2).
Proof.
  intros D m rs1 rs2 t1 t2 U H1 H2. destruct (build_union m rs1 rs2 t1 t2 U H1 H2) as (t & H). exists t. split; [exact H|]. split.
  - rewrite (build_read m _ t H), (build_read m _ t1 H1), (build_read m _ t2 H2). unfold expected. apply flat_map_app.
  - exact (build_edges_union m rs1 rs2 t t1 t2 U H H1 H2).
Qed.
Print Assumptions C132_union.

(** Normalizing a part of a topology: it succeeds if it does for the whole, and every region becomes the same. *)
Theorem C132_normalize : forall D m (t part n : topology D) p s, exact_references t -> exact_references part -> is_part p s t part ->
  normalize m t = Ok n -> exists n', normalize m part = Ok n' /\
    exists f f', becomes t n f /\ becomes part n' f' /\ forall i, (i < length (tp_regions part))%nat -> f' i = f (p i).
Proof. exact @normalize_part. Qed.
Print Assumptions C132_normalize.

(** For regions: normalized alone, they have the shapes that they have in the normalized map. *)
Theorem C132_together : forall D m (rs1 rs2 rs : list (region D)) t n, unrelated rs1 rs2 -> Permutation (rs1 ++ rs2) rs ->
  build_topology m rs = Ok t -> normalize m t = Ok n ->
  exists t1 n1 rest, build_topology m rs1 = Ok t1 /\ normalize m t1 = Ok n1 /\ Permutation (read_topology n1 ++ rest) (read_topology n).
Proof.
  intros D m rs1 rs2 rs t n U P H N. destruct (build_part m rs1 rs2 rs t U P H) as (t1 & H1 & (X & X1 & p & s & I)).
  destruct (normalize_part m t t1 n p s X X1 I N) as (n1 & N1 & f & f' & (F & _) & (F' & _) & E).
  destruct (pick_rest (map p (seq 0 (length (tp_regions t1)))) (seq 0 (length (tp_regions t)))) as (r & Q).
  - apply Injective_map_NoDup; [apply I|apply seq_NoDup].
  - intros x Hx. apply in_map_iff in Hx as (i & <- & Hi). apply in_seq in Hi. apply in_seq. destruct I as (_ & _ & G & _).
    destruct (nth_error (tp_regions t1) i) as [g|] eqn:Eg; [|apply nth_error_None in Eg; lia]. destruct (G i g Eg) as (g' & G' & _).
    assert (p i < length (tp_regions t))%nat by (apply nth_error_Some; congruence). lia.
  - exists t1, n1, (flat_map f r). split; [exact H1|]. split; [exact N1|]. rewrite F, F'.
    apply (Permutation_flat_map f) in Q. rewrite flat_map_app in Q. rewrite <- Q. apply Permutation_app_tail.
    rewrite !flat_map_concat_map, map_map. erewrite map_ext_in; [apply Permutation_refl|]. intros i Hi. apply in_seq in Hi. apply E. lia.
Qed.
Print Assumptions C132_together.

(** Clipping a part, whatever edges the mask line adds. *)
Theorem C132_clip : forall D m k (t part t' : topology D) p s, exact_references part -> is_part p s t part ->
  clip_topology m t k = Ok t' -> exists part', clip_topology m part k = Ok part' /\
    exists f f', becomes t t' f /\ becomes part part' f' /\ forall i, (i < length (tp_regions part))%nat -> f' i = f (p i).
Proof. exact @clip_part. Qed.
Print Assumptions C132_clip.

Theorem C132_simplify : forall D m threshold (t part t' : topology D), part_of t part -> simplify m t threshold = Ok t' ->
  exists part', simplify m part threshold = Ok part' /\ part_of t' part'.
Proof. exact @simplify_part. Qed.
Print Assumptions C132_simplify.

(** The two squares of [land] and its triangle have no common paths; the squares have, and the first one is
    normalized to two edges next to the other one, but to one edge alone. *)
Definition normal_edges (rs : list (region Z)) : list nat :=
  match (t <- build_topology Debug rs ;; normalize Debug t) with Ok n => map (fun s => length (concat (s_outer s))) (read_topology n) | Panic _ => [] end.
Definition cut_shapes (rs : list (region Z)) : list (shape Z) :=
  match (t <- build_topology Debug rs ;; clip_topology Debug t (MaxX 12)) with Ok n => read_topology n | Panic _ => [] end.
Example C132_case :
  cut_shapes land = cut_shapes (firstn 2 land) ++ cut_shapes (skipn 2 land) /\ map (fun s => length (s_outer s)) (cut_shapes (firstn 2 land)) = [1; 1]%nat /\
  unrelated (firstn 2 land) (skipn 2 land) /\ ~ unrelated (firstn 1 land) (skipn 1 land) /\
  normal_edges land = [2; 2; 1]%nat /\ normal_edges (firstn 2 land) = [2; 2]%nat /\ normal_edges (firstn 1 land) = [1]%nat.
Proof.
  split; [vm_compute; reflexivity|]. split; [vm_compute; reflexivity|]. split; [|split; [|vm_compute; auto]].
  - assert (F : forallb (fun o => match o with Some p => forallb (fun o' => match o' with Some q => negb (path_eqb q p) && negb (path_eqb q (rev p)) | None => true end)
      (all_paths (expected (skipn 2 land))) | None => true end) (all_paths (expected (firstn 2 land))) = true) by (vm_compute; reflexivity).
    intros p q Hp Hq. rewrite forallb_forall in F. specialize (F _ Hp). cbn beta iota in F. rewrite forallb_forall in F. specialize (F _ Hq). cbn beta iota in F.
    apply andb_prop in F as (F1 & F2). destruct (path_eqb_spec q p); [discriminate|]. destruct (path_eqb_spec q (rev p)); [discriminate|]. auto.
  - intros U. destruct (U [Pt 10 0; Pt 10 10] [Pt 10 10; Pt 10 0]) as (_ & N).
    + vm_compute. tauto.
    + vm_compute. tauto.
    + apply N. reflexivity.
Qed.
