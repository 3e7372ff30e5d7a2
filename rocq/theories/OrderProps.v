(** * OrderProps: C102, a topology is determined by the shapes it is built from *)
From Verif Require Import OrderSpec OrderProofs BuildProps.

(** ** C102: the edges are numbered in the order of their first use, and nothing else matters *)
Theorem C102_order : forall D m (rs : list (region D)) t, build_topology m rs = Ok t ->
  map te_points (tp_edges t) = distinct (stored_forms (read_topology t)).
Proof. exact @build_order. Qed.
Print Assumptions C102_order.

(** Built topologies with the same shapes are the same, numbers and references included. *)
Theorem C102_determined : forall D m m' (rs rs' : list (region D)) t t',
  build_topology m rs = Ok t -> build_topology m' rs' = Ok t' -> read_topology t = read_topology t' -> t = t'.
Proof. exact @same_build. Qed.
Print Assumptions C102_determined.

(** So it does not matter whether a ring is given by points or by its segments, or where there are
    paths without length. *)
Theorem C102_same_paths : forall D (rs rs' : list (region D)), Forall2 same_region rs rs' ->
  build_topology Release rs = build_topology Release rs' /\
  forall m m' t t', build_topology m rs = Ok t -> build_topology m' rs' = Ok t' -> t = t'.
Proof.
  intros D rs rs' H. apply same_expected in H. split; [rewrite !build_release, H; reflexivity|].
  intros m m' t t' E E'. apply build_blueprint in E, E'. congruence.
Qed.
Print Assumptions C102_same_paths.

(** The sample with segments instead of points, and a loop without length. *)
Definition sample_edges : list (region Z) :=
  map (fun g => Region (rg_data g) (map (fun r => REdges ([Pt 7 7; Pt 7 7] :: paths r)) (rg_outer g)) (map (fun r => REdges (paths r)) (rg_inner g))) sample.
Example C102_case : Forall2 same_region sample sample_edges /\
  (exists t, build_topology Debug sample = Ok t /\ build_topology Debug sample_edges = Ok t) /\
  distinct [[Pt 1 1]; [Pt 2 2]; [Pt 1 1]; [Pt 0 0]; [Pt 2 2]] = [[Pt 1 1]; [Pt 2 2]; [Pt 0 0]].
Proof.
  split; [|split; [eexists; split|]; vm_compute; reflexivity].
  unfold sample_edges, sample. cbn [map]. repeat (constructor; [split; [reflexivity|]; cbn [rg_outer rg_inner map]; split; repeat (constructor; [vm_compute; reflexivity|]); constructor|]). constructor.
Qed.
