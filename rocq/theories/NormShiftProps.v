(** * NormShiftProps: C109, normalizing a shifted map *)
From Verif Require Import BuildFrameSpec BuildFrame NormTopo NormShift CheckedSpec CheckedProps NormProps.

(** ** C109: normalizing a shifted topology is shifting the normalized topology *)

(** The release build returns the shifted topology or panics alike. *)
Theorem C109_release : forall D x y (t : topology D), valid t ->
  (forall t', normalize Release t = Ok t' -> normalize Release (moved_topology (shifted x y) t) = Ok (moved_topology (shifted x y) t')) /\
  (forall p, normalize Release t = Panic p -> normalize Release (moved_topology (shifted x y) t) = Panic p).
Proof. intros D x y t V. rewrite (normalize_f x y t V). split; intros ? ->; reflexivity. Qed.
Print Assumptions C109_release.

(** So do other builds whenever they return. *)
Theorem C109_returned : forall D m m' x y (t t' s : topology D), valid t ->
  normalize m t = Ok t' -> normalize m' (moved_topology (shifted x y) t) = Ok s -> s = moved_topology (shifted x y) t'.
Proof.
  intros D m m' x y t t' s V H H'.
  assert (R : forall m0 (a b : topology D), normalize m0 a = Ok b -> normalize Release a = Ok b).
  { intros [] a b E; [|exact E]. destruct (C105_normalize D a) as [X|X]; congruence. }
  apply R in H, H'. rewrite (normalize_f x y t V), H in H'. injection H' as <-. reflexivity.
Qed.
Print Assumptions C109_returned.

(** From regions to a normalized topology. *)
Theorem C109_regions : forall D m x y (rs : list (region D)) t t', Forall closed_region rs ->
  build_topology m rs = Ok t -> normalize m t = Ok t' ->
  exists s, build_topology Release (map (moved_region (shifted x y)) rs) = Ok s /\ normalize Release s = Ok (moved_topology (shifted x y) t').
Proof.
  intros D m x y rs t t' Hc Hb Hn. destruct (build_moved_returns m (shifted x y) rs t Hc Hb) as (s & E). exists s. split; [exact E|].
  rewrite (build_shifted m Release x y rs t s Hc Hb E).
  assert (V : valid t).
  { apply (built_valid m rs); [|exact Hb]. intros g r Hg Hr. rewrite Forall_forall in Hc. specialize (Hc g Hg). unfold closed_region in Hc. rewrite Forall_forall in Hc. exact (Hc r Hr). }
  apply C109_release; [exact V|]. destruct m; [|exact Hn]. destruct (C105_normalize D t) as [X|X]; congruence.
Qed.
Print Assumptions C109_regions.

(** The quilt shifted; reflected, its rings would start elsewhere. *)
Example C109_case : valid (built quilt) /\
  normalize Debug (moved_topology (shifted 7 9) (built quilt)) = Ok (moved_topology (shifted 7 9) (normalized (built quilt))) /\
  (let f := Frame false true false 100 0 in exists s, normalize Debug (moved_topology f (built quilt)) = Ok s /\
    read_topology s <> map (moved_shape f) (read_topology (normalized (built quilt)))).
Proof.
  split; [exact quilt_valid|]. split; [vm_compute; reflexivity|]. eexists. split; [vm_compute; reflexivity|]. intros E. vm_compute in E. discriminate E.
Qed.

(** A region whose merged rings meet at a point: both maps panic. *)
Example C109_panic_case : valid (built kites) /\ normalize Release (built kites) = Panic PExplicit /\
  normalize Release (moved_topology (shifted 7 9) (built kites)) = Panic PExplicit.
Proof. split; [apply C72_case|]. split; [apply C72_case|vm_compute; reflexivity]. Qed.
