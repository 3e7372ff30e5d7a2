(** * BuildFrameProps: C103, building does not depend on the frame *)
From Verif Require Import BuildFrameSpec BuildFrame BuildProps.

(** ** C103: building from moved regions gives the moved topology *)
Theorem C103_shapes : forall D m m' f (rs : list (region D)) t s, Forall closed_region rs ->
  build_topology m rs = Ok t -> build_topology m' (map (moved_region f) rs) = Ok s ->
  read_topology s = map (moved_shape f) (read_topology t).
Proof. exact @build_moved_read. Qed.
Print Assumptions C103_shapes.

(** Edges have the same numbers and the same users; only their directions may differ. *)
Theorem C103_parts : forall D m m' f (rs : list (region D)) t s, Forall closed_region rs ->
  build_topology m rs = Ok t -> build_topology m' (map (moved_region f) rs) = Ok s -> same_parts f t s.
Proof. exact @build_moved_parts. Qed.
Print Assumptions C103_parts.

(** After a shift nothing differs. *)
Theorem C103_shift : forall D m m' x y (rs : list (region D)) t s, Forall closed_region rs ->
  build_topology m rs = Ok t -> build_topology m' (map (moved_region (shifted x y)) rs) = Ok s -> s = moved_topology (shifted x y) t.
Proof. exact @build_shifted. Qed.
Print Assumptions C103_shift.

(** The release build returns for both or for neither. *)
Theorem C103_returns : forall D m f (rs : list (region D)) t, Forall closed_region rs -> build_topology m rs = Ok t ->
  exists s, build_topology Release (map (moved_region f) rs) = Ok s.
Proof. exact @build_moved_returns. Qed.
Print Assumptions C103_returns.

(** The sample, turned upside down: the directions of edges do differ. *)
Definition upside_down : frame := Frame true true true 100 50.
Example C103_case : Forall closed_region sample /\ exists t s,
  build_topology Debug sample = Ok t /\ build_topology Debug (map (moved_region upside_down) sample) = Ok s /\
  s <> moved_topology upside_down t /\ read_topology s = map (moved_shape upside_down) (read_topology t).
Proof.
  split.
  - assert (HP : forall ps, ps <> [] -> first ps = final ps -> closed_ring (RPoints ps)) by (intros ps H1 H2; split; assumption).
    unfold sample, closed_region, sq.
    repeat lazymatch goal with
      | |- Forall _ (_ :: _) => constructor; cbn [rg_outer rg_inner app]
      | |- Forall _ [] => constructor
      | |- closed_ring (RPoints _) => apply HP; [discriminate|reflexivity]
      end.
    exists (Pt 12 2). cbn. eauto 10.
  - eexists _, _. split; [vm_compute; reflexivity|]. split; [vm_compute; reflexivity|]. split; [intros E; vm_compute in E; discriminate E|vm_compute; reflexivity].
Qed.

(** For rings that are not closed this does not hold: a path along an axis has an area only away
    from it. *)
Example C103_open_case : let rs := [Region 1 [REdges [[Pt 0 0; Pt 10 0]]] []] in
  (exists t, build_topology Debug rs = Ok t /\ tp_regions t = []) /\
  exists s, build_topology Debug (map (moved_region (shifted 0 10)) rs) = Ok s /\ length (tp_regions s) = 1%nat.
Proof. split; eexists; split; vm_compute; reflexivity. Qed.
