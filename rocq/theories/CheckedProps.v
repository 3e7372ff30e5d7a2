(** * CheckedProps: C105, overflow checks only turn answers into panics *)
From Verif Require Import CheckedSpec Checked BuildProps.

(** ** C105: a debug build gives the answer of the release build or reports an overflow *)
Theorem C105_areas : forall (r : ring) (ps : list point),
  agrees (ring_area2_and_winding Debug r) (ring_area2_and_winding Release r) /\
  agrees (pts_area2_and_winding Debug ps) (pts_area2_and_winding Release ps).
Proof. intros r ps. split; [apply ring_area_ag|apply pts_area_ag]. Qed.
Print Assumptions C105_areas.

Theorem C105_build : forall D (rs : list (region D)), agrees (build_topology Debug rs) (build_topology Release rs).
Proof. exact @build_ag. Qed.
Print Assumptions C105_build.

Theorem C105_normalize : forall D (t : topology D), agrees (normalize Debug t) (normalize Release t).
Proof. exact @normalize_ag. Qed.
Print Assumptions C105_normalize.

Theorem C105_clip : forall D (t : topology D) k, agrees (clip_topology Debug t k) (clip_topology Release t k).
Proof. exact @clip_ag. Qed.
Print Assumptions C105_clip.

Theorem C105_simplify : forall D (t : topology D) thr, agrees (simplify Debug t thr) (simplify Release t thr).
Proof. exact @simplify_ag. Qed.
Print Assumptions C105_simplify.

Theorem C105_open : forall afs afd enc shp dbf, agrees (sf_open Debug afs afd enc shp dbf) (sf_open Release afs afd enc shp dbf).
Proof. exact sf_open_ag. Qed.
Print Assumptions C105_open.

Theorem C105_next : forall afs afd g, agrees (geo_next Debug afs afd g) (geo_next Release afs afd g).
Proof. exact geo_next_ag. Qed.
Print Assumptions C105_next.

Theorem C105_programs : forall v afs afd fs args,
  runs_alike (main_shp_to_geo_data v Debug afs afd fs args) (main_shp_to_geo_data v Release afs afd fs args) /\
  runs_alike (main_cat_shp v Debug afs afd fs args) (main_cat_shp v Release afs afd fs args).
Proof. intros v afs afd fs args. split; [apply main_shp_alike|apply main_cat_alike]. Qed.
Print Assumptions C105_programs.

(** Both alternatives occur. *)
Example C105_same_case : exists t, build_topology Debug sample = Ok t /\ build_topology Release sample = Ok t /\ length (tp_edges t) = 9%nat.
Proof. eexists. split; [vm_compute; reflexivity|]. split; vm_compute; reflexivity. Qed.

Example C105_overflow_case : let r := RPoints [Pt 0 0; Pt (2 ^ 32 - 1) (2 ^ 32 - 1); Pt 0 (2 ^ 32 - 1); Pt 0 0] in
  build_topology Debug [Region 1 [r] []] = Panic POverflow /\ exists t, build_topology Release [Region 1 [r] []] = Ok t /\ length (tp_edges t) = 3%nat.
Proof. split; [vm_compute; reflexivity|]. eexists. split; vm_compute; reflexivity. Qed.
