(** * SimplifyFrameProps: C104, simplification and the frame of reference *)
From Verif Require Import BuildFrameSpec Simplify SimplifyFrame.

(** ** C104: simplifying a moved topology gives the moved result *)

(** Not so: the weight of a point depends on where the map lies.  Two triangles with a common side;
    the middle point of the side lies on a straight line. *)
Definition two_triangles : list (region Z) :=
  [Region 1 [REdges [[Pt 0 0; Pt 1 1; Pt 2 2]; [Pt 2 2; Pt 0 2; Pt 0 0]]] [];
   Region 2 [REdges [[Pt 2 2; Pt 1 1; Pt 0 0]; [Pt 0 0; Pt 2 0; Pt 2 2]]] []].

(** Shifting to the right changes which points stay ... *)
Theorem C104_shift_refuted : exists t t' s, build_topology Debug two_triangles = Ok t /\ stays (shifted 10 0) t /\
  simplify Debug t 10 = Ok t' /\ simplify Debug (moved_topology (shifted 10 0) t) 10 = Ok s /\
  map te_points (tp_edges s) <> map (fun e => moved_points (shifted 10 0) (te_points e)) (tp_edges t').
Proof.
  eexists _, _, _. split; [vm_compute; reflexivity|]. split; [|split; [vm_compute; reflexivity|split; [vm_compute; reflexivity|intros E; vm_compute in E; discriminate E]]].
  apply Forall_forall. intros e He. cbn in He. repeat (destruct He as [<-|He]; [repeat constructor; cbn; lia|]). destruct He.
Qed.
Print Assumptions C104_shift_refuted.

(** ... so does a reflection left to right ... *)
Theorem C104_mirror_refuted : let f := Frame false true false 20 0 in exists t t' s, build_topology Debug two_triangles = Ok t /\ stays f t /\
  simplify Debug t 10 = Ok t' /\ simplify Debug (moved_topology f t) 10 = Ok s /\
  map te_points (tp_edges s) <> map (fun e => moved_points f (te_points e)) (tp_edges t').
Proof.
  cbv zeta. eexists _, _, _. split; [vm_compute; reflexivity|]. split; [|split; [vm_compute; reflexivity|split; [vm_compute; reflexivity|intros E; vm_compute in E; discriminate E]]].
  apply Forall_forall. intros e He. cbn in He. repeat (destruct He as [<-|He]; [repeat constructor; cbn; lia|]). destruct He.
Qed.
Print Assumptions C104_mirror_refuted.

(** ... and exchanging x and y. *)
Theorem C104_swap_refuted : let f := Frame true false false 0 0 in exists t t' s, build_topology Debug two_triangles = Ok t /\ stays f t /\
  simplify Debug t 3 = Ok t' /\ simplify Debug (moved_topology f t) 3 = Ok s /\
  map te_points (tp_edges s) <> map (fun e => moved_points f (te_points e)) (tp_edges t').
Proof.
  cbv zeta. eexists _, _, _. split; [vm_compute; reflexivity|]. split; [|split; [vm_compute; reflexivity|split; [vm_compute; reflexivity|intros E; vm_compute in E; discriminate E]]].
  apply Forall_forall. intros e He. cbn in He. repeat (destruct He as [<-|He]; [repeat constructor; cbn; lia|]). destruct He.
Qed.
Print Assumptions C104_swap_refuted.

(** It also matters in which direction an edge is stored. *)
Theorem C104_reverse_refuted : exists ps r s, simplify_edge Debug ps 4 = Ok r /\ simplify_edge Debug (rev ps) 4 = Ok s /\ s <> rev r.
Proof. exists [Pt 0 0; Pt 1 1; Pt 2 2]. eexists _, _. split; [vm_compute; reflexivity|]. split; [vm_compute; reflexivity|]. intros E; vm_compute in E; discriminate E. Qed.
Print Assumptions C104_reverse_refuted.

(** A map that is shifted up or down keeps the same points, and panics alike. *)
Theorem C104_up_partial : forall D m y (t : topology D) thr,
  (forall t', simplify m t thr = Ok t' -> simplify m (moved_topology (shifted 0 y) t) thr = Ok (moved_topology (shifted 0 y) t')) /\
  (forall p, simplify m t thr = Panic p -> simplify m (moved_topology (shifted 0 y) t) thr = Panic p).
Proof. intros D m y t thr. split; intros x E; rewrite simplify_up, E; reflexivity. Qed.
Print Assumptions C104_up_partial.

(** So does one that is turned upside down, without overflow checks ... *)
Theorem C104_down_partial : forall D o (t : topology D) thr, let f := Frame false false true 0 o in
  (forall t', simplify Release t thr = Ok t' -> simplify Release (moved_topology f t) thr = Ok (moved_topology f t')) /\
  (forall p, simplify Release t thr = Panic p -> simplify Release (moved_topology f t) thr = Panic p).
Proof. intros D o t thr f. split; intros x E; pose proof (simplify_down o t thr) as H; cbv zeta in H; fold f in H; rewrite H, E; reflexivity. Qed.
Print Assumptions C104_down_partial.

(** ... or with them, when nothing overflows. *)
Theorem C104_down_checked_partial : forall D m m' o (t : topology D) thr t' s, let f := Frame false false true 0 o in
  simplify m t thr = Ok t' -> simplify m' (moved_topology f t) thr = Ok s -> s = moved_topology f t'.
Proof. exact @simplify_down_both. Qed.
Print Assumptions C104_down_checked_partial.

(** The two triangles shifted up and turned upside down: of three inner points one stays. *)
Example C104_case : exists t t', build_topology Debug two_triangles = Ok t /\ simplify Debug t 3 = Ok t' /\
  simplify Debug (moved_topology (shifted 0 7) t) 3 = Ok (moved_topology (shifted 0 7) t') /\
  simplify Debug (moved_topology (Frame false false true 0 9) t) 3 = Ok (moved_topology (Frame false false true 0 9) t') /\
  map (fun e => length (te_points e)) (tp_edges t) = [3; 3; 3]%nat /\ map (fun e => length (te_points e)) (tp_edges t') = [2; 3; 2]%nat.
Proof. eexists _, _. repeat (split; [vm_compute; reflexivity|]). vm_compute. reflexivity. Qed.

(** With overflow checks only one of the two may panic. *)
Example C104_overflow_case : let ps := [Pt (2 ^ 31) 2; Pt (2 ^ 31) 0; Pt (2 ^ 31 + 1) 0] in
  simplify_edge Debug ps 0 = Ok ps /\ simplify_edge Debug (moved_points (Frame false false true 0 2) ps) 0 = Panic POverflow.
Proof. split; vm_compute; reflexivity. Qed.
