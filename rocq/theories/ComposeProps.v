(** * ComposeProps: C73, C74, C78 and C79, applying the operations one after the other *)
From Verif Require Import ClipTopoSpec Simplify BuildProofs NormTopo SimplifyHeap SimplifyLaws ComposeProofs ComposeLaws ClipTopoProps NormProps.

(** ** C73: the operations can be chained *)
Theorem C73_build : forall D m (rs : list (region D)) t,
  (forall x r, In x rs -> In r (rg_outer x ++ rg_inner x) -> closed_ring r) ->
  build_topology m rs = Ok t -> valid t.
Proof. intros D. exact built_valid. Qed.
Print Assumptions C73_build.

Theorem C73_normalize : forall D m (t t' : topology D), valid t -> normalize m t = Ok t' -> valid t'.
Proof. intros D. exact normalize_valid. Qed.
Print Assumptions C73_normalize.

Theorem C73_clip : forall D m k (t t' : topology D), valid t -> clip_topology m t k = Ok t' -> valid t'.
Proof. intros D. exact clip_valid. Qed.
Print Assumptions C73_clip.

Theorem C73_simplify : forall D m thr (t t' : topology D), thr <= 2 ^ 64 - 1 ->
  valid t -> simplify m t thr = Ok t' -> valid t'.
Proof. intros D m thr t t'. apply simplify_valid. Qed.
Print Assumptions C73_simplify.

(** Build, normalize, clip and simplify two regions, of which the second fills the hole of the first. *)
Definition frame : list (region Z) := [ Region 1 [square 0 0 30] [square 10 10 10]; Region 2 [square 10 10 10] [] ].
Example C73_case : valid (built frame) /\
  exists t2 t3, clip_topology Debug (normalized (built frame)) (MinX 15) = Ok t2 /\ simplify Debug t2 1 = Ok t3 /\
    read_topology t3 =
    [ Shape 1 [[Some [Pt 15 0; Pt 30 0; Pt 30 30; Pt 15 30]; Some [Pt 15 30; Pt 15 0]]]
              [[Some [Pt 15 20; Pt 20 20; Pt 20 10; Pt 15 10]; Some [Pt 15 10; Pt 15 20]]];
      Shape 2 [[Some [Pt 15 10; Pt 20 10; Pt 20 20; Pt 15 20]; Some [Pt 15 20; Pt 15 10]]] [] ].
Proof.
  split.
  - apply (built_valid Debug frame); [|vm_compute; reflexivity].
    intros x r Hx Hr. cbn in Hx. destruct Hx as [<-|[<-|[]]]; cbn in Hr; repeat (destruct Hr as [<-|Hr]; [proper|]); destruct Hr.
  - eexists. eexists. split; [vm_compute; reflexivity|]. split; vm_compute; reflexivity.
Qed.

(** ** C74: clipping again never undoes an earlier clip *)
Theorem C74_masks : forall D m ks (t t' : topology D), Forall wf_mask ks -> all_points wf_point t ->
  clip_all m ks t = Ok t' -> all_points (fun p => forall k, In k ks -> ~ outside k p) t'.
Proof.
  intros D m ks t t' Hk Hw H e p He Hp k Hin. destruct (clip_all_kept m ks t t' Hk Hw H) as (K & _).
  destruct (K e p He Hp) as (_ & F). rewrite Forall_forall in F. specialize (F k Hin).
  destruct k; unfold ClipEdgeProofs.kept_point, inside, on_line, outside, axis, level in *; lia.
Qed.
Print Assumptions C74_masks.

(** Four clips are a clip by a rectangle. *)
Theorem C74_rectangle : forall D m x0 y0 x1 y1 (t t' : topology D),
  is_u32 x0 -> is_u32 y0 -> is_u32 x1 -> is_u32 y1 -> all_points wf_point t ->
  clip_all m [MinX x0; MinY y0; MaxX x1; MaxY y1] t = Ok t' -> all_points (in_box (Pt x0 y0) (Pt x1 y1)) t'.
Proof.
  intros D m x0 y0 x1 y1 t t' H1 H2 H3 H4 Hw H e p He Hp.
  pose proof (C74_masks D m _ t t' (Forall_cons (P := wf_mask) (MinX x0) H1 (Forall_cons (MinY y0) H2 (Forall_cons (MaxX x1) H3 (Forall_cons (MaxY y1) H4 (Forall_nil _))))) Hw H e p He Hp) as K.
  pose proof (K (MinX x0) ltac:(cbn; auto)) as K1. pose proof (K (MinY y0) ltac:(cbn; auto)) as K2.
  pose proof (K (MaxX x1) ltac:(cbn; auto)) as K3. pose proof (K (MaxY y1) ltac:(cbn; auto)) as K4.
  cbn [outside] in *. unfold in_box. cbn [px py]. lia.
Qed.
Print Assumptions C74_rectangle.

Example C74_case :
  exists t', clip_all Release [MinX 5; MinY 5; MaxX 25; MaxY 25] (normalized (built frame)) = Ok t' /\
    read_topology t' =
    [ Shape 1 [[Some [Pt 5 25; Pt 5 5]; Some [Pt 5 5; Pt 25 5]; Some [Pt 25 5; Pt 25 25]; Some [Pt 25 25; Pt 5 25]]]
              [[Some [Pt 10 10; Pt 10 20; Pt 20 20; Pt 20 10; Pt 10 10]]];
      Shape 2 [[Some [Pt 10 10; Pt 20 10; Pt 20 20; Pt 10 20; Pt 10 10]]] [] ].
Proof. eexists. split; vm_compute; reflexivity. Qed.

(** ** C78: normalized topologies can be simplified *)
Theorem C78_edges : forall D m m' (rs : list (region D)) t t',
  (forall x r, In x rs -> In r (rg_outer x ++ rg_inner x) -> closed_ring r /\ exists ps, r = RPoints ps) ->
  build_topology m rs = Ok t -> normalize m' t = Ok t' ->
  forall e, In e (tp_edges t') ->
    (2 <= length (te_points e))%nat /\ (is_closed (te_points e) -> (4 <= length (te_points e))%nat).
Proof.
  intros D m m' rs t t' HR B N e He. apply (normalize_no_return m' t t' e).
  - apply (built_valid m rs t); [|exact B]. intros x r Hx Hr. apply (HR x r Hx Hr).
  - apply (built_segmented m rs t); [|exact B]. intros x r Hx Hr. apply (HR x r Hx Hr).
  - exact N.
  - exact He.
Qed.
Print Assumptions C78_edges.

(** So simplify returns in a release build, whatever the threshold; and again for its result. *)
Theorem C78_simplify : forall D m m' (rs : list (region D)) t t' thr thr', thr <= 2 ^ 64 - 1 -> thr' <= 2 ^ 64 - 1 ->
  (forall x r, In x rs -> In r (rg_outer x ++ rg_inner x) -> closed_ring r /\ exists ps, r = RPoints ps) ->
  build_topology m rs = Ok t -> normalize m' t = Ok t' ->
  exists t1, simplify Release t' thr = Ok t1 /\ exists t2, simplify Release t1 thr' = Ok t2.
Proof.
  intros D m m' rs t t' thr thr' Ht Ht' HR B N.
  assert (HF : Forall (fun e => edge_ok (te_points e)) (tp_edges t')).
  { apply Forall_forall. exact (C78_edges D m m' rs t t' HR B N). }
  destruct (simplify_returns t' thr Ht HF) as (t1 & E1). exists t1. split; [exact E1|].
  apply (simplify_returns t1 thr' Ht'). destruct (simplify_parts Release t' t1 thr E1) as (_ & H2).
  apply Forall_forall. intros e He. destruct (Forall2_in_r _ _ _ e H2 He) as (e0 & He0 & (E & _)).
  rewrite Forall_forall in HF. destruct (simplify_edge_ok Release _ thr (HF e0 He0) Ht) as [[D0 _]|(r & E' & _ & H3 & H4 & H5 & H6 & _)]; [discriminate|].
  rewrite E in E'. injection E' as <-. split; [exact H5|]. intros (C1 & C2). apply H6. split; [|congruence].
  specialize (HF e0 He0) as (L & _). intros Z. rewrite Z in L. cbn in L. lia.
Qed.
Print Assumptions C78_simplify.

Example C78_case :
  (forall x r, In x frame -> In r (rg_outer x ++ rg_inner x) -> closed_ring r /\ exists ps, r = RPoints ps) /\
  build_topology Debug frame = Ok (built frame) /\ normalize Debug (built frame) = Ok (normalized (built frame)) /\
  length (tp_edges (normalized (built frame))) = 2%nat /\
  Forall (fun e => is_closed (te_points e) /\ length (te_points e) = 5%nat) (tp_edges (normalized (built frame))).
Proof.
  split; [|split; [vm_compute; reflexivity|split; [vm_compute; reflexivity|split; [vm_compute; reflexivity|]]]].
  - intros x r Hx Hr. cbn in Hx. destruct Hx as [<-|[<-|[]]]; cbn in Hr; repeat (destruct Hr as [<-|Hr]; [split; [proper|eexists; reflexivity]|]); destruct Hr.
  - vm_compute. repeat constructor; discriminate.
Qed.

(** ** C79: where points come from *)
Theorem C79_normalize : forall D m (t t' : topology D) e p, valid t -> normalize m t = Ok t' ->
  In e (tp_edges t') -> In p (te_points e) -> exists e0, In e0 (tp_edges t) /\ In p (te_points e0).
Proof. intros D. exact normalize_points. Qed.
Print Assumptions C79_normalize.

Theorem C79_simplify : forall D m (t t' : topology D) thr e p, thr <= 2 ^ 64 - 1 -> simplify m t thr = Ok t' ->
  In e (tp_edges t') -> In p (te_points e) -> exists e0, In e0 (tp_edges t) /\ In p (te_points e0).
Proof. intros D. exact simplify_origin. Qed.
Print Assumptions C79_simplify.

(** A new point of a clipped topology is on the line of the mask and in the bounding box of a
    segment that crosses the line. *)
Theorem C79_clip : forall D m k (t t' : topology D) e p, wf_mask k -> all_points wf_point t -> clip_topology m t k = Ok t' ->
  In e (tp_edges t') -> In p (te_points e) ->
  exists e0, In e0 (tp_edges t) /\ (In p (te_points e0) \/
    on_line k p /\ exists a b, In (a, b) (combine (te_points e0) (tl (te_points e0))) /\ opposite k a b /\
      in_box (Pt (Z.min (px a) (px b)) (Z.min (py a) (py b))) (Pt (Z.max (px a) (px b)) (Z.max (py a) (py b))) p).
Proof.
  intros D m k t t' e p Hk W H He Hp. destruct (clip_origin m k t t' e p H He Hp) as (e0 & He0 & [Hin|(a & b & Hab & Ho & Hm)]).
  - exists e0. auto.
  - exists e0. split; [exact He0|]. right. split; [eapply ClipEdgeProofs.mask_intersect_on_line, Hm|]. exists a, b. split; [exact Hab|]. split; [exact Ho|].
    assert (In a (te_points e0)) as Ha by (eapply in_combine_l, Hab).
    assert (In b (te_points e0)) as Hb. { apply in_combine_r in Hab. destruct (te_points e0); [destruct Hab|right; exact Hab]. }
    apply (intersect_in_box m k _ _ a b p Hk (W e0 a He0 Ha) (W e0 b He0 Hb) Ho); [| |exact Hm]; unfold in_box; cbn [px py]; lia.
Qed.
Print Assumptions C79_clip.

Example C79_case : wf_mask (MinX 15) /\ all_points wf_point (built frame) /\
  exists t' e, clip_topology Debug (built frame) (MinX 15) = Ok t' /\ In e (tp_edges t') /\ In (Pt 15 20) (te_points e).
Proof.
  split; [vm_compute; split; congruence|]. split.
  - intros e p He Hp. vm_compute in He. decompose [or] He; subst; try contradiction; cbn in Hp; decompose [or] Hp; subst; try contradiction;
      unfold wf_point, is_u32; cbn; lia.
  - eexists. exists (TEdge [Pt 15 20; Pt 20 20] (Some (RR 0 Inner 0)) (Some (RR 1 Outer 0))). split; [vm_compute; reflexivity|]. vm_compute. auto 20.
Qed.
