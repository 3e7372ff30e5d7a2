(** * ClipStepsProps: C116, clipping in steps *)
From Verif Require Import ClipTopoProofs NormProps ClipTopoProps PlaceProps ClipAreaProps ClipStepsSpec ClipSteps ClipStepsTopo ClipTwice.
Open Scope Z_scope.

(** ** C116: clipping and then clipping tighter is clipping tighter, up to rounding *)

(** An edge: the same points inside, and crossings at most one unit apart (besides repeated points). *)
Theorem C116_edge : forall m k k' ps, tighter k k' -> wf_mask k -> wf_mask k' -> wf_points ps -> small_path ps ->
  exists c1 c12 c2 l l', clip_edge m k ps = Ok c1 /\ clip_edge m k' c1 = Ok c12 /\ clip_edge m k' ps = Ok c2 /\
    dedup c12 = dedup l /\ dedup c2 = dedup l' /\ Forall2 (beside k') l l' /\
    filter (insideb k') c12 = filter (insideb k') c2.
Proof. exact clip_steps. Qed.
Print Assumptions C116_edge.

(** Without rounding in the first step there is no difference. *)
Theorem C116_exact_edge : forall m k k' ps, tighter k k' -> wf_mask k -> wf_mask k' -> wf_points ps -> small_path ps ->
  exact_first k k' ps ->
  exists c1 c2, clip_edge m k ps = Ok c1 /\ clip_edge m k' c1 = Ok c2 /\ clip_edge m k' ps = Ok c2.
Proof. exact clip_steps_exact. Qed.
Print Assumptions C116_exact_edge.

(** Nor for topologies: the regions, rings and lines are the same. *)
Theorem C116_topology : forall D m k k' (t t1 t12 t2 : topology D), tighter k k' -> wf_mask k -> wf_mask k' ->
  wf_topology t -> small_steps t -> closed_rings t -> exact_edges k k' t -> no_return m k k' t ->
  clip_topology m t k = Ok t1 -> clip_topology m t1 k' = Ok t12 -> clip_topology m t k' = Ok t2 ->
  read_topology t12 = read_topology t2.
Proof. intros D. exact topology_steps. Qed.
Print Assumptions C116_topology.

(** The line to (10, 7) crosses x = 1 at y = 0.7 and x = 2 at y = 1.4. The first step makes 0 of 0.7,
    and from there the line crosses x = 2 at y = 0.8. *)
Example C116_rounded :
  tighter (MinX 1) (MinX 2) /\ small_path [Pt 0 0; Pt 10 7] /\
  clip_edge Debug (MinX 1) [Pt 0 0; Pt 10 7] = Ok [Pt 1 0; Pt 10 7] /\
  clip_edge Debug (MinX 2) [Pt 1 0; Pt 10 7] = Ok [Pt 2 0; Pt 10 7] /\
  clip_edge Debug (MinX 2) [Pt 0 0; Pt 10 7] = Ok [Pt 2 1; Pt 10 7] /\
  beside (MinX 2) (Pt 2 0) (Pt 2 1).
Proof.
  split; [reflexivity|]. split; [intros p q [H|[]]; injection H as <- <-; unfold small_step; cbn; lia|].
  split; [vm_compute; reflexivity|]. split; [vm_compute; reflexivity|]. split; [vm_compute; reflexivity|].
  right. unfold on_line, along. cbn. lia.
Qed.

(** A triangle cut at x = 4, then at x = 6. *)
Definition wedge : topology Z := built [Region 1 [RPoints [Pt 0 0; Pt 10 5; Pt 0 10; Pt 0 0]] []].
Definition clipped (k : clip_mask) (t : topology Z) : topology Z :=
  match clip_topology Debug t k with Ok t => t | Panic _ => Topology [] [] end.

Example C116_case :
  wf_topology wedge /\ small_steps wedge /\ closed_rings wedge /\ exact_edges (MinX 4) (MinX 6) wedge /\
  no_return Debug (MinX 4) (MinX 6) wedge /\
  clip_topology Debug wedge (MinX 4) = Ok (clipped (MinX 4) wedge) /\
  clip_topology Debug (clipped (MinX 4) wedge) (MinX 6) = Ok (clipped (MinX 6) (clipped (MinX 4) wedge)) /\
  clip_topology Debug wedge (MinX 6) = Ok (clipped (MinX 6) wedge) /\
  read_topology (clipped (MinX 4) wedge) = [Shape 1 [[Some [Pt 4 2; Pt 10 5]; Some [Pt 10 5; Pt 4 8]; Some [Pt 4 8; Pt 4 2]]] []] /\
  read_topology (clipped (MinX 6) (clipped (MinX 4) wedge)) = [Shape 1 [[Some [Pt 6 3; Pt 10 5]; Some [Pt 10 5; Pt 6 7]; Some [Pt 6 7; Pt 6 3]]] []].
Proof.
  assert (S : map te_points (tp_edges wedge) = [[Pt 0 0; Pt 10 5]; [Pt 0 10; Pt 10 5]; [Pt 0 0; Pt 0 10]]) by (vm_compute; reflexivity).
  assert (HS : forall e, In e (tp_edges wedge) -> In (te_points e) [[Pt 0 0; Pt 10 5]; [Pt 0 10; Pt 10 5]; [Pt 0 0; Pt 0 10]]).
  { intros e He. rewrite <- S. apply in_map, He. }
  split. { apply Forall_forall. intros e He. destruct (HS e He) as [<-|[<-|[<-|[]]]]; unfold wf_points, wf_point, is_u32; repeat constructor; cbn; lia. }
  split. { intros e p q He Hp. destruct (HS e He) as [E|[E|[E|[]]]]; rewrite <- E in Hp; destruct Hp as [H|[]]; injection H as <- <-; unfold small_step; cbn; lia. }
  split. { intros rg r Hg Hr. vm_compute in Hg. destruct Hg as [<-|[]]. vm_compute in Hr. destruct Hr as [<-|[]].
    exists (Pt 0 0). vm_compute. repeat (split; [reflexivity|]; eexists; split; [reflexivity|]). reflexivity. }
  split. { intros e He p q Hp. destruct (HS e He) as [E|[E|[E|[]]]]; rewrite <- E in Hp; destruct Hp as [H|[]]; injection H as <- <-; intros _; vm_compute; reflexivity. }
  split. { intros C C' rg r HC HC' Hg Hr _. vm_compute in Hg. destruct Hg as [<-|[]]. vm_compute in Hr. destruct Hr as [<-|[]].
    assert (EC : C = clipped_edges (MinX 4) wedge).
    { eapply clips_unique; [exact HC|]. unfold clips. set (C0 := clipped_edges _ _); vm_compute in C0; subst C0; set (e := tp_edges wedge); vm_compute in e; subst e; repeat constructor. }
    rewrite EC. vm_compute. reflexivity. }
  repeat split; vm_compute; reflexivity.
Qed.

(** [no_return] is needed: a ring with two loops of opposite areas is lost in the first step, but
    one loop alone is kept. *)
Definition bow : topology Z := built [Region 1 [RPoints [Pt 5 5; Pt 10 0; Pt 20 10; Pt 20 0; Pt 10 10; Pt 5 5]] []].
Example C116_returning :
  tighter (MinX 10) (MinX 15) /\
  map (fun rg => length (tg_outer rg)) (tp_regions bow) = [1%nat] /\
  read_topology (clipped (MinX 10) bow) = [] /\
  read_topology (clipped (MinX 15) (clipped (MinX 10) bow)) = [] /\
  read_topology (clipped (MinX 15) bow) = [Shape 1 [[Some [Pt 15 5; Pt 20 10]; Some [Pt 20 10; Pt 20 0]; Some [Pt 20 0; Pt 15 5]]] []].
Proof. repeat split; vm_compute; reflexivity. Qed.
