(** * FormProps: C127-C129, what built and normalized topologies look like *)
From Verif Require Import Simplify FormSpec FormProofs FormSimplify FormFixed NormTopo NormProps CrossProps OnceProps ComposeProps.

(** ** C127: built topologies *)

Theorem C127_built : forall D (t : topology D), (exists rs, build_topology Release rs = Ok t) <-> built_form t.
Proof. intros D t. split; [intros (rs & B); exact (build_built_form Release rs t B)|intros F; exists (as_input t); exact (built_form_build t F)]. Qed.
Print Assumptions C127_built.

Theorem C127_build : forall D m (rs : list (region D)) t, build_topology m rs = Ok t -> built_form t.
Proof. intros D. exact build_built_form. Qed.
Print Assumptions C127_build.

Theorem C127_again : forall D m (t : topology D), built_form t -> countable m t -> build_topology m (as_input t) = Ok t.
Proof. intros D. exact built_form_build_any. Qed.
Print Assumptions C127_again.

(** ** C128: normalized topologies *)

Theorem C128_normal : forall D m (t : topology D), valid t -> countable m t -> (normalize m t = Ok t <-> normal_form t).
Proof.
  intros D m t V C. split; [apply (fixed_normal m t V); intros rg r Hg Hr; apply (C rg r Hg Hr)|]. intros N. exact (normal_form_fixed m t N C).
Qed.
Print Assumptions C128_normal.

Definition in_i64b (m : mode) (es : list (list point)) : bool :=
  (Z.abs (shoelaces es) <? 2 ^ 63) && forallb (forallb (fun p => (0 <=? px p) && (0 <=? py p))) es && (weights es <? 2 ^ 63).
Definition countableb {D} (m : mode) (t : topology D) : bool :=
  forallb (fun rg => forallb (fun r => in_i64b m (map ne_points (seen_ring t r))) (tg_outer rg ++ tg_inner rg)) (tp_regions t).
Lemma countableb_ok {D} m (t : topology D) : countableb m t = true -> countable m t.
Proof.
  unfold countableb. intros H rg r Hg Hr. rewrite forallb_forall in H. specialize (H rg Hg). rewrite forallb_forall in H. specialize (H r Hr).
  unfold in_i64b in H. apply andb_prop in H as [H W]. apply andb_prop in H as [A N]. split; [apply Z.ltb_lt, A|]. intros _. split; [|apply Z.ltb_lt, W].
  rewrite Forall_forall. intros e He. rewrite forallb_forall in N. specialize (N e He). unfold nonneg. rewrite Forall_forall. intros p Hp. rewrite forallb_forall in N.
  specialize (N p Hp). apply andb_prop in N as [X Y]. split; apply Z.leb_le; assumption.
Qed.
(** A list of regions of closed rings, built and normalized, is in normal form if normalization leaves it. *)
Lemma normal_by {D} (rs : list (region D)) t : (forall x r, In x rs -> In r (rg_outer x ++ rg_inner x) -> closed_ring r) ->
  build_topology Debug rs = Ok (built rs) -> normalize Debug (built rs) = Ok t -> normalize Debug t = Ok t ->
  countableb Debug t = true -> valid t /\ countable Debug t /\ normal_form t.
Proof.
  intros R B N F C. assert (V : valid t) by (apply (C73_normalize D Debug (built rs)); [exact (built_valid Debug rs _ R B)|exact N]).
  pose proof (countableb_ok _ _ C) as C'. split; [exact V|]. split; [exact C'|]. apply (C128_normal D Debug t V C'). exact F.
Qed.

Example C127_case : built_form (built quilt) /\ countable Debug (built quilt) /\ length (tp_edges (built quilt)) = 14%nat.
Proof.
  split; [apply (C127_build _ Debug quilt), quilt_ok|]. split; [apply countableb_ok; vm_compute; reflexivity|]. vm_compute. reflexivity.
Qed.

(** The squares of the quilt are not in normal form; once normalized, they are. *)
Example C128_case : let t := built quilt in let t' := normalized t in
  valid t /\ countable Debug t /\ ~ normal_form t /\ valid t' /\ countable Debug t' /\ normal_form t'.
Proof.
  cbv zeta. assert (R : forall x r, In x quilt -> In r (rg_outer x ++ rg_inner x) -> closed_ring r) by (intros x r [<-|[<-|[<-|[]]]]; cbn; intuition (subst; proper)).
  split; [exact quilt_valid|]. assert (C : countable Debug (built quilt)) by (apply countableb_ok; vm_compute; reflexivity). split; [exact C|].
  split; [|apply (normal_by quilt); [exact R|apply quilt_ok|apply quilt_ok|vm_compute; reflexivity|vm_compute; reflexivity]].
  intros N. apply (C128_normal _ Debug _ quilt_valid C) in N. vm_compute in N. discriminate.
Qed.

(** ** C129: simplified normal forms *)

Theorem C129_simplify : forall D m (t t' : topology D) thr, thr <= 2 ^ 64 - 1 -> simplify m t thr = Ok t' -> normal_form t ->
  (forall rg r, In rg (tp_regions t) -> In r (tg_outer rg ++ tg_inner rg) -> Z.abs (shoelaces (map ne_points (seen_ring t' r))) < 2 ^ 64) ->
  (normal_form t' <-> different_edges t' /\ loops_by_area t' /\ wound_rings t').
Proof. intros D. exact simplify_normal. Qed.
Print Assumptions C129_simplify.

(** A field with a notch.  Its second corner has weight 0 and is removed: what is left goes around the
    other way. *)
Definition notch : list (region Z) := [ Region 1 [RPoints [Pt 0 0; Pt 20 0; Pt 20 20; Pt 15 10; Pt 0 0]] [] ].

Theorem C129_winding_refuted : ~ forall (t t' : topology Z) thr, normal_form t -> simplify Debug t thr = Ok t' -> wound_rings t'.
Proof.
  intros H. specialize (H (normalized (built notch)) (simplified (normalized (built notch)) 1) 1).
  assert (W : wound_rings (simplified (normalized (built notch)) 1)).
  { apply H; [apply (normal_by notch); [intros x r [<-|[]]; cbn; intuition (subst; proper)|vm_compute; reflexivity..]|vm_compute; reflexivity]. }
  clear H. revert W.
  assert (E : map (fun rg => map (fun r => shoelaces (map ne_points (seen_ring (simplified (normalized (built notch)) 1) r))) (tg_outer rg))
    (tp_regions (simplified (normalized (built notch)) 1)) = [[-100]]) by (vm_compute; reflexivity).
  revert E. generalize (simplified (normalized (built notch)) 1) as t'. intros t' E W.
  destruct (tp_regions t') as [|rg rgs] eqn:T; [discriminate|]. injection E as E _. destruct (tg_outer rg) as [|r rs] eqn:O; [discriminate|]. injection E as E _.
  destruct (W rg ltac:(rewrite T; left; reflexivity)) as (W' & _). specialize (W' r ltac:(rewrite O; left; reflexivity)). unfold winds in W'. lia.
Qed.
Print Assumptions C129_winding_refuted.

Theorem C129_different_refuted : ~ forall (t t' : topology Z) thr, normal_form t -> simplify Debug t thr = Ok t' -> different_edges t'.
Proof.
  intros H. specialize (H (normalized (built island_country)) (simplified (normalized (built island_country)) 100) 100).
  destruct island_steps as (B & N & S & _ & Q).
  assert (W : different_edges (simplified (normalized (built island_country)) 100)).
  { apply H; [|exact S]. apply (normal_by island_country); [intros x r [<-|[<-|[<-|[]]]]; cbn; intuition (subst; proper)|exact B|exact N|vm_compute; reflexivity..]. }
  unfold different_edges in W. rewrite Q in W. inversion W as [|? ? W' _]. apply W'. left. reflexivity.
Qed.
Print Assumptions C129_different_refuted.

(** With a smaller threshold the countries are still normalized. *)
Example C129_case : let t := normalized (built island_country) in let t' := simplified t 9 in
  normal_form t /\ simplify Debug t 9 = Ok t' /\ map te_points (tp_edges t') <> map te_points (tp_edges t) /\ normal_form t'.
Proof.
  cbv zeta. destruct island_steps as (B & N & _).
  destruct (normal_by island_country (normalized (built island_country))) as (V & _ & F); [intros x r [<-|[<-|[<-|[]]]]; cbn; intuition (subst; proper)|exact B|exact N|vm_compute; reflexivity|vm_compute; reflexivity|].
  assert (S : simplify Debug (normalized (built island_country)) 9 = Ok (simplified (normalized (built island_country)) 9)) by (vm_compute; reflexivity).
  split; [exact F|]. split; [exact S|]. split; [vm_compute; discriminate|].
  apply (C128_normal _ Debug); [apply (C73_simplify _ Debug 9 (normalized (built island_country))); [lia|exact V|exact S]|apply countableb_ok; vm_compute; reflexivity|vm_compute; reflexivity].
Qed.
