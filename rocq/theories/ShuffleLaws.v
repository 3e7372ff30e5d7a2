(** * ShuffleLaws: simplifying, and the relation itself *)
From Coq Require Import Permutation.
From Verif Require Import GeoProofs TopoProofs BuildProofs NormTopo SimplifyHeap.
From Verif Require Import ShuffleSpec ShuffleBuild ShuffleNorm ShuffleTopo ShuffleClip ShuffleClipped.
From Verif Require Export Simplify.

Theorem simplify_shuffled {D} m thr (t1 t2 t1' : topology D) : shuffled t1 t2 -> simplify m t1 thr = Ok t1' ->
  exists t2', simplify m t2 thr = Ok t2' /\ shuffled t1' t2'.
Proof.
  intros (X1 & X2 & p & s & R) H1. pose proof R as (Ip & Is & LR & LE & G & E). pose proof (simplify_parts m t1 t1' thr H1) as (R1 & F1).
  assert (Q : forall j e2, nth_error (tp_edges t2) j = Some e2 -> exists e1', nth_error (tp_edges t1') (s j) = Some e1' /\ simplify_edge m (te_points e2) thr = Ok (te_points e1')).
  { intros j e2 E2. destruct (E j e2 E2) as (e1 & E1 & P). destruct (Forall2_nth_l _ _ _ _ _ F1 E1) as (e1' & E1' & K & _). exists e1'. rewrite <- P. auto. }
  assert (exists t2', simplify m t2 thr = Ok t2') as (t2' & H2).
  { unfold simplify. assert (M : forall es, incl es (tp_edges t2) -> exists es', mmap (fun e => ps <- simplify_edge m (te_points e) thr ;; Ok (TEdge ps (te_ring0 e) (te_ring1 e))) es = Ok es').
    { induction es as [|e es IH]; intros I; [exists []; reflexivity|]. cbn [mmap]. destruct (In_nth_error _ _ (I e (or_introl eq_refl))) as (j & Hj).
      destruct (Q j e Hj) as (e' & _ & ->). cbn [bind]. destruct IH as (es' & ->); [intros x Hx; apply I; right; exact Hx|]. cbn [bind]. eauto. }
    destruct (M (tp_edges t2) (incl_refl _)) as (es' & ->). cbn [bind]. eauto. }
  exists t2'. split; [exact H2|]. pose proof (simplify_parts m t2 t2' thr H2) as (R2 & F2).
  split; [exact (simplify_references m t1 t1' thr H1 X1)|]. split; [exact (simplify_references m t2 t2' thr H2 X2)|].
  exists p, s. unfold renumbered. rewrite R1, R2, <- (Forall2_length' _ _ _ F1), <- (Forall2_length' _ _ _ F2).
  repeat (split; [assumption|]). intros j e2' E2'. destruct (Forall2_nth_r _ _ _ _ _ F2 E2') as (e2 & E2 & K & _).
  destruct (Q j e2 E2) as (e1' & E1' & K'). exists e1'. split; [exact E1'|]. congruence.
Qed.

(** ** The relation goes both ways *)
Lemma inverse p n : Injective p -> bFun n p -> exists q, Injective q /\ forall x, (x < n)%nat -> (q x < n)%nat /\ q (p x) = x /\ p (q x) = x.
Proof.
  intros I B. destruct (bSurjective_bBijective B) as (g & Bg & H).
  { apply (proj1 (bInjective_bSurjective B)). intros x y _ _. apply I. }
  exists (fun x => if (x <? n)%nat then g x else x). split.
  - intros x y E. destruct (Nat.ltb_spec x n), (Nat.ltb_spec y n); [|specialize (Bg x); lia|specialize (Bg y); lia|exact E].
    rewrite <- (proj2 (H x H0)), <- (proj2 (H y H1)). congruence.
  - intros x Hx. pose proof (B x Hx) as Hp. pose proof (Bg x Hx) as Hg. pose proof (H x Hx) as (K1 & K2).
    destruct (Nat.ltb_spec x n); [|lia]. destruct (Nat.ltb_spec (p x) n); [|lia]. auto.
Qed.
Lemma Forall2_flip {A B} (P : A -> B -> Prop) (Q : B -> A -> Prop) l l' : Forall2 P l l' -> (forall a b, In b l' -> P a b -> Q b a) -> Forall2 Q l' l.
Proof. induction 1 as [|a b l l' H F IH]; intros K; constructor; [apply K; [left; reflexivity|exact H]|]. apply IH. intros x y Hy. apply K. right. exact Hy. Qed.

Theorem shuffled_sym {D} (t1 t2 : topology D) : shuffled t1 t2 -> shuffled t2 t1.
Proof.
  intros (X1 & X2 & p & s & R). split; [exact X2|]. split; [exact X1|]. pose proof R as (Ip & Is & LR & LE & G & E).
  destruct (renumbered_bound p s t1 t2 R) as (Bp & Bs). destruct (inverse p _ Ip Bp) as (p' & Ip' & HP), (inverse s _ Is Bs) as (s' & Is' & HS).
  exists p', s'. split; [exact Ip'|]. split; [exact Is'|]. split; [congruence|]. split; [congruence|]. split.
  - intros i g1 G1. assert (Hi : (i < length (tp_regions t2))%nat) by (rewrite <- LR; apply nth_error_Some; congruence). destruct (HP i Hi) as (Hp & _ & PP).
    destruct (nth_error (tp_regions t2) (p' i)) as [g2|] eqn:G2; [|apply nth_error_None in G2; lia]. exists g2. split; [reflexivity|].
    destruct (G _ g2 G2) as (g & Hg & (Ed & Eo & Ei)). rewrite PP, G1 in Hg. injection Hg as <-. split; [congruence|]. apply nth_error_In in G2.
    assert (K : forall l1 l2, incl l2 (tg_outer g2 ++ tg_inner g2) -> Forall2 (same_uses s) l1 l2 -> Forall2 (same_uses s') l2 l1).
    { intros l1 l2 I F. apply (Forall2_flip _ _ _ _ F). intros r1 r2 Hr U. apply (Forall2_flip _ _ _ _ U). intros d1 d2 Hd (U1 & U2). split; [|congruence].
      rewrite U1. symmetry. apply HS. exact (region_edge_bound t2 g2 r2 d2 X2 G2 (I _ Hr) Hd). }
    split; apply K; try assumption; intros x Hx; apply in_or_app; auto.
  - intros j e1 E1. assert (Hj : (j < length (tp_edges t2))%nat) by (rewrite <- LE; apply nth_error_Some; congruence). destruct (HS j Hj) as (Hs & _ & SS).
    destruct (nth_error (tp_edges t2) (s' j)) as [e2|] eqn:E2; [|apply nth_error_None in E2; lia]. exists e2. split; [reflexivity|].
    destruct (E _ e2 E2) as (e & He & P). rewrite SS, E1 in He. injection He as <-. congruence.
Qed.
