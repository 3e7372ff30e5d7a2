(** * ShuffleTopo: normalizing topologies that are the same apart from numbers *)
From Coq Require Import Permutation Sorted.
From Verif Require Import FormSpec FormProofs RebuildProofs OrderProofs TopoProofs BuildProofs GeoProofs NormProofs NormTopo NormTwice NormMerge NormLaws.
From Verif Require Import ShuffleSpec ShuffleBuild ShuffleNorm.

Definition numbers (p : nat -> nat) (a b : option nat * option nat) : Prop :=
  match b with
  | (Some x, None) => a = (Some (p x), None)
  | (Some x, Some y) => (x <= y)%nat /\ a = (Some (Nat.min (p x) (p y)), Some (Nat.max (p x) (p y)))
  | _ => False
  end.
Lemma numbers_one p a b a' b' : Injective p -> numbers p a b -> numbers p a' b' -> (a = a' <-> b = b').
Proof.
  intros I H H'. destruct b as [[x|] [y|]], b' as [[x'|] [y'|]]; cbn in H, H'; try contradiction.
  - destruct H as (L & ->), H' as (L' & ->). split; intros E; [|injection E as -> ->; reflexivity]. injection E as E1 E2.
    assert ((p x = p x' /\ p y = p y') \/ (p x = p y' /\ p y = p x')) as [(A & B)|(A & B)] by lia; apply I in A; apply I in B; [congruence|].
    subst. assert (x' = y') by lia. congruence.
  - destruct H as (_ & ->). subst a'. split; discriminate.
  - destruct H' as (_ & ->). subst a. split; discriminate.
  - subst. split; intros E; injection E as E; [apply I in E|]; congruence.
Qed.
Lemma numbers_two p a b : Injective p -> numbers p a b -> (fst a = snd a <-> fst b = snd b).
Proof.
  intros I H. destruct b as [[x|] [y|]]; cbn in H; try contradiction; [|subst a; cbn; split; discriminate]. destruct H as (L & ->). cbn [fst snd]. split; intros E; injection E as E.
  - assert (A : p x = p y) by lia. apply I in A. congruence.
  - subst. f_equal. lia.
Qed.

Lemma both_map_in {A B C E} (P : C -> E -> Prop) (Rel : A -> B -> Prop) f g l l' : Forall2 Rel l l' ->
  (forall a b, In a l -> In b l' -> Rel a b -> both P (f a) (g b)) -> both (Forall2 P) (mmap f l) (mmap g l').
Proof.
  intros F K. apply (both_map P (fun a b => In a l /\ In b l' /\ Rel a b)); [|intros a b (H1 & H2 & H3); apply K; assumption]. clear K.
  induction F as [|a b l l' H F IH]; constructor; [cbn; auto|]. eapply Forall2_impl'; [|exact IH]. cbn. intuition.
Qed.
Lemma Forall2_in {A B} (P : A -> B -> Prop) l l' : Forall2 P l l' -> Forall2 (fun a b => In a l /\ In b l' /\ P a b) l l'.
Proof. induction 1 as [|a b l l' H F IH]; constructor; [cbn; auto|]. eapply Forall2_impl'; [|exact IH]. cbn. intuition. Qed.

(** The regions of edges correspond. *)
Section Labels.
Context {D : Type}.
Variables (p s : nat -> nat) (t1 t2 : topology D).
Hypothesis X1 : exact_references t1.
Hypothesis X2 : exact_references t2.
Hypothesis Ip : Injective p.
Hypothesis HE : forall j e2, nth_error (tp_edges t2) j = Some e2 -> exists e1, nth_error (tp_edges t1) (s j) = Some e1 /\ te_points e1 = te_points e2.
Hypothesis HP : forall j, (exists e2, nth_error (tp_edges t2) j = Some e2) -> Permutation (edge_regions t1 (s j)) (map p (edge_regions t2 j)).

Lemma use_alike g1 g2 r1 r2 d1 d2 : In g1 (tp_regions t1) -> In g2 (tp_regions t2) -> In r1 (tg_outer g1 ++ tg_inner g1) -> In r2 (tg_outer g2 ++ tg_inner g2) ->
  In d1 (tr_des r1) -> In d2 (tr_des r2) -> same_use s d1 d2 -> both (alike (numbers p)) (with_directed_edge t1 d1) (with_directed_edge t2 d2).
Proof.
  intros G1 G2 H1 H2 D1 D2 (U1 & U2). destruct (with_directed_edge_ok t1 g1 r1 d1 X1 G1 H1 D1) as (e1 & -> & S1 & _).
  destruct (with_directed_edge_ok t2 g2 r2 d2 X2 G2 H2 D2) as (e2 & -> & S2 & _). cbn. unfold seen in S1, S2.
  destruct (nth_error (tp_edges t1) (de_edge d1)) as [x1|] eqn:E1; [|discriminate]. destruct (nth_error (tp_edges t2) (de_edge d2)) as [x2|] eqn:E2; [|discriminate].
  injection S1 as <-. injection S2 as <-. split; cbn [ne_points sides_of ne_reg0 ne_reg1].
  - destruct (HE _ x2 E2) as (x & Ex & P). rewrite U1, Ex in E1. injection E1 as ->. rewrite P, U2. reflexivity.
  - rewrite U1. pose proof (HP (de_edge d2) (ex_intro _ x2 E2)) as P. pose proof (edge_regions_le t1 (s (de_edge d2))) as O1. pose proof (edge_regions_le t2 (de_edge d2)) as O2.
    assert (L : (length (edge_regions t2 (de_edge d2)) <= 2)%nat).
    { unfold edge_regions. rewrite map_length. destruct X2 as (_ & _ & X). apply (X _ _ E2). }
    assert (N : edge_regions t2 (de_edge d2) <> []).
    { destruct (ring_des_used t2 g2 r2 d2 G2 H2 D2) as (rr & Hu). unfold edge_regions. intros Z. apply map_eq_nil in Z. rewrite Z in Hu. destruct Hu. }
    destruct (edge_regions t2 (de_edge d2)) as [|x [|y [|z l]]]; [congruence| | |cbn in L; lia]; cbn [map] in P; apply Permutation_sym in P.
    + apply Permutation_length_1_inv in P. rewrite P. reflexivity.
    + inversion O2 as [|? ? _ O3]; subst. inversion O3 as [|? ? O4 _]; subst. cbn [nth_error numbers sides_of ne_reg0 ne_reg1].
      apply Permutation_length_2_inv in P as [P|P]; rewrite P in *; inversion O1 as [|? ? _ O5]; subst; inversion O5 as [|? ? O6 _]; subst; cbn [nth_error];
        (split; [exact O4|]; unfold sides_of; cbn [ne_reg0 ne_reg1]; f_equal; f_equal; lia).
Qed.

Lemma normalize_region_alike m g1 g2 : In g1 (tp_regions t1) -> In g2 (tp_regions t2) -> renumbered_region s g1 g2 ->
  normalize_region m t1 g1 = normalize_region m t2 g2.
Proof.
  intros G1 G2 (Ed & Eo & Ei).
  assert (Q : forall o l1 l2, incl l1 (tg_outer g1 ++ tg_inner g1) -> incl l2 (tg_outer g2 ++ tg_inner g2) -> Forall2 (same_uses s) l1 l2 ->
    normalize_region_rings m t1 l1 o = normalize_region_rings m t2 l2 o).
  { intros o l1 l2 I1 I2 F. apply (rings_alike (numbers p)); [intros a b a' b'; apply numbers_one, Ip|intros a b; apply numbers_two, Ip|].
    apply Forall2_in in F. eapply Forall2_impl'; [|exact F]. intros r1 r2 (H1 & H2 & U). apply (both_map_in _ (same_use s)); [exact U|].
    intros d1 d2 D1 D2 DU. exact (use_alike g1 g2 r1 r2 d1 d2 G1 G2 (I1 _ H1) (I2 _ H2) D1 D2 DU). }
  unfold normalize_region. rewrite (Q Clockwise (tg_outer g1) (tg_outer g2)), (Q CounterClockwise (tg_inner g1) (tg_inner g2)); try assumption; try (intros x Hx; apply in_or_app; auto).
  rewrite Ed. reflexivity.
Qed.
End Labels.

Section Two.
Context {D : Type}.
Variables (p s : nat -> nat) (t1 t2 : topology D).
Hypothesis X1 : exact_references t1.
Hypothesis X2 : exact_references t2.
Hypothesis R : renumbered p s t1 t2.

Lemma des_renumbered (g1 g2 : topo_region D) : renumbered_region s g1 g2 -> Forall2 (same_use s) (region_des g1) (region_des g2).
Proof.
  intros (_ & O & I). unfold region_des, region_rings. assert (F : Forall2 (same_uses s) (tg_outer g1 ++ tg_inner g1) (tg_outer g2 ++ tg_inner g2)) by (apply Forall2_app; assumption).
  induction F as [|a b l l' H F IH]; [constructor|]. cbn [flat_map]. apply Forall2_app; assumption.
Qed.
Lemma uses_renumbered (g1 g2 : topo_region D) j : renumbered_region s g1 g2 -> region_uses (s j) g1 = region_uses j g2.
Proof.
  intros H. unfold region_uses. assert (E : map de_edge (region_des g1) = map s (map de_edge (region_des g2))).
  { rewrite map_map. apply (Forall2_same (same_use s)); [apply des_renumbered, H|]. intros a b (E & _). exact E. }
  rewrite E. symmetry. apply count_occ_map. exact (proj1 (proj2 R)).
Qed.
Lemma edge_region_bound (t : topology D) k i : In i (edge_regions t k) -> (i < length (tp_regions t))%nat.
Proof. intros H. apply edge_regions_in in H as (rr & H & <-). apply in_uses_region in H as (rg & r & Hg & _). apply nth_error_Some. congruence. Qed.

Lemma regions_renumbered j : Permutation (edge_regions t1 (s j)) (map p (edge_regions t2 j)).
Proof.
  pose proof R as (Ip & Is & L1 & L2 & G & E). destruct (renumbered_bound p s t1 t2 R) as (Bp & _).
  apply (Permutation_count_occ Nat.eq_dec). intros x. destruct (Nat.lt_ge_cases x (length (tp_regions t2))) as [Hx|Hx].
  - assert (B : bSurjective (length (tp_regions t2)) p) by (apply (proj1 (bInjective_bSurjective Bp)); intros a b _ _; apply Ip).
    destruct (B x Hx) as (i & Hi & <-). rewrite <- (count_occ_map p Nat.eq_dec Nat.eq_dec Ip).
    destruct (nth_error (tp_regions t2) i) as [g2|] eqn:G2; [|apply nth_error_None in G2; lia]. destruct (G i g2 G2) as (g1 & G1 & RR).
    rewrite (region_uses_regions t1 _ g1 _ G1), (region_uses_regions t2 _ g2 _ G2). apply uses_renumbered, RR.
  - rewrite !(proj1 (count_occ_not_In _ _ _)); [reflexivity| |].
    + intros H. apply in_map_iff in H as (i & <- & Hi). apply edge_region_bound in Hi. specialize (Bp i Hi). lia.
    + intros H. apply edge_region_bound in H. lia.
Qed.

Lemma normalize_region_renumbered m g1 g2 : In g1 (tp_regions t1) -> In g2 (tp_regions t2) -> renumbered_region s g1 g2 ->
  normalize_region m t1 g1 = normalize_region m t2 g2.
Proof. apply (normalize_region_alike p s t1 t2 X1 X2); [apply R|apply R|]. intros j _. apply regions_renumbered. Qed.
End Two.

Lemma mmap_perm_by {A B} (f g : A -> res B) p l1 l2 gs1 : Injective p -> length l1 = length l2 ->
  (forall i b, nth_error l2 i = Some b -> exists a, nth_error l1 (p i) = Some a /\ f a = g b) ->
  mmap f l1 = Ok gs1 -> exists gs2, mmap g l2 = Ok gs2 /\ Permutation gs1 gs2.
Proof.
  intros I L H E. pose proof (perm_by2 f g p l1 l2 I L H) as P.
  assert (F : forall (h : A -> res B) l gs, mmap h l = Ok gs -> map h l = map (@Ok B) gs).
  { clear. intros h l. induction l as [|a l IH]; intros gs E; cbn [mmap] in E; [injection E as <-; reflexivity|]. apply bind_Ok in E as (b & E1 & E). apply bind_Ok in E as (bs & E2 & E). injection E as <-. cbn [map]. rewrite E1, (IH bs E2). reflexivity. }
  assert (F' : forall (h : A -> res B) (l : list A) gs, map h l = map (@Ok B) gs -> mmap h l = Ok gs).
  { clear. intros h l. induction l as [|a l IH]; intros [|b gs] E; try discriminate; [reflexivity|]. injection E as E1 E2. cbn [mmap]. rewrite E1, (IH gs E2). reflexivity. }
  rewrite (F f l1 gs1 E) in P.
  destruct (Permutation_map_inv _ _ (Permutation_sym P)) as (gs2 & E2 & P2). exists gs2. split; [apply F'; exact E2|]. exact P2.
Qed.

Theorem normalize_shuffled {D} m (t1 t2 t1' : topology D) : shuffled t1 t2 -> normalize m t1 = Ok t1' ->
  exists t2', normalize m t2 = Ok t2' /\ shuffled t1' t2'.
Proof.
  intros (X1 & X2 & p & s & R) N. apply normalize_Ok in N as (gs1 & M1 & B1).
  destruct (mmap_perm_by (normalize_region m t1) (normalize_region m t2) p (tp_regions t1) (tp_regions t2) gs1) as (gs2 & M2 & P); [apply R|apply R| |exact M1|].
  - intros i g2 G2. pose proof R as (_ & _ & _ & _ & G & _). destruct (G i g2 G2) as (g1 & G1 & RR). exists g1. split; [exact G1|].
    apply (normalize_region_renumbered p s t1 t2 X1 X2 R m g1 g2); [apply nth_error_In in G1; exact G1|apply nth_error_In in G2; exact G2|exact RR].
  - destruct (build_shuffled m gs1 gs2 t1' P B1) as (t2' & B2 & S). exists t2'. split; [apply normalize_Ok; eauto|exact S].
Qed.
