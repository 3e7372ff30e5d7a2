(** * SimplifyProofs: lemmas about the unsafe heap of src/simplify/simplify_edge.rs *)
From Coq Require Import Permutation.
From Coq Require FinFun.
From Verif Require Import ClipSpec Simplify GeoProofs TopoProofs BuildProofs.

(** ** Lists *)
Lemma set_nth_same {A} (l : list A) i a : nth_error l i = Some a -> set_nth l i a = l.
Proof. revert i. induction l as [|x l IH]; intros [|i] H; cbn in *; try discriminate; [congruence|]. rewrite IH by assumption. reflexivity. Qed.
Lemma map_set_nth {A B} (f : A -> B) l i a : map f (set_nth l i a) = set_nth (map f l) i (f a).
Proof. revert i. induction l as [|x l IH]; intros [|i]; cbn; try reflexivity. rewrite IH. reflexivity. Qed.
Lemma set_nth_app {A} (l l' : list A) a b : set_nth (l ++ a :: l') (length l) b = l ++ b :: l'.
Proof. induction l as [|x l IH]; cbn; [reflexivity|]. rewrite IH. reflexivity. Qed.
Lemma nth_error_set_eq {A} (l : list A) i a : (i < length l)%nat -> nth_error (set_nth l i a) i = Some a.
Proof.
  intros H. rewrite nth_error_set_nth, Nat.eqb_refl. destruct (nth_error l i) eqn:E; [reflexivity|]. apply nth_error_None in E. lia.
Qed.
Lemma nth_error_set_neq {A} (l : list A) i j a : i <> j -> nth_error (set_nth l i a) j = nth_error l j.
Proof. intros H. rewrite nth_error_set_nth. destruct (Nat.eqb_spec i j); [contradiction|reflexivity]. Qed.
Lemma nth_error_lt {A} (l : list A) i a : nth_error l i = Some a -> (i < length l)%nat.
Proof. intros H. apply nth_error_Some. congruence. Qed.
Lemma nth_error_ge {A} (l : list A) i : (i < length l)%nat -> exists a, nth_error l i = Some a.
Proof. intros H. destruct (nth_error l i) eqn:E; [eauto|]. apply nth_error_None in E. lia. Qed.

Lemma last_in {A} (l : list A) d : l <> [] -> In (last l d) l.
Proof.
  induction l as [|x [|y l] IH]; intros H; [congruence|left; reflexivity|]. right. apply IH. discriminate.
Qed.
Lemma in_removelast {A} (l : list A) i : In i (removelast l) -> In i l.
Proof.
  induction l as [|x [|y l] IH]; [auto|intros []|]. change (removelast (x :: y :: l)) with (x :: removelast (y :: l)).
  intros [H|H]; [left; exact H|right; auto].
Qed.

Lemma swap_permutation {A} (l : list A) a b x y : nth_error l a = Some x -> nth_error l b = Some y ->
  Permutation l (set_nth (set_nth l a y) b x).
Proof.
  intros Ha Hb. apply Permutation_nth_error. split; [rewrite !set_nth_length; reflexivity|].
  exists (fun n => if Nat.eqb n a then b else if Nat.eqb n b then a else n). split.
  - intros n k. destruct (Nat.eqb_spec n a), (Nat.eqb_spec n b), (Nat.eqb_spec k a), (Nat.eqb_spec k b); subst; congruence.
  - intros n. pose proof (nth_error_lt _ _ _ Ha). pose proof (nth_error_lt _ _ _ Hb).
    destruct (Nat.eqb_spec n b) as [->|Hnb].
    + rewrite nth_error_set_eq by (rewrite set_nth_length; assumption). destruct (Nat.eqb_spec b a) as [->|]; congruence.
    + rewrite nth_error_set_neq by congruence. destruct (Nat.eqb_spec n a) as [->|Hna].
      * rewrite nth_error_set_eq by assumption. congruence.
      * rewrite nth_error_set_neq by congruence. reflexivity.
Qed.

Lemma mmap_cases {A B} (m : mode) (f : A -> res B) (P : A -> B -> Prop) l :
  (forall a, In a l -> (m = Debug /\ f a = Panic POverflow) \/ exists b, f a = Ok b /\ P a b) ->
  (m = Debug /\ mmap f l = Panic POverflow) \/ exists bs, mmap f l = Ok bs /\ Forall2 P l bs.
Proof.
  induction l as [|a l IH]; intros H; [right; exists []; split; [reflexivity|constructor]|]. cbn [mmap].
  destruct (H a (or_introl eq_refl)) as [[Hm E]|(b & E & Hb)]; rewrite E; cbn [bind]; [left; auto|].
  destruct IH as [[Hm E']|(bs & E' & HF)]; [intros; apply H; right; assumption| |]; rewrite E'; cbn [bind]; [left; auto|].
  right. exists (b :: bs). split; [reflexivity|constructor; assumption].
Qed.

(** ** Weights *)
Lemma i64_ret_cases m z : (m = Debug /\ i64_ret m z = Panic POverflow) \/ exists r, i64_ret m z = Ok r.
Proof. unfold i64_ret. destruct (in_i64 z); [right; eauto|]. destruct m; [left; auto|right; eauto]. Qed.

Lemma as_u64_range z : 0 <= as_u64 z <= u64_max.
Proof. unfold as_u64, u64_max, two64. pose proof (Z.mod_pos_bound z (2 ^ 64)). lia. Qed.

Lemma bind_cases {A B} (m : mode) (x : res A) (k : A -> res B) (P : B -> Prop) :
  (m = Debug /\ x = Panic POverflow) \/ (exists a, x = Ok a) ->
  (forall a, x = Ok a -> (m = Debug /\ k a = Panic POverflow) \/ exists b, k a = Ok b /\ P b) ->
  (m = Debug /\ bind x k = Panic POverflow) \/ exists b, bind x k = Ok b /\ P b.
Proof. intros [[Hm ->]|[a ->]] H; cbn [bind]; [left; auto|]. apply H. reflexivity. Qed.

Lemma weight2_cases m a b c : (m = Debug /\ weight2 m a b c = Panic POverflow) \/
  exists w, weight2 m a b c = Ok w /\ 0 <= w <= u64_max.
Proof.
  unfold weight2, i64_mul, i64_sub, i64_abs.
  repeat (apply bind_cases; [apply i64_ret_cases|intros ? _]).
  right. eexists. split; [reflexivity|apply as_u64_range].
Qed.

(** ** Points without their heap index *)
Record coret := CO { co_geo : point; co_weight : Z; co_next : option nat; co_prev : option nat }.
Definition core (p : vpoint) : coret := CO (vp_geo p) (vp_weight p) (vp_next p) (vp_prev p).
Definition cores (h : pheap) : list coret := map core (ph_points h).

Lemma vget_ok h i p : nth_error (ph_points h) i = Some p -> vget h i = Ok p.
Proof. intros H. unfold vget, get_or. rewrite H. reflexivity. Qed.
Lemma vupd_ok h i p f : nth_error (ph_points h) i = Some p ->
  vupd h i f = Ok (PH (set_nth (ph_points h) i (f p)) (ph_heap h)).
Proof. intros H. unfold vupd. rewrite (vget_ok h i p H). reflexivity. Qed.
Lemma get_ok {A} (l : list A) i a : nth_error l i = Some a -> get l i = Ok a.
Proof. intros H. unfold get, get_or. rewrite H. reflexivity. Qed.

Lemma cores_set_heap pts i p k : nth_error pts i = Some p -> map core (set_nth pts i (set_heap k p)) = map core pts.
Proof.
  intros H. rewrite map_set_nth. apply set_nth_same. change (core (set_heap k p)) with (core p).
  rewrite nth_error_map, H. reflexivity.
Qed.

Definition index_ok (heap : list nat) (i : nat) (p : vpoint) : Prop :=
  vp_heap p = 0%nat \/ nth_error heap (vp_heap p) = Some i.

(** The heap holds distinct points; a heap index is right or 0. *)
Definition hok (h : pheap) : Prop :=
  NoDup (ph_heap h) /\
  forall k i, nth_error (ph_heap h) k = Some i ->
    exists p, nth_error (ph_points h) i = Some p /\ index_ok (ph_heap h) i p.

Definition same (h h' : pheap) : Prop := cores h' = cores h /\ Permutation (ph_heap h) (ph_heap h') /\ hok h'.

Lemma same_refl h : hok h -> same h h.
Proof. intros H. split; [reflexivity|]. split; [apply Permutation_refl|assumption]. Qed.
Lemma same_trans a b c : same a b -> same b c -> same a c.
Proof. intros (H1 & H2 & H3) (H4 & H5 & H6). split; [congruence|]. split; [eapply Permutation_trans; eassumption|assumption]. Qed.

Lemma hweight_ok h k : hok h -> (k < length (ph_heap h))%nat -> exists i p, nth_error (ph_heap h) k = Some i /\
  nth_error (ph_points h) i = Some p /\ hweight h k = Ok (vp_weight p).
Proof.
  intros (_ & H) Hk. destruct (nth_error_ge _ _ Hk) as [i Hi]. destruct (H k i Hi) as (p & Hp & _).
  exists i, p. split; [assumption|]. split; [assumption|]. unfold hweight. rewrite (get_ok _ _ _ Hi). cbn [bind].
  rewrite (vget_ok _ _ _ Hp). reflexivity.
Qed.

Lemma hswap_ok h a b : hok h -> a <> b -> (a < length (ph_heap h))%nat -> (b < length (ph_heap h))%nat ->
  exists h' ia ib, hswap h a b = Ok h' /\ same h h' /\
    nth_error (ph_heap h) a = Some ia /\ nth_error (ph_heap h) b = Some ib /\
    ph_heap h' = set_nth (set_nth (ph_heap h) a ib) b ia.
Proof.
  intros Hh Hab La Lb. pose proof Hh as (Hnd & HI).
  destruct (nth_error_ge _ _ La) as [ia Ha], (nth_error_ge _ _ Lb) as [ib Hb].
  destruct (HI a ia Ha) as (pa & Hpa & _), (HI b ib Hb) as (pb & Hpb & _).
  assert (Hne : ia <> ib). { intros ->. apply Hab. eapply NoDup_nth_error_inj; eassumption. }
  unfold hswap. rewrite (get_ok _ _ _ Ha), (get_ok _ _ _ Hb). cbn [bind].
  rewrite (vupd_ok _ ib pb) by exact Hpb. cbn [bind ph_points ph_heap].
  rewrite (vupd_ok _ ia pa) by (cbn [ph_points]; rewrite nth_error_set_neq by congruence; exact Hpa). cbn [ph_points ph_heap].
  set (heap' := set_nth (set_nth (ph_heap h) a ib) b ia).
  assert (HP : Permutation (ph_heap h) heap') by (apply swap_permutation; assumption).
  eexists _, ia, ib. split; [reflexivity|]. split; [|auto].
  split; [|split; [exact HP|split]]; cbn [cores ph_points ph_heap].
  - unfold cores. cbn [ph_points]. rewrite cores_set_heap by (rewrite nth_error_set_neq by congruence; exact Hpa).
    apply cores_set_heap, Hpb.
  - eapply Permutation_NoDup; [exact HP|exact Hnd].
  - intros k i Hk. assert (Hnd' : NoDup heap') by (eapply Permutation_NoDup; [exact HP|exact Hnd]).
    assert (Ea : nth_error heap' a = Some ib).
    { unfold heap'. rewrite nth_error_set_neq by congruence. apply nth_error_set_eq, La. }
    assert (Eb : nth_error heap' b = Some ia).
    { unfold heap'. apply nth_error_set_eq. rewrite set_nth_length. exact Lb. }
    destruct (Nat.eq_dec i ia) as [->|Hia].
    { exists (set_heap b pa). split; [|right; exact Eb]. apply nth_error_set_eq. rewrite set_nth_length. eapply nth_error_lt, Hpa. }
    rewrite nth_error_set_neq by congruence.
    destruct (Nat.eq_dec i ib) as [->|Hib].
    { exists (set_heap a pb). split; [|right; exact Ea]. apply nth_error_set_eq. eapply nth_error_lt, Hpb. }
    rewrite nth_error_set_neq by congruence.
    assert (Hin : In i (ph_heap h)) by (eapply Permutation_in; [apply Permutation_sym, HP|eapply nth_error_In, Hk]).
    apply In_nth_error in Hin as [k0 Hk0]. destruct (HI k0 i Hk0) as (p & Hp & [H0|H0]); exists p; (split; [exact Hp|]); [left; exact H0|].
    right. assert (vp_heap p <> a /\ vp_heap p <> b) as [N1 N2] by (split; intros E; rewrite E in H0; congruence).
    unfold heap'. rewrite !nth_error_set_neq by congruence. exact H0.
Qed.

Lemma same_length h h' : same h h' -> length (ph_heap h') = length (ph_heap h).
Proof. intros (_ & H & _). symmetry. apply Permutation_length, H. Qed.

Lemma sift_down_ok fuel h start root end_ : hok h -> (end_ < length (ph_heap h))%nat -> (start <= root)%nat ->
  (length (ph_heap h) < fuel + root)%nat -> (0 < fuel)%nat ->
  exists h', sift_down fuel h start root end_ = Ok h' /\ same h h'.
Proof.
  revert h root. induction fuel as [|fuel IH]; intros h root Hh He Hs Hf H0; [lia|]. cbn [sift_down].
  unfold left_child. destruct (Nat.leb_spec (2 * root + 1) end_) as [Hc|Hc].
  2:{ exists h. split; [reflexivity|apply same_refl, Hh]. }
  destruct (hweight_ok h start Hh ltac:(lia)) as (_ & p1 & _ & _ & ->).
  destruct (hweight_ok h (2 * root + 1) Hh ltac:(lia)) as (_ & p2 & _ & _ & ->). cbn [bind].
  set (swap1 := if vp_weight p2 <? vp_weight p1 then (2 * root + 1)%nat else root).
  assert (H1 : (root <= swap1 <= end_)%nat) by (subst swap1; destruct (_ <? _); lia).
  assert (H1' : swap1 = root \/ (root < swap1)%nat) by (subst swap1; destruct (_ <? _); lia).
  clearbody swap1.
  set (x := if Nat.leb (2 * root + 1 + 1) end_ then _ else _).
  assert (HX : exists s2, x = Ok s2 /\ (root <= s2 <= end_)%nat).
  { subst x. destruct (Nat.leb_spec (2 * root + 1 + 1) end_) as [Hc'|Hc']; [|exists swap1; auto].
    destruct (hweight_ok h swap1 Hh ltac:(lia)) as (_ & p3 & _ & _ & ->).
    destruct (hweight_ok h (2 * root + 1 + 1) Hh ltac:(lia)) as (_ & p4 & _ & _ & ->). cbn [bind].
    eexists. split; [reflexivity|]. destruct (_ <? _); lia. }
  destruct HX as (s2 & -> & Hs2). cbn [bind]. destruct (Nat.eqb_spec s2 root) as [->|Hne].
  { exists h. split; [reflexivity|apply same_refl, Hh]. }
  destruct (hswap_ok h root s2 Hh ltac:(congruence) ltac:(lia) ltac:(lia)) as (h' & _ & _ & -> & Hsame & _). cbn [bind].
  pose proof (same_length _ _ Hsame) as HL.
  destruct (IH h' s2) as (h'' & E & Hsame'); [apply Hsame|lia|lia|lia| |].
  { lia. }
  exists h''. split; [exact E|eapply same_trans; eassumption].
Qed.

Lemma parent_lt child : (0 < child)%nat -> (parent child < child)%nat.
Proof. intros H. unfold parent. apply Nat.div_lt_upper_bound; lia. Qed.

Lemma sift_up_ok fuel h start child : hok h -> (child < length (ph_heap h))%nat -> (child < fuel)%nat ->
  exists h', sift_up fuel h start child = Ok h' /\ same h h'.
Proof.
  revert h child. induction fuel as [|fuel IH]; intros h child Hh Hc Hf; [lia|]. cbn [sift_up].
  destruct (Nat.ltb_spec start child) as [Hs|Hs].
  2:{ exists h. split; [reflexivity|apply same_refl, Hh]. }
  pose proof (parent_lt child ltac:(lia)) as Hp.
  destruct (hweight_ok h (parent child) Hh ltac:(lia)) as (_ & p1 & _ & _ & ->).
  destruct (hweight_ok h child Hh ltac:(lia)) as (_ & p2 & _ & _ & ->). cbn [bind].
  destruct (_ <? _). 2:{ exists h. split; [reflexivity|apply same_refl, Hh]. }
  destruct (hswap_ok h (parent child) child Hh ltac:(lia) ltac:(lia) ltac:(lia)) as (h' & _ & _ & -> & Hsame & _). cbn [bind].
  pose proof (same_length _ _ Hsame) as HL.
  destruct (IH h' (parent child)) as (h'' & E & Hsame'); [apply Hsame|lia|lia|].
  exists h''. split; [exact E|eapply same_trans; eassumption].
Qed.

Lemma heapify_loop_ok start h end_ : hok h -> (end_ < length (ph_heap h))%nat ->
  exists h', heapify_loop start h end_ = Ok h' /\ same h h'.
Proof.
  revert h. induction start as [|start IH]; intros h Hh He; cbn [heapify_loop].
  - destruct (sift_down_ok (sift_fuel h) h 0 0 end_ Hh He) as (h' & -> & Hs); [lia|unfold sift_fuel; lia..|].
    exists h'. split; [reflexivity|exact Hs].
  - destruct (sift_down_ok (sift_fuel h) h (S start) (S start) end_ Hh He) as (h' & -> & Hs); [lia|unfold sift_fuel; lia..|].
    cbn [bind]. destruct (IH h') as (h'' & E & Hs'); [apply Hs|rewrite (same_length _ _ Hs); exact He|].
    exists h''. split; [exact E|eapply same_trans; eassumption].
Qed.

Lemma heapify_ok h : hok h -> exists h', heapify h = Ok h' /\ same h h'.
Proof.
  intros Hh. unfold heapify. destruct (Nat.ltb_spec 1 (length (ph_heap h))) as [H|H].
  - apply heapify_loop_ok; [assumption|lia].
  - exists h. split; [reflexivity|apply same_refl, Hh].
Qed.

(** ** The linked list *)
Definition nx (c : list coret) (i : nat) : option nat := match nth_error c i with Some t => co_next t | None => None end.
Definition pv (c : list coret) (i : nat) : option nat := match nth_error c i with Some t => co_prev t | None => None end.

Fixpoint linked (c : list coret) (L : list nat) : Prop :=
  match L with
  | x :: ((y :: _) as t) => nx c x = Some y /\ pv c y = Some x /\ linked c t
  | _ => True
  end.

Lemma linked_app c A x B : linked c (A ++ x :: B) <-> linked c (A ++ [x]) /\ linked c (x :: B).
Proof.
  induction A as [|a A IH]; [cbn; tauto|]. destruct A as [|a' A].
  - cbn [app linked]. cbn [app linked] in IH. tauto.
  - cbn [app linked] in *. tauto.
Qed.

Lemma linked_congr c c' L : (forall i, In i (removelast L) -> nx c' i = nx c i) -> (forall i, In i (tl L) -> pv c' i = pv c i) ->
  linked c L -> linked c' L.
Proof.
  induction L as [|x [|y L] IH]; intros H1 H2; [auto|auto|]. cbn [linked]. intros (Hn & Hp & HL). split; [|split].
  - rewrite H1; [exact Hn|left; reflexivity].
  - rewrite H2; [exact Hp|left; reflexivity].
  - apply IH; [|intros i Hi; apply H2; right; exact Hi|exact HL].
    intros i Hi. apply H1. change (removelast (x :: y :: L)) with (x :: removelast (y :: L)). right. exact Hi.
Qed.

(** Facts that always hold. *)
Record einv (ps : list point) (c : list coret) : Prop := {
  ei_geo : map co_geo c = ps;
  ei_len : (2 <= length ps)%nat;
  ei_first : exists n, nth_error c 0 = Some (CO (nth 0 ps (Pt 0 0)) u64_max n None);
  ei_last : exists p, nth_error c (length ps - 1) = Some (CO (nth (length ps - 1) ps (Pt 0 0)) u64_max None p);
  ei_range : forall i t j, nth_error c i = Some t -> co_next t = Some j \/ co_prev t = Some j -> (j < length ps)%nat;
  ei_weight : Forall (fun t => 0 <= co_weight t <= u64_max) c }.

Lemma einv_length ps c : einv ps c -> length c = length ps.
Proof. intros H. rewrite <- (ei_geo ps c H), map_length. reflexivity. Qed.

Definition interior (ps : list point) (i : nat) : Prop := (0 < i < length ps - 1)%nat.

(** Set the weight of an interior point. *)
Lemma einv_set_weight ps c i t w : einv ps c -> nth_error c i = Some t -> interior ps i -> 0 <= w <= u64_max ->
  einv ps (set_nth c i (CO (co_geo t) w (co_next t) (co_prev t))).
Proof.
  intros [H1 H2 (n & H3) (p & H4) H5 H6] Ht Hi Hw. constructor; [| assumption | | | |].
  - rewrite map_set_nth. cbn [co_geo]. rewrite set_nth_same; [exact H1|]. rewrite nth_error_map, Ht. reflexivity.
  - exists n. rewrite nth_error_set_neq by (unfold interior in Hi; lia). exact H3.
  - exists p. rewrite nth_error_set_neq by (unfold interior in Hi; lia). exact H4.
  - intros k t' j Hk Hj. destruct (Nat.eq_dec i k) as [<-|Hne].
    + rewrite nth_error_set_eq in Hk by (eapply nth_error_lt, Ht). injection Hk as <-. cbn in Hj. eapply H5; eassumption.
    + rewrite nth_error_set_neq in Hk by exact Hne. eapply H5; eassumption.
  - apply Forall_forall. intros t' Ht'. apply In_nth_error in Ht' as [k Hk]. destruct (Nat.eq_dec i k) as [<-|Hne].
    + rewrite nth_error_set_eq in Hk by (eapply nth_error_lt, Ht). injection Hk as <-. exact Hw.
    + rewrite nth_error_set_neq in Hk by exact Hne. rewrite Forall_forall in H6. eapply H6, nth_error_In, Hk.
Qed.

Lemma nx_set_weight c i t w k : nth_error c i = Some t -> nx (set_nth c i (CO (co_geo t) w (co_next t) (co_prev t))) k = nx c k.
Proof.
  intros Ht. unfold nx. rewrite nth_error_set_nth. destruct (Nat.eqb_spec i k) as [<-|]; [|reflexivity]. rewrite Ht. reflexivity.
Qed.
Lemma pv_set_weight c i t w k : nth_error c i = Some t -> pv (set_nth c i (CO (co_geo t) w (co_next t) (co_prev t))) k = pv c k.
Proof.
  intros Ht. unfold pv. rewrite nth_error_set_nth. destruct (Nat.eqb_spec i k) as [<-|]; [|reflexivity]. rewrite Ht. reflexivity.
Qed.

Definition heap_interior (ps : list point) (h : pheap) : Prop := forall i, In i (ph_heap h) -> interior ps i.

Lemma hok_set_weight h i p w : hok h -> nth_error (ph_points h) i = Some p ->
  hok (PH (set_nth (ph_points h) i (set_weight w p)) (ph_heap h)).
Proof.
  intros (H1 & H2) Hp. split; [exact H1|]. cbn [ph_heap ph_points]. intros k j Hk. destruct (H2 k j Hk) as (q & Hq & HI).
  destruct (Nat.eq_dec i j) as [<-|Hne].
  - exists (set_weight w p). split; [apply nth_error_set_eq; eapply nth_error_lt, Hp|]. assert (q = p) as -> by congruence. exact HI.
  - exists q. split; [rewrite nth_error_set_neq by exact Hne; exact Hq|exact HI].
Qed.

(** What recalculating a weight and popping leave alone. *)
Definition only_weights (c c' : list coret) : Prop := forall k, nx c' k = nx c k /\ pv c' k = pv c k.
Definition wt (c : list coret) (k : nat) : option Z := option_map co_weight (nth_error c k).
Definition frozen (h h' : pheap) : Prop := forall k, ~ In k (ph_heap h) -> wt (cores h') k = wt (cores h) k.

Lemma recalc_ok m ps h bi : hok h -> einv ps (cores h) -> heap_interior ps h ->
  (bi = 0%nat \/ bi = (length ps - 1)%nat \/ In bi (ph_heap h)) ->
  (m = Debug /\ recalc m h bi = Panic POverflow) \/
  exists h', recalc m h bi = Ok h' /\ hok h' /\ einv ps (cores h') /\ Permutation (ph_heap h) (ph_heap h') /\
    only_weights (cores h) (cores h') /\ frozen h h'.
Proof.
  intros Hh He Hi Hb. pose proof (einv_length _ _ He) as HL. unfold cores in HL. rewrite map_length in HL. pose proof (ei_len _ _ He) as H2.
  assert (Hbl : (bi < length (ph_points h))%nat).
  { destruct Hb as [->|[->|Hb]]; [lia|lia|]. apply Hi in Hb. unfold interior in Hb. lia. }
  destruct (nth_error_ge _ _ Hbl) as [b Eb].
  assert (Ec : nth_error (cores h) bi = Some (core b)) by (unfold cores; rewrite nth_error_map, Eb; reflexivity).
  unfold recalc. rewrite (vget_ok _ _ _ Eb). cbn [bind].
  assert (HK : forall h0, Ok h0 = Ok h -> (m = Debug /\ Ok h0 = Panic POverflow) \/ exists h', Ok h0 = Ok h' /\ hok h' /\ einv ps (cores h') /\ Permutation (ph_heap h) (ph_heap h') /\
    only_weights (cores h) (cores h') /\ frozen h h').
  { intros h0 [= ->]. right. exists h. split; [reflexivity|]. split; [exact Hh|]. split; [exact He|]. split; [apply Permutation_refl|]. split; intros k; auto. }
  destruct (vp_prev b) as [ai|] eqn:Ep; [|apply HK; reflexivity]. destruct (vp_next b) as [ci|] eqn:En; [|apply HK; reflexivity].
  assert (Hin : In bi (ph_heap h)).
  { destruct Hb as [->|[->|Hb]]; [| |exact Hb].
    - destruct (ei_first _ _ He) as [n E0]. rewrite E0 in Ec. injection Ec as Ec. assert (None = vp_prev b) by congruence. congruence.
    - destruct (ei_last _ _ He) as [n E0]. rewrite E0 in Ec. injection Ec as Ec. assert (None = vp_next b) by congruence. congruence. }
  assert (Hai : (ai < length (ph_points h))%nat) by (rewrite HL; eapply (ei_range _ _ He); [exact Ec|right; exact Ep]).
  assert (Hci : (ci < length (ph_points h))%nat) by (rewrite HL; eapply (ei_range _ _ He); [exact Ec|left; exact En]).
  destruct (nth_error_ge _ _ Hai) as [a Ea], (nth_error_ge _ _ Hci) as [c Ecc].
  rewrite (vget_ok _ _ _ Ea), (vget_ok _ _ _ Ecc). cbn [bind].
  destruct (weight2_cases m (vp_geo a) (vp_geo b) (vp_geo c)) as [[Hm E]|(w & E & Hw)]; rewrite E; cbn [bind]; [left; auto|].
  rewrite (vupd_ok h bi b) by exact Eb. cbn [bind].
  set (h1 := PH (set_nth (ph_points h) bi (set_weight w b)) (ph_heap h)).
  assert (Hh1 : hok h1) by (apply hok_set_weight; assumption).
  assert (Hc1 : cores h1 = set_nth (cores h) bi (CO (co_geo (core b)) w (co_next (core b)) (co_prev (core b)))).
  { unfold cores, h1. cbn [ph_points]. rewrite map_set_nth. reflexivity. }
  assert (He1 : einv ps (cores h1)).
  { rewrite Hc1. apply einv_set_weight; [assumption|assumption|apply Hi, Hin|assumption]. }
  assert (Ho1 : only_weights (cores h) (cores h1)).
  { intros k. rewrite Hc1. split; [apply nx_set_weight, Ec|apply pv_set_weight, Ec]. }
  assert (Hf1 : frozen h h1).
  { intros k Hk. unfold wt. rewrite Hc1, nth_error_set_neq; [reflexivity|intros <-; contradiction]. }
  assert (Hbh : (vp_heap b < length (ph_heap h))%nat).
  { destruct Hh as (_ & HI). apply In_nth_error in Hin as [k Hk]. destruct (HI k bi Hk) as (p & Hp & [H0|H0]).
    - assert (p = b) as -> by congruence. rewrite H0. apply nth_error_lt in Hk. lia.
    - assert (p = b) as -> by congruence. eapply nth_error_lt, H0. }
  assert (HF : forall x, (exists h', x = Ok h' /\ same h1 h') ->
    (m = Debug /\ x = Panic POverflow) \/ exists h', x = Ok h' /\ hok h' /\ einv ps (cores h') /\ Permutation (ph_heap h) (ph_heap h') /\
      only_weights (cores h) (cores h') /\ frozen h h').
  { intros x (h' & -> & (Hs1 & Hs2 & Hs3)). right. exists h'. unfold frozen. rewrite Hs1. split; [reflexivity|]. split; [exact Hs3|]. split; [exact He1|]. split; [exact Hs2|]. split; [exact Ho1|exact Hf1]. }
  destruct (w <? vp_weight b).
  { apply HF. apply sift_up_ok; [assumption|exact Hbh|unfold sift_fuel; cbn [ph_heap h1]; lia]. }
  destruct (vp_weight b <? w); [|apply HK; reflexivity].
  cbn [ph_heap h1]. destruct (Nat.leb_spec 1 (length (ph_heap h))); [|lia]. cbn [bind].
  apply HF. apply sift_down_ok; [assumption|cbn [ph_heap h1]; lia|lia|unfold sift_fuel; cbn [ph_heap h1]; lia..].
Qed.

(** ** pop *)
Lemma nx_some c i j : nx c i = Some j -> exists t, nth_error c i = Some t /\ co_next t = Some j.
Proof. unfold nx. destruct (nth_error c i) as [t|]; [eauto|discriminate]. Qed.
Lemma pv_some c i j : pv c i = Some j -> exists t, nth_error c i = Some t /\ co_prev t = Some j.
Proof. unfold pv. destruct (nth_error c i) as [t|]; [eauto|discriminate]. Qed.

Lemma cores_nth h i t : nth_error (cores h) i = Some t -> exists p, nth_error (ph_points h) i = Some p /\ core p = t.
Proof. unfold cores. rewrite nth_error_map. destruct (nth_error (ph_points h) i) as [p|]; [|discriminate]. cbn. intros [= <-]. eauto. Qed.

Definition rest_of (top : nat) (l : list nat) : list nat := remove Nat.eq_dec top l.

(** Set next/prev. *)
Lemma hok_links h i p q : hok h -> nth_error (ph_points h) i = Some p -> vp_heap q = vp_heap p ->
  hok (PH (set_nth (ph_points h) i q) (ph_heap h)).
Proof.
  intros (H1 & H2) Hp Hq. split; [exact H1|]. cbn [ph_heap ph_points]. intros k j Hk. destruct (H2 k j Hk) as (r & Hr & HI).
  destruct (Nat.eq_dec i j) as [<-|Hne].
  - exists q. split; [apply nth_error_set_eq; eapply nth_error_lt, Hp|]. assert (r = p) as -> by congruence. unfold index_ok in *. rewrite Hq. exact HI.
  - exists r. split; [rewrite nth_error_set_neq by exact Hne; exact Hr|exact HI].
Qed.

(** The state right after moving the last heap entry to the top. *)
Lemma hok_pop h last lp : hok h -> (2 <= length (ph_heap h))%nat ->
  nth_error (ph_heap h) (length (ph_heap h) - 1) = Some last -> nth_error (ph_points h) last = Some lp ->
  hok (PH (set_nth (ph_points h) last (set_heap 0 lp)) (set_nth (removelast (ph_heap h)) 0 last)) /\
  exists top rest, ph_heap h = top :: rest /\ Permutation rest (set_nth (removelast (ph_heap h)) 0 last).
Proof.
  intros (Hnd & HI) Hl El Elp.
  assert (HS : exists top mid, ph_heap h = top :: mid ++ [last]).
  { destruct (ph_heap h) as [|top rest]; [cbn in Hl; lia|]. exists top. destruct (exists_last (l := rest)) as (mid & z & ->).
    - intros ->. cbn in Hl. lia.
    - exists mid. cbn [length] in El. rewrite app_length in El. cbn [length] in El. replace (S (length mid + 1) - 1)%nat with (S (length mid)) in El by lia.
      cbn [nth_error] in El. rewrite nth_error_app2 in El by lia. rewrite Nat.sub_diag in El. injection El as ->. reflexivity. }
  destruct HS as (top & mid & EH). rewrite EH in *.
  assert (ER : removelast (top :: mid ++ [last]) = top :: mid).
  { change (top :: mid ++ [last]) with ((top :: mid) ++ [last]). apply removelast_last. }
  rewrite ER. cbn [set_nth].
  assert (HP : Permutation (mid ++ [last]) (last :: mid)) by (apply Permutation_sym, Permutation_cons_append).
  split; [split|]; cbn [ph_heap ph_points].
  - eapply Permutation_NoDup; [exact HP|]. inversion Hnd; assumption.
  - intros k i Hk. destruct (Nat.eq_dec last i) as [<-|Hne].
    + exists (set_heap 0 lp). split; [apply nth_error_set_eq; eapply nth_error_lt, Elp|]. left. reflexivity.
    + rewrite nth_error_set_neq by exact Hne. destruct k as [|k]; [cbn in Hk; congruence|]. cbn [nth_error] in Hk.
      destruct (HI (S k) i) as (p & Hp & HH); [cbn [nth_error]; rewrite nth_error_app1 by (eapply nth_error_lt, Hk); exact Hk|].
      exists p. split; [exact Hp|]. destruct HH as [H0|H0]; [left; exact H0|]. destruct (vp_heap p) as [|x] eqn:Ex; [left; exact Ex|right].
      rewrite Ex. cbn [nth_error] in *. destruct (Nat.lt_ge_cases x (length mid)) as [Hx|Hx].
      * rewrite nth_error_app1 in H0 by exact Hx. exact H0.
      * rewrite nth_error_app2 in H0 by exact Hx. destruct (x - length mid)%nat as [|y]; cbn in H0; [congruence|]. destruct y; discriminate.
  - exists top, (mid ++ [last]). split; [reflexivity|exact HP].
Qed.

Definition list_of (ps : list point) (mid : list nat) : list nat := 0%nat :: mid ++ [(length ps - 1)%nat].

Record binv (ps : list point) (h : pheap) (mid : list nat) : Prop := {
  bi_hok : hok h;
  bi_einv : einv ps (cores h);
  bi_perm : Permutation mid (ph_heap h);
  bi_int : forall i, In i mid -> interior ps i;
  bi_link : linked (cores h) (list_of ps mid) }.

Lemma list_of_NoDup ps mid : (2 <= length ps)%nat -> NoDup mid -> (forall i, In i mid -> interior ps i) -> NoDup (list_of ps mid).
Proof.
  intros H2 Hn Hi. unfold list_of. constructor.
  - rewrite in_app_iff. intros [H|[H|[]]]; [apply Hi in H; unfold interior in H; lia|lia].
  - apply NoDup_snoc; [assumption|]. intros H. apply Hi in H. unfold interior in H. lia.
Qed.

Lemma hpop_ok ps h mid : binv ps h mid -> ph_heap h <> [] ->
  exists top h' A B x y, hpop h = Ok (top, h') /\ mid = A ++ top :: B /\ nth_error (ph_heap h) 0 = Some top /\
    hok h' /\ einv ps (cores h') /\ Permutation (A ++ B) (ph_heap h') /\
    (ph_heap h' = [] \/ linked (cores h') (list_of ps (A ++ B))) /\
    map co_weight (cores h') = map co_weight (cores h) /\
    pv (cores h') top = Some x /\ nx (cores h') top = Some y /\
    (x = 0%nat \/ In x (A ++ B)) /\ (y = (length ps - 1)%nat \/ In y (A ++ B)) /\
    pv (cores h) top = Some x /\ nx (cores h) top = Some y /\
    (ph_heap h' = [] \/ forall k, (k <> x -> nx (cores h') k = nx (cores h) k) /\ (k <> y -> pv (cores h') k = pv (cores h) k)).
Proof.
  intros [Hh He Hp Hi Hl] Hne. pose proof (ei_len _ _ He) as H2.
  destruct (ph_heap h) as [|top rest] eqn:EH; [congruence|].
  assert (Hnd : NoDup mid) by (eapply Permutation_NoDup; [apply Permutation_sym, Hp|rewrite <- EH; apply Hh]).
  assert (Htop : In top mid) by (eapply Permutation_in; [apply Permutation_sym, Hp|left; reflexivity]).
  apply in_split in Htop as (A & B & ->).
  assert (HrAB : Permutation (A ++ B) rest) by (eapply Permutation_app_inv_l with (l := [top]); cbn [app]; eapply Permutation_trans; [apply Permutation_middle|exact Hp]).
  set (x := last (0%nat :: A) 0%nat). set (y := hd (length ps - 1)%nat B).
  assert (EL : exists A' B', list_of ps (A ++ top :: B) = A' ++ x :: top :: y :: B' /\ list_of ps (A ++ B) = A' ++ x :: y :: B').
  { exists (removelast (0%nat :: A)), (tl (B ++ [(length ps - 1)%nat])).
    assert (E1 : 0%nat :: A = removelast (0%nat :: A) ++ [x]) by (apply app_removelast_last; discriminate).
    assert (E2 : B ++ [(length ps - 1)%nat] = y :: tl (B ++ [(length ps - 1)%nat])) by (subst y; destruct B; reflexivity).
    unfold list_of. rewrite <- !app_assoc. cbn [app]. split.
    - change (0%nat :: A ++ top :: B ++ [(length ps - 1)%nat]) with ((0%nat :: A) ++ top :: B ++ [(length ps - 1)%nat]).
      rewrite E1 at 1. rewrite <- app_assoc. cbn [app]. rewrite E2 at 1. reflexivity.
    - change (0%nat :: A ++ B ++ [(length ps - 1)%nat]) with ((0%nat :: A) ++ B ++ [(length ps - 1)%nat]).
      rewrite E1 at 1. rewrite <- app_assoc. cbn [app]. rewrite E2 at 1. reflexivity. }
  destruct EL as (A' & B' & EL & EL'). rewrite EL in Hl.
  assert (Hlx : pv (cores h) top = Some x /\ nx (cores h) top = Some y /\ linked (cores h) (A' ++ [x]) /\ linked (cores h) (y :: B')).
  { apply linked_app in Hl as [Hl1 Hl2]. cbn [linked] in Hl2. destruct Hl2 as (L1 & L2 & L3 & L4 & L5). auto. }
  destruct Hlx as (Hpx & Hny & HlA & HlB).
  assert (Hx : x = 0%nat \/ In x (A ++ B)).
  { subst x. destruct A as [|a A0]; [left; reflexivity|right]. apply in_or_app. left. change (last (0%nat :: a :: A0) 0%nat) with (last (a :: A0) 0%nat).
    apply last_in. discriminate. }
  assert (Hy : y = (length ps - 1)%nat \/ In y (A ++ B)).
  { subst y. destruct B as [|b B0]; [left; reflexivity|right]. apply in_or_app. right. left. reflexivity. }
  clearbody x y.
  assert (Hnl : NoDup (A' ++ x :: top :: y :: B')) by (rewrite <- EL; apply list_of_NoDup; assumption).
  exists top. unfold hpop. rewrite EH. cbn [length]. cbn [Nat.leb rassert bind]. unfold get at 1, get_or at 1. cbn [nth_error bind].
  destruct (Nat.eqb_spec (S (length rest)) 1) as [E1|E1].
  { destruct rest; [|discriminate]. assert (A ++ B = []) as HAB by (apply Permutation_nil, Permutation_sym, HrAB).
    exists (PH (ph_points h) []), A, B, x, y. rewrite HAB. split; [reflexivity|]. split; [reflexivity|]. split; [reflexivity|].
    split; [split; [constructor|intros [|k] i; discriminate]|]. split; [exact He|]. split; [apply Permutation_refl|].
    split; [left; reflexivity|]. split; [reflexivity|]. rewrite HAB in Hx, Hy. auto 10. }
  assert (Hlen : (2 <= length (ph_heap h))%nat) by (rewrite EH; destruct rest; cbn in *; lia).
  destruct (nth_error_ge (ph_heap h) (length (ph_heap h) - 1)) as [last Elast]; [lia|].
  pose proof Hh as (Hndh & HI). destruct (HI _ _ Elast) as (lp & Elp & _).
  rewrite EH in Elast. cbn [length] in Elast. rewrite (get_ok _ _ _ Elast). cbn [bind].
  destruct (hok_pop h last lp Hh Hlen) as (Hh1 & top' & rest' & ET & HPr); [rewrite EH; exact Elast|exact Elp|].
  rewrite EH in ET. injection ET as <- <-. rewrite EH in Hh1, HPr.
  rewrite (vupd_ok _ last lp) by exact Elp. cbn [bind ph_points ph_heap].
  set (h2 := PH (set_nth (ph_points h) last (set_heap 0 lp)) (set_nth (removelast (top :: rest)) 0 last)) in *.
  assert (Hl2 : length (ph_heap h2) = length rest) by (symmetry; apply Permutation_length; exact HPr).
  assert (Hc2 : cores h2 = cores h) by (apply cores_set_heap, Elp).
  rewrite EH in Hlen. cbn [length] in Hlen.
  destruct (sift_down_ok (sift_fuel h2) h2 0 0 (S (length rest) - 2) Hh1) as (h3 & E3 & (Hs1 & Hs2 & Hs3)); [rewrite Hl2; lia|lia|unfold sift_fuel; lia..|].
  rewrite E3. cbn [bind]. rewrite Hc2 in Hs1.
  assert (Hpx3 := Hpx). assert (Hny3 := Hny). rewrite <- Hs1 in Hpx3, Hny3.
  apply pv_some in Hpx3 as (t & Et & Etp). apply nx_some in Hny3 as (t' & Et' & Etn). assert (t' = t) as -> by congruence. clear Et'.
  apply cores_nth in Et as (tp & Etop & <-). rewrite (vget_ok _ _ _ Etop). cbn [bind]. cbn [core co_prev co_next] in Etp, Etn.
  rewrite Etp, Etn. cbn [bind].
  pose proof (einv_length _ _ He) as HL. rewrite <- Hs1 in He.
  assert (Hxl : (x < length ps)%nat).
  { eapply (ei_range _ _ He top (core tp)); [|right; exact Etp]. unfold cores. rewrite nth_error_map, Etop. reflexivity. }
  assert (Hyl : (y < length ps)%nat).
  { eapply (ei_range _ _ He top (core tp)); [|left; exact Etn]. unfold cores. rewrite nth_error_map, Etop. reflexivity. }
  assert (HL3 : length (ph_points h3) = length ps) by (rewrite <- HL, <- Hs1; unfold cores; rewrite map_length; reflexivity).
  assert (Hdist : x <> top /\ top <> y /\ x <> y /\ ~ In x A' /\ ~ In y B' /\ ~ In y A' /\ ~ In x B').
  { apply NoDup_remove in Hnl as [Hn1 Hn2]. rewrite in_app_iff in Hn2. cbn [In] in Hn2. apply NoDup_remove in Hn1 as [Hn1 Hn3]. rewrite in_app_iff in Hn3. cbn [In] in Hn3.
    apply NoDup_remove in Hn1 as [Hn1 Hn4]. rewrite in_app_iff in Hn4. repeat split; try tauto; intros ->; tauto. }
  destruct Hdist as (D1 & D2 & D3 & D4 & D5 & D6 & D7).
  destruct (nth_error_ge (ph_points h3) x) as [px Epx]; [lia|]. destruct (nth_error_ge (ph_points h3) y) as [py Epy]; [lia|].
  rewrite (vupd_ok _ x px) by exact Epx. cbn [bind].
  set (h4 := PH (set_nth (ph_points h3) x (set_next (Some y) px)) (ph_heap h3)).
  assert (Epy4 : nth_error (ph_points h4) y = Some py) by (cbn [h4 ph_points]; rewrite nth_error_set_neq by exact D3; exact Epy).
  rewrite (vupd_ok h4 y py) by exact Epy4. cbn [bind].
  set (h5 := PH (set_nth (ph_points h4) y (set_prev (Some x) py)) (ph_heap h4)).
  exists h5, A, B, x, y. split; [reflexivity|]. split; [reflexivity|]. split; [reflexivity|].
  assert (Hn5 : forall k, nx (cores h5) k = if Nat.eqb k x then Some y else nx (cores h3) k).
  { intros k. unfold nx, cores. rewrite !nth_error_map. cbn [h5 h4 ph_points].
    destruct (Nat.eqb_spec k x) as [->|Hkx].
    - rewrite nth_error_set_neq by congruence. rewrite nth_error_set_eq by lia. reflexivity.
    - destruct (Nat.eq_dec k y) as [->|Hky].
      + rewrite nth_error_set_eq by (rewrite set_nth_length; lia). rewrite Epy. reflexivity.
      + rewrite !nth_error_set_neq by congruence. reflexivity. }
  assert (Hp5 : forall k, pv (cores h5) k = if Nat.eqb k y then Some x else pv (cores h3) k).
  { intros k. unfold pv, cores. rewrite !nth_error_map. cbn [h5 h4 ph_points].
    destruct (Nat.eqb_spec k y) as [->|Hky].
    - rewrite nth_error_set_eq by (rewrite set_nth_length; lia). reflexivity.
    - rewrite nth_error_set_neq by congruence. destruct (Nat.eq_dec k x) as [->|Hkx].
      + rewrite nth_error_set_eq by lia. rewrite Epx. reflexivity.
      + rewrite nth_error_set_neq by congruence. reflexivity. }
  assert (Hg5 : map co_geo (cores h5) = map co_geo (cores h3) /\ map co_weight (cores h5) = map co_weight (cores h3)).
  { unfold cores. rewrite !map_map. cbn [h5 h4 ph_points]. rewrite !map_set_nth. split.
    - cbn [core co_geo set_prev set_next vp_geo]. rewrite (set_nth_same (map _ _) x) by (rewrite nth_error_map, Epx; reflexivity).
      apply set_nth_same. rewrite nth_error_map, Epy. reflexivity.
    - cbn [core co_weight set_prev set_next vp_weight]. rewrite (set_nth_same (map _ _) x) by (rewrite nth_error_map, Epx; reflexivity).
      apply set_nth_same. rewrite nth_error_map, Epy. reflexivity. }
  split. { apply hok_links with (p := py); [|exact Epy4|reflexivity]. apply hok_links with (p := px); [exact Hs3|exact Epx|reflexivity]. }
  split.
  { constructor.
    - rewrite (proj1 Hg5). apply (ei_geo _ _ He).
    - exact H2.
    - destruct (ei_first _ _ He) as [n E0]. apply cores_nth in E0 as (p0 & E0 & EC).
      assert (Hy0 : y <> 0%nat) by (destruct Hy as [->|Hy]; [lia|]; assert (Hy' : In y (A ++ top :: B)) by (apply in_app_iff in Hy; apply in_app_iff; cbn [In]; tauto); apply Hi in Hy'; unfold interior in Hy'; lia).
      unfold cores. rewrite nth_error_map. cbn [h5 h4 ph_points]. rewrite nth_error_set_neq by congruence.
      destruct (Nat.eq_dec x 0) as [Ex|Ex].
      + rewrite Ex in *. rewrite nth_error_set_eq by lia. exists (Some y). assert (p0 = px) as -> by congruence.
        change (Some (CO (co_geo (core px)) (co_weight (core px)) (Some y) (co_prev (core px))) = Some (CO (nth 0 ps (Pt 0 0)) u64_max (Some y) None)).
        rewrite EC. reflexivity.
      + rewrite nth_error_set_neq by congruence. exists n. rewrite E0. cbn [option_map]. rewrite EC. reflexivity.
    - destruct (ei_last _ _ He) as [n E0]. apply cores_nth in E0 as (p0 & E0 & EC).
      assert (Hx0 : x <> (length ps - 1)%nat) by (destruct Hx as [->|Hx0]; [lia|]; assert (Hx' : In x (A ++ top :: B)) by (apply in_app_iff in Hx0; apply in_app_iff; cbn [In]; tauto); apply Hi in Hx'; unfold interior in Hx'; lia).
      unfold cores. rewrite nth_error_map. cbn [h5 h4 ph_points].
      destruct (Nat.eq_dec y (length ps - 1)) as [Ey|Ey].
      + rewrite Ey in *. rewrite nth_error_set_eq by (rewrite set_nth_length; lia). exists (Some x). assert (p0 = py) as -> by congruence.
        change (Some (CO (co_geo (core py)) (co_weight (core py)) (co_next (core py)) (Some x)) = Some (CO (nth (length ps - 1) ps (Pt 0 0)) u64_max None (Some x))).
        rewrite EC. reflexivity.
      + rewrite !nth_error_set_neq by congruence. exists n. rewrite E0. cbn [option_map]. rewrite EC. reflexivity.
    - intros i t j Ht Hj. assert (HJ : nx (cores h5) i = Some j \/ pv (cores h5) i = Some j) by (unfold nx, pv; rewrite Ht; exact Hj).
      rewrite Hn5, Hp5 in HJ. destruct HJ as [HJ|HJ].
      + destruct (Nat.eqb i x); [congruence|]. apply nx_some in HJ as (t0 & Et0 & Hj0). eapply (ei_range _ _ He); [exact Et0|left; exact Hj0].
      + destruct (Nat.eqb i y); [congruence|]. apply pv_some in HJ as (t0 & Et0 & Hj0). eapply (ei_range _ _ He); [exact Et0|right; exact Hj0].
    - apply Forall_map with (f := co_weight) (P := fun w => 0 <= w <= u64_max). rewrite (proj2 Hg5). apply Forall_map. apply (ei_weight _ _ He). }
  split. { cbn [h5 h4 ph_heap]. eapply Permutation_trans; [exact HrAB|]. eapply Permutation_trans; [exact HPr|exact Hs2]. }
  split.
  { right. rewrite EL'. apply linked_app. split.
    - eapply linked_congr; [| |exact HlA].
      + intros i Hin. rewrite removelast_last in Hin. rewrite Hn5, Hs1. destruct (Nat.eqb_spec i x) as [->|]; [contradiction|reflexivity].
      + intros i Hin. rewrite Hp5, Hs1. destruct (Nat.eqb_spec i y) as [->|]; [|reflexivity]. exfalso.
        assert (Hin' : In y (A' ++ [x])) by (destruct (A' ++ [x]); [destruct Hin|right; exact Hin]).
        apply in_app_iff in Hin' as [Hin'|[Hin'|[]]]; congruence.
    - cbn [linked]. split; [rewrite Hn5, Nat.eqb_refl; reflexivity|]. split; [rewrite Hp5, Nat.eqb_refl; reflexivity|].
      change (linked (cores h5) (y :: B')). apply (linked_congr (cores h)); [| |exact HlB].
      + intros i Hin. rewrite Hn5, Hs1. destruct (Nat.eqb_spec i x) as [->|]; [|reflexivity]. exfalso.
        assert (Hin' : In x (y :: B')) by (apply in_removelast, Hin).
        destruct Hin'; congruence.
      + cbn [tl]. intros i Hin. rewrite Hp5, Hs1. destruct (Nat.eqb_spec i y) as [->|]; [contradiction|reflexivity]. }
  split. { rewrite (proj2 Hg5), Hs1. reflexivity. }
  split. { rewrite Hp5, Hs1. destruct (Nat.eqb_spec top y); [congruence|exact Hpx]. }
  split. { rewrite Hn5, Hs1. destruct (Nat.eqb_spec top x); [congruence|exact Hny]. }
  repeat (split; [assumption|]). right. intros k. rewrite Hn5, Hp5, Hs1.
  split; intros Hk; apply Nat.eqb_neq in Hk; rewrite Hk; reflexivity.
Qed.

(** ** The elimination loop *)
Definition linv (ps : list point) (h : pheap) : Prop :=
  hok h /\ einv ps (cores h) /\ heap_interior ps h /\ (ph_heap h = [] \/ exists mid, binv ps h mid).

Lemma linked_only c c' L : only_weights c c' -> linked c L -> linked c' L.
Proof. intros H. apply linked_congr; intros i _; apply H. Qed.

Lemma wt_map c c' : map co_weight c' = map co_weight c -> forall k, wt c' k = wt c k.
Proof. intros H k. unfold wt. rewrite <- !nth_error_map, H. reflexivity. Qed.

Lemma points_get ps h i : einv ps (cores h) -> (i < length ps)%nat -> exists p, nth_error (ph_points h) i = Some p.
Proof. intros He Hi. apply nth_error_ge. rewrite <- (einv_length _ _ He) in Hi. unfold cores in Hi. rewrite map_length in Hi. exact Hi. Qed.

(** The part of the loop body after the popped point's weight is settled. *)
Lemma body_ok m ps h top x y L : hok h -> einv ps (cores h) -> Permutation L (ph_heap h) ->
  (forall i, In i L -> interior ps i) -> interior ps top ->
  pv (cores h) top = Some x -> nx (cores h) top = Some y ->
  (x = 0%nat \/ In x L) -> (y = (length ps - 1)%nat \/ In y L) ->
  let r := (p2 <- vget h top ;;
            h3 <- (match vp_prev p2 with Some i => recalc m h i | None => Ok h end) ;;
            p3 <- vget h3 top ;;
            match vp_next p3 with Some i => recalc m h3 i | None => Ok h3 end) in
  (m = Debug /\ r = Panic POverflow) \/
  exists h', r = Ok h' /\ hok h' /\ einv ps (cores h') /\ Permutation L (ph_heap h') /\
    only_weights (cores h) (cores h') /\ frozen h h'.
Proof.
  intros Hh He HP Hi Ht Hpx Hny Hx Hy r.
  assert (Hhi : heap_interior ps h) by (intros i H; apply Hi; eapply Permutation_in; [apply Permutation_sym, HP|exact H]).
  destruct (points_get ps h top He) as [p2 E2]; [unfold interior in Ht; lia|].
  subst r. rewrite (vget_ok _ _ _ E2). cbn [bind].
  assert (Ex : vp_prev p2 = Some x) by (unfold pv, cores in Hpx; rewrite nth_error_map, E2 in Hpx; exact Hpx). rewrite Ex.
  destruct (recalc_ok m ps h x Hh He Hhi) as [[Hm E]|(h3 & E & Hh3 & He3 & HP3 & Ho3 & Hf3)].
  { destruct Hx as [Hx|Hx]; [auto|]. right; right. eapply Permutation_in; [exact HP|exact Hx]. }
  { left. rewrite E. auto. }
  rewrite E. cbn [bind]. destruct (points_get ps h3 top He3) as [p3 E3]; [unfold interior in Ht; lia|].
  rewrite (vget_ok _ _ _ E3). cbn [bind].
  assert (Ey : vp_next p3 = Some y).
  { rewrite <- (proj1 (Ho3 top)) in Hny. unfold nx, cores in Hny. rewrite nth_error_map, E3 in Hny. exact Hny. }
  rewrite Ey.
  assert (HPL : Permutation L (ph_heap h3)) by (eapply Permutation_trans; eassumption).
  destruct (recalc_ok m ps h3 y Hh3 He3) as [[Hm E']|(h4 & E' & Hh4 & He4 & HP4 & Ho4 & Hf4)].
  { intros i H. apply Hi. eapply Permutation_in; [apply Permutation_sym, HPL|exact H]. }
  { destruct Hy as [Hy|Hy]; [auto|]. right; right. eapply Permutation_in; [exact HPL|exact Hy]. }
  { left. auto. }
  right. exists h4. split; [exact E'|]. split; [exact Hh4|]. split; [exact He4|]. split; [eapply Permutation_trans; eassumption|]. split.
  - intros k. destruct (Ho3 k), (Ho4 k). split; congruence.
  - intros k Hk. rewrite Hf4, Hf3; [reflexivity|exact Hk|]. intros H. apply Hk. eapply Permutation_in; [apply Permutation_sym, HP3|exact H].
Qed.

Lemma bind_assoc {A B C} (x : res A) (f : A -> res B) (g : B -> res C) : bind (bind x f) g = bind x (fun a => bind (f a) g).
Proof. destruct x; reflexivity. Qed.

(** The first point popped, if it is below the threshold, keeps its weight. *)
Definition first_out (thr lw : Z) (h h' : pheap) : Prop := forall top w, nth_error (ph_heap h) 0 = Some top ->
  wt (cores h) top = Some w -> lw <= w -> (w < thr -> wt (cores h') top = Some w) /\ (thr <= w -> forall k, wt (cores h') k = wt (cores h) k).

Lemma vw_loop_ok m ps thr fuel : forall h lw, (length (ph_heap h) <= fuel)%nat -> linv ps h -> 0 <= lw <= u64_max ->
  (m = Debug /\ vw_loop fuel m thr h lw = Panic POverflow) \/
  exists h', vw_loop fuel m thr h lw = Ok h' /\ einv ps (cores h') /\ frozen h h' /\ first_out thr lw h h'.
Proof.
  induction fuel as [|fuel IH]; intros h lw Hf (Hh & He & Hi & Hb) Hlw; cbn [vw_loop].
  { destruct (ph_heap h) eqn:EH; [|cbn in Hf; lia]. right. exists h. split; [reflexivity|]. split; [exact He|]. split; [intros k _; reflexivity|]. intros top w Hn. rewrite EH in Hn. discriminate. }
  destruct Hb as [EH|[mid Hb]].
  { rewrite EH. right. exists h. split; [reflexivity|]. split; [exact He|]. split; [intros k _; reflexivity|]. intros top w Hn. rewrite EH in Hn. discriminate. }
  destruct (ph_heap h) as [|top0 rest] eqn:EH.
  { right. exists h. split; [reflexivity|]. split; [exact He|]. split; [intros k _; reflexivity|]. intros top w Hn. rewrite EH in Hn. discriminate. }
  destruct (hpop_ok ps h mid Hb) as (top & h1 & A & B & x & y & -> & -> & Et & Hh1 & He1 & HP1 & HL1 & HW1 & Hpx & Hny & Hx & Hy & _); [congruence|].
  rewrite EH in Et. cbn in Et. injection Et as <-. cbn [bind].
  assert (Htop : interior ps top0) by (apply (bi_int _ _ _ Hb), in_elt).
  assert (Hint : forall i, In i (A ++ B) -> interior ps i).
  { intros i H. apply (bi_int _ _ _ Hb). apply in_app_iff in H. apply in_app_iff. cbn [In]. tauto. }
  assert (Hntop : ~ In top0 (A ++ B)).
  { assert (Hnd : NoDup (A ++ top0 :: B)) by (eapply Permutation_NoDup; [apply Permutation_sym, (bi_perm _ _ _ Hb)|apply Hh]).
    apply NoDup_remove in Hnd. apply Hnd. }
  assert (Hl1 : (length (A ++ B) <= fuel)%nat).
  { pose proof (Permutation_length (bi_perm _ _ _ Hb)) as HL. rewrite EH in HL. cbn [length] in Hf, HL. rewrite app_length in *. cbn [length] in HL. lia. }
  assert (Hfz : forall h2 h', hok h2 -> (forall k, k <> top0 -> wt (cores h2) k = wt (cores h1) k) -> Permutation (A ++ B) (ph_heap h2) -> frozen h2 h' -> frozen h h').
  { intros h2 h' _ Hk2 HP2 Hf2 k Hk. rewrite Hf2.
    - rewrite Hk2; [apply wt_map, HW1|]. intros ->. apply Hk. rewrite EH. left. reflexivity.
    - intros H. apply Hk. eapply Permutation_in; [apply (bi_perm _ _ _ Hb)|]. apply (Permutation_in _ (Permutation_sym HP2)) in H.
      apply in_app_iff in H. apply in_app_iff. cbn [In]. tauto. }
  destruct (points_get ps h1 top0 He1) as [p Ep]; [unfold interior in Htop; lia|]. rewrite (vget_ok _ _ _ Ep). cbn [bind].
  assert (HB : forall h2 lw', hok h2 -> einv ps (cores h2) -> ph_heap h2 = ph_heap h1 -> only_weights (cores h1) (cores h2) ->
     (forall k, k <> top0 -> wt (cores h2) k = wt (cores h1) k) -> 0 <= lw' <= u64_max ->
     let r := (p2 <- vget h2 top0 ;;
            h3 <- (match vp_prev p2 with Some i => recalc m h2 i | None => Ok h2 end) ;;
            p3 <- vget h3 top0 ;;
            h4 <- (match vp_next p3 with Some i => recalc m h3 i | None => Ok h3 end) ;;
            vw_loop fuel m thr h4 lw') in
     (m = Debug /\ r = Panic POverflow) \/ exists h', r = Ok h' /\ einv ps (cores h') /\ frozen h h' /\ wt (cores h') top0 = wt (cores h2) top0).
  { intros h2 lw' Hh2 He2 EH2 Ho2 Hk2 Hlw'.
    pose proof (body_ok m ps h2 top0 x y (A ++ B) Hh2 He2) as HBO. rewrite EH2 in HBO. specialize (HBO HP1 Hint Htop).
    rewrite (proj1 (Ho2 top0)), (proj2 (Ho2 top0)) in HBO. specialize (HBO Hpx Hny Hx Hy). cbv zeta in HBO. intros r.
    assert (Er : r = bind (p2 <- vget h2 top0 ;;
            h3 <- (match vp_prev p2 with Some i => recalc m h2 i | None => Ok h2 end) ;;
            p3 <- vget h3 top0 ;;
            match vp_next p3 with Some i => recalc m h3 i | None => Ok h3 end) (fun h4 => vw_loop fuel m thr h4 lw')).
    { subst r. destruct (vget h2 top0) as [p2|]; [|reflexivity]. cbn [bind]. destruct (match vp_prev p2 with Some i => recalc m h2 i | None => Ok h2 end) as [h3|]; [|reflexivity].
      cbn [bind]. destruct (vget h3 top0); reflexivity. }
    rewrite Er. clear Er r. destruct HBO as [[Hm ->]|(h4 & -> & Hh4 & He4 & HP4 & Ho4 & Hf4)]; cbn [bind]; [left; auto|].
    destruct (IH h4 lw') as [HI|(h' & E' & He' & Hf' & _)].
    - rewrite <- (Permutation_length HP4). exact Hl1.
    - split; [exact Hh4|]. split; [exact He4|]. split.
      + intros i H. apply Hint. eapply Permutation_in; [apply Permutation_sym, HP4|exact H].
      + destruct HL1 as [E0|HL1].
        * left. rewrite E0 in HP1. apply Permutation_sym, Permutation_nil in HP1. rewrite HP1 in HP4. apply Permutation_nil, HP4.
        * right. exists (A ++ B). constructor; auto. apply (linked_only (cores h2)); [exact Ho4|]. apply (linked_only (cores h1)); [exact Ho2|exact HL1].
    - exact Hlw'.
    - left. exact HI.
    - right. exists h'. split; [exact E'|]. split; [exact He'|].
      assert (HF2 : frozen h2 h').
      { intros k Hk. rewrite Hf', Hf4; [reflexivity|exact Hk|].
        intros H. apply Hk. rewrite EH2. eapply Permutation_in; [exact HP1|]. eapply Permutation_in; [apply Permutation_sym, HP4|exact H]. }
      split; [apply (Hfz h2 h'); [exact Hh2|exact Hk2|rewrite EH2; exact HP1|exact HF2]|].
      apply HF2. rewrite EH2. intros H. apply Hntop. eapply Permutation_in; [apply Permutation_sym, HP1|exact H]. }
  assert (Ec : nth_error (cores h1) top0 = Some (core p)) by (unfold cores; rewrite nth_error_map, Ep; reflexivity).
  assert (Hwp : wt (cores h) top0 = Some (vp_weight p)) by (rewrite <- (wt_map _ _ HW1); unfold wt; rewrite Ec; reflexivity).
  destruct (Z.ltb_spec (vp_weight p) lw) as [Hlt|Hge].
  - rewrite (vupd_ok _ top0 p) by exact Ep. cbn [bind]. set (h2 := PH _ _).
    assert (Hc2 : cores h2 = set_nth (cores h1) top0 (CO (co_geo (core p)) lw (co_next (core p)) (co_prev (core p)))).
    { unfold cores, h2. cbn [ph_points]. rewrite map_set_nth. reflexivity. }
    edestruct (HB h2 lw) as [HC|(h' & E' & He' & Hf' & _)]; [apply hok_set_weight; assumption| |reflexivity| | |exact Hlw| |].
    + rewrite Hc2. apply einv_set_weight; assumption.
    + rewrite Hc2. intros k. split; [apply nx_set_weight, Ec|apply pv_set_weight, Ec].
    + intros k Hk. unfold wt. rewrite Hc2, nth_error_set_neq by congruence. reflexivity.
    + left. exact HC.
    + right. exists h'. split; [exact E'|]. split; [exact He'|]. split; [exact Hf'|]. intros top w Hn Hw Hlw2. rewrite EH in Hn. cbn in Hn. injection Hn as <-.
      rewrite Hwp in Hw. injection Hw as <-. lia.
  - destruct (Z.leb_spec thr (vp_weight p)) as [Hth|Hth].
    + right. exists h1. split; [reflexivity|]. split; [exact He1|]. split; [intros k _; apply wt_map, HW1|].
      intros top w Hn Hw _. rewrite EH in Hn. cbn in Hn. injection Hn as <-. rewrite Hwp in Hw. injection Hw as <-. split; [lia|]. intros _. apply wt_map, HW1.
    + assert (HC := HB h1 (vp_weight p) Hh1 He1 eq_refl (fun k => conj eq_refl eq_refl) (fun k _ => eq_refl)). cbv zeta in HC.
      rewrite (vget_ok _ _ _ Ep) in HC. cbn [bind] in HC. destruct HC as [HC|(h' & E' & He' & Hf' & Hw')].
      * pose proof (ei_weight _ _ He1) as HW. rewrite Forall_forall in HW. specialize (HW (core p)). apply HW. eapply nth_error_In, Ec.
      * left. exact HC.
      * right. exists h'. split; [exact E'|]. split; [exact He'|]. split; [exact Hf'|].
        intros top w Hn Hw _. rewrite EH in Hn. cbn in Hn. injection Hn as <-. rewrite Hw', (wt_map _ _ HW1). split; [auto|].
        rewrite Hwp in Hw. injection Hw as <-. lia.
Qed.
