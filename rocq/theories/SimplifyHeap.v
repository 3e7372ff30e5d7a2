(** * SimplifyHeap: after [heapify] the first heap entry has the smallest weight *)
From Coq Require Import Permutation.
From Verif Require Import ClipSpec Simplify GeoProofs TopoProofs BuildProofs ClipEdgeProofs SimplifyProofs SimplifyLaws.

(** [k] is in the subtree of heap position [s]. *)
Inductive desc (s : nat) : nat -> Prop :=
| desc_self : desc s s
| desc_left k : desc s k -> desc s (2 * k + 1)
| desc_right k : desc s k -> desc s (2 * k + 2).

Lemma desc_ge s k : desc s k -> (s <= k)%nat.
Proof. induction 1; lia. Qed.
Lemma desc_trans a b c : desc a b -> desc b c -> desc a c.
Proof. intros H. induction 1; [exact H|apply desc_left; assumption|apply desc_right; assumption]. Qed.
Lemma desc_cases s k : desc s k -> k = s \/ desc (2 * s + 1) k \/ desc (2 * s + 2) k.
Proof.
  induction 1 as [|k H IH|k H IH]; [auto| |].
  - destruct IH as [->|[IH|IH]]; [right; left; apply desc_self|right; left; apply desc_left, IH|right; right; apply desc_left, IH].
  - destruct IH as [->|[IH|IH]]; [right; right; apply desc_self|right; left; apply desc_right, IH|right; right; apply desc_right, IH].
Qed.
Lemma parent_left k : parent (2 * k + 1) = k.
Proof. unfold parent. replace (2 * k + 1 - 1)%nat with (k * 2)%nat by lia. apply Nat.div_mul. lia. Qed.
Lemma parent_right k : parent (2 * k + 2) = k.
Proof. unfold parent. replace (2 * k + 2 - 1)%nat with (1 + k * 2)%nat by lia. rewrite Nat.div_add by lia. reflexivity. Qed.
Lemma desc_parent s k : desc s k -> k = s \/ desc s (parent k).
Proof. destruct 1; [auto|right; rewrite parent_left; assumption|right; rewrite parent_right; assumption]. Qed.
Lemma desc_meet a b k : desc a k -> desc b k -> desc a b \/ desc b a.
Proof.
  intros H. revert b. induction H as [|k H IH|k H IH]; intros b Hb; [right; exact Hb| |].
  - apply desc_parent in Hb as [<-|Hb]; [left; apply desc_left, H|]. rewrite parent_left in Hb. apply IH, Hb.
  - apply desc_parent in Hb as [<-|Hb]; [left; apply desc_right, H|]. rewrite parent_right in Hb. apply IH, Hb.
Qed.
Lemma desc_zero k : desc 0 k.
Proof.
  induction k as [k IH] using lt_wf_ind. destruct k as [|k]; [apply desc_self|].
  destruct (Nat.Even_or_Odd k) as [[q Hq]|[q Hq]].
  - replace (S k) with (2 * q + 1)%nat by lia. apply desc_left, IH. lia.
  - replace (S k) with (2 * q + 2)%nat by lia. apply desc_right, IH. lia.
Qed.

Definition hw (h : pheap) (k : nat) : option Z :=
  match nth_error (ph_heap h) k with Some i => wt (cores h) i | None => None end.

Lemma hw_ok h k : hok h -> (k < length (ph_heap h))%nat -> exists w, hweight h k = Ok w /\ hw h k = Some w.
Proof.
  intros Hh Hk. destruct (hweight_ok h k Hh Hk) as (i & p & Hi & Hp & E). exists (vp_weight p). split; [exact E|].
  unfold hw, wt, cores. rewrite Hi, nth_error_map, Hp. reflexivity.
Qed.
Lemma hw_same h h' k j : cores h' = cores h -> nth_error (ph_heap h') k = nth_error (ph_heap h) j -> hw h' k = hw h j.
Proof. intros Hc E. unfold hw. rewrite E, Hc. reflexivity. Qed.
Lemma hw_lt h k w : hw h k = Some w -> (k < length (ph_heap h))%nat.
Proof. unfold hw. destruct (nth_error (ph_heap h) k) eqn:E; [intros _; eapply nth_error_lt, E|discriminate]. Qed.

Definition rootmin (h : pheap) (s : nat) : Prop :=
  forall k w w', desc s k -> hw h s = Some w -> hw h k = Some w' -> w <= w'.

(** Entries are only moved within the subtree. *)
Definition moves (root : nat) (h h' : pheap) : Prop := forall k,
  (~ desc root k -> nth_error (ph_heap h') k = nth_error (ph_heap h) k) /\
  (desc root k -> exists j, desc root j /\ nth_error (ph_heap h') k = nth_error (ph_heap h) j).

Lemma moves_refl root h : moves root h h.
Proof. intros k. split; [reflexivity|]. intros H. exists k. auto. Qed.

Lemma desc_dec s k : {desc s k} + {~ desc s k}.
Proof.
  induction k as [k IH] using (well_founded_induction lt_wf). destruct (Nat.eq_dec k s) as [->|Hn]; [left; apply desc_self|].
  destruct k as [|k].
  { right. intros H. apply desc_ge in H. lia. }
  destruct (IH (parent (S k))) as [H|H]; [apply parent_lt; lia| |].
  - left. destruct (Nat.Even_Odd_dec k) as [Hq|Hq].
    + assert (E : S k = (2 * parent (S k) + 1)%nat) by (destruct Hq as [q ->]; replace (S (2 * q)) with (2 * q + 1)%nat by lia; rewrite parent_left; lia).
      rewrite E. apply desc_left, H.
    + assert (E : S k = (2 * parent (S k) + 2)%nat) by (destruct Hq as [q ->]; replace (S (2 * q + 1)) with (2 * q + 2)%nat by lia; rewrite parent_right; lia).
      rewrite E. apply desc_right, H.
  - right. intros HD. apply desc_parent in HD as [HD|HD]; contradiction.
Qed.

Lemma moves_trans root root' h h' h'' : desc root root' -> moves root h h' -> moves root' h' h'' -> moves root h h''.
Proof.
  intros Hd H1 H2 k. destruct (H2 k) as [H2a H2b]. split.
  - intros Hk. rewrite H2a; [apply H1, Hk|]. intros H. apply Hk. eapply desc_trans; eassumption.
  - intros Hk. destruct (desc_dec root' k) as [Hk'|Hk'].
    + destruct (H2b Hk') as (j & Hj & ->). apply H1. exact (desc_trans _ _ _ Hd Hj).
    + rewrite (H2a Hk'). apply H1, Hk.
Qed.

Lemma swap_moves root s2 h h' ia ib : desc root s2 -> s2 <> root -> nth_error (ph_heap h) root = Some ia -> nth_error (ph_heap h) s2 = Some ib ->
  ph_heap h' = set_nth (set_nth (ph_heap h) root ib) s2 ia ->
  moves root h h' /\ nth_error (ph_heap h') root = nth_error (ph_heap h) s2 /\ nth_error (ph_heap h') s2 = nth_error (ph_heap h) root /\
  (forall k, k <> root -> k <> s2 -> nth_error (ph_heap h') k = nth_error (ph_heap h) k).
Proof.
  intros Hd Hne Ha Hb E. pose proof (nth_error_lt _ _ _ Ha). pose proof (nth_error_lt _ _ _ Hb).
  assert (E1 : nth_error (ph_heap h') root = nth_error (ph_heap h) s2).
  { rewrite E, nth_error_set_neq by exact Hne. rewrite nth_error_set_eq by assumption. congruence. }
  assert (E2 : nth_error (ph_heap h') s2 = nth_error (ph_heap h) root).
  { rewrite E, nth_error_set_eq by (rewrite set_nth_length; assumption). congruence. }
  assert (E3 : forall k, k <> root -> k <> s2 -> nth_error (ph_heap h') k = nth_error (ph_heap h) k).
  { intros k Hk1 Hk2. rewrite E, !nth_error_set_neq by congruence. reflexivity. }
  split; [|auto]. intros k. split.
  - intros Hk. apply E3; intros ->; apply Hk; [apply desc_self|exact Hd].
  - intros Hk. destruct (Nat.eq_dec k root) as [->|Hk1]; [exists s2; auto|]. destruct (Nat.eq_dec k s2) as [->|Hk2]; [exists root; split; [apply desc_self|exact E2]|].
    exists k. split; [exact Hk|]. apply E3; assumption.
Qed.

(** One iteration of [sift_down]. *)
Lemma sift_step fuel h start root end_ h' : hok h -> (end_ < length (ph_heap h))%nat -> (start <= root)%nat -> (root < length (ph_heap h))%nat ->
  sift_down (S fuel) h start root end_ = Ok h' ->
  (h' = h /\ ((end_ < 2 * root + 1)%nat \/ (start = root -> (forall c w w', (c = 2 * root + 1 \/ c = 2 * root + 2)%nat -> (c <= end_)%nat -> hw h root = Some w -> hw h c = Some w' -> w <= w')))) \/
  exists s2 h1, (s2 = 2 * root + 1 \/ s2 = 2 * root + 2)%nat /\ (s2 <= end_)%nat /\ same h h1 /\ moves root h h1 /\
    nth_error (ph_heap h1) root = nth_error (ph_heap h) s2 /\ nth_error (ph_heap h1) s2 = nth_error (ph_heap h) root /\
    sift_down fuel h1 start s2 end_ = Ok h' /\
    (start = root -> forall c w w', (c = root \/ c = 2 * root + 1 \/ c = 2 * root + 2)%nat -> (c <= end_)%nat -> hw h s2 = Some w -> hw h c = Some w' -> w <= w').
Proof.
  intros Hh He Hs Hr. cbn [sift_down]. unfold left_child. destruct (Nat.leb_spec (2 * root + 1) end_) as [Hc|Hc].
  2:{ intros [= <-]. left. split; [reflexivity|]. left. lia. }
  destruct (hw_ok h start Hh ltac:(lia)) as (ws & -> & Ews). destruct (hw_ok h (2 * root + 1) Hh ltac:(lia)) as (wc & -> & Ewc). cbn [bind].
  set (swap1 := if wc <? ws then (2 * root + 1)%nat else root).
  assert (H1 : (wc < ws /\ swap1 = (2 * root + 1)%nat) \/ (ws <= wc /\ swap1 = root)) by (subst swap1; destruct (Z.ltb_spec wc ws); lia).
  clearbody swap1.
  set (x := if Nat.leb (2 * root + 1 + 1) end_ then _ else _).
  assert (HX : exists s2, x = Ok s2 /\ (s2 = root \/ s2 = 2 * root + 1 \/ s2 = 2 * root + 2)%nat /\ (s2 <= end_)%nat /\
    (start = root -> forall c w w', (c = root \/ c = 2 * root + 1 \/ c = 2 * root + 2)%nat -> (c <= end_)%nat -> hw h s2 = Some w -> hw h c = Some w' -> w <= w')).
  { subst x. destruct (Nat.leb_spec (2 * root + 1 + 1) end_) as [Hc'|Hc'].
    - destruct (hw_ok h swap1 Hh ltac:(destruct H1 as [[_ ->]|[_ ->]]; lia)) as (w1 & -> & Ew1).
      destruct (hw_ok h (2 * root + 1 + 1) Hh ltac:(lia)) as (w2 & -> & Ew2). cbn [bind]. eexists. split; [reflexivity|].
      replace (2 * root + 1 + 1)%nat with (2 * root + 2)%nat in * by lia.
      split; [destruct (_ <? _); lia|]. split; [destruct (_ <? _); lia|]. intros -> c w w' Hcc Hce E1 E2.
      assert (Hw1 : w1 <= ws /\ w1 <= wc).
      { destruct H1 as [[Hlt ->]|[Hle ->]]; [assert (w1 = wc) by congruence|assert (w1 = ws) by congruence]; lia. }
      assert (Hw' : w' = ws \/ w' = wc \/ w' = w2) by (destruct Hcc as [->|[->| ->]]; [left|right; left|right; right]; congruence).
      destruct (Z.ltb_spec w2 w1); [assert (w = w2) by congruence|assert (w = w1) by congruence]; lia.
    - exists swap1. split; [reflexivity|]. split; [lia|]. split; [lia|]. intros -> c w w' Hcc Hce E1 E2.
      assert (Hw' : w' = ws \/ w' = wc) by (destruct Hcc as [->|[->| ->]]; [left; congruence|right; congruence|lia]).
      destruct H1 as [[Hlt ->]|[Hle ->]]; [assert (w = wc) by congruence|assert (w = ws) by congruence]; lia. }
  destruct HX as (s2 & -> & Hs2 & Hse & Hmin). cbn [bind]. destruct (Nat.eqb_spec s2 root) as [->|Hne].
  { intros [= <-]. left. split; [reflexivity|]. right. intros E c w w' Hcc. apply (Hmin E). tauto. }
  destruct Hs2 as [Hs2|Hs2]; [contradiction|].
  destruct (hswap_ok h root s2 Hh ltac:(congruence) ltac:(lia) ltac:(lia)) as (h1 & ia & ib & -> & Hsame & Ha & Hb & EH). cbn [bind].
  intros E. right. exists s2, h1.
  assert (Hd : desc root s2) by (destruct Hs2 as [->| ->]; [apply desc_left|apply desc_right]; apply desc_self).
  destruct (swap_moves root s2 h h1 ia ib Hd Hne Ha Hb EH) as (HM & E1 & E2 & _). auto 10.
Qed.

Lemma sift_moves fuel : forall h start root end_ h', hok h -> (end_ < length (ph_heap h))%nat -> (start <= root)%nat -> (root < length (ph_heap h))%nat ->
  sift_down fuel h start root end_ = Ok h' -> same h h' /\ moves root h h'.
Proof.
  induction fuel as [|fuel IH]; intros h start root end_ h' Hh He Hs Hr E; [discriminate|].
  apply sift_step in E; auto. destruct E as [[-> _]|(s2 & h1 & Hs2 & Hse & Hsame & HM & _ & _ & E & _)].
  - split; [apply same_refl, Hh|apply moves_refl].
  - pose proof (same_length _ _ Hsame) as HL. apply IH in E; [|apply Hsame|lia|lia|lia]. destruct E as [Hs' HM'].
    split; [eapply same_trans; eassumption|]. eapply moves_trans; [|exact HM|exact HM'].
    destruct Hs2 as [->| ->]; [apply desc_left|apply desc_right]; apply desc_self.
Qed.

Lemma sift_root fuel h s h' : hok h -> (s < length (ph_heap h))%nat ->
  sift_down fuel h s s (length (ph_heap h) - 1) = Ok h' -> rootmin h (2 * s + 1) -> rootmin h (2 * s + 2) -> rootmin h' s.
Proof.
  destruct fuel as [|fuel]; [discriminate|]. intros Hh Hs E HL HR.
  apply sift_step in E; [|assumption|lia|lia|lia]. destruct E as [[-> [Hlast|Hmin]]|(s2 & h1 & Hs2 & Hse & Hsame & HM & E1 & E2 & E & Hmin)].
  - intros k w w' Hd Hw Hw'. pose proof (hw_lt _ _ _ Hw'). destruct (desc_cases _ _ Hd) as [->|[Hk|Hk]]; [assert (w = w') by congruence; lia| |]; apply desc_ge in Hk; lia.
  - specialize (Hmin eq_refl). intros k w w' Hd Hw Hw'. pose proof (hw_lt _ _ _ Hw') as Hkl. destruct (desc_cases _ _ Hd) as [->|[Hk|Hk]].
    + assert (w = w') by congruence; lia.
    + pose proof (desc_ge _ _ Hk). destruct (hw_ok h (2 * s + 1) Hh) as (wc & _ & Ec); [lia|].
      pose proof (Hmin (2 * s + 1)%nat w wc (or_introl eq_refl) ltac:(lia) Hw Ec). pose proof (HL k wc w' Hk Ec Hw'). lia.
    + pose proof (desc_ge _ _ Hk). destruct (hw_ok h (2 * s + 2) Hh) as (wc & _ & Ec); [lia|].
      pose proof (Hmin (2 * s + 2)%nat w wc (or_intror eq_refl) ltac:(lia) Hw Ec). pose proof (HR k wc w' Hk Ec Hw'). lia.
  - specialize (Hmin eq_refl). pose proof (same_length _ _ Hsame) as Hl. apply sift_moves in E; [|apply Hsame|lia|lia|lia]. destruct E as [Hs' HM'].
    assert (Hd2 : desc s s2) by (destruct Hs2 as [->| ->]; [apply desc_left|apply desc_right]; apply desc_self).
    assert (HMM : moves s h h') by (eapply moves_trans; eassumption).
    assert (Hc : cores h' = cores h) by (transitivity (cores h1); [apply Hs'|apply Hsame]).
    assert (Hall : forall k w w', desc s k -> hw h s2 = Some w -> hw h k = Some w' -> w <= w').
    { intros k w w' Hd Hw Hw'. pose proof (hw_lt _ _ _ Hw') as Hkl. destruct (desc_cases _ _ Hd) as [->|[Hk|Hk]].
      - apply (Hmin s w w'); [auto|lia|assumption|assumption].
      - pose proof (desc_ge _ _ Hk). destruct (hw_ok h (2 * s + 1) Hh) as (wc & _ & Ec); [lia|].
        pose proof (Hmin (2 * s + 1)%nat w wc (or_intror (or_introl eq_refl)) ltac:(lia) Hw Ec). pose proof (HL k wc w' Hk Ec Hw'). lia.
      - pose proof (desc_ge _ _ Hk). destruct (hw_ok h (2 * s + 2) Hh) as (wc & _ & Ec); [lia|].
        pose proof (Hmin (2 * s + 2)%nat w wc (or_intror (or_intror eq_refl)) ltac:(lia) Hw Ec). pose proof (HR k wc w' Hk Ec Hw'). lia. }
    assert (Hroot : hw h' s = hw h s2).
    { apply hw_same; [exact Hc|]. rewrite (proj1 (HM' s)); [exact E1|]. intros H. apply desc_ge in H. lia. }
    intros k w w' Hd Hw Hw'. rewrite Hroot in Hw. destruct (proj2 (HMM k) Hd) as (j & Hj & Ej).
    rewrite (hw_same h h' k j Hc Ej) in Hw'. eapply Hall; eassumption.
Qed.

Definition frontier (h : pheap) (st : nat) : Prop := forall j, (st <= j)%nat -> (j = 0 \/ parent j < st)%nat -> rootmin h j.

Lemma heapify_loop_min st : forall h h', hok h -> (st < length (ph_heap h))%nat -> frontier h (S st) ->
  heapify_loop st h (length (ph_heap h) - 1) = Ok h' -> rootmin h' 0.
Proof.
  assert (HS : forall st h h1, hok h -> (st < length (ph_heap h))%nat -> frontier h (S st) ->
    sift_down (sift_fuel h) h st st (length (ph_heap h) - 1) = Ok h1 -> same h h1 /\ frontier h1 st).
  { intros s h h1 Hh Hs HF E. destruct (sift_moves (sift_fuel h) h s s (length (ph_heap h) - 1) h1 Hh ltac:(lia) ltac:(lia) Hs E) as [Hsame HM]. split; [exact Hsame|].
    assert (HR : rootmin h1 s).
    { eapply sift_root; [exact Hh|exact Hs|exact E| |]; [apply HF; [lia|right; rewrite parent_left; lia]|apply HF; [lia|right; rewrite parent_right; lia]]. }
    intros j Hj Hp. destruct (Nat.eq_dec j s) as [->|Hjs]; [exact HR|].
    assert (Hpj : (parent j < s)%nat) by (destruct Hp as [->|Hp]; [lia|exact Hp]).
    assert (HRj : rootmin h j) by (apply HF; [lia|right; lia]).
    assert (Hout : forall k, desc j k -> hw h1 k = hw h k).
    { intros k Hk. apply hw_same; [apply Hsame|]. apply HM. intros Hk'. destruct (desc_meet _ _ _ Hk Hk') as [H|H].
      - apply desc_ge in H. lia.
      - apply desc_parent in H as [H|H]; [lia|]. apply desc_ge in H. lia. }
    intros k w w' Hk Hw Hw'. rewrite (Hout j (desc_self j)) in Hw. rewrite (Hout k Hk) in Hw'. eapply HRj; eassumption. }
  induction st as [|st IH]; intros h h' Hh Hs HF E; cbn [heapify_loop] in E; apply bind_Ok in E as (h1 & E1 & E2).
  - injection E2 as <-. destruct (HS 0%nat h h1 Hh Hs HF E1) as [_ HF']. apply HF'; auto.
  - destruct (HS (S st) h h1 Hh Hs HF E1) as [Hsame HF']. pose proof (same_length _ _ Hsame) as HL.
    eapply (IH h1); [apply Hsame|lia|exact HF'|]. rewrite HL. exact E2.
Qed.

Lemma heapify_min h h' : hok h -> heapify h = Ok h' -> rootmin h' 0.
Proof.
  intros Hh. unfold heapify. destruct (Nat.ltb_spec 1 (length (ph_heap h))) as [H|H].
  - apply heapify_loop_min; [exact Hh|pose proof (parent_lt (length (ph_heap h) - 1)); lia|].
    intros j Hj _ k w w' Hd Hw Hw'. pose proof (hw_lt _ _ _ Hw') as Hk.
    destruct (desc_cases _ _ Hd) as [->|Hd']; [assert (w = w') by congruence; lia|].
    assert (2 * j + 1 <= k)%nat by (destruct Hd' as [Hd'|Hd']; apply desc_ge in Hd'; lia).
    assert (Hq : (length (ph_heap h) - 1 - 1 < 2 * (parent (length (ph_heap h) - 1) + 1))%nat).
    { unfold parent. pose proof (Nat.mod_upper_bound (length (ph_heap h) - 1 - 1) 2). pose proof (Nat.div_mod (length (ph_heap h) - 1 - 1) 2). lia. }
    lia.
  - intros [= <-] k w w' Hd Hw Hw'. pose proof (hw_lt _ _ _ Hw') as Hk. assert (k = 0%nat) as -> by lia. assert (w = w') by congruence. lia.
Qed.

(** The first point to go is one of smallest weight. *)
Lemma first_pop_min m ps h : edge_ok ps -> heap_from m ps = Ok h ->
  (forall i, interior ps i -> exists w, weight_at m ps i = Ok w /\ wt (cores h) i = Some w) /\
  forall top, nth_error (ph_heap h) 0 = Some top -> interior ps top /\
    forall w i w', weight_at m ps top = Ok w -> interior ps i -> weight_at m ps i = Ok w' -> w <= w'.
Proof.
  intros HE E. destruct (heap_from_cases m ps HE) as [[_ E']|(h0 & h' & E' & Eh & Hsame & EH & HR & HB)]; rewrite E in E'; [discriminate|].
  injection E' as <-.
  assert (HW : forall i, interior ps i -> exists w, weight_at m ps i = Ok w /\ wt (cores h) i = Some w).
  { intros i Hi. destruct Hsame as (Hc & _ & _). destruct (nth_error_ge (cores h) i) as [t Ht].
    - rewrite (einv_length _ _ (bi_einv _ _ _ HB)). unfold interior in Hi. lia.
    - unfold wt. rewrite Ht. rewrite Hc in Ht. apply cores_nth in Ht as (v & Hv & <-). exists (vp_weight v). split; [|reflexivity]. apply (rp_weight _ _ _ _ (HR i v Hv)), Hi. }
  split; [exact HW|]. intros top Ht.
  assert (Htop : interior ps top) by (apply (bi_int _ _ _ HB); eapply Permutation_in; [apply Permutation_sym, HB|eapply nth_error_In, Ht]).
  split; [exact Htop|]. intros w i w' Ew Hi Ew'.
  assert (Hin : In i (ph_heap h)).
  { eapply Permutation_in; [apply (bi_perm _ _ _ HB)|]. apply in_seq. unfold interior in Hi. lia. }
  apply In_nth_error in Hin as [k Hk].
  assert (Hok : hok h0).
  { split; [rewrite EH; apply seq_NoDup|]. rewrite EH. intros q j Hq. apply nth_error_In, in_seq in Hq.
    assert (HL : length (ph_points h0) = length ps).
    { pose proof (einv_length _ _ (bi_einv _ _ _ HB)) as HL. destruct Hsame as (Hc & _ & _). rewrite Hc in HL. unfold cores in HL. rewrite map_length in HL. exact HL. }
    destruct (nth_error_ge (ph_points h0) j) as [v Hv]; [lia|]. exists v. split; [exact Hv|]. left. apply (rp_heap _ _ _ _ (HR j v Hv)). }
  eapply (heapify_min h0 h Hok Eh k); [apply desc_zero| |].
  - unfold hw. rewrite Ht. destruct (HW top Htop) as (w0 & E0 & ->). congruence.
  - unfold hw. rewrite Hk. destruct (HW i Hi) as (w0 & E0 & ->). congruence.
Qed.

(** Exactly when an open edge is left alone. *)
Lemma unchanged_iff m ps thr r : edge_ok ps -> 0 <= thr <= u64_max -> simplify_edge m ps thr = Ok r ->
  ((forall i w, interior ps i -> weight_at m ps i = Ok w -> thr <= w) -> r = ps) /\
  (~ is_closed ps -> r = ps -> forall i w, interior ps i -> weight_at m ps i = Ok w -> thr <= w).
Proof.
  intros HE Ht E. unfold simplify_edge in E. apply bind_Ok in E as (h & Eh & E).
  destruct (first_pop_min m ps h HE Eh) as [HW Hmin].
  destruct (heap_from_cases m ps HE) as [[_ E']|(h0 & h' & E' & _ & _ & _ & _ & HB)]; rewrite Eh in E'; [discriminate|]. injection E' as <-.
  unfold visvalingam_whyatt in E. apply bind_Ok in E as (h2 & El & E).
  destruct (vw_loop_ok m ps thr (length (ph_heap h)) h 0) as [[_ E']|(h' & E' & He & Hf & Ho)]; [lia| | |rewrite El in E'; discriminate|].
  { split; [apply HB|]. split; [apply HB|]. split; [|right; eauto]. intros i Hi. apply (bi_int _ _ _ HB). eapply Permutation_in; [apply Permutation_sym, HB|exact Hi]. }
  { pose proof u64_max_nonneg. lia. }
  rewrite El in E'. injection E' as <-.
  destruct (result_ok ps h2 thr He HE ltac:(lia)) as (r' & Er & Hsub & _ & _ & _ & Hr4 & Heq). rewrite E in Er. injection Er as <-.
  set (f := fun p => thr <=? vp_weight p) in *.
  assert (Hlen : length (ph_points h2) = length ps) by (rewrite <- (einv_length _ _ He); unfold cores; rewrite map_length; reflexivity).
  assert (Hgeo : map vp_geo (ph_points h2) = ps) by (rewrite geo_points; apply (ei_geo _ _ He)).
  assert (Hends : forall k, (k < length ps)%nat -> ~ interior ps k -> wt (cores h2) k = Some u64_max).
  { intros k Hk Hi. unfold wt. destruct (Nat.eq_dec k 0) as [->|Hk0].
    - destruct (ei_first _ _ He) as [n ->]. reflexivity.
    - assert (k = (length ps - 1)%nat) as -> by (unfold interior in Hi; lia). destruct (ei_last _ _ He) as [n ->]. reflexivity. }
  split.
  - intros Hall.
    assert (Hw2 : forall k, wt (cores h2) k = wt (cores h) k).
    { destruct (ph_heap h) as [|top rest] eqn:EH; [intros k; apply Hf; rewrite EH; intros []|].
      destruct (Hmin top eq_refl) as [Hti _]. destruct (HW top Hti) as (w & Ew & Ewt).
      pose proof (Hall top w Hti Ew). destruct (Ho top w) as [_ H2]; [rewrite EH; reflexivity|exact Ewt|lia|]. apply H2. lia. }
    assert (Eret : map vp_geo (filter f (ph_points h2)) = ps).
    { transitivity (map vp_geo (ph_points h2)); [f_equal|exact Hgeo]. assert (HF : forall p, In p (ph_points h2) -> f p = true).
      { intros p Hp. apply In_nth_error in Hp as [k Hk]. unfold f. apply Z.leb_le.
        assert (Hwk : wt (cores h2) k = Some (vp_weight p)) by (unfold wt, cores; rewrite nth_error_map, Hk; reflexivity).
        pose proof (nth_error_lt _ _ _ Hk) as Hkl. rewrite Hlen in Hkl.
        destruct (Nat.eq_dec k 0) as [->|Hk0]; [rewrite Hends in Hwk by (unfold interior; lia); injection Hwk as <-; lia|].
        destruct (Nat.eq_dec k (length ps - 1)) as [->|Hkn]; [rewrite Hends in Hwk by (unfold interior; lia); injection Hwk as <-; lia|].
        assert (Hi : interior ps k) by (unfold interior; lia). destruct (HW k Hi) as (w & Ew & Ewt). rewrite Hw2, Ewt in Hwk. injection Hwk as <-. eapply Hall; eassumption. }
      clear -HF. induction (ph_points h2) as [|p l IH]; [reflexivity|]. cbn [filter]. rewrite HF by (left; reflexivity). rewrite IH; [reflexivity|]. intros q Hq. apply HF. right. exact Hq. }
    rewrite Heq; [exact Eret|]. rewrite Eret. destruct HE as [H2 H4]. destruct (pt_eqb_spec (nthp ps 0) (nthp ps (length ps - 1))) as [Eq|Eq].
    + right. apply H4, closed_nthp; [lia|exact Eq].
    + left. intros Hc. apply closed_nthp in Hc; [contradiction|lia].
  - intros Hopen Hrps i w Hi Ew. destruct (Z.leb_spec thr w) as [H|Hlt]; [exact H|exfalso].
    assert (Hne : exists top, nth_error (ph_heap h) 0 = Some top).
    { apply nth_error_ge. rewrite <- (Permutation_length (bi_perm _ _ _ HB)), seq_length. unfold interior in Hi. lia. }
    destruct Hne as [top Htop]. destruct (Hmin top Htop) as [Hti Hm]. destruct (HW top Hti) as (wt0 & Ewt0 & Hwt0). pose proof (Hm wt0 i w Ewt0 Hi Ew).
    assert (H0 : 0 <= wt0).
    { destruct (weight2_cases m (nthp ps (top - 1)) (nthp ps top) (nthp ps (top + 1))) as [[_ E']|(w0 & E' & Hw)]; unfold weight_at in Ewt0; rewrite Ewt0 in E'; [discriminate|]. injection E' as <-. lia. }
    destruct (Ho top wt0 Htop Hwt0 H0) as [Hgo _]. specialize (Hgo ltac:(lia)).
    unfold wt in Hgo. destruct (nth_error (cores h2) top) as [t|] eqn:Et; [|discriminate]. cbn in Hgo. injection Hgo as Hgo.
    apply cores_nth in Et as (p & Ep & <-). cbn [core co_weight] in Hgo.
    rewrite Heq in Hrps by (left; exact Hopen). apply (f_equal (@length point)) in Hrps. rewrite map_length, <- Hlen in Hrps.
    apply nth_error_In in Ep. apply in_split in Ep as (l1 & l2 & Ep). rewrite Ep, filter_app in Hrps. cbn [filter] in Hrps.
    assert (Hfp : f p = false) by (unfold f; apply Z.leb_gt; lia). rewrite Hfp in Hrps. rewrite !app_length in Hrps. cbn [length] in Hrps.
    pose proof (subseq_length _ _ (subseq_filter f l1)). pose proof (subseq_length _ _ (subseq_filter f l2)). lia.
Qed.

(** ** Forms used in the property statements *)
Lemma edge_ok_dec ps : {edge_ok ps} + {~ edge_ok ps}.
Proof.
  unfold edge_ok. destruct (le_lt_dec 2 (length ps)) as [H2|H2]; [|right; intros [H _]; lia].
  destruct (le_lt_dec 4 (length ps)) as [H4|H4]; [left; auto|].
  destruct (pt_eqb (nthp ps 0) (nthp ps (length ps - 1))) eqn:E.
  - right. intros [_ H]. apply pt_eqb_eq in E. apply closed_nthp in E; [|lia]. specialize (H E). lia.
  - left. split; [exact H2|]. intros Hc. apply closed_nthp in Hc; [|lia]. apply pt_eqb_neq in E. contradiction.
Qed.

Lemma simplify_parts {D} m (t t' : topology D) thr : simplify m t thr = Ok t' ->
  tp_regions t' = tp_regions t /\
  Forall2 (fun e e' => simplify_edge m (te_points e) thr = Ok (te_points e') /\
                       te_ring0 e' = te_ring0 e /\ te_ring1 e' = te_ring1 e) (tp_edges t) (tp_edges t').
Proof.
  unfold simplify. intros H. apply bind_Ok in H as (es & E & H). injection H as <-. cbn [tp_regions tp_edges]. split; [reflexivity|].
  revert es E. induction (tp_edges t) as [|e l IH]; intros es E; cbn [mmap] in E.
  - injection E as <-. constructor.
  - apply bind_Ok in E as (e' & E1 & E). apply bind_Ok in E as (l' & E2 & E). injection E as <-. constructor; [|apply IH, E2].
    apply bind_Ok in E1 as (ps & Ep & E1). injection E1 as <-. cbn [te_points te_ring0 te_ring1]. auto.
Qed.

Lemma Forall2_nth_l {A B} (P : A -> B -> Prop) l l' i a : Forall2 P l l' -> nth_error l i = Some a -> exists b, nth_error l' i = Some b /\ P a b.
Proof.
  intros H. revert i. induction H as [|x y l l' Hxy H IH]; intros [|i] E; try discriminate; cbn in *; [injection E as <-; eauto|apply IH, E].
Qed.

Lemma subseq_rev {A} (l l' : list A) : subseq l l' -> subseq (rev l) (rev l').
Proof.
  induction 1 as [|a l l' H IH|a l l' H IH]; cbn [rev]; [constructor| |].
  - rewrite <- (app_nil_r (rev l)). apply subseq_app; [exact IH|apply subseq_nil].
  - apply subseq_app; [exact IH|apply subseq_refl].
Qed.

Lemma simplify_rings {D} m (t t' : topology D) thr r ps : thr <= u64_max -> simplify m t thr = Ok t' ->
  read_ring (tp_edges t) r = map Some ps -> closed_chain ps ->
  exists ps', read_ring (tp_edges t') r = map Some ps' /\ closed_chain ps' /\ Forall2 subseq ps' ps.
Proof.
  intros Ht H Hr (p & Hc). apply simplify_parts in H as [_ HF]. unfold read_ring in *. unfold closed_chain.
  assert (G : forall q ds ps, map (read_de (tp_edges t)) ds = map Some ps -> forall p, chain p ps q ->
    exists ps', map (read_de (tp_edges t')) ds = map Some ps' /\ chain p ps' q /\ Forall2 subseq ps' ps).
  { intros q. induction ds as [|d ds IH]; intros [|x xs] E p0 Hp; try discriminate.
    - exists []. auto.
    - cbn [map] in E. injection E as Ed E. cbn [chain] in Hp. destruct Hp as (Hf & y & Hy & Hp).
      destruct (IH xs E y Hp) as (ps' & E' & Hp' & Hs). clear IH E Hp.
      unfold read_de in *. destruct (nth_error (tp_edges t) (de_edge d)) as [e|] eqn:Ee; [|discriminate]. cbn in Ed. injection Ed as <-.
      destruct (Forall2_nth_l _ _ _ _ _ HF Ee) as (e' & Ee' & Es & _).
      assert (HS : subseq (te_points e') (te_points e) /\ first (te_points e') = first (te_points e) /\ final (te_points e') = final (te_points e)).
      { destruct (edge_ok_dec (te_points e)) as [HE|HE]; [|rewrite simplify_edge_rejects in Es by exact HE; discriminate].
        destruct (simplify_edge_ok m (te_points e) thr HE Ht) as [[_ Q]|(r' & Q & HQ)]; rewrite Es in Q; [discriminate|]. injection Q as <-. tauto. }
      destruct HS as (S1 & S2 & S3). exists (oriented (te_points e') (de_dir d) :: ps'). cbn [map]. rewrite Ee'. cbn [option_map].
      split; [f_equal; exact E'|]. split.
      + cbn [chain]. split.
        * rewrite <- Hf. destruct (de_dir d); cbn [oriented]; [exact S2|]. rewrite !first_rev. exact S3.
        * exists y. split; [|exact Hp']. rewrite <- Hy. destruct (de_dir d); cbn [oriented]; [exact S3|]. rewrite !final_rev. exact S2.
      + constructor; [|exact Hs]. destruct (de_dir d); cbn [oriented]; [exact S1|apply subseq_rev, S1]. }
  destruct (G p _ _ Hr p Hc) as (ps' & E & Hp & Hs). eauto.
Qed.

Lemma simplify_references {D} m (t t' : topology D) thr : simplify m t thr = Ok t' -> exact_references t -> exact_references t'.
Proof.
  intros H (H1 & H2 & H3). apply simplify_parts in H as [ER HF]. unfold exact_references. rewrite ER. split; [exact H1|]. split.
  - intros u Hu. rewrite <- (Forall2_length' _ _ _ HF). apply H2, Hu.
  - intros i e' He'. assert (HL : (i < length (tp_edges t))%nat) by (rewrite (Forall2_length' _ _ _ HF); eapply nth_error_lt, He').
    apply nth_error_ge in HL as [e He]. destruct (Forall2_nth_l _ _ _ _ _ HF He) as (e2 & He2 & _ & R0 & R1).
    assert (e2 = e') as -> by congruence. rewrite R0, R1. apply H3, He.
Qed.

Lemma simplify_returns {D} (t : topology D) thr : thr <= u64_max ->
  Forall (fun e => edge_ok (te_points e)) (tp_edges t) -> exists t', simplify Release t thr = Ok t'.
Proof.
  intros Ht HF. unfold simplify.
  destruct (mmap_cases Release (fun e => ps <- simplify_edge Release (te_points e) thr ;; Ok (TEdge ps (te_ring0 e) (te_ring1 e))) (fun _ _ => True) (tp_edges t)) as [[E _]|(es & E & _)].
  - intros e He. rewrite Forall_forall in HF. destruct (simplify_edge_ok Release (te_points e) thr (HF e He) Ht) as [[E _]|(r & -> & _)]; [discriminate|]. right. eexists. split; [reflexivity|exact I].
  - discriminate.
  - rewrite E. cbn [bind]. eauto.
Qed.

Lemma simplify_zero {D} m (t t' : topology D) : (forall ps r, simplify_edge m ps 0 = Ok r -> r = ps) -> simplify m t 0 = Ok t' -> t' = t.
Proof.
  intros HI H. apply simplify_parts in H as [ER HF]. destruct t as [rs es], t' as [rs' es']. cbn [tp_regions tp_edges] in *. subst rs'. f_equal.
  induction HF as [|e e' l l' (E & E0 & E1) HF IH]; [reflexivity|]. rewrite IH. f_equal. apply HI in E. destruct e, e'. cbn in *. congruence.
Qed.

Lemma weight2_exact m a b c :
  fits (px b * px a) -> fits (py c - py a) -> fits (px b * px a * (py c - py a)) ->
  fits (px c - px a) -> fits (py b - py a) -> fits ((px c - px a) * (py b - py a)) ->
  fits (px b * px a * (py c - py a) - (px c - px a) * (py b - py a)) ->
  - 2 ^ 63 < px b * px a * (py c - py a) - (px c - px a) * (py b - py a) ->
  weight2 m a b c = Ok (Z.abs (px b * px a * (py c - py a) - (px c - px a) * (py b - py a))) /\
  (px b * px a = px b - px a \/ py c = py a -> weight2 m a b c = Ok (Z.abs (shoelace [a; b; c; a]))).
Proof.
  intros F1 F2 F3 F4 F5 F6 F7 F8.
  assert (E : weight2 m a b c = Ok (Z.abs (px b * px a * (py c - py a) - (px c - px a) * (py b - py a)))).
  { unfold weight2, i64_mul, i64_sub, i64_abs.
    repeat (rewrite i64_ret_fits by assumption; cbn [bind]).
    rewrite i64_ret_fits by (unfold fits in *; lia). cbn [bind]. f_equal. unfold as_u64, two64. apply Z.mod_small. unfold fits in *. lia. }
  split; [exact E|]. intros H. rewrite E. f_equal. f_equal. cbn [shoelace]. unfold det. destruct H as [H|H]; [rewrite H|rewrite H]; ring.
Qed.

Lemma first_pop_spec m ps h top h1 : heap_from m ps = Ok h -> hpop h = Ok (top, h1) ->
  interior ps top /\
  exists a b c w, nth_error ps (top - 1) = Some a /\ nth_error ps top = Some b /\ nth_error ps (top + 1) = Some c /\
    weight2 m a b c = Ok w /\
    forall i a' b' c' w', interior ps i ->
      nth_error ps (i - 1) = Some a' -> nth_error ps i = Some b' -> nth_error ps (i + 1) = Some c' ->
      weight2 m a' b' c' = Ok w' -> w <= w'.
Proof.
  intros Eh Ep. destruct (edge_ok_dec ps) as [HE|HE].
  2:{ rewrite heap_from_rejects in Eh by exact HE. discriminate. }
  destruct (first_pop_min m ps h HE Eh) as [HW Hmin].
  assert (Ht : nth_error (ph_heap h) 0 = Some top).
  { destruct (heap_from_cases m ps HE) as [[_ E']|(h0 & h' & E' & _ & _ & _ & _ & HB)]; rewrite Eh in E'; [discriminate|]. injection E' as <-.
    destruct (hpop_ok ps h _ HB) as (top' & h2 & A & B & x & y & E & _ & Et & _); [|congruence].
    intros H0. unfold hpop in Ep. rewrite H0 in Ep. discriminate. }
  destruct (Hmin top Ht) as [Hi Hm]. split; [exact Hi|]. destruct (HW top Hi) as (w & Ew & _).
  assert (HI := Hi). unfold interior in HI.
  exists (nthp ps (top - 1)), (nthp ps top), (nthp ps (top + 1)), w. split; [apply nthp_some; lia|]. split; [apply nthp_some; lia|]. split; [apply nthp_some; lia|].
  split; [exact Ew|]. intros i a' b' c' w' Hi' Ea Eb Ec E'. apply (Hm w i w' Ew Hi'). unfold weight_at.
  unfold interior in Hi'. rewrite nthp_some in Ea by lia. rewrite nthp_some in Eb by lia. rewrite nthp_some in Ec by lia. congruence.
Qed.

Lemma unchanged_if m ps thr r : 0 <= thr <= u64_max -> simplify_edge m ps thr = Ok r ->
  (forall i a b c w, (0 < i)%nat -> nth_error ps (i - 1) = Some a -> nth_error ps i = Some b -> nth_error ps (i + 1) = Some c ->
     weight2 m a b c = Ok w -> thr <= w) -> r = ps.
Proof.
  intros Ht E H. destruct (edge_ok_dec ps) as [HE|HE]; [|rewrite simplify_edge_rejects in E by exact HE; discriminate].
  apply (unchanged_iff m ps thr r HE Ht E). intros i w Hi Ew. unfold interior in Hi. apply (H i (nthp ps (i - 1)) (nthp ps i) (nthp ps (i + 1))); try (apply nthp_some); try lia. exact Ew.
Qed.

Lemma subseq_full {A} (l l' : list A) : subseq l l' -> length l = length l' -> l = l'.
Proof.
  induction 1 as [|a l l' H IH|a l l' H IH]; cbn [length]; intros E; [reflexivity| |].
  - apply subseq_length in H. lia.
  - rewrite IH by lia. reflexivity.
Qed.

Lemma changed_if m ps thr r i a b c w : 0 <= thr <= u64_max -> ~ is_closed ps -> simplify_edge m ps thr = Ok r ->
  (0 < i)%nat -> nth_error ps (i - 1) = Some a -> nth_error ps i = Some b -> nth_error ps (i + 1) = Some c ->
  weight2 m a b c = Ok w -> w < thr -> (length r < length ps)%nat.
Proof.
  intros Ht Ho E Hi Ea Eb Ec Ew Hw. destruct (edge_ok_dec ps) as [HE|HE]; [|rewrite simplify_edge_rejects in E by exact HE; discriminate].
  destruct (simplify_edge_ok m ps thr HE ltac:(lia)) as [[_ E']|(r' & E' & Hs & _)]; rewrite E in E'; [discriminate|]. injection E' as <-.
  pose proof (subseq_length _ _ Hs) as HL. destruct (Nat.eq_dec (length r) (length ps)) as [Heq|Hne]; [|lia]. exfalso.
  apply subseq_full in Hs; [|exact Heq]. pose proof (nth_error_lt _ _ _ Ec).
  destruct (unchanged_iff m ps thr r HE Ht E) as [_ HU]. specialize (HU Ho Hs i w). assert (thr <= w); [|lia]. apply HU; [unfold interior; lia|].
  unfold weight_at. rewrite nthp_some in Ea by lia. rewrite nthp_some in Eb by lia. rewrite nthp_some in Ec by lia. congruence.
Qed.
