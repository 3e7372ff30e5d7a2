(** * CostProofs: how many steps simplification takes *)
From Coq Require Import Permutation.
From Verif Require Import GeoProofs TopoProofs BuildProofs ClipEdgeProofs SimplifyProofs SimplifyLaws SimplifyHeap CostSpec.

Lemma erase_then {A B} (x : counted A) (k : A -> counted B) : erase (cthen x k) = (a <- erase x ;; erase (k a)).
Proof. unfold erase, cthen. destruct x as [[a n]|]; [|reflexivity]. cbn [bind fst snd]. destruct (k a) as [[b n']|]; reflexivity. Qed.
Lemma erase_plain {A} (x : res A) : erase (plain x) = x.
Proof. unfold erase, plain. destruct x; reflexivity. Qed.
Lemma erase_steps {A} n (x : counted A) : erase (steps n x) = erase x.
Proof. unfold erase, steps. destruct x as [[a k]|]; reflexivity. Qed.
Lemma erase_ok {A} (a : A) n : erase (Ok (a, n)) = Ok a.
Proof. reflexivity. Qed.
Lemma erase_if {A} (b : bool) (x y : counted A) : erase (if b then x else y) = if b then erase x else erase y.
Proof. destruct b; reflexivity. Qed.
Lemma bind_ext {A B} (x : res A) (f g : A -> res B) : (forall a, f a = g a) -> bind x f = bind x g.
Proof. intros H. destruct x; [apply H|reflexivity]. Qed.

Ltac step := intros; repeat rewrite bind_assoc; apply bind_ext; intros.

Lemma sift_down_erase fuel : forall h start root end_, erase (sift_down_c fuel h start root end_) = sift_down fuel h start root end_.
Proof.
  induction fuel as [|fuel IH]; intros h start root end_; [reflexivity|]. cbn [sift_down_c sift_down]. destruct (Nat.leb (left_child root) end_); [|reflexivity].
  rewrite erase_steps, erase_then, erase_plain, !bind_assoc. apply bind_ext. intros ws. rewrite bind_assoc. apply bind_ext. intros wc. cbv zeta. apply bind_ext. intros s2.
  rewrite erase_if. destruct (Nat.eqb s2 root); [reflexivity|]. rewrite erase_then, erase_plain. apply bind_ext. intros h'. apply IH.
Qed.
Lemma sift_up_erase fuel : forall h start child, erase (sift_up_c fuel h start child) = sift_up fuel h start child.
Proof.
  induction fuel as [|fuel IH]; intros h start child; [reflexivity|]. cbn [sift_up_c sift_up]. destruct (Nat.ltb start child); [|reflexivity].
  rewrite erase_steps, erase_then, erase_plain, !bind_assoc. apply bind_ext. intros wp. rewrite bind_assoc. apply bind_ext. intros wc. cbn [bind].
  rewrite erase_if. destruct (wc <? wp); [|reflexivity]. rewrite erase_then, erase_plain. apply bind_ext. intros h'. apply IH.
Qed.
Lemma heapify_loop_erase start : forall h end_, erase (heapify_loop_c start h end_) = heapify_loop start h end_.
Proof.
  induction start as [|start IH]; intros h end_; cbn [heapify_loop_c heapify_loop]; rewrite erase_steps, erase_then, sift_down_erase; apply bind_ext; intros h'; [reflexivity|apply IH].
Qed.
Lemma heapify_erase h : erase (heapify_c h) = heapify h.
Proof. unfold heapify_c, heapify. destruct (Nat.ltb 1 (length (ph_heap h))); [apply heapify_loop_erase|reflexivity]. Qed.
Lemma heap_from_erase m ps : erase (heap_from_c m ps) = heap_from m ps.
Proof.
  unfold heap_from_c, heap_from. rewrite erase_steps, erase_then, erase_plain. do 5 step. cbn [bind]. apply heapify_erase.
Qed.
Lemma hpop_erase h : erase (hpop_c h) = hpop h.
Proof.
  unfold hpop_c, hpop. rewrite erase_then, erase_plain, !bind_assoc. step. step. rewrite erase_if.
  destruct (Nat.eqb (length (ph_heap h)) 1); [reflexivity|]. rewrite erase_then, erase_plain, !bind_assoc. apply bind_ext. intros last. apply bind_ext. intros h2.
  rewrite erase_then, sift_down_erase. apply bind_ext. intros h3. apply erase_plain.
Qed.
Lemma recalc_erase m h bi : erase (recalc_c m h bi) = recalc m h bi.
Proof.
  unfold recalc_c, recalc. rewrite erase_then, erase_plain. apply bind_ext. intros b. destruct (vp_prev b) as [ai|]; [|reflexivity]. destruct (vp_next b) as [ci|]; [|reflexivity].
  rewrite erase_then, erase_plain, !bind_assoc. apply bind_ext. intros a. rewrite !bind_assoc. apply bind_ext. intros c. apply bind_ext. intros w.
  destruct (w <? vp_weight b); [|destruct (vp_weight b <? w); [|reflexivity]]; rewrite erase_then, erase_plain.
  - apply bind_ext. intros h1. apply sift_up_erase.
  - rewrite !bind_assoc. apply bind_ext. intros h1. rewrite !bind_assoc. apply bind_ext. intros _. cbn [bind]. apply sift_down_erase.
Qed.
Lemma vw_loop_erase m thr fuel : forall h lw, erase (vw_loop_c fuel m thr h lw) = vw_loop fuel m thr h lw.
Proof.
  induction fuel as [|fuel IH]; intros h lw; cbn [vw_loop_c vw_loop]; destruct (ph_heap h) as [|x l] eqn:E; try reflexivity.
  rewrite erase_steps, erase_then, hpop_erase. apply bind_ext. intros [pi h1]. rewrite erase_then, erase_plain. apply bind_ext. intros p. cbv zeta.
  assert (C : forall h2 l, erase (cthen (plain (vget h2 pi)) (fun p2 =>
               cthen (match vp_prev p2 with Some i => recalc_c m h2 i | None => Ok (h2, 0%nat) end) (fun h3 =>
               cthen (plain (vget h3 pi)) (fun p3 =>
               cthen (match vp_next p3 with Some i => recalc_c m h3 i | None => Ok (h3, 0%nat) end) (fun h4 =>
               vw_loop_c fuel m thr h4 l))))) =
     (p2 <- vget h2 pi ;; h3 <- (match vp_prev p2 with Some i => recalc m h2 i | None => Ok h2 end) ;;
      p3 <- vget h3 pi ;; h4 <- (match vp_next p3 with Some i => recalc m h3 i | None => Ok h3 end) ;; vw_loop fuel m thr h4 l)).
  { intros h2 l0. rewrite erase_then, erase_plain. apply bind_ext. intros p2. rewrite erase_then. replace (erase (match vp_prev p2 with Some i => recalc_c m h2 i | None => Ok (h2, 0%nat) end)) with (match vp_prev p2 with Some i => recalc m h2 i | None => Ok h2 end) by (destruct (vp_prev p2); [symmetry; apply recalc_erase|reflexivity]).
    apply bind_ext. intros h3. rewrite erase_then, erase_plain. apply bind_ext. intros p3. rewrite erase_then. replace (erase (match vp_next p3 with Some i => recalc_c m h3 i | None => Ok (h3, 0%nat) end)) with (match vp_next p3 with Some i => recalc m h3 i | None => Ok h3 end) by (destruct (vp_next p3); [symmetry; apply recalc_erase|reflexivity]).
    apply bind_ext. intros h4. apply IH. }
  destruct (vp_weight p <? lw).
  - rewrite erase_then, erase_plain. apply bind_ext. intros h2. apply C.
  - destruct (thr <=? vp_weight p); [reflexivity|]. apply C.
Qed.
Lemma simplify_edge_erase m ps thr : erase (simplify_edge_c m ps thr) = simplify_edge m ps thr.
Proof.
  unfold simplify_edge_c, simplify_edge, visvalingam_whyatt. rewrite erase_then, heap_from_erase. apply bind_ext. intros h. rewrite erase_then, vw_loop_erase. apply bind_ext. intros h'.
  rewrite erase_steps. apply erase_plain.
Qed.
Lemma simplify_all_erase m es thr : erase (simplify_all_c m es thr) = mmap (fun ps => simplify_edge m ps thr) es.
Proof.
  induction es as [|e es IH]; [reflexivity|]. cbn [simplify_all_c mmap]. rewrite erase_then, simplify_edge_erase. apply bind_ext. intros r. rewrite erase_then, IH. apply bind_ext. reflexivity.
Qed.

(** ** Bounds *)
Lemma cthen_ok {A B} (x : counted A) (k : A -> counted B) b n : cthen x k = Ok (b, n) -> exists a n1 n2, x = Ok (a, n1) /\ k a = Ok (b, n2) /\ n = (n1 + n2)%nat.
Proof.
  unfold cthen. destruct x as [[a n1]|]; [|discriminate]. cbn [bind fst snd]. destruct (k a) as [[b' n2]|] eqn:E; [|discriminate]. cbn [bind fst snd]. intros X. injection X as <- <-. exists a, n1, n2. auto.
Qed.
Lemma plain_ok {A} (x : res A) a n : plain x = Ok (a, n) -> x = Ok a /\ n = 0%nat.
Proof. unfold plain. destruct x; [|discriminate]. cbn. intros X. injection X as <- <-. auto. Qed.
Lemma steps_ok {A} k (x : counted A) a n : steps k x = Ok (a, n) -> exists n', x = Ok (a, n') /\ n = (k + n')%nat.
Proof. unfold steps. destruct x as [[a' n']|]; [|discriminate]. cbn. intros X. injection X as <- <-. exists n'. auto. Qed.

Lemma sift_down_cost fuel : forall h start root end_ h' n, sift_down_c fuel h start root end_ = Ok (h', n) -> n = 0%nat \/ ((root + 1) * 2 ^ n <= end_ + 1)%nat.
Proof.
  induction fuel as [|fuel IH]; intros h start root end_ h' n; [discriminate|]. cbn [sift_down_c]. unfold left_child. destruct (Nat.leb_spec (2 * root + 1) end_) as [L|L].
  2:{ intros E. injection E as <- <-. auto. }
  intros E. apply steps_ok in E as (n1 & E & ->). apply cthen_ok in E as (s2 & a & b & E1 & E2 & ->). apply plain_ok in E1 as (E1 & ->).
  assert (P : s2 = root \/ (2 * root + 1 <= s2)%nat).
  { destruct (hweight h start) as [ws|]; [|discriminate]. cbn [bind] in E1. destruct (hweight h (2 * root + 1)) as [wc|]; [|discriminate]. cbn [bind] in E1. cbv zeta in E1. revert E1.
    destruct (wc <? ws); (destruct (Nat.leb (2 * root + 1 + 1) end_); [|intros X; injection X as <-; lia]); match goal with |- context [hweight h ?k] => destruct (hweight h k) as [w1|]; [|discriminate] end; cbn [bind];
      (destruct (hweight h (2 * root + 1 + 1)) as [w2|]; [|discriminate]); cbn [bind]; destruct (w2 <? w1); intros X; injection X as <-; lia. }
  destruct (Nat.eqb_spec s2 root) as [-> |N]; [injection E2 as <- <-; right; cbn; lia|]. destruct P as [P|P]; [congruence|].
  apply cthen_ok in E2 as (h1 & a & c & E2 & E3 & ->). apply plain_ok in E2 as (_ & ->). right. destruct (IH _ _ _ _ _ _ E3) as [-> |B]; [cbn; lia|].
  cbn [Nat.add]. rewrite Nat.pow_succ_r'. nia.
Qed.

Lemma sift_up_cost fuel : forall h start child h' n, sift_up_c fuel h start child = Ok (h', n) -> n = 0%nat \/ (2 ^ n <= child + 1)%nat.
Proof.
  induction fuel as [|fuel IH]; intros h start child h' n; [discriminate|]. cbn [sift_up_c]. destruct (Nat.ltb_spec start child) as [L|L].
  2:{ intros E. injection E as <- <-. auto. }
  intros E. apply steps_ok in E as (n1 & E & ->). apply cthen_ok in E as (lighter & a & b & E1 & E2 & ->). apply plain_ok in E1 as (_ & ->). right.
  destruct lighter; [|injection E2 as <- <-; cbn; lia]. apply cthen_ok in E2 as (h1 & a & c & E2 & E3 & ->). apply plain_ok in E2 as (_ & ->).
  destruct (IH _ _ _ _ _ E3) as [-> |B]; [cbn; lia|]. cbn [Nat.add]. rewrite Nat.pow_succ_r'.
  pose proof (Nat.div_mod (child - 1) 2 ltac:(lia)) as DM. change ((child - 1) / 2)%nat with (parent child) in DM. lia.
Qed.

Lemma log_bound n k : (0 < k)%nat -> n = 0%nat \/ (2 ^ n <= k)%nat -> (n <= Nat.log2 k)%nat.
Proof. intros Hk [-> |H]; [lia|]. apply Nat.log2_le_pow2; lia. Qed.

Lemma heapify_loop_cost start : forall h end_ h' n, heapify_loop_c start h end_ = Ok (h', n) -> (n <= (start + 1) * (1 + Nat.log2 (end_ + 1)))%nat.
Proof.
  assert (B : forall fuel h s e h' n, sift_down_c fuel h s s e = Ok (h', n) -> (n <= Nat.log2 (e + 1))%nat).
  { intros fuel h s e h' n E. apply log_bound; [lia|]. destruct (sift_down_cost _ _ _ _ _ _ _ E) as [-> |X]; [auto|]. right. nia. }
  induction start as [|start IH]; intros h end_ h' n E; cbn [heapify_loop_c] in E; apply steps_ok in E as (n1 & E & ->); apply cthen_ok in E as (h1 & a & b & E1 & E2 & ->); apply B in E1.
  - injection E2 as <- <-. lia.
  - apply IH in E2. nia.
Qed.
Lemma heapify_cost h h' n : heapify_c h = Ok (h', n) -> (n <= length (ph_heap h) * (1 + Nat.log2 (length (ph_heap h))))%nat.
Proof.
  unfold heapify_c. destruct (Nat.ltb_spec 1 (length (ph_heap h))) as [L|L]; [|intros E; injection E as <- <-; lia].
  intros E. apply heapify_loop_cost in E. set (k := length (ph_heap h)) in *. replace (k - 1 + 1)%nat with k in E by lia.
  pose proof (parent_lt (k - 1) ltac:(lia)). assert (parent (k - 1) + 1 <= k)%nat by lia. nia.
Qed.

Lemma removelast_len {A} (l : list A) : length (removelast l) = (length l - 1)%nat.
Proof. induction l as [|a [|b l] IH]; [reflexivity..|]. cbn [removelast length] in *. lia. Qed.

Section Bounds.
  Variable N : nat.
  Hypothesis HN : (0 < N)%nat.
  Let L := Nat.log2 N.

  Lemma down_bound fuel h s e h' n : (e + 1 <= N)%nat -> sift_down_c fuel h s s e = Ok (h', n) -> (n <= L)%nat.
  Proof.
    intros He E. unfold L. apply log_bound; [exact HN|]. destruct (sift_down_cost _ _ _ _ _ _ _ E) as [-> |X]; [auto|]. right. nia.
  Qed.
  Lemma up_bound fuel h s c h' n : (c + 1 <= N)%nat -> sift_up_c fuel h s c = Ok (h', n) -> (n <= L)%nat.
  Proof.
    intros He E. unfold L. apply log_bound; [exact HN|]. destruct (sift_up_cost _ _ _ _ _ _ E) as [-> |X]; [auto|]. right. lia.
  Qed.

  (** Places in the heap that points remember stay below [N]. *)
  Definition placed (h : pheap) : Prop := (length (ph_heap h) <= N)%nat /\ Forall (fun p => (vp_heap p < N)%nat) (ph_points h).

  Lemma placed_upd h i f h' : placed h -> (forall p, (vp_heap p < N)%nat -> (vp_heap (f p) < N)%nat) -> vupd h i f = Ok h' -> placed h' /\ length (ph_heap h') = length (ph_heap h).
  Proof.
    intros (HL & HP) Hf E. unfold vupd, vget, get_or in E. destruct (nth_error (ph_points h) i) as [p|] eqn:Ep; [|discriminate]. cbn [bind] in E. injection E as <-. cbn [ph_heap ph_points].
    split; [|reflexivity]. split; [exact HL|]. cbn [ph_points]. rewrite Forall_forall in HP |- *. intros q Hq. apply In_nth_error in Hq as [k Hk]. destruct (Nat.eq_dec i k) as [<-|Hik].
    - rewrite SimplifyProofs.nth_error_set_eq in Hk by (apply (nth_error_lt _ _ _ Ep)). injection Hk as <-. apply Hf, HP. eapply nth_error_In, Ep.
    - rewrite SimplifyProofs.nth_error_set_neq in Hk by exact Hik. apply HP. eapply nth_error_In, Hk.
  Qed.
  Lemma placed_swap h a b h' : placed h -> hswap h a b = Ok h' -> placed h' /\ length (ph_heap h') = length (ph_heap h).
  Proof.
    intros H E. unfold hswap in E. destruct (get (ph_heap h) a) as [ia|] eqn:Ea; [|discriminate]. destruct (get (ph_heap h) b) as [ib|] eqn:Eb; [|discriminate]. cbn [bind] in E.
    assert (La : (a < N)%nat) by (unfold get, get_or in Ea; destruct (nth_error (ph_heap h) a) eqn:X; [|discriminate]; apply nth_error_lt in X; destruct H; lia).
    assert (Lb : (b < N)%nat) by (unfold get, get_or in Eb; destruct (nth_error (ph_heap h) b) eqn:X; [|discriminate]; apply nth_error_lt in X; destruct H; lia).
    match type of E with context [vupd ?x _ _] => set (h1 := x) in E end. destruct (vupd h1 ib (set_heap a)) as [h2|] eqn:E2; [|discriminate]. cbn [bind] in E.
    assert (H1 : placed h1) by (destruct H as (HL & HP); split; [cbn [h1 ph_heap]; rewrite !set_nth_length; exact HL|exact HP]).
    apply placed_upd in E2 as (H2 & L2); [|exact H1|intros; exact La]. apply placed_upd in E as (H3 & L3); [|exact H2|intros; exact Lb].
    split; [exact H3|]. rewrite L3, L2. cbn [h1 ph_heap]. rewrite !set_nth_length. reflexivity.
  Qed.
  Lemma placed_down fuel : forall h start root end_ h' n, placed h -> sift_down_c fuel h start root end_ = Ok (h', n) -> placed h' /\ length (ph_heap h') = length (ph_heap h).
  Proof.
    induction fuel as [|fuel IH]; intros h start root end_ h' n H E; [discriminate|]. cbn [sift_down_c] in E. destruct (Nat.leb (left_child root) end_); [|injection E as <- <-; auto].
    apply steps_ok in E as (n1 & E & ->). apply cthen_ok in E as (s2 & a & b & _ & E & ->). destruct (Nat.eqb s2 root); [injection E as <- <-; auto|].
    apply cthen_ok in E as (h1 & a' & b' & E1 & E & ->). apply plain_ok in E1 as (E1 & ->). apply placed_swap in E1 as (H1 & L1); [|exact H]. apply IH in E as (H2 & L2); [|exact H1]. split; [exact H2|congruence].
  Qed.
  Lemma placed_up fuel : forall h start child h' n, placed h -> sift_up_c fuel h start child = Ok (h', n) -> placed h' /\ length (ph_heap h') = length (ph_heap h).
  Proof.
    induction fuel as [|fuel IH]; intros h start child h' n H E; [discriminate|]. cbn [sift_up_c] in E. destruct (Nat.ltb start child); [|injection E as <- <-; auto].
    apply steps_ok in E as (n1 & E & ->). apply cthen_ok in E as (s2 & a & b & _ & E & ->). destruct s2; [|injection E as <- <-; auto].
    apply cthen_ok in E as (h1 & a' & b' & E1 & E & ->). apply plain_ok in E1 as (E1 & ->). apply placed_swap in E1 as (H1 & L1); [|exact H]. apply IH in E as (H2 & L2); [|exact H1]. split; [exact H2|congruence].
  Qed.
  Lemma placed_heapify start : forall h end_ h' n, placed h -> heapify_loop_c start h end_ = Ok (h', n) -> placed h' /\ length (ph_heap h') = length (ph_heap h).
  Proof.
    induction start as [|start IH]; intros h end_ h' n H E; cbn [heapify_loop_c] in E; apply steps_ok in E as (n1 & E & ->); apply cthen_ok in E as (h1 & a & b & E1 & E2 & ->); apply placed_down in E1 as (H1 & L1); try exact H.
    - injection E2 as <- <-. auto.
    - apply IH in E2 as (H2 & L2); [|exact H1]. split; [exact H2|congruence].
  Qed.

  Lemma hpop_cost h top h' n : placed h -> hpop_c h = Ok ((top, h'), n) -> placed h' /\ length (ph_heap h) = S (length (ph_heap h')) /\ (n <= L)%nat.
  Proof.
    intros H E. unfold hpop_c in E. apply cthen_ok in E as (top' & a & b & E1 & E & ->). apply plain_ok in E1 as (E1 & ->).
    assert (Hlen : (length (ph_heap h) <> 0)%nat) by (intros Z0; rewrite Z0 in E1; discriminate).
    destruct (Nat.eqb_spec (length (ph_heap h)) 1) as [L1|L1].
    { injection E as -> <- <-. split; [|cbn; split; lia]. destruct H as (_ & HP). split; [cbn; lia|exact HP]. }
    apply cthen_ok in E as (h2 & a & c & E2 & E & ->). apply plain_ok in E2 as (E2 & ->). apply cthen_ok in E as (h3 & e & d & E3 & E & ->). apply plain_ok in E as (E & ->).
    destruct (get (ph_heap h) (length (ph_heap h) - 1)) as [last|]; [|discriminate]. cbn [bind] in E2.
    match type of E2 with vupd ?x _ _ = _ => set (h1 := x) in E2 end.
    assert (Lr : length (ph_heap h1) = (length (ph_heap h) - 1)%nat) by (cbn [h1 ph_heap]; rewrite set_nth_length; apply removelast_len).
    assert (H1 : placed h1) by (destruct H as (HL & HP); split; [lia|exact HP]).
    apply placed_upd in E2 as (H2 & L2); [|exact H1|intros; exact HN]. assert (e <= L)%nat by (revert E3; apply down_bound; destruct H; lia). apply placed_down in E3 as (H3 & L3); [|exact H2].
    destruct (vget h3 top') as [tp|]; [|discriminate]. cbn [bind] in E. destruct (vp_prev tp) as [pi|]; [|discriminate]. cbn [bind] in E. destruct (vp_next tp) as [ni|]; [|discriminate]. cbn [bind] in E.
    destruct (vupd h3 pi (set_next (Some ni))) as [h4|] eqn:E4; [|discriminate]. cbn [bind] in E. destruct (vupd h4 ni (set_prev (Some pi))) as [h5|] eqn:E5; [|discriminate]. cbn [bind] in E. injection E as <- <-.
    apply placed_upd in E4 as (H4 & L4); [|exact H3|intros p X; exact X]. apply placed_upd in E5 as (H5 & L5); [|exact H4|intros p X; exact X].
    split; [exact H5|]. split; lia.
  Qed.

  Lemma recalc_cost m h bi h' n : placed h -> recalc_c m h bi = Ok (h', n) -> placed h' /\ length (ph_heap h') = length (ph_heap h) /\ (n <= L)%nat.
  Proof.
    intros H E. unfold recalc_c in E. apply cthen_ok in E as (b & a & n1 & E1 & E & ->). apply plain_ok in E1 as (E1 & ->).
    assert (Hb : (vp_heap b < N)%nat).
    { unfold vget, get_or in E1. destruct (nth_error (ph_points h) bi) as [p|] eqn:Ep; [|discriminate]. injection E1 as <-. destruct H as (_ & HP). rewrite Forall_forall in HP. apply HP. eapply nth_error_In, Ep. }
    destruct (vp_prev b) as [ai|]; [|injection E as <- <-; auto with arith]. destruct (vp_next b) as [ci|]; [|injection E as <- <-; auto with arith].
    apply cthen_ok in E as (w & a & n2 & E2 & E & ->). apply plain_ok in E2 as (_ & ->).
    destruct (w <? vp_weight b).
    { apply cthen_ok in E as (h1 & a & n3 & E3 & E & ->). apply plain_ok in E3 as (E3 & ->). apply placed_upd in E3 as (H1 & L1); [|exact H|intros p X; exact X].
      assert (n3 <= L)%nat by (revert E; apply up_bound; lia). apply placed_up in E as (H2 & L2); [|exact H1]. split; [exact H2|]. split; [congruence|lia]. }
    destruct (vp_weight b <? w); [|injection E as <- <-; auto with arith].
    apply cthen_ok in E as (h1 & a & n3 & E3 & E & ->). apply plain_ok in E3 as (E3 & ->). destruct (vupd h bi (set_weight w)) as [h0|] eqn:E4; [|discriminate]. cbn [bind] in E3.
    apply placed_upd in E4 as (H1 & L1); [|exact H|intros p X; exact X]. destruct (Nat.leb_spec 1 (length (ph_heap h0))) as [Hl|]; [|discriminate]. cbn [bind] in E3. injection E3 as <-.
    assert (n3 <= L)%nat by (revert E; apply down_bound; destruct H1; lia). apply placed_down in E as (H2 & L2); [|exact H1]. split; [exact H2|]. split; [congruence|lia].
  Qed.

  Lemma recalc_opt_cost m h o h' n : placed h -> match o with Some i => recalc_c m h i | None => Ok (h, 0%nat) end = Ok (h', n) -> placed h' /\ length (ph_heap h') = length (ph_heap h) /\ (n <= L)%nat.
  Proof. intros H E. destruct o; [eapply recalc_cost; eassumption|]. injection E as <- <-. auto with arith. Qed.

  Lemma vw_loop_cost m thr fuel : forall h lw h' n, placed h -> vw_loop_c fuel m thr h lw = Ok (h', n) -> (n <= length (ph_heap h) * (1 + 3 * L))%nat.
  Proof.
    induction fuel as [|fuel IH]; intros h lw h' n H E; cbn [vw_loop_c] in E; (destruct (ph_heap h) as [|x0 l0] eqn:EH; [injection E as <- <-; lia|]); [discriminate|].
    apply steps_ok in E as (n1 & E & ->). apply cthen_ok in E as ([pi h1] & n2 & n3 & E1 & E & ->). apply hpop_cost in E1 as (H1 & L1 & B1); [|exact H]. rewrite EH in L1. rewrite L1.
    apply cthen_ok in E as (p & n4 & n5 & E2 & E & ->). apply plain_ok in E2 as (_ & ->).
    assert (C : forall h2 l n, placed h2 -> length (ph_heap h2) = length (ph_heap h1) ->
      cthen (plain (vget h2 pi)) (fun p2 =>
               cthen (match vp_prev p2 with Some i => recalc_c m h2 i | None => Ok (h2, 0%nat) end) (fun h3 =>
               cthen (plain (vget h3 pi)) (fun p3 =>
               cthen (match vp_next p3 with Some i => recalc_c m h3 i | None => Ok (h3, 0%nat) end) (fun h4 =>
               vw_loop_c fuel m thr h4 l)))) = Ok (h', n) -> (n <= 2 * L + length (ph_heap h1) * (1 + 3 * L))%nat).
    { intros h2 l n0 H2 L2 X. apply cthen_ok in X as (p2 & a & b & X1 & X & ->). apply plain_ok in X1 as (_ & ->). apply cthen_ok in X as (h3 & c & d & X2 & X & ->). apply recalc_opt_cost in X2 as (H3 & L3 & B3); [|exact H2].
      apply cthen_ok in X as (p3 & e & f & X3 & X & ->). apply plain_ok in X3 as (_ & ->). apply cthen_ok in X as (h4 & g & k & X4 & X & ->). apply recalc_opt_cost in X4 as (H4 & L4 & B4); [|exact H3].
      apply IH in X; [|exact H4]. rewrite L4, L3, L2 in X. lia. }
    cbv zeta in E. destruct (vp_weight p <? lw).
    - apply cthen_ok in E as (h2 & a & b & X & E & ->). apply plain_ok in X as (X & ->). apply placed_upd in X as (H2 & L2); [|exact H1|intros q Y; exact Y]. apply C in E; [|exact H2|exact L2]. lia.
    - destruct (thr <=? vp_weight p); [injection E as <- <-; lia|]. apply C in E; [|exact H1|reflexivity]. lia.
  Qed.
End Bounds.

(** The heap that the points of an edge are put in. *)
Lemma init_heap m ps i v : init_interior m ps i = Ok v -> vp_heap v = 0%nat.
Proof.
  unfold init_interior. destruct (get ps (i - 1)); [|discriminate]. cbn [bind]. destruct (get ps i); [|discriminate]. cbn [bind]. destruct (get ps (i + 1)); [|discriminate]. cbn [bind].
  destruct (weight2 m _ _ _); [|discriminate]. cbn [bind]. intros E. injection E as <-. reflexivity.
Qed.
Lemma mmap_forall {A B} (f : A -> res B) (P : B -> Prop) l l' : (forall a b, f a = Ok b -> P b) -> mmap f l = Ok l' -> Forall P l' /\ length l' = length l.
Proof.
  intros Hf. revert l'. induction l as [|a l IH]; intros l' E; cbn [mmap] in E; [injection E as <-; auto|].
  destruct (f a) as [b|] eqn:Ea; [|discriminate]. cbn [bind] in E. destruct (mmap f l) as [bs|]; [|discriminate]. cbn [bind] in E. injection E as <-.
  destruct (IH bs eq_refl) as (F & Le). split; [constructor; [eapply Hf, Ea|exact F]|cbn; congruence].
Qed.

Lemma heap_from_cost m ps h n : heap_from_c m ps = Ok (h, n) ->
  placed (length ps) h /\ (length (ph_heap h) <= length ps)%nat /\ (n <= length ps + length ps * (1 + Nat.log2 (length ps)))%nat.
Proof.
  unfold heap_from_c. intros E. apply steps_ok in E as (n1 & E & ->). apply cthen_ok in E as (h0 & a & b & E0 & E & ->). apply plain_ok in E0 as (E0 & ->).
  destruct (Nat.leb_spec 2 (length ps)) as [L2|]; [|discriminate]. cbn [rassert bind] in E0. destruct (get ps 0) as [p0|]; [|discriminate]. cbn [bind] in E0. destruct (get ps (length ps - 1)) as [pn|]; [|discriminate]. cbn [bind] in E0.
  destruct (negb (pt_eqb p0 pn) || Nat.leb 4 (length ps)); [|discriminate]. cbn [rassert bind] in E0. destruct (mmap (init_interior m ps) (seq 1 (length ps - 2))) as [mid|] eqn:Em; [|discriminate]. cbn [bind] in E0. injection E0 as <-.
  apply (mmap_forall _ (fun v => (vp_heap v < length ps)%nat)) in Em as (Fm & _); [|intros i v Ev; rewrite (init_heap _ _ _ _ Ev); lia].
  match type of E with heapify_c ?x = _ => set (h1 := x) in E end.
  assert (L1 : length (ph_heap h1) = (length ps - 2)%nat) by (cbn [h1 ph_heap]; apply seq_length).
  assert (H1 : placed (length ps) h1).
  { split; [lia|]. cbn [h1 ph_points]. constructor; [cbn; lia|]. apply Forall_app. split; [exact Fm|]. constructor; [cbn; lia|constructor]. }
  pose proof (heapify_cost _ _ _ E) as C. rewrite L1 in C.
  assert (P : placed (length ps) h /\ length (ph_heap h) = length (ph_heap h1)).
  { unfold heapify_c in E. cbv zeta in E. destruct (Nat.ltb 1 (length (ph_heap h1))); [revert E; apply placed_heapify; [exact H1 || lia..]|]. injection E as <- <-. auto. }
  destruct P as (P & Le). split; [exact P|]. split; [lia|]. pose proof (Nat.log2_le_mono (length ps - 2) (length ps) ltac:(lia)). nia.
Qed.

Lemma simplify_edge_cost m ps thr r n : simplify_edge_c m ps thr = Ok (r, n) -> (n <= length ps * (4 * Nat.log2 (length ps) + 5))%nat.
Proof.
  unfold simplify_edge_c. intros E. apply cthen_ok in E as (h & a & b & E1 & E & ->). pose proof E1 as E0. apply heap_from_cost in E1 as (P & Le & C).
  apply cthen_ok in E as (h' & c & d & E2 & E & ->). apply steps_ok in E as (z & E & ->). apply plain_ok in E as (_ & ->).
  assert (Hps : (0 < length ps)%nat). { destruct ps; [cbn in E0; discriminate|cbn; lia]. }
  pose proof (vw_loop_cost (length ps) Hps m thr _ _ _ _ _ P E2) as C2.
  assert (Lp : length (ph_points h') = length ps).
  { assert (X : heap_from m ps = Ok h) by (rewrite <- heap_from_erase, E0; reflexivity). assert (Y : vw_loop (length (ph_heap h)) m thr h 0 = Ok h') by (rewrite <- vw_loop_erase, E2; reflexivity).
    destruct (edge_ok_dec ps) as [HE|HE]; [|rewrite heap_from_rejects in X by exact HE; discriminate].
    destruct (heap_from_cases m ps HE) as [(_ & Z0)|(h0 & h1 & Z0 & _ & _ & _ & _ & Hb)]; [congruence|]. rewrite X in Z0. injection Z0 as <-.
    destruct (vw_loop_ok m ps thr (length (ph_heap h)) h 0) as [(_ & Z0)|(h2 & Z0 & He & _ & _)]; [lia| |pose proof u64_max_nonneg; lia|congruence|].
    - split; [apply Hb|]. split; [apply Hb|]. split; [|right; eauto]. intros i Hi. apply (bi_int _ _ _ Hb). eapply Permutation_in; [apply Permutation_sym, Hb|exact Hi].
    - rewrite Y in Z0. injection Z0 as <-. apply einv_length in He. unfold cores in He. rewrite map_length in He. exact He. }
  rewrite Lp. nia.
Qed.

Lemma simplify_all_cost m thr : forall es rs n, simplify_all_c m es thr = Ok (rs, n) ->
  (n <= fold_right (fun ps s => length ps * (4 * Nat.log2 (length ps) + 5) + s) 0 es)%nat.
Proof.
  induction es as [|e es IH]; intros rs n E; cbn [simplify_all_c fold_right] in *; [injection E as <- <-; lia|].
  apply cthen_ok in E as (r & a & b & E1 & E & ->). apply simplify_edge_cost in E1. apply cthen_ok in E as (rs' & c & d & E2 & E & ->). apply IH in E2. injection E as <- <-. lia.
Qed.
