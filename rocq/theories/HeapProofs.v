(** * HeapProofs: sifting up restores the order of a heap *)
From Coq Require Import Permutation.
From Verif Require Import GeoProofs TopoProofs BuildProofs ClipEdgeProofs SimplifyProofs SimplifyLaws SimplifyHeap HeapSpec.

Lemma traced_hok h : traced h <-> hok h.
Proof.
  unfold traced, hok, index_ok, knows. split; intros (N & H); (split; [exact N|]); intros k i Hk.
  - destruct (H k i Hk) as [(p & Hp & E)|(p & Hp & E)]; exists p; (split; [exact Hp|]); [right; rewrite E; exact Hk|left; exact E].
  - destruct (H k i Hk) as (p & Hp & [E|E]); [right; exists p; auto|left; exists p; split; [exact Hp|]].
    eapply NoDup_nth_error_inj; eassumption.
Qed.

Lemma weight_hw h k : weight_at h k = hw h k.
Proof. unfold weight_at, hw, wt, cores. destruct (nth_error (ph_heap h) k); [|reflexivity]. rewrite nth_error_map. destruct (nth_error (ph_points h) n); reflexivity. Qed.

Lemma cores_iff a b : cores a = cores b <-> map (set_heap 0) (ph_points a) = map (set_heap 0) (ph_points b).
Proof.
  unfold cores. generalize (ph_points a), (ph_points b). induction l as [|p l IH]; intros [|q l']; try (cbn; split; [discriminate|discriminate]); [split; reflexivity|].
  cbn [map]. split; intros E; injection E; intros E1.
  - intros. f_equal; [|apply IH; assumption]. destruct p, q. unfold set_heap. cbn in *. congruence.
  - intros. f_equal; [|apply IH; assumption]. destruct p, q. unfold core. cbn in *. congruence.
Qed.

Lemma same_rearranged h h' : same h h' -> rearranged h h'.
Proof. intros (C & P & _). split; [exact P|apply cores_iff, C]. Qed.

(** Positions after a swap. *)
Lemma hswap_recorded h a b h' : hok h -> a <> b -> (a < length (ph_heap h))%nat -> (b < length (ph_heap h))%nat -> hswap h a b = Ok h' ->
  recorded h -> recorded h'.
Proof.
  intros Hh Hab La Lb E R. pose proof Hh as (Hnd & HI).
  destruct (nth_error_ge _ _ La) as [ia Ha], (nth_error_ge _ _ Lb) as [ib Hb].
  destruct (R a ia Ha) as (pa & Hpa & _), (R b ib Hb) as (pb & Hpb & _).
  assert (Hne : ia <> ib). { intros ->. apply Hab. eapply NoDup_nth_error_inj; eassumption. }
  unfold hswap in E. rewrite (get_ok _ _ _ Ha), (get_ok _ _ _ Hb) in E. cbn [bind] in E.
  rewrite (vupd_ok _ ib pb) in E by exact Hpb. cbn [bind ph_points ph_heap] in E.
  rewrite (vupd_ok _ ia pa) in E by (cbn [ph_points]; rewrite nth_error_set_neq by congruence; exact Hpa). cbn [ph_points ph_heap] in E.
  injection E as <-. intros k i Hk. cbn [ph_heap] in Hk. unfold knows. cbn [ph_points].
  destruct (Nat.eq_dec k b) as [->|Hkb].
  { rewrite nth_error_set_eq in Hk by (rewrite set_nth_length; exact Lb). injection Hk as <-. exists (set_heap b pa). split; [|reflexivity].
    apply nth_error_set_eq. rewrite set_nth_length. eapply nth_error_lt, Hpa. }
  rewrite nth_error_set_neq in Hk by congruence. destruct (Nat.eq_dec k a) as [->|Hka].
  { rewrite nth_error_set_eq in Hk by exact La. injection Hk as <-. exists (set_heap a pb). split; [|reflexivity].
    rewrite nth_error_set_neq by congruence. apply nth_error_set_eq. eapply nth_error_lt, Hpb. }
  rewrite nth_error_set_neq in Hk by congruence. destruct (R k i Hk) as (p & Hp & E). exists p. split; [|exact E].
  rewrite !nth_error_set_neq; [exact Hp| |]; intros <-; [apply Hkb|apply Hka]; eapply NoDup_nth_error_inj; eassumption.
Qed.

(** Weights after a swap. *)
Lemma hswap_weights h a b h' : hok h -> a <> b -> (a < length (ph_heap h))%nat -> (b < length (ph_heap h))%nat -> hswap h a b = Ok h' ->
  same h h' /\ weight_at h' a = weight_at h b /\ weight_at h' b = weight_at h a /\ forall k, k <> a -> k <> b -> weight_at h' k = weight_at h k.
Proof.
  intros Hh Hab La Lb E. destruct (hswap_ok h a b Hh Hab La Lb) as (h1 & ia & ib & E1 & S & Ha & Hb & EH). rewrite E in E1. injection E1 as <-.
  split; [exact S|]. destruct S as (C & _ & _).
  assert (W : forall k j, nth_error (ph_heap h') k = nth_error (ph_heap h) j -> weight_at h' k = weight_at h j) by (intros k j Hk; rewrite !weight_hw; apply hw_same; assumption).
  split; [|split].
  - apply W. rewrite EH, nth_error_set_neq by congruence. rewrite nth_error_set_eq by exact La. congruence.
  - apply W. rewrite EH, nth_error_set_eq by (rewrite set_nth_length; exact Lb). congruence.
  - intros k Hka Hkb. apply W. rewrite EH, !nth_error_set_neq by congruence. reflexivity.
Qed.

Lemma above_parent k : above k = parent k.
Proof. reflexivity. Qed.
Lemma above_lt k : (0 < k)%nat -> (above k < k)%nat.
Proof. apply parent_lt. Qed.

Lemma weight_some h k : hok h -> (k < length (ph_heap h))%nat -> exists w, weight_at h k = Some w /\ hweight h k = Ok w.
Proof. intros Hh Hk. destruct (hw_ok h k Hh Hk) as (w & E & W). exists w. rewrite weight_hw. auto. Qed.

Lemma sift_up_orders fuel : forall h c, hok h -> (c < length (ph_heap h))%nat -> (c < fuel)%nat -> ordered_but_above h c ->
  exists h', sift_up fuel h 0 c = Ok h' /\ heap_ordered h' /\ same h h' /\ (recorded h -> recorded h').
Proof.
  induction fuel as [|fuel IH]; intros h c Hh Hc Hf (O & V); [lia|]. cbn [sift_up].
  destruct (Nat.ltb_spec 0 c) as [H0|H0].
  2:{ exists h. split; [reflexivity|]. split; [intros k Hk; apply O; lia|]. split; [apply same_refl, Hh|auto]. }
  change (parent c) with (above c). pose proof (above_lt c H0) as Hp.
  destruct (weight_some h (above c) Hh ltac:(lia)) as (wp & Wp & ->), (weight_some h c Hh Hc) as (wc & Wc & ->). cbn [bind].
  destruct (Z.ltb_spec wc wp) as [HW|HW].
  2:{ exists h. split; [reflexivity|]. split; [|split; [apply same_refl, Hh|auto]]. intros k Hk. destruct (Nat.eq_dec k c) as [->|N]; [|apply O; assumption].
      intros w v E1 E2. rewrite Wp in E1. rewrite Wc in E2. congruence. }
  destruct (hswap_ok h (above c) c Hh ltac:(lia) ltac:(lia) ltac:(lia)) as (h1 & _ & _ & E & _). rewrite E. cbn [bind].
  destruct (hswap_weights h (above c) c h1 Hh ltac:(lia) ltac:(lia) ltac:(lia) E) as (S & W1 & W2 & W3).
  pose proof (hswap_recorded h (above c) c h1 Hh ltac:(lia) ltac:(lia) ltac:(lia) E) as R1.
  assert (Hb : forall k v, (0 < k)%nat -> k <> c -> above k = above c -> weight_at h k = Some v -> wp <= v).
  { intros k v Hk N A Ev. apply (O k Hk N wp v); [rewrite A; exact Wp|exact Ev]. }
  assert (OB : ordered_but_above h1 (above c)).
  { split.
    - intros k Hk N w v Ew Ev. pose proof (above_lt k Hk) as Lk. destruct (Nat.eq_dec k c) as [->|Nk].
      + rewrite W1, Wc in Ew. rewrite W2, Wp in Ev. injection Ew as <-. injection Ev as <-. lia.
      + rewrite (W3 k) in Ev by congruence. destruct (Nat.eq_dec (above k) c) as [A|A].
        * rewrite A, W2, Wp in Ew. injection Ew as <-. exact (V k wp v H0 Hk A Wp Ev).
        * destruct (Nat.eq_dec (above k) (above c)) as [A'|A'].
          -- rewrite A', W1, Wc in Ew. injection Ew as <-. pose proof (Hb k v Hk Nk A' Ev). lia.
          -- rewrite (W3 (above k)) in Ew by assumption. exact (O k Hk Nk w v Ew Ev).
    - intros k w v Hpc Hk A Ew Ev. pose proof (above_lt (above c) Hpc). rewrite (W3 (above (above c))) in Ew by lia.
      assert (Q : w <= wp) by (apply (O (above c) Hpc ltac:(lia) w wp Ew Wp)). destruct (Nat.eq_dec k c) as [->|Nk].
      + rewrite W2, Wp in Ev. injection Ev as <-. exact Q.
      + rewrite (W3 k) in Ev by (pose proof (above_lt k Hk); lia). pose proof (Hb k v Hk Nk A Ev). lia. }
  pose proof (same_length _ _ S) as L. destruct (IH h1 (above c)) as (h' & E' & O' & S' & R'); [apply S|lia|lia|exact OB|].
  exists h'. split; [exact E'|]. split; [exact O'|]. split; [eapply same_trans; eassumption|auto].
Qed.

(** ** A lower weight *)
Lemma recalc_orders m h bi b ai ci a c w h' : hok h -> recorded h -> heap_ordered h -> In bi (ph_heap h) ->
  nth_error (ph_points h) bi = Some b -> vp_prev b = Some ai -> vp_next b = Some ci ->
  nth_error (ph_points h) ai = Some a -> nth_error (ph_points h) ci = Some c ->
  weight2 m (vp_geo a) (vp_geo b) (vp_geo c) = Ok w -> w <= vp_weight b -> recalc m h bi = Ok h' ->
  heap_ordered h' /\ recorded h' /\ Permutation (ph_heap h) (ph_heap h') /\ exists b', nth_error (ph_points h') bi = Some b' /\ vp_weight b' = w.
Proof.
  intros Hh R O Hin Eb Ep En Ea Ec Ew Hw. unfold recalc. rewrite (vget_ok _ _ _ Eb). cbn [bind]. rewrite Ep, En, (vget_ok _ _ _ Ea), (vget_ok _ _ _ Ec). cbn [bind]. rewrite Ew. cbn [bind].
  destruct (Z.ltb_spec w (vp_weight b)) as [Lw|Lw].
  2:{ destruct (Z.ltb_spec (vp_weight b) w); [lia|]. intros E. injection E as <-. split; [exact O|]. split; [exact R|]. split; [apply Permutation_refl|]. exists b. split; [exact Eb|lia]. }
  rewrite (vupd_ok h bi b) by exact Eb. cbn [bind]. set (h1 := PH (set_nth (ph_points h) bi (set_weight w b)) (ph_heap h)).
  assert (Hh1 : hok h1) by (apply hok_set_weight; assumption).
  apply In_nth_error in Hin as [k Hk]. destruct (R k bi Hk) as (b0 & Eb0 & Eh). assert (b0 = b) as -> by congruence.
  assert (W1 : weight_at h1 k = Some w).
  { unfold weight_at, h1. cbn [ph_heap ph_points]. rewrite Hk, nth_error_set_eq by (eapply nth_error_lt, Eb). reflexivity. }
  assert (W0 : weight_at h k = Some (vp_weight b)) by (unfold weight_at; rewrite Hk, Eb; reflexivity).
  assert (WN : forall j, j <> k -> weight_at h1 j = weight_at h j).
  { intros j N. unfold weight_at, h1. cbn [ph_heap ph_points]. destruct (nth_error (ph_heap h) j) as [i|] eqn:Ej; [|reflexivity].
    rewrite nth_error_set_neq; [reflexivity|]. intros <-. apply N. destruct Hh as (ND & _). eapply NoDup_nth_error_inj; eassumption. }
  assert (OB : ordered_but_above h1 (vp_heap b)).
  { rewrite Eh. split.
    - intros j Hj N u v Eu Ev. pose proof (above_lt j Hj). rewrite (WN j) in Ev by exact N. destruct (Nat.eq_dec (above j) k) as [A|A].
      + rewrite A, W1 in Eu. injection Eu as <-. pose proof (O j Hj (vp_weight b) v) as X. rewrite A in X. specialize (X W0 Ev). lia.
      + rewrite (WN (above j)) in Eu by exact A. exact (O j Hj u v Eu Ev).
    - intros j u v Hk0 Hj A Eu Ev. pose proof (above_lt k Hk0). pose proof (above_lt j Hj). rewrite (WN (above k)) in Eu by lia. rewrite (WN j) in Ev by lia.
      pose proof (O k Hk0 u (vp_weight b) Eu W0). pose proof (O j Hj (vp_weight b) v) as X. rewrite A in X. specialize (X W0 Ev). lia. }
  assert (L : (vp_heap b < length (ph_heap h1))%nat) by (rewrite Eh; cbn [ph_heap h1]; eapply nth_error_lt, Hk).
  destruct (sift_up_orders (sift_fuel h1) h1 (vp_heap b) Hh1 L) as (h2 & -> & O2 & S2 & R2); [unfold sift_fuel; lia|exact OB|].
  intros E. injection E as <-. split; [exact O2|]. split; [apply R2|].
  { intros j i Hj. cbn [ph_heap h1] in Hj. destruct (R j i Hj) as (p & Hp & Ej). unfold knows, h1. cbn [ph_points]. destruct (Nat.eq_dec bi i) as [<-|N].
    - exists (set_weight w b). split; [apply nth_error_set_eq; eapply nth_error_lt, Eb|]. assert (p = b) by congruence. subst p. exact Ej.
    - exists p. split; [rewrite nth_error_set_neq by exact N; exact Hp|exact Ej]. }
  split; [apply S2|]. destruct S2 as (C2 & _ & _). unfold cores, h1 in C2. cbn [ph_points] in C2.
  assert (X : nth_error (map core (ph_points h2)) bi = Some (core (set_weight w b))).
  { rewrite C2, nth_error_map, nth_error_set_eq by (eapply nth_error_lt, Eb). reflexivity. }
  rewrite nth_error_map in X. destruct (nth_error (ph_points h2) bi) as [b'|]; [|discriminate]. exists b'. split; [reflexivity|]. apply (f_equal (option_map co_weight)) in X. cbn in X. congruence.
Qed.

(** ** Sifting down by one level *)
Lemma above_cases k r : (0 < k)%nat -> above k = r -> k = (2 * r + 1)%nat \/ k = (2 * r + 2)%nat.
Proof.
  intros Hk <-. unfold above. pose proof (Nat.div_mod (k - 1) 2 ltac:(lia)). pose proof (Nat.mod_upper_bound (k - 1) 2 ltac:(lia)). lia.
Qed.

Lemma sift_down_orders fuel h r : hok h -> (r < length (ph_heap h))%nat -> (length (ph_heap h) <= 4 * r + 3)%nat -> (2 <= fuel)%nat -> ordered_but_below h r ->
  exists h', sift_down fuel h r r (length (ph_heap h) - 1) = Ok h' /\ heap_ordered h' /\ same h h' /\ (recorded h -> recorded h').
Proof.
  intros Hh Hr Hl Hf (O & V). destruct fuel as [|fuel]; [lia|]. cbn [sift_down]. unfold left_child. set (n := length (ph_heap h)) in *.
  assert (NB : forall k, (n <= k)%nat -> weight_at h k = None).
  { intros k Hk. unfold weight_at. destruct (nth_error (ph_heap h) k) eqn:E; [|reflexivity]. apply nth_error_lt in E. unfold n in Hk. lia. }
  assert (DONE : (forall k w v, (0 < k)%nat -> above k = r -> weight_at h r = Some w -> weight_at h k = Some v -> w <= v) ->
     exists h', Ok h = Ok h' /\ heap_ordered h' /\ same h h' /\ (recorded h -> recorded h')).
  { intros X. exists h. split; [reflexivity|]. split; [|split; [apply same_refl, Hh|auto]]. intros k Hk. destruct (Nat.eq_dec (above k) r) as [A|A]; [|apply O; assumption].
    intros w v Ew Ev. rewrite A in Ew. exact (X k w v Hk A Ew Ev). }
  destruct (Nat.leb_spec (2 * r + 1) (n - 1)) as [Hc|Hc].
  2:{ apply DONE. intros k w v Hk A _ Ev. destruct (above_cases k r Hk A) as [-> | ->]; rewrite NB in Ev by lia; discriminate. }
  destruct (weight_some h r Hh ltac:(lia)) as (wr & Wr & ->), (weight_some h (2 * r + 1) Hh ltac:(unfold n in *; lia)) as (wl & Wl & ->). cbn [bind].
  set (s1 := if wl <? wr then (2 * r + 1)%nat else r).
  (* the position to swap with, its weight, and that no weight below the root is smaller *)
  assert (X : exists s2, (if Nat.leb (2 * r + 1 + 1) (n - 1) then w1 <- hweight h s1 ;; w2 <- hweight h (2 * r + 1 + 1) ;; Ok (if w2 <? w1 then (2 * r + 1 + 1)%nat else s1) else Ok s1) = Ok s2 /\
     (s2 = r \/ s2 = 2 * r + 1 \/ s2 = 2 * r + 2)%nat /\ (s2 < n)%nat /\
     exists ws, weight_at h s2 = Some ws /\ ws <= wr /\ forall k v, (0 < k)%nat -> above k = r -> weight_at h k = Some v -> ws <= v).
  { assert (W1 : exists w1, weight_at h s1 = Some w1 /\ hweight h s1 = Ok w1 /\ w1 <= wr /\ w1 <= wl /\ (s1 = r \/ s1 = 2 * r + 1)%nat).
    { unfold s1. destruct (Z.ltb_spec wl wr).
      - destruct (weight_some h (2 * r + 1) Hh ltac:(unfold n in *; lia)) as (w & E1 & E2). exists w. rewrite Wl in E1. injection E1 as <-. repeat split; auto; lia.
      - destruct (weight_some h r Hh ltac:(lia)) as (w & E1 & E2). exists w. rewrite Wr in E1. injection E1 as <-. repeat split; auto; lia. }
    destruct W1 as (w1 & W1 & HW1 & Lr & Ll & P1). destruct (Nat.leb_spec (2 * r + 1 + 1) (n - 1)) as [Hc2|Hc2].
    - destruct (weight_some h (2 * r + 1 + 1) Hh ltac:(unfold n in *; lia)) as (w2 & W2 & ->). rewrite HW1. cbn [bind]. eexists. split; [reflexivity|].
      replace (2 * r + 1 + 1)%nat with (2 * r + 2)%nat in * by lia.
      destruct (Z.ltb_spec w2 w1).
      + split; [auto|]. split; [lia|]. exists w2. split; [exact W2|]. split; [lia|]. intros k v Hk A Ev. destruct (above_cases k r Hk A) as [-> | ->]; [rewrite Wl in Ev|rewrite W2 in Ev]; injection Ev as <-; lia.
      + split; [tauto|]. split; [lia|]. exists w1. split; [exact W1|]. split; [lia|]. intros k v Hk A Ev. destruct (above_cases k r Hk A) as [-> | ->]; [rewrite Wl in Ev|rewrite W2 in Ev]; injection Ev as <-; lia.
    - exists s1. split; [reflexivity|]. split; [tauto|]. split; [lia|]. exists w1. split; [exact W1|]. split; [lia|]. intros k v Hk A Ev.
      destruct (above_cases k r Hk A) as [-> | ->]; [rewrite Wl in Ev; injection Ev as <-; lia|rewrite NB in Ev by lia; discriminate]. }
  destruct X as (s2 & -> & P2 & L2 & ws & Ws & Lw & Low). cbn [bind]. destruct (Nat.eqb_spec s2 r) as [-> |N].
  { apply DONE. intros k w v Hk A Ew Ev. rewrite Ws in Ew. injection Ew as <-. exact (Low k v Hk A Ev). }
  assert (A2 : above s2 = r) by (destruct P2 as [P|[-> | ->]]; [congruence|apply parent_left|apply parent_right]).
  destruct (hswap_ok h r s2 Hh ltac:(congruence) ltac:(lia) ltac:(lia)) as (h1 & _ & _ & E & _). rewrite E. cbn [bind].
  destruct (hswap_weights h r s2 h1 Hh ltac:(congruence) ltac:(lia) ltac:(lia) E) as (S & W1 & W2 & W3).
  pose proof (hswap_recorded h r s2 h1 Hh ltac:(congruence) ltac:(lia) ltac:(lia) E) as R1.
  destruct fuel as [|fuel]; [lia|]. cbn [sift_down]. unfold left_child. destruct (Nat.leb_spec (2 * s2 + 1) (n - 1)) as [Hd|Hd]; [exfalso; lia|].
  exists h1. split; [reflexivity|]. split; [|split; [exact S|exact R1]].
  intros k Hk w v Ew Ev. pose proof (above_lt k Hk) as Lk. destruct (Nat.eq_dec (above k) r) as [A|A].
  - rewrite A, W1, Ws in Ew. injection Ew as <-. destruct (Nat.eq_dec k s2) as [-> |Nk]; [rewrite W2, Wr in Ev; injection Ev as <-; exact Lw|].
    rewrite (W3 k) in Ev by lia. exact (Low k v Hk A Ev).
  - destruct (Nat.eq_dec k s2) as [-> |Nk]; [congruence|]. destruct (Nat.eq_dec (above k) s2) as [B|B].
    { assert (C : (n <= k)%nat) by (destruct (above_cases k s2 Hk B); lia). rewrite (W3 k), NB in Ev by lia. discriminate. }
    rewrite (W3 (above k)) in Ew by assumption. destruct (Nat.eq_dec k r) as [-> |Nr].
    + rewrite W1, Ws in Ev. injection Ev as <-. assert (R0 : (0 < s2)%nat) by lia. exact (V s2 w ws Hk R0 A2 Ew Ws).
    + rewrite (W3 k) in Ev by assumption. exact (O k Hk A w v Ew Ev).
Qed.
