(** * HeapProps: C123, the order of the heap of points *)
From Coq Require Import Permutation.
From Verif Require Import GeoProofs SimplifyProofs HeapSpec HeapProofs.

(** ** C123: sifting restores the order of the heap *)

(** Sifting up: whatever is lighter than the point above it is moved to where it belongs.  Missing (refuted
    below): sifting down, popping, and recorded positions at the start. *)
Theorem C123_up_partial : forall h c, traced h -> (c < length (ph_heap h))%nat -> ordered_but_above h c ->
  exists h', (forall fuel, (c < fuel)%nat -> sift_up fuel h 0 c = Ok h') /\
    heap_ordered h' /\ rearranged h h' /\ (recorded h -> recorded h').
Proof.
  intros h c T L O. apply traced_hok in T. destruct (sift_up_orders (S c) h c T L (Nat.lt_succ_diag_r c) O) as (h' & E & O' & S & R).
  exists h'. split; [|split; [exact O'|split; [apply same_rearranged, S|exact R]]].
  intros fuel Hf. clear -E Hf. revert fuel h c Hf E. assert (X : forall f1 f2 h c, (f1 <= f2)%nat -> sift_up f1 h 0 c = Ok h' -> sift_up f2 h 0 c = Ok h').
  { induction f1 as [|f1 IH]; intros f2 h c Hf E; [discriminate|]. destruct f2 as [|f2]; [lia|]. cbn [sift_up] in *. destruct (Nat.ltb 0 c); [|exact E].
    destruct (hweight h (parent c)) as [wp|]; [|discriminate]. cbn [bind] in *. destruct (hweight h c) as [wc|]; [|discriminate]. cbn [bind] in *. destruct (wc <? wp); [|exact E].
    destruct (hswap h (parent c) c) as [h1|]; [|discriminate]. cbn [bind] in *. apply IH; [lia|exact E]. }
  intros fuel h c Hf E. apply (X (S c)); [lia|exact E].
Qed.
Print Assumptions C123_up_partial.

(** So recalculating a weight that gets no larger leaves a heap in order, if positions are recorded. *)
Theorem C123_recalculated_partial : forall m h bi b ai ci a c w h', traced h -> recorded h -> heap_ordered h -> In bi (ph_heap h) ->
  nth_error (ph_points h) bi = Some b -> vp_prev b = Some ai -> vp_next b = Some ci ->
  nth_error (ph_points h) ai = Some a -> nth_error (ph_points h) ci = Some c ->
  weight2 m (vp_geo a) (vp_geo b) (vp_geo c) = Ok w -> w <= vp_weight b -> recalc m h bi = Ok h' ->
  heap_ordered h' /\ recorded h' /\ Permutation (ph_heap h) (ph_heap h') /\ exists b', nth_error (ph_points h') bi = Some b' /\ vp_weight b' = w.
Proof. intros m h bi b ai ci a c w h' T. apply traced_hok in T. exact (recalc_orders m h bi b ai ci a c w h' T). Qed.
Print Assumptions C123_recalculated_partial.

(** Sifting down by one level works: from a position that has nothing two levels below it. *)
Theorem C123_down_partial : forall h r fuel, traced h -> (r < length (ph_heap h) <= 4 * r + 3)%nat -> (2 <= fuel)%nat -> ordered_but_below h r ->
  exists h', sift_down fuel h r r (length (ph_heap h) - 1) = Ok h' /\ heap_ordered h' /\ rearranged h h' /\ (recorded h -> recorded h').
Proof.
  intros h r fuel T [L1 L2] Hf O. apply traced_hok in T. destruct (sift_down_orders fuel h r T L1 L2 Hf O) as (h' & E & O' & S & R).
  exists h'. split; [exact E|]. split; [exact O'|]. split; [apply same_rearranged, S|exact R].
Qed.
Print Assumptions C123_down_partial.

(** Heaps with given weights, in order of their positions; the points are in the order of the heap. *)
Definition weighted (ws : list Z) : pheap :=
  PH (VP (Pt 0 0) u64_max 0 (Some 1%nat) None ::
      map (fun x => VP (Pt 0 0) (snd x) (fst x) (Some (fst x + 2)%nat) (Some (fst x))) (combine (seq 0 (length ws)) ws) ++
      [VP (Pt 0 0) u64_max 0 None (Some (length ws))])
     (seq 1 (length ws)).

(** A decision procedure. *)
Definition in_orderb (h : pheap) (k : nat) : bool :=
  match weight_at h (above k), weight_at h k with Some w, Some v => w <=? v | _, _ => true end.
Lemma in_orderb_ok h k : in_orderb h k = true <-> in_order h k.
Proof.
  unfold in_orderb, in_order. destruct (weight_at h (above k)) as [w|], (weight_at h k) as [v|]; split; intros H; try reflexivity; try (intros; congruence).
  - intros ? ? [= <-] [= <-]. apply Z.leb_le, H.
  - apply Z.leb_le, H; reflexivity.
Qed.
Lemma beyond h k : (length (ph_heap h) <= k)%nat -> weight_at h k = None.
Proof. intros H. unfold weight_at. destruct (nth_error (ph_heap h) k) eqn:E; [|reflexivity]. apply nth_error_lt in E. lia. Qed.
Lemma orderedb_ok h : forallb (in_orderb h) (seq 1 (length (ph_heap h))) = true -> heap_ordered h.
Proof.
  rewrite forallb_forall. intros H k Hk. destruct (Nat.lt_ge_cases k (length (ph_heap h))) as [L|L]; [apply in_orderb_ok, H, in_seq; lia|].
  intros w v _ Ev. rewrite beyond in Ev by exact L. discriminate.
Qed.
Lemma below_ok h : forallb (fun k => Nat.leb k 2 || in_orderb h k) (seq 1 (length (ph_heap h))) = true -> ordered_but_below h 0.
Proof.
  rewrite forallb_forall. intros H. split; [|intros k w v H0; lia]. intros k Hk A. destruct (Nat.lt_ge_cases k (length (ph_heap h))) as [L|L].
  - specialize (H k ltac:(apply in_seq; lia)). apply orb_true_iff in H as [H|H]; [|apply in_orderb_ok, H]. apply Nat.leb_le in H.
    destruct k as [|[|[|k]]]; [lia|exfalso; apply A; reflexivity|exfalso; apply A; reflexivity|lia].
  - intros w v _ Ev. rewrite beyond in Ev by exact L. discriminate.
Qed.
Lemma weighted_recorded ws : recorded (weighted ws) /\ traced (weighted ws).
Proof.
  assert (R : recorded (weighted ws)).
  { intros k i H. unfold weighted in *. cbn [ph_heap ph_points] in *. pose proof (nth_error_lt _ _ _ H) as L. rewrite seq_length in L.
    assert (i = S k). { apply (nth_error_nth _ _ 0%nat) in H. rewrite seq_nth in H by exact L. lia. } subst i. unfold knows. cbn [ph_points].
    destruct (nth_error_ge ws k L) as [w Hw]. exists (VP (Pt 0 0) w k (Some (k + 2)%nat) (Some k)). split; [|reflexivity]. cbn [nth_error].
    rewrite nth_error_app1 by (rewrite map_length, combine_length, seq_length; lia). rewrite nth_error_map.
    assert (X : nth_error (combine (seq 0 (length ws)) ws) k = Some (k, w)); [|rewrite X; reflexivity].
    clear -Hw. assert (G : forall s ws k, nth_error ws k = Some w -> nth_error (combine (seq s (length ws)) ws) k = Some ((s + k)%nat, w)).
    { clear. intros s ws. revert s. induction ws as [|x ws IH]; intros s [|k] H; cbn in *; try discriminate; [rewrite Nat.add_0_r; congruence|]. rewrite (IH (S s) k H). replace (s + S k)%nat with (S s + k)%nat by lia. reflexivity. }
    apply (G 0%nat ws k Hw). }
  split; [exact R|]. split; [apply seq_NoDup|]. intros k i H. left. exact (R k i H).
Qed.

(** Sifting a heavy point down two levels: on the second level it is compared with the point now
    at the top, and changes places with its right child although the left one is lighter. *)
Theorem C123_down_refuted : exists h h', traced h /\ recorded h /\ ordered_but_below h 0 /\
  sift_down (sift_fuel h) h 0 0 (length (ph_heap h) - 1) = Ok h' /\ ~ heap_ordered h'.
Proof.
  exists (weighted [5; 1; 2; 3; 4]). eexists. destruct (weighted_recorded [5; 1; 2; 3; 4]) as [R T]. split; [exact T|]. split; [exact R|].
  split; [apply below_ok; vm_compute; reflexivity|]. split; [vm_compute; reflexivity|].
  intros H. specialize (H 3%nat ltac:(lia) 4 3 eq_refl eq_refl). lia.
Qed.
Print Assumptions C123_down_refuted.

(** So popping the lightest of six points leaves a heap that is not in order. *)
Theorem C123_pop_refuted : exists h i h', traced h /\ recorded h /\ heap_ordered h /\ hpop h = Ok (i, h') /\ ~ heap_ordered h'.
Proof.
  exists (weighted [1; 2; 3; 4; 5; 6]). do 2 eexists. destruct (weighted_recorded [1; 2; 3; 4; 5; 6]) as [R T]. split; [exact T|]. split; [exact R|].
  split; [apply orderedb_ok; vm_compute; reflexivity|]. split; [vm_compute; reflexivity|].
  intros H. specialize (H 3%nat ltac:(lia) 5 4 eq_refl eq_refl). lia.
Qed.
Print Assumptions C123_pop_refuted.

(** The heap that simplification starts with is not in order, and positions are not recorded. *)
Theorem C123_start_refuted : exists ps h, wf_points ps /\ heap_from Debug ps = Ok h /\ ~ heap_ordered h /\ ~ recorded h.
Proof.
  exists [Pt 1 0; Pt 1 0; Pt 1 5; Pt 1 1; Pt 1 7; Pt 1 4; Pt 1 11]. eexists. split.
  { repeat (apply Forall_cons; [unfold wf_point, is_u32; cbn; lia|]). apply Forall_nil. }
  split; [vm_compute; reflexivity|]. split.
  - intros H. specialize (H 3%nat ltac:(lia) 4 3 eq_refl eq_refl). lia.
  - intros H. destruct (H 2%nat 3%nat eq_refl) as (p & E & P). vm_compute in E. injection E as <-. discriminate.
Qed.
Print Assumptions C123_start_refuted.

(** A heap whose last point became the lightest: it is moved to the top. *)
Example C123_case : traced (weighted [2; 3; 4; 5; 6; 1]) /\ ordered_but_above (weighted [2; 3; 4; 5; 6; 1]) 5 /\
  ~ heap_ordered (weighted [2; 3; 4; 5; 6; 1]) /\
  exists h', sift_up 6 (weighted [2; 3; 4; 5; 6; 1]) 0 5 = Ok h' /\ map (weight_at h') (seq 0 6) = map Some [1; 3; 2; 5; 6; 4].
Proof.
  split; [apply weighted_recorded|]. split; [|split].
  - split.
    + intros k Hk N. destruct k as [|[|[|[|[|[|k]]]]]]; try lia; try (apply in_orderb_ok; vm_compute; reflexivity).
      intros w v _ Ev. rewrite beyond in Ev by (cbn; lia). discriminate.
    + intros k w v _ Hk A _ Ev. destruct (above_cases k 5 Hk A) as [-> | ->]; discriminate.
  - intros H. specialize (H 5%nat ltac:(lia) 4 1 eq_refl eq_refl). lia.
  - eexists. split; vm_compute; reflexivity.
Qed.
Example C123_down_case : traced (weighted [3; 1; 2]) /\ ordered_but_below (weighted [3; 1; 2]) 0 /\
  exists h', sift_down 2 (weighted [3; 1; 2]) 0 0 2 = Ok h' /\ map (weight_at h') (seq 0 3) = map Some [1; 3; 2].
Proof. split; [apply weighted_recorded|]. split; [apply below_ok; vm_compute; reflexivity|]. eexists. split; vm_compute; reflexivity. Qed.
