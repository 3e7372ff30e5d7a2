(** * PartProofs: lemmas for C132 *)
From Coq Require Import Permutation.
From Verif Require Import FormSpec FormProofs RebuildProofs OrderProofs TopoProofs BuildProofs GeoProofs NormProofs NormTopo NormTwice NormMerge NormLaws SimplifyHeap.
From Verif Require Import ShuffleBuild ShuffleNorm ShuffleTopo ShuffleClipped.
From Verif Require Import PartSpec Simplify BuildFrame.

(** ** Normalizing *)
Lemma uses_by {D} s (g1 g2 : topo_region D) j : Injective s -> ShuffleSpec.renumbered_region s g1 g2 -> region_uses (s j) g1 = region_uses j g2.
Proof.
  intros Is H. unfold region_uses. assert (E : map de_edge (region_des g1) = map s (map de_edge (region_des g2))).
  { rewrite map_map. apply (Forall2_same (same_use s)); [apply des_renumbered, H|]. intros a b (E & _). exact E. }
  rewrite E. symmetry. apply count_occ_map. exact Is.
Qed.

Section Part.
Context {D : Type}.
Variables (p s : nat -> nat) (t1 t2 : topology D).
Hypothesis X1 : exact_references t1.
Hypothesis X2 : exact_references t2.
Hypothesis R : is_part p s t1 t2.

Lemma regions_part j : (exists e2, nth_error (tp_edges t2) j = Some e2) -> Permutation (edge_regions t1 (s j)) (map p (edge_regions t2 j)).
Proof.
  intros (e2 & E2). assert (Hj : (j < length (tp_edges t2))%nat) by (apply nth_error_Some; congruence).
  pose proof R as (Ip & Is & G & E & U). apply (Permutation_count_occ Nat.eq_dec). intros x.
  destruct (in_dec Nat.eq_dec x (map p (seq 0 (length (tp_regions t2))))) as [Hx|Hx].
  - apply in_map_iff in Hx as (i & <- & Hi). apply in_seq in Hi. rewrite <- (count_occ_map p Nat.eq_dec Nat.eq_dec Ip).
    destruct (nth_error (tp_regions t2) i) as [g2|] eqn:G2; [|apply nth_error_None in G2; lia]. destruct (G i g2 G2) as (g1 & G1 & RR).
    rewrite (region_uses_regions t1 _ g1 _ G1), (region_uses_regions t2 _ g2 _ G2). apply uses_by; assumption.
  - rewrite !(proj1 (count_occ_not_In _ _ _)); [reflexivity| |].
    + intros H. apply in_map_iff in H as (i & <- & Hi). apply edge_region_bound in Hi. apply Hx, in_map, in_seq. lia.
    + intros H. apply edge_regions_in in H as (rr & H & <-). destruct (U j rr Hj H) as (i & Hi & Ei). apply Hx. rewrite Ei. apply in_map, in_seq. lia.
Qed.
Lemma normalize_region_part m g1 g2 : In g1 (tp_regions t1) -> In g2 (tp_regions t2) -> ShuffleSpec.renumbered_region s g1 g2 ->
  normalize_region m t1 g1 = normalize_region m t2 g2.
Proof. apply (normalize_region_alike p s t1 t2 X1 X2); [apply R|apply R|]. exact regions_part. Qed.
End Part.

(** ** Building from some of the regions *)
Lemma count_app k a b : count_path k (a ++ b) = (count_path k a + count_path k b)%nat.
Proof. unfold count_path. rewrite filter_app, app_length. reflexivity. Qed.
Lemma paths_app {D} (a b : list (region D)) : all_paths (expected (a ++ b)) = all_paths (expected a) ++ all_paths (expected b).
Proof. unfold all_paths, expected. rewrite !flat_map_app. reflexivity. Qed.

Lemma build_some {D} m (rs1 rs2 : list (region D)) t : build_topology m (rs1 ++ rs2) = Ok t -> exists t1, build_topology m rs1 = Ok t1.
Proof.
  unfold build_topology. intros H. apply bind_Ok in H as (b & E & H).
  assert (exists b1, add_regions m builder_new rs1 = Ok b1) as (b1 & E1).
  { apply regions_Ok. intros rg Hg. apply (proj1 (regions_Ok m (rs1 ++ rs2) builder_new) (ex_intro _ b E)). apply in_or_app. auto. }
  rewrite E1. cbn [bind]. apply (into_topology_iff m rs1 b1 E1). intros k.
  pose proof (proj1 (proj1 (into_topology_iff m (rs1 ++ rs2) b E)) (ex_intro _ t H) k) as C. rewrite paths_app, count_app in C. lia.
Qed.
Lemma build_among {D} m (rs1 rs rest : list (region D)) t : Permutation (rs1 ++ rest) rs -> build_topology m rs = Ok t -> exists t1, build_topology m rs1 = Ok t1.
Proof. intros P E. destruct (build_perm m rs (rs1 ++ rest) t (Permutation_sym P) E) as (t' & E'). exact (build_some m rs1 rest t' E'). Qed.


Lemma pick_rest {A} (l : list A) : forall l', NoDup l -> incl l l' -> exists r, Permutation (l ++ r) l'.
Proof.
  induction l as [|a l IH]; intros l' N I; [exists l'; apply Permutation_refl|]. inversion N as [|? ? Ha N']; subst.
  destruct (in_split a l' (I a (or_introl eq_refl))) as (u & v & ->). destruct (IH (u ++ v) N') as (r & P).
  { intros x Hx. specialize (I x (or_intror Hx)). apply in_app_iff in I as [I|[<-|I]]; [apply in_or_app; auto|contradiction|apply in_or_app; auto]. }
  exists r. cbn [app]. rewrite P. apply Permutation_middle.
Qed.
Lemma picked {A} (p : nat -> nat) n (gs1 gs : list A) : Injective p -> length gs1 = n -> (forall i a, nth_error gs1 i = Some a -> nth_error gs (p i) = Some a) ->
  exists rest, Permutation (gs1 ++ rest) gs.
Proof.
  intros Ip L H. destruct gs1 as [|d gs1']; [exists gs; apply Permutation_refl|]. set (gs1 := d :: gs1') in *.
  assert (B : forall i, (i < n)%nat -> (p i < length gs)%nat).
  { intros i Hi. rewrite <- L in Hi. destruct (nth_error gs1 i) as [a|] eqn:E; [|apply nth_error_None in E; lia]. apply nth_error_Some. rewrite (H i a E). discriminate. }
  destruct (pick_rest (map p (seq 0 n)) (seq 0 (length gs))) as (r & P).
  - apply Injective_map_NoDup; [exact Ip|apply seq_NoDup].
  - intros x Hx. apply in_map_iff in Hx as (i & <- & Hi). apply in_seq in Hi. apply in_seq. specialize (B i). lia.
  - exists (map (fun i => nth i gs d) r). apply (Permutation_map (fun i => nth i gs d)) in P. rewrite map_app, map_map in P.
    assert (E1 : map (fun x => nth (p x) gs d) (seq 0 n) = gs1).
    { apply (nth_ext _ _ d d); [rewrite map_length, seq_length; congruence|]. intros i Hi. rewrite map_length, seq_length in Hi.
      rewrite (nth_indep _ d (nth (p 0%nat) gs d)) by (rewrite map_length, seq_length; exact Hi). rewrite (map_nth (fun x => nth (p x) gs d)), seq_nth by exact Hi. cbn [Nat.add].
      destruct (nth_error gs1 i) as [a|] eqn:E; [|apply nth_error_None in E; lia]. rewrite (nth_error_nth _ _ d E). apply nth_error_nth, H, E. }
    assert (E2 : map (fun i => nth i gs d) (seq 0 (length gs)) = gs).
    { apply (nth_ext _ _ d d); [rewrite map_length, seq_length; reflexivity|]. intros i Hi. rewrite map_length, seq_length in Hi.
      rewrite (nth_indep _ d (nth 0%nat gs d)) by (rewrite map_length, seq_length; exact Hi). rewrite (map_nth (fun x => nth x gs d)), seq_nth by exact Hi. reflexivity. }
    rewrite E1, E2 in P. exact P.
Qed.
Definition made {D} (gs : list (region D)) (i : nat) : list (shape D) := match nth_error gs i with Some g => expected_region g | None => [] end.
Lemma made_all {D} (gs : list (region D)) : expected gs = flat_map (made gs) (seq 0 (length gs)).
Proof.
  unfold expected. assert (Q : forall n l, (forall i, nth_error l i = nth_error gs (n + i)%nat) -> flat_map expected_region l = flat_map (made gs) (seq n (length l))).
  { intros n l. revert n. induction l as [|a l IH]; intros n H; [reflexivity|]. cbn [length seq flat_map]. f_equal.
    - unfold made. specialize (H 0%nat). rewrite Nat.add_0_r in H. rewrite <- H. reflexivity.
    - apply IH. intros i. specialize (H (S i)). cbn [nth_error] in H. rewrite H. f_equal. lia. }
  apply Q. reflexivity.
Qed.
Lemma made_length {D} (gs : list (region D)) i : (length (made gs i) <= 1)%nat.
Proof. unfold made. destruct (nth_error gs i) as [g|]; [|cbn; lia]. unfold expected_region. destruct (filter has_area (rg_outer g)); cbn; lia. Qed.
Lemma mmap_nth {A B} (f : A -> res B) l l' : mmap f l = Ok l' -> length l = length l' /\ forall i a, nth_error l i = Some a -> exists b, nth_error l' i = Some b /\ f a = Ok b.
Proof.
  revert l'. induction l as [|x l IH]; intros l' E; cbn [mmap] in E; [injection E as <-; split; [reflexivity|intros [|i] a H; discriminate]|].
  apply bind_Ok in E as (b & E1 & E). apply bind_Ok in E as (bs & E2 & E). injection E as <-. destruct (IH bs E2) as (L & H). split; [cbn; congruence|].
  intros [|i] a Ha; cbn in Ha |- *; [injection Ha as <-; eauto|apply H, Ha].
Qed.
Lemma mmap_total {A B} (f : A -> res B) l : (forall a, In a l -> exists b, f a = Ok b) -> exists l', mmap f l = Ok l'.
Proof.
  induction l as [|a l IH]; intros H; [exists []; reflexivity|]. cbn [mmap]. destruct (H a (or_introl eq_refl)) as (b & ->). cbn [bind].
  destruct IH as (l' & ->); [intros x Hx; apply H; right; exact Hx|]. cbn [bind]. eauto.
Qed.

Theorem normalize_part {D} m (t part n : topology D) p s : exact_references t -> exact_references part -> is_part p s t part -> normalize m t = Ok n ->
  exists n', normalize m part = Ok n' /\ exists f f', becomes t n f /\ becomes part n' f' /\ forall i, (i < length (tp_regions part))%nat -> f' i = f (p i).
Proof.
  intros X1 X2 R N. apply normalize_Ok in N as (gs & M & B). destruct (mmap_nth _ _ _ M) as (L & H).
  pose proof R as (Ip & _ & G & _).
  assert (K : forall i g2, nth_error (tp_regions part) i = Some g2 -> exists g, nth_error gs (p i) = Some g /\ normalize_region m part g2 = Ok g).
  { intros i g2 G2. destruct (G i g2 G2) as (g1 & G1 & RR). destruct (H _ g1 G1) as (g & Hg & E). exists g. split; [exact Hg|].
    rewrite <- (normalize_region_part p s t part X1 X2 R m g1 g2); [exact E| | |exact RR]; [apply nth_error_In in G1; exact G1|apply nth_error_In in G2; exact G2]. }
  destruct (mmap_total (normalize_region m part) (tp_regions part)) as (gs1 & M1).
  { intros g2 G2. apply In_nth_error in G2 as (i & G2). destruct (K i g2 G2) as (g & _ & E). eauto. }
  destruct (mmap_nth _ _ _ M1) as (L1 & H1).
  assert (Q : forall i a, nth_error gs1 i = Some a -> nth_error gs (p i) = Some a).
  { intros i a Ha. assert (Hi : (i < length (tp_regions part))%nat) by (rewrite L1; apply nth_error_Some; congruence).
    destruct (nth_error (tp_regions part) i) as [g2|] eqn:G2; [|apply nth_error_None in G2; lia]. destruct (K i g2 G2) as (g & Hg & E).
    destruct (H1 i g2 G2) as (g' & Hg' & E'). congruence. }
  destruct (picked p (length gs1) gs1 gs Ip eq_refl Q) as (rest & P). destruct (build_among m gs1 gs rest n P B) as (n' & B').
  exists n'. split; [apply normalize_Ok; eauto|]. exists (made gs), (made gs1). split; [|split].
  - split; [|apply made_length]. rewrite L, <- made_all. apply (build_read m gs n B).
  - split; [|apply made_length]. rewrite L1, <- made_all. apply (build_read m gs1 n' B').
  - intros i Hi. unfold made. destruct (nth_error gs1 i) as [a|] eqn:Ea; [rewrite (Q i a Ea); reflexivity|]. apply nth_error_None in Ea. lia.
Qed.

Theorem simplify_part {D} m thr (t part t' : topology D) : part_of t part -> simplify m t thr = Ok t' ->
  exists part', simplify m part thr = Ok part' /\ part_of t' part'.
Proof.
  intros (X1 & X2 & p & s & (Ip & Is & G & E & U)) H1. pose proof (simplify_parts m t t' thr H1) as (R1 & F1).
  assert (Q : forall j e2, nth_error (tp_edges part) j = Some e2 -> exists e1', nth_error (tp_edges t') (s j) = Some e1' /\ simplify_edge m (te_points e2) thr = Ok (te_points e1')).
  { intros j e2 E2. destruct (E j e2 E2) as (e1 & E1 & P). destruct (Forall2_nth_l _ _ _ _ _ F1 E1) as (e1' & E1' & K & _). exists e1'. rewrite <- P. auto. }
  assert (exists t2', simplify m part thr = Ok t2') as (t2' & H2).
  { unfold simplify. destruct (mmap_total (fun e => ps <- simplify_edge m (te_points e) thr ;; Ok (TEdge ps (te_ring0 e) (te_ring1 e))) (tp_edges part)) as (es' & ->); [|cbn [bind]; eauto].
    intros e He. apply In_nth_error in He as (j & Hj). destruct (Q j e Hj) as (e' & _ & ->). cbn [bind]. eauto. }
  exists t2'. split; [exact H2|]. pose proof (simplify_parts m part t2' thr H2) as (R2 & F2).
  split; [exact (simplify_references m t t' thr H1 X1)|]. split; [exact (simplify_references m part t2' thr H2 X2)|].
  exists p, s. unfold is_part. rewrite R1, R2, <- (Forall2_length' _ _ _ F2).
  repeat (split; [assumption|]). split; [|assumption]. intros j e2' E2'. destruct (Forall2_nth_r _ _ _ _ _ F2 E2') as (e2 & E2 & K & _).
  destruct (Q j e2 E2) as (e1' & E1' & K'). exists e1'. split; [exact E1'|]. congruence.
Qed.

(** ** Building *)
Lemma unrelated_forms {D} (rs1 rs2 : list (region D)) k : unrelated rs1 rs2 -> In k (stored_forms (expected rs1)) -> In k (stored_forms (expected rs2)) -> False.
Proof.
  intros U H1 H2. unfold stored_forms in *. apply in_flat_map in H1 as ([x|] & Hx & H1); [|destruct H1]. apply in_flat_map in H2 as ([y|] & Hy & H2); [|destruct H2].
  destruct H1 as [<-|[]]. destruct H2 as [H2|[]]. destruct (U x y Hx Hy) as (N1 & N2).
  destruct (stored_either x) as [E1|E1], (stored_either y) as [E2|E2]; rewrite E1, E2 in H2; (congruence || (apply (f_equal (@rev point)) in H2; rewrite ?rev_involutive in H2; congruence)).
Qed.
Lemma stored_app {D} (a b : list (region D)) : stored_forms (expected (a ++ b)) = stored_forms (expected a) ++ stored_forms (expected b).
Proof. unfold stored_forms. rewrite paths_app, flat_map_app. reflexivity. Qed.
Lemma distinct_app a b : (forall k, In k a -> In k b -> False) -> distinct (a ++ b) = distinct a ++ distinct b.
Proof.
  intros H. induction a as [|k a IH]; [reflexivity|]. cbn [app distinct]. rewrite IH by (intros x Hx; apply H; right; exact Hx). rewrite filter_app. f_equal. f_equal.
  assert (Q : forall l, (forall x, In x l -> In x b) -> filter (fun k' => negb (path_eqb k k')) l = l).
  { induction l as [|x l IHl]; intros I; [reflexivity|]. cbn [filter]. destruct (path_eqb_spec k x) as [<-|_].
    - exfalso. apply (H k); [left; reflexivity|apply I; left; reflexivity].
    - cbn [negb]. f_equal. apply IHl. intros y Hy. apply I. right. exact Hy. }
  apply Q. intros x Hx. apply distinct_in. exact Hx.
Qed.
Lemma count_in k l : (0 < count_path k l)%nat -> In k (flat_map (fun o => match o with Some p => [stored_form p] | None => [] end) l).
Proof.
  unfold count_path. induction l as [|[p|] l IH]; cbn [filter flat_map length app]; [lia| |exact IH]. destruct (path_eqb_spec (stored_form p) k) as [<-|_]; [left; reflexivity|]. intros H. right. apply IH, H.
Qed.

Theorem build_union {D} m (rs1 rs2 : list (region D)) t1 t2 : unrelated rs1 rs2 -> build_topology m rs1 = Ok t1 -> build_topology m rs2 = Ok t2 ->
  exists t, build_topology m (rs1 ++ rs2) = Ok t.
Proof.
  unfold build_topology. intros U H1 H2. apply bind_Ok in H1 as (b1 & E1 & H1). apply bind_Ok in H2 as (b2 & E2 & H2).
  assert (exists b, add_regions m builder_new (rs1 ++ rs2) = Ok b) as (b & E).
  { apply regions_Ok. intros rg Hg. apply in_app_iff in Hg as [Hg|Hg].
    - apply (proj1 (regions_Ok m rs1 builder_new) (ex_intro _ b1 E1)), Hg.
    - apply (proj1 (regions_Ok m rs2 builder_new) (ex_intro _ b2 E2)), Hg. }
  rewrite E. cbn [bind]. apply (into_topology_iff m (rs1 ++ rs2) b E). intros k. rewrite paths_app, count_app.
  pose proof (proj1 (proj1 (into_topology_iff m rs1 b1 E1)) (ex_intro _ t1 H1) k) as C1. pose proof (proj1 (proj1 (into_topology_iff m rs2 b2 E2)) (ex_intro _ t2 H2) k) as C2.
  destruct (Nat.eq_dec (count_path k (all_paths (expected rs1))) 0) as [Z|Z]; [lia|]. destruct (Nat.eq_dec (count_path k (all_paths (expected rs2))) 0) as [Z'|Z']; [lia|].
  exfalso. apply (unrelated_forms rs1 rs2 k U); apply count_in; lia.
Qed.

Theorem build_edges_union {D} m (rs1 rs2 : list (region D)) t t1 t2 : unrelated rs1 rs2 -> build_topology m (rs1 ++ rs2) = Ok t -> build_topology m rs1 = Ok t1 -> build_topology m rs2 = Ok t2 ->
  map te_points (tp_edges t) = map te_points (tp_edges t1) ++ map te_points (tp_edges t2).
Proof.
  intros U H H1 H2. rewrite (build_order m _ t H), (build_order m _ t1 H1), (build_order m _ t2 H2).
  rewrite (build_read m _ t H), (build_read m _ t1 H1), (build_read m _ t2 H2), stored_app. apply distinct_app. intros k. apply unrelated_forms, U.
Qed.

Lemma injective_id : Injective (fun n : nat => n).
Proof. intros x y H. exact H. Qed.
Lemma users_region {D} (rs : list (topo_region D)) j rr : In (j, rr) (uses rs) ->
  exists g r d, nth_error rs (rr_region rr) = Some g /\ In r (tg_outer g ++ tg_inner g) /\ In d (tr_des r) /\ de_edge d = j.
Proof.
  intros H. apply in_uses_region in H as (g & r & Hg & Hr & Hd). apply in_map_iff in Hd as (d & <- & Hd). exists g, r, d. split; [exact Hg|]. split; [|auto].
  apply nth_error_In in Hr. apply in_or_app. destruct (rr_side rr); auto.
Qed.
Lemma read_nth {D} (t : topology D) i g : nth_error (tp_regions t) i = Some g -> nth_error (read_topology t) i = Some (read_region (tp_edges t) g).
Proof. intros H. unfold read_topology. rewrite nth_error_map, H. reflexivity. Qed.

Lemma build_part_first {D} m (rs1 rs2 : list (region D)) t t1 : unrelated rs1 rs2 -> build_topology m (rs1 ++ rs2) = Ok t -> build_topology m rs1 = Ok t1 ->
  is_part (fun n => n) (fun n => n) t t1.
Proof.
  intros U H H1. pose proof (build_built_form m _ t H) as (X & W & K & S). pose proof (build_built_form m _ t1 H1) as (X1 & W1 & K1 & S1).
  pose proof (build_read m _ t H) as Rd. pose proof (build_read m _ t1 H1) as Rd1. rewrite Rd in K. rewrite Rd1 in K1. rewrite stored_app, distinct_app in K by (intros k; apply unrelated_forms, U).
  rewrite <- K1 in K. unfold expected in Rd. rewrite flat_map_app in Rd. fold (expected rs1) in Rd. fold (expected rs2) in Rd. rewrite <- Rd1 in Rd.
  assert (N : NoDup (map te_points (tp_edges t))).
  { rewrite (build_order m _ t H). apply distinct_nodup. }
  assert (HE : forall j e, nth_error (tp_edges t1) j = Some e -> exists e', nth_error (tp_edges t) j = Some e' /\ te_points e' = te_points e).
  { intros j e E. assert (Q : nth_error (map te_points (tp_edges t)) j = Some (te_points e)).
    { rewrite K, nth_error_app1 by (rewrite map_length; apply nth_error_Some; congruence). rewrite nth_error_map, E. reflexivity. }
    rewrite nth_error_map in Q. destruct (nth_error (tp_edges t) j) as [e'|]; [|discriminate]. injection Q as Q. eauto. }
  split; [exact injective_id|]. split; [exact injective_id|]. split; [|split; [exact HE|]].
  - intros i g1 G1. pose proof (read_nth t1 i g1 G1) as Q1.
    assert (Q : nth_error (read_topology t) i = Some (read_region (tp_edges t1) g1)) by (rewrite Rd, nth_error_app1 by (apply nth_error_Some; congruence); exact Q1).
    unfold read_topology in Q. rewrite nth_error_map in Q. destruct (nth_error (tp_regions t) i) as [g|] eqn:G; [|discriminate]. cbn [option_map] in Q. injection Q as Ed Eo Ei.
    exists g. split; [reflexivity|]. split; [exact Ed|]. apply nth_error_In in G, G1.
    assert (UU : forall l l1, incl l (tg_outer g ++ tg_inner g) -> incl l1 (tg_outer g1 ++ tg_inner g1) ->
      map (read_ring (tp_edges t)) l = map (read_ring (tp_edges t1)) l1 -> Forall2 (same_uses (fun n => n)) l l1).
    { intros l l1 I I1 E. apply map_eq_Forall2 in E. eapply Forall2_impl'; [|exact E]. intros r r1 (R & R1 & ER). apply I in R. apply I1 in R1.
      unfold read_ring in ER. apply map_eq_Forall2 in ER. eapply Forall2_impl'; [|exact ER]. intros d d1 (D0 & D1 & DE).
      destruct (W1 g1 G1) as [_ W1']. destruct (W1' r1 R1) as [W1'' _]. destruct (W1'' d1 D1) as (q & E1 & _). rewrite E1 in DE.
      apply read_de_points in E1 as (e1 & E1 & O1), DE as (e & E0 & O0).
      pose proof (S1 g1 r1 d1 e1 G1 R1 D1 E1) as (T1 & F1). pose proof (S g r d e G R D0 E0) as (T0 & F0). cbv zeta in *.
      rewrite O1 in T1, F1. rewrite O0 in T0, F0. destruct (HE _ e1 E1) as (e' & E' & P').
      split; [|destruct (de_dir d), (de_dir d1); try reflexivity; exfalso; intuition discriminate].
      apply (NoDup_nth_error (map te_points (tp_edges t))); [exact N|apply nth_error_Some; rewrite nth_error_map, E0; discriminate|].
      rewrite !nth_error_map, E0, E'. cbn [option_map]. congruence. }
    split; apply UU; try assumption; intros x Hx; apply in_or_app; auto.
  - intros j rr Hj Hu. destruct (Nat.lt_ge_cases (rr_region rr) (length (tp_regions t1))) as [L|L]; [eauto|]. exfalso.
    destruct (users_region _ j rr Hu) as (g & r & d & G & R & D0 & Ej).
    assert (Q : In (read_region (tp_edges t) g) (expected rs2)).
    { pose proof (read_nth t _ g G) as Q. rewrite Rd, nth_error_app2 in Q by (unfold read_topology; rewrite map_length; exact L). apply nth_error_In in Q. exact Q. }
    apply nth_error_In in G. destruct (W g G) as [_ W']. destruct (W' r R) as [W'' _]. destruct (W'' d D0) as (q & E1 & _). pose proof E1 as E2.
    apply read_de_points in E2 as (e & E2 & O). pose proof (S g r d e G R D0 E2) as (T & _). cbv zeta in T. rewrite O in T.
    destruct (nth_error (tp_edges t1) j) as [e1|] eqn:Ee; [|apply nth_error_None in Ee; lia]. destruct (HE j e1 Ee) as (e' & E' & P'). rewrite Ej, E' in E2. injection E2 as ->.
    apply (unrelated_forms rs1 rs2 (stored_form q) U).
    + apply distinct_in. rewrite <- K1, <- T, P'. apply in_map. apply nth_error_In in Ee. exact Ee.
    + unfold stored_forms. apply in_flat_map. exists (Some q). split; [|left; reflexivity]. unfold all_paths. apply in_flat_map. exists (read_region (tp_edges t) g). split; [exact Q|].
      unfold shape_paths, read_region. cbn [s_outer s_inner]. apply in_or_app. apply in_app_iff in R as [R|R]; [left|right];
        (apply in_concat; exists (read_ring (tp_edges t) r); split; [apply in_map, R|]; unfold read_ring; rewrite <- E1; apply in_map, D0).
Qed.

Lemma used_by {D} (rs : list (topo_region D)) i g r d : nth_error rs i = Some g -> In r (tg_outer g ++ tg_inner g) -> In d (tr_des r) ->
  exists rr, rr_region rr = i /\ In (de_edge d, rr) (uses rs).
Proof.
  intros G R D0. apply in_app_iff in R as [R|R]; apply In_nth_error in R as (k & R).
  - exists (RR i Outer k). split; [reflexivity|]. apply in_uses_region. exists g, r. cbn [rr_region rr_side rr_index]. auto using in_map.
  - exists (RR i Inner k). split; [reflexivity|]. apply in_uses_region. exists g, r. cbn [rr_region rr_side rr_index]. auto using in_map.
Qed.
Lemma part_shuffled {D} p s q u (t' t part : topology D) : exact_references t -> renumbered q u t' t -> is_part p s t part -> is_part (fun i => q (p i)) (fun j => u (s j)) t' part.
Proof.
  intros X Rn (Ip & Is & G & E & U). pose proof Rn as (Iq & Iu & LR & LE & G' & E'). split; [intros x y H; apply Ip, Iq, H|]. split; [intros x y H; apply Is, Iu, H|]. split; [|split].
  - intros i g Hg. destruct (G i g Hg) as (g1 & H1 & (D1 & O1 & I1)). destruct (G' _ g1 H1) as (g2 & H2 & (D2 & O2 & I2)). exists g2. split; [exact H2|].
    split; [congruence|].
    assert (C : forall a b c, Forall2 (same_uses u) a b -> Forall2 (same_uses s) b c -> Forall2 (same_uses (fun j => u (s j))) a c).
    { intros a b c A. revert c. induction A as [|x y a b H A IH]; intros c B; inversion B as [|? z ? c' K B']; subst; constructor; [|apply IH; assumption].
      unfold same_uses in *. clear -H K. revert H K. generalize (tr_des x), (tr_des y), (tr_des z). intros dx dy dz H. revert dz.
      induction H as [|a b l l' (H1 & H2) H IH]; intros dz K; inversion K as [|? c ? ? (K1 & K2) K']; subst; constructor; [|apply IH; assumption]. split; congruence. }
    split; [exact (C _ _ _ O2 O1)|exact (C _ _ _ I2 I1)].
  - intros j e He. destruct (E j e He) as (e1 & H1 & P1). destruct (E' _ e1 H1) as (e2 & H2 & P2). exists e2. split; [exact H2|congruence].
  - intros j rr Hj Hu. destruct (users_region _ _ rr Hu) as (g2 & r2 & d2 & G2 & R2 & D2 & Ed).
    assert (Hr : (rr_region rr < length (tp_regions t))%nat) by (rewrite <- LR; apply nth_error_Some; congruence).
    destruct (renumbered_bound q u t' t Rn) as (Bq & _).
    assert (Bs : bSurjective (length (tp_regions t)) q) by (apply (proj1 (bInjective_bSurjective Bq)); intros x y _ _; apply Iq).
    destruct (Bs _ Hr) as (i & Hi & Ei). destruct (nth_error (tp_regions t) i) as [g1|] eqn:G1; [|apply nth_error_None in G1; lia].
    destruct (G' i g1 G1) as (g2' & G2' & RR). rewrite Ei, G2 in G2'. injection G2' as <-.
    assert (exists r1 d1, In r1 (tg_outer g1 ++ tg_inner g1) /\ In d1 (tr_des r1) /\ de_edge d1 = s j) as (r1 & d1 & R1 & D1 & E1).
    { destruct RR as (_ & RO & RI). assert (F : Forall2 (same_uses u) (tg_outer g2 ++ tg_inner g2) (tg_outer g1 ++ tg_inner g1)) by (apply Forall2_app; assumption).
      apply In_nth_error in R2 as (k & R2). destruct (Forall2_nth_l _ _ _ _ _ F R2) as (r1 & R1 & F'). apply In_nth_error in D2 as (l & D2).
      destruct (Forall2_nth_l _ _ _ _ _ F' D2) as (d1 & D1 & (E1 & _)). exists r1, d1. apply nth_error_In in R1, D1. split; [exact R1|]. split; [exact D1|]. apply Iu. congruence. }
    destruct (used_by (tp_regions t) i g1 r1 d1 G1 R1 D1) as (rr1 & Er & Hu1). rewrite E1 in Hu1. destruct (U j rr1 Hj Hu1) as (i' & Hi' & Ei').
    exists i'. split; [exact Hi'|]. congruence.
Qed.

Theorem build_part {D} m (rs1 rs2 rs : list (region D)) t : unrelated rs1 rs2 -> Permutation (rs1 ++ rs2) rs -> build_topology m rs = Ok t ->
  exists t1, build_topology m rs1 = Ok t1 /\ part_of t t1.
Proof.
  intros U P H. destruct (build_shuffled m rs (rs1 ++ rs2) t (Permutation_sym P) H) as (t' & H' & (X & X' & q & u & Rn)).
  destruct (build_some m rs1 rs2 t' H') as (t1 & H1). exists t1. split; [exact H1|]. pose proof (build_built_form m rs1 t1 H1) as (X1 & _).
  split; [exact X|]. split; [exact X1|]. eexists _, _. apply (part_shuffled (fun n => n) (fun n => n) q u t t' t1 X' Rn). exact (build_part_first m rs1 rs2 t' t1 U H' H1).
Qed.
