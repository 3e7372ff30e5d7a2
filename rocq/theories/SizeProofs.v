(** * SizeProofs: proofs about sizes *)
From Coq Require Import Permutation.
From Verif Require Import GeoProofs TopoProofs BuildProofs ClipEdgeProofs ClipTopoProofs ClipTopoLaws ClipTrace ClipTwice ClipArea ClipSteps Simplify SimplifyProofs SimplifyLaws SimplifyHeap NormLaws NormAdjacent ComposeProofs ComposeLaws NormProofs NormRing NormJoin NormTopo NormReturn CrossProofs.
From Verif Require Export SizeSpec.
Local Open Scope nat_scope.

(** ** Sums *)
Definition total {A} (w : A -> nat) (l : list A) : nat := list_sum (map w l).

Lemma total_app {A} (w : A -> nat) a b : total w (a ++ b) = total w a + total w b.
Proof. unfold total. rewrite map_app, list_sum_app. reflexivity. Qed.
Lemma total_cons {A} (w : A -> nat) x l : total w (x :: l) = w x + total w l.
Proof. reflexivity. Qed.
Lemma total_map {A B} (w : B -> nat) (f : A -> B) l : total w (map f l) = total (fun x => w (f x)) l.
Proof. unfold total. rewrite map_map. reflexivity. Qed.
Lemma total_flat {A B} (w : B -> nat) (f : A -> list B) l : total w (flat_map f l) = total (fun x => total w (f x)) l.
Proof. induction l as [|x l IH]; [reflexivity|]. cbn [flat_map]. rewrite total_app, IH. reflexivity. Qed.
Lemma total_concat {A} (w : A -> nat) l : total w (concat l) = total (total w) l.
Proof. rewrite <- (map_id l) at 1. rewrite <- flat_map_concat_map, total_flat. reflexivity. Qed.
Lemma total_ext {A} (w v : A -> nat) l : (forall x, In x l -> w x = v x) -> total w l = total v l.
Proof. intros H. unfold total. rewrite (map_ext_in _ _ _ H). reflexivity. Qed.
Lemma total_le {A} (w v : A -> nat) l : (forall x, In x l -> w x <= v x) -> total w l <= total v l.
Proof.
  induction l as [|x l IH]; intros H; [reflexivity|]. rewrite !total_cons. pose proof (H x (or_introl eq_refl)).
  assert (total w l <= total v l) by (apply IH; intros y Hy; apply H; right; exact Hy). lia.
Qed.
Lemma total_perm {A} (w : A -> nat) l l' : Permutation l l' -> total w l = total w l'.
Proof. induction 1 as [|x l l' P IH|x y l|l l1 l2 P1 IH1 P2 IH2]; rewrite ?total_cons; [reflexivity|lia|lia|congruence]. Qed.
Lemma total_filter {A} (w : A -> nat) p l : total w (filter p l) <= total w l.
Proof. induction l as [|x l IH]; [reflexivity|]. cbn [filter]. destruct (p x); rewrite ?total_cons; lia. Qed.
Lemma total_Forall2 {A B} (w : A -> nat) (v : B -> nat) (R : A -> B -> Prop) l l' : Forall2 R l l' ->
  (forall a b, R a b -> v b <= w a) -> total v l' <= total w l.
Proof. induction 1 as [|a b l l' H F IH]; intros HR; [reflexivity|]. rewrite !total_cons. specialize (HR a b H) as X. specialize (IH HR). lia. Qed.
Lemma total_1 {A} (l : list A) : total (fun _ => 1) l = length l.
Proof. induction l as [|x l IH]; [reflexivity|]. rewrite total_cons, IH. reflexivity. Qed.
Lemma total_length {A B} (f : A -> list B) l : length (flat_map f l) = total (fun x => length (f x)) l.
Proof. induction l as [|x l IH]; [reflexivity|]. cbn [flat_map]. rewrite app_length, IH. reflexivity. Qed.

Lemma total_incl (w : nat -> nat) l : forall s, NoDup s -> incl s l -> total w s <= total w l.
Proof.
  intros s. revert l. induction s as [|x s IH]; intros l N I; [apply Nat.le_0_l|]. inversion N as [|? ? Nx Ns]; subst.
  destruct (in_split x l (I x (or_introl eq_refl))) as (a & b & ->).
  assert (total w s <= total w (a ++ b)).
  { apply IH; [exact Ns|]. intros y Hy. pose proof (I y (or_intror Hy)) as Y. apply in_app_iff in Y as [Y|[Y|Y]]; apply in_app_iff; [auto| |auto].
    subst y. contradiction. }
  rewrite total_app in *. rewrite !total_cons. lia.
Qed.

Lemma total_edges (f : topo_edge -> nat) es :
  total f es = total (fun i => match nth_error es i with Some e => f e | None => 0 end) (seq 0 (length es)).
Proof.
  induction es as [|e es IH] using rev_ind; [reflexivity|]. rewrite app_length. cbn [length]. rewrite Nat.add_1_r, seq_S, !total_app, IH. cbn [plus]. f_equal.
  - apply total_ext. intros i Hi. apply in_seq in Hi. rewrite nth_error_app1 by lia. reflexivity.
  - unfold total. cbn [map list_sum fold_right]. rewrite nth_error_app2, Nat.sub_diag by lia. reflexivity.
Qed.

Definition n_segs (ps : list point) : nat := length (segments ps).
Lemma n_segs_length ps : n_segs ps = length ps - 1.
Proof. unfold n_segs. induction ps as [|p [|q t] IH]; [reflexivity|reflexivity|]. cbn [segments length] in *. lia. Qed.
Lemma n_segments_total ps : n_segments ps = total n_segs ps.
Proof. unfold n_segments. apply total_length. Qed.
Lemma n_segs_rev ps : n_segs (rev ps) = n_segs ps.
Proof. rewrite !n_segs_length, rev_length. reflexivity. Qed.

(** ** Every edge is in a ring *)
Lemma uses_ring_edges {D} (t : topology D) i : In i (map fst (uses (tp_regions t))) -> In i (map de_edge (ring_edges (tp_regions t))).
Proof.
  intros H. apply in_map_iff in H as ((j & rr) & <- & H). apply in_uses_region in H as (rg & r & Hg & Hr & Hk). cbn [fst].
  apply nth_error_In in Hg. unfold ring_edges. apply in_map_iff in Hk as (d & <- & Hd). apply in_map, in_flat_map. exists rg. split; [assumption|].
  apply in_flat_map. exists r. split; [|assumption]. apply in_app_iff. destruct (rr_side rr); [left|right]; eapply nth_error_In; exact Hr.
Qed.

Definition all_used {D} (t : topology D) : Prop := forall i, i < length (tp_edges t) -> In i (map de_edge (ring_edges (tp_regions t))).
Lemma built_all_used {D} m (rs : list (region D)) t : build_topology m rs = Ok t -> all_used t.
Proof.
  intros B i Hi. apply uses_ring_edges. destruct (nth_error (tp_edges t) i) as [e|] eqn:E; [|apply nth_error_None in E; lia].
  pose proof (build_used m rs t B i e E) as U. destruct (users i (uses (tp_regions t))) as [|rr l] eqn:Eu; [congruence|].
  assert (In rr (users i (uses (tp_regions t)))) as Hu by (rewrite Eu; left; reflexivity). apply users_in in Hu.
  apply (in_map fst) in Hu. exact Hu.
Qed.

Definition used {D} (f : list point -> nat) (t : topology D) : nat := total (fun d => match nth_error (tp_edges t) (de_edge d) with Some e => f (te_points e) | None => 0 end) (ring_edges (tp_regions t)).
Lemma edges_used {D} f (t : topology D) : all_used t -> total (fun e => f (te_points e)) (tp_edges t) <= used f t.
Proof.
  intros U. rewrite total_edges. unfold used.
  rewrite <- (total_map (fun i => match nth_error (tp_edges t) i with Some e => f (te_points e) | None => 0 end) de_edge).
  apply total_incl; [apply seq_NoDup|]. intros i Hi. apply in_seq in Hi. apply U. lia.
Qed.

Definition opt_val (f : list point -> nat) (o : option (list point)) : nat := match o with Some p => f p | None => 0 end.
Lemma used_read {D} f (t : topology D) : (forall p, f (rev p) = f p) -> used f t = total (opt_val f) (all_paths (read_topology t)).
Proof.
  intros R. unfold used, ring_edges, all_paths, read_topology. rewrite !total_flat, total_map. apply total_ext. intros rg _.
  assert (X : forall rs, total (fun d => match nth_error (tp_edges t) (de_edge d) with Some e => f (te_points e) | None => 0 end) (flat_map tr_des rs)
    = total (opt_val f) (concat (map (read_ring (tp_edges t)) rs))).
  { intros rs. rewrite <- flat_map_concat_map, !total_flat. apply total_ext. intros r _. unfold read_ring. rewrite total_map. apply total_ext.
    intros d _. unfold read_de. destruct (nth_error (tp_edges t) (de_edge d)) as [e|]; [|reflexivity]. cbn [opt_val].
    destruct (de_dir d); cbn; [reflexivity|symmetry; apply R]. }
  rewrite flat_map_app, total_app. unfold shape_paths, read_region. cbn [s_outer s_inner]. rewrite total_app, !X. reflexivity.
Qed.

Lemma expected_size {D} f (rs : list (region D)) : total (opt_val f) (all_paths (expected rs)) <= total f (input_paths rs).
Proof.
  unfold all_paths, expected, input_paths. rewrite !total_flat. apply total_le. intros g _.
  assert (X : forall l, total (opt_val f) (concat (map expected_ring l)) <= total f (flat_map paths l)).
  { intros l. rewrite <- flat_map_concat_map, !total_flat. apply total_le. intros r _. unfold expected_ring. rewrite total_map. apply total_filter. }
  unfold expected_region. destruct (filter has_area (rg_outer g)) as [|r0 rest] eqn:E; [apply Nat.le_0_l|]. rewrite total_cons.
  unfold shape_paths at 1. cbn [s_outer s_inner]. rewrite flat_map_app, !total_app. match goal with |- _ + total ?w [] <= _ => change (total w []) with 0 end. rewrite Nat.add_0_r.
  apply Nat.add_le_mono.
  - rewrite <- E. eapply Nat.le_trans; [apply X|]. rewrite !total_flat. apply total_filter.
  - eapply Nat.le_trans; [apply X|]. rewrite !total_flat. apply total_filter.
Qed.

Lemma build_size {D} f m (rs : list (region D)) t : (forall p, f (rev p) = f p) -> build_topology m rs = Ok t ->
  total (fun e => f (te_points e)) (tp_edges t) <= used f t /\ used f t <= total f (input_paths rs).
Proof.
  intros R B. split; [apply edges_used, (built_all_used m rs), B|]. rewrite (used_read f t R), (build_read m rs t B). apply expected_size.
Qed.

Lemma used_size_eq {D} (t : topology D) : used_size t = used n_segs t.
Proof.
  unfold used_size, used. rewrite n_segments_total, total_map. apply total_ext. intros d _. unfold used_path.
  destruct (nth_error (tp_edges t) (de_edge d)); reflexivity.
Qed.
Lemma size_eq {D} (t : topology D) : size t = total (fun e => n_segs (te_points e)) (tp_edges t).
Proof. unfold size. rewrite n_segments_total, total_map. reflexivity. Qed.
Lemma n_edges_eq {D} (t : topology D) : n_edges t = total (fun _ => 1) (tp_edges t).
Proof. rewrite total_1. reflexivity. Qed.

(** ** Normalizing *)
Definition ne_val (f : list point -> nat) (e : norm_edge) : nat := f (ne_points e).

Section Measure.
  Context (f : list point -> nat).
  Hypothesis Hrev : forall p, f (rev p) = f p.
  Hypothesis Hlen : forall p q, length p = length q -> f p = f q.
  Hypothesis Hjoin : forall run, run <> [] -> f (walk run) <= total (ne_val f) run.

  Lemma rotation_total es es' : rotation es es' -> total (ne_val f) es' = total (ne_val f) es.
  Proof. intros (l & r & -> & ->). rewrite !total_app. lia. Qed.
  Lemma joined_total es out : joined es out -> total (ne_val f) out <= total (ne_val f) es.
  Proof.
    intros (runs & R & F). rewrite <- (rotation_total _ _ R), total_concat. eapply total_Forall2; [exact F|].
    intros run e (N & _ & E). unfold ne_val at 1. rewrite E. apply Hjoin, N.
  Qed.
  Lemma turned_length a b : turned a b -> length a = length b.
  Proof.
    intros (l & r & -> & ->). unfold close. destruct l as [|x l], r as [|y r]; cbn; rewrite ?app_nil_r, ?app_length; cbn; rewrite ?app_length; cbn; lia.
  Qed.
  Lemma tidied_total es out : tidied es out -> total (ne_val f) out <= total (ne_val f) es.
  Proof.
    intros [J|(e & e' & J & -> & _ & T)]; [apply joined_total, J|]. apply joined_total in J. unfold total, ne_val in *. cbn [map list_sum fold_right] in *.
    rewrite <- (Hlen _ _ (turned_length _ _ T)). exact J.
  Qed.
  Lemma flipped_total es : total (ne_val f) (flipped es) = total (ne_val f) es.
  Proof.
    unfold flipped. rewrite total_map. rewrite (total_perm _ _ _ (Permutation_sym (Permutation_rev es))). apply total_ext.
    intros e _. unfold ne_val. cbn [ne_points]. apply Hrev.
  Qed.

  Lemma side_total {D} (t : topology D) o rs outs : side_fact t o rs outs ->
    total (total (ne_val f)) outs <= total (fun r => total (ne_val f) (seen_ring t r)) rs.
  Proof.
    intros (nrs & cycles & ms & F1 & C & F2 & P & _). rewrite (total_perm _ _ _ P), total_app.
    assert (A : total (total (ne_val f)) nrs <= total (fun r => total (ne_val f) (seen_ring t r)) rs).
    { eapply total_Forall2; [exact F1|]. intros r out ((base & HB & T & _) & _). apply tidied_total in T. destruct HB as [-> | ->]; [exact T|].
      rewrite flipped_total in T. exact T. }
    assert (B : total (total (ne_val f)) ms <= total (ne_val f) (pool nrs)).
    { rewrite <- (total_perm _ _ _ (proj1 C)), total_concat. eapply total_Forall2; [exact F2|]. intros c out (T & _). apply tidied_total, T. }
    enough (total (total (ne_val f)) (untouched nrs) + total (ne_val f) (pool nrs) <= total (total (ne_val f)) nrs) by lia.
    clear. unfold pool. rewrite total_concat, total_map. induction nrs as [|r nrs IH]; [reflexivity|]. unfold untouched, mixed in *. cbn [filter].
    destruct (existsb redundantb r) eqn:E1; cbn [negb andb]; rewrite ?total_cons.
    - destruct (negb (forallb redundantb r)); rewrite ?total_cons; [|lia]. pose proof (total_filter (ne_val f) (fun e => negb (redundantb e)) r).
      unfold useful in *. lia.
    - lia.
  Qed.

  Lemma seen_total {D} (t : topology D) rs : total (fun r => total (ne_val f) (seen_ring t r)) rs =
    total (fun d => match nth_error (tp_edges t) (de_edge d) with Some e => f (te_points e) | None => 0 end) (flat_map tr_des rs).
  Proof.
    rewrite total_flat. apply total_ext. intros r _. unfold seen_ring. rewrite total_flat. apply total_ext. intros d _. unfold seen.
    destruct (nth_error (tp_edges t) (de_edge d)) as [e|]; [|reflexivity]. unfold total, ne_val. cbn [map list_sum fold_right ne_points]. rewrite Nat.add_0_r.
    unfold oriented. destruct (de_dir d); [reflexivity|apply Hrev].
  Qed.

  Lemma normalize_size {D} m (t t' : topology D) : valid t -> normalize m t = Ok t' ->
    total (fun e => f (te_points e)) (tp_edges t') <= used f t' /\ used f t' <= used f t.
  Proof.
    intros V H. apply normalize_Ok in H as (gs & E & B). destruct (build_size f m gs t' Hrev B) as [B1 B2]. split; [exact B1|].
    eapply Nat.le_trans; [exact B2|]. unfold used, ring_edges, input_paths. rewrite !total_flat.
    assert (F : Forall2 (fun rg g => normalize_region m t rg = Ok g /\ In rg (tp_regions t)) (tp_regions t) gs) by (eapply Forall2_mmap; [eassumption|]; auto).
    eapply total_Forall2; [exact F|]. intros rg g (En & Hin). cbv beta.
    destruct (normalize_region_fact m t rg g V Hin En) as (outs & ins & -> & S1 & S2). cbn [rg_outer rg_inner].
    rewrite !flat_map_app, !total_app, <- !seen_total.
    assert (X : forall l, total f (flat_map paths (map into_ring l)) = total (total (ne_val f)) l).
    { intros l. rewrite flat_map_concat_map, map_map, <- flat_map_concat_map, total_flat. apply total_ext. intros r _. cbn [into_ring paths]. rewrite total_map. reflexivity. }
    rewrite !X. pose proof (side_total t Clockwise _ _ S1). pose proof (side_total t CounterClockwise _ _ S2). lia.
  Qed.
End Measure.

Lemma walk_segs run : run <> [] -> n_segs (walk run) <= total (ne_val n_segs) run.
Proof.
  unfold walk. destruct run as [|e run]; [congruence|]. intros _. rewrite n_segs_length, total_cons. unfold ne_val at 1. rewrite n_segs_length.
  cbn [map glue]. rewrite app_length.
  assert (X : length (concat (map (@tl point) (map ne_points run))) = total (ne_val n_segs) run).
  { induction run as [|x run IH]; [reflexivity|]. cbn [map concat]. rewrite app_length, IH, total_cons. f_equal. unfold ne_val. rewrite n_segs_length.
    destruct (ne_points x); cbn; lia. }
  rewrite X. lia.
Qed.

Lemma same_length_segs p q : length p = length q -> n_segs p = n_segs q.
Proof. rewrite !n_segs_length. lia. Qed.

(** ** Simplifying *)
Lemma subseq_length {A} (r l : list A) : subseq r l -> length r <= length l.
Proof. induction 1; cbn; lia. Qed.
Lemma simplify_size {D} m (t t' : topology D) thr : (thr <= 2 ^ 64 - 1)%Z -> simplify m t thr = Ok t' ->
  n_edges t' = n_edges t /\ n_uses t' = n_uses t /\ size t' <= size t /\ used_size t' <= used_size t.
Proof.
  intros Ht H. destruct (simplify_parts m t t' thr H) as (ER & HF).
  assert (F : Forall2 (fun e e' => n_segs (te_points e') <= n_segs (te_points e)) (tp_edges t) (tp_edges t')).
  { induction HF as [|e e' es es' (E & _) HF IH]; constructor; [|exact IH].
    destruct (edge_ok_dec (te_points e)) as [HE|HE]; [|rewrite simplify_edge_rejects in E by exact HE; discriminate].
    destruct (simplify_edge_ok m _ thr HE Ht) as [[_ E']|(r' & E' & HS & _)]; rewrite E in E'; [discriminate|]. injection E' as <-.
    apply subseq_length in HS. rewrite !n_segs_length. lia. }
  split; [unfold n_edges; symmetry; eapply Forall2_length'; exact F|]. split; [unfold n_uses; rewrite ER; reflexivity|]. split.
  - rewrite !size_eq. eapply total_Forall2; [exact F|]. cbv beta. auto.
  - rewrite !used_size_eq. unfold used. rewrite ER. apply total_le. intros d _. clear -F. revert F. generalize (de_edge d).
    intros i F. revert i. induction F as [|e e' es es' R F IH]; intros [|i]; cbn; auto.
Qed.

(** ** Clipping *)
Section Path.
  Context (k : clip_mask) (X : point -> point -> point).
  Definition at_end (out : list point) (p : point) : bool := match final out with Some z => pt_eqb z p | None => false end.
  Definition credit (out : list point) (p : point) : nat :=
    if insideb k p then (if at_end out p then 0 else 2) else if outsideb k p then 1 else if at_end out p then 0 else 1.

  Lemma at_end_snoc out p : at_end (out ++ [p]) p = true.
  Proof. unfold at_end. rewrite final_snoc', pt_eqb_refl. reflexivity. Qed.

  Lemma path_points ps : forall p out,
    2 * length (fold_left append_part (kept_parts k X (p :: ps)) out) <= 2 * length out + 3 * length ps + credit out p.
  Proof.
    induction ps as [|q ps IH]; intros p out; [cbn; lia|]. unfold kept_parts. cbn [tl combine flat_map]. rewrite fold_left_app. fold (kept_parts k X (q :: ps)).
    assert (S : forall out', 2 * length out' + credit out' q <= 2 * length out + 3 + credit out p ->
      2 * length (fold_left append_part (kept_parts k X (q :: ps)) out') <= 2 * length out + 3 * length (q :: ps) + credit out p).
    { intros out' H. specialize (IH q out'). cbn [length]. lia. }
    apply S. clear S IH. cbn [fst snd]. unfold kept_part.
    assert (C1 : credit out q <= 2) by (unfold credit; repeat match goal with |- context [if ?c then _ else _] => destruct c end; lia).
    destruct (insideb k p) eqn:Ip.
    - cbn [fold_left]. unfold append_part. cbn [andb]. fold (at_end out p). set (r := if outsideb k q then X p q else q).
      assert (Cq : forall o, credit (o ++ [r]) q <= 1).
      { intros o. unfold credit. subst r. destruct (outsideb k q) eqn:Oq; [|rewrite at_end_snoc; repeat match goal with |- context [if ?c then _ else _] => destruct c end; lia].
        destruct (insideb k q) eqn:Iq; [|lia]. exfalso. destruct (insideb_spec k q), (outsideb_spec k q); try discriminate. destruct k; cbn in *; lia. }
      assert (Co : credit out p = if at_end out p then 0 else 2) by (unfold credit; rewrite Ip; reflexivity).
      destruct (at_end out p).
      + rewrite app_length. cbn [length]. specialize (Cq out). lia.
      + replace (out ++ [p; r]) with ((out ++ [p]) ++ [r]) by (rewrite <- app_assoc; reflexivity). rewrite !app_length. cbn [length].
        specialize (Cq (out ++ [p])). lia.
    - destruct (insideb k q) eqn:Iq.
      + assert (Cq : forall o, credit (o ++ [q]) q = 0) by (intros o; unfold credit; rewrite Iq, at_end_snoc; reflexivity).
        destruct (outsideb k p) eqn:Op; cbn [fold_left]; unfold append_part; cbn [andb].
        * replace (out ++ [X p q; q]) with ((out ++ [X p q]) ++ [q]) by (rewrite <- app_assoc; reflexivity). rewrite Cq, !app_length. cbn [length].
          unfold credit. rewrite Ip, Op. lia.
        * fold (at_end out p). assert (Co : credit out p = if at_end out p then 0 else 1) by (unfold credit; rewrite Ip, Op; reflexivity).
          destruct (at_end out p).
          -- rewrite Cq, app_length. cbn [length]. lia.
          -- replace (out ++ [p; q]) with ((out ++ [p]) ++ [q]) by (rewrite <- app_assoc; reflexivity). rewrite Cq, !app_length. cbn [length]. lia.
      + cbn [fold_left]. lia.
  Qed.

  Lemma clip_path_size ps : 2 * n_segs (clip_path k X ps) <= 3 * n_segs ps.
  Proof.
    rewrite !n_segs_length. unfold clip_path. destruct ps as [|p ps]; [cbn; lia|]. pose proof (path_points ps p []) as H. cbn [length] in *.
    assert (credit [] p <= 2) by (unfold credit; repeat match goal with |- context [if ?c then _ else _] => destruct c end; lia). lia.
  Qed.
End Path.

Lemma add_keys_length ps : length (add_keys [] ps) <= length (flat_map gap_key ps).
Proof.
  unfold add_keys. assert (G : forall l K, length (fold_left add_key l K) <= length K + length l).
  { induction l as [|x l IH]; intros K; cbn [fold_left length]; [lia|]. specialize (IH (add_key K x)). unfold add_key in *.
    destruct (in_dec seg_eq_dec x K); [lia|]. rewrite app_length in IH. cbn [length] in IH. lia. }
  apply (G _ []).
Qed.

Lemma gap_between_length a b : length (gap_between a b) <= 1 /\ length (flat_map gap_key (gap_between a b)) <= 1.
Proof. destruct a as [p|], b as [q|]; cbn; try lia. unfold gap. repeat match goal with |- context [if ?c then _ else _] => destruct c end; cbn; lia. Qed.

Lemma visible_length C r : length (visible C r) <= length (tr_des r).
Proof.
  unfold visible. rewrite total_length, <- total_1. apply total_le. intros d _. unfold visible_piece.
  destruct (nth_error C (de_edge d)) as [[|x [|y c]]|]; cbn; lia.
Qed.
Lemma visible_gap_keys C r : flat_map gap_key (visible C r) = [].
Proof.
  unfold visible. induction (tr_des r) as [|d ds IH]; [reflexivity|]. cbn [flat_map]. rewrite flat_map_app, IH, app_nil_r. unfold visible_piece.
  destruct (nth_error C (de_edge d)) as [[|x [|y c]]|]; reflexivity.
Qed.
Lemma clipped_length C r : length (clipped_ring C r) <= 2 * length (tr_des r) /\ length (flat_map gap_key (clipped_ring C r)) <= length (tr_des r).
Proof.
  unfold clipped_ring. pose proof (visible_length C r) as L. pose proof (visible_gap_keys C r) as K. destruct (visible C r) as [|p ps]; [cbn; lia|].
  assert (G : forall s ps p, flat_map gap_key (p :: ps) = [] -> length (close_gaps s p ps) <= 2 * length ps + 1 /\
    length (flat_map gap_key (close_gaps s p ps)) <= length ps + 1).
  { intros s. induction ps0 as [|q ps0 IH]; intros p0 E; cbn [close_gaps].
    - pose proof (gap_between_length (final (pc_path p0)) s). cbn [length]. lia.
    - cbn [flat_map] in E. apply app_eq_nil in E as [E0 E]. specialize (IH q E). pose proof (gap_between_length (final (pc_path p0)) (first (pc_path q))).
      apply app_eq_nil in E as [E1 E2].
      rewrite flat_map_app, !app_length. cbn [flat_map length]. rewrite E1. cbn [app length]. lia. }
  specialize (G (first (pc_path p)) ps p K). cbn [flat_map length] in *. apply app_eq_nil in K as [K1 K2]. rewrite K1. cbn [app]. lia.
Qed.

Lemma n_uses_read {D} (t : topology D) : n_uses t = length (all_paths (read_topology t)).
Proof.
  unfold n_uses, ring_edges, all_paths, read_topology. rewrite !total_length, total_map. apply total_ext. intros rg _.
  unfold shape_paths, read_region. cbn [s_outer s_inner]. rewrite flat_map_app, !app_length. f_equal;
    rewrite <- flat_map_concat_map, !total_length; apply total_ext; intros r _; unfold read_ring; rewrite map_length; reflexivity.
Qed.
Lemma clip_uses {D} m k (t t' : topology D) : clip_topology m t k = Ok t' -> n_uses t' <= 2 * n_uses t.
Proof.
  intros H. apply clip_topology_ok in H as (C & b & HC & Hb & _ & HR & HE).
  rewrite n_uses_read. assert (R : read_topology t' = clipped_topology C t) by (eapply clip_read; eassumption). rewrite R.
  unfold all_paths, clipped_topology, n_uses, ring_edges. rewrite !total_length, total_map.
  eapply Nat.le_trans; [apply total_filter|]. clear. induction (tp_regions t) as [|rg rgs IH]; [reflexivity|]. rewrite !total_cons.
  assert (X : forall rs, length (concat (map read_pieces (clipped_rings C rs))) <= 2 * length (flat_map tr_des rs)).
  { intros rs. unfold clipped_rings. rewrite map_map, <- flat_map_concat_map, !total_length. eapply Nat.le_trans; [apply total_filter|].
    induction rs as [|r rs IHr]; [reflexivity|]. rewrite !total_cons. unfold read_pieces at 1. rewrite map_length. pose proof (clipped_length C r). lia. }
  unfold shape_paths at 1, clipped_shape at 1 2. cbn [s_outer s_inner]. rewrite flat_map_app, !app_length.
  pose proof (X (tg_outer rg)). pose proof (X (tg_inner rg)). lia.
Qed.

Lemma clip_size {D} m k (t t' : topology D) : clip_topology m t k = Ok t' ->
  n_edges t' <= n_edges t + n_uses t /\ 2 * size t' <= 3 * size t + 2 * n_uses t.
Proof.
  intros H. apply clip_topology_traced in H as (C & b & HC & _ & _ & _ & HE & _ & HK & _).
  assert (K : length (nes_edges (cb_new b)) <= n_uses t).
  { assert (length (keys (cb_new b)) <= n_uses t) as X; [|unfold keys in X; rewrite map_length in X; exact X].
    rewrite HK. eapply Nat.le_trans; [apply add_keys_length|]. unfold seen_pieces, ring_pieces, n_uses, ring_edges.
    rewrite <- flat_map_concat_map, !total_length, !total_flat. apply total_le. intros rg _.
    rewrite total_length. unfold seen_rings. rewrite !total_app.
    assert (Y : forall rs, total (fun x => total (fun p => length (gap_key p)) (clipped_ring C x)) rs <= total (fun x => length (tr_des x)) rs).
    { intros rs. apply total_le. intros r _. rewrite <- total_length. apply clipped_length. }
    pose proof (Y (tg_outer rg)). pose proof (Y (tg_inner rg)). destruct (region_kept C rg); [lia|]. unfold total in *. cbn [map list_sum fold_right]. lia. }
  assert (L : length C = length (tp_edges t)) by (symmetry; eapply Forall2_length'; exact HC).
  split.
  - unfold n_edges. rewrite <- (map_length te_points (tp_edges t')), HE. unfold pts_of, old_of. rewrite app_length, map_length.
    pose proof (total_filter (fun _ : list point => 1) big C) as F. rewrite !total_1 in F. lia.
  - unfold size. rewrite HE. unfold pts_of. rewrite n_segments_total, total_app, total_map.
    assert (S1 : 2 * total n_segs (old_of C) <= 3 * total (fun e => n_segs (te_points e)) (tp_edges t)).
    { eapply Nat.le_trans; [apply Nat.mul_le_mono_l, total_filter|]. clear -HC. induction HC as [|e c es cs H F IH]; [reflexivity|].
      rewrite !total_cons. apply clip_edge_path in H. subst c. pose proof (clip_path_size k (isect m k) (te_points e)). lia. }
    assert (S2 : total (fun kv => n_segs (seg_points kv)) (nes_edges (cb_new b)) = length (nes_edges (cb_new b))).
    { rewrite <- total_1. apply total_ext. intros ((u & v) & id) _. reflexivity. }
    rewrite n_segments_total, total_map. lia.
Qed.

(** ** Edges between at most two rings *)
Lemma enumerate_total {A} (w : A -> nat) (l : list A) : total (fun ir => w (snd ir)) (enumerate l) = total w l.
Proof.
  unfold enumerate. generalize 0. induction l as [|x l IH]; intros n; [reflexivity|]. cbn [length seq combine]. rewrite !total_cons, IH. reflexivity.
Qed.
Lemma uses_length {D} (rs : list (topo_region D)) : length (uses rs) = length (ring_edges rs).
Proof.
  unfold uses, ring_edges. rewrite !total_length. rewrite <- (enumerate_total (fun rg => length (flat_map tr_des (tg_outer rg ++ tg_inner rg))) rs).
  apply total_ext. intros (n & rg) _. unfold uses_region. cbn [fst snd]. rewrite flat_map_app, !app_length, !total_length. f_equal.
  - rewrite <- (enumerate_total (fun r => length (tr_des r)) (tg_outer rg)). apply total_ext. intros (j & r) _. unfold uses_ring. rewrite map_length. reflexivity.
  - rewrite <- (enumerate_total (fun r => length (tr_des r)) (tg_inner rg)). apply total_ext. intros (j & r) _. unfold uses_ring. rewrite map_length. reflexivity.
Qed.

Lemma weighted_users (w : nat -> nat) n (us : list (nat * ring_ref)) : (forall u, In u us -> fst u < n) ->
  total (fun u => w (fst u)) us = total (fun i => length (users i us) * w i) (seq 0 n).
Proof.
  intros H. induction us as [|u us IH].
  - cbn. symmetry. induction (seq 0 n) as [|x l IH]; [reflexivity|]. rewrite total_cons, IH. reflexivity.
  - rewrite total_cons, IH by (intros v Hv; apply H; right; exact Hv). clear IH. specialize (H u (or_introl eq_refl)).
    assert (E : forall i, length (users i (u :: us)) * w i = (if Nat.eqb (fst u) i then w i else 0) + length (users i us) * w i).
    { intros i. unfold users. cbn [filter]. destruct (Nat.eqb (fst u) i); cbn [map length]; lia. }
    rewrite (total_ext _ _ _ (fun i _ => E i)).
    assert (P : forall (a b : nat -> nat) l, total (fun i => a i + b i) l = total a l + total b l).
    { intros a b. induction l as [|x l IHl]; [reflexivity|]. rewrite !total_cons, IHl. lia. }
    rewrite P. f_equal. clear -H. rewrite (Nat.add_comm 0 0) || idtac.
    assert (G : forall m s, s <= fst u < s + m -> total (fun i => if Nat.eqb (fst u) i then w i else 0) (seq s m) = w (fst u)).
    { induction m as [|m IHm]; intros s Hs; [lia|]. cbn [seq]. rewrite total_cons. destruct (Nat.eqb_spec (fst u) s) as [E|E].
      - rewrite <- E. enough (total (fun i => if Nat.eqb (fst u) i then w i else 0) (seq (S (fst u)) m) = 0) by lia.
        assert (Z : forall k s, fst u < s -> total (fun i => if Nat.eqb (fst u) i then w i else 0) (seq s k) = 0).
        { induction k as [|k IHk]; intros z Hz; [reflexivity|]. cbn [seq]. rewrite total_cons, IHk by lia. destruct (Nat.eqb_spec (fst u) z); lia. }
        apply Z. lia.
      - rewrite IHm by lia. reflexivity. }
    symmetry. apply G. lia.
Qed.

Lemma references_size {D} f (t : topology D) : exact_references t ->
  used f t <= 2 * total (fun e => f (te_points e)) (tp_edges t).
Proof.
  intros (_ & V & R). set (w := fun i => match nth_error (tp_edges t) i with Some e => f (te_points e) | None => 0 end).
  assert (U : used f t = total (fun u => w (fst u)) (uses (tp_regions t))).
  { unfold used. change (total (fun d => w (de_edge d)) (ring_edges (tp_regions t)) = total (fun u => w (fst u)) (uses (tp_regions t))).
    unfold uses, ring_edges. rewrite !total_flat.
    rewrite <- (enumerate_total (fun rg => total (fun d => w (de_edge d)) (flat_map tr_des (tg_outer rg ++ tg_inner rg))) (tp_regions t)).
    apply total_ext. intros (n & rg) _. unfold uses_region. cbn [fst snd]. rewrite flat_map_app, !total_app, !total_flat. f_equal.
    - rewrite <- (enumerate_total (fun r => total (fun d => w (de_edge d)) (tr_des r)) (tg_outer rg)). apply total_ext. intros (j & r) _. unfold uses_ring. rewrite total_map. reflexivity.
    - rewrite <- (enumerate_total (fun r => total (fun d => w (de_edge d)) (tr_des r)) (tg_inner rg)). apply total_ext. intros (j & r) _. unfold uses_ring. rewrite total_map. reflexivity. }
  rewrite U, (weighted_users w (length (tp_edges t)) _ V), total_edges.
  assert (P : forall (a : nat -> nat) l, total (fun i => 2 * a i) l = 2 * total a l).
  { intros a. induction l as [|x l IHl]; [reflexivity|]. rewrite !total_cons, IHl. lia. }
  rewrite <- P. apply total_le. intros i _. unfold w. destruct (nth_error (tp_edges t) i) as [e|] eqn:E; [|lia]. destruct (R i e E) as (L & _). nia.
Qed.

Lemma n_uses_used {D} (t : topology D) : exact_references t -> n_uses t = used (fun _ => 1) t.
Proof.
  intros (_ & V & _). unfold n_uses, used. rewrite <- total_1. apply total_ext. intros d Hd. destruct (nth_error (tp_edges t) (de_edge d)) as [e|] eqn:E; [reflexivity|].
  exfalso. apply nth_error_None in E. unfold ring_edges in Hd. apply in_flat_map in Hd as (rg & Hg & Hd). apply in_flat_map in Hd as (r & Hr & Hd).
  apply In_nth_error in Hg as (n & Hg).
  assert (X : exists s j, nth_error (match s with Outer => tg_outer rg | Inner => tg_inner rg end) j = Some r).
  { apply in_app_iff in Hr as [Hr|Hr]; apply In_nth_error in Hr as (j & Hj); [exists Outer|exists Inner]; exists j; exact Hj. }
  destruct X as (s & j & Hj). assert (I : In (de_edge d, RR n s j) (uses (tp_regions t))).
  { apply in_uses_region. exists rg, r. split; [exact Hg|]. split; [exact Hj|]. apply in_map, Hd. }
  apply V in I. cbn [fst] in I. lia.
Qed.

Lemma built_uses {D} m (rs : list (region D)) t : build_topology m rs = Ok t -> n_uses t = used (fun _ => 1) t.
Proof.
  intros B. rewrite n_uses_read, (used_read (fun _ => 1) t (fun _ => eq_refl)), (build_read m rs t B), <- total_1. apply total_ext.
  intros o Ho. unfold all_paths in Ho. apply in_flat_map in Ho as (s & Hs & Ho). unfold expected in Hs. apply in_flat_map in Hs as (g & _ & Hs).
  unfold expected_region in Hs. destruct (filter has_area (rg_outer g)); [destruct Hs|]. destruct Hs as [<-|[]]. unfold shape_paths in Ho. cbn [s_outer s_inner] in Ho.
  apply in_app_iff in Ho as [Ho|Ho]; apply in_concat in Ho as (l' & Hl & Ho); apply in_map_iff in Hl as (r0 & <- & _);
    apply in_map_iff in Ho as (p & <- & _); reflexivity.
Qed.
