(** * FormSimplify: normal forms whose edges lose points *)
From Verif Require Import FormSpec FormProofs Simplify OnceProofs OrderProofs RebuildProofs TopoProofs BuildProofs GeoProofs NormProofs NormTopo NormTwice SimplifyProofs SimplifyLaws SimplifyHeap SimplifyProps.

Lemma direction_open p a b : first p = Some a -> final p = Some b -> a <> b -> (direction_of p = Forward <-> lt_point a b).
Proof.
  destruct p as [|x l]; [discriminate|]. intros [= ->]. rewrite final_last. set (q := last (a :: l) a). intros E. assert (E' : q = b) by congruence. unfold direction_of. cbv zeta. fold q. rewrite E'. intros N.
  unfold lt_point. destruct a as [ax ay], b as [bx b_y]. cbn [px py].
  destruct (Z.ltb_spec ax bx); cbn [orb]; [split; auto|]. destruct (Z.eqb_spec ax bx) as [->|]; cbn [andb orb].
  - destruct (Z.ltb_spec ay b_y); [split; auto|]. destruct (Z.eqb_spec ay b_y) as [->|]; [congruence|]. cbn [andb]. split; [discriminate|lia].
  - split; [discriminate|lia].
Qed.

Lemma direction_closed p a : first p = Some a -> final p = Some a -> (direction_of p = Forward <-> 0 <= i64_of (shoelace p)).
Proof.
  destruct p as [|x l]; [discriminate|]. intros [= ->]. rewrite final_last. set (q := last (a :: l) a). intros E. assert (E' : q = a) by congruence. unfold direction_of. cbv zeta. fold q. rewrite E'.
  rewrite !Z.ltb_irrefl, !Z.eqb_refl. cbn [orb andb]. destruct (Z.leb_spec 0 (i64_of (shoelace (a :: l)))); split; auto; [discriminate|lia].
Qed.

Lemma oriented_inj d p q : oriented p d = oriented q d -> p = q.
Proof. destruct d; [auto|]. cbn [oriented]. intros E. rewrite <- (rev_involutive p), E. apply rev_involutive. Qed.

Definition use_form (ps : list point) (d : direction) : Prop :=
  ps = stored_form (oriented ps d) /\ (d = Forward <-> stored_form (oriented ps d) = oriented ps d).
Lemma use_form_direction ps d : use_form ps d <-> direction_of (oriented ps d) = d.
Proof.
  split; [intros [_ H]; exact (direction_eq _ _ H)|]. intros E. split.
  - apply (oriented_inj d). rewrite <- E at 3. rewrite stored_form_oriented. reflexivity.
  - rewrite <- direction_forward, E. reflexivity.
Qed.

Lemma oriented_ends ps d : first (oriented ps d) = (match d with Forward => first ps | Backward => final ps end) /\
  final (oriented ps d) = (match d with Forward => final ps | Backward => first ps end).
Proof. destruct d; [auto|]. cbn [oriented]. rewrite first_rev, final_rev. auto. Qed.

(** ** Distinct members under a one-to-one relation *)
Lemma distinct_related (R : list point -> list point -> Prop) l l' :
  (forall a a' b b', In a l -> In b l -> R a a' -> R b b' -> (a = b <-> a' = b')) -> Forall2 R l l' -> Forall2 R (distinct l) (distinct l').
Proof.
  intros O F. induction F as [|a a' l l' Ra F IH]; [constructor|]. cbn [distinct]. constructor; [exact Ra|].
  assert (I : Forall2 R (distinct l) (distinct l')) by (apply IH; intros x x' y y' Hx Hy; apply O; right; assumption).
  assert (Q : incl (distinct l) l).
  { clear. induction l as [|k l IH]; [intros x []|]. intros x [<-|Hx]; [left; reflexivity|]. apply filter_In in Hx as [Hx _]. right. apply IH, Hx. }
  clear IH F. revert Q. induction I as [|b b' m m' Rb I IH]; intros Q; [constructor|]. cbn [filter].
  assert (E : a = b <-> a' = b') by (apply (O a a' b b'); [left; reflexivity|right; apply Q; left; reflexivity|assumption|assumption]).
  destruct (path_eqb_spec a b), (path_eqb_spec a' b'); try tauto; cbn [negb]; [|constructor; [exact Rb|]]; apply IH; intros x Hx; apply Q; right; exact Hx.
Qed.

(** ** All uses of edges *)
Definition all_des {D} (t : topology D) : list directed_edge :=
  flat_map (fun rg => flat_map tr_des (tg_outer rg ++ tg_inner rg)) (tp_regions t).
Lemma all_des_in {D} (t : topology D) d : In d (all_des t) <-> exists rg r, In rg (tp_regions t) /\ In r (tg_outer rg ++ tg_inner rg) /\ In d (tr_des r).
Proof.
  unfold all_des. rewrite in_flat_map. split.
  - intros (rg & Hg & H). apply in_flat_map in H as (r & Hr & Hd). eauto.
  - intros (rg & r & Hg & Hr & Hd). exists rg. split; [exact Hg|]. apply in_flat_map. eauto.
Qed.
Lemma all_paths_des {D} (t : topology D) : all_paths (read_topology t) = map (read_de (tp_edges t)) (all_des t).
Proof.
  unfold all_paths, read_topology, all_des. induction (tp_regions t) as [|rg rgs IH]; [reflexivity|]. cbn [map flat_map]. rewrite IH, map_app. f_equal.
  unfold shape_paths, read_region. cbn [s_outer s_inner]. rewrite <- concat_app, <- map_app. generalize (tg_outer rg ++ tg_inner rg). intros rs.
  induction rs as [|r rs IHr]; [reflexivity|]. cbn [map concat flat_map]. rewrite IHr, map_app. reflexivity.
Qed.
Lemma stored_forms_des {D} (t : topology D) :
  (forall d e, In d (all_des t) -> nth_error (tp_edges t) (de_edge d) = Some e -> te_points e = stored_form (oriented (te_points e) (de_dir d))) ->
  stored_forms (read_topology t) = flat_map (fun d => match nth_error (tp_edges t) (de_edge d) with Some e => [te_points e] | None => [] end) (all_des t).
Proof.
  intros H. unfold stored_forms. rewrite all_paths_des. revert H. induction (all_des t) as [|d ds IH]; intros H; [reflexivity|]. cbn [map flat_map].
  rewrite IH by (intros d' e I; apply H; right; exact I). f_equal. unfold read_de. destruct (nth_error (tp_edges t) (de_edge d)) as [e|] eqn:E; [|reflexivity].
  cbn [option_map]. rewrite <- (H d e (or_introl eq_refl) E). reflexivity.
Qed.

(** ** The same topology with other points on its edges *)
Definition loses_points (e e' : topo_edge) : Prop :=
  subseq (te_points e') (te_points e) /\ first (te_points e') = first (te_points e) /\ final (te_points e') = final (te_points e) /\
  (has_length (te_points e) = true -> has_length (te_points e') = true).

Section Reshaped.
Context {D : Type} (t t' : topology D) (RG : tp_regions t' = tp_regions t) (F : Forall2 loses_points (tp_edges t) (tp_edges t'))
  (X' : exact_references t').

Lemma edge_there k e : nth_error (tp_edges t) k = Some e -> exists e', nth_error (tp_edges t') k = Some e' /\ loses_points e e'.
Proof. apply (Forall2_nth_l _ _ _ _ _ F). Qed.
Lemma edge_back k e' : nth_error (tp_edges t') k = Some e' -> exists e, nth_error (tp_edges t) k = Some e /\ loses_points e e'.
Proof. apply (Forall2_nth_r _ _ _ _ _ F). Qed.

Definition nloses (a b : norm_edge) : Prop := label a = label b /\ subseq (ne_points b) (ne_points a) /\
  first (ne_points b) = first (ne_points a) /\ final (ne_points b) = final (ne_points a) /\ (has_length (ne_points a) = true -> has_length (ne_points b) = true).

Lemma has_length_rev p : has_length (rev p) = has_length p.
Proof.
  destruct p as [|a [|b [|c l]]]; try reflexivity.
  - cbn. f_equal. destruct (pt_eqb_spec b a), (pt_eqb_spec a b); congruence.
  - cbn [has_length]. apply has_length_3. rewrite rev_length. cbn. lia.
Qed.
Lemma seen_reshaped r : Forall2 nloses (seen_ring t r) (seen_ring t' r).
Proof.
  unfold seen_ring. induction (tr_des r) as [|d ds IH]; [constructor|]. cbn [flat_map]. apply Forall2_app; [|exact IH].
  unfold seen. unfold edge_regions. rewrite RG. destruct (nth_error (tp_edges t) (de_edge d)) as [e|] eqn:E.
  - destruct (edge_there _ _ E) as (e' & -> & (L1 & L2 & L3 & L4)). constructor; [|constructor]. unfold nloses, label. cbn [ne_points ne_reg0 ne_reg1]. split; [reflexivity|].
    destruct (oriented_ends (te_points e) (de_dir d)) as [-> ->], (oriented_ends (te_points e') (de_dir d)) as [-> ->].
    destruct (de_dir d); cbn [oriented]; [tauto|]. rewrite !has_length_rev. split; [apply subseq_rev, L1|tauto].
  - destruct (nth_error (tp_edges t') (de_edge d)) as [e'|] eqn:E'; [|constructor]. destruct (edge_back _ _ E') as (e & E2 & _). congruence.
Qed.

Lemma nloses_chain es es' : Forall2 nloses es es' -> forall p q, chain p (map ne_points es) q -> chain p (map ne_points es') q.
Proof.
  intros H. induction H as [|e e' es es' (_ & _ & H1 & H2 & _) H IH]; intros p q; cbn [map chain]; [auto|].
  intros (A & x & B & C). split; [congruence|]. exists x. split; [congruence|auto].
Qed.
Lemma Forall2_rotation {A B} (P : A -> B -> Prop) l l' m' : Forall2 P l l' -> rotation l' m' -> exists m, rotation l m /\ Forall2 P m m'.
Proof.
  intros H (a' & b' & -> & ->). apply Forall2_app_inv_r in H as (a & b & Ha & Hb & ->). exists (b ++ a). split; [exists a, b; auto|apply Forall2_app; assumption].
Qed.
Lemma nloses_fewest es es' : Forall2 nloses es es' -> fewest es -> fewest es'.
Proof.
  intros H N x' y' rest' R. destruct (Forall2_rotation _ _ _ _ H R) as (m & Rm & Fm). inversion Fm as [|x ? m1 ? Hx F1 E1 E2]; subst. inversion F1 as [|y ? m2 ? Hy F2 E3 E4]; subst.
  destruct Hx as (Lx & _), Hy as (Ly & _). rewrite <- Lx, <- Ly. exact (N x y m2 Rm).
Qed.
Lemma nloses_redundant es es' : Forall2 nloses es es' -> Forall (fun e => ~ redundant e) es -> Forall (fun e => ~ redundant e) es'.
Proof.
  intros H N. induction H as [|e e' es es' (L & _) H IH]; [constructor|]. inversion N; subst. constructor; [|auto]. unfold redundant, label in *. intros Q. injection L as L1 L2. congruence.
Qed.
Lemma nloses_starts es es' : Forall2 nloses es es' -> starts_smallest (map ne_points es) -> starts_smallest (map ne_points es').
Proof.
  intros H (e0 & rest & p & E & Fp & A & B). destruct H as [|e e' es es' (L0 & L1 & L2 & L3 & L4) H]; [discriminate|]. cbn [map] in *. injection E as <- <-.
  exists (ne_points e'), (map ne_points es'), p. split; [reflexivity|]. split; [congruence|]. split.
  - intros N. assert (Ne : map ne_points es <> []) by (destruct H; [contradiction N; reflexivity|discriminate]). specialize (A Ne).
    intros f q [<-|Hf] Fq; [apply (A (ne_points e)); [left; reflexivity|congruence]|].
    apply in_map_iff in Hf as (x' & <- & Hx). destruct (Forall2_in_r _ _ _ _ H Hx) as (x & Hx0 & (_ & _ & Lf & _)). apply (A (ne_points x)); [right; apply in_map; exact Hx0|congruence].
  - intros N. assert (map ne_points es = []) by (destruct H; [reflexivity|discriminate]). intros q Hq. apply (B H0). eapply subseq_in; eassumption.
Qed.
Lemma nloses_ring_start es es' : Forall2 nloses es es' -> ring_start (map ne_points es') = ring_start (map ne_points es).
Proof. intros H. destruct H as [|e e' es es' (_ & _ & L & _) H]; [reflexivity|exact L]. Qed.
Lemma reshaped_order rs : in_order (map (fun r => map ne_points (seen_ring t r)) rs) -> in_order (map (fun r => map ne_points (seen_ring t' r)) rs).
Proof.
  unfold in_order. induction rs as [|r rs IH]; intros H; [constructor|]. cbn [map] in *. inversion H as [|? ? H1 H2]; subst. constructor; [auto|].
  apply Forall_map. rewrite Forall_forall in *. intros r2 Hr2. destruct (H2 _ (in_map _ _ _ Hr2)) as (p & q & A & B & C). exists p, q.
  rewrite !(nloses_ring_start _ _ (seen_reshaped _)). auto.
Qed.

Lemma reshaped_side o rs : normal_side_form t o rs -> (forall r, In r rs -> winds o (map ne_points (seen_ring t' r))) -> normal_side_form t' o rs.
Proof.
  intros (N & O) W. split; [|exact (reshaped_order rs O)]. intros r Hr. destruct (N r Hr) as ((p & C) & Fw & Rd & S & _).
  pose proof (seen_reshaped r) as H. split; [exists p; exact (nloses_chain _ _ H p p C)|]. split; [exact (nloses_fewest _ _ H Fw)|].
  split; [exact (nloses_redundant _ _ H Rd)|]. split; [exact (nloses_starts _ _ H S)|exact (W r Hr)].
Qed.

Lemma reshaped_whole : whole t ->
  (forall rg r, In rg (tp_regions t) -> In r (tg_outer rg ++ tg_inner rg) -> shoelaces (map ne_points (seen_ring t' r)) mod 2 ^ 64 <> 0) -> whole t'.
Proof.
  intros W A rg Hg. rewrite RG in Hg. destruct (W rg Hg) as [W1 W2]. split; [exact W1|]. intros r Hr. split; [|rewrite <- seen_read; exact (A rg r Hg Hr)].
  intros d Hd. destruct (W2 r Hr) as [W3 _]. destruct (W3 d Hd) as (p & E & L). unfold read_de in *.
  destruct (nth_error (tp_edges t) (de_edge d)) as [e|] eqn:Ee; [|discriminate]. injection E as <-. destruct (edge_there _ _ Ee) as (e' & -> & (_ & _ & _ & L4)).
  eexists. split; [reflexivity|]. destruct (de_dir d); cbn [oriented] in *; rewrite ?has_length_rev in *; auto.
Qed.

Lemma reshaped_direction d e e' : loses_points e e' -> (2 <= length (te_points e))%nat -> use_form (te_points e) d ->
  (first (te_points e') = final (te_points e') -> (d = Forward <-> 0 <= i64_of (shoelace (oriented (te_points e') d)))) -> use_form (te_points e') d.
Proof.
  intros (_ & L2 & L3 & _) L H K. apply use_form_direction. apply use_form_direction in H.
  destruct (te_points e) as [|a l] eqn:E; [cbn in L; lia|]. rewrite <- E in *. clear L.
  assert (Fa : first (te_points e) = Some a) by (rewrite E; reflexivity).
  assert (Fb : exists b, final (te_points e) = Some b) by (rewrite E, final_last; eauto). destruct Fb as (b & Fb).
  destruct (oriented_ends (te_points e) d) as [A1 A2], (oriented_ends (te_points e') d) as [B1 B2].
  destruct (pt_eqb_spec a b) as [<-|N].
  - assert (C1 : first (oriented (te_points e') d) = Some a) by (rewrite B1; destruct d; congruence).
    assert (C2 : final (oriented (te_points e') d) = Some a) by (rewrite B2; destruct d; congruence).
    pose proof (direction_closed _ _ C1 C2) as Q. specialize (K ltac:(congruence)). rewrite <- K in Q.
    destruct (direction_of (oriented (te_points e') d)), d; try reflexivity; intuition discriminate.
  - assert (G : forall p, first p = first (oriented (te_points e) d) -> final p = final (oriented (te_points e) d) -> direction_of p = direction_of (oriented (te_points e) d)).
    { intros p P1 P2. destruct d; rewrite A1 in P1; rewrite A2 in P2.
      - pose proof (direction_open p a b ltac:(congruence) ltac:(congruence) N) as U. pose proof (direction_open (oriented (te_points e) Forward) a b ltac:(congruence) ltac:(congruence) N) as V.
        destruct (direction_of p), (direction_of (oriented (te_points e) Forward)); try reflexivity; intuition discriminate.
      - pose proof (direction_open p b a ltac:(congruence) ltac:(congruence) ltac:(congruence)) as U. pose proof (direction_open (oriented (te_points e) Backward) b a ltac:(congruence) ltac:(congruence) ltac:(congruence)) as V.
        destruct (direction_of p), (direction_of (oriented (te_points e) Backward)); try reflexivity; intuition discriminate. }
    rewrite (G (oriented (te_points e') d)); [exact H| |]; rewrite ?A1, ?A2, ?B1, ?B2; destruct d; assumption.
Qed.

Lemma reshaped_built : built_form t -> different_edges t' -> loops_by_area t' ->
  (forall rg r, In rg (tp_regions t) -> In r (tg_outer rg ++ tg_inner rg) -> shoelaces (map ne_points (seen_ring t' r)) mod 2 ^ 64 <> 0) -> built_form t'.
Proof.
  intros (X & W & K & S) N L A.
  assert (W' : whole t') by exact (reshaped_whole W A).
  assert (S' : forall rg r d e, In rg (tp_regions t') -> In r (tg_outer rg ++ tg_inner rg) -> In d (tr_des r) -> nth_error (tp_edges t') (de_edge d) = Some e -> use_form (te_points e) (de_dir d)).
  { intros rg r d e' Hg Hr Hd He'. destruct (edge_back _ _ He') as (e & He & Hl). pose proof (L rg r d e' Hg Hr Hd He') as Ll. rewrite RG in Hg.
    apply (reshaped_direction (de_dir d) e e' Hl); [|exact (S rg r d e Hg Hr Hd He)|exact Ll].
    destruct (W rg Hg) as [_ W2]. destruct (W2 r Hr) as [W3 _]. destruct (W3 d Hd) as (p & E & Lp). unfold read_de in E. rewrite He in E. injection E as <-.
    apply has_length_2 in Lp. destruct (de_dir d); cbn [oriented] in Lp; rewrite ?rev_length in Lp; exact Lp. }
  split; [exact X'|]. split; [exact W'|]. split; [|exact S'].
  assert (AD : all_des t' = all_des t) by (unfold all_des; rewrite RG; reflexivity).
  assert (N0 : NoDup (map te_points (tp_edges t))) by (rewrite K; apply distinct_nodup).
  assert (R1 : stored_forms (read_topology t) = flat_map (fun d => match nth_error (tp_edges t) (de_edge d) with Some e => [te_points e] | None => [] end) (all_des t)).
  { apply stored_forms_des. intros d e Hd He. apply all_des_in in Hd as (rg & r & Hg & Hr & Hd). apply (S rg r d e Hg Hr Hd He). }
  assert (R2 : stored_forms (read_topology t') = flat_map (fun d => match nth_error (tp_edges t') (de_edge d) with Some e => [te_points e] | None => [] end) (all_des t)).
  { rewrite stored_forms_des; [rewrite AD; reflexivity|]. intros d e Hd He. apply all_des_in in Hd as (rg & r & Hg & Hr & Hd). apply (S' rg r d e Hg Hr Hd He). }
  set (R := fun a a' => exists k e e', nth_error (tp_edges t) k = Some e /\ nth_error (tp_edges t') k = Some e' /\ a = te_points e /\ a' = te_points e').
  assert (FR : Forall2 R (stored_forms (read_topology t)) (stored_forms (read_topology t'))).
  { rewrite R1, R2. clear R1 R2 AD. induction (all_des t) as [|d ds IH]; [constructor|]. cbn [flat_map]. apply Forall2_app; [|exact IH].
    destruct (nth_error (tp_edges t) (de_edge d)) as [e|] eqn:E.
    - destruct (edge_there _ _ E) as (e' & E' & _). rewrite E'. constructor; [|constructor]. exists (de_edge d), e, e'. auto.
    - destruct (nth_error (tp_edges t') (de_edge d)) as [e'|] eqn:E'; [|constructor]. destruct (edge_back _ _ E') as (e & E2 & _). congruence. }
  assert (UNI : forall (l : list topo_edge) i j a b, NoDup (map te_points l) -> nth_error l i = Some a -> nth_error l j = Some b -> te_points a = te_points b -> i = j).
  { intros l i j a b Nd Ha Hb E. apply (NoDup_nth_error_inj (map te_points l) i j (te_points a) Nd); [apply map_nth_error; exact Ha|]. rewrite E. apply map_nth_error. exact Hb. }
  assert (ONE : forall a a' b b', In a (stored_forms (read_topology t)) -> In b (stored_forms (read_topology t)) -> R a a' -> R b b' -> (a = b <-> a' = b')).
  { intros a a' b b' _ _ (k & e & e' & E1 & E2 & -> & ->) (j & f & f' & G1 & G2 & -> & ->). split; intros E.
    - assert (k = j) by exact (UNI _ _ _ _ _ N0 E1 G1 E). subst j. congruence.
    - assert (k = j) by exact (UNI _ _ _ _ _ N E2 G2 E). subst j. congruence. }
  pose proof (distinct_related R _ _ ONE FR) as FD. rewrite <- K in FD.
  assert (LEN : length (tp_edges t') = length (tp_edges t)) by (symmetry; exact (Forall2_length' _ _ _ F)).
  apply nth_error_ext. intros i. rewrite nth_error_map. destruct (nth_error (tp_edges t') i) as [e'|] eqn:E'.
  - destruct (edge_back _ _ E') as (e & E & _). cbn [option_map]. destruct (Forall2_nth_l _ _ _ i (te_points e) FD) as (x & Hx & (k & f & f' & E1 & E2 & E3 & ->)); [apply map_nth_error; exact E|].
    assert (i = k) by exact (UNI _ _ _ _ _ N0 E E1 E3). subst k. rewrite Hx. congruence.
  - symmetry. cbn [option_map]. apply nth_error_None. apply nth_error_None in E'. pose proof (Forall2_length' _ _ _ FD) as L0. rewrite map_length in L0. lia.
Qed.

Lemma winds_mod o es : winds o es -> Z.abs (shoelaces es) < 2 ^ 64 -> shoelaces es mod 2 ^ 64 <> 0.
Proof.
  intros W A E. apply Z.mod_divide in E; [|lia]. destruct E as (k & E). assert (k = 0) by nia. destruct o; cbn [winds] in W; lia.
Qed.

Lemma reshaped_normal : normal_form t ->
  (forall rg r, In rg (tp_regions t) -> In r (tg_outer rg ++ tg_inner rg) -> Z.abs (shoelaces (map ne_points (seen_ring t' r))) < 2 ^ 64) ->
  (normal_form t' <-> different_edges t' /\ loops_by_area t' /\ wound_rings t').
Proof.
  intros (B & N) A. split.
  - intros ((_ & _ & K & S) & N'). split; [|split].
    + unfold different_edges. rewrite K. apply distinct_nodup.
    + intros rg r d e Hg Hr Hd He E. destruct (S rg r d e Hg Hr Hd He) as [S1 S2]. rewrite <- (direction_forward) in S2. rewrite S2.
      destruct (first (te_points e)) as [a|] eqn:Fa.
      * destruct (oriented_ends (te_points e) (de_dir d)) as [O1 O2]. apply (direction_closed _ a); [rewrite O1|rewrite O2]; destruct (de_dir d); congruence.
      * destruct (te_points e); [|discriminate]. destruct (de_dir d); vm_compute; split; intros; try discriminate; try reflexivity.
    + intros rg Hg. destruct (N' rg Hg) as ((No & _) & (Ni & _)). split; intros r Hr; [apply (No r Hr)|apply (Ni r Hr)].
  - intros (Df & Lp & Wd). split.
    + apply (reshaped_built B Df Lp). intros rg r Hg Hr. destruct (Wd rg) as [Wo Wi]; [rewrite RG; exact Hg|].
      apply in_app_iff in Hr as Hr'. destruct Hr' as [H|H]; [apply (winds_mod Clockwise); [exact (Wo r H)|]|apply (winds_mod CounterClockwise); [exact (Wi r H)|]]; exact (A rg r Hg Hr).
    + intros rg Hg. destruct (Wd rg Hg) as [Wo Wi]. rewrite RG in Hg. destruct (N rg Hg) as [No Ni]. split; apply reshaped_side; assumption.
Qed.
End Reshaped.

(** ** Simplification *)
Lemma simplify_loses {D} m (t t' : topology D) thr : thr <= 2 ^ 64 - 1 -> simplify m t thr = Ok t' ->
  tp_regions t' = tp_regions t /\ Forall2 loses_points (tp_edges t) (tp_edges t').
Proof.
  intros Ht H. destruct (C40_only_points D m t t' thr H) as (R & F). split; [exact R|].
  eapply Forall2_impl'; [|exact F]. intros e e' (E & _). destruct (C38_subsequence m _ thr _ Ht E) as (S & P & Q & L).
  split; [exact S|]. split; [exact P|]. split; [exact Q|]. intros Hl.
  destruct (te_points e') as [|a [|b [|c l]]] eqn:Ee; [cbn in L; lia|cbn in L; lia| |reflexivity].
  cbn [has_length]. apply negb_true_iff. destruct (pt_eqb_spec a b) as [<-|]; [|reflexivity]. exfalso.
  assert (C : is_closed (te_points e)) by (split; [intros Z; rewrite Z in Hl; discriminate|]; cbn in P, Q; congruence).
  destruct (C39_ring m (te_points e) thr _ Ht C E) as [_ L4]. cbn in L4. lia.
Qed.

Lemma simplify_normal {D} m (t t' : topology D) thr : thr <= 2 ^ 64 - 1 -> simplify m t thr = Ok t' -> normal_form t ->
  (forall rg r, In rg (tp_regions t) -> In r (tg_outer rg ++ tg_inner rg) -> Z.abs (shoelaces (map ne_points (seen_ring t' r))) < 2 ^ 64) ->
  (normal_form t' <-> different_edges t' /\ loops_by_area t' /\ wound_rings t').
Proof.
  intros Ht H N A. destruct (simplify_loses m t t' thr Ht H) as (R & F).
  apply (reshaped_normal t t' R F); [|exact N|exact A]. apply (C40_references D m t t' thr H). apply N.
Qed.
