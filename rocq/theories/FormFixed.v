(** * FormFixed: what normalization leaves alone is in normal form *)
From Verif Require Import FormSpec FormProofs FormSimplify RebuildProofs OrderProofs TopoProofs BuildProofs GeoProofs NormProofs NormRing NormJoin NormTopo NormTwice.

Definition same_label (a b : norm_edge) : Prop := label a = label b.

(** ** Edges are not more after joining *)
Lemma joins_count runs out : Forall2 joins runs out -> (length out <= length (concat runs))%nat /\
  (length out = length (concat runs) -> Forall2 same_label (concat runs) out).
Proof.
  intros H. induction H as [|run e runs out (N & L & _) H (IH1 & IH2)]; [split; [cbn; lia|constructor]|]. cbn [concat length]. rewrite app_length.
  destruct run as [|x run]; [congruence|]. cbn [length]. split; [lia|]. intros E. destruct run as [|y run]; [|cbn [length] in E; lia].
  cbn [app]. constructor; [inversion L; assumption|]. apply IH2. cbn [length] in E. lia.
Qed.

Lemma labels_fewest a b : Forall2 same_label a b -> fewest b -> fewest a.
Proof.
  intros H F x y rest R. assert (H' : Forall2 same_label b a) by (clear -H; induction H; constructor; [symmetry|]; assumption).
  destruct (Forall2_rotation _ _ _ _ H' R) as (m & Rm & Fm). inversion Fm as [|x' ? m1 ? Hx F1]; subst. inversion F1 as [|y' ? m2 ? Hy F2]; subst.
  unfold same_label in *. rewrite <- Hx, <- Hy. exact (F x' y' m2 Rm).
Qed.

Lemma joined_labels es out : joined es out -> forall e, In e es -> exists x, In x out /\ label x = label e.
Proof.
  intros (runs & R & F) e He. assert (I : In e (concat runs)) by (destruct R as (l & r & -> & E); rewrite E; apply in_app_iff in He; apply in_app_iff; tauto).
  clear R He. induction F as [|run x runs out (_ & L & _) F IH]; [destruct I|]. cbn [concat] in I. apply in_app_iff in I as [I|I].
  - exists x. split; [left; reflexivity|]. rewrite Forall_forall in L. symmetry. apply L, I.
  - destruct (IH I) as (z & Hz & Ez). exists z. split; [right; exact Hz|exact Ez].
Qed.

Lemma tidied_labels es out : tidied es out -> forall e, In e es -> exists x, In x out /\ label x = label e.
Proof.
  intros [J|(x & x' & J & -> & L & _)] e He; [exact (joined_labels _ _ J e He)|].
  destruct (joined_labels _ _ J e He) as (z & [<-|[]] & Ez). exists x'. split; [left; reflexivity|congruence].
Qed.

Lemma rotation_back {A} (a b : list A) : rotation a b -> rotation b a.
Proof. intros (l & r & -> & ->). exists r, l. auto. Qed.

Lemma tidied_count es out : tidied es out -> (length out <= length es)%nat /\ (length out = length es -> fewest out -> fewest es).
Proof.
  intros [(runs & R & F)|(e & e' & (runs & R & F) & -> & _)]; pose proof (rotation_length _ _ R) as L; destruct (joins_count _ _ F) as (C1 & C2).
  - split; [lia|]. intros E W. apply (fewest_rotation (concat runs) es (rotation_back _ _ R)). apply (labels_fewest _ out); [|exact W]. apply C2. lia.
  - cbn [length] in *. split; [lia|]. intros E _. destruct es as [|x [|y es]]; [intros x y rest (l & r & El & Er); symmetry in El; apply app_eq_nil in El as [-> ->]; discriminate|apply fewest_single|cbn in E; lia].
Qed.

Lemma flipped_length es : length (flipped es) = length es.
Proof. unfold flipped. rewrite map_length, rev_length. reflexivity. Qed.
Lemma in_flipped e es : In e es -> exists f, In f (flipped es) /\ label f = label e.
Proof. intros H. exists (NE (rev (ne_points e)) (ne_reg0 e) (ne_reg1 e)). split; [|reflexivity]. unfold flipped. apply (in_map (fun e => NE (rev (ne_points e)) (ne_reg0 e) (ne_reg1 e))). apply -> in_rev. exact H. Qed.

Lemma normal_count {D} (t : topology D) r out : normal_ring t r out -> (length out <= length (seen_ring t r))%nat /\
  (length out = length (seen_ring t r) -> fewest (seen_ring t r)) /\
  (Forall (fun e => ~ redundant e) out -> Forall (fun e => ~ redundant e) (seen_ring t r)).
Proof.
  intros (base & HB & (T & W & _)). destruct (tidied_count _ _ T) as (C1 & C2).
  assert (L : length base = length (seen_ring t r)) by (destruct HB as [->| ->]; [reflexivity|apply flipped_length]).
  split; [lia|]. split.
  - intros E. assert (Fb : fewest base) by (apply C2; [lia|exact W]). destruct HB as [->| ->]; [exact Fb|].
    apply flipped_fewest in Fb. rewrite flipped_involutive in Fb. exact Fb.
  - intros N. rewrite Forall_forall in *. intros e He Q.
    assert (exists f, In f base /\ label f = label e) as (f & Hf & Lf) by (destruct HB as [->| ->]; [exists e; auto|exact (in_flipped e _ He)]).
    destruct (tidied_labels _ _ T f Hf) as (x & Hx & Lx). apply (N x Hx). unfold redundant, label in *. congruence.
Qed.

(** ** Edges are less after merging *)
Lemma redundantb_spec e : redundantb e = true <-> redundant e.
Proof.
  unfold redundantb, redundant. destruct (ne_reg0 e), (ne_reg1 e); try (split; [discriminate|congruence]); [rewrite Nat.eqb_eq; split; congruence|tauto].
Qed.
Lemma useful_count r : (length (useful r) <= length r)%nat /\ (length (useful r) = length r -> Forall (fun e => ~ redundant e) r).
Proof.
  unfold useful. induction r as [|e r (IH1 & IH2)]; [split; [cbn; lia|constructor]|]. cbn [filter length]. destruct (redundantb e) eqn:E; cbn [negb length].
  - split; [lia|]. intros H. lia.
  - split; [lia|]. intros H. constructor; [rewrite <- redundantb_spec; congruence|]. apply IH2. lia.
Qed.
Lemma pool_count rs : Forall (fun r => r <> []) rs -> (length (concat (untouched rs)) + length (pool rs) <= length (concat rs))%nat /\
  ((length (concat (untouched rs)) + length (pool rs))%nat = length (concat rs) -> Forall (Forall (fun e => ~ redundant e)) rs).
Proof.
  intros N. induction N as [|r rs Nr N (IH1 & IH2)]; [split; [cbn; lia|constructor]|]. unfold untouched, pool, mixed in *. cbn [filter concat map] in *. rewrite app_length.
  destruct (existsb redundantb r) eqn:E; cbn [negb andb concat map].
  - assert (S : (length (useful r) < length r)%nat).
    { destruct (useful_count r) as (U1 & U2). destruct (Nat.eq_dec (length (useful r)) (length r)) as [Q|]; [|lia]. exfalso. specialize (U2 Q).
      apply existsb_exists in E as (e & He & Re). rewrite Forall_forall in U2. apply (U2 e He), redundantb_spec, Re. }
    destruct (forallb redundantb r); cbn [negb filter map concat]; rewrite ?app_length; split; lia.
  - rewrite app_length. split; [lia|]. intros Q. constructor; [|apply IH2; lia]. apply Forall_forall. intros e He Re. apply redundantb_spec in Re.
    assert (existsb redundantb r = true) by (apply existsb_exists; eauto). congruence.
Qed.

Lemma perm_concat {A} (l l' : list (list A)) : Permutation l l' -> Permutation (concat l) (concat l').
Proof. intros P. induction P; cbn [concat]; [constructor|apply Permutation_app_head; assumption|rewrite !app_assoc; apply Permutation_app_tail, Permutation_app_comm|eapply Permutation_trans; eassumption]. Qed.

Lemma cycles_count cycles ms : Forall2 from_cycle cycles ms -> (length (concat ms) <= length (concat cycles))%nat.
Proof. intros H. induction H as [|c m cs ms (T & _) H IH]; [lia|]. cbn [concat]. rewrite !app_length. apply tidied_count in T as (T & _). lia. Qed.

Lemma rings_count {D} (t : topology D) o rs nrs : Forall2 (ring_fact t o) rs nrs -> (length (concat nrs) <= length (flat_map (seen_ring t) rs))%nat /\
  (length (concat nrs) = length (flat_map (seen_ring t) rs) -> Forall (Forall (fun e => ~ redundant e)) nrs ->
   forall r, In r rs -> fewest (seen_ring t r) /\ Forall (fun e => ~ redundant e) (seen_ring t r)).
Proof.
  intros H. induction H as [|r nr rs nrs (Nr & _) H (IH1 & IH2)]; [split; [cbn; lia|intros _ _ r []]|]. cbn [concat flat_map]. rewrite !app_length.
  destruct (normal_count t r nr Nr) as (C1 & C2 & C3). split; [lia|]. intros E R. inversion R; subst. intros x [<-|Hx]; [split; [apply C2; lia|apply C3; assumption]|].
  apply IH2; [lia|assumption|exact Hx].
Qed.

Lemma side_count {D} (t : topology D) o rs outs : side_fact t o rs outs -> (length (concat outs) <= length (flat_map (seen_ring t) rs))%nat /\
  (length (concat outs) = length (flat_map (seen_ring t) rs) ->
   forall r, In r rs -> fewest (seen_ring t r) /\ Forall (fun e => ~ redundant e) (seen_ring t r)).
Proof.
  intros (nrs & cycles & ms & F & (Pc & _) & Fc & P & _). apply perm_concat, Permutation_length in P. rewrite concat_app, app_length in P.
  apply Permutation_length in Pc. apply cycles_count in Fc. destruct (rings_count t o rs nrs F) as (C1 & C2).
  assert (N : Forall (fun r => r <> []) nrs).
  { apply Forall_forall. intros nr Hn. destruct (Forall2_in_r _ _ _ _ F Hn) as (r & _ & (_ & (G & _) & _)). exact G. }
  destruct (pool_count nrs N) as (Q1 & Q2). split; [lia|]. intros E. apply C2; [lia|]. apply Q2. lia.
Qed.

(** ** The whole topology *)
Lemma expected_count (outs : list norm_ring) : (length (concat (map expected_ring (filter has_area (map into_ring outs)))) <= length (concat outs))%nat.
Proof.
  induction outs as [|out outs IH]; [cbn; lia|]. cbn [map filter concat]. rewrite app_length. destruct (has_area (into_ring out)); [|lia].
  cbn [map concat]. rewrite app_length. unfold expected_ring at 1, into_ring at 1. cbn [paths]. rewrite map_length.
  assert (L : (length (filter has_length (map ne_points out)) <= length out)%nat).
  { rewrite <- (map_length ne_points out). generalize (map ne_points out). clear. induction l as [|a l IH]; [cbn; lia|]. cbn [filter]. destruct (has_length a); cbn [length]; lia. }
  lia.
Qed.

Definition des_seen {D} (t : topology D) (rg : topo_region D) : list norm_edge := flat_map (seen_ring t) (tg_outer rg) ++ flat_map (seen_ring t) (tg_inner rg).
Definition tight {D} (t : topology D) (rg : topo_region D) : Prop :=
  forall r, In r (tg_outer rg ++ tg_inner rg) -> fewest (seen_ring t r) /\ Forall (fun e => ~ redundant e) (seen_ring t r).

Lemma regions_count {D} (t : topology D) rgs gs :
  Forall2 (fun rg g => exists outs ins, g = Region (tg_data rg) (map into_ring outs) (map into_ring ins) /\
    side_fact t Clockwise (tg_outer rg) outs /\ side_fact t CounterClockwise (tg_inner rg) ins) rgs gs ->
  (length (all_paths (expected gs)) <= length (flat_map (des_seen t) rgs))%nat /\
  (length (all_paths (expected gs)) = length (flat_map (des_seen t) rgs) -> forall rg, In rg rgs -> tight t rg).
Proof.
  intros H. induction H as [|rg g rgs gs (outs & ins & -> & So & Si) H (IH1 & IH2)]; [split; [cbn; lia|intros _ rg []]|].
  unfold all_paths, expected in *. cbn [flat_map]. rewrite flat_map_app, !app_length. destruct (side_count t _ _ _ So) as (A1 & A2), (side_count t _ _ _ Si) as (B1 & B2).
  unfold des_seen at 1 3. rewrite !app_length.
  assert (C : (length (flat_map shape_paths (expected_region (Region (tg_data rg) (map into_ring outs) (map into_ring ins)))) <= length (concat outs) + length (concat ins))%nat).
  { rewrite expected_region_eq. cbn [rg_outer rg_inner rg_data]. pose proof (expected_count outs) as X. pose proof (expected_count ins) as Y.
    destruct (map expected_ring (filter has_area (map into_ring outs))) as [|a l]; [cbn; lia|]. cbn [flat_map]. rewrite app_nil_r. unfold shape_paths. cbn [s_outer s_inner]. rewrite app_length. lia. }
  split; [lia|]. intros E x [<-|Hx]; [|apply IH2; [lia|exact Hx]].
  intros r Hr. apply in_app_iff in Hr as [Hr|Hr]; [apply A2; [lia|exact Hr]|apply B2; [lia|exact Hr]].
Qed.

Lemma seen_count {D} (t : topology D) r : (length (seen_ring t r) <= length (tr_des r))%nat.
Proof.
  unfold seen_ring. induction (tr_des r) as [|d ds IH]; [cbn; lia|]. cbn [flat_map length]. rewrite app_length. unfold seen at 1. destruct (nth_error _ _); cbn [length]; lia.
Qed.
Lemma des_count {D} (t : topology D) : (length (flat_map (des_seen t) (tp_regions t)) <= length (all_paths (read_topology t)))%nat.
Proof.
  rewrite all_paths_des, map_length. unfold all_des. induction (tp_regions t) as [|rg rgs IH]; [cbn; lia|]. cbn [flat_map]. rewrite !app_length.
  unfold des_seen at 1. rewrite <- flat_map_app.
  assert (L : (length (flat_map (seen_ring t) (tg_outer rg ++ tg_inner rg)) <= length (flat_map tr_des (tg_outer rg ++ tg_inner rg)))%nat); [|lia].
  induction (tg_outer rg ++ tg_inner rg) as [|r rs IHr]; [cbn; lia|]. cbn [flat_map]. rewrite !app_length. pose proof (seen_count t r). lia.
Qed.

Lemma fixed_tight {D} m (t : topology D) : valid t -> normalize m t = Ok t -> forall rg, In rg (tp_regions t) -> tight t rg.
Proof.
  intros V H. apply normalize_Ok in H as (gs & E & B).
  assert (F : Forall2 (fun rg g => exists outs ins, g = Region (tg_data rg) (map into_ring outs) (map into_ring ins) /\
       side_fact t Clockwise (tg_outer rg) outs /\ side_fact t CounterClockwise (tg_inner rg) ins) (tp_regions t) gs).
  { eapply Forall2_mmap; [exact E|]. intros rg g Hg Hr. eapply normalize_region_fact; eassumption. }
  destruct (regions_count t _ _ F) as (C1 & C2). pose proof (des_count t) as C3. rewrite (build_read m gs t B) in C3. apply C2. lia.
Qed.

Lemma fixed_normal {D} m (t : topology D) : valid t ->
  (forall rg r, In rg (tp_regions t) -> In r (tg_outer rg ++ tg_inner rg) -> Z.abs (shoelaces (map ne_points (seen_ring t r))) < 2 ^ 63) ->
  normalize m t = Ok t -> normal_form t.
Proof.
  intros V A H. pose proof (fixed_tight m t V H) as T. apply normalize_Ok in H as (gs & E & B). split; [exact (build_built_form m gs t B)|].
  assert (F : Forall2 (plain_norm t) (tp_regions t) gs).
  { apply (plain_norms m); [exact V|exact E|]. intros rg Hg r e Hr He. destruct (T rg Hg r Hr) as (_ & R). rewrite Forall_forall in R. exact (R e He). }
  pose proof (norm_shapes m t t gs F (fun rg Hg => built_outer m gs t rg B Hg) B) as F'.
  intros rg Hg. apply In_nth_error in Hg as (i & Hi). pose proof (nth_error_In _ _ Hi) as Hg.
  destruct (Forall2_nth_l _ _ _ _ _ F Hi) as (g & Hgi & (outs & ins & -> & So & Si)). destruct (Forall2_nth_l _ _ _ _ _ F' Hgi) as (rg' & Hi' & (_ & S1 & S2)).
  assert (rg' = rg) by congruence. subst rg'. cbn [rg_outer rg_inner] in S1, S2.
  rewrite (proj2 (expected_norm _ _ _ _ So)) in S1. rewrite (proj2 (expected_norm _ _ _ _ Si)) in S2.
  assert (Q : forall o rs outs, incl rs (tg_outer rg ++ tg_inner rg) -> side_norm t o rs outs -> map (read_ring (tp_edges t)) rs = map as_read outs -> normal_side_form t o rs).
  { clear So Si S1 S2. intros o rs os I S M.
    assert (M' : map (fun r => map ne_points (seen_ring t r)) rs = map (map ne_points) os).
    { rewrite (map_ext _ (fun r => read (read_ring (tp_edges t) r))) by (intros r; apply seen_read). rewrite <- map_map with (g := read), M, map_map. apply map_ext. intros out. apply read_some. }
    split.
    - intros r Hr. assert (J : In (map ne_points (seen_ring t r)) (map (map ne_points) os)) by (rewrite <- M'; apply (in_map (fun r => map ne_points (seen_ring t r)) rs r Hr)).
      apply in_map_iff in J as (out & Eo & Ho). destruct (side_norm_in t o rs os out S Ho) as (r0 & Hr0 & (Nr & _ & _ & _ & _ & W)).
      destruct (T rg Hg r (I r Hr)) as (Tf & Tr). destruct Nr as (base & _ & (_ & _ & St)). unfold normal_ring_form. cbv zeta. rewrite <- Eo.
      split; [rewrite Eo; apply (proj2 (proj2 V) rg r Hg (I r Hr))|]. split; [exact Tf|]. split; [exact Tr|]. split; [exact St|]. apply W, (A rg r0 Hg (I r0 Hr0)).
    - rewrite M'. destruct S as (_ & _ & _ & O). exact O. }
  split; [apply (Q _ _ outs); [|exact So|exact S1]|apply (Q _ _ ins); [|exact Si|exact S2]]; intros r Hr; apply in_or_app; auto.
Qed.
