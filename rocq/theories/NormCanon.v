(** * NormCanon: the normal form is determined by the rings *)
From Verif Require Import GeoProofs TopoProofs BuildProofs NormCanonSpec NormProofs NormRing NormReturn NormTopo NormLaws NormAdjacent OrderProofs.

(** ** Courses *)

Lemma course_app a b : course (a ++ b) = course a ++ course b.
Proof. apply flat_map_app. Qed.

Lemma course_rotation a b : rotation a b -> rotation (course a) (course b).
Proof. intros (l & r & -> & ->). exists (course l), (course r). rewrite !course_app. auto. Qed.

Lemma same_label_course l run : Forall (fun x => label x = l) run -> course run = map (pair l) (flat_map segments (map ne_points run)).
Proof.
  induction 1 as [|x run Hx H IH]; [reflexivity|]. change (course (x :: run)) with (labelled x ++ course run). cbn [map flat_map]. rewrite map_app, IH. unfold labelled. rewrite Hx. reflexivity.
Qed.

Lemma joins_course run e p q : joins run e -> chain p (map ne_points run) q -> labelled e = course run.
Proof.
  intros (_ & L & E) C. rewrite (same_label_course (label e) run L). unfold labelled. rewrite E. unfold walk. rewrite (segments_glue p _ q C). reflexivity.
Qed.

Lemma runs_course runs out : Forall2 joins runs out -> forall p q, chain p (map ne_points (concat runs)) q -> course out = course (concat runs).
Proof.
  induction 1 as [|run e runs out Hj H IH]; intros p q C; [reflexivity|]. cbn [concat] in *. rewrite map_app, chain_app in C. destruct C as (r & C1 & C2).
  change (course (e :: out)) with (labelled e ++ course out). rewrite course_app, (joins_course run e p r Hj C1), (IH r q C2). reflexivity.
Qed.

Lemma joined_course es out : good es -> joined es out -> rotation (course es) (course out).
Proof.
  intros G (runs & R & HF). pose proof (good_rotation _ _ R G) as (_ & _ & p & C). rewrite (runs_course runs out HF p p C). apply course_rotation. exact R.
Qed.

Lemma segments_turned a b : turned a b -> rotation (segments a) (segments b).
Proof.
  intros (l & r & -> & ->). destruct l as [|x l]; [rewrite app_nil_r; apply rotation_refl|]. destruct r as [|y r]; [rewrite app_nil_r; apply rotation_refl|].
  cbn [app close]. exists (segments ((x :: l) ++ [y])), (segments ((y :: r) ++ [x])). split.
  - replace (x :: (l ++ y :: r) ++ [x]) with ((x :: l) ++ y :: (r ++ [x])) by (cbn; rewrite <- app_assoc; reflexivity). apply segments_app.
  - replace (y :: (r ++ x :: l) ++ [y]) with ((y :: r) ++ x :: (l ++ [y])) by (cbn; rewrite <- app_assoc; reflexivity). apply segments_app.
Qed.

Lemma tidied_course es out : good es -> tidied es out -> rotation (course es) (course out).
Proof.
  intros G [J|(e & e' & J & -> & L & T)]; [apply joined_course; assumption|]. apply (rotation_trans _ (course [e])); [apply joined_course; assumption|].
  cbn. rewrite !app_nil_r. unfold labelled. rewrite L. apply rotation_map, segments_turned, T.
Qed.

Definition back (s : option nat * option nat * list point) : option nat * option nat * list point := (fst s, rev (snd s)).

Lemma course_flipped es : course (flipped es) = rev (map back (course es)).
Proof.
  induction es as [|e es IH]; [reflexivity|]. change (e :: es) with ([e] ++ es). rewrite flipped_app, !course_app, map_app, rev_app_distr, IH. f_equal.
  cbn. rewrite !app_nil_r. unfold labelled. cbn [ne_points label ne_reg0 ne_reg1]. rewrite segments_rev, map_rev, !map_map. reflexivity.
Qed.

Lemma same_way_flipped a b : same_way a b -> same_way (flipped a) (flipped b).
Proof. unfold same_way. rewrite !course_flipped. intros H. apply rotation_rev, rotation_map, H. Qed.

Lemma course_area es : shoelaces (map ne_points es) = shoelaces (map snd (course es)).
Proof.
  induction es as [|e es IH]; [reflexivity|]. change (course (e :: es)) with (labelled e ++ course es). rewrite map_app, shoelaces_app. cbn [map shoelaces]. rewrite IH. f_equal.
  unfold labelled. rewrite map_map. cbn [snd]. rewrite map_id. symmetry. apply shoelaces_segments.
Qed.

Lemma same_way_area a b : same_way a b -> shoelaces (map ne_points a) = shoelaces (map ne_points b).
Proof. intros H. rewrite !course_area. apply shoelaces_perm, Permutation_map, rotation_perm, H. Qed.

(** ** Edges from courses *)

Definition long_edge (e : norm_edge) : Prop := (2 <= length (ne_points e))%nat.

Lemma labelled_nonempty e : long_edge e -> labelled e <> [].
Proof. unfold long_edge, labelled. destruct (ne_points e) as [|p [|q l]]; cbn; try lia; discriminate. Qed.

Lemma labelled_label e s : In s (labelled e) -> fst s = label e.
Proof. intros H. apply in_map_iff in H as (x & <- & _). reflexivity. Qed.

Lemma segments_inj a : forall b, (2 <= length a)%nat -> (2 <= length b)%nat -> segments a = segments b -> a = b.
Proof.
  intros b Ha Hb E. rewrite <- (glue_segments a), <- (glue_segments b), E by lia. reflexivity.
Qed.

Lemma labelled_inj e f : long_edge e -> long_edge f -> labelled e = labelled f -> e = f.
Proof.
  intros He Hf E. assert (HL : label e = label f).
  { destruct (labelled e) as [|s l] eqn:Es; [elim (labelled_nonempty e He Es)|]. rewrite <- (labelled_label e s), <- (labelled_label f s); [reflexivity|rewrite <- E; left; reflexivity|rewrite Es; left; reflexivity]. }
  destruct e as [pe a b], f as [pf c d]. unfold label in HL. cbn in HL. injection HL as -> ->. f_equal. apply segments_inj; [exact He|exact Hf|].
  unfold labelled in E. cbn [ne_points label ne_reg0 ne_reg1] in E. apply (f_equal (map snd)) in E. rewrite !map_map in E. cbn [snd] in E. rewrite !map_id in E. exact E.
Qed.

Fixpoint changing (es : list norm_edge) : Prop :=
  match es with x :: ((y :: _) as t) => label x <> label y /\ changing t | _ => True end.

Lemma fewest_changing es : fewest es -> changing es.
Proof.
  intros H. assert (G : forall v u, es = u ++ v -> changing v).
  { induction v as [|x [|y v] IH]; intros u E; [exact I|exact I|]. split.
    - apply (H x y (v ++ u)). exists u, (x :: y :: v). rewrite E. auto.
    - apply (IH (u ++ [x])). rewrite E, <- app_assoc. reflexivity. }
  apply (G es []). reflexivity.
Qed.

Lemma course_head x a s r : long_edge x -> course (x :: a) = s :: r -> fst s = label x.
Proof.
  intros Hx E. change (course (x :: a)) with (labelled x ++ course a) in E. destruct (labelled x) as [|s' l] eqn:Ex; [elim (labelled_nonempty x Hx Ex)|].
  injection E as -> _. apply (labelled_label x). rewrite Ex. left. reflexivity.
Qed.

Lemma changing_unique a : forall b, Forall long_edge a -> Forall long_edge b -> changing a -> changing b -> course a = course b -> a = b.
Proof.
  induction a as [|x a IH]; intros [|y b] La Lb Ca Cb E.
  - reflexivity.
  - inversion Lb; subst. change (course (y :: b)) with (labelled y ++ course b) in E. symmetry in E. apply app_eq_nil in E as [E _]. elim (labelled_nonempty y); assumption.
  - inversion La; subst. change (course (x :: a)) with (labelled x ++ course a) in E. apply app_eq_nil in E as [E _]. elim (labelled_nonempty x); assumption.
  - inversion La as [|? ? Lx La']; inversion Lb as [|? ? Ly Lb']; subst.
    assert (HL : label x = label y).
    { destruct (course (x :: a)) as [|s r] eqn:Es; [change (course (x :: a)) with (labelled x ++ course a) in Es; apply app_eq_nil in Es as [Es _]; elim (labelled_nonempty x Lx Es)|].
      rewrite <- (course_head x a s r Lx Es). apply (course_head y b s r Ly). symmetry. exact E. }
    assert (HS : forall u l w (z : norm_edge), (forall v, In v l -> fst v = label z) -> changing (z :: u) -> Forall long_edge u -> course u = l ++ w -> l = []).
    { intros u l w z Hl Cu Lu Eu. destruct l as [|s l]; [reflexivity|]. destruct u as [|y' u]; [discriminate|]. inversion Lu; subst. exfalso. apply (proj1 Cu).
      rewrite <- (Hl s) by (left; reflexivity). apply (course_head y' u s (l ++ w)); assumption. }
    change (course (x :: a)) with (labelled x ++ course a) in E. change (course (y :: b)) with (labelled y ++ course b) in E.
    destruct (app_split _ _ _ _ E) as (l & [(E1 & E2)|(E1 & E2)]).
    + assert (l = []); [apply (HS b l (course a) y); try assumption; intros v Hv; rewrite <- HL; apply (labelled_label x); rewrite E1; apply in_app_iff; auto|]. subst l. rewrite app_nil_r in E1. cbn [app] in E2.
      rewrite (labelled_inj x y Lx Ly E1). f_equal. apply IH; try assumption; [destruct a; [exact I|apply Ca]|destruct b; [exact I|apply Cb]|symmetry; exact E2].
    + assert (l = []); [apply (HS a l (course b) x); try assumption; intros v Hv; rewrite HL; apply (labelled_label y); rewrite E1; apply in_app_iff; auto|]. subst l. rewrite app_nil_r in E1. cbn [app] in E2.
      rewrite (labelled_inj x y Lx Ly (eq_sym E1)). f_equal. apply IH; try assumption; [destruct a; [exact I|apply Ca]|destruct b; [exact I|apply Cb]].
Qed.

Lemma course_split a : forall l r, course a = l ++ r ->
  (exists a1 a2, a = a1 ++ a2 /\ l = course a1 /\ r = course a2) \/
  (exists a1 e a2 s1 s2, a = a1 ++ e :: a2 /\ labelled e = s1 ++ s2 /\ s1 <> [] /\ s2 <> [] /\ l = course a1 ++ s1 /\ r = s2 ++ course a2).
Proof.
  induction a as [|x a IH]; intros l r E.
  - symmetry in E. apply app_eq_nil in E as [-> ->]. left. exists [], []. auto.
  - change (course (x :: a)) with (labelled x ++ course a) in E. destruct (app_split _ _ _ _ E) as (k & [(E1 & E2)|(E1 & E2)]).
    + destruct l as [|s l]; [left; exists [], (x :: a); auto|]. destruct k as [|s' k].
      * left. exists [x], a. cbn [app] in E2. rewrite app_nil_r in E1. split; [reflexivity|]. split; [cbn; rewrite app_nil_r; congruence|congruence].
      * right. exists [], x, a, (s :: l), (s' :: k). repeat (split; [assumption || reflexivity || discriminate|]). exact E2.
    + destruct (IH k r E2) as [(a1 & a2 & -> & -> & ->)|(a1 & e & a2 & s1 & s2 & -> & Ee & N1 & N2 & -> & ->)].
      * left. exists (x :: a1), a2. rewrite E1. auto.
      * right. exists (x :: a1), e, a2, s1, s2. split; [reflexivity|]. repeat (split; [assumption|]). split; [rewrite E1; cbn; rewrite app_assoc; reflexivity|reflexivity].
Qed.

Definition same_ring_edges (a b : list norm_edge) : Prop :=
  rotation a b \/ exists e f, a = [e] /\ b = [f] /\ label e = label f /\ turned (ne_points e) (ne_points f).

Lemma good_long_edges a : good a -> Forall long_edge a.
Proof. intros (_ & L & _). rewrite Forall_forall in *. intros e He. apply L. apply in_map. exact He. Qed.

Lemma heads_segments c x d : map (hd d) (segments (c ++ [x])) = c.
Proof. induction c as [|p [|q c] IH]; [reflexivity|reflexivity|]. cbn [app segments map hd] in *. rewrite IH. reflexivity. Qed.

Lemma closed_close ps : (2 <= length ps)%nat -> first ps = final ps -> exists c, ps = close c.
Proof.
  intros L E. destruct ps as [|p l]; [cbn in L; lia|]. destruct (rev l) as [|q k] eqn:Er.
  - apply (f_equal (@length point)) in Er. rewrite rev_length in Er. destruct l; [cbn in L; lia|discriminate].
  - assert (El : l = rev k ++ [q]) by (rewrite <- (rev_involutive l), Er; reflexivity). exists (p :: rev k). cbn [close]. f_equal. rewrite El. f_equal.
    unfold final in E. cbn [rev] in E. rewrite Er in E. cbn in E. injection E as ->. reflexivity.
Qed.

Lemma segments_turned_inv a b : (2 <= length a)%nat -> (2 <= length b)%nat -> first a = final a -> first b = final b -> rotation (segments a) (segments b) -> turned a b.
Proof.
  intros La Lb Ca Cb R. destruct (closed_close a La Ca) as (c & ->), (closed_close b Lb Cb) as (d & ->). apply turned_rotation.
  destruct c as [|p c]; [cbn in La; lia|]. destruct d as [|q d]; [cbn in Lb; lia|]. cbn [close] in R. apply (rotation_map (hd p)) in R.
  change (p :: c ++ [p]) with ((p :: c) ++ [p]) in R. change (q :: d ++ [q]) with ((q :: d) ++ [q]) in R. rewrite !heads_segments in R. exact R.
Qed.

Lemma single_closed e : good [e] -> first (ne_points e) = final (ne_points e).
Proof. intros (_ & _ & p & F & q & E & C). cbn in C. subst q. congruence. Qed.

Lemma fewest_constant a l : fewest a -> a <> [] -> (forall e, In e a -> label e = l) -> exists e, a = [e].
Proof.
  intros F N H. destruct a as [|x [|y a]]; [congruence|eauto|]. exfalso. apply (F x y a (rotation_refl _)). rewrite !H; [reflexivity|right; left; reflexivity|left; reflexivity].
Qed.

Lemma fewest_unique a b : good a -> good b -> fewest a -> fewest b -> same_way a b -> same_ring_edges a b.
Proof.
  intros Ga Gb Fa Fb (l & r & E1 & E2). pose proof (good_long_edges a Ga) as La. pose proof (good_long_edges b Gb) as Lb.
  destruct (course_split a l r E1) as [(a1 & a2 & -> & -> & ->)|(a1 & e & a2 & s1 & s2 & -> & Ee & N1 & N2 & -> & ->)].
  - left. exists a1, a2. split; [reflexivity|]. rewrite <- course_app in E2.
    assert (R : rotation (a1 ++ a2) (a2 ++ a1)) by (exists a1, a2; auto). apply changing_unique; [assumption| | | |symmetry; symmetry; exact E2].
    + apply Forall_app in La as [? ?]. apply Forall_app. auto.
    + apply fewest_changing, Fb.
    + apply fewest_changing. exact (fewest_rotation _ _ R Fa).
  - (* the start of [b] lies within the edge [e] *)
    assert (Hs1 : forall s, In s s1 -> fst s = label e) by (intros s Hs; apply (labelled_label e); rewrite Ee; apply in_app_iff; auto).
    assert (Hs2 : forall s, In s s2 -> fst s = label e) by (intros s Hs; apply (labelled_label e); rewrite Ee; apply in_app_iff; auto).
    destruct s2 as [|t0 s2]; [congruence|]. destruct (rev s1) as [|t1 k] eqn:Er; [apply (f_equal (@rev _)) in Er; rewrite rev_involutive in Er; elim (N1 Er)|].
    assert (Es1 : s1 = rev k ++ [t1]) by (rewrite <- (rev_involutive s1), Er; reflexivity).
    destruct b as [|x b]; [discriminate|].
    assert (Hx : label x = label e).
    { inversion Lb; subst. rewrite <- (course_head x b _ _ H1 E2). apply Hs2. left. reflexivity. }
    assert (Hb : b = []).
    { destruct (rev b) as [|z k'] eqn:Eb; [apply (f_equal (@rev _)) in Eb; rewrite rev_involutive in Eb; exact Eb|exfalso].
      assert (Eb' : b = rev k' ++ [z]) by (rewrite <- (rev_involutive b), Eb; reflexivity). subst b.
      assert (Lz : long_edge z) by (rewrite Forall_forall in Lb; apply Lb; right; apply in_app_iff; right; left; reflexivity).
      apply (Fb z x (rev k')); [exists (x :: rev k'), [z]; auto|]. rewrite Hx.
      change (x :: rev k' ++ [z]) with ((x :: rev k') ++ [z]) in E2. rewrite course_app in E2. cbn [course flat_map] in E2. rewrite app_nil_r in E2.
      destruct (rev (labelled z)) as [|t2 k2] eqn:Ez; [apply (f_equal (@rev _)) in Ez; rewrite rev_involutive in Ez; elim (labelled_nonempty z Lz Ez)|].
      assert (Ez' : labelled z = rev k2 ++ [t2]) by (rewrite <- (rev_involutive (labelled z)), Ez; reflexivity).
      rewrite Es1, Ez' in E2. rewrite !app_assoc in E2. apply app_inj_tail in E2 as [_ ->].
      rewrite <- (labelled_label z t1) by (rewrite Ez'; apply in_app_iff; right; left; reflexivity). apply Hs1. rewrite Es1. apply in_app_iff. right. left. reflexivity. }
    subst b. cbn [course flat_map] in E2. rewrite app_nil_r in E2.
    destruct (fewest_constant (a1 ++ e :: a2) (label e) Fa) as (e0 & Ea); [destruct a1; discriminate| |].
    { intros f Hf. rewrite <- Hx. assert (Lf : long_edge f) by (rewrite Forall_forall in La; apply La; exact Hf).
      assert (X : forall s, In s (course (a1 ++ e :: a2)) -> fst s = label x).
      { intros s Hs. apply (labelled_label x). rewrite E2. rewrite E1 in Hs. apply in_app_iff in Hs. apply in_app_iff. tauto. }
      destruct (labelled f) as [|s w] eqn:Ef; [elim (labelled_nonempty f Lf Ef)|]. rewrite <- (labelled_label f s) by (rewrite Ef; left; reflexivity). apply X. apply in_flat_map. exists f. rewrite Ef. split; [exact Hf|left; reflexivity]. }
    destruct a1 as [|y a1]; [|destruct a1; discriminate]. injection Ea as -> ->. right. exists e0, x. split; [reflexivity|]. split; [reflexivity|]. split; [congruence|].
    cbn [app] in *. inversion La; inversion Lb; subst. apply segments_turned_inv; [assumption|assumption|apply single_closed; assumption|apply single_closed; assumption|].
    assert (R : rotation (labelled e0) (labelled x)) by (eexists _, (t0 :: s2); split; [exact Ee|rewrite E2; cbn [course flat_map app]; rewrite app_nil_r; reflexivity]).
    apply (rotation_map snd) in R. unfold labelled in R. rewrite !map_map in R. cbn [snd] in R. rewrite !map_id in R. exact R.
Qed.

(** ** Cycles of a pool *)

Lemma chain_unique P e p : NoDup (starts P) -> In e P -> first (ne_points e) = Some p ->
  forall w w' q, (forall x, In x w -> In x P /\ x <> e) -> (forall x, In x w' -> In x P /\ x <> e) ->
  chain q (map ne_points w) p -> chain q (map ne_points w') p -> w = w'.
Proof.
  intros N He Fe. induction w as [|x w IH]; intros [|y w'] q Hw Hw' C C'; [reflexivity| | |].
  - exfalso. cbn in C. subst q. destruct C' as (F & _). destruct (Hw' y (or_introl eq_refl)) as [Hy Ny]. apply Ny. apply (starts_inj P); congruence.
  - exfalso. cbn in C'. subst q. destruct C as (F & _). destruct (Hw x (or_introl eq_refl)) as [Hx Nx]. apply Nx. apply (starts_inj P); congruence.
  - destruct C as (F & r & E & C), C' as (F' & r' & E' & C').
    assert (x = y) by (apply (starts_inj P); [exact N|apply Hw; left; reflexivity|apply Hw'; left; reflexivity|congruence]). subst y.
    rewrite E in E'. injection E' as <-. f_equal. apply (IH w' r); try assumption; intros z Hz; [apply Hw|apply Hw']; right; exact Hz.
Qed.

Lemma starts_nodup P : NoDup (starts P) -> NoDup P.
Proof. unfold starts. rewrite map_map. apply NoDup_map_inv. Qed.

Lemma starts_perm P Q : Permutation P Q -> Permutation (starts P) (starts Q).
Proof. intros H. unfold starts. apply Permutation_map, Permutation_map, H. Qed.

Definition loops (cycles : list (list norm_edge)) : Prop := Forall (fun c => c <> [] /\ closed_chain (map ne_points c)) cycles.

Lemma cycles_unique c1 : forall c2, NoDup (starts (concat c1)) -> Permutation (concat c1) (concat c2) -> loops c1 -> loops c2 ->
  exists c, Permutation c2 c /\ Forall2 rotation c1 c.
Proof.
  induction c1 as [|c c1 IH]; intros c2 N P L1 L2.
  - destruct c2 as [|d c2]; [exists []; auto|]. apply Permutation_nil in P. inversion L2 as [|? ? [X _] _]; subst. cbn in P. apply app_eq_nil in P as [-> _]. congruence.
  - inversion L1 as [|? ? [Nc Cc] L1']; subst. destruct c as [|e w]; [congruence|].
    assert (He : In e (concat c2)) by (apply (Permutation_in e P); left; reflexivity).
    apply in_concat in He as (d & Hd & He). apply in_split in Hd as (u & v & ->). apply Forall_app in L2 as [Lu Ld]. inversion Ld as [|? ? [Nd Cd] Lv]; subst.
    destruct (in_rotation e d He) as (w' & R).
    assert (Cd' : closed_chain (map ne_points (e :: w'))) by (eapply closed_chain_rotation; [apply rotation_map; exact R|exact Cd]).
    destruct Cc as (p & F & q & E & C), Cd' as (p' & F' & q' & E' & C'). rewrite F in F'. injection F' as <-. rewrite E in E'. injection E' as <-.
    set (Pool := concat ((e :: w) :: c1)) in *.
    assert (NP : NoDup Pool) by (apply starts_nodup; exact N).
    assert (NQ : NoDup (e :: w')).
    { eapply Permutation_NoDup; [apply rotation_perm; exact R|]. pose proof (Permutation_NoDup P NP) as X. rewrite concat_app in X. cbn [concat] in X. apply nodup_app3 in X as (_ & X & _). apply nodup_app3 in X as (X & _ & _). exact X. }
    assert (w = w').
    { apply (chain_unique Pool e p N (or_introl eq_refl) F w w' q); try assumption.
      - intros x Hx. split; [right; apply in_app_iff; left; exact Hx|]. intros ->. inversion NP as [|? ? X _]; subst. apply X. apply in_app_iff. left. exact Hx.
      - intros x Hx. split.
        + apply (Permutation_in x (Permutation_sym P)). rewrite concat_app. apply in_app_iff. right. cbn [concat]. apply in_app_iff. left. apply (Permutation_in x (Permutation_sym (rotation_perm _ _ R))). right. exact Hx.
        + intros ->. inversion NQ; subst. contradiction. }
    subst w'. destruct (IH (u ++ v)) as (c & Pc & Fc).
    + unfold Pool in N. cbn [concat] in N. unfold starts in N. rewrite !map_app in N. apply nodup_app3 in N as (_ & N & _). exact N.
    + apply (Permutation_app_inv_l (e :: w)). unfold Pool in P. cbn [concat] in P. rewrite P. rewrite !concat_app. cbn [concat]. rewrite !app_assoc.
      apply Permutation_app_tail. rewrite Permutation_app_comm. apply Permutation_app_tail. apply rotation_perm. exact R.
    + exact L1'.
    + apply Forall_app. auto.
    + exists (d :: c). split; [|constructor; [apply rotation_sym; exact R|exact Fc]]. etransitivity; [symmetry; apply Permutation_middle|]. constructor. exact Pc.
Qed.

(** ** Sides *)

Definition tidy (b out : list norm_edge) : Prop := tidied b out /\ fewest out.

(** What a side looks like, apart from where its rings start and in which order they are. *)
Definition loose_side (bases outs : list (list norm_edge)) : Prop :=
  exists nrs cycles ms,
    Forall good bases /\ Forall2 tidy bases nrs /\ cycles_of (pool nrs) cycles /\ Forall2 tidy cycles ms /\
    Forall good cycles /\ Permutation outs (untouched nrs ++ ms) /\ traversable (pool nrs).

Lemma tidy_good b out : good b -> tidy b out -> good out.
Proof. intros G [T _]. apply (good_tidied _ _ G T). Qed.

Lemma tidy_unique b1 b2 o1 o2 : good b1 -> good b2 -> tidy b1 o1 -> tidy b2 o2 -> same_way b1 b2 -> same_ring_edges o1 o2.
Proof.
  intros G1 G2 T1 T2 S. apply fewest_unique; [exact (tidy_good b1 o1 G1 T1)|exact (tidy_good b2 o2 G2 T2)|apply T1|apply T2|].
  unfold same_way. eapply rotation_trans; [apply rotation_sym, (tidied_course b1 o1 G1 (proj1 T1))|]. eapply rotation_trans; [exact S|]. apply (tidied_course b2 o2 G2 (proj1 T2)).
Qed.

Lemma same_ring_labels a b : same_ring_edges a b -> Permutation (map label a) (map label b).
Proof.
  intros [R|(e & f & -> & -> & L & _)]; [apply Permutation_map, rotation_perm, R|]. cbn. rewrite L. reflexivity.
Qed.

Definition redundant_label (l : option nat * option nat) : bool := match l with (Some a, Some b) => Nat.eqb a b | (None, None) => true | _ => false end.
Lemma redundantb_label e : redundantb e = redundant_label (label e).
Proof. destruct e as [ps [] []]; reflexivity. Qed.

Lemma existsb_perm {A} (f : A -> bool) a b : Permutation a b -> existsb f a = existsb f b.
Proof.
  intros P. apply eq_true_iff_eq. rewrite !existsb_exists. split; intros (x & Hx & E); exists x; (split; [|exact E]); [apply (Permutation_in x P Hx)|apply (Permutation_in x (Permutation_sym P) Hx)].
Qed.
Lemma forallb_perm {A} (f : A -> bool) a b : Permutation a b -> forallb f a = forallb f b.
Proof.
  intros P. apply eq_true_iff_eq. rewrite !forallb_forall. split; intros H x Hx; apply H; [apply (Permutation_in x (Permutation_sym P) Hx)|apply (Permutation_in x P Hx)].
Qed.
Lemma existsb_labels a : existsb redundantb a = existsb redundant_label (map label a).
Proof. induction a as [|e a IH]; [reflexivity|]. cbn [existsb map]. rewrite redundantb_label, IH. reflexivity. Qed.
Lemma forallb_labels a : forallb redundantb a = forallb redundant_label (map label a).
Proof. induction a as [|e a IH]; [reflexivity|]. cbn [forallb map]. rewrite redundantb_label, IH. reflexivity. Qed.

Lemma same_exists a b : same_ring_edges a b -> existsb redundantb a = existsb redundantb b.
Proof. intros S. rewrite !existsb_labels. apply existsb_perm, same_ring_labels, S. Qed.
Lemma same_forall a b : same_ring_edges a b -> forallb redundantb a = forallb redundantb b.
Proof. intros S. rewrite !forallb_labels. apply forallb_perm, same_ring_labels, S. Qed.

Lemma untouched_same rs1 rs2 : Forall2 same_ring_edges rs1 rs2 -> Forall2 same_ring_edges (untouched rs1) (untouched rs2).
Proof.
  induction 1 as [|a b rs1 rs2 S F IH]; [constructor|]. unfold untouched in *. cbn [filter]. rewrite (same_exists a b S). destruct (negb (existsb redundantb b)); [constructor|]; assumption.
Qed.

Lemma pool_same rs1 rs2 : Forall2 same_ring_edges rs1 rs2 -> Permutation (pool rs1) (pool rs2).
Proof.
  induction 1 as [|a b rs1 rs2 S F IH]; [constructor|]. unfold pool, mixed in *. cbn [filter]. rewrite (same_exists a b S), (same_forall a b S).
  destruct (existsb redundantb b) eqn:E1; [|exact IH]. destruct (forallb redundantb b) eqn:E2; [exact IH|]. cbn [andb negb map concat]. apply Permutation_app; [|exact IH].
  destruct S as [R|(e & f & -> & -> & _ & _)]; [|exfalso; cbn [existsb forallb] in E1, E2; rewrite orb_false_r in E1; rewrite andb_true_r in E2; rewrite E1 in E2; discriminate E2].
  unfold useful. apply rotation_perm in R. clear -R. induction R; cbn [filter]; try reflexivity.
  - destruct (negb (redundantb x)); [constructor|]; assumption.
  - destruct (negb (redundantb x)), (negb (redundantb y)); try reflexivity. apply perm_swap.
  - etransitivity; eassumption.
Qed.

Lemma pool_perm rs1 rs2 : Permutation rs1 rs2 -> Permutation (pool rs1) (pool rs2).
Proof.
  intros P. unfold pool. rewrite <- !flat_map_concat_map. apply Permutation_flat_map. unfold mixed. induction P; cbn [filter]; try reflexivity.
  - destruct (existsb redundantb x && negb (forallb redundantb x)); [constructor|]; assumption.
  - destruct (existsb redundantb x && negb (forallb redundantb x)), (existsb redundantb y && negb (forallb redundantb y)); try reflexivity. apply perm_swap.
  - etransitivity; eassumption.
Qed.

Lemma filter_perm {A} (f : A -> bool) a b : Permutation a b -> Permutation (filter f a) (filter f b).
Proof.
  induction 1; cbn [filter]; try reflexivity.
  - destruct (f x); [constructor|]; assumption.
  - destruct (f x), (f y); try reflexivity. apply perm_swap.
  - etransitivity; eassumption.
Qed.

Lemma loose_perm b b' outs : Permutation b b' -> loose_side b outs -> loose_side b' outs.
Proof.
  intros P (nrs & cycles & ms & G & F & C & F2 & Gc & Po & T). destruct (Permutation_Forall2 P F) as (nrs' & Pn & F').
  exists nrs', cycles, ms. split; [eapply Permutation_Forall; eassumption|]. split; [exact F'|]. split; [destruct C as [C1 C2]; split; [rewrite C1; apply pool_perm; exact Pn|exact C2]|].
  split; [exact F2|]. split; [exact Gc|]. split; [rewrite Po; apply Permutation_app_tail; apply filter_perm; exact Pn|].
  destruct T as [T1 T2]. pose proof (pool_perm _ _ Pn) as PP. split; [eapply Permutation_NoDup; [apply starts_perm; exact PP|exact T1]|].
  rewrite <- (starts_perm _ _ PP), T2. unfold ends. apply Permutation_map, Permutation_map, PP.
Qed.

Lemma Forall2_rel {A B C E} (P : A -> B -> Prop) (Q : C -> E -> Prop) (R : A -> C -> Prop) (S : B -> E -> Prop) l1 l2 l3 l4 :
  (forall a b c e, In a l1 -> In c l3 -> P a b -> Q c e -> R a c -> S b e) -> Forall2 P l1 l2 -> Forall2 Q l3 l4 -> Forall2 R l1 l3 -> Forall2 S l2 l4.
Proof.
  intros H F. revert l3 l4 H. induction F as [|a b l1 l2 Hp F IH]; intros l3 l4 H G K; inversion K; subst; inversion G; subst; constructor.
  - eapply H; [left; reflexivity|left; reflexivity|eassumption..].
  - eapply IH; [|eassumption|eassumption]. intros; eapply H; [right; eassumption|right; eassumption|eassumption..].
Qed.

Lemma loose_unique b1 b2 outs1 outs2 : loose_side b1 outs1 -> loose_side b2 outs2 -> Forall2 same_way b1 b2 ->
  exists outs, Permutation outs2 outs /\ Forall2 same_ring_edges outs1 outs.
Proof.
  intros (nrs1 & cy1 & ms1 & G1 & F1 & (C1 & L1) & M1 & Gc1 & P1 & T1) (nrs2 & cy2 & ms2 & G2 & F2 & (C2 & L2) & M2 & Gc2 & P2 & T2) S.
  rewrite Forall_forall in G1, G2, Gc1, Gc2.
  assert (SN : Forall2 same_ring_edges nrs1 nrs2).
  { eapply (Forall2_rel tidy tidy same_way same_ring_edges); [|exact F1|exact F2|exact S]. intros a b c e Ha Hc. apply tidy_unique; auto. }
  pose proof (pool_same _ _ SN) as PP.
  destruct (cycles_unique cy1 cy2) as (cy & Pc & Fc); [| |exact L1|exact L2|].
  { eapply Permutation_NoDup; [apply starts_perm, Permutation_sym, C1|apply T1]. }
  { rewrite C1, C2. exact PP. }
  destruct (Permutation_Forall2 Pc M2) as (ms & Pm & M2').
  assert (SM : Forall2 same_ring_edges ms1 ms).
  { eapply (Forall2_rel tidy tidy rotation same_ring_edges); [|exact M1|exact M2'|exact Fc]. intros a b c e Ha Hc Ta Tc R. apply (tidy_unique a c); auto; [apply Gc2, (Permutation_in c (Permutation_sym Pc) Hc)|apply course_rotation, R]. }
  assert (SU : Forall2 same_ring_edges (untouched nrs1 ++ ms1) (untouched nrs2 ++ ms)) by (apply Forall2_app; [apply untouched_same; exact SN|exact SM]).
  destruct (Permutation_Forall2 (Permutation_sym P1) SU) as (outs & Po & Fo). exists outs. split; [|exact Fo].
  rewrite P2, Pm. exact Po.
Qed.

(** The rings of a side in the direction in which they are normalized. *)
Lemma side_loose {D} (t : topology D) o rs outs : side_fact t o rs outs -> (forall r, In r rs -> good (seen_ring t r)) ->
  (forall r, In r rs -> Z.abs (shoelaces (map ne_points (seen_ring t r))) < 2 ^ 63) ->
  exists bases, Forall2 (fun r b => (b = seen_ring t r \/ b = flipped (seen_ring t r)) /\ winds o (map ne_points b)) rs bases /\ loose_side bases outs.
Proof.
  intros (nrs & cycles & ms & F1 & C & F2 & P & _ & Gm & Lm & T) G A.
  assert (X : exists bases, Forall2 (fun r b => (b = seen_ring t r \/ b = flipped (seen_ring t r)) /\ winds o (map ne_points b)) rs bases /\ Forall good bases /\ Forall2 tidy bases nrs).
  { clear -F1 G A. induction F1 as [|r n rs nrs (( b & HB & HT & HF & HS) & Gn & _ & _ & _ & HW) F IH]; [exists []; repeat constructor|].
    destruct IH as (bases & B1 & B2 & B3); [intros; apply G; right; assumption|intros; apply A; right; assumption|].
    assert (Gb : good b) by (destruct HB as [-> | ->]; [|apply flipped_good]; apply G; left; reflexivity).
    exists (b :: bases). split; [|split].
    - constructor; [|exact B1]. split; [exact HB|]. specialize (HW (A r (or_introl eq_refl))). destruct (good_tidied _ _ Gb HT) as (_ & _ & Ao). unfold winds in *. rewrite Ao in HW. exact HW.
    - constructor; assumption.
    - constructor; [split; assumption|exact B3]. }
  destruct X as (bases & B1 & B2 & B3). exists bases. split; [exact B1|].
  assert (Lp : longs (pool nrs)).
  { apply lengthy_long, pool_lengthy. clear -F1. induction F1 as [|r n rs nrs H F IH]; constructor; [apply H|exact IH]. }
  destruct (cycles_good _ _ _ Lp C F2) as (Gc & _).
  exists nrs, cycles, ms. split; [exact B2|]. split; [exact B3|]. split; [exact C|]. split; [|split; [exact Gc|split; [exact P|exact T]]].
  clear -F2. induction F2 as [|c m cycles ms (H1 & H2 & _) F IH]; constructor; [split; assumption|exact IH].
Qed.

Lemma winds_same o a b x y : (a = x \/ a = flipped x) -> (b = y \/ b = flipped y) -> alike x y ->
  winds o (map ne_points a) -> winds o (map ne_points b) -> same_way a b.
Proof.
  intros Ha Hb S Wa Wb.
  assert (HS : alike a b).
  { destruct Ha as [-> | ->], Hb as [-> | ->]; unfold alike in *; rewrite ?flipped_involutive; destruct S as [S|S].
    - auto.
    - auto.
    - right. apply same_way_flipped. exact S.
    - left. apply same_way_flipped in S. rewrite flipped_involutive in S. exact S.
    - auto.
    - auto.
    - left. apply same_way_flipped. exact S.
    - right. apply same_way_flipped in S. rewrite flipped_involutive in S. exact S. }
  destruct HS as [HS|HS]; [exact HS|]. exfalso. apply same_way_area in HS. rewrite flipped_area in HS. destruct o; cbn [winds] in *; lia.
Qed.

(** Sides with the same rings are normalized alike. *)
Lemma sides_same {D} (t1 t2 : topology D) o rs1 rs2 outs1 outs2 :
  side_fact t1 o rs1 outs1 -> side_fact t2 o rs2 outs2 -> same_rings t1 t2 rs1 rs2 ->
  (forall r, In r rs1 -> good (seen_ring t1 r)) -> (forall r, In r rs2 -> good (seen_ring t2 r)) ->
  (forall r, In r rs1 -> Z.abs (shoelaces (map ne_points (seen_ring t1 r))) < 2 ^ 63) ->
  exists outs, Permutation outs2 outs /\ Forall2 same_ring_edges outs1 outs.
Proof.
  intros S1 S2 (rs & P & F) G1 G2 A1.
  assert (A2 : forall r, In r rs2 -> Z.abs (shoelaces (map ne_points (seen_ring t2 r))) < 2 ^ 63).
  { intros r Hr. apply (Permutation_in r P) in Hr. destruct (Forall2_in_r _ _ _ _ F Hr) as (r1 & H1 & [S|S]); apply same_way_area in S; rewrite <- S; rewrite ?flipped_area, ?Z.abs_opp; apply A1; exact H1. }
  destruct (side_loose t1 o rs1 outs1 S1 G1 A1) as (b1 & B1 & L1), (side_loose t2 o rs2 outs2 S2 G2 A2) as (b2 & B2 & L2).
  destruct (Permutation_Forall2 P B2) as (b2' & Pb & B2').
  apply (loose_unique b1 b2' outs1 outs2 L1 (loose_perm _ _ _ Pb L2)).
  eapply Forall2_rel; [|exact B1|exact B2'|exact F]. cbv beta. intros r1 x r2 y _ _ (Hx & Wx) (Hy & Wy) S. eapply winds_same; eassumption.
Qed.

(** ** Shapes *)

Lemma same_ring_points a b : same_ring_edges a b -> same_edges (map ne_points a) (map ne_points b).
Proof. intros [R|(e & f & -> & -> & _ & T)]; [left; apply rotation_map, R|right; exists (ne_points e), (ne_points f); auto]. Qed.

Lemma same_ring_area a b : same_ring_edges a b -> shoelaces (map ne_points a) = shoelaces (map ne_points b).
Proof.
  intros [R|(e & f & -> & -> & _ & T)]; [apply shoelaces_perm, rotation_perm, rotation_map, R|]. cbn [map shoelaces]. rewrite (shoelace_turned _ _ T). reflexivity.
Qed.

Lemma sized_same a b : Forall2 same_ring_edges a b -> Forall2 same_ring_edges (sized a) (sized b).
Proof.
  induction 1 as [|x y a b S F IH]; [constructor|]. unfold sized in *. cbn [filter]. rewrite (same_ring_area x y S). destruct (negb _); [constructor|]; assumption.
Qed.

Lemma read_same outs1 outs2 outs : Permutation outs2 outs -> Forall2 same_ring_edges outs1 outs ->
  same_side (map as_read (sized outs1)) (map as_read (sized outs2)).
Proof.
  intros P F. exists (map as_read (sized outs)). split; [apply Permutation_map, filter_perm, P|].
  apply sized_same in F. induction F as [|x y a b S F IH]; [constructor|]. cbn [map]. constructor; [|exact IH].
  exists (map ne_points x), (map ne_points y). split; [reflexivity|]. split; [reflexivity|]. apply same_ring_points, S.
Qed.

(** A ring is determined by its edges and its start. *)
Lemma start_unique a b : same_ring_edges a b -> starts_smallest (map ne_points a) -> starts_smallest (map ne_points b) ->
  starts_once (as_read a) -> a = b.
Proof.
  intros S (ea & ra & p & Ea & Fa & La1 & La2) (eb & rb & q & Eb & Fb & Lb1 & Lb2) (es & p' & Er & Sp & O).
  assert (es = map ne_points a).
  { unfold as_read in Er. clear -Er. revert Er. generalize (map ne_points a). intros l. revert es. induction l as [|x l IH]; intros [|y es] E; try discriminate; [reflexivity|]. injection E as -> E. f_equal. apply IH. exact E. }
  subst es. rewrite Ea in Sp, O. cbn [ring_start] in Sp. rewrite Fa in Sp. injection Sp as <-.
  destruct S as [(l & r & -> & ->)|(e & f & -> & -> & L & T)].
  - destruct l as [|x l]; [rewrite app_nil_r; reflexivity|]. destruct r as [|y r]; [rewrite app_nil_r; reflexivity|]. exfalso.
    cbn [app map] in Ea, Eb. injection Ea as <- <-. injection Eb as <- <-. rewrite map_app in *. cbn [map] in *.
    assert (p = q).
    { apply le_point_antisym.
      - apply (La1 ltac:(destruct (map ne_points l); discriminate) (ne_points y)); [apply in_map, in_app_iff; right; left; reflexivity|exact Fb].
      - apply (Lb1 ltac:(destruct (map ne_points r); discriminate) (ne_points x)); [apply in_map, in_app_iff; right; left; reflexivity|exact Fa]. }
    subst q. assert (X : In (Some p) (map first (map ne_points l ++ ne_points y :: map ne_points r))) by (rewrite map_app; apply in_app_iff; right; left; exact Fb).
    destruct (map ne_points l ++ ne_points y :: map ne_points r) eqn:El; [destruct (map ne_points l); discriminate|]. apply O. exact X.
  - cbn [map] in Ea, Eb. injection Ea as <- <-. injection Eb as <- <-.
    assert (ne_points e = ne_points f).
    { destruct T as (l & r & Te & Tf). rewrite Te, Tf in *. destruct l as [|x l]; [rewrite app_nil_r; reflexivity|]. destruct r as [|y r]; [rewrite app_nil_r; reflexivity|]. exfalso.
      cbn [app close first hd_error] in Fa, Fb. injection Fa as ->. injection Fb as ->.
      assert (p = q).
      { apply le_point_antisym.
        - apply (La2 eq_refl). cbn [app close]. right. apply in_app_iff. left. apply in_app_iff. right. left. reflexivity.
        - apply (Lb2 eq_refl). cbn [app close]. right. apply in_app_iff. left. apply in_app_iff. right. left. reflexivity. }
      subst q. apply O. cbn [app close tl]. rewrite removelast_last. apply in_app_iff. right. left. reflexivity. }
    destruct e, f. unfold label in L. cbn in *. congruence.
Qed.

Lemma order_unique l1 : forall l2, in_order l1 -> in_order l2 -> Permutation l2 l1 -> NoDup (map ring_start l1) -> l1 = l2.
Proof.
  induction l1 as [|a l1 IH]; intros l2 S1 S2 P N; [apply Permutation_sym, Permutation_nil in P; congruence|].
  destruct l2 as [|b l2]; [apply Permutation_nil in P; discriminate|].
  apply StronglySorted_inv in S1 as [S1 F1], S2 as [S2 F2]. rewrite Forall_forall in F1, F2. inversion N as [|? ? Na N']; subst.
  assert (a = b).
  { assert (Ha : In a (b :: l2)) by (apply (Permutation_in a (Permutation_sym P)); left; reflexivity).
    assert (Hb : In b (a :: l1)) by (apply (Permutation_in b P); left; reflexivity).
    destruct Ha as [Ha|Ha]; [symmetry; exact Ha|]. destruct Hb as [Hb|Hb]; [exact Hb|]. exfalso.
    destruct (F1 b Hb) as (p & q & Ep & Eq & L1), (F2 a Ha) as (q' & p' & Eq' & Ep' & L2). rewrite Ep in Ep'. injection Ep' as <-. rewrite Eq in Eq'. injection Eq' as <-.
    apply Na. rewrite Ep, (le_point_antisym p q L1 L2), <- Eq. apply in_map. exact Hb. }
  subst b. f_equal. apply IH; try assumption. apply (Permutation_cons_inv (a := a)). exact P.
Qed.

Lemma side_unique {D} (t1 t2 : topology D) o rs1 rs2 outs1 outs2 outs : side_fact t1 o rs1 outs1 -> side_fact t2 o rs2 outs2 ->
  Permutation outs2 outs -> Forall2 same_ring_edges outs1 outs -> clear_side (map as_read (sized outs1)) ->
  map as_read (sized outs1) = map as_read (sized outs2).
Proof.
  intros S1 S2 P F (HO & HN).
  assert (E : sized outs1 = sized outs).
  { destruct (side_normal _ _ _ _ S1) as [_ N1]. destruct (side_normal _ _ _ _ S2) as [_ N2]. apply (Permutation_Forall P) in N2.
    assert (M1 : Forall (fun out => starts_smallest (map ne_points out)) (sized outs1)) by (rewrite Forall_forall in *; intros x Hx; apply filter_In in Hx as [Hx _]; apply N1; exact Hx).
    assert (M2 : Forall (fun out => starts_smallest (map ne_points out)) (sized outs)) by (rewrite Forall_forall in *; intros x Hx; apply filter_In in Hx as [Hx _]; apply N2; exact Hx).
    apply sized_same in F. clear -F M1 M2 HO. induction F as [|x y a b S F IH]; [reflexivity|]. inversion M1; inversion M2; subst. cbn [map] in HO. inversion HO; subst. f_equal; [apply start_unique; assumption|apply IH; assumption]. }
  assert (Q : map (map ne_points) (sized outs1) = map (map ne_points) (sized outs2)).
  { apply order_unique.
    - apply in_order_map_filter. destruct S1 as (? & ? & ? & _ & _ & _ & _ & X & _). exact X.
    - apply in_order_map_filter. destruct S2 as (? & ? & ? & _ & _ & _ & _ & X & _). exact X.
    - rewrite E. apply Permutation_map, filter_perm, P.
    - clear -HN. rewrite map_map in *. erewrite map_ext; [exact HN|]. intros [|e r]; reflexivity. }
  unfold as_read. rewrite <- !(map_map (map ne_points) (map Some)). rewrite Q. reflexivity.
Qed.

Section Two.
Context {D : Type} (t1 t2 : topology D) (V1 : valid t1) (V2 : valid t2) (M : same_map t1 t2) (A : small_rings t1).

Lemma parts_same m1 m2 s1 s2 : normalize m1 t1 = Ok s1 -> normalize m2 t2 = Ok s2 ->
  exists parts1 parts2, read_topology s1 = concat parts1 /\ read_topology s2 = concat parts2 /\
    Forall2 (fun part1 part2 => exists d o1 i1 o2 i2 ox ix (rg1 rg2 : topo_region D), part1 = read_back d (sized o1) (sized i1) /\ part2 = read_back d (sized o2) (sized i2) /\
      side_fact t1 Clockwise (tg_outer rg1) o1 /\ side_fact t2 Clockwise (tg_outer rg2) o2 /\ side_fact t1 CounterClockwise (tg_inner rg1) i1 /\ side_fact t2 CounterClockwise (tg_inner rg2) i2 /\
      Permutation o2 ox /\ Forall2 same_ring_edges o1 ox /\ Permutation i2 ix /\ Forall2 same_ring_edges i1 ix) parts1 parts2.
Proof.
  intros H1 H2. destruct (normalize_by_region m1 t1 s1 V1 H1) as (parts1 & E1 & F1), (normalize_by_region m2 t2 s2 V2 H2) as (parts2 & E2 & F2).
  exists parts1, parts2. split; [exact E1|]. split; [exact E2|]. eapply Forall2_rel; [|exact F1|exact F2|exact M]. cbv beta.
  intros g1 p1 g2 p2 Hg1 Hg2 (_ & _ & o1 & i1 & So1 & Si1 & ->) (_ & _ & o2 & i2 & So2 & Si2 & ->) (Ed & Ro & Ri).
  destruct (sides_same t1 t2 Clockwise _ _ o1 o2 So1 So2 Ro) as (ox & Po & Fo).
  { intros r Hr. apply (seen_ring_good t1 g1 r V1 Hg1). apply in_app_iff. auto. }
  { intros r Hr. apply (seen_ring_good t2 g2 r V2 Hg2). apply in_app_iff. auto. }
  { intros r Hr. apply (A g1 r Hg1). apply in_app_iff. auto. }
  destruct (sides_same t1 t2 CounterClockwise _ _ i1 i2 Si1 Si2 Ri) as (ix & Pi & Fi).
  { intros r Hr. apply (seen_ring_good t1 g1 r V1 Hg1). apply in_app_iff. auto. }
  { intros r Hr. apply (seen_ring_good t2 g2 r V2 Hg2). apply in_app_iff. auto. }
  { intros r Hr. apply (A g1 r Hg1). apply in_app_iff. auto. }
  exists (tg_data g1), o1, i1, o2, i2, ox, ix, g1, g2. rewrite <- Ed. repeat (split; [reflexivity || assumption|]). exact Fi.
Qed.

Lemma sized_nil outs1 outs2 outs : Permutation outs2 outs -> Forall2 same_ring_edges outs1 outs -> sized outs1 = [] <-> sized outs2 = [].
Proof.
  intros P F. apply sized_same in F. pose proof (filter_perm (fun r => negb (shoelaces (map ne_points r) mod 2 ^ 64 =? 0)) _ _ P) as Q. fold (sized outs2) (sized outs) in Q.
  split; intros E; rewrite E in *.
  - assert (X : sized outs = []) by (inversion F; reflexivity). rewrite X in Q. apply Permutation_sym, Permutation_nil in Q. exact Q.
  - apply Permutation_nil in Q. rewrite Q in F. inversion F. reflexivity.
Qed.

Lemma normalize_same m1 m2 s1 s2 : normalize m1 t1 = Ok s1 -> normalize m2 t2 = Ok s2 ->
  Forall2 same_shape (read_topology s1) (read_topology s2).
Proof.
  intros H1 H2. destruct (parts_same m1 m2 s1 s2 H1 H2) as (parts1 & parts2 & -> & -> & F). clear H1 H2.
  induction F as [|p1 p2 l1 l2 (d & o1 & i1 & o2 & i2 & ox & ix & g1 & g2 & -> & -> & So1 & So2 & Si1 & Si2 & Po & Fo & Pi & Fi) F IH]; [constructor|].
  cbn [concat]. apply Forall2_app; [|exact IH]. pose proof (sized_nil o1 o2 ox Po Fo) as Z. unfold read_back.
  destruct (sized o1) as [|x a] eqn:E1, (sized o2) as [|y b] eqn:E2; [constructor|exfalso; destruct Z as [Z _]; specialize (Z eq_refl); discriminate|exfalso; destruct Z as [_ Z]; specialize (Z eq_refl); discriminate|].
  constructor; [|constructor]. split; [reflexivity|]. cbn [s_outer s_inner]. split; [rewrite <- E1, <- E2|]; eapply read_same; eassumption.
Qed.

Lemma normalize_canonical m1 m2 s1 s2 : normalize m1 t1 = Ok s1 -> normalize m2 t2 = Ok s2 ->
  Forall clear_shape (read_topology s1) -> s1 = s2.
Proof.
  intros H1 H2 HC. assert (R : read_topology s1 = read_topology s2).
  { destruct (parts_same m1 m2 s1 s2 H1 H2) as (parts1 & parts2 & E1 & E2 & F). rewrite E1 in HC. rewrite E1, E2. clear -F HC.
    induction F as [|p1 p2 l1 l2 (d & o1 & i1 & o2 & i2 & ox & ix & g1 & g2 & -> & -> & So1 & So2 & Si1 & Si2 & Po & Fo & Pi & Fi) F IH]; [reflexivity|].
    cbn [concat] in *. apply Forall_app in HC as [HC1 HC2]. f_equal; [|apply IH; exact HC2]. pose proof (sized_nil o1 o2 ox Po Fo) as Z. unfold read_back in *.
    destruct (sized o1) as [|x a] eqn:E1, (sized o2) as [|y b] eqn:E2; [reflexivity|exfalso; destruct Z as [Z _]; specialize (Z eq_refl); discriminate|exfalso; destruct Z as [_ Z]; specialize (Z eq_refl); discriminate|].
    inversion HC1 as [|? ? [C1 C2] _]; subst. cbn [s_outer s_inner] in C1, C2. assert (C1' : clear_side (map as_read (sized o1))) by (rewrite E1; exact C1). f_equal. f_equal.
    - rewrite <- E1, <- E2. eapply side_unique; eassumption.
    - eapply side_unique; eassumption. }
  apply normalize_Ok in H1 as (gs1 & _ & B1), H2 as (gs2 & _ & B2). eapply same_build; eassumption.
Qed.
End Two.
