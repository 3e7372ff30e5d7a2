(** * NormProofs: normalizing one ring *)
From Verif Require Import GeoProofs TopoProofs BuildProofs.
From Verif Require Export NormSpec.

(** ** Rotations *)

Lemma rotation_refl {A} (l : list A) : rotation l l.
Proof. exists [], l. rewrite app_nil_r. auto. Qed.

Lemma rotation_sym {A} (a b : list A) : rotation a b -> rotation b a.
Proof. intros (l & r & -> & ->). exists r, l. auto. Qed.

Lemma app_split {A} (a b c d : list A) : a ++ b = c ++ d ->
  exists l, (a = c ++ l /\ d = l ++ b) \/ (c = a ++ l /\ b = l ++ d).
Proof.
  revert c. induction a as [|x a IH]; intros c; cbn.
  - intros ->. exists c. right. auto.
  - destruct c as [|y c]; cbn.
    + intros <-. exists (x :: a). left. auto.
    + intros [= -> E]. destruct (IH c E) as (l & [(-> & ->)|(-> & ->)]); exists l; [left|right]; auto.
Qed.

Lemma rotation_trans {A} (a b c : list A) : rotation a b -> rotation b c -> rotation a c.
Proof.
  intros (l & r & -> & ->) (l' & r' & E & ->).
  destruct (app_split _ _ _ _ E) as (k & [(-> & ->)|(-> & ->)]).
  - exists (l ++ l'), k. rewrite !app_assoc. auto.
  - exists k, (r' ++ r). rewrite !app_assoc. auto.
Qed.

Lemma rotation_perm {A} (a b : list A) : rotation a b -> Permutation a b.
Proof. intros (l & r & -> & ->). apply Permutation_app_comm. Qed.

Lemma rotation_map {A B} (f : A -> B) a b : rotation a b -> rotation (map f a) (map f b).
Proof. intros (l & r & -> & ->). exists (map f l), (map f r). rewrite !map_app. auto. Qed.

Lemma rotation_concat {A} (a b : list (list A)) : rotation a b -> rotation (concat a) (concat b).
Proof. intros (l & r & -> & ->). exists (concat l), (concat r). rewrite !concat_app. auto. Qed.

Lemma rotation_rev {A} (a b : list A) : rotation a b -> rotation (rev a) (rev b).
Proof. intros (l & r & -> & ->). exists (rev r), (rev l). rewrite !rev_app_distr. auto. Qed.

Lemma rotation_length {A} (a b : list A) : rotation a b -> length a = length b.
Proof. intros H. apply Permutation_length, rotation_perm, H. Qed.

Lemma rotation_single {A} (a : A) b : rotation [a] b -> b = [a].
Proof. intros H. apply rotation_perm in H. apply Permutation_length_1_inv. assumption. Qed.

Lemma rotation_nil {A} (b : list A) : rotation [] b -> b = [].
Proof. intros H. apply rotation_perm in H. apply Permutation_nil. assumption. Qed.

(** ** Closed paths as cycles *)

Lemma close_inj c c' : close c = close c' -> c = c'.
Proof.
  intros E. assert (H : forall c, removelast (close c) = c).
  { intros [|p t]; [reflexivity|]. cbn [close]. apply removelast_last. }
  rewrite <- (H c), <- (H c'), E. reflexivity.
Qed.

Lemma turned_refl c : turned (close c) (close c).
Proof. exists [], c. rewrite app_nil_r. auto. Qed.

Lemma turned_rotation c c' : rotation c c' -> turned (close c) (close c').
Proof. intros (l & r & -> & ->). exists l, r. auto. Qed.

Lemma turned_inv a b : turned a b -> exists c c', rotation c c' /\ a = close c /\ b = close c'.
Proof. intros (l & r & -> & ->). exists (l ++ r), (r ++ l). split; [exists l, r; auto|auto]. Qed.

Lemma turned_trans a b c : turned a b -> turned b c -> turned a c.
Proof.
  intros H1 H2. apply turned_inv in H1 as (x & y & R1 & -> & ->).
  apply turned_inv in H2 as (x' & y' & R2 & E & ->). apply close_inj in E as <-.
  apply turned_rotation. eapply rotation_trans; eassumption.
Qed.

Lemma turned_sym a b : turned a b -> turned b a.
Proof. intros (l & r & -> & ->). exists r, l. auto. Qed.

Lemma rev_close c : exists c', rev (close c) = close c' /\ rotation (rev c) c'.
Proof.
  destruct c as [|p t].
  - exists []. split; [reflexivity|apply rotation_refl].
  - exists (p :: rev t). split.
    + cbn [close]. rewrite rev_app_distr. reflexivity.
    + cbn [rev]. exists (rev t), [p]. auto.
Qed.

Lemma turned_rev a b : turned a b -> turned (rev a) (rev b).
Proof.
  intros H. apply turned_inv in H as (x & y & R & -> & ->).
  destruct (rev_close x) as (x' & -> & Hx). destruct (rev_close y) as (y' & -> & Hy).
  apply turned_rotation. eapply rotation_trans; [apply rotation_sym; eassumption|].
  eapply rotation_trans; [apply rotation_rev; eassumption|assumption].
Qed.

Lemma same_cycle_turned a b c : same_cycle a b -> turned b c -> same_cycle a c.
Proof. intros [H|H] T; [left|right]; eapply turned_trans; eassumption. Qed.

Lemma shoelace_turned a b : turned a b -> shoelace a = shoelace b.
Proof. intros (l & r & -> & ->). apply shoelace_rotate. Qed.

(** ** Chains of paths *)

Definition long (es : list (list point)) : Prop := Forall (fun e => (2 <= length e)%nat) es.

Lemma chain_app p a b q : chain p (a ++ b) q <-> exists r, chain p a r /\ chain r b q.
Proof.
  revert p. induction a as [|e a IH]; intros p; cbn [app chain].
  - split; [intros H; exists p; auto|intros (r & -> & H); assumption].
  - split.
    + intros (F & r & E & H). apply IH in H as (s & Ha & Hb). exists s. split; [|assumption].
      split; [assumption|]. exists r. auto.
    + intros (s & (F & r & E & Ha) & Hb). split; [assumption|]. exists r. split; [assumption|].
      apply IH. exists s. auto.
Qed.

Lemma chain_end p a q q' : chain p a q -> chain p a q' -> q = q'.
Proof.
  revert p. induction a as [|e a IH]; intros p; cbn [chain].
  - congruence.
  - intros (_ & r & E & H) (_ & r' & E' & H'). assert (r = r') by congruence. subst. eauto.
Qed.

Lemma chain_start p p' a q q' : a <> [] -> chain p a q -> chain p' a q' -> p = p'.
Proof. destruct a; [congruence|]. intros _ (E & _) (E' & _). congruence. Qed.

Lemma closed_chain_rotation a b : rotation a b -> closed_chain a -> closed_chain b.
Proof.
  intros (l & r & -> & ->) (p & H). apply chain_app in H as (q & Hl & Hr). exists q.
  apply chain_app. exists p. auto.
Qed.

Lemma chain_rev p es q : chain p es q -> chain q (map (@rev point) (rev es)) p.
Proof.
  revert p. induction es as [|e t IH]; intros p; cbn [chain rev map].
  - congruence.
  - intros (F & r & E & H). rewrite map_app. apply chain_app. exists r. split; [auto|].
    cbn [map chain]. rewrite first_rev, E. split; [reflexivity|]. exists p. rewrite final_rev. auto.
Qed.

Lemma chain_connected p es q : chain p es q -> connected es.
Proof.
  revert p. induction es as [|e t IH]; intros p; cbn [chain connected]; [trivial|].
  intros (F & r & E & H). assert (Ne : e <> []) by (intros ->; discriminate).
  destruct t as [|f t]; [assumption|]. split; [assumption|]. split; [|eauto].
  destruct H as (F' & _). congruence.
Qed.

Lemma final_removelast e q : final e = Some q -> e = removelast e ++ [q].
Proof. intros H. apply final_some in H as (l & ->). rewrite removelast_last. reflexivity. Qed.

(** A chain's path, without its last point. *)
Lemma glue_chain p es q : es <> [] -> chain p es q ->
  glue es = concat (map (@removelast point) es) ++ [q].
Proof.
  revert p. induction es as [|e t IH]; intros p Ne H; [congruence|].
  destruct H as (F & r & E & H). destruct t as [|f t].
  - cbn in H. subst. cbn. rewrite app_nil_r, app_nil_r. apply final_removelast. assumption.
  - pose proof (IH r ltac:(discriminate) H) as Hg. rewrite glue_cons.
    2:{ apply (chain_connected p _ q). cbn [chain]. split; [assumption|]. exists r. auto. }
    rewrite Hg. rewrite (final_removelast e r E) at 1. cbn [map concat]. rewrite <- !app_assoc.
    f_equal. destruct H as (F' & _). cbn [map concat] in Hg |- *. rewrite <- !app_assoc in *.
    assert (Hh : first (glue (f :: t)) = Some r).
    { cbn [glue]. destruct f; [discriminate|]. exact F'. }
    rewrite Hg in Hh. destruct (removelast f ++ concat (map (removelast (A:=point)) t) ++ [q]);
      [discriminate|]. cbn in Hh. injection Hh as ->. reflexivity.
Qed.

Lemma glue_first p es q : es <> [] -> chain p es q -> first (glue es) = Some p.
Proof.
  destruct es as [|e t]; [congruence|]. intros _ (F & _). cbn [glue]. destruct e; [discriminate|]. exact F.
Qed.

Lemma glue_final p es q : es <> [] -> chain p es q -> final (glue es) = Some q.
Proof. intros Ne H. rewrite (glue_chain p es q Ne H). apply final_app. Qed.

Lemma glue_tl p es q : es <> [] -> chain p es q -> glue es = p :: concat (map (@tl point) es).
Proof.
  destruct es as [|e t]; [congruence|]. intros _ (F & _). cbn [glue map concat].
  destruct e as [|x e]; [discriminate|]. injection F as ->. reflexivity.
Qed.

Lemma concat_removelast_first p es q : es <> [] -> long es -> chain p es q ->
  first (concat (map (@removelast point) es)) = Some p.
Proof.
  destruct es as [|e t]; [congruence|]. intros _ HL (F & _). inversion HL; subst.
  destruct e as [|x [|y e]]; cbn in *; try lia. assumption.
Qed.

Lemma glue_closed p es : es <> [] -> long es -> chain p es p ->
  glue es = close (concat (map (@removelast point) es)).
Proof.
  intros Ne HL H. rewrite (glue_chain p es p Ne H).
  pose proof (concat_removelast_first p es p Ne HL H) as F.
  destruct (concat (map (removelast (A:=point)) es)) as [|x c]; [discriminate|].
  injection F as ->. reflexivity.
Qed.

Lemma glue_turned a b : long a -> closed_chain a -> rotation a b -> turned (glue a) (glue b).
Proof.
  intros HL HC R. pose proof (closed_chain_rotation a b R HC) as (q & Hq). destruct HC as (p & Hp).
  destruct a as [|e a].
  - apply rotation_nil in R as ->. exists [], []. auto.
  - assert (Nb : b <> []) by (intros ->; apply rotation_length in R; discriminate).
    assert (HL' : long b). { eapply Permutation_Forall; [apply rotation_perm, R|exact HL]. }
    rewrite (glue_closed p) by (assumption || discriminate). rewrite (glue_closed q b) by assumption.
    apply turned_rotation, rotation_concat, rotation_map. assumption.
Qed.

Lemma rev_concat {A} (l : list (list A)) : rev (concat l) = concat (map (@rev A) (rev l)).
Proof.
  induction l as [|a l IH]; [reflexivity|]. cbn [concat rev]. rewrite rev_app_distr, IH, map_app, concat_app.
  cbn. rewrite app_nil_r. reflexivity.
Qed.

Lemma removelast_rev {A} (l : list A) : removelast (rev l) = rev (tl l).
Proof. destruct l; [reflexivity|]. cbn [rev tl]. apply removelast_last. Qed.

Lemma glue_rev p es q : es <> [] -> chain p es q -> glue (map (@rev point) (rev es)) = rev (glue es).
Proof.
  intros Ne H. rewrite (glue_chain q _ p); [|destruct es; [congruence|]|apply chain_rev; assumption].
  2:{ cbn [rev]. rewrite map_app. intros E. apply app_eq_nil in E as (_ & E). discriminate. }
  rewrite (glue_tl p es q Ne H). cbn [rev]. f_equal. rewrite rev_concat, <- map_rev, !map_map. f_equal.
  apply map_ext. intros l. apply removelast_rev.
Qed.

Lemma shoelace_walk p es q : chain p es q -> shoelace (glue es) = shoelaces es.
Proof. intros H. apply shoelace_glue. eapply chain_connected; eassumption. Qed.

Lemma shoelaces_app a b : shoelaces (a ++ b) = shoelaces a + shoelaces b.
Proof. induction a; cbn [app shoelaces]; [reflexivity|]. lia. Qed.

Lemma shoelaces_perm a b : Permutation a b -> shoelaces a = shoelaces b.
Proof. induction 1; cbn [shoelaces]; lia. Qed.

Lemma shoelaces_rev a : shoelaces (map (@rev point) a) = - shoelaces a.
Proof. induction a; cbn [map shoelaces]; [reflexivity|]. rewrite shoelace_rev. lia. Qed.

(** ** Labels *)

Lemma opt_nat_eqb_spec a b : reflect (a = b) (opt_nat_eqb a b).
Proof.
  destruct a as [a|], b as [b|]; cbn; try (constructor; congruence).
  destruct (Nat.eqb_spec a b); constructor; congruence.
Qed.

Lemma same_regions_spec a b : reflect (label a = label b) (same_regions a b).
Proof.
  unfold same_regions, label. destruct (opt_nat_eqb_spec (ne_reg0 a) (ne_reg0 b));
    destruct (opt_nat_eqb_spec (ne_reg1 a) (ne_reg1 b)); cbn; constructor; congruence.
Qed.

Lemma is_redundant_spec e : reflect (redundant e) (is_redundant e).
Proof. apply opt_nat_eqb_spec. Qed.

Lemma label_redundant a b : label a = label b -> redundant a -> redundant b.
Proof. unfold label, redundant. intros [= H1 H2]. congruence. Qed.

(** ** Joining edges *)

Definition nonempty_pts (es : list norm_edge) : Prop := Forall (fun e => ne_points e <> []) es.

Lemma joins_single e : joins [e] e.
Proof.
  split; [discriminate|]. split; [repeat constructor|]. unfold walk. cbn. rewrite app_nil_r. reflexivity.
Qed.

Lemma glue_app_tl a b : a <> [] -> glue (a ++ b) = glue a ++ concat (map (@tl point) b).
Proof. destruct a; [congruence|]. intros _. cbn [app glue]. rewrite map_app, concat_app, app_assoc. reflexivity. Qed.

Lemma tl_glue es : es <> [] -> Forall (fun e => e <> []) es -> tl (glue es) = concat (map (@tl point) es).
Proof.
  destruct es as [|e t]; [congruence|]. intros _ H. inversion H; subst. destruct e as [|x e]; [congruence|].
  reflexivity.
Qed.

Lemma walk_app a b : a <> [] -> b <> [] -> nonempty_pts b -> walk (a ++ b) = walk a ++ tl (walk b).
Proof.
  intros Ha Hb Hn. unfold walk. rewrite map_app, glue_app_tl by (destruct a; [congruence|discriminate]).
  rewrite tl_glue; [reflexivity|destruct b; [congruence|discriminate]|]. apply Forall_map. exact Hn.
Qed.

(** Edges differ from their neighbours, not going around. *)
Fixpoint differ (es : list norm_edge) : Prop :=
  match es with
  | x :: ((y :: _) as t) => label x <> label y /\ differ t
  | _ => True
  end.

Lemma tail_points_ok e : ne_points e <> [] -> tail_points e = Ok (tl (ne_points e)).
Proof. unfold tail_points. destruct (ne_points e); [congruence|reflexivity]. Qed.

Lemma joins_nonempty run e : nonempty_pts run -> joins run e -> ne_points e <> [].
Proof.
  intros Hn (Ne & _ & ->). destruct run as [|x run]; [congruence|]. inversion Hn; subst.
  unfold walk. cbn [map glue]. intros E. apply app_eq_nil in E as (E & _). congruence.
Qed.

Lemma join_step_ok rruns rret e : ne_points e <> [] -> Forall2 joins rruns rret -> differ rret ->
  exists rruns' rret', join_step rret e = Ok rret' /\ Forall2 joins rruns' rret' /\ differ rret' /\
    concat (rev rruns') = concat (rev rruns) ++ [e].
Proof.
  intros Hn HF HD. destruct rret as [|last before]; cbn [join_step].
  - inversion HF; subst. exists [[e]], [e]. split; [reflexivity|]. split; [repeat constructor; apply joins_single|].
    split; [exact I|]. reflexivity.
  - inversion HF as [|run last' rr bb Hj HF']; subst. destruct (same_regions_spec last e) as [E|E].
    + rewrite tail_points_ok by assumption. cbn [bind].
      exists ((run ++ [e]) :: rr), (NE (ne_points last ++ tl (ne_points e)) (ne_reg0 last) (ne_reg1 last) :: before).
      split; [reflexivity|]. split; [|split].
      * constructor; [|assumption]. destruct Hj as (Ne & Hl & Hp). split; [destruct run; discriminate|].
        split.
        -- apply Forall_app. split; [exact Hl|]. repeat constructor. symmetry. exact E.
        -- cbn [ne_points]. rewrite walk_app; [|assumption|discriminate|repeat constructor; assumption].
           rewrite Hp. unfold walk at 3. cbn. rewrite app_nil_r. reflexivity.
      * destruct before; [exact I|]. exact HD.
      * cbn [rev]. rewrite !concat_app. cbn. rewrite !app_nil_r, app_assoc. reflexivity.
    + exists ([e] :: run :: rr), (e :: last :: before). split; [reflexivity|]. split; [|split].
      * constructor; [apply joins_single|]. constructor; assumption.
      * split; [congruence|exact HD].
      * cbn [rev]. rewrite !concat_app. cbn. rewrite !app_nil_r. reflexivity.
Qed.

Lemma join_loop_ok es : forall rruns rret, nonempty_pts es -> Forall2 joins rruns rret -> differ rret ->
  exists rruns' rret', mfold join_step es rret = Ok rret' /\ Forall2 joins rruns' rret' /\ differ rret' /\
    concat (rev rruns') = concat (rev rruns) ++ es.
Proof.
  induction es as [|e es IH]; intros rruns rret Hn HF HD; cbn [mfold].
  - exists rruns, rret. rewrite app_nil_r. auto.
  - inversion Hn; subst. destruct (join_step_ok rruns rret e) as (rr & r & -> & HF' & HD' & E); try assumption.
    cbn [bind]. destruct (IH rr r) as (rr' & r' & -> & HF'' & HD'' & E'); try assumption.
    exists rr', r'. repeat split; try assumption. rewrite E', E, <- app_assoc. reflexivity.
Qed.

Lemma differ_snoc l x y : differ (l ++ [x; y]) <-> differ (l ++ [x]) /\ label x <> label y.
Proof.
  induction l as [|a [|b l] IH]; cbn [app differ] in *; tauto.
Qed.

Lemma differ_rev l : differ (rev l) <-> differ l.
Proof.
  induction l as [|x [|y l] IH]; [tauto|tauto|].
  cbn [rev] in *. rewrite <- app_assoc. cbn [app]. rewrite differ_snoc, IH. cbn [differ].
  split; intros (H1 & H2); split; congruence || assumption.
Qed.

Lemma Forall2_rev' {A B} (P : A -> B -> Prop) l l' : Forall2 P l l' -> Forall2 P (rev l) (rev l').
Proof. induction 1; cbn; [constructor|]. apply Forall2_app; [assumption|repeat constructor; assumption]. Qed.

Lemma differ_mid a x y b : differ (a ++ x :: y :: b) -> label x <> label y.
Proof.
  induction a as [|z a IH]; cbn [app differ].
  - tauto.
  - destruct a; cbn [app]; [intros (_ & H); apply IH; exact H|intros (_ & H); apply IH; exact H].
Qed.

Lemma differ_fewest es :
  differ es -> (forall x mid y, es = x :: mid ++ [y] -> label x <> label y) -> fewest es.
Proof.
  intros HD HW x y rest (l & r & -> & E). destruct r as [|a r].
  - cbn in E. subst. rewrite app_nil_r in HD. apply (differ_mid [] x y rest). exact HD.
  - destruct r as [|b r].
    + cbn in E. injection E as E1 E2. intros L. apply (HW y rest a); [rewrite <- E2; reflexivity|congruence].
    + cbn in E. injection E as E1 E2 E3. rewrite E1, E2. apply (differ_mid l a b r). assumption.
Qed.

Lemma fewest_differ es : fewest es -> differ es.
Proof.
  intros H. assert (G : forall l r, es = l ++ r -> differ r).
  { intros l r. revert l. induction r as [|x [|y r] IH]; intros l E; cbn [differ]; trivial. split.
    - apply (H x y (r ++ l)). exists l, (x :: y :: r). auto.
    - apply (IH (l ++ [x])). rewrite <- app_assoc. exact E. }
  apply (G []). reflexivity.
Qed.

Lemma fewest_rotation a b : rotation a b -> fewest a -> fewest b.
Proof. intros R H x y rest R'. apply (H x y rest). eapply rotation_trans; eassumption. Qed.

Lemma fewest_single e : fewest [e].
Proof. intros x y rest R. apply rotation_length in R. discriminate. Qed.

Lemma join_related_ok es : nonempty_pts es ->
  exists out, join_related_edges es = Ok out /\ joined es out /\ fewest out.
Proof.
  intros Hn. unfold join_related_edges.
  destruct (join_loop_ok es [] []) as (rr & r & -> & HF & HD & E); [assumption|constructor|exact I|].
  cbn [bind]. cbn in E. apply Forall2_rev' in HF. apply differ_rev in HD.
  set (runs := rev rr) in *. set (ret := rev r) in *. clearbody runs ret. clear rr r.
  assert (Hns : Forall nonempty_pts runs).
  { rewrite <- E in Hn. clear -Hn. induction runs; constructor; apply Forall_app in Hn as (? & ?); auto. }
  unfold join_wrap. destruct ret as [|first mid].
  { exists []. split; [reflexivity|]. split; [exists runs; split; [rewrite E; apply rotation_refl|assumption]|].
    intros x y rest R. apply rotation_nil in R. discriminate. }
  destruct (rev (first :: mid)) as [|last [|z zs]] eqn:Er.
  - exists (first :: mid). cbn in Er. apply app_eq_nil in Er as (_ & Er). discriminate.
  - exists (first :: mid). assert (mid = []).
    { assert (L : length (rev (first :: mid)) = 1%nat) by (rewrite Er; reflexivity).
      rewrite rev_length in L. destruct mid; [reflexivity|discriminate]. }
    subst mid. split; [reflexivity|]. split; [|apply fewest_single].
    exists runs. split; [rewrite E; apply rotation_refl|assumption].
  - assert (Em : exists mid', mid = mid' ++ [last]).
    { cbn [rev] in Er. destruct (rev mid) as [|w ws] eqn:Ew.
      - cbn in Er. discriminate.
      - cbn in Er. injection Er as -> _. exists (rev ws). rewrite <- (rev_involutive mid), Ew. reflexivity. }
    destruct Em as (mid' & ->). clear Er.
    inversion HF as [|rf f rs ms Hf HF']; subst. apply Forall2_app_inv_r in HF' as (rm & rl & Hm & Hl & ->).
    inversion Hl as [|rl' l' x y Hjl Hx]; subst. inversion Hx; subst. rename rl' into rlast.
    rewrite Forall_cons_iff in Hns. destruct Hns as (Nf & Ns). apply Forall_app in Ns as (Nm & Nl).
    inversion Nl as [|? ? Nlast _]; subst.
    destruct (same_regions_spec first last) as [L|L].
    + rewrite tail_points_ok by (apply (joins_nonempty rf); assumption). cbn [bind]. rewrite removelast_last.
      eexists. split; [reflexivity|]. split.
      * exists ((rlast ++ rf) :: rm). split.
        -- exists (concat (rf :: rm)), rlast. split.
           ++ cbn [concat]. rewrite concat_app. cbn [concat]. rewrite app_nil_r, app_assoc. reflexivity.
           ++ cbn [concat]. rewrite app_assoc. reflexivity.
        -- constructor; [|assumption]. destruct Hjl as (Nel & Ll & Pl). destruct Hf as (Nef & Lf & Pf).
           split; [destruct rlast; [congruence|discriminate]|]. split.
           ++ apply Forall_app. split; [|exact Lf]. eapply Forall_impl; [|exact Ll].
              intros a Ha. cbv beta in Ha. rewrite Ha, <- L. reflexivity.
           ++ cbn [ne_points]. rewrite walk_app, Pl, Pf by assumption. reflexivity.
      * apply differ_fewest.
        -- destruct mid' as [|m1 mid']; [exact I|]. cbn [app differ] in HD |- *. destruct HD as (H1 & H2).
           split; [exact H1|]. clear -H2. revert m1 H2. induction mid' as [|m2 mid' IH]; intros m1; cbn [app differ]; [trivial|].
           intros (H1 & H2). split; [assumption|]. apply IH. exact H2.
        -- intros x mid y [= <- ->]. unfold label at 1. cbn [ne_reg0 ne_reg1].
           rewrite <- app_assoc in HD. cbn [app] in HD.
           apply (differ_mid (first :: mid) y last []) in HD. unfold label in *. congruence.
    + exists (first :: mid' ++ [last]). split; [reflexivity|]. split.
      * eexists. split; [apply rotation_refl|]. constructor; [assumption|]. apply Forall2_app; assumption.
      * apply differ_fewest; [assumption|]. intros x mid y [= <- E]. apply app_inj_tail in E as (_ & <-).
        exact L.
Qed.
