(** * BuildProofs: lemmas about TopologyBuilder *)
From Coq Require Import Permutation.
From Verif Require Import TopoSpec GeoProofs TopoProofs.

(** ** Canonical form of a path *)
Lemma nth_error_last {A} (a : A) l : nth_error (a :: l) (length (a :: l) - 1) = Some (last (a :: l) a).
Proof.
  cbn [length]. replace (S (length l) - 1)%nat with (length l) by lia.
  revert a. induction l as [|b l IH]; intros a; [reflexivity|].
  cbn [length nth_error]. rewrite IH. f_equal.
  change (last (a :: b :: l) a) with (last (b :: l) a).
  clear IH. revert b. induction l as [|c l IH]; intros b; [reflexivity|].
  change (last (b :: c :: l) b) with (last (c :: l) b). change (last (b :: c :: l) a) with (last (c :: l) a).
  clear IH. revert c. induction l as [|d l IH]; intros c; [reflexivity|]. apply IH.
Qed.

Lemma last_default {A} (l : list A) a b : l <> [] -> last l a = last l b.
Proof. induction l as [|x [|y l] IH]; intros H; [contradiction|reflexivity|]. apply IH. discriminate. Qed.

Lemma final_last p l : final (p :: l) = Some (last (p :: l) p).
Proof.
  revert p. induction l as [|q l IH]; intros p; [reflexivity|].
  rewrite final_cons, IH. change (last (p :: q :: l) p) with (last (q :: l) p).
  f_equal. apply last_default. discriminate.
Qed.

Definition direction_of (ps : list point) : direction :=
  match ps with
  | [] => Forward
  | p :: _ =>
      let q := last ps p in
      if (px p <? px q) || ((px p =? px q) && (py p <? py q)) then Forward
      else if (px p =? px q) && (py p =? py q) && (0 <=? i64_of (shoelace ps)) then Forward
      else Backward
  end.

Lemma stored_form_oriented ps : oriented (stored_form ps) (direction_of ps) = ps.
Proof.
  destruct ps as [|p l]; [reflexivity|]. unfold stored_form, direction_of. cbv zeta.
  destruct (_ || _); [reflexivity|]. destruct (_ && _); [reflexivity|]. apply rev_involutive.
Qed.

Lemma winding_eqb_cw a : winding_eqb (winding_of a) Clockwise = (0 <=? a).
Proof. unfold winding_of. destruct (0 <=? a); reflexivity. Qed.

Lemma canonical_ok m ps x : canonical m ps = Ok x -> x = (stored_form ps, direction_of ps).
Proof.
  unfold canonical. destruct ps as [|p l]; [discriminate|].
  unfold get, get_or. rewrite nth_error_last. cbn [nth_error bind].
  unfold stored_form, direction_of. cbv zeta. set (q := last (p :: l) p).
  unfold pt_ltb, pt_eqb.
  destruct ((px p <? px q) || ((px p =? px q) && (py p <? py q))); cbn [bind]; [congruence|].
  destruct ((px p =? px q) && (py p =? py q)); cbn [andb].
  - unfold ring_winding_order.
    destruct (ring_area2_and_winding m (RPoints (p :: l))) as [y|] eqn:E; [|discriminate].
    apply ring_aw_ok in E. subst y. cbn [bind snd ring_area]. rewrite winding_eqb_cw.
    change (wrap_i64 ?z) with (i64_of z).
    destruct (0 <=? i64_of (shoelace (p :: l))); congruence.
  - cbn [bind]. congruence.
Qed.

Lemma canonical_release ps : ps <> [] -> canonical Release ps = Ok (stored_form ps, direction_of ps).
Proof.
  intros H. destruct (canonical Release ps) as [x|pn] eqn:E; [apply canonical_ok in E; congruence|].
  exfalso. revert E. unfold canonical. destruct ps as [|p l]; [contradiction|].
  unfold get, get_or. rewrite nth_error_last. cbn [nth_error bind].
  unfold ring_winding_order. rewrite ring_aw_release. cbn [bind].
  destruct (pt_ltb _ _); [discriminate|]. destruct (pt_eqb _ _); discriminate.
Qed.

Lemma canonical_panic m ps pn : ps <> [] -> canonical m ps = Panic pn -> m = Debug /\ pn = POverflow.
Proof.
  intros H E. destruct m; [|rewrite canonical_release in E by assumption; discriminate]. split; [reflexivity|].
  revert E. unfold canonical. destruct ps as [|p l]; [contradiction|].
  unfold get, get_or. rewrite nth_error_last. cbn [nth_error bind].
  destruct (pt_ltb _ _); [discriminate|]. destruct (pt_eqb _ _); [|discriminate].
  unfold ring_winding_order. destruct (ring_aw_debug (RPoints (p :: l))) as [[_ ->]|[_ ->]]; cbn; congruence.
Qed.

Lemma zero_length_spec ps : zero_length ps = negb (has_length ps).
Proof.
  destruct ps as [|a [|b [|c t]]]; try reflexivity. unfold zero_length. cbn. rewrite negb_involutive. reflexivity.
Qed.

(** ** The edge map *)
Definition keys (em : edge_map) : list (list point) := map fst em.
Definition em_ok (em : edge_map) : Prop :=
  map snd em = seq 0 (length em) /\ NoDup (keys em) /\
  Forall (fun k => exists p, has_length p = true /\ k = stored_form p) (keys em).

Lemma em_find_Some_from em k i s : map snd em = seq s (length em) -> em_find em k = Some i ->
  (s <= i)%nat /\ nth_error (keys em) (i - s) = Some k.
Proof.
  revert s. induction em as [|[k' v] em IH]; intros s Hs; [discriminate|].
  cbn in Hs. injection Hs as -> Hs. cbn [em_find].
  destruct (pts_eqb_spec k' k) as [->|].
  - intros [= <-]. rewrite Nat.sub_diag. split; [lia|reflexivity].
  - intros H. destruct (IH (S s) Hs H) as [H1 H2]. split; [lia|].
    replace (i - s)%nat with (S (i - S s)) by lia. exact H2.
Qed.
Lemma em_find_Some em k i : em_ok em -> em_find em k = Some i -> nth_error (keys em) i = Some k.
Proof. intros (H & _) E. apply (em_find_Some_from _ _ _ 0) in E; [|assumption]. rewrite Nat.sub_0_r in E. tauto. Qed.
Lemma em_find_None em k : em_find em k = None -> ~ In k (keys em).
Proof.
  induction em as [|[k' v] em IH]; cbn; [tauto|].
  destruct (pts_eqb_spec k' k); [discriminate|]. intros H [|]; [contradiction|]. apply IH; assumption.
Qed.
Lemma keys_length em : length (keys em) = length em.
Proof. apply map_length. Qed.

Lemma NoDup_snoc {A} (l : list A) a : NoDup l -> ~ In a l -> NoDup (l ++ [a]).
Proof.
  intros H Ha. apply (Permutation_NoDup (Permutation_cons_append l a)). constructor; assumption.
Qed.

Lemma em_ok_snoc em p : em_ok em -> has_length p = true -> ~ In (stored_form p) (keys em) ->
  em_ok (em ++ [(stored_form p, length em)]).
Proof.
  intros (H1 & H2 & H3) Hp Hn. unfold em_ok, keys in *. rewrite !map_app, app_length. cbn [map length fst snd].
  split; [|split].
  - rewrite H1, Nat.add_comm. cbn [Nat.add]. rewrite seq_S. reflexivity.
  - apply NoDup_snoc; assumption.
  - apply Forall_app. split; [assumption|]. constructor; [|constructor]. eauto.
Qed.

(** [d] refers to a stored edge that reads back as [p]. *)
Definition matches (em : edge_map) (d : directed_edge) (p : list point) : Prop :=
  nth_error (keys em) (de_edge d) = Some (stored_form p) /\ de_dir d = direction_of p.

Definition extends (em em' : edge_map) : Prop := exists x, em' = em ++ x.
Lemma extends_refl em : extends em em.
Proof. exists []. symmetry. apply app_nil_r. Qed.
Lemma extends_trans a b c : extends a b -> extends b c -> extends a c.
Proof. intros [x ->] [y ->]. exists (x ++ y). symmetry. apply app_assoc. Qed.
Lemma extends_length a b : extends a b -> (length a <= length b)%nat.
Proof. intros [x ->]. rewrite app_length. lia. Qed.
Lemma matches_extends em em' d p : extends em em' -> matches em d p -> matches em' d p.
Proof.
  intros [x ->] [H1 H2]. split; [|assumption]. unfold keys in *. rewrite map_app.
  rewrite nth_error_app1; [assumption|]. apply nth_error_Some. congruence.
Qed.

(** ids in [length em, length em') are used *)
Definition covers (em em' : edge_map) (ds : list directed_edge) : Prop :=
  forall i, (length em <= i < length em')%nat -> In i (map de_edge ds).

Lemma covers_app a b c l l' : covers a b l -> covers b c l' -> covers a c (l ++ l').
Proof.
  intros H H' i Hi. rewrite map_app, in_app_iff.
  destruct (Nat.lt_ge_cases i (length b)); [left; apply H; lia|right; apply H'; lia].
Qed.

Lemma build_directed_edge_ok m em ps o em' : em_ok em ->
  build_directed_edge m em ps = Ok (o, em') ->
  em_ok em' /\ extends em em' /\
  match o with
  | None => has_length ps = false /\ em' = em
  | Some d => has_length ps = true /\ matches em' d ps /\ covers em em' [d]
  end.
Proof.
  intros Hem. unfold build_directed_edge. rewrite zero_length_spec.
  destruct (has_length ps) eqn:Hl; cbn [negb].
  2:{ intros [= <- <-]. auto using extends_refl. }
  destruct (canonical m ps) as [x|] eqn:E; [|discriminate]. apply canonical_ok in E. subst x. cbn [bind].
  destruct (em_find em (stored_form ps)) as [id|] eqn:Ef.
  - intros [= <- <-]. split; [assumption|]. split; [apply extends_refl|]. split; [reflexivity|].
    split; [|intros i Hi; lia]. split; [|reflexivity]. apply em_find_Some; assumption.
  - intros [= <- <-]. apply em_find_None in Ef. split; [apply em_ok_snoc; assumption|].
    split; [eexists; reflexivity|]. split; [reflexivity|]. split.
    + split; [|reflexivity]. unfold keys. rewrite map_app. cbn [de_edge].
      rewrite nth_error_app2 by (rewrite map_length; lia). rewrite map_length, Nat.sub_diag. reflexivity.
    + intros i Hi. rewrite app_length in Hi. cbn in *. left. lia.
Qed.

Lemma build_directed_edge_panic m em ps pn : build_directed_edge m em ps = Panic pn -> m = Debug /\ pn = POverflow.
Proof.
  unfold build_directed_edge. rewrite zero_length_spec. destruct (has_length ps) eqn:Hl; cbn [negb]; [|discriminate].
  destruct (canonical m ps) as [[k d]|q] eqn:E; cbn [bind].
  - destruct (em_find em k); discriminate.
  - intros [= ->]. apply (canonical_panic m ps); [|assumption]. destruct ps; discriminate.
Qed.

(** ** Rings *)
Lemma build_des_gen m es acc em des em' : em_ok em ->
  mfold (fun st e =>
           '(o, em') <- build_directed_edge m (snd st) e ;;
           Ok (match o with Some d => fst st ++ [d] | None => fst st end, em')) es (acc, em) = Ok (des, em') ->
  em_ok em' /\ extends em em' /\
  exists ds, des = acc ++ ds /\ Forall2 (matches em') ds (filter has_length es) /\ covers em em' ds.
Proof.
  revert acc em. induction es as [|e es IH]; intros acc em Hem; cbn [mfold].
  - intros [= <- <-]. split; [assumption|]. split; [apply extends_refl|]. exists [].
    split; [symmetry; apply app_nil_r|]. split; [constructor|]. intros i Hi. lia.
  - cbn [fst snd]. destruct (build_directed_edge m em e) as [[o em1]|] eqn:E; [|discriminate]. cbn [bind].
    apply build_directed_edge_ok in E as (Hok1 & Hext1 & Ho); [|assumption].
    intros H. apply IH in H as (Hok' & Hext' & ds & -> & HF & Hc); [|assumption].
    split; [assumption|]. split; [eapply extends_trans; eassumption|].
    cbn [filter]. destruct o as [d|].
    + destruct Ho as (Hl & Hm & Hcd). rewrite Hl. exists (d :: ds). split; [rewrite <- app_assoc; reflexivity|].
      split; [constructor; [eapply matches_extends; eassumption|assumption]|].
      change (d :: ds) with ([d] ++ ds). eapply covers_app; eassumption.
    + destruct Ho as (Hl & ->). rewrite Hl. exists ds. auto.
Qed.

Lemma build_des_ok m em es des em' : em_ok em -> build_des m em es = Ok (des, em') ->
  em_ok em' /\ extends em em' /\ Forall2 (matches em') des (filter has_length es) /\ covers em em' des.
Proof.
  intros Hem H. apply build_des_gen in H as (H1 & H2 & ds & -> & H3); [|assumption]. cbn [app]. tauto.
Qed.

Lemma build_des_panic m em es pn : build_des m em es = Panic pn -> m = Debug /\ pn = POverflow.
Proof.
  unfold build_des. generalize ([] : list directed_edge, em). induction es as [|e es IH]; intros st; [discriminate|].
  cbn [mfold]. destruct (build_directed_edge m (snd st) e) as [[o em1]|q] eqn:E; cbn [bind].
  - apply IH.
  - intros [= ->]. apply build_directed_edge_panic in E. assumption.
Qed.

Lemma ring_edges_paths r : ring_edges r = paths r.
Proof. destruct r; [apply segments_pairs|reflexivity]. Qed.

Lemma wrap_zero z : wrap_i64 z = 0 <-> z mod 2 ^ 64 = 0.
Proof.
  destruct (wrap_congr z) as [k Hk]. split; intros H.
  - rewrite H in Hk. replace z with ((- k) * 2 ^ 64) by lia. apply Z.mod_mul. lia.
  - apply Z.mod_divide in H; [|lia]. destruct H as [j Hj]. symmetry. apply (wrap_unique 0 z (- j)); [apply fits_0|]. lia.
Qed.

Lemma ring_area2_has_area m r a : ring_area2 m r = Ok a -> has_area r = negb (a =? 0).
Proof.
  unfold ring_area2. destruct (ring_area2_and_winding m r) as [x|] eqn:E; [|discriminate].
  apply ring_aw_ok in E. subst x. cbn [bind fst]. intros [= <-]. unfold has_area. f_equal.
  pose proof (wrap_zero (ring_area r)). destruct (Z.eqb_spec (ring_area r mod 2 ^ 64) 0), (Z.eqb_spec (Z.abs (wrap_i64 (ring_area r))) 0); lia.
Qed.

Lemma ring_area2_panic m r pn : ring_area2 m r = Panic pn -> m = Debug /\ pn = POverflow.
Proof.
  unfold ring_area2. destruct m.
  - destruct (ring_aw_debug r) as [[_ ->]|[_ ->]]; cbn; [discriminate|]. intros [= <-]. auto.
  - rewrite ring_aw_release. discriminate.
Qed.

Definition ring_matches (em : edge_map) (br : build_ring) (r : ring) : Prop :=
  Forall2 (matches em) br (filter has_length (paths r)).

Lemma Forall2_impl' {A B} (P Q : A -> B -> Prop) l l' : (forall a b, P a b -> Q a b) -> Forall2 P l l' -> Forall2 Q l l'.
Proof. intros H F. induction F; constructor; auto. Qed.

Lemma ring_matches_extends em em' br r : extends em em' -> ring_matches em br r -> ring_matches em' br r.
Proof. intros H. apply Forall2_impl'. intros. eapply matches_extends; eassumption. Qed.

Lemma build_ring_of_ok m em r o em' : em_ok em -> build_ring_of m em r = Ok (o, em') ->
  em_ok em' /\ extends em em' /\
  match o with
  | None => has_area r = false /\ em' = em
  | Some br => has_area r = true /\ ring_matches em' br r /\ covers em em' br
  end.
Proof.
  intros Hem. unfold build_ring_of. destruct (ring_area2 m r) as [a|] eqn:Ea; [|discriminate]. cbn [bind].
  apply ring_area2_has_area in Ea. rewrite Ea. destruct (a =? 0); cbn [negb].
  - intros [= <- <-]. auto using extends_refl.
  - destruct (build_des m em (ring_edges r)) as [[des em1]|] eqn:E; [|discriminate]. cbn [bind].
    apply build_des_ok in E as (H1 & H2 & H3 & H4); [|assumption]. intros [= <- <-].
    rewrite ring_edges_paths in H3. auto.
Qed.

Lemma build_ring_of_panic m em r pn : build_ring_of m em r = Panic pn -> m = Debug /\ pn = POverflow.
Proof.
  unfold build_ring_of. destruct (ring_area2 m r) as [a|q] eqn:Ea; cbn [bind].
  - destruct (a =? 0); [discriminate|]. destruct (build_des m em _) as [[des em1]|q] eqn:E; [discriminate|].
    cbn [bind]. intros [= ->]. apply build_des_panic in E. assumption.
  - intros [= ->]. apply ring_area2_panic in Ea. assumption.
Qed.

Lemma build_rings_gen m rs acc em brs em' : em_ok em ->
  mfold (fun st r =>
           '(o, em') <- build_ring_of m (snd st) r ;;
           Ok (match o with Some br => fst st ++ [br] | None => fst st end, em')) rs (acc, em) = Ok (brs, em') ->
  em_ok em' /\ extends em em' /\
  exists bs, brs = acc ++ bs /\ Forall2 (ring_matches em') bs (filter has_area rs) /\ covers em em' (concat bs).
Proof.
  revert acc em. induction rs as [|r rs IH]; intros acc em Hem; cbn [mfold].
  - intros [= <- <-]. split; [assumption|]. split; [apply extends_refl|]. exists [].
    split; [symmetry; apply app_nil_r|]. split; [constructor|]. intros i Hi. lia.
  - cbn [fst snd]. destruct (build_ring_of m em r) as [[o em1]|] eqn:E; [|discriminate]. cbn [bind].
    apply build_ring_of_ok in E as (Hok1 & Hext1 & Ho); [|assumption].
    intros H. apply IH in H as (Hok' & Hext' & bs & -> & HF & Hc); [|assumption].
    split; [assumption|]. split; [eapply extends_trans; eassumption|].
    cbn [filter]. destruct o as [br|].
    + destruct Ho as (Hl & Hm & Hcd). rewrite Hl. exists (br :: bs). split; [rewrite <- app_assoc; reflexivity|].
      split; [constructor; [eapply ring_matches_extends; eassumption|assumption]|].
      cbn [concat]. eapply covers_app; eassumption.
    + destruct Ho as (Hl & ->). rewrite Hl. exists bs. auto.
Qed.

Lemma build_rings_ok m em rs brs em' : em_ok em -> build_rings m em rs = Ok (brs, em') ->
  em_ok em' /\ extends em em' /\ Forall2 (ring_matches em') brs (filter has_area rs) /\ covers em em' (concat brs).
Proof.
  intros Hem H. apply build_rings_gen in H as (H1 & H2 & ds & -> & H3); [|assumption]. cbn [app]. tauto.
Qed.

Lemma build_rings_panic m em rs pn : build_rings m em rs = Panic pn -> m = Debug /\ pn = POverflow.
Proof.
  unfold build_rings. generalize ([] : list build_ring, em). induction rs as [|r rs IH]; intros st; [discriminate|].
  cbn [mfold]. destruct (build_ring_of m (snd st) r) as [[o em1]|q] eqn:E; cbn [bind].
  - apply IH.
  - intros [= ->]. apply build_ring_of_panic in E. assumption.
Qed.

(** ** Regions *)
Definition region_matches {D} (em : edge_map) (b : build_region D) (rg : region D) : Prop :=
  br_data b = rg_data rg /\
  Forall2 (ring_matches em) (br_outer b) (filter has_area (rg_outer rg)) /\
  Forall2 (ring_matches em) (br_inner b) (filter has_area (rg_inner rg)).

Definition keeps {D} (rg : region D) : bool :=
  match filter has_area (rg_outer rg) with [] => false | _ => true end.

Lemma region_matches_extends {D} em em' (b : build_region D) rg :
  extends em em' -> region_matches em b rg -> region_matches em' b rg.
Proof.
  intros H (H1 & H2 & H3). split; [assumption|].
  split; eapply Forall2_impl'; try eassumption; intros; eapply ring_matches_extends; eassumption.
Qed.

Definition builder_ok {D} (b : builder D) (rs : list (region D)) : Prop :=
  em_ok (bl_edges b) /\
  Forall2 (region_matches (bl_edges b)) (bl_regions b) (filter keeps rs) /\
  covers [] (bl_edges b) (flat_map (fun r => concat (br_rings r)) (bl_regions b)).

Lemma concat_br_rings {D} (b : build_region D) : concat (br_rings b) = concat (br_outer b) ++ concat (br_inner b).
Proof. apply concat_app. Qed.

Lemma Forall2_length' {A B} (P : A -> B -> Prop) l l' : Forall2 P l l' -> length l = length l'.
Proof. induction 1; cbn; congruence. Qed.

Lemma add_region_ok {D} m (b : builder D) rs rg b' :
  builder_ok b rs -> add_region m b rg = Ok b' -> builder_ok b' (rs ++ [rg]).
Proof.
  intros (H1 & H2 & H3). unfold add_region.
  destruct (build_rings m (bl_edges b) (rg_outer rg)) as [[outer em1]|] eqn:E; [|discriminate]. cbn [bind].
  apply build_rings_ok in E as (O1 & O2 & O3 & O4); [|assumption].
  destruct (Nat.ltb_spec 0 (length outer)) as [Hl|Hl].
  - destruct (build_rings m em1 (rg_inner rg)) as [[inner em2]|] eqn:E; [|discriminate]. cbn [bind].
    apply build_rings_ok in E as (I1 & I2 & I3 & I4); [|assumption]. intros [= <-].
    unfold builder_ok. cbn [bl_edges bl_regions]. split; [assumption|].
    assert (Hk : keeps rg = true).
    { unfold keeps. apply Forall2_length' in O3. destruct (filter has_area (rg_outer rg)); [cbn in O3; lia|reflexivity]. }
    rewrite filter_app. cbn [filter]. rewrite Hk. split.
    + apply Forall2_app.
      * eapply Forall2_impl'; [|exact H2]. intros. eapply region_matches_extends; [|eassumption].
        eapply extends_trans; eassumption.
      * constructor; [|constructor]. split; [reflexivity|]. split; [|exact I3].
        eapply Forall2_impl'; [|exact O3]. intros. eapply ring_matches_extends; eassumption.
    + rewrite flat_map_app. cbn [flat_map]. rewrite app_nil_r, concat_br_rings. cbn [br_outer br_inner].
      eapply covers_app; [exact H3|]. eapply covers_app; eassumption.
  - intros [= <-]. destruct outer; [|cbn in Hl; lia].
    assert (Hk : keeps rg = false).
    { unfold keeps. inversion O3. reflexivity. }
    assert (em1 = bl_edges b) as ->.
    { destruct O2 as [x Hx]. destruct x as [|y x]; [rewrite app_nil_r in Hx; assumption|].
      specialize (O4 (length (bl_edges b))). rewrite Hx, app_length in O4. cbn [length concat map] in O4.
      exfalso. apply O4. lia. }
    unfold builder_ok. cbn [bl_edges bl_regions]. rewrite filter_app. cbn [filter]. rewrite Hk, app_nil_r. auto.
Qed.

Lemma add_region_panic {D} m (b : builder D) rg pn : add_region m b rg = Panic pn -> m = Debug /\ pn = POverflow.
Proof.
  unfold add_region. destruct (build_rings m _ (rg_outer rg)) as [[outer em1]|q] eqn:E; cbn [bind].
  - destruct (0 <? length outer)%nat; [|discriminate].
    destruct (build_rings m em1 (rg_inner rg)) as [[inner em2]|q] eqn:E'; cbn [bind]; [discriminate|].
    intros [= ->]. apply build_rings_panic in E'. assumption.
  - intros [= ->]. apply build_rings_panic in E. assumption.
Qed.

Lemma add_regions_ok_gen {D} m (rs rs0 : list (region D)) b b' :
  builder_ok b rs0 -> add_regions m b rs = Ok b' -> builder_ok b' (rs0 ++ rs).
Proof.
  unfold add_regions. revert rs0 b. induction rs as [|rg rs IH]; intros rs0 b Hb; cbn [mfold].
  - intros [= <-]. rewrite app_nil_r. assumption.
  - destruct (add_region m b rg) as [b1|] eqn:E; [|discriminate]. cbn [bind]. intros H.
    apply add_region_ok with (rs := rs0) in E; [|assumption].
    replace (rs0 ++ rg :: rs) with ((rs0 ++ [rg]) ++ rs) by (rewrite <- app_assoc; reflexivity). eauto.
Qed.

Lemma builder_new_ok {D} : builder_ok (@builder_new D) [].
Proof.
  split; [|split; [constructor|intros i Hi; cbn in Hi; lia]].
  repeat split; constructor.
Qed.

Lemma add_regions_ok {D} m (rs : list (region D)) b :
  add_regions m builder_new rs = Ok b -> builder_ok b rs.
Proof. apply (add_regions_ok_gen m rs []). apply builder_new_ok. Qed.

Lemma add_regions_panic {D} m (rs : list (region D)) b pn :
  add_regions m b rs = Panic pn -> m = Debug /\ pn = POverflow.
Proof.
  unfold add_regions. revert b. induction rs as [|rg rs IH]; intros b; [discriminate|]. cbn [mfold].
  destruct (add_region m b rg) as [b1|q] eqn:E; cbn [bind]; [apply IH|].
  intros [= ->]. apply add_region_panic in E. assumption.
Qed.

(** ** into_topology *)
Lemma place_step v iter :
  (forall kid, In kid iter -> (snd kid < length v)%nat) -> NoDup (map snd iter) ->
  exists v', mfold (fun v kid =>
           if Nat.ltb (snd kid) (length v) then Ok (set_nth v (snd kid) (Some (fst kid)))
           else Panic PIndex) iter v = Ok v' /\ length v' = length v /\
    (forall k i, In (k, i) iter -> nth_error v' i = Some (Some k : option (list point))) /\
    (forall i, ~ In i (map snd iter) -> nth_error v' i = nth_error v i).
Proof.
  revert v. induction iter as [|[k i] iter IH]; intros v Hlt Hnd.
  - exists v. split; [reflexivity|]. split; [reflexivity|]. split; [intros ? ? []|reflexivity].
  - cbn [map snd] in Hnd. apply NoDup_cons_iff in Hnd as [Hn Hnd].
    assert (Hi : (i < length v)%nat) by (apply (Hlt (k, i)); left; reflexivity).
    destruct (IH (set_nth v i (Some k))) as (v' & E & L & P1 & P2).
    + intros kid Hk. rewrite set_nth_length. apply Hlt. right. assumption.
    + assumption.
    + exists v'. cbn [mfold fst snd]. rewrite (proj2 (Nat.ltb_lt _ _) Hi). cbn [bind].
      split; [exact E|]. split; [rewrite L; apply set_nth_length|]. split.
      * intros k0 i0 [[= <- <-]|H]; [|auto]. rewrite P2 by assumption. rewrite nth_error_set_nth, Nat.eqb_refl.
        destruct (nth_error v i) eqn:En; [reflexivity|]. apply nth_error_None in En. lia.
      * intros j Hj. cbn [map snd] in Hj. rewrite P2 by (intros H; apply Hj; right; assumption).
        rewrite nth_error_set_nth. destruct (Nat.eqb_spec i j); [|reflexivity]. exfalso. apply Hj. left. assumption.
Qed.

Lemma em_ok_nth em i k : em_ok em -> nth_error (keys em) i = Some k -> In (k, i) em.
Proof.
  intros (H & _) E. unfold keys in E. rewrite nth_error_map in E.
  destruct (nth_error em i) as [[k' i']|] eqn:En; [|discriminate]. cbn in E. injection E as ->.
  assert (i' = i) as ->; [|eapply nth_error_In; eassumption].
  assert (nth_error (map snd em) i = Some i') by (rewrite nth_error_map, En; reflexivity).
  rewrite H in H0. assert ((i < length em)%nat) by (apply nth_error_Some; congruence).
  rewrite nth_error_nth' with (d := 0%nat) in H0 by (rewrite seq_length; assumption).
  rewrite seq_nth in H0 by assumption. cbn in H0. congruence.
Qed.

Lemma place_edges_ok em iter : em_ok em -> Permutation iter em ->
  place_edges (length em) iter = Ok (map Some (keys em)).
Proof.
  intros Hem Hp. pose proof Hem as (H1 & H2 & H3).
  assert (Hs : Permutation (map snd iter) (seq 0 (length em))) by (rewrite <- H1; apply Permutation_map, Hp).
  destruct (place_step (repeat None (length em)) iter) as (v & E & L & P1 & P2).
  - intros kid Hk. rewrite repeat_length. apply (in_map snd) in Hk. apply (Permutation_in _ Hs), in_seq in Hk. lia.
  - apply (Permutation_NoDup (Permutation_sym Hs)), seq_NoDup.
  - unfold place_edges. rewrite E. f_equal. apply nth_error_ext. intros i.
    rewrite nth_error_map. destruct (nth_error (keys em) i) as [k|] eqn:En.
    + apply P1. apply (Permutation_in _ (Permutation_sym Hp)). apply em_ok_nth; assumption.
    + apply nth_error_None. apply nth_error_None in En. rewrite keys_length in En. rewrite L, repeat_length. assumption.
Qed.

Lemma expect_all_ok l : expect_all (map Some l) = Ok l.
Proof.
  unfold expect_all. rewrite (mmap_ok _ (fun o => match o with Some p => p | None => [] end)).
  - rewrite map_map. rewrite map_id. reflexivity.
  - intros o Ho. apply in_map_iff in Ho as (p & <- & _). reflexivity.
Qed.

Lemma into_topology_eq {D} (b : builder D) iter : em_ok (bl_edges b) -> Permutation iter (bl_edges b) ->
  into_topology_iter b iter =
    finish_topology (bl_regions b) (map (fun p => TEdge p None None) (keys (bl_edges b))).
Proof.
  intros H Hp. unfold into_topology_iter. rewrite place_edges_ok by assumption. cbn [bind].
  rewrite expect_all_ok. reflexivity.
Qed.

Lemma Forall2_in_l {A B} (P : A -> B -> Prop) l l' a : Forall2 P l l' -> In a l -> exists b, In b l' /\ P a b.
Proof. induction 1; intros []; [subst; eexists; split; [left; reflexivity|assumption]|]. destruct IHForall2 as (b & Hb & Hp); [assumption|]. exists b. split; [right|]; assumption. Qed.

Lemma ring_matches_ids em br r d : ring_matches em br r -> In d br -> (de_edge d < length em)%nat.
Proof.
  intros H Hd. eapply Forall2_in_l in H as (p & _ & Hp & _); [|exact Hd].
  rewrite <- keys_length. apply nth_error_Some. congruence.
Qed.

Lemma builder_ids {D} (b : builder D) rs : builder_ok b rs -> ids_below (length (keys (bl_edges b))) (bl_regions b).
Proof.
  intros (H1 & H2 & H3) br r d Hb Hr Hd. rewrite keys_length.
  eapply Forall2_in_l in H2 as (rg & _ & Hm); [|exact Hb]. destruct Hm as (_ & Ho & Hi).
  unfold br_rings in Hr. apply in_app_iff in Hr as [Hr|Hr].
  - eapply Forall2_in_l in Ho as (r' & _ & Hm); [|exact Hr]. eapply ring_matches_ids; eassumption.
  - eapply Forall2_in_l in Hi as (r' & _ & Hm); [|exact Hr]. eapply ring_matches_ids; eassumption.
Qed.

(** ** Reading back *)
Lemma read_matches es em d p : map te_points es = keys em -> matches em d p -> read_de es d = Some p.
Proof.
  intros He (H1 & H2). unfold read_de. rewrite <- He, nth_error_map in H1.
  destruct (nth_error es (de_edge d)) as [e|]; [|discriminate]. cbn in *. injection H1 as ->. rewrite H2.
  rewrite stored_form_oriented. reflexivity.
Qed.

Lemma Forall2_map_eq {A B C} (P : A -> B -> Prop) (f : A -> C) (g : B -> C) l l' :
  (forall a b, P a b -> f a = g b) -> Forall2 P l l' -> map f l = map g l'.
Proof. intros H F. induction F; cbn; [reflexivity|]. f_equal; auto. Qed.

Lemma read_ring_matches es em i br r : map te_points es = keys em -> ring_matches em br r ->
  read_ring es (final_ring i br) = expected_ring r.
Proof.
  intros He H. unfold read_ring, expected_ring. cbn [final_ring tr_des].
  eapply Forall2_map_eq; [|exact H]. intros. eapply read_matches; eassumption.
Qed.

Lemma expected_keeps {D} (rs : list (region D)) :
  expected rs = map (fun rg => Shape (rg_data rg) (map expected_ring (filter has_area (rg_outer rg)))
                    (map expected_ring (filter has_area (rg_inner rg)))) (filter keeps rs).
Proof.
  induction rs as [|rg rs IH]; [reflexivity|]. cbn [expected flat_map filter]. unfold expected in *.
  unfold expected_region at 1, keeps at 1. destruct (filter has_area (rg_outer rg)) eqn:E.
  - exact IH.
  - cbn [map app]. rewrite E. f_equal. exact IH.
Qed.

Lemma read_final {D} es em (regs : list (build_region D)) rs :
  map te_points es = keys em -> Forall2 (region_matches em) regs (filter keeps rs) ->
  map (read_region es) (final_regions regs) = expected rs.
Proof.
  intros He H. rewrite expected_keeps. unfold final_regions. rewrite map_map.
  unfold enumerate. generalize 0%nat. induction H as [|b rg bs rgs Hm HF IH]; intros n; [reflexivity|].
  cbn [length seq combine map]. rewrite IH. f_equal.
  unfold read_region, final_region. cbn [fst snd tg_data tg_outer tg_inner]. rewrite !map_map.
  destruct Hm as (Hd & Ho & Hi). rewrite Hd. f_equal.
  - eapply Forall2_map_eq; [|exact Ho]. intros. eapply read_ring_matches; eassumption.
  - eapply Forall2_map_eq; [|exact Hi]. intros. eapply read_ring_matches; eassumption.
Qed.

(** ** Whole builds *)
Lemma build_topology_ok {D} m (rs : list (region D)) t : build_topology m rs = Ok t ->
  exists b, builder_ok b rs /\ ids_below (length (keys (bl_edges b))) (bl_regions b) /\
    exact_references t /\ tp_regions t = final_regions (bl_regions b) /\ map te_points (tp_edges t) = keys (bl_edges b).
Proof.
  unfold build_topology. destruct (add_regions m builder_new rs) as [b|] eqn:E; [|discriminate]. cbn [bind].
  apply add_regions_ok in E. pose proof (builder_ids b rs E) as Hids. unfold into_topology.
  rewrite into_topology_eq by (try apply E; apply Permutation_refl). intros H.
  apply finish_exact in H; [|assumption]. exists b. tauto.
Qed.

Lemma build_read {D} m (rs : list (region D)) t : build_topology m rs = Ok t -> read_topology t = expected rs.
Proof.
  intros H. apply build_topology_ok in H as (b & Hb & _ & _ & Hr & He).
  unfold read_topology. rewrite Hr. eapply read_final; [exact He|apply Hb].
Qed.

(** ** Stored forms *)
Definition is_stored (k : list point) : Prop := exists p, has_length p = true /\ k = stored_form p.

Lemma stored_form_cases ps p q : first ps = Some p -> final ps = Some q ->
  (stored_form ps = ps /\ (lt_point p q \/ (p = q /\ 0 <= i64_of (shoelace ps)))) \/
  (stored_form ps = rev ps /\ (lt_point q p \/ (p = q /\ i64_of (shoelace ps) < 0))).
Proof.
  destruct ps as [|a l]; [discriminate|]. cbn [first hd_error]. intros [= ->].
  rewrite final_last. intros Hq0. assert (Hq : last (p :: l) p = q) by congruence. clear Hq0.
  unfold stored_form. cbv zeta. rewrite Hq. unfold lt_point.
  destruct (Z.ltb_spec (px p) (px q)); cbn [orb]; [left; split; [reflexivity|lia]|].
  destruct (Z.eqb_spec (px p) (px q)); cbn [andb].
  2:{ right. split; [reflexivity|]. lia. }
  destruct (Z.ltb_spec (py p) (py q)); [left; split; [reflexivity|lia]|].
  destruct (Z.eqb_spec (py p) (py q)); cbn [andb].
  2:{ right. split; [reflexivity|]. lia. }
  assert (p = q) by (destruct p, q; cbn in *; congruence).
  destruct (Z.leb_spec 0 (i64_of (shoelace (p :: l)))); [left|right]; (split; [reflexivity|]); right; split; assumption.
Qed.

Lemma has_length_ends p : has_length p = true -> exists a b, first p = Some a /\ final p = Some b.
Proof.
  intros H. destruct p as [|a l]; [discriminate|]. exists a. destruct (final_nonempty (a :: l)) as [b Hb]; [discriminate|].
  exists b. split; [reflexivity|assumption].
Qed.

Lemma stored_length k : is_stored k -> (2 <= length k)%nat.
Proof.
  intros (p & Hp & ->). assert ((2 <= length p)%nat) by (destruct p as [|a [|b l]]; try discriminate; cbn; lia).
  destruct (has_length_ends p Hp) as (a & b & Ha & Hb).
  destruct (stored_form_cases p a b Ha Hb) as [[-> _]|[-> _]]; [|rewrite rev_length]; assumption.
Qed.

Lemma i64_of_wrap z : i64_of z = wrap_i64 z.
Proof. reflexivity. Qed.

Lemma stored_cases k a b : is_stored k -> first k = Some a -> final k = Some b ->
  lt_point a b \/ (a = b /\ (0 <= i64_of (shoelace k) \/ i64_of (shoelace k) = - 2 ^ 63)).
Proof.
  intros (p & Hp & Hk) Ha Hb. destruct (has_length_ends p Hp) as (a' & b' & Ha' & Hb').
  destruct (stored_form_cases p a' b' Ha' Hb') as [[E H]|[E H]]; rewrite E in Hk; subst k.
  - assert (a' = a) by congruence. assert (b' = b) by congruence. subst. tauto.
  - rewrite first_rev in Ha. rewrite final_rev in Hb. assert (b' = a) by congruence. assert (a' = b) by congruence. subst.
    destruct H as [H|[-> H]]; [left; assumption|right]. split; [reflexivity|]. rewrite shoelace_rev.
    rewrite i64_of_wrap in *. destruct (Z.eq_dec (wrap_i64 (shoelace p)) (- 2 ^ 63)) as [Em|Em].
    + right. apply wrap_min in Em as [j Hj]. rewrite Hj. symmetry. apply (wrap_unique _ _ j); [unfold fits; lia|lia].
    + left. rewrite wrap_neg by assumption. lia.
Qed.

Lemma lt_point_asym p q : lt_point p q -> lt_point q p -> False.
Proof. unfold lt_point. lia. Qed.
Lemma lt_point_irrefl p : ~ lt_point p p.
Proof. unfold lt_point. lia. Qed.

(** Two stored edges that are each other's reverse. *)
Lemma stored_reverse k : is_stored k -> is_stored (rev k) ->
  exists p, first k = Some p /\ final k = Some p /\
    (shoelace k mod 2 ^ 64 = 0 \/ shoelace k mod 2 ^ 64 = 2 ^ 63).
Proof.
  intros H H'. pose proof (stored_length k H) as Hl.
  destruct k as [|a l]; [cbn in Hl; lia|]. destruct (final_nonempty (a :: l)) as [b Hb]; [discriminate|].
  assert (Ha : first (a :: l) = Some a) by reflexivity.
  destruct (stored_cases _ _ _ H Ha Hb) as [H1|[-> H1]].
  - destruct (stored_cases (rev (a :: l)) b a H') as [H2|[-> H2]].
    + exact Hb.
    + rewrite final_rev. exact Ha.
    + destruct (lt_point_asym _ _ H1 H2).
    + destruct (lt_point_irrefl _ H1).
  - exists b. split; [exact Ha|]. split; [exact Hb|].
    destruct (stored_cases (rev (b :: l)) b b H') as [H2|[_ H2]].
    + exact Hb.
    + rewrite final_rev. exact Ha.
    + destruct (lt_point_irrefl _ H2).
    + rewrite shoelace_rev in H2. set (s := shoelace (b :: l)) in *. rewrite i64_of_wrap in *.
      destruct (Z.eq_dec (wrap_i64 s) (- 2 ^ 63)) as [Em|Em].
      * right. apply wrap_min in Em as [j Hj]. rewrite Hj, Z_mod_plus_full. reflexivity.
      * rewrite wrap_neg in H2 by assumption. pose proof (wrap_fits s) as F. unfold fits in F.
        left. apply wrap_zero. lia.
Qed.

Lemma build_edges_stored {D} m (rs : list (region D)) t : build_topology m rs = Ok t ->
  NoDup (map te_points (tp_edges t)) /\ Forall is_stored (map te_points (tp_edges t)).
Proof.
  intros H. apply build_topology_ok in H as (b & Hb & _ & _ & _ & He). rewrite He.
  destruct Hb as ((_ & H1 & H2) & _). split; assumption.
Qed.

Lemma nth_error_map_some {A B} (f : A -> B) l i b : nth_error (map f l) i = Some b -> exists a, nth_error l i = Some a /\ f a = b.
Proof. rewrite nth_error_map. destruct (nth_error l i); cbn; [intros [= <-]; eauto|discriminate]. Qed.

Lemma NoDup_nth_error_inj {A} (l : list A) i j a : NoDup l -> nth_error l i = Some a -> nth_error l j = Some a -> i = j.
Proof.
  intros H Hi Hj. apply (proj1 (NoDup_nth_error l) H); [|congruence]. apply nth_error_Some. congruence.
Qed.

Lemma read_de_some es d e : read_de es d = Some e ->
  exists te, nth_error es (de_edge d) = Some te /\ e = oriented (te_points te) (de_dir d).
Proof. unfold read_de. destruct (nth_error es (de_edge d)) as [te|]; cbn; [|discriminate]. intros [= <-]. eauto. Qed.

Lemma shared_reverse {D} m (rs : list (region D)) t d1 d2 e :
  build_topology m rs = Ok t ->
  read_de (tp_edges t) d1 = Some e -> read_de (tp_edges t) d2 = Some (rev e) ->
  first e <> final e \/ (shoelace e mod 2 ^ 64 <> 0 /\ shoelace e mod 2 ^ 64 <> 2 ^ 63) ->
  de_edge d1 = de_edge d2 /\ de_dir d1 <> de_dir d2.
Proof.
  intros H R1 R2 Hc. apply build_edges_stored in H as [Hn Hs].
  apply read_de_some in R1 as (t1 & N1 & E1). apply read_de_some in R2 as (t2 & N2 & E2).
  assert (S1 : is_stored (te_points t1)).
  { rewrite Forall_forall in Hs. apply Hs. apply in_map. eapply nth_error_In; eassumption. }
  assert (S2 : is_stored (te_points t2)).
  { rewrite Forall_forall in Hs. apply Hs. apply in_map. eapply nth_error_In; eassumption. }
  assert (Hne : e <> rev e).
  { intros Er. destruct Hc as [Hc|[Hc _]].
    - apply Hc. rewrite Er at 1. apply first_rev.
    - apply Hc. assert (shoelace e = - shoelace e) by (rewrite Er at 1; apply shoelace_rev).
      replace (shoelace e) with 0 by lia. reflexivity. }
  assert (Hbad : forall k, is_stored k -> is_stored (rev k) -> k = e \/ k = rev e -> False).
  { intros k K1 K2 Hk. destruct (stored_reverse k K1 K2) as (p & P1 & P2 & P3).
    destruct Hk as [->| ->].
    - destruct Hc as [Hc|Hc]; [congruence|]. tauto.
    - rewrite first_rev in P1. rewrite final_rev in P2. destruct Hc as [Hc|Hc]; [congruence|].
      rewrite shoelace_rev in P3. destruct Hc as [Hc1 Hc2]. destruct P3 as [P3|P3].
      + apply Hc1. apply Z.mod_divide in P3; [|lia]. apply Z.mod_divide; [lia|].
        apply (proj1 (Z.divide_opp_r _ _)) in P3. exact P3.
      + apply Hc2. pose proof (Z.div_mod (- shoelace e) (2 ^ 64) ltac:(lia)) as Hd. rewrite P3 in Hd.
        replace (shoelace e) with (2 ^ 63 + (- (- shoelace e / 2 ^ 64) - 1) * 2 ^ 64) by lia.
        rewrite Z_mod_plus_full. reflexivity. }
  assert (Hsame : te_points t1 = te_points t2 -> de_edge d1 = de_edge d2).
  { intros Et. eapply NoDup_nth_error_inj; [exact Hn| |].
    - rewrite nth_error_map, N1. reflexivity.
    - rewrite nth_error_map, N2. cbn. congruence. }
  destruct (de_dir d1) eqn:D1, (de_dir d2) eqn:D2; cbn [oriented] in E1, E2.
  - exfalso. apply (Hbad e); [congruence| |left; reflexivity]. congruence.
  - split; [|discriminate]. apply Hsame. rewrite <- E1. apply (f_equal (@rev _)) in E2. rewrite !rev_involutive in E2. assumption.
  - split; [|discriminate]. apply Hsame. rewrite <- E2, E1, rev_involutive. reflexivity.
  - exfalso. apply (Hbad (te_points t1)); [assumption| |].
    + rewrite <- E1. replace e with (te_points t2); [assumption|].
      apply (f_equal (@rev _)) in E2. rewrite !rev_involutive in E2. congruence.
    + right. rewrite E1, rev_involutive. reflexivity.
Qed.

Lemma shared_same {D} m (rs : list (region D)) t d1 d2 e :
  build_topology m rs = Ok t ->
  read_de (tp_edges t) d1 = Some e -> read_de (tp_edges t) d2 = Some e ->
  first e <> final e \/ (shoelace e mod 2 ^ 64 <> 0 /\ shoelace e mod 2 ^ 64 <> 2 ^ 63) ->
  d1 = d2.
Proof.
  intros H R1 R2 Hc.
  assert (R3 : read_de (tp_edges t) (DE (de_edge d2) (match de_dir d2 with Forward => Backward | Backward => Forward end)) = Some (rev e)).
  { apply read_de_some in R2 as (t2 & N2 & E2). unfold read_de. cbn [de_edge de_dir]. rewrite N2. cbn. f_equal.
    destruct (de_dir d2); cbn [oriented] in *; [congruence|]. rewrite E2, rev_involutive. reflexivity. }
  destruct (shared_reverse m rs t d1 _ e H R1 R3 Hc) as [H1 H2]. cbn [de_edge de_dir] in *.
  destruct d1 as [i1 x1], d2 as [i2 x2]; cbn in *. subst. f_equal. destruct x1, x2; congruence.
Qed.

(** ** Uses *)
Lemma map_fst_uses {D} (regs : list (build_region D)) :
  map fst (uses (final_regions regs)) = map de_edge (flat_map (fun b => concat (br_rings b)) regs).
Proof.
  unfold uses, final_regions. rewrite enumerate_map_i. unfold enumerate. generalize 0%nat.
  induction regs as [|b regs IH]; intros n; [reflexivity|].
  cbn [length seq combine map flat_map]. rewrite map_app, IH, map_app. f_equal.
  unfold uses_region. cbn [fst snd final_region tg_outer tg_inner]. unfold br_rings. rewrite concat_app, !map_app.
  assert (HH : forall s k rs, map fst (flat_map (uses_ring n s) (combine (seq k (length (map (final_ring n) rs))) (map (final_ring n) rs))) = map de_edge (concat rs)).
  { intros s k rs. revert k. induction rs as [|r rs IHr]; intros k; [reflexivity|].
    cbn [map length seq combine flat_map concat]. rewrite !map_app, IHr. f_equal.
    unfold uses_ring. cbn [fst snd final_ring tr_des]. rewrite map_map. reflexivity. }
  f_equal; apply HH.
Qed.

Lemma users_length i us : length (users i us) = count_occ Nat.eq_dec (map fst us) i.
Proof.
  unfold users. rewrite map_length. induction us as [|u us IH]; [reflexivity|]. cbn [filter map count_occ].
  destruct (Nat.eqb_spec (fst u) i), (Nat.eq_dec (fst u) i); try contradiction; cbn [length]; congruence.
Qed.

Lemma build_used {D} m (rs : list (region D)) t : build_topology m rs = Ok t ->
  forall i e, nth_error (tp_edges t) i = Some e -> users i (uses (tp_regions t)) <> [].
Proof.
  intros H i e He. apply build_topology_ok in H as (b & Hb & _ & _ & Hr & Hk). rewrite Hr.
  intros Hu. assert (HL : length (users i (uses (final_regions (bl_regions b)))) = 0%nat) by (rewrite Hu; reflexivity).
  rewrite users_length, map_fst_uses in HL.
  destruct Hb as (_ & _ & Hc). apply (count_occ_not_In Nat.eq_dec) in HL. apply HL, Hc.
  split; [cbn; lia|]. rewrite <- keys_length, <- Hk, map_length. apply nth_error_Some. congruence.
Qed.

(** ** Counting *)
Lemma path_eqb_spec a b : reflect (a = b) (path_eqb a b).
Proof. unfold path_eqb. destruct (list_eq_dec _ a b); constructor; assumption. Qed.

Lemma Forall2_flat {D} em (regs : list (build_region D)) rs :
  Forall2 (region_matches em) regs (filter keeps rs) ->
  Forall2 (fun d o => exists p, o = Some p /\ matches em d p)
    (flat_map (fun b => concat (br_rings b)) regs) (all_paths (expected rs)).
Proof.
  rewrite expected_keeps. generalize (filter keeps rs). intros rgs H. induction H as [|b rg bs rgs Hm HF IH]; [constructor|].
  cbn [flat_map map all_paths]. apply Forall2_app; [|exact IH].
  destruct Hm as (_ & Ho & Hi). rewrite concat_br_rings. unfold shape_paths. cbn [s_outer s_inner].
  assert (HH : forall brs rings, Forall2 (ring_matches em) brs rings ->
     Forall2 (fun d o => exists p, o = Some p /\ matches em d p) (concat brs) (concat (map expected_ring rings))).
  { intros brs rings HR. induction HR as [|br r brs rings Hr _ IHr]; [constructor|]. cbn [concat map].
    apply Forall2_app; [|exact IHr]. unfold expected_ring, ring_matches in *.
    induction Hr; cbn [map]; constructor; eauto. }
  apply Forall2_app; apply HH; assumption.
Qed.

Lemma count_matches em ds os k i : em_ok em ->
  Forall2 (fun d o => exists p, o = Some p /\ matches em d p) ds os ->
  nth_error (keys em) i = Some k ->
  count_occ Nat.eq_dec (map de_edge ds) i = count_path k os.
Proof.
  intros (_ & Hn & _) HF Hk. induction HF as [|d o ds os (p & -> & Hm & _) HF IH]; [reflexivity|].
  unfold count_path in *. cbn [map count_occ filter].
  destruct (path_eqb_spec (stored_form p) k) as [E|E], (Nat.eq_dec (de_edge d) i) as [E'|E']; cbn [length]; try congruence.
  exfalso. apply E'. rewrite E in Hm. eapply NoDup_nth_error_inj; eassumption.
Qed.

Lemma count_zero em ds os k :
  Forall2 (fun d o => exists p, o = Some p /\ matches em d p) ds os ->
  ~ In k (keys em) -> count_path k os = 0%nat.
Proof.
  intros HF Hk. induction HF as [|d o ds os (p & -> & Hm & _) HF IH]; [reflexivity|].
  unfold count_path in *. cbn [filter]. destruct (path_eqb_spec (stored_form p) k) as [E|E]; [|assumption].
  exfalso. apply Hk. rewrite <- E. eapply nth_error_In; eassumption.
Qed.

Lemma into_topology_iff {D} m (rs : list (region D)) b :
  add_regions m builder_new rs = Ok b ->
  ((exists t, into_topology b = Ok t) <-> forall k, (count_path k (all_paths (expected rs)) <= 2)%nat) /\
  (forall p, into_topology b = Panic p -> p = PAssert).
Proof.
  intros H. apply add_regions_ok in H. pose proof (builder_ids b rs H) as Hids.
  pose proof H as (Hem & HR & _). pose proof (Forall2_flat _ _ _ HR) as HF.
  unfold into_topology. rewrite into_topology_eq by (try exact Hem; apply Permutation_refl).
  split; [split|].
  - intros [t Ht] k. destruct (in_dec (list_eq_dec point_eq_dec) k (keys (bl_edges b))) as [Hk|Hk].
    + apply In_nth_error in Hk as [i Hi]. rewrite <- (count_matches _ _ _ _ _ Hem HF Hi).
      apply finish_exact in Ht as ((_ & _ & Hx) & Hr & He); [|assumption].
      assert (exists e, nth_error (tp_edges t) i = Some e) as [e Hei].
      { rewrite <- He in Hi. apply nth_error_map_some in Hi as (e & He' & _). eauto. }
      specialize (Hx i e Hei). rewrite Hr, users_length, map_fst_uses in Hx. tauto.
    + rewrite (count_zero _ _ _ _ HF Hk). lia.
  - intros Hc. destruct (finish_topology _ _) as [t|p] eqn:E; [eauto|]. exfalso.
    apply finish_panic in E as (_ & i & Hi & H2); [|assumption].
    rewrite users_length, map_fst_uses in H2.
    destruct (nth_error (keys (bl_edges b)) i) as [k|] eqn:Ek.
    2:{ apply nth_error_None in Ek. lia. }
    rewrite (count_matches _ _ _ _ _ Hem HF Ek) in H2. specialize (Hc k). lia.
  - intros p Hp. apply finish_panic in Hp; tauto.
Qed.

Lemma build_topology_panic {D} m (rs : list (region D)) p : build_topology m rs = Panic p ->
  (m = Debug /\ p = POverflow) \/
  (p = PAssert /\ exists k, (2 < count_path k (all_paths (expected rs)))%nat).
Proof.
  unfold build_topology. destruct (add_regions m builder_new rs) as [b|q] eqn:E; cbn [bind].
  - intros Hp. right. destruct (into_topology_iff m rs b E) as [H1 H2]. split; [auto|].
    apply add_regions_ok in E. pose proof (builder_ids b rs E) as Hids.
    pose proof E as (Hem & HR & _). pose proof (Forall2_flat _ _ _ HR) as HF.
    unfold into_topology in Hp. rewrite into_topology_eq in Hp by (try exact Hem; apply Permutation_refl).
    apply finish_panic in Hp as (_ & i & Hi & Hu); [|assumption]. rewrite users_length, map_fst_uses in Hu.
    destruct (nth_error (keys (bl_edges b)) i) as [k|] eqn:Ek; [|apply nth_error_None in Ek; lia].
    exists k. rewrite <- (count_matches _ _ _ _ _ Hem HF Ek). assumption.
  - intros [= ->]. left. apply add_regions_panic in E. assumption.
Qed.

(** ** Closed rings *)
Lemma has_length_false e p : has_length e = false -> first e = Some p -> final e = Some p.
Proof.
  destruct e as [|a [|b [|c l]]]; try discriminate.
  - intros _ H. exact H.
  - cbn [has_length]. intros H. apply negb_false_iff, pt_eqb_eq in H. subst. intros H. exact H.
Qed.

Lemma chain_filter es p q : chain p es q -> chain p (filter has_length es) q.
Proof.
  revert p. induction es as [|e es IH]; intros p; cbn [chain filter]; [tauto|].
  intros (Hf & r & Hr & Hc). destruct (has_length e) eqn:E.
  - cbn [chain]. split; [assumption|]. exists r. auto.
  - pose proof (has_length_false e p E Hf). assert (r = p) as -> by congruence. auto.
Qed.

Lemma segments_chain p l : chain p (segments (p :: l)) (last (p :: l) p).
Proof.
  revert p. induction l as [|q l IH]; intros p; [reflexivity|].
  change (segments (p :: q :: l)) with ([p; q] :: segments (q :: l)). cbn [chain].
  split; [reflexivity|]. exists q. split; [reflexivity|].
  change (last (p :: q :: l) p) with (last (q :: l) p). rewrite (last_default (q :: l) p q) by discriminate. apply IH.
Qed.

Lemma closed_ring_chain r : closed_ring r -> closed_chain (paths r).
Proof.
  destruct r as [ps|es]; cbn [closed_ring paths]; [|tauto].
  intros [H1 H2]. destruct ps as [|p l]; [contradiction|]. exists p.
  rewrite final_last in H2. assert (Hl : last (p :: l) p = p) by (cbn [first hd_error] in H2; congruence).
  pose proof (segments_chain p l) as H. rewrite Hl in H. exact H.
Qed.

Lemma has_area_nonempty r : has_area r = true -> filter has_length (paths r) <> [].
Proof.
  intros H E. revert H. unfold has_area.
  assert (Hz : ring_area r = 0); [|rewrite Hz; discriminate].
  replace (ring_area r) with (shoelaces (paths r)) by (destruct r; [apply shoelaces_segments|reflexivity]).
  revert E. generalize (paths r). intros es. induction es as [|e es IH]; [reflexivity|]. cbn [filter shoelaces].
  destruct (has_length e) eqn:Ee; [discriminate|]. intros E. rewrite IH by assumption.
  destruct e as [|a [|b [|c l]]]; try reflexivity; try discriminate.
  cbn [has_length] in Ee. apply negb_false_iff, pt_eqb_eq in Ee. subst. rewrite shoelace_cons2, det_same. reflexivity.
Qed.

Lemma in_final_regions {D} (regs : list (build_region D)) rg r :
  In rg (final_regions regs) -> In r (tg_outer rg ++ tg_inner rg) ->
  exists b i br, In b regs /\ In br (br_rings b) /\ r = final_ring i br.
Proof.
  unfold final_regions. rewrite in_map_iff. intros ([i b] & <- & Hb). apply in_enumerate, nth_error_In in Hb.
  cbn [final_region tg_outer tg_inner fst snd]. rewrite <- map_app, in_map_iff. intros (br & <- & Hbr).
  exists b, i, br. auto.
Qed.

Lemma build_rings_closed {D} m (rs : list (region D)) t rg r :
  build_topology m rs = Ok t -> In rg (tp_regions t) -> In r (tg_outer rg ++ tg_inner rg) ->
  exists x r0 ps, In x rs /\ In r0 (rg_outer x ++ rg_inner x) /\ ps = filter has_length (paths r0) /\
    read_ring (tp_edges t) r = map Some ps /\ ps <> [] /\ (closed_ring r0 -> closed_chain ps).
Proof.
  intros H Hg Hr. apply build_topology_ok in H as (b & Hb & _ & _ & Er & He). rewrite Er in Hg.
  destruct (in_final_regions _ _ _ Hg Hr) as (br & i & d & Hbr & Hd & ->).
  destruct Hb as (_ & HF & _). eapply Forall2_in_l in HF as (x & Hx & _ & Ho & Hi); [|exact Hbr].
  assert (HH : exists r0, In r0 (rg_outer x ++ rg_inner x) /\ has_area r0 = true /\ ring_matches (bl_edges b) d r0).
  { unfold br_rings in Hd. apply in_app_iff in Hd as [Hd|Hd].
    - eapply Forall2_in_l in Ho as (r0 & H0 & Hm); [|exact Hd]. apply filter_In in H0. exists r0. rewrite in_app_iff. tauto.
    - eapply Forall2_in_l in Hi as (r0 & H0 & Hm); [|exact Hd]. apply filter_In in H0. exists r0. rewrite in_app_iff. tauto. }
  destruct HH as (r0 & H0 & Ha & Hm). exists x, r0, (filter has_length (paths r0)).
  split; [apply filter_In in Hx; tauto|]. split; [assumption|]. split; [reflexivity|].
  split; [eapply read_ring_matches; eassumption|]. split; [apply has_area_nonempty, Ha|].
  intros Hc. apply closed_ring_chain in Hc as [p Hp]. exists p. apply chain_filter, Hp.
Qed.
