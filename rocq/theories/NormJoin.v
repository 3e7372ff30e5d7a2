(** * NormJoin: merging rings of a region *)
From Verif Require Import GeoProofs TopoProofs BuildProofs.
From Verif Require Export NormRing.

Definition longs (es : list norm_edge) : Prop := long (map ne_points es).

Lemma longs_perm a b : Permutation a b -> longs a -> longs b.
Proof. intros P H. eapply Permutation_Forall; [apply Permutation_map, P|exact H]. Qed.

Lemma longs_app a b : longs (a ++ b) <-> longs a /\ longs b.
Proof. unfold longs, long. rewrite map_app. apply Forall_app. Qed.

Lemma longs_cons e b : longs (e :: b) <-> (2 <= length (ne_points e))%nat /\ longs b.
Proof. unfold longs, long. cbn [map]. apply Forall_cons_iff. Qed.

Lemma long_first e : (2 <= length (ne_points e))%nat ->
  exists p q, first (ne_points e) = Some p /\ final (ne_points e) = Some q.
Proof.
  intros H. destruct (ne_points e) as [|p l]; [cbn in H; lia|].
  destruct (final_nonempty (p :: l)) as (q & Hq); [discriminate|]. exists p, q. auto.
Qed.

Lemma redundantb_spec e : redundantb e = is_redundant e.
Proof. reflexivity. Qed.

(** ** The ordered map *)

Definition mwf (m : bmap) : Prop :=
  StronglySorted lt_point (map fst m) /\
  Forall (fun kv => first (ne_points (snd kv)) = Some (fst kv)) m.

Lemma bm_insert_some k v m m' : mwf m -> first (ne_points v) = Some k -> bm_insert k v m = Some m' ->
  mwf m' /\ Permutation (map snd m') (v :: map snd m) /\ ~ In k (map fst m) /\
  Permutation (map fst m') (k :: map fst m).
Proof.
  intros (HS & HF) Fk. revert m' HS HF. induction m as [|(k' & v') t IH]; intros m' HS HF; cbn [bm_insert].
  - intros [= <-]. split; [|cbn; repeat split; auto]. split; cbn; repeat constructor. assumption.
  - inversion HS as [|? ? HS' HA]; subst. inversion HF as [|? ? Fk' HF']; subst.
    destruct (pt_eqb_spec k k') as [E|E]; [discriminate|].
    destruct (pt_ltb k k') eqn:El.
    + apply pt_ltb_lt in El. intros [= <-]. split; [split|]; cbn [map fst snd].
      * constructor; [assumption|]. constructor; [assumption|]. eapply Forall_impl; [|exact HA].
        intros a Ha. eapply lt_point_trans; eassumption.
      * constructor; assumption.
      * split; [reflexivity|]. split; [|reflexivity].
        intros [<-|Hk]; [congruence|]. rewrite Forall_forall in HA. apply (lt_point_asym k k'); auto.
    + apply pt_ltb_le in El. destruct El as [El|El]; [|congruence].
      destruct (bm_insert k v t) as [t'|] eqn:Et; [|discriminate]. intros [= <-].
      destruct (IH t' HS' HF' eq_refl) as ((S' & F') & P & N & P'). cbn [map fst snd]. split; [split|].
      * constructor; [assumption|]. eapply Permutation_Forall; [symmetry; exact P'|]. constructor; assumption.
      * constructor; assumption.
      * split; [|split].
        -- rewrite P. apply perm_swap.
        -- intros [->|H]; [congruence|auto].
        -- rewrite P'. apply perm_swap.
Qed.

Lemma bm_insert_none k v m : mwf m -> bm_insert k v m = None -> In k (map fst m).
Proof.
  intros (HS & HF). induction m as [|(k' & v') t IH]; cbn [bm_insert]; [discriminate|].
  inversion HS as [|? ? HS' HA]; subst. inversion HF as [|? ? Fk' HF']; subst.
  destruct (pt_eqb_spec k k') as [E|E]; [cbn; auto|].
  destruct (pt_ltb k k'); [discriminate|]. destruct (bm_insert k v t) as [t'|]; [discriminate|].
  intros _. right. auto.
Qed.

Lemma bm_remove_some k m e m' : mwf m -> bm_remove k m = Some (e, m') ->
  mwf m' /\ Permutation (map snd m) (e :: map snd m') /\ first (ne_points e) = Some k /\
  length m = S (length m') /\ incl (map fst m') (map fst m).
Proof.
  intros (HS & HF). revert e m' HS HF. induction m as [|(k' & v') t IH]; intros e m' HS HF; cbn [bm_remove]; [discriminate|].
  inversion HS as [|? ? HS' HA]; subst. inversion HF as [|? ? Fk' HF']; subst. cbn in Fk'.
  destruct (pt_eqb_spec k k') as [->|E].
  - intros [= <- <-]. repeat split; auto. intros x Hx. right. assumption.
  - destruct (bm_remove k t) as [(w & t')|] eqn:Et; [|discriminate]. intros [= <- <-].
    destruct (IH w t' HS' HF' eq_refl) as ((S' & F') & P & F & L & I). cbn [map fst snd] in *. repeat split.
    + constructor; [assumption|]. rewrite Forall_forall in *. auto.
    + constructor; assumption.
    + rewrite P. apply perm_swap.
    + assumption.
    + cbn. congruence.
    + intros x [<-|Hx]; [left; reflexivity|right; auto].
Qed.

Lemma bm_remove_none k m : bm_remove k m = None -> ~ In k (map fst m).
Proof.
  induction m as [|(k' & v') t IH]; cbn [bm_remove]; [intros _ []|].
  destruct (pt_eqb_spec k k') as [->|E]; [discriminate|].
  destruct (bm_remove k t) as [(w & t')|]; [discriminate|]. intros H [Hk|Hk]; [cbn in Hk; congruence|].
  apply IH; auto.
Qed.

Lemma mwf_keys m : mwf m -> map Some (map fst m) = starts (map snd m).
Proof.
  intros (_ & HF). induction HF as [|(k & v) t H HF IH]; [reflexivity|]. unfold starts in *. cbn [map fst snd] in *.
  rewrite H, IH. reflexivity.
Qed.

Lemma sorted_nodup l : StronglySorted lt_point l -> NoDup l.
Proof.
  induction 1 as [|a l H IH HA]; constructor; [|assumption]. intros Hi. rewrite Forall_forall in HA.
  apply (lt_point_irrefl a). auto.
Qed.

Lemma mwf_nodup m : mwf m -> NoDup (starts (map snd m)).
Proof.
  intros H. rewrite <- (mwf_keys m H). apply FinFun.Injective_map_NoDup; [intros x y; congruence|].
  apply sorted_nodup, H.
Qed.

Lemma starts_perm a b : Permutation a b -> Permutation (starts a) (starts b).
Proof. intros H. apply Permutation_map, Permutation_map, H. Qed.
Lemma ends_perm a b : Permutation a b -> Permutation (ends a) (ends b).
Proof. intros H. apply Permutation_map, Permutation_map, H. Qed.
Lemma starts_app a b : starts (a ++ b) = starts a ++ starts b.
Proof. unfold starts. rewrite !map_app. reflexivity. Qed.
Lemma ends_app a b : ends (a ++ b) = ends a ++ ends b.
Proof. unfold ends. rewrite !map_app. reflexivity. Qed.

Lemma index_edges_ok es : forall m m', mwf m -> longs es -> index_edges m es = Ok m' ->
  mwf m' /\ Permutation (map snd m') (map snd m ++ es).
Proof.
  unfold index_edges. induction es as [|e es IH]; intros m m' W L; cbn [mfold].
  - intros [= <-]. rewrite app_nil_r. auto.
  - apply longs_cons in L as (Le & L). destruct (long_first e Le) as (p & q & Fp & _).
    assert (Eg : get (ne_points e) 0 = Ok p).
    { unfold get, get_or. destruct (ne_points e); [discriminate|]. injection Fp as ->. reflexivity. }
    rewrite Eg. cbn [bind]. destruct (bm_insert p e m) as [m1|] eqn:Ei; [|discriminate]. cbn [bind]. intros H.
    destruct (bm_insert_some p e m m1 W Fp Ei) as (W1 & P1 & _ & _).
    destruct (IH m1 m' W1 L H) as (W2 & P2). split; [assumption|]. rewrite P2, P1. cbn [app].
    apply Permutation_middle.
Qed.

Lemma index_edges_returns es : forall m, mwf m -> longs es -> NoDup (starts (map snd m ++ es)) ->
  exists m', index_edges m es = Ok m'.
Proof.
  unfold index_edges. induction es as [|e es IH]; intros m W L N; cbn [mfold]; [eauto|].
  apply longs_cons in L as (Le & L). destruct (long_first e Le) as (p & q & Fp & _).
  assert (Eg : get (ne_points e) 0 = Ok p).
  { unfold get, get_or. destruct (ne_points e); [discriminate|]. injection Fp as ->. reflexivity. }
  rewrite Eg. cbn [bind]. destruct (bm_insert p e m) as [m1|] eqn:Ei.
  - cbn [bind]. destruct (bm_insert_some p e m m1 W Fp Ei) as (W1 & P1 & _ & _). apply IH; try assumption.
    eapply Permutation_NoDup; [|exact N]. apply starts_perm. rewrite P1. symmetry. apply Permutation_middle.
  - exfalso. apply bm_insert_none in Ei; [|assumption]. rewrite starts_app in N.
    apply (in_map Some) in Ei. rewrite (mwf_keys m W) in Ei. unfold starts at 2 in N. cbn [map] in N.
    rewrite Fp in N. apply NoDup_remove_2 in N. apply N. apply in_app_iff. auto.
Qed.

(** ** Sorting the rings into passed, ignored and merged ones *)

Lemma filter_none {A} (f : A -> bool) l : length (filter f l) = O <-> existsb f l = false.
Proof.
  induction l as [|a l IH]; cbn; [tauto|]. destruct (f a); cbn; [split; discriminate|assumption].
Qed.

Lemma filter_negb_none {A} (f : A -> bool) l : length (filter (fun x => negb (f x)) l) = O <-> forallb f l = true.
Proof.
  induction l as [|a l IH]; cbn; [tauto|]. destruct (f a); cbn; [assumption|split; discriminate].
Qed.

Lemma filter_all {A} (f : A -> bool) l : existsb f l = false -> filter (fun x => negb (f x)) l = l.
Proof.
  induction l as [|a l IH]; cbn; [reflexivity|]. destruct (f a); cbn; [discriminate|]. intros H. f_equal. auto.
Qed.

Lemma classify_cases st r :
  (untouched [r] = [r] /\ mixed [r] = [] /\ classify_ring st r = Ok (fst st ++ [r], snd st)) \/
  (untouched [r] = [] /\ mixed [r] = [] /\ classify_ring st r = Ok st) \/
  (untouched [r] = [] /\ mixed [r] = [r] /\
   classify_ring st r = (m' <- index_edges (snd st) (useful r) ;; Ok (fst st, m'))).
Proof.
  unfold classify_ring, untouched, mixed. cbn [filter].
  change (filter (fun e => negb (is_redundant e)) r) with (useful r).
  change (filter is_redundant r) with (filter redundantb r).
  destruct (length (filter redundantb r)) as [|n] eqn:E1.
  - apply filter_none in E1. rewrite E1. cbn [negb andb]. left. unfold useful. rewrite filter_all by assumption. auto.
  - assert (existsb redundantb r = true) as ->.
    { destruct (existsb redundantb r) eqn:E; [reflexivity|]. apply filter_none in E. congruence. }
    cbn [negb andb]. right. destruct (length (useful r)) as [|k] eqn:E2.
    + apply filter_negb_none in E2. rewrite E2. left. auto.
    + right. assert (forallb redundantb r = false) as ->.
      { destruct (forallb redundantb r) eqn:E; [|reflexivity]. apply filter_negb_none in E. unfold useful in E2. congruence. }
      auto.
Qed.

Lemma untouched_cons r rs : untouched (r :: rs) = untouched [r] ++ untouched rs.
Proof. unfold untouched. cbn [filter]. destruct (negb _); reflexivity. Qed.

Lemma pool_cons r rs : pool (r :: rs) = pool [r] ++ pool rs.
Proof.
  unfold pool, mixed. cbn [filter]. destruct (_ && _); cbn; [rewrite app_nil_r|]; reflexivity.
Qed.

Lemma useful_longs r : longs r -> longs (useful r).
Proof.
  unfold longs, long. rewrite !(Forall_map ne_points). intros H. apply Forall_forall. intros e He.
  apply filter_In in He as (He & _). rewrite Forall_forall in H. auto.
Qed.

Lemma pool_longs rs : Forall longs rs -> longs (pool rs).
Proof.
  induction 1 as [|r rs H HF IH]; [constructor|]. rewrite pool_cons. apply longs_app. split; [|assumption].
  unfold pool, mixed. cbn [filter]. destruct (_ && _); cbn; [rewrite app_nil_r; apply useful_longs; assumption|constructor].
Qed.

Lemma pool_single_mixed r : mixed [r] = [r] -> pool [r] = useful r.
Proof. unfold pool. intros ->. cbn. apply app_nil_r. Qed.

Lemma pool_single_none r : mixed [r] = [] -> pool [r] = [].
Proof. unfold pool. intros ->. reflexivity. Qed.

Lemma classify_ok rs : forall ret m ret' m', mwf m -> Forall longs rs ->
  mfold classify_ring rs (ret, m) = Ok (ret', m') ->
  mwf m' /\ ret' = ret ++ untouched rs /\ Permutation (map snd m') (map snd m ++ pool rs).
Proof.
  induction rs as [|r rs IH]; intros ret m ret' m' W L; cbn [mfold].
  - intros [= <- <-]. rewrite !app_nil_r. auto.
  - inversion L as [|? ? Lr L']; subst. rewrite untouched_cons, pool_cons.
    destruct (classify_cases (ret, m) r) as [(-> & E2 & ->)|[(-> & E2 & ->)|(-> & E2 & ->)]]; cbn [fst snd bind].
    + intros H. destruct (IH _ _ _ _ W L' H) as (W' & -> & P). rewrite (pool_single_none r E2), <- app_assoc. auto.
    + intros H. destruct (IH _ _ _ _ W L' H) as (W' & -> & P). rewrite (pool_single_none r E2). auto.
    + destruct (index_edges m (useful r)) as [m1|] eqn:Ei; cbn [bind]; [|discriminate]. intros H.
      apply index_edges_ok in Ei as (W1 & P1); [|assumption|apply useful_longs; assumption].
      destruct (IH _ _ _ _ W1 L' H) as (W' & -> & P). split; [assumption|]. split; [reflexivity|].
      rewrite P, P1, (pool_single_mixed r E2), <- app_assoc. reflexivity.
Qed.

Lemma NoDup_app_l {A} (a b : list A) : NoDup (a ++ b) -> NoDup a.
Proof.
  induction a as [|x a IH]; cbn; [constructor|]. intros H. inversion H; subst. constructor; [|auto].
  intros Hx. apply H2. apply in_app_iff. auto.
Qed.

Lemma classify_returns rs : forall ret m, mwf m -> Forall longs rs ->
  NoDup (starts (map snd m ++ pool rs)) ->
  exists ret' m', mfold classify_ring rs (ret, m) = Ok (ret', m').
Proof.
  induction rs as [|r rs IH]; intros ret m W L N; cbn [mfold]; [eauto|].
  inversion L as [|? ? Lr L']; subst. rewrite pool_cons in N.
  destruct (classify_cases (ret, m) r) as [(E1 & E2 & ->)|[(E1 & E2 & ->)|(E1 & E2 & ->)]]; cbn [fst snd bind].
  - rewrite (pool_single_none r E2) in N. apply IH; assumption.
  - rewrite (pool_single_none r E2) in N. apply IH; assumption.
  - rewrite (pool_single_mixed r E2), app_assoc, starts_app in N.
    destruct (index_edges_returns (useful r) m W (useful_longs r Lr)) as (m1 & E).
    { apply NoDup_app_l in N. exact N. }
    rewrite E. cbn [bind]. apply index_edges_ok in E as (W1 & P1); [|assumption|apply useful_longs; assumption].
    apply IH; [assumption|assumption|]. rewrite <- starts_app in N.
    eapply Permutation_NoDup; [|exact N]. apply starts_perm. rewrite P1. reflexivity.
Qed.

(** ** Following edges *)

Lemma last_point e q : final (ne_points e) = Some q ->
  match rev (ne_points e) with [] => Panic PUnwrap | p :: _ => Ok p end = Ok q.
Proof. unfold final. destruct (rev (ne_points e)); [discriminate|]. cbn. congruence. Qed.

Lemma follow_ok fuel : forall start endp m acc es m', mwf m -> longs (map snd m) ->
  follow fuel start endp m acc = Ok (es, m') ->
  exists c, es = acc ++ c /\ c <> [] /\ chain endp (map ne_points c) start /\
    Permutation (map snd m) (c ++ map snd m') /\ mwf m' /\ (length m' < length m)%nat.
Proof.
  induction fuel as [|fuel IH]; intros start endp m acc es m' W L; cbn [follow]; [discriminate|].
  destruct (bm_remove endp m) as [(e & m1)|] eqn:Er; [|discriminate].
  apply bm_remove_some in Er as (W1 & P1 & F1 & L1 & _); [|assumption].
  pose proof (longs_perm _ _ P1 L) as Lp. apply longs_cons in Lp as (Le & Lm1).
  destruct (long_first e Le) as (p & q & Fp & Fq). rewrite (last_point e q Fq). cbn [bind].
  destruct (pt_eqb_spec q start) as [->|E].
  - intros [= <- <-]. exists [e]. split; [reflexivity|]. split; [discriminate|]. split.
    + cbn. split; [assumption|]. eauto.
    + split; [assumption|]. split; [assumption|lia].
  - intros H. destruct (IH _ _ _ _ _ _ W1 Lm1 H) as (c & -> & Nc & HC & P & W' & L').
    exists (e :: c). split; [rewrite <- app_assoc; reflexivity|]. split; [discriminate|]. split.
    + cbn. split; [assumption|]. eauto.
    + split; [rewrite P1, P; reflexivity|]. split; [assumption|lia].
Qed.

Lemma follow_returns fuel : forall start endp m acc, mwf m -> longs (map snd m) ->
  (length m < fuel)%nat ->
  (endp = start -> m <> []) ->
  Permutation (Some start :: starts (map snd m)) (Some endp :: ends (map snd m)) ->
  (endp = start -> In start (map fst m)) ->
  exists es m', follow fuel start endp m acc = Ok (es, m') /\
    Permutation (starts (map snd m')) (ends (map snd m')).
Proof.
  induction fuel as [|fuel IH]; intros start endp m acc W L Hf Hne P Hs; [lia|]. cbn [follow].
  assert (He : In endp (map fst m)).
  { destruct (point_eq_dec endp start) as [->|N]; [auto|].
    assert (In (Some endp) (Some start :: starts (map snd m))).
    { eapply Permutation_in; [symmetry; exact P|left; reflexivity]. }
    destruct H as [H|H]; [congruence|]. rewrite <- (mwf_keys m W) in H. apply in_map_iff in H as (x & [= ->] & H). exact H. }
  destruct (bm_remove endp m) as [(e & m1)|] eqn:Er; [|apply bm_remove_none in Er; contradiction].
  apply bm_remove_some in Er as (W1 & P1 & F1 & L1 & _); [|assumption].
  pose proof (longs_perm _ _ P1 L) as Lp. apply longs_cons in Lp as (Le & Lm1).
  destruct (long_first e Le) as (p & q & Fp & Fq). rewrite (last_point e q Fq). cbn [bind].
  assert (P2 : Permutation (Some start :: starts (map snd m1)) (Some q :: ends (map snd m1))).
  { apply (Permutation_cons_inv (a := Some endp)).
    rewrite perm_swap. rewrite <- F1, <- Fq.
    change (first (ne_points e) :: starts (map snd m1)) with (starts (e :: map snd m1)).
    change (final (ne_points e) :: ends (map snd m1)) with (ends (e :: map snd m1)).
    rewrite <- (starts_perm _ _ P1), <- (ends_perm _ _ P1), F1. exact P. }
  destruct (pt_eqb_spec q start) as [->|E].
  - eexists _, _. split; [reflexivity|]. apply Permutation_cons_inv in P2. exact P2.
  - apply IH; try assumption; try congruence. lia.
Qed.

(** ** Rebuilding rings *)

Lemma rebuilt_ring c : good c ->
  exists out, (es1 <- join_related_edges c ;; rotate_edges es1) = Ok out /\ from_cycle c out.
Proof.
  intros G. destruct (join_related_ok c (long_nonempty _ (proj1 (proj2 G)))) as (es1 & -> & J1 & F1).
  cbn [bind]. destruct (joined_facts _ _ G J1) as (G1 & _ & _).
  destruct (rotate_ok es1 G1) as (out & -> & S & R). exists out. split; [reflexivity|].
  split; [|split; [|assumption]].
  - destruct R as [R|(e & e' & -> & -> & Lb & T)].
    + left. eapply joined_rotation; eassumption.
    + right. exists e, e'. auto.
  - destruct R as [R|(e & e' & -> & -> & _)]; [eapply fewest_rotation; eassumption|apply fewest_single].
Qed.

Lemma rebuild_ok fuel : forall m ret out, mwf m -> longs (map snd m) -> rebuild fuel m ret = Ok out ->
  exists cycles ms, out = ret ++ ms /\ cycles_of (map snd m) cycles /\ Forall2 from_cycle cycles ms.
Proof.
  induction fuel as [|fuel IH]; intros m ret out W L.
  - destruct m as [|(k & v) m]; cbn [rebuild]; [|discriminate]. intros [= <-]. exists [], [].
    rewrite app_nil_r. repeat split; constructor.
  - destruct m as [|(k & v) m]; cbn [rebuild].
    { intros [= <-]. exists [], []. rewrite app_nil_r. repeat split; constructor. }
    set (M := (k, v) :: m) in *.
    destruct (follow (S (length M)) k k M []) as [(es & m1)|] eqn:Ef; [|discriminate].
    cbn [bind]. apply follow_ok in Ef as (c & E & Nc & HC & P & W1 & L1); [|assumption|assumption].
    cbn [app] in E. subst c. pose proof (longs_perm _ _ P L) as Lp. apply longs_app in Lp as (Le & Lm1).
    assert (G : good es) by (split; [assumption|split; [exact Le|exists k; assumption]]).
    destruct (rebuilt_ring es G) as (r & Er & Fr).
    destruct (join_related_edges es) as [es1|]; [|discriminate]. cbn [bind] in Er |- *. rewrite Er. cbn [bind].
    intros H. destruct (IH _ _ _ W1 Lm1 H) as (cycles & ms & -> & (PC & FC) & F2).
    exists (es :: cycles), (r :: ms). split; [rewrite <- app_assoc; reflexivity|]. split.
    + split; [cbn [concat]; rewrite P, PC; reflexivity|]. constructor; [|assumption].
      split; [assumption|]. exists k. assumption.
    + constructor; assumption.
Qed.

Lemma rebuild_returns fuel : forall m ret, mwf m -> longs (map snd m) -> (length m <= fuel)%nat ->
  Permutation (starts (map snd m)) (ends (map snd m)) -> exists out, rebuild fuel m ret = Ok out.
Proof.
  induction fuel as [|fuel IH]; intros m ret W L Hf HP.
  - destruct m; [|cbn in Hf; lia]. cbn. eauto.
  - destruct m as [|(k & v) m]; [cbn; eauto|]. cbn [rebuild]. set (M := (k, v) :: m) in *.
    destruct (follow_returns (S (length M)) k k M []) as (es & m1 & Ef & HP1); try assumption.
    { lia. } { intros _. discriminate. } { constructor. assumption. } { intros _. left. reflexivity. }
    rewrite Ef. cbn [bind]. apply follow_ok in Ef as (c & E & Nc & HC & P & W1 & L1); [|assumption|assumption].
    cbn [app] in E. subst c. pose proof (longs_perm _ _ P L) as Lp. apply longs_app in Lp as (Le & Lm1).
    assert (G : good es) by (split; [assumption|split; [exact Le|exists k; assumption]]).
    destruct (rebuilt_ring es G) as (r & Er & Fr).
    destruct (join_related_edges es) as [es1|]; [|discriminate]. cbn [bind] in Er |- *. rewrite Er. cbn [bind].
    apply IH; try assumption. unfold M in *. cbn in *. lia.
Qed.

(** Rebuilding never runs out of fuel. *)
Lemma follow_fuel fuel : forall start endp m acc, mwf m -> (length m < fuel)%nat ->
  follow fuel start endp m acc <> Panic PFuel.
Proof.
  induction fuel as [|fuel IH]; intros start endp m acc W Hf; [lia|]. cbn [follow].
  destruct (bm_remove endp m) as [(e & m1)|] eqn:Er; [|discriminate].
  apply bm_remove_some in Er as (W1 & P1 & F1 & L1 & _); [|assumption].
  destruct (rev (ne_points e)); cbn [bind]; [discriminate|]. destruct (pt_eqb _ _); [discriminate|].
  apply IH; [assumption|lia].
Qed.

(** ** Sorting *)

Definition key_le (a b : point * norm_ring) : Prop := le_point (fst a) (fst b).

Lemma insert_perm k r l : Permutation (insert_by_key k r l) ((k, r) :: l).
Proof.
  induction l as [|(k' & r') l IH]; cbn [insert_by_key]; [reflexivity|].
  destruct (_ || _); [|reflexivity]. rewrite IH. apply perm_swap.
Qed.

Lemma insert_sorted k r l : StronglySorted key_le l -> StronglySorted key_le (insert_by_key k r l).
Proof.
  induction 1 as [|(k' & r') l H IH HA]; cbn [insert_by_key]; [repeat constructor|].
  destruct (pt_ltb k' k || pt_eqb k' k) eqn:E.
  - constructor; [assumption|]. eapply Permutation_Forall; [symmetry; apply insert_perm|].
    constructor; [|assumption]. unfold key_le. cbn. apply orb_true_iff in E as [E|E].
    + left. apply pt_ltb_lt. assumption.
    + right. apply pt_eqb_eq. assumption.
  - apply orb_false_iff in E as (E & _). apply pt_ltb_le in E.
    constructor; [constructor; assumption|]. constructor; [assumption|]. eapply Forall_impl; [|exact HA].
    intros a Ha. unfold key_le in *. cbn in *. eapply le_point_trans; eassumption.
Qed.

Lemma insert_all l : forall acc, StronglySorted key_le acc ->
  StronglySorted key_le (fold_left (fun acc kr => insert_by_key (fst kr) (snd kr) acc) l acc) /\
  Permutation (fold_left (fun acc kr => insert_by_key (fst kr) (snd kr) acc) l acc) (acc ++ l).
Proof.
  induction l as [|(k & r) l IH]; intros acc H; cbn [fold_left].
  - rewrite app_nil_r. auto.
  - destruct (IH _ (insert_sorted k r acc H)) as (S & P). split; [exact S|].
    rewrite P. cbn [fst snd]. rewrite insert_perm. cbn [app]. apply Permutation_middle.
Qed.

Lemma ring_keys rs : Forall (fun r => r <> [] /\ nonempty_pts r) rs ->
  exists ks, mmap ring_key rs = Ok ks /\ Forall2 (fun r k => ring_start (map ne_points r) = Some k) rs ks.
Proof.
  induction 1 as [|r rs (Hr & Hn) HF (ks & E & H2)]; cbn [mmap]; [exists []; auto|].
  destruct r as [|e r]; [congruence|]. inversion Hn; subst. unfold ring_key at 1, get, get_or. cbn [nth_error bind].
  destruct (ne_points e) as [|p l] eqn:Ep; [congruence|]. cbn [nth_error bind]. rewrite E. cbn [bind].
  exists (p :: ks). split; [reflexivity|]. constructor; [cbn; rewrite Ep; reflexivity|assumption].
Qed.

Lemma combine_snd {A B} (P : A -> B -> Prop) l l' : Forall2 P l l' -> map snd (combine l' l) = l.
Proof. induction 1; cbn; [reflexivity|]. f_equal. assumption. Qed.

Lemma combine_in {A B} (P : A -> B -> Prop) l l' : Forall2 P l l' -> Forall (fun x => P (snd x) (fst x)) (combine l' l).
Proof. induction 1; cbn; constructor; auto. Qed.

Lemma sort_rings_ok rs : Forall (fun r => r <> [] /\ nonempty_pts r) rs ->
  exists out, sort_rings rs = Ok out /\ Permutation rs out /\ in_order (map (map ne_points) out).
Proof.
  intros H. unfold sort_rings. destruct (Nat.leb_spec (@length norm_ring rs) 1) as [L|L].
  - exists rs. split; [reflexivity|]. split; [reflexivity|].
    destruct rs as [|r [|r' rs]]; [constructor|repeat constructor|cbn in L; lia].
  - destruct (ring_keys rs H) as (ks & -> & H2). cbn [bind].
    destruct (insert_all (combine ks rs) [] (SSorted_nil _)) as (S & P). cbn [app] in P.
    set (s := fold_left _ _ _) in *. clearbody s.
    exists (map snd s). split; [reflexivity|]. split.
    + rewrite <- (combine_snd _ _ _ H2) at 1. apply Permutation_map. symmetry. assumption.
    + apply combine_in in H2. apply (Permutation_Forall (Permutation_sym P)) in H2. clear -S H2. unfold in_order.
      induction S as [|(k & r) l HS IH HA]; cbn [map]; [constructor|]. inversion H2 as [|? ? Hk HF]; subst.
      constructor; [auto|]. apply (Forall_map (map ne_points)). apply Forall_forall. intros x Hx. apply in_map_iff in Hx as ((k' & r') & <- & Hx).
      rewrite Forall_forall in HA, HF. specialize (HA _ Hx). specialize (HF _ Hx). cbn [fst snd] in *.
      exists k, k'. auto.
Qed.

(** ** [join_adjacent_rings] *)

Lemma from_cycle_good c out : longs c -> c <> [] /\ closed_chain (map ne_points c) -> from_cycle c out -> good out.
Proof.
  intros L (N & C) (T & _). apply (good_tidied c); [|assumption]. split; [assumption|]. split; assumption.
Qed.

Lemma longs_concat cs : longs (concat cs) -> Forall longs cs.
Proof. induction cs; cbn [concat]; [constructor|]. rewrite longs_app. intros (H1 & H2). constructor; auto. Qed.

Lemma cycles_good es cycles ms : longs es -> cycles_of es cycles -> Forall2 from_cycle cycles ms ->
  Forall good cycles /\ Forall good ms.
Proof.
  intros L (P & HF) F2. apply Permutation_sym in P. pose proof (longs_perm _ _ P L) as Lc. apply longs_concat in Lc.
  assert (Gc : Forall good cycles).
  { rewrite Forall_forall in *. intros c Hc. destruct (HF c Hc) as (N & C). split; [assumption|].
    split; [apply Lc; assumption|assumption]. }
  split; [assumption|]. eapply Forall2_Forall_r; [|exact Gc|exact F2].
  intros a b Ha (T & _). apply (good_tidied a); assumption.
Qed.

Lemma good_keys r : good r -> r <> [] /\ nonempty_pts r.
Proof. intros (N & L & _). split; [assumption|apply long_nonempty; assumption]. Qed.

Lemma untouched_good rs : Forall good rs -> Forall good (untouched rs).
Proof.
  rewrite !Forall_forall. intros H r Hr. apply filter_In in Hr as (Hr & _). auto.
Qed.

Lemma join_adjacent_ok rs out : Forall good rs -> join_adjacent_rings rs = Ok out ->
  exists cycles ms, cycles_of (pool rs) cycles /\ Forall2 from_cycle cycles ms /\
    Permutation out (untouched rs ++ ms) /\ traversable (pool rs).
Proof.
  intros G. assert (L : Forall longs rs) by (eapply Forall_impl; [|exact G]; intros a Ha; apply Ha).
  unfold join_adjacent_rings. destruct (mfold classify_ring rs ([], [])) as [(ret & m)|] eqn:Ec; [|discriminate].
  cbn [bind]. apply classify_ok in Ec as (W & -> & P); [|split; constructor|assumption]. cbn [map app] in P |- *.
  assert (Lm : longs (map snd m)) by (eapply longs_perm; [symmetry; exact P|apply pool_longs; assumption]).
  destruct m as [|kv m].
  - intros [= <-]. exists [], []. cbn [map] in P. apply Permutation_nil in P. rewrite P, app_nil_r.
    split; [split; constructor|]. split; [constructor|]. split; [reflexivity|]. split; constructor.
  - destruct (rebuild (length (kv :: m)) (kv :: m) (untouched rs)) as [ret'|] eqn:Er; [|discriminate]. cbn [bind].
    apply rebuild_ok in Er as (cycles & ms & -> & C & F2); [|assumption|assumption].
    destruct (cycles_good _ _ _ Lm C F2) as (Gc & Gm).
    unfold norm_ring in *. destruct (sort_rings_ok (untouched rs ++ ms)) as (s & -> & Ps & _).
    { apply Forall_app. split; (eapply Forall_impl; [apply good_keys|]); [apply untouched_good|]; assumption. }
    intros [= <-]. exists cycles, ms. split; [|split; [assumption|split; [symmetry; assumption|]]].
    + destruct C as (C1 & C2). split; [rewrite C1; assumption|assumption].
    + split.
      * eapply Permutation_NoDup; [apply starts_perm, P|]. apply mwf_nodup. assumption.
      * destruct C as (C1 & C2). pose proof (Permutation_trans C1 P) as PC. rewrite <- (starts_perm _ _ PC), <- (ends_perm _ _ PC). clear -C2.
        induction C2 as [|c cs (_ & p & HC) HF IH]; [reflexivity|]. cbn [concat]. rewrite starts_app, ends_app.
        apply Permutation_app; [|exact IH]. clear -HC.
        assert (X : forall es p q, chain p (map ne_points es) q -> Permutation (starts es ++ [Some q]) (Some p :: ends es)).
        { clear. induction es as [|e es IH]; intros p q; cbn [map chain].
          - intros ->. reflexivity.
          - intros (F & r & E & H). unfold starts, ends. cbn [map]. rewrite F, E. cbn [app]. constructor. apply IH. assumption. }
        apply X in HC. rewrite Permutation_app_comm in HC. cbn [app] in HC. apply Permutation_cons_inv in HC. exact HC.
Qed.

Lemma join_adjacent_returns rs : Forall good rs -> traversable (pool rs) ->
  exists out, join_adjacent_rings rs = Ok out.
Proof.
  intros G (N & HP). assert (L : Forall longs rs) by (eapply Forall_impl; [|exact G]; intros a Ha; apply Ha).
  unfold join_adjacent_rings. destruct (classify_returns rs [] []) as (ret & m & Ec); [split; constructor|assumption|assumption|].
  unfold bmap, norm_ring in *. rewrite Ec. cbn [bind]. apply classify_ok in Ec as (W & -> & P); [|split; constructor|assumption].
  cbn [map app] in P |- *. assert (Lm : longs (map snd m)) by (eapply longs_perm; [symmetry; exact P|apply pool_longs; assumption]).
  destruct m as [|kv m]; [eauto|].
  destruct (rebuild_returns (length (kv :: m)) (kv :: m) (untouched rs)) as (ret' & Er); [assumption|assumption|lia| |].
  { rewrite (starts_perm _ _ P), (ends_perm _ _ P). assumption. }
  rewrite Er. cbn [bind]. apply rebuild_ok in Er as (cycles & ms & -> & C & F2); [|assumption|assumption].
  destruct (cycles_good _ _ _ Lm C F2) as (Gc & Gm).
  unfold norm_ring in *. destruct (sort_rings_ok (untouched rs ++ ms)) as (s & -> & Ps & _); [|eauto].
  apply Forall_app. split; (eapply Forall_impl; [apply good_keys|]); [apply untouched_good|]; assumption.
Qed.

Lemma untouched_all rs : Forall (Forall (fun e => ~ redundant e)) rs -> untouched rs = rs /\ pool rs = [].
Proof.
  induction 1 as [|r rs H HF (IH1 & IH2)]; [split; reflexivity|].
  assert (E : existsb redundantb r = false).
  { destruct (existsb redundantb r) eqn:E; [|reflexivity]. apply existsb_exists in E as (e & He & Er).
    rewrite Forall_forall in H. destruct (H e He). rewrite redundantb_spec in Er.
    destruct (is_redundant_spec e); [assumption|discriminate]. }
  rewrite untouched_cons, pool_cons, IH1, IH2. unfold untouched, pool, mixed. cbn [filter]. rewrite E. split; reflexivity.
Qed.
