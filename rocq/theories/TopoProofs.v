(** * TopoProofs: lemmas about Topology *)
From Verif Require Import TopoSpec GeoProofs.

(** ** Monadic loops *)
Lemma mfold_app {S A} (f : S -> A -> res S) l1 l2 s :
  mfold f (l1 ++ l2) s = (s' <- mfold f l1 s ;; mfold f l2 s').
Proof.
  revert s. induction l1 as [|a l1 IH]; intros s; [reflexivity|]. cbn [app mfold].
  destruct (f s a); cbn [bind]; [apply IH|reflexivity].
Qed.

Lemma mfold_flat_map {S A B} (f : S -> B -> res S) (g : A -> list B) l s :
  mfold f (flat_map g l) s = mfold (fun s a => mfold f (g a) s) l s.
Proof.
  revert s. induction l as [|a l IH]; intros s; [reflexivity|]. cbn [flat_map mfold].
  rewrite mfold_app. destruct (mfold f (g a) s); cbn [bind]; [apply IH|reflexivity].
Qed.

Lemma mfold_map {S A B} (f : S -> B -> res S) (g : A -> B) l s :
  mfold f (map g l) s = mfold (fun s a => f s (g a)) l s.
Proof.
  revert s. induction l as [|a l IH]; intros s; [reflexivity|]. cbn [map mfold].
  destruct (f s (g a)); cbn [bind]; [apply IH|reflexivity].
Qed.

Lemma mfold_ext {S A} (f g : S -> A -> res S) l s :
  (forall s a, In a l -> f s a = g s a) -> mfold f l s = mfold g l s.
Proof.
  intros H. revert s. induction l as [|a l IH]; intros s; [reflexivity|]. cbn [mfold].
  rewrite (H s a) by (left; reflexivity). destruct (g s a); cbn [bind]; [|reflexivity].
  apply IH. intros. apply H. right. assumption.
Qed.

Lemma mmap_ok {A B} (f : A -> res B) (g : A -> B) l :
  (forall a, In a l -> f a = Ok (g a)) -> mmap f l = Ok (map g l).
Proof.
  intros H. induction l as [|a l IH]; [reflexivity|]. cbn [mmap map].
  rewrite (H a) by (left; reflexivity). cbn [bind]. rewrite IH; [reflexivity|].
  intros. apply H. right. assumption.
Qed.

Lemma mmap_Ok_inv {A B} (f : A -> res B) l bs : mmap f l = Ok bs -> Forall2 (fun a b => f a = Ok b) l bs.
Proof.
  revert bs. induction l as [|a l IH]; intros bs; cbn [mmap].
  - intros [= <-]. constructor.
  - destruct (f a) eqn:E; cbn [bind]; [|discriminate].
    destruct (mmap f l) eqn:E'; cbn [bind]; [|discriminate]. intros [= <-]. constructor; auto.
Qed.

Lemma bind_Ok {A B} (x : res A) (k : A -> res B) b :
  bind x k = Ok b -> exists a, x = Ok a /\ k a = Ok b.
Proof. destruct x as [a|p]; cbn [bind]; [eauto|discriminate]. Qed.
Lemma bind_Panic {A B} (x : res A) (k : A -> res B) p :
  bind x k = Panic p -> x = Panic p \/ exists a, x = Ok a /\ k a = Panic p.
Proof. destruct x as [a|q]; cbn [bind]; [eauto|]. intros [= ->]. left. reflexivity. Qed.

(** ** enumerate, set_nth *)
Lemma nth_error_enumerate_from {A} (l : list A) s i :
  nth_error (combine (seq s (length l)) l) i = option_map (fun a => ((s + i)%nat, a)) (nth_error l i).
Proof.
  revert s i. induction l as [|a l IH]; intros s i; [destruct i; reflexivity|].
  destruct i as [|i]; cbn; [rewrite Nat.add_0_r; reflexivity|].
  rewrite IH. destruct (nth_error l i); cbn; [|reflexivity]. do 2 f_equal. lia.
Qed.
Lemma nth_error_enumerate {A} (l : list A) i :
  nth_error (enumerate l) i = option_map (fun a => (i, a)) (nth_error l i).
Proof. unfold enumerate. rewrite nth_error_enumerate_from. reflexivity. Qed.
Lemma enumerate_length {A} (l : list A) : length (enumerate l) = length l.
Proof. unfold enumerate. rewrite combine_length, seq_length. lia. Qed.
Lemma in_enumerate {A} (l : list A) i a : In (i, a) (enumerate l) <-> nth_error l i = Some a.
Proof.
  split.
  - intros H. apply In_nth_error in H as [k Hk]. rewrite nth_error_enumerate in Hk.
    destruct (nth_error l k) eqn:E; [|discriminate]. cbn in Hk. injection Hk as -> ->. assumption.
  - intros H. apply (nth_error_In _ i). rewrite nth_error_enumerate, H. reflexivity.
Qed.
Lemma map_snd_enumerate {A} (l : list A) : map snd (enumerate l) = l.
Proof.
  unfold enumerate. generalize 0%nat. induction l as [|a l IH]; intros s; [reflexivity|].
  cbn. f_equal. apply IH.
Qed.
Lemma combine_map_r {A B C} (g : B -> C) (l : list A) (l' : list B) :
  combine l (map g l') = map (fun p => (fst p, g (snd p))) (combine l l').
Proof. revert l'. induction l as [|a l IH]; intros [|b l']; cbn; [reflexivity..|]. f_equal. apply IH. Qed.
Lemma enumerate_map {A B} (g : A -> B) l :
  enumerate (map g l) = map (fun p => (fst p, g (snd p))) (enumerate l).
Proof. unfold enumerate. rewrite map_length. apply combine_map_r. Qed.
Lemma nth_error_ext {A} (l l' : list A) : (forall i, nth_error l i = nth_error l' i) -> l = l'.
Proof.
  revert l'. induction l as [|a l IH]; intros [|b l'] H.
  - reflexivity.
  - specialize (H 0%nat). discriminate.
  - specialize (H 0%nat). discriminate.
  - f_equal; [specialize (H 0%nat); cbn in H; congruence|]. apply IH. intros i. apply (H (S i)).
Qed.
Lemma nth_error_set_nth {A} (l : list A) i j a :
  nth_error (set_nth l i a) j =
    if Nat.eqb i j then option_map (fun _ => a) (nth_error l j) else nth_error l j.
Proof.
  revert i j. induction l as [|x l IH]; intros i j.
  - destruct i, j; cbn; try reflexivity. destruct (i =? j)%nat; reflexivity.
  - destruct i, j; cbn; try reflexivity. apply IH.
Qed.
Lemma set_nth_length {A} (l : list A) i a : length (set_nth l i a) = length l.
Proof. revert i. induction l as [|x l IH]; intros [|i]; cbn; auto. Qed.

(** ** Linking edges to rings *)
Definition edge_with (pts : list point) (l : list ring_ref) : topo_edge :=
  TEdge pts (nth_error l 0) (nth_error l 1).
Definition state_of (pts : list (list point)) (l : nat -> list ring_ref) : list topo_edge :=
  map (fun ip => edge_with (snd ip) (l (fst ip))) (enumerate pts).

Lemma state_of_nth pts l i :
  nth_error (state_of pts l) i = option_map (fun p => edge_with p (l i)) (nth_error pts i).
Proof.
  unfold state_of. rewrite nth_error_map, nth_error_enumerate.
  destruct (nth_error pts i); reflexivity.
Qed.
Lemma state_of_length pts l : length (state_of pts l) = length pts.
Proof. unfold state_of. rewrite map_length. apply enumerate_length. Qed.
Lemma state_of_ext pts l l' : (forall i, (i < length pts)%nat -> l i = l' i) -> state_of pts l = state_of pts l'.
Proof.
  intros H. apply nth_error_ext. intros i. rewrite !state_of_nth.
  destruct (nth_error pts i) eqn:E; [|reflexivity]. cbn. rewrite H; [reflexivity|].
  apply nth_error_Some. congruence.
Qed.
Lemma state_of_nil pts : state_of pts (fun _ => []) = map (fun p => TEdge p None None) pts.
Proof.
  apply nth_error_ext. intros i. rewrite state_of_nth, nth_error_map.
  destruct (nth_error pts i); reflexivity.
Qed.

Definition link1 (es : list topo_edge) (u : nat * ring_ref) : res (list topo_edge) :=
  link_edge (snd u) es (DE (fst u) Forward).

Lemma link1_state pts l u :
  (fst u < length pts)%nat -> (length (l (fst u)) <= 2)%nat ->
  link1 (state_of pts l) u =
    if (length (l (fst u)) <? 2)%nat
    then Ok (state_of pts (fun i => if Nat.eqb (fst u) i then l i ++ [snd u] else l i))
    else Panic PAssert.
Proof.
  destruct u as [k rr]. cbn [fst snd]. intros Hk Hl. unfold link1, link_edge, get_or. cbn [fst snd de_edge].
  rewrite state_of_nth. destruct (nth_error pts k) as [p|] eqn:E.
  2:{ apply nth_error_None in E. lia. }
  cbn [option_map bind].
  assert (Hset : forall e', e' = edge_with p (l k ++ [rr]) ->
     set_nth (state_of pts l) k e' = state_of pts (fun i => if Nat.eqb k i then l i ++ [rr] else l i)).
  { intros e' ->. apply nth_error_ext. intros i. rewrite nth_error_set_nth, !state_of_nth.
    destruct (Nat.eqb_spec k i) as [->|]; [|reflexivity].
    rewrite E. reflexivity. }
  destruct (l k) as [|a [|b [|c t]]] eqn:El; cbn [length] in *; try lia; cbn [edge_with nth_error te_ring0 te_ring1 te_points is_none rassert bind Nat.ltb Nat.leb].
  - rewrite Hset by reflexivity. reflexivity.
  - rewrite Hset by reflexivity. reflexivity.
  - reflexivity.
Qed.

Lemma users_cons i u us : users i (u :: us) = if Nat.eqb (fst u) i then snd u :: users i us else users i us.
Proof. unfold users. cbn [filter]. destruct (fst u =? i)%nat; reflexivity. Qed.
Lemma users_app i us vs : users i (us ++ vs) = users i us ++ users i vs.
Proof. unfold users. rewrite filter_app, map_app. reflexivity. Qed.

Lemma forallb_ext_in {A} (f g : A -> bool) l : (forall a, In a l -> f a = g a) -> forallb f l = forallb g l.
Proof.
  intros H. induction l as [|a l IH]; [reflexivity|]. cbn. rewrite H by (left; reflexivity).
  rewrite IH; [reflexivity|]. intros. apply H. right. assumption.
Qed.

Lemma link_all pts us l :
  (forall u, In u us -> (fst u < length pts)%nat) ->
  (forall i, (i < length pts)%nat -> (length (l i) <= 2)%nat) ->
  mfold link1 us (state_of pts l) =
    if forallb (fun i => (length (l i ++ users i us) <=? 2)%nat) (seq 0 (length pts))
    then Ok (state_of pts (fun i => l i ++ users i us)) else Panic PAssert.
Proof.
  revert l. induction us as [|u us IH]; intros l Hu Hl.
  - cbn [mfold]. rewrite (proj2 (forallb_forall _ _)).
    + f_equal. apply state_of_ext. intros. cbn. rewrite app_nil_r. reflexivity.
    + intros i Hi. apply in_seq in Hi. cbn. rewrite app_nil_r. apply Nat.leb_le, Hl. lia.
  - cbn [mfold]. assert (Hk : (fst u < length pts)%nat) by (apply Hu; left; reflexivity).
    rewrite link1_state by auto.
    destruct (Nat.ltb_spec (length (l (fst u))) 2) as [H2|H2]; cbn [bind].
    + rewrite IH.
      * assert (EE : forall i, (if (fst u =? i)%nat then l i ++ [snd u] else l i) ++ users i us = l i ++ users i (u :: us)).
        { intros i. rewrite users_cons. destruct (fst u =? i)%nat; [|reflexivity]. rewrite <- app_assoc. reflexivity. }
        rewrite (forallb_ext_in _ (fun i => (length (l i ++ users i (u :: us)) <=? 2)%nat)) by (intros; rewrite EE; reflexivity).
        rewrite (state_of_ext pts _ (fun i => l i ++ users i (u :: us))) by (intros; apply EE). reflexivity.
      * intros v Hv. apply Hu. right. assumption.
      * intros i Hi. destruct (Nat.eqb_spec (fst u) i) as [<-|]; [rewrite app_length; cbn; lia|apply Hl, Hi].
    + destruct (forallb _ _) eqn:E; [|reflexivity]. exfalso.
      rewrite forallb_forall in E. specialize (E (fst u)).
      rewrite users_cons, Nat.eqb_refl, app_length in E. cbn [length] in E.
      specialize (E ltac:(apply in_seq; lia)). apply Nat.leb_le in E. lia.
Qed.

Lemma link_ring_uses ri s kr es : link_ring ri s es kr = mfold link1 (uses_ring ri s kr) es.
Proof. unfold link_ring, uses_ring. rewrite mfold_map. apply mfold_ext. reflexivity. Qed.

Lemma link_region_uses {D} (ir : nat * topo_region D) es : link_region es ir = mfold link1 (uses_region ir) es.
Proof.
  unfold link_region, uses_region. rewrite mfold_app, !mfold_flat_map.
  rewrite (mfold_ext _ (fun s a => mfold link1 (uses_ring (fst ir) Outer a) s) _ es)
    by (intros; apply link_ring_uses).
  destruct (mfold _ _ es); cbn [bind]; [|reflexivity].
  rewrite mfold_flat_map. apply mfold_ext. intros. apply link_ring_uses.
Qed.

Lemma link_regions_uses {D} (rs : list (topo_region D)) es :
  mfold link_region (enumerate rs) es = mfold link1 (uses rs) es.
Proof. unfold uses. rewrite mfold_flat_map. apply mfold_ext. intros. apply link_region_uses. Qed.

(** ** finish_topology *)
Definition final_ring (i : nat) (r : build_ring) : topo_ring := TRing r (Some i).
Definition final_region {D} (ib : nat * build_region D) : topo_region D :=
  TRegion (br_data (snd ib)) (map (final_ring (fst ib)) (br_outer (snd ib)))
          (map (final_ring (fst ib)) (br_inner (snd ib))).
Definition final_regions {D} (regs : list (build_region D)) : list (topo_region D) :=
  map final_region (enumerate regs).

Definition null_ring (r : build_ring) : topo_ring := TRing r None.
Definition null_region {D} (b : build_region D) : topo_region D :=
  TRegion (br_data b) (map null_ring (br_outer b)) (map null_ring (br_inner b)).

Definition br_rings {D} (b : build_region D) : list build_ring := br_outer b ++ br_inner b.
Definition ids_below {D} (n : nat) (regs : list (build_region D)) : Prop :=
  forall b r d, In b regs -> In r (br_rings b) -> In d r -> (de_edge d < n)%nat.

Lemma topo_ring_null_ok n r : (forall d, In d r -> (de_edge d < n)%nat) -> topo_ring_null n r = Ok (null_ring r).
Proof.
  intros H. unfold topo_ring_null. rewrite (mmap_ok _ (fun d => d)).
  - cbn [bind]. rewrite map_id. reflexivity.
  - intros d Hd. apply H in Hd. apply Nat.ltb_lt in Hd. rewrite Hd. reflexivity.
Qed.

Lemma null_regions_ok {D} n (regs : list (build_region D)) :
  ids_below n regs -> mmap (topo_region_null n) regs = Ok (map null_region regs).
Proof.
  intros H. apply mmap_ok. intros b Hb. unfold topo_region_null.
  rewrite (mmap_ok _ null_ring), (mmap_ok _ null_ring); [reflexivity| |];
    intros r Hr; apply topo_ring_null_ok; intros d Hd; apply (H b r d Hb); auto; unfold br_rings; apply in_or_app; tauto.
Qed.

Lemma uses_ring_final ri s k r : uses_ring ri s (k, null_ring r) = uses_ring ri s (k, final_ring ri r).
Proof. reflexivity. Qed.

Lemma flat_map_enumerate_map {A B C} (g : A -> B) (f : nat * B -> list C) l :
  flat_map f (enumerate (map g l)) = flat_map (fun p => f (fst p, g (snd p))) (enumerate l).
Proof. rewrite enumerate_map, flat_map_concat_map, map_map, <- flat_map_concat_map. reflexivity. Qed.

Lemma flat_map_ext_in {A B} (f g : A -> list B) l : (forall a, In a l -> f a = g a) -> flat_map f l = flat_map g l.
Proof.
  intros H. induction l as [|a l IH]; [reflexivity|]. cbn. rewrite H by (left; reflexivity).
  rewrite IH; [reflexivity|]. intros. apply H. right. assumption.
Qed.

Lemma enumerate_combine_nth {A} (l : list A) : enumerate l = map (fun p => (fst p, snd p)) (enumerate l).
Proof. rewrite map_ext with (g := fun p => p); [rewrite map_id; reflexivity|]. intros [? ?]. reflexivity. Qed.

Lemma enumerate_map_i {A B} (g : nat * A -> B) l :
  enumerate (map g (enumerate l)) = map (fun p => (fst p, g p)) (enumerate l).
Proof.
  apply nth_error_ext. intros i. rewrite nth_error_enumerate, !nth_error_map, nth_error_enumerate.
  destruct (nth_error l i); reflexivity.
Qed.

Lemma uses_final {D} (regs : list (build_region D)) : uses (map null_region regs) = uses (final_regions regs).
Proof.
  unfold uses, final_regions. rewrite enumerate_map_i, flat_map_enumerate_map.
  rewrite (flat_map_concat_map _ (map _ _)), map_map, <- flat_map_concat_map.
  apply flat_map_ext_in. intros [i b] _. unfold uses_region. cbn [fst snd null_region final_region tg_outer tg_inner].
  rewrite !flat_map_enumerate_map. f_equal.
Qed.

Lemma set_region_final {D} (regs : list (build_region D)) :
  map set_region (enumerate (map null_region regs)) = final_regions regs.
Proof.
  rewrite enumerate_map, map_map. apply map_ext. intros [i b]. unfold set_region, final_region.
  cbn [fst snd null_region tg_data tg_outer tg_inner]. rewrite !map_map. reflexivity.
Qed.

Lemma in_uses {D} (regs : list (build_region D)) u : In u (uses (final_regions regs)) ->
  exists b r d, In b regs /\ In r (br_rings b) /\ In d r /\ de_edge d = fst u.
Proof.
  unfold uses, final_regions. rewrite enumerate_map_i. rewrite in_flat_map.
  intros ([i rg] & H1 & H2). apply in_map_iff in H1 as ([j b] & E & Hb). cbn [fst] in E. injection E as -> <-.
  apply in_enumerate, nth_error_In in Hb. unfold uses_region in H2. cbn [fst snd final_region tg_outer tg_inner] in H2.
  assert (HH : forall s rs, In u (flat_map (uses_ring i s) (enumerate (map (final_ring i) rs))) ->
     exists r d, In r rs /\ In d r /\ de_edge d = fst u).
  { intros s rs H. rewrite in_flat_map in H. destruct H as ([k r] & Hr & Hu).
    apply in_enumerate, nth_error_In, in_map_iff in Hr as (r' & <- & Hr').
    unfold uses_ring in Hu. cbn in Hu. apply in_map_iff in Hu as (d & <- & Hd). eauto. }
  exists b. rewrite in_app_iff in H2. destruct H2 as [H2|H2]; apply HH in H2 as (r & d & Hr & Hd & E); exists r, d;
    unfold br_rings; rewrite in_app_iff; tauto.
Qed.

Definition use_counts_ok (n : nat) (us : list (nat * ring_ref)) : bool :=
  forallb (fun i => (length (users i us) <=? 2)%nat) (seq 0 n).

Lemma finish_topology_eq {D} (regs : list (build_region D)) pts :
  ids_below (length pts) regs ->
  finish_topology regs (map (fun p => TEdge p None None) pts) =
    if use_counts_ok (length pts) (uses (final_regions regs))
    then Ok (Topology (final_regions regs) (state_of pts (fun i => users i (uses (final_regions regs)))))
    else Panic PAssert.
Proof.
  intros H. unfold finish_topology. rewrite map_length, null_regions_ok by assumption. cbn [bind].
  rewrite link_regions_uses, uses_final, <- state_of_nil, link_all.
  - cbn [app]. change (forallb _ _) with (use_counts_ok (length pts) (uses (final_regions regs))).
    destruct (use_counts_ok _ _); [|reflexivity]. cbn [bind]. rewrite set_region_final. reflexivity.
  - intros u Hu. apply in_uses in Hu as (b & r & d & Hb & Hr & Hd & E). rewrite <- E. eapply H; eassumption.
  - intros. cbn. lia.
Qed.

Lemma use_counts_ok_spec n us : use_counts_ok n us = true <-> forall i, (i < n)%nat -> (length (users i us) <= 2)%nat.
Proof.
  unfold use_counts_ok. rewrite forallb_forall. split; intros H i Hi.
  - apply Nat.leb_le, H, in_seq. lia.
  - apply Nat.leb_le, H. apply in_seq in Hi. lia.
Qed.

Lemma finish_exact {D} (regs : list (build_region D)) pts t :
  ids_below (length pts) regs ->
  finish_topology regs (map (fun p => TEdge p None None) pts) = Ok t ->
  exact_references t /\ tp_regions t = final_regions regs /\ map te_points (tp_edges t) = pts.
Proof.
  intros H. rewrite finish_topology_eq by assumption.
  destruct (use_counts_ok _ _) eqn:E; [|discriminate]. intros [= <-]. rewrite use_counts_ok_spec in E.
  split; [|split; [reflexivity|]].
  - split; [|split]; cbn [tp_regions tp_edges].
    + intros ri rg r Hrg Hr. unfold final_regions in Hrg. rewrite nth_error_map, nth_error_enumerate in Hrg.
      destruct (nth_error regs ri); [|discriminate]. cbn in Hrg. injection Hrg as <-. cbn in Hr.
      rewrite <- map_app in Hr. apply in_map_iff in Hr as (r' & <- & _). reflexivity.
    + intros u Hu. rewrite state_of_length. apply in_uses in Hu as (b & r & d & Hb & Hr & Hd & <-). eapply H; eassumption.
    + intros i e He. rewrite state_of_nth in He. destruct (nth_error pts i) eqn:Ep; [|discriminate].
      cbn in He. injection He as <-. split; [|split; reflexivity].
      apply E. apply nth_error_Some. congruence.
  - cbn [tp_edges]. apply nth_error_ext. intros i. rewrite nth_error_map, state_of_nth.
    destruct (nth_error pts i); reflexivity.
Qed.

Lemma finish_panic {D} (regs : list (build_region D)) pts p :
  ids_below (length pts) regs ->
  finish_topology regs (map (fun p => TEdge p None None) pts) = Panic p ->
  p = PAssert /\ exists i, (i < length pts)%nat /\ (2 < length (users i (uses (final_regions regs))))%nat.
Proof.
  intros H. rewrite finish_topology_eq by assumption.
  destruct (use_counts_ok _ _) eqn:E; [discriminate|]. intros [= <-]. split; [reflexivity|].
  unfold use_counts_ok in E.
  assert (Hx : exists i, In i (seq 0 (length pts)) /\ (length (users i (uses (final_regions regs))) <=? 2)%nat = false).
  { revert E. generalize (seq 0 (length pts)). intros l. induction l as [|a l IH]; cbn; [discriminate|].
    destruct (length (users a _) <=? 2)%nat eqn:Ea; cbn; [|exists a; auto].
    intros Hf. destruct (IH Hf) as (i & Hi & Ei). exists i. auto. }
  destruct Hx as (i & Hi & Ei). exists i. apply in_seq in Hi. apply Nat.leb_gt in Ei. lia.
Qed.
