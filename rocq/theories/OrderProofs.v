(** * OrderProofs: the builder as a function of the paths *)
From Coq Require Import Permutation.
From Verif Require Import OrderSpec GeoProofs TopoProofs BuildProofs.

(** ** Numbering by first use *)
Definition add_key (ks : list (list point)) (k : list point) : list (list point) :=
  if existsb (path_eqb k) ks then ks else ks ++ [k].

Lemma path_eqb_refl k : path_eqb k k = true.
Proof. destruct (path_eqb_spec k k); [reflexivity|contradiction]. Qed.

Lemma existsb_path k ks : existsb (path_eqb k) ks = true <-> In k ks.
Proof.
  rewrite existsb_exists. split.
  - intros (x & Hx & E). destruct (path_eqb_spec k x); [subst; exact Hx|discriminate].
  - intros H. exists k. split; [exact H|apply path_eqb_refl].
Qed.

Lemma filter_twice {A} (g h : A -> bool) l : filter g (filter h l) = filter (fun x => g x && h x) l.
Proof. induction l as [|x l IH]; [reflexivity|]. cbn [filter]. destruct (h x), (g x) eqn:E; cbn [filter andb]; rewrite ?E, ?IH; reflexivity. Qed.

Lemma fold_add l : forall ks, fold_left add_key l ks = ks ++ filter (fun k => negb (existsb (path_eqb k) ks)) (distinct l).
Proof.
  induction l as [|k l IH]; intros ks; cbn [fold_left distinct filter]; [symmetry; apply app_nil_r|].
  rewrite IH. unfold add_key. destruct (existsb (path_eqb k) ks) eqn:E; cbn [negb].
  - f_equal. rewrite filter_twice. apply filter_ext. intros x. destruct (path_eqb_spec k x) as [<-|]; cbn [negb andb].
    + rewrite E. reflexivity.
    + rewrite ?andb_true_r. reflexivity.
  - rewrite <- app_assoc. cbn [app]. do 2 f_equal. rewrite filter_twice. apply filter_ext. intros x. rewrite existsb_app. cbn [existsb].
    rewrite orb_false_r, negb_orb. f_equal. f_equal. destruct (path_eqb_spec x k), (path_eqb_spec k x); congruence.
Qed.

Lemma distinct_fold l : distinct l = fold_left add_key l [].
Proof. rewrite fold_add. cbn [app existsb negb]. induction (distinct l) as [|k ks IH]; [reflexivity|]. cbn [filter]. f_equal. exact IH. Qed.

(** ** The keys of the builder *)
Lemma em_find_in em k : em_find em k = None \/ In k (keys em).
Proof.
  induction em as [|[k' v] em IH]; [left; reflexivity|]. cbn [em_find keys map fst In].
  destruct (pts_eqb_spec k' k) as [->|]; [right; left; reflexivity|]. destruct IH; [left|right; right]; assumption.
Qed.

Lemma build_directed_edge_keys m em ps o em' : build_directed_edge m em ps = Ok (o, em') ->
  keys em' = fold_left add_key (map stored_form (filter has_length [ps])) (keys em).
Proof.
  unfold build_directed_edge. rewrite zero_length_spec. cbn [filter]. destruct (has_length ps) eqn:Hl; cbn [negb map fold_left].
  2:{ intros [= <- <-]. reflexivity. }
  destruct (canonical m ps) as [x|] eqn:E; [|discriminate]. apply canonical_ok in E. subst x. cbn [bind].
  unfold add_key. destruct (em_find em (stored_form ps)) as [id|] eqn:Ef; intros [= <- <-].
  - destruct (em_find_in em (stored_form ps)) as [H|H]; [congruence|]. apply existsb_path in H. rewrite H. reflexivity.
  - apply em_find_None in Ef. destruct (existsb _ _) eqn:Ee; [apply existsb_path in Ee; contradiction|]. unfold keys. rewrite map_app. reflexivity.
Qed.

Lemma filter_cons_app {A} (g : A -> bool) x l : filter g (x :: l) = filter g [x] ++ filter g l.
Proof. exact (filter_app g [x] l). Qed.

Lemma build_des_keys m es : forall acc em des em',
  mfold (fun st e =>
           '(o, em') <- build_directed_edge m (snd st) e ;;
           Ok (match o with Some d => fst st ++ [d] | None => fst st end, em')) es (acc, em) = Ok (des, em') ->
  keys em' = fold_left add_key (map stored_form (filter has_length es)) (keys em).
Proof.
  induction es as [|e es IH]; intros acc em des em'; cbn [mfold]; [intros [= _ <-]; reflexivity|]. cbn [fst snd].
  destruct (build_directed_edge m em e) as [[o em1]|] eqn:E; [|discriminate]. cbn [bind]. intros H. apply IH in H. rewrite H.
  apply build_directed_edge_keys in E. rewrite E, (filter_cons_app has_length e es), map_app, fold_left_app. reflexivity.
Qed.

Definition ring_keys (r : ring) : list (list point) := map stored_form (filter has_length (paths r)).

Lemma build_ring_keys m em r o em' : build_ring_of m em r = Ok (o, em') ->
  keys em' = fold_left add_key (flat_map ring_keys (filter has_area [r])) (keys em).
Proof.
  unfold build_ring_of. destruct (ring_area2 m r) as [a|] eqn:Ea; [|discriminate]. cbn [bind filter].
  apply ring_area2_has_area in Ea. rewrite Ea. destruct (a =? 0); cbn [negb flat_map fold_left]; [intros [= _ <-]; reflexivity|].
  destruct (build_des m em (ring_edges r)) as [[des em1]|] eqn:E; [|discriminate]. cbn [bind]. intros [= _ <-].
  unfold build_des in E. apply build_des_keys in E. rewrite E, app_nil_r, ring_edges_paths. reflexivity.
Qed.

Lemma build_rings_keys m rs : forall acc em brs em',
  mfold (fun st r =>
           '(o, em') <- build_ring_of m (snd st) r ;;
           Ok (match o with Some br => fst st ++ [br] | None => fst st end, em')) rs (acc, em) = Ok (brs, em') ->
  keys em' = fold_left add_key (flat_map ring_keys (filter has_area rs)) (keys em).
Proof.
  induction rs as [|r rs IH]; intros acc em brs em'; cbn [mfold]; [intros [= _ <-]; reflexivity|]. cbn [fst snd].
  destruct (build_ring_of m em r) as [[o em1]|] eqn:E; [|discriminate]. cbn [bind]. intros H. apply IH in H. rewrite H.
  apply build_ring_keys in E. rewrite E, (filter_cons_app has_area r rs), flat_map_app, fold_left_app. reflexivity.
Qed.

Lemma stored_forms_app {D} (a b : list (shape D)) : stored_forms (a ++ b) = stored_forms a ++ stored_forms b.
Proof. unfold stored_forms, all_paths. rewrite !flat_map_app. reflexivity. Qed.

Lemma stored_forms_shape {D} (d : D) o i : stored_forms [Shape d (map expected_ring o) (map expected_ring i)] = flat_map ring_keys o ++ flat_map ring_keys i.
Proof.
  unfold stored_forms, all_paths. cbn [flat_map]. rewrite app_nil_r. unfold shape_paths. cbn [s_outer s_inner]. rewrite flat_map_app.
  assert (HH : forall rs, flat_map (fun o => match o with Some p => [stored_form p] | None => [] end) (concat (map expected_ring rs)) = flat_map ring_keys rs).
  { induction rs as [|r rs IH]; [reflexivity|]. cbn [map concat flat_map]. rewrite flat_map_app, IH. f_equal. unfold expected_ring, ring_keys.
    induction (filter has_length (paths r)) as [|p l IHl]; [reflexivity|]. cbn [map flat_map app]. f_equal. exact IHl. }
  rewrite !HH. reflexivity.
Qed.

Lemma add_region_keys {D} m (b b' : builder D) rs rg : builder_ok b rs -> add_region m b rg = Ok b' ->
  keys (bl_edges b') = fold_left add_key (stored_forms (expected [rg])) (keys (bl_edges b)).
Proof.
  intros Hb. unfold add_region. destruct (build_rings m (bl_edges b) (rg_outer rg)) as [[outer em1]|] eqn:E; [|discriminate]. cbn [bind].
  pose proof (build_rings_keys _ _ _ _ _ _ E) as K1. apply build_rings_ok in E as (_ & _ & O3 & _); [|apply Hb]. apply Forall2_length' in O3.
  rewrite expected_keeps. cbn [filter].
  destruct (Nat.ltb_spec 0 (length outer)) as [Hl|Hl].
  - destruct (build_rings m em1 (rg_inner rg)) as [[inner em2]|] eqn:E; [|discriminate]. cbn [bind]. intros [= <-]. cbn [bl_edges].
    apply build_rings_keys in E. assert (Hk : keeps rg = true) by (unfold keeps; destruct (filter has_area (rg_outer rg)); [cbn in O3; lia|reflexivity]).
    rewrite Hk. cbn [map]. rewrite stored_forms_shape, fold_left_app, E, K1. reflexivity.
  - intros [= <-]. cbn [bl_edges]. assert (Hk : filter has_area (rg_outer rg) = []) by (destruct (filter has_area (rg_outer rg)); [reflexivity|cbn in O3; lia]).
    unfold keeps. rewrite Hk in *. cbn in K1 |- *. exact K1.
Qed.

Lemma add_regions_keys {D} m (rs : list (region D)) : forall rs0 b b', builder_ok b rs0 -> add_regions m b rs = Ok b' ->
  keys (bl_edges b') = fold_left add_key (stored_forms (expected rs)) (keys (bl_edges b)).
Proof.
  unfold add_regions. induction rs as [|rg rs IH]; intros rs0 b b' Hb; cbn [mfold]; [intros [= <-]; reflexivity|].
  destruct (add_region m b rg) as [b1|] eqn:E; [|discriminate]. cbn [bind]. intros H.
  pose proof (add_region_keys m b b1 rs0 rg Hb E) as K. apply add_region_ok with (rs := rs0) in E; [|exact Hb].
  rewrite (IH _ _ _ E H), K. change (expected (rg :: rs)) with (expected_region rg ++ expected rs). rewrite stored_forms_app, fold_left_app.
  do 2 f_equal. unfold expected. cbn [flat_map]. rewrite app_nil_r. reflexivity.
Qed.

Lemma builder_keys {D} m (rs : list (region D)) b : add_regions m builder_new rs = Ok b ->
  keys (bl_edges b) = distinct (stored_forms (expected rs)).
Proof. intros H. rewrite distinct_fold. exact (add_regions_keys m rs [] _ _ builder_new_ok H). Qed.

(** ** The topology of given shapes *)
Fixpoint index (ks : list (list point)) (k : list point) : nat :=
  match ks with
  | [] => 0
  | x :: t => if path_eqb x k then 0 else S (index t k)
  end.
Definition numbered (ks : list (list point)) (o : option (list point)) : directed_edge :=
  match o with Some p => DE (index ks (stored_form p)) (direction_of p) | None => DE 0 Forward end.
Definition numbered_shape {D} (ks : list (list point)) (s : shape D) : build_region D :=
  BRegion (s_data s) (map (map (numbered ks)) (s_outer s)) (map (map (numbered ks)) (s_inner s)).
Definition blueprint {D} (ss : list (shape D)) : res (topology D) :=
  let ks := distinct (stored_forms ss) in
  finish_topology (map (numbered_shape ks) ss) (map (fun k => TEdge k None None) ks).

Lemma index_nth ks k i : NoDup ks -> nth_error ks i = Some k -> index ks k = i.
Proof.
  intros Hn. revert i. induction Hn as [|x ks Hx Hn IH]; intros [|i]; cbn [nth_error index]; try discriminate.
  - intros [= ->]. rewrite path_eqb_refl. reflexivity.
  - intros H. destruct (path_eqb_spec x k) as [->|]; [destruct Hx; eapply nth_error_In; exact H|]. rewrite (IH i H). reflexivity.
Qed.

Lemma ring_numbered em br r : em_ok em -> ring_matches em br r -> br = map (numbered (keys em)) (expected_ring r).
Proof.
  intros (_ & Hn & _). unfold ring_matches, expected_ring. generalize (filter has_length (paths r)). intros ps H.
  induction H as [|[i d] p ds ps [H1 H2] H IH]; [reflexivity|]. cbn [map numbered]. rewrite <- IH. f_equal. cbn [de_edge de_dir] in *.
  rewrite (index_nth _ _ i Hn H1), H2. reflexivity.
Qed.

Lemma rings_numbered em brs rs : em_ok em -> Forall2 (ring_matches em) brs rs -> brs = map (map (numbered (keys em))) (map expected_ring rs).
Proof. intros He H. induction H as [|br r brs rs H1 H2 IH]; [reflexivity|]. cbn [map]. rewrite <- IH, <- (ring_numbered em br r He H1). reflexivity. Qed.

Lemma regions_numbered {D} (b : builder D) rs : builder_ok b rs -> bl_regions b = map (numbered_shape (keys (bl_edges b))) (expected rs).
Proof.
  intros (He & HR & _). rewrite expected_keeps. induction HR as [|x rg xs rgs (H1 & H2 & H3) HR IH]; [reflexivity|]. cbn [map]. rewrite <- IH. f_equal.
  unfold numbered_shape. cbn [s_data s_outer s_inner]. rewrite <- (rings_numbered _ _ _ He H2), <- (rings_numbered _ _ _ He H3), <- H1. destruct x. reflexivity.
Qed.

Lemma into_blueprint {D} m (rs : list (region D)) b : add_regions m builder_new rs = Ok b -> into_topology b = blueprint (expected rs).
Proof.
  intros H. pose proof (builder_keys m rs b H) as HK. apply add_regions_ok in H. unfold into_topology.
  rewrite into_topology_eq by (try apply H; apply Permutation_refl). rewrite (regions_numbered b rs H). unfold blueprint. rewrite <- HK. reflexivity.
Qed.

Lemma build_blueprint {D} m (rs : list (region D)) t : build_topology m rs = Ok t -> blueprint (expected rs) = Ok t.
Proof.
  unfold build_topology. destruct (add_regions m builder_new rs) as [b|] eqn:E; [|discriminate]. cbn [bind]. intros H.
  rewrite <- (into_blueprint m rs b E). exact H.
Qed.

Lemma build_release {D} (rs : list (region D)) : build_topology Release rs = blueprint (expected rs).
Proof.
  unfold build_topology. destruct (add_regions Release builder_new rs) as [b|p] eqn:E; cbn [bind]; [exact (into_blueprint _ _ _ E)|].
  apply add_regions_panic in E as [E _]. discriminate.
Qed.

(** ** Rings with the same paths *)
Lemma shoelaces_length es : shoelaces (filter has_length es) = shoelaces es.
Proof.
  induction es as [|e es IH]; [reflexivity|]. cbn [filter shoelaces]. destruct (has_length e) eqn:E; cbn [shoelaces]; rewrite IH; [reflexivity|].
  destruct e as [|a [|b [|c l]]]; try reflexivity; try discriminate. cbn [has_length] in E. apply negb_false_iff, pt_eqb_eq in E. subst. cbn [shoelace]. unfold det. lia.
Qed.

Lemma ring_area_paths r : ring_area r = shoelaces (filter has_length (paths r)).
Proof. rewrite shoelaces_length. destruct r; [symmetry; apply shoelaces_segments|reflexivity]. Qed.

Lemma same_rings_expected rs rs' : Forall2 same_ring rs rs' -> map expected_ring (filter has_area rs) = map expected_ring (filter has_area rs').
Proof.
  intros H. induction H as [|r r' rs rs' H1 H2 IH]; [reflexivity|]. cbn [filter].
  assert (HA : has_area r = has_area r') by (unfold has_area; rewrite !ring_area_paths, H1; reflexivity).
  rewrite HA. destruct (has_area r'); [|exact IH]. cbn [map]. rewrite IH. unfold expected_ring. rewrite H1. reflexivity.
Qed.

Lemma expected_region_eq {D} (g : region D) : expected_region g =
  match map expected_ring (filter has_area (rg_outer g)) with
  | [] => []
  | o => [Shape (rg_data g) o (map expected_ring (filter has_area (rg_inner g)))]
  end.
Proof. unfold expected_region. destruct (filter has_area (rg_outer g)); reflexivity. Qed.

Lemma same_expected {D} (rs rs' : list (region D)) : Forall2 same_region rs rs' -> expected rs = expected rs'.
Proof.
  intros H. induction H as [|g g' rs rs' (H1 & H2 & H3) H IH]; [reflexivity|]. unfold expected in *. cbn [flat_map]. rewrite IH. f_equal.
  rewrite !expected_region_eq, H1, (same_rings_expected _ _ H2), (same_rings_expected _ _ H3). reflexivity.
Qed.

Lemma same_build {D} m m' (rs rs' : list (region D)) t t' :
  build_topology m rs = Ok t -> build_topology m' rs' = Ok t' -> read_topology t = read_topology t' -> t = t'.
Proof.
  intros H H' E. rewrite (build_read m rs t H), (build_read m' rs' t' H') in E. apply build_blueprint in H, H'. congruence.
Qed.

Lemma build_order {D} m (rs : list (region D)) t : build_topology m rs = Ok t ->
  map te_points (tp_edges t) = distinct (stored_forms (read_topology t)).
Proof.
  intros H. rewrite (build_read m rs t H). revert H. unfold build_topology. destruct (add_regions m builder_new rs) as [b|] eqn:E; [|discriminate]. cbn [bind].
  pose proof (builder_keys m rs b E) as K. apply add_regions_ok in E. pose proof (builder_ids b rs E) as Hids. unfold into_topology.
  rewrite into_topology_eq by (try apply E; apply Permutation_refl). intros H. apply finish_exact in H; [|assumption]. rewrite <- K. tauto.
Qed.
