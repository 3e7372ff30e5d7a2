(** * TurnProofs: the labels of edges as seen from the shapes *)
From Verif Require Import TurnSpec BuildProofs NormReturn NormTopo NormCanon NormTwice FormSpec FormProofs ShuffleBuild BuildFrame OrderProofs ComposeProofs NormProofs NormSafe NormAdjacent GeoProofs PipelineProofs.

(** ** Cycles of paths *)
Definition like (a b : list (list point)) : Prop := rotation a b \/ rotation (map (@rev point) (rev a)) b.
Definition turnable (p : list point) : Prop := stored_form (rev p) = stored_form p.

Lemma rotation_flat_map {A B} (f : A -> list B) a b : rotation a b -> rotation (flat_map f a) (flat_map f b).
Proof. intros (l & r & -> & ->). exists (flat_map f l), (flat_map f r). rewrite !flat_map_app. auto. Qed.
Lemma rotation_filter {A} (f : A -> bool) a b : rotation a b -> rotation (filter f a) (filter f b).
Proof. intros (l & r & -> & ->). exists (filter f l), (filter f r). rewrite !filter_app. auto. Qed.

Lemma segments_turned a b : turned a b -> rotation (segments a) (segments b).
Proof.
  intros (l & r & -> & ->). destruct l as [|p l]; [exists [], (segments (close r)); cbn [app]; rewrite !app_nil_r; auto|].
  destruct r as [|q r]; [exists (segments (close (p :: l))), []; cbn [app]; rewrite !app_nil_r; auto|].
  exists (segments (p :: l ++ [q])), (segments (q :: r ++ [p])). cbn [app close]. split.
  - rewrite <- app_assoc. exact (segments_app (p :: l) q (r ++ [p])).
  - rewrite <- app_assoc. exact (segments_app (q :: r) p (l ++ [q])).
Qed.

Lemma segments_like a b : same_cycle a b -> like (segments a) (segments b).
Proof. intros [H|H]; apply segments_turned in H; [left; exact H|right]. rewrite segments_rev, <- map_rev in H. exact H. Qed.

Lemma filter_map_rev (l : list (list point)) : filter has_length (map (@rev point) l) = map (@rev point) (filter has_length l).
Proof. induction l as [|p l IH]; [reflexivity|]. cbn [map filter]. rewrite NormSafe.has_length_rev. destruct (has_length p); cbn [map]; rewrite IH; reflexivity. Qed.
Lemma filter_rev' {A} (f : A -> bool) l : filter f (rev l) = rev (filter f l).
Proof. induction l as [|p l IH]; [reflexivity|]. cbn [rev filter]. rewrite filter_app, IH. cbn [filter]. destruct (f p); cbn [rev]; [reflexivity|apply app_nil_r]. Qed.

Lemma filter_like a b : like a b -> like (filter has_length a) (filter has_length b).
Proof. intros [H|H]; [left|right]; apply (rotation_filter has_length) in H; [exact H|]. rewrite filter_map_rev, filter_rev' in H. exact H. Qed.

Lemma shoelaces_flip l : shoelaces (map (@rev point) (rev l)) = - shoelaces l.
Proof.
  induction l as [|p l IH]; [reflexivity|]. cbn [rev]. rewrite map_app, shoelaces_app, IH. cbn [map shoelaces]. rewrite shoelace_rev. lia.
Qed.
Lemma like_area a b : like a b -> Z.abs (shoelaces a) = Z.abs (shoelaces b) /\ (shoelaces a mod 2 ^ 64 =? 0) = (shoelaces b mod 2 ^ 64 =? 0).
Proof.
  intros [H|H]; apply rotation_perm, shoelaces_perm in H; [rewrite H; auto|]. rewrite shoelaces_flip in H. rewrite <- H, Z.abs_opp. split; [reflexivity|].
  apply eq_true_iff_eq. rewrite !Z.eqb_eq, !Z.mod_divide by lia. split; intros (k & E); exists (- k); lia.
Qed.

Lemma count_flip k l : Forall turnable l -> count_path k (map Some (map (@rev point) l)) = count_path k (map Some l).
Proof.
  unfold count_path. induction 1 as [|p l H F IH]; [reflexivity|]. cbn [map filter]. rewrite H. destruct (path_eqb _ k); cbn [length]; rewrite IH; reflexivity.
Qed.
Lemma count_like k a b : like a b -> Forall turnable a -> count_path k (map Some a) = count_path k (map Some b).
Proof.
  intros [H|H] F; apply rotation_perm in H; [apply count_perm, Permutation_map, H|].
  rewrite <- (count_perm k (map Some (map (@rev point) (rev a))) (map Some b)) by (apply Permutation_map, H).
  rewrite count_flip by (apply Forall_rev, F). apply count_perm, Permutation_map, Permutation_rev.
Qed.

(** ** Shapes *)
Definition ring_like (a b : list (option (list point))) : Prop := exists u v, a = map Some u /\ b = map Some v /\ like u v /\ Forall turnable u.
Definition side_like (x y : list (list (option (list point)))) : Prop := exists z, Permutation y z /\ Forall2 ring_like x z.
Definition shape_like {D} (a b : shape D) : Prop := s_data a = s_data b /\ side_like (s_outer a) (s_outer b) /\ side_like (s_inner a) (s_inner b).

Lemma count_app k a b : count_path k (a ++ b) = (count_path k a + count_path k b)%nat.
Proof. unfold count_path. rewrite filter_app, app_length. reflexivity. Qed.

Lemma concat_perm {A} (x y : list (list A)) : Permutation x y -> Permutation (concat x) (concat y).
Proof.
  induction 1 as [|a x y P IH|a b x|x y z P1 IH1 P2 IH2]; cbn [concat]; [reflexivity|apply Permutation_app_head, IH| |etransitivity; eassumption].
  rewrite !app_assoc. apply Permutation_app_tail, Permutation_app_comm.
Qed.
Lemma side_count k x y : side_like x y -> count_path k (concat x) = count_path k (concat y).
Proof.
  intros (z & P & F). rewrite (count_perm k _ _ (concat_perm _ _ P)). clear P.
  induction F as [|a b x z (u & v & -> & -> & L & T) F IH]; [reflexivity|]. cbn [concat]. rewrite !count_app, IH, (count_like k u v L T). reflexivity.
Qed.
Lemma shape_count {D} k (a b : shape D) : shape_like a b -> count_path k (shape_paths a) = count_path k (shape_paths b).
Proof. intros (_ & O & I). unfold shape_paths. rewrite !count_app, (side_count k _ _ O), (side_count k _ _ I). reflexivity. Qed.

(** The regions that use a path. *)
Definition regions_of {D} (ss : list (shape D)) (k : list point) : list nat :=
  flat_map (fun is => repeat (fst is) (count_path k (shape_paths (snd is)))) (enumerate ss).

Lemma regions_like {D} (ss1 ss2 : list (shape D)) k : Forall2 shape_like ss1 ss2 -> regions_of ss1 k = regions_of ss2 k.
Proof.
  intros F. unfold regions_of, enumerate. rewrite <- (Forall2_length' _ _ _ F). generalize (seq 0 (length ss1)). 
  induction F as [|a b x y H F IH]; intros [|i l]; [reflexivity..|]. cbn [combine flat_map fst snd]. rewrite (shape_count k a b H), IH. reflexivity.
Qed.

Lemma shape_paths_des {D} es (g : topo_region D) : shape_paths (read_region es g) = map (read_de es) (region_des g).
Proof.
  unfold shape_paths, read_region, region_des, NormAdjacent.region_rings. cbn [s_outer s_inner]. rewrite flat_map_app, map_app.
  assert (E : forall rs, concat (map (read_ring es) rs) = map (read_de es) (flat_map tr_des rs)).
  { intros rs. induction rs as [|r rs IH]; [reflexivity|]. cbn [map concat flat_map]. rewrite map_app, IH. reflexivity. }
  rewrite !E. reflexivity.
Qed.

Lemma uses_paths {D} (t : topology D) g j e : built_form t -> In g (tp_regions t) -> nth_error (tp_edges t) j = Some e ->
  region_uses j g = count_path (te_points e) (shape_paths (read_region (tp_edges t) g)).
Proof.
  intros (X & W & K & S) G E. rewrite shape_paths_des. unfold region_uses.
  assert (N : NoDup (map te_points (tp_edges t))) by (rewrite K; apply distinct_nodup).
  assert (H : forall d, In d (region_des g) -> exists r, In r (tg_outer g ++ tg_inner g) /\ In d (tr_des r)).
  { intros d Hd. unfold region_des, NormAdjacent.region_rings in Hd. apply in_flat_map in Hd as (r & Hr & Hd). eauto. }
  induction (region_des g) as [|d l IH]; [reflexivity|]. cbn [map count_occ]. change (read_de (tp_edges t) d :: map (read_de (tp_edges t)) l) with ([read_de (tp_edges t) d] ++ map (read_de (tp_edges t)) l).
  rewrite count_app, <- IH by (intros x Hx; apply H; right; exact Hx).
  destruct (H d (or_introl eq_refl)) as (r & Hr & Hd). destruct (W g G) as (_ & W'). destruct (W' r Hr) as (W'' & _). destruct (W'' d Hd) as (p & Ep & _).
  apply read_de_points in Ep as (e' & E' & O). pose proof (S g r d e' G Hr Hd E') as (T & _). cbv zeta in T. rewrite O in T.
  unfold read_de, count_path. rewrite E'. cbn [option_map filter length]. rewrite O, <- T. destruct (Nat.eq_dec (de_edge d) j) as [Ej|Ej].
  - assert (e' = e) by congruence. subst e'. rewrite path_eqb_refl. reflexivity.
  - destruct (path_eqb_spec (te_points e') (te_points e)) as [Q|Q]; [|reflexivity]. exfalso. apply Ej.
    apply (NoDup_nth_error (map te_points (tp_edges t))); [exact N| |].
    + apply nth_error_Some. rewrite nth_error_map, E'. discriminate.
    + rewrite !nth_error_map, E', E. cbn [option_map]. congruence.
Qed.

Lemma edge_regions_built {D} (t : topology D) j e : built_form t -> nth_error (tp_edges t) j = Some e ->
  edge_regions t j = regions_of (read_topology t) (te_points e).
Proof.
  intros B E. rewrite edge_regions_eq. unfold regions_of, read_topology, enumerate. rewrite map_length.
  assert (H : forall g, In g (tp_regions t) -> region_uses j g = count_path (te_points e) (shape_paths (read_region (tp_edges t) g))) by (intros g G; apply uses_paths; assumption).
  generalize (seq 0 (length (tp_regions t))). induction (tp_regions t) as [|g l IH]; intros [|i s]; [reflexivity..|]. cbn [combine map flat_map fst snd].
  rewrite (H g (or_introl eq_refl)). f_equal. apply IH. intros x Hx. apply H. right. exact Hx.
Qed.

Definition lab (f : list point -> list nat) (p : list point) : norm_edge :=
  NE p (nth_error (f (stored_form p)) 0) (nth_error (f (stored_form p)) 1).

Lemma seen_built {D} (t : topology D) g r : built_form t -> In g (tp_regions t) -> In r (tg_outer g ++ tg_inner g) ->
  forall u, read_ring (tp_edges t) r = map Some u -> seen_ring t r = map (lab (regions_of (read_topology t))) u.
Proof.
  intros B G R. unfold read_ring, seen_ring. assert (H : forall d, In d (tr_des r) -> In d (tr_des r)) by auto. revert H.
  generalize (tr_des r) at 1 3 4 as ds. induction ds as [|d ds IH]; intros H [|p u] E; try discriminate; [reflexivity|]. cbn [map flat_map] in *.
  injection E as Ep E. rewrite (IH (fun x Hx => H x (or_intror Hx)) u E). apply read_de_points in Ep as (e & Ee & O).
  unfold seen. rewrite Ee, (edge_regions_built t (de_edge d) e B Ee), O. pose proof B as (_ & _ & _ & S).
  pose proof (S g r d e G R (H d (or_introl eq_refl)) Ee) as (T & _). cbv zeta in T. rewrite O in T. unfold lab. rewrite <- T. reflexivity.
Qed.

Lemma like_alike f u v : like u v -> Forall turnable u -> alike (map (lab f) u) (map (lab f) v).
Proof.
  intros [L|L] T; [left|right]; unfold same_way, course.
  - apply rotation_flat_map, rotation_map, L.
  - replace (flipped (map (lab f) u)) with (map (lab f) (map (@rev point) (rev u))); [apply rotation_flat_map, rotation_map, L|].
    unfold flipped. rewrite <- map_rev, !map_map. apply map_ext_in. intros p Hp. unfold lab. cbn [ne_points ne_reg0 ne_reg1].
    rewrite Forall_forall in T. apply in_rev, T in Hp. rewrite Hp. reflexivity.
Qed.

Lemma built_same_map {D} (t1 t2 : topology D) : built_form t1 -> built_form t2 ->
  Forall2 shape_like (read_topology t1) (read_topology t2) -> same_map t1 t2.
Proof.
  intros B1 B2 F. unfold same_map. pose proof (fun k => regions_like _ _ k F) as ER.
  assert (S : forall l1 l2 g1 g2, In g1 (tp_regions t1) -> In g2 (tp_regions t2) -> incl l1 (tg_outer g1 ++ tg_inner g1) -> incl l2 (tg_outer g2 ++ tg_inner g2) ->
    side_like (map (read_ring (tp_edges t1)) l1) (map (read_ring (tp_edges t2)) l2) -> same_rings t1 t2 l1 l2).
  { intros l1 l2 g1 g2 G1 G2 I1 I2 (z & P & Q). apply Permutation_sym, Permutation_map_inv in P as (rs & -> & P). exists rs. split; [exact P|].
    assert (I2' : incl rs (tg_outer g2 ++ tg_inner g2)) by (intros x Hx; apply I2; eapply Permutation_in; [apply Permutation_sym, P|exact Hx]).
    clear P I2. revert rs I2' Q. induction l1 as [|r1 l1 IH]; intros [|r2 rs] I2' Q; inversion Q; subst; [constructor|]. constructor.
    - match goal with H : ring_like _ _ |- _ => destruct H as (u & v & E1 & E2 & L & T) end.
      rewrite (seen_built t1 g1 r1 B1 G1 (I1 r1 (or_introl eq_refl)) u E1), (seen_built t2 g2 r2 B2 G2 (I2' r2 (or_introl eq_refl)) v E2).
      replace (map (lab (regions_of (read_topology t2))) v) with (map (lab (regions_of (read_topology t1))) v) by (apply map_ext; intros p; unfold lab; rewrite ER; reflexivity).
      apply like_alike; assumption.
    - apply IH; [intros x Hx; apply I1; right; exact Hx|intros x Hx; apply I2'; right; exact Hx|assumption]. }
  unfold read_topology in F.
  assert (G : forall l1 l2, incl l1 (tp_regions t1) -> incl l2 (tp_regions t2) -> Forall2 shape_like (map (read_region (tp_edges t1)) l1) (map (read_region (tp_edges t2)) l2) ->
    Forall2 (fun g1 g2 => tg_data g1 = tg_data g2 /\ same_rings t1 t2 (tg_outer g1) (tg_outer g2) /\ same_rings t1 t2 (tg_inner g1) (tg_inner g2)) l1 l2).
  { clear F. induction l1 as [|g1 l1 IH]; intros [|g2 l2] I1 I2 F; inversion F; subst; [constructor|]. constructor.
    - match goal with H : shape_like _ _ |- _ => destruct H as (Ed & Eo & Ei) end. cbn [read_region s_data s_outer s_inner] in *. split; [exact Ed|].
      split; (apply (S _ _ g1 g2); [apply I1; left; reflexivity|apply I2; left; reflexivity| | |assumption]); intros x Hx; apply in_or_app; auto.
    - apply IH; [intros x Hx; apply I1; right; exact Hx|intros x Hx; apply I2; right; exact Hx|assumption]. }
  apply G; [apply incl_refl..|exact F].
Qed.

(** ** Inputs *)
Lemma segment_turnable ps p : In p (filter has_length (segments ps)) -> turnable p.
Proof.
  intros H. apply filter_In in H as (H & L). assert (exists a b, p = [a; b]) as (a & b & ->).
  { clear L. induction ps as [|x [|y t] IH]; [destruct H|destruct H|]. rewrite segments_cons2 in H. destruct H as [<-|H]; [eauto|apply IH, H]. }
  apply stored_rev. right. exists a, b. split; [reflexivity|]. split; [reflexivity|]. left. intros ->. cbn in L. rewrite pt_eqb_refl in L. discriminate.
Qed.

Lemma outline_like r1 r2 : same_outline r1 r2 -> ring_like (expected_ring r1) (expected_ring r2) /\ has_area r1 = has_area r2 /\
  Z.abs (ring_area r1) = Z.abs (ring_area r2).
Proof.
  intros (a & b & -> & -> & _ & C). apply segments_like, filter_like in C. pose proof (like_area _ _ C) as (A1 & A2). split; [|split].
  - exists (filter has_length (segments a)), (filter has_length (segments b)). split; [reflexivity|]. split; [reflexivity|]. split; [exact C|].
    apply Forall_forall. intros p. apply segment_turnable.
  - unfold has_area. rewrite !ring_area_paths. cbn [paths]. rewrite A2. reflexivity.
  - rewrite !ring_area_paths. exact A1.
Qed.

Lemma filter_perm {A} (f : A -> bool) l l' : Permutation l l' -> Permutation (filter f l) (filter f l').
Proof.
  induction 1 as [|x l l' P IH|x y l|l l1 l2 P1 IH1 P2 IH2]; cbn [filter]; [constructor| | |etransitivity; eassumption].
  - destruct (f x); [constructor|]; exact IH.
  - destruct (f x), (f y); try reflexivity. constructor.
Qed.

Lemma outlines_like rs1 rs2 : same_outlines rs1 rs2 -> side_like (map expected_ring (filter has_area rs1)) (map expected_ring (filter has_area rs2)).
Proof.
  intros (rs & P & F). exists (map expected_ring (filter has_area rs)). split; [apply Permutation_map, filter_perm, P|]. clear P.
  induction F as [|r1 r2 l1 l2 H F IH]; [constructor|]. apply outline_like in H as (H & A & _). cbn [filter]. rewrite <- A. destruct (has_area r1); cbn [map]; [constructor; assumption|exact IH].
Qed.

Lemma side_like_nil x y : side_like x y -> (x = [] <-> y = []).
Proof.
  intros (z & P & F). split; intros ->.
  - inversion F; subst. apply Permutation_sym, Permutation_nil in P. exact P.
  - apply Permutation_nil in P. subst z. inversion F. reflexivity.
Qed.

Lemma expected_like {D} (rs1 rs2 : list (region D)) : Forall2 same_input rs1 rs2 -> Forall2 shape_like (expected rs1) (expected rs2).
Proof.
  induction 1 as [|g1 g2 l1 l2 (Ed & Eo & Ei) F IH]; [constructor|]. unfold expected in *. cbn [flat_map]. apply Forall2_app; [|exact IH].
  apply outlines_like in Eo, Ei. rewrite !expected_region_eq. pose proof (side_like_nil _ _ Eo) as N.
  destruct (map expected_ring (filter has_area (rg_outer g1))) as [|a x] eqn:E1, (map expected_ring (filter has_area (rg_outer g2))) as [|b y] eqn:E2.
  - constructor.
  - destruct N as [N _]. discriminate (N eq_refl).
  - destruct N as [_ N]. discriminate (N eq_refl).
  - constructor; [|constructor]. split; [exact Ed|]. split; assumption.
Qed.

Lemma input_same_map {D} m1 m2 (rs1 rs2 : list (region D)) t1 t2 : Forall2 same_input rs1 rs2 ->
  build_topology m1 rs1 = Ok t1 -> build_topology m2 rs2 = Ok t2 -> same_map t1 t2.
Proof.
  intros F E1 E2. apply built_same_map; [eapply build_built_form; eassumption..|].
  rewrite (build_read m1 rs1 t1 E1), (build_read m2 rs2 t2 E2). apply expected_like, F.
Qed.

Lemma all_paths_like {D} k (ss1 ss2 : list (shape D)) : Forall2 shape_like ss1 ss2 -> count_path k (all_paths ss1) = count_path k (all_paths ss2).
Proof.
  unfold all_paths. induction 1 as [|a b x y H F IH]; [reflexivity|]. cbn [flat_map]. rewrite !count_app, IH, (shape_count k a b H). reflexivity.
Qed.

Lemma input_builds {D} (rs1 rs2 : list (region D)) t1 : Forall2 same_input rs1 rs2 ->
  build_topology Release rs1 = Ok t1 -> exists t2, build_topology Release rs2 = Ok t2.
Proof.
  intros F. unfold build_topology. destruct (add_regions Release builder_new rs1) as [b1|p] eqn:E1; [|discriminate].
  destruct (add_regions Release builder_new rs2) as [b2|p] eqn:E2; [|apply add_regions_panic in E2 as [E2 _]; discriminate]. cbn [bind]. intros H.
  apply (into_topology_iff Release rs2 b2 E2). intros k. rewrite <- (all_paths_like k _ _ (expected_like _ _ F)).
  revert k. apply (into_topology_iff Release rs1 b1 E1). eauto.
Qed.

Lemma input_small {D} m (rs : list (region D)) t : small_input rs -> build_topology m rs = Ok t -> small_rings t.
Proof.
  intros A E g r G R. pose proof (build_built_form m rs t E) as B. pose proof (build_read m rs t E) as Rd.
  assert (In (read_region (tp_edges t) g) (read_topology t)) as I by (apply in_map, G). rewrite Rd in I. unfold expected in I. apply in_flat_map in I as (x & Hx & I).
  unfold expected_region in I. destruct (filter has_area (rg_outer x)) as [|o os] eqn:Eo; [destruct I|]. destruct I as [I|[]]. injection I as _ Io Ii.
  assert (exists r', In r' (rg_outer x ++ rg_inner x) /\ read_ring (tp_edges t) r = expected_ring r') as (r' & Hr' & Er).
  { change (expected_ring o :: map expected_ring os) with (map expected_ring (o :: os)) in Io. rewrite <- Eo in Io.
    apply in_app_or in R as [R|R]; apply (in_map (read_ring (tp_edges t))) in R; [rewrite <- Io in R|rewrite <- Ii in R];
      apply in_map_iff in R as (r' & Er & Hr'); apply filter_In in Hr' as (Hr' & _); exists r'; (split; [apply in_or_app; auto|congruence]). }
  rewrite (seen_built t g r B G R _ Er), map_map. cbn [lab ne_points]. rewrite map_id, <- ring_area_paths. eapply A; eassumption.
Qed.

Lemma close_closed c : c <> [] -> is_closed (close c).
Proof. destruct c as [|p c]; [congruence|]. intros _. split; [discriminate|]. cbn [close]. rewrite final_app. reflexivity. Qed.
Lemma turned_closed a b : a <> [] -> turned a b -> is_closed a /\ is_closed b.
Proof.
  intros N (l & r & -> & ->). assert (l ++ r <> []) by (intros E; rewrite E in N; apply N; reflexivity). split; apply close_closed; [assumption|].
  intros E. apply app_eq_nil in E as (-> & ->). apply N. reflexivity.
Qed.
Lemma outline_closed r1 r2 : same_outline r1 r2 -> closed_ring r1 /\ closed_ring r2.
Proof.
  intros (a & b & -> & -> & N & [T|T]); cbn [closed_ring]; [apply turned_closed; assumption|].
  assert (N' : rev a <> []) by (intros E; apply N; rewrite <- (rev_involutive a), E; reflexivity).
  destruct (turned_closed _ _ N' T) as ((_ & E) & B). split; [|exact B]. split; [exact N|]. unfold first, final in *. rewrite rev_involutive in E. congruence.
Qed.
Lemma outlines_closed rs1 rs2 : same_outlines rs1 rs2 -> (forall r, In r rs1 -> closed_ring r) /\ (forall r, In r rs2 -> closed_ring r).
Proof.
  intros (rs & P & F). split.
  - intros r H. clear P. induction F as [|a b l l' H1 F IH]; [destruct H|]. destruct H as [<-|H]; [apply (outline_closed a b H1)|auto].
  - intros r H. apply (Permutation_in _ P) in H. clear P. induction F as [|a b l l' H1 F IH]; [destruct H|]. destruct H as [<-|H]; [apply (outline_closed a b H1)|auto].
Qed.
Lemma input_closed {D} (rs1 rs2 : list (region D)) : Forall2 same_input rs1 rs2 ->
  (forall x r, In x rs1 -> In r (rg_outer x ++ rg_inner x) -> closed_ring r) /\
  (forall x r, In x rs2 -> In r (rg_outer x ++ rg_inner x) -> closed_ring r).
Proof.
  induction 1 as [|a b l l' (_ & O & I) F (IH1 & IH2)]; [split; intros ? ? []|]. apply outlines_closed in O as (O1 & O2), I as (I1 & I2).
  split; intros x r [<-|Hx] Hr; eauto; apply in_app_or in Hr as [Hr|Hr]; auto.
Qed.

(** ** Files *)
Lemma map_closed f c : map f (shp_closed c) = close (map f c).
Proof. destruct c as [|p c]; [reflexivity|]. cbn [shp_closed map close app]. rewrite map_app. reflexivity. Qed.

Lemma turned_outline f a b : shp_turned a b -> same_outline (RPoints (map f a)) (RPoints (map f b)) /\
  ring_area (RPoints (map f a)) = ring_area (RPoints (map f b)).
Proof.
  intros (l & r & N & -> & ->). rewrite !map_closed, !map_app.
  assert (T : turned (close (map f l ++ map f r)) (close (map f r ++ map f l))) by (exists (map f l), (map f r); auto). split.
  - do 2 eexists. split; [reflexivity|]. split; [reflexivity|]. split; [|left; exact T].
    rewrite <- map_app. intros E. apply N. destruct (l ++ r); [reflexivity|discriminate E].
  - rewrite !ring_area_paths. apply shoelaces_perm, rotation_perm, rotation_filter, segments_turned, T.
Qed.

Lemma rings_outlines f (c : ring -> bool) x y : (forall a b, ring_area a = ring_area b -> c a = c b) ->
  (exists z, Permutation y z /\ Forall2 shp_turned x z) -> same_outlines (filter c (quantized f x)) (filter c (quantized f y)).
Proof.
  intros C (z & P & F). exists (filter c (quantized f z)). split; [apply filter_perm, Permutation_map, P|]. clear P.
  induction F as [|a b x z H F IH]; [constructor|]. unfold quantized in *. cbn [map filter]. apply (turned_outline f) in H as (H & A).
  rewrite (C _ _ A). destruct (c _); [constructor|]; assumption.
Qed.

Lemma import_regions m afs afd enc b shapes fs datas (s d : stream) t n :
  leaves_suffix afd -> bytes_ok s -> is_shp b shapes s -> is_dbf enc fs datas d ->
  Forall (fun rec => item_fits (quantize (quantizer_new b)) (Some (ROk rec))) (paired shapes datas) ->
  import m afs afd enc (Some s) (Some d) = Ok (ROk (t, n)) ->
  exists regs, Forall2 (imported (quantize (quantizer_new b))) (paired shapes datas) regs /\ build_topology m regs = Ok t.
Proof.
  intros Ha B S Hd HF H. destruct (import_file m afs afd enc b shapes fs datas s d Ha B S Hd HF) as (regs & R & I). rewrite I in H.
  exists regs. split; [exact R|]. destruct (length_check shapes datas); [discriminate|]. destruct (build_topology m regs); [|discriminate]. congruence.
Qed.

Lemma records_input f shapes shapes' datas : Forall2 same_record shapes shapes' -> forall regs regs',
  Forall2 (imported f) (paired shapes datas) regs -> Forall2 (imported f) (paired shapes' datas) regs' -> Forall2 same_input regs regs'.
Proof.
  intros F. revert datas. unfold paired. induction F as [|x x' xs xs' H F IH]; intros datas regs regs' A A'.
  - cbn in A, A'. inversion A; inversion A'; constructor.
  - destruct datas as [|d datas]; cbn [combine map] in A, A'; inversion A; inversion A'; subst; [constructor|]. constructor; [|eapply IH; eassumption].
    match goal with X : imported f _ ?y, Y : imported f _ ?z |- same_input ?y ?z => destruct X as (X1 & X2 & X3), Y as (Y1 & Y2 & Y3) end.
    cbn [sfr_data sfr_rings] in *. split; [congruence|]. rewrite X2, X3, Y2, Y3.
    split; apply rings_outlines; try exact H; intros a c ->; reflexivity.
Qed.

Lemma import_same_input m1 m2 afs afd enc b shapes shapes' fs datas (s s' d : stream) t t' n n' :
  leaves_suffix afd -> bytes_ok s -> bytes_ok s' -> is_shp b shapes s -> is_shp b shapes' s' -> is_dbf enc fs datas d ->
  Forall2 same_record shapes shapes' ->
  Forall (fun rec => item_fits (quantize (quantizer_new b)) (Some (ROk rec))) (paired shapes datas) ->
  Forall (fun rec => item_fits (quantize (quantizer_new b)) (Some (ROk rec))) (paired shapes' datas) ->
  import m1 afs afd enc (Some s) (Some d) = Ok (ROk (t, n)) -> import m2 afs afd enc (Some s') (Some d) = Ok (ROk (t', n')) ->
  exists regs regs', Forall2 same_input regs regs' /\ build_topology m1 regs = Ok t /\ build_topology m2 regs' = Ok t' /\
    Forall2 (imported (quantize (quantizer_new b))) (paired shapes datas) regs.
Proof.
  intros Ha B B' S S' Hd F H H' I I'.
  destruct (import_regions m1 afs afd enc b shapes fs datas s d t n Ha B S Hd H I) as (regs & R & E).
  destruct (import_regions m2 afs afd enc b shapes' fs datas s' d t' n' Ha B' S' Hd H' I') as (regs' & R' & E').
  exists regs, regs'. split; [eapply records_input; eassumption|auto].
Qed.

Lemma imported_small f recs regs : Forall (fun rec => item_fits f (Some (ROk rec))) recs -> Forall2 (imported f) recs regs -> small_input regs.
Proof.
  intros H F. induction F as [|rec reg recs regs I F IH]; intros g r G R; [destruct G|]. inversion H; subst. destruct G as [<-|G]; [|eapply IH; eassumption].
  match goal with X : item_fits f _ |- _ => pose proof (imported_fits f rec reg I X) as A end. rewrite Forall_forall in A. apply A in R as ((ps & ->) & R).
  rewrite Forall_forall in R. specialize (R (Z.abs (shoelace ps))). cbn [ring_values ring_area] in *. destruct R as [_ R]; [apply in_or_app; right; left; reflexivity|exact R].
Qed.
