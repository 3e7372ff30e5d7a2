(** * BuildFrame: building in another frame of reference *)
From Coq Require Import Permutation.
From Verif Require Import BuildFrameSpec GeoProofs TopoProofs BuildProofs OrderSpec OrderProofs FrameProofs FrameTopo.

(** ** Stored forms of moved paths *)
Definition reversible (x : list point) : Prop :=
  exists p q, first x = Some p /\ final x = Some q /\ (p <> q \/ (i64_of (shoelace x) <> 0 /\ i64_of (shoelace x) <> - 2 ^ 63)).

Lemma i64_of_neg z : (i64_of z <> - 2 ^ 63 /\ i64_of (- z) = - i64_of z) \/ (i64_of z = - 2 ^ 63 /\ i64_of (- z) = - 2 ^ 63).
Proof.
  rewrite !i64_of_wrap. destruct (Z.eq_dec (wrap_i64 z) (- 2 ^ 63)) as [Em|Em]; [right|left; split; [exact Em|apply wrap_neg; exact Em]].
  split; [exact Em|]. apply wrap_min in Em as [j Hj]. rewrite Hj. symmetry. apply (wrap_unique _ _ j); [unfold fits; lia|lia].
Qed.

Lemma stored_rev x : stored_form (rev x) = stored_form x <-> x = rev x \/ reversible x.
Proof.
  destruct x as [|a l]; [split; [left; reflexivity|reflexivity]|]. set (x := a :: l).
  destruct (final_nonempty x) as [q Hq]; [discriminate|]. assert (Hp : first x = Some a) by reflexivity. clearbody x.
  assert (Hr : reversible x <-> (a <> q \/ (i64_of (shoelace x) <> 0 /\ i64_of (shoelace x) <> - 2 ^ 63))).
  { split; [|intros H; exists a, q; auto]. intros (p' & q' & H1 & H2 & H). assert (p' = a) by congruence. assert (q' = q) by congruence. subst. exact H. }
  rewrite Hr. destruct (stored_form_cases x a q Hp Hq) as [[E H]|[E H]]; rewrite E;
    (destruct (stored_form_cases (rev x) q a) as [[E' H']|[E' H']]; [rewrite first_rev; exact Hq|rewrite final_rev; exact Hp| |]);
    rewrite E', ?rev_involutive; rewrite shoelace_rev in H'; pose proof (i64_of_neg (shoelace x)) as HN.
  - split; [intros HH; left; congruence|]. intros [HH|HH]; [congruence|]. exfalso.
    destruct H as [H|[-> H]], H' as [H'|[H1 H']]; subst; try (destruct (lt_point_asym _ _ H H')); try (destruct (lt_point_irrefl _ H)); try (destruct (lt_point_irrefl _ H')).
    destruct HH as [HH|HH]; [congruence|]. lia.
  - split; [|reflexivity]. intros _. right.
    destruct H as [H|[-> H]]; [left; intros ->; destruct (lt_point_irrefl _ H)|]. destruct H' as [H'|[_ H']]; [destruct (lt_point_irrefl _ H')|]. right. lia.
  - split; [|reflexivity]. intros _. right.
    destruct H as [H|[-> H]]; [left; intros ->; destruct (lt_point_irrefl _ H)|]. destruct H' as [H'|[_ H']]; [destruct (lt_point_irrefl _ H')|]. right. lia.
  - split; [intros HH; left; congruence|]. intros [HH|HH]; [congruence|]. exfalso.
    destruct H as [H|[-> H]], H' as [H'|[H1 H']]; subst; try (destruct (lt_point_asym _ _ H H')); try (destruct (lt_point_irrefl _ H)); try (destruct (lt_point_irrefl _ H')).
    destruct HH as [HH|HH]; [congruence|]. lia.
Qed.

Lemma moved_rev f x : moved_points f (rev x) = rev (moved_points f x).
Proof. apply map_rev. Qed.

Lemma reversible_moved f x : reversible x -> reversible (moved_points f x).
Proof.
  intros (p & q & Hp & Hq & H). exists (moved f p), (moved f q). unfold moved_points. rewrite first_map, final_map, Hp, Hq. cbn [option_map].
  split; [reflexivity|]. split; [reflexivity|]. destruct (pt_eqb_spec p q) as [->|HN]; [right|left; intros E; apply HN, (moved_inj f), E].
  destruct H as [H|H]; [congruence|]. fold (moved_points f x). rewrite (shoelace_moved f x q q Hp Hq).
  replace (turn f * shoelace x + potential f q - potential f q) with (turn f * shoelace x) by lia.
  destruct (turn_cases f) as [->| ->]; [rewrite Z.mul_1_l; exact H|]. replace (-1 * shoelace x) with (- shoelace x) by lia.
  pose proof (i64_of_neg (shoelace x)). pose proof (wrap_fits (shoelace x)) as F. rewrite <- i64_of_wrap in F. unfold fits in F. lia.
Qed.

Lemma stored_either x : stored_form x = x \/ stored_form x = rev x.
Proof. unfold stored_form. destruct x as [|p l]; [left; reflexivity|]. cbv zeta. destruct (_ || _); [auto|]. destruct (_ && _); auto. Qed.

Lemma stored_same a b : stored_form a = stored_form b -> a = b \/ (b = rev a /\ stored_form (rev a) = stored_form a).
Proof.
  intros H. destruct (stored_either a) as [Ea|Ea], (stored_either b) as [Eb|Eb]; pose proof H as H0; rewrite Ea, Eb in H0.
  - left. exact H0.
  - right. assert (b = rev a) by (rewrite H0, rev_involutive; reflexivity). subst b. split; [reflexivity|congruence].
  - right. subst b. split; [reflexivity|congruence].
  - left. rewrite <- (rev_involutive a), H0. apply rev_involutive.
Qed.

Lemma stored_moved f a b : stored_form a = stored_form b -> stored_form (moved_points f a) = stored_form (moved_points f b).
Proof.
  intros H. apply stored_same in H as [->|[-> H]]; [reflexivity|]. rewrite moved_rev. symmetry. apply stored_rev.
  apply stored_rev in H as [H|H]; [left|right; apply reversible_moved, H]. rewrite <- moved_rev, <- H. reflexivity.
Qed.

Lemma stored_moved_iff f a b : stored_form (moved_points f a) = stored_form (moved_points f b) <-> stored_form a = stored_form b.
Proof.
  split; [|apply stored_moved]. intros H. apply (stored_moved (inverse f)) in H. rewrite !inverse_points in H. exact H.
Qed.

(** ** Representatives *)
Fixpoint reps (g : list point -> list point) (l : list (list point)) : list (list point) :=
  match l with
  | [] => []
  | a :: t => a :: filter (fun b => negb (path_eqb (g a) (g b))) (reps g t)
  end.

Lemma filter_map_comm {A B} (h : A -> B) (g : B -> bool) l : filter g (map h l) = map h (filter (fun x => g (h x)) l).
Proof. induction l as [|x l IH]; [reflexivity|]. cbn [map filter]. destruct (g (h x)); cbn [map]; rewrite IH; reflexivity. Qed.

Lemma distinct_reps g l : distinct (map g l) = map g (reps g l).
Proof. induction l as [|a l IH]; [reflexivity|]. cbn [map distinct reps]. rewrite IH, filter_map_comm. reflexivity. Qed.

Lemma path_eqb_same a b c d : (a = b <-> c = d) -> path_eqb a b = path_eqb c d.
Proof. intros H. destruct (path_eqb_spec a b), (path_eqb_spec c d); tauto. Qed.

Lemma reps_same g h l : (forall a b, g a = g b <-> h a = h b) -> reps g l = reps h l.
Proof.
  intros H. induction l as [|a l IH]; [reflexivity|]. cbn [reps]. rewrite IH. f_equal. apply filter_ext. intros b. f_equal. apply path_eqb_same, H.
Qed.

Lemma index_same {A} (g h : A -> list point) l a : (forall a b, g a = g b <-> h a = h b) -> index (map g l) (g a) = index (map h l) (h a).
Proof.
  intros H. induction l as [|b l IH]; [reflexivity|]. cbn [map index]. rewrite IH, (path_eqb_same _ _ _ _ (H b a)). reflexivity.
Qed.

(** ** The parts of a built topology *)
Definition somes (l : list (option (list point))) : list (list point) := flat_map (fun o => match o with Some p => [p] | None => [] end) l.

Lemma stored_forms_somes {D} (ss : list (shape D)) : stored_forms ss = map stored_form (somes (all_paths ss)).
Proof.
  unfold stored_forms, somes. induction (all_paths ss) as [|[p|] l IH]; [reflexivity| |exact IH]. cbn [flat_map map app]. rewrite IH. reflexivity.
Qed.

Lemma build_parts {D} m (rs : list (region D)) t : build_topology m rs = Ok t ->
  let ks := distinct (stored_forms (expected rs)) in
  exact_references t /\ tp_regions t = final_regions (map (numbered_shape ks) (expected rs)) /\ map te_points (tp_edges t) = ks.
Proof.
  unfold build_topology. destruct (add_regions m builder_new rs) as [b|] eqn:E; [|discriminate]. cbn [bind].
  pose proof (builder_keys m rs b E) as K. apply add_regions_ok in E. pose proof (builder_ids b rs E) as Hids. unfold into_topology.
  rewrite into_topology_eq by (try apply E; apply Permutation_refl). intros H. apply finish_exact in H; [|assumption].
  rewrite (regions_numbered b rs E), K in H. exact H.
Qed.

(** ** Expected shapes *)
Lemma segments_moved f ps : segments (moved_points f ps) = map (moved_points f) (segments ps).
Proof.
  induction ps as [|p ps IH]; [reflexivity|]. destruct ps as [|q ps]; [reflexivity|].
  change (segments (p :: q :: ps)) with ([p; q] :: segments (q :: ps)). cbn [map]. rewrite <- IH. reflexivity.
Qed.

Lemma paths_moved f r : paths (moved_ring f r) = map (moved_points f) (paths r).
Proof. destruct r; [apply segments_moved|reflexivity]. Qed.

Lemma has_length_moved f p : has_length (moved_points f p) = has_length p.
Proof. destruct p as [|a [|b [|c l]]]; try reflexivity. cbn [moved_points map has_length]. rewrite moved_eqb. reflexivity. Qed.

Lemma lengths_moved f es : filter has_length (map (moved_points f) es) = map (moved_points f) (filter has_length es).
Proof. rewrite filter_map_comm. f_equal. apply filter_ext, has_length_moved. Qed.

Lemma expected_ring_moved f r : expected_ring (moved_ring f r) = map (moved_path f) (expected_ring r).
Proof. unfold expected_ring. rewrite paths_moved, lengths_moved, !map_map. reflexivity. Qed.

Lemma ring_area_moved f r : closed_ring r -> ring_area (moved_ring f r) = turn f * ring_area r.
Proof.
  intros H. apply closed_ring_chain in H. rewrite !ring_area_paths, paths_moved, lengths_moved. apply shoelaces_closed.
  destruct H as [p H]. exists p. apply chain_filter, H.
Qed.

Lemma has_area_moved f r : closed_ring r -> has_area (moved_ring f r) = has_area r.
Proof.
  intros H. unfold has_area. rewrite ring_area_moved by exact H. f_equal. destruct (turn_cases f) as [->| ->]; [rewrite Z.mul_1_l; reflexivity|].
  apply eq_true_iff_eq. rewrite !Z.eqb_eq. rewrite !Z.mod_divide by lia. split; intros [z Hz]; exists (- z); lia.
Qed.

Lemma rings_moved f rs : Forall closed_ring rs ->
  map expected_ring (filter has_area (map (moved_ring f) rs)) = map (map (moved_path f)) (map expected_ring (filter has_area rs)).
Proof.
  intros H. induction H as [|r rs Hr H IH]; [reflexivity|]. cbn [map filter]. rewrite (has_area_moved f r Hr).
  destruct (has_area r); [|exact IH]. cbn [map]. rewrite IH, expected_ring_moved. reflexivity.
Qed.

Lemma expected_moved {D} f (rs : list (region D)) : Forall closed_region rs ->
  expected (map (moved_region f) rs) = map (moved_shape f) (expected rs).
Proof.
  intros H. induction H as [|g rs Hg H IH]; [reflexivity|]. unfold expected in *. cbn [map flat_map]. rewrite map_app, IH. f_equal.
  apply Forall_app in Hg as [H1 H2]. rewrite !expected_region_eq. cbn [moved_region rg_outer rg_inner rg_data]. rewrite !rings_moved by assumption.
  destruct (map expected_ring (filter has_area (rg_outer g))) as [|o os]; [reflexivity|]. reflexivity.
Qed.

Lemma all_paths_moved {D} f (ss : list (shape D)) : all_paths (map (moved_shape f) ss) = map (moved_path f) (all_paths ss).
Proof.
  unfold all_paths. induction ss as [|s ss IH]; [reflexivity|]. cbn [map flat_map]. rewrite map_app, <- IH. f_equal.
  unfold shape_paths. cbn [moved_shape s_outer s_inner]. rewrite map_app, !concat_map. reflexivity.
Qed.

Lemma somes_moved f l : somes (map (moved_path f) l) = map (moved_points f) (somes l).
Proof. unfold somes. induction l as [|[p|] l IH]; [reflexivity| |exact IH]. cbn [map flat_map moved_path option_map app]. f_equal. exact IH. Qed.

Lemma build_moved_read {D} m m' f (rs : list (region D)) t s : Forall closed_region rs ->
  build_topology m rs = Ok t -> build_topology m' (map (moved_region f) rs) = Ok s ->
  read_topology s = map (moved_shape f) (read_topology t).
Proof.
  intros Hc H H'. rewrite (build_read _ _ _ H), (build_read _ _ _ H'). apply expected_moved, Hc.
Qed.

(** ** Returning *)
Lemma count_moved_paths f os k : (forall k, (count_path k os <= 2)%nat) -> (count_path k (map (moved_path f) os) <= 2)%nat.
Proof.
  intros H. destruct (in_dec (list_eq_dec point_eq_dec) k (map (fun p => stored_form (moved_points f p)) (somes os))) as [Hk|Hk].
  - apply in_map_iff in Hk as (p & <- & _). etransitivity; [|exact (H (stored_form p))]. clear H.
    unfold count_path. induction os as [|[q|] os IH]; [apply le_n| |exact IH]. cbn [map moved_path option_map filter].
    rewrite (path_eqb_same _ _ _ _ (stored_moved_iff f q p)). destruct (path_eqb (stored_form q) (stored_form p)); [cbn [length]; lia|exact IH].
  - assert (E : count_path k (map (moved_path f) os) = 0%nat); [|lia]. clear H.
    unfold count_path. induction os as [|[q|] os IH]; [reflexivity| |exact (IH Hk)]. cbn [somes flat_map app map In] in Hk.
    cbn [map moved_path option_map filter]. destruct (path_eqb_spec (stored_form (moved_points f q)) k) as [E|_]; [destruct Hk; left; exact E|].
    apply IH. intros X. apply Hk. right. exact X.
Qed.

Lemma build_moved_returns {D} m f (rs : list (region D)) t : Forall closed_region rs -> build_topology m rs = Ok t ->
  exists s, build_topology Release (map (moved_region f) rs) = Ok s.
Proof.
  intros Hc H. destruct (build_topology Release (map (moved_region f) rs)) as [s|p] eqn:E; [eauto|]. exfalso.
  apply build_topology_panic in E as [[E _]|(_ & k & E)]; [discriminate|]. rewrite expected_moved, all_paths_moved in E by exact Hc.
  unfold build_topology in H. destruct (add_regions m builder_new rs) as [b|] eqn:Eb; [|discriminate]. cbn [bind] in H.
  destruct (into_topology_iff m rs b Eb) as [HI _]. pose proof (proj1 HI (ex_intro _ t H)) as HK.
  pose proof (count_moved_paths f _ k HK). lia.
Qed.

(** ** Parts *)
Definition erase_ring (r : topo_ring) : topo_ring := TRing (map (fun d => DE (de_edge d) Forward) (tr_des r)) (tr_region r).
Definition erase {D} (g : topo_region D) : topo_region D := TRegion (tg_data g) (map erase_ring (tg_outer g)) (map erase_ring (tg_inner g)).

Lemma uses_erase {D} (gs : list (topo_region D)) : uses (map erase gs) = uses gs.
Proof.
  unfold uses, enumerate. rewrite map_length. generalize 0%nat. induction gs as [|g gs IH]; intros n; [reflexivity|].
  cbn [length seq map combine flat_map]. rewrite IH. f_equal. unfold uses_region. cbn [fst snd erase tg_outer tg_inner].
  assert (HH : forall s rs, flat_map (uses_ring n s) (enumerate (map erase_ring rs)) = flat_map (uses_ring n s) (enumerate rs)).
  { intros s rs. unfold enumerate. rewrite map_length. generalize 0%nat. induction rs as [|r rs IHr]; intros k; [reflexivity|].
    cbn [length seq map combine flat_map]. rewrite IHr. f_equal. unfold uses_ring. cbn [fst snd erase_ring tr_des]. rewrite map_map. reflexivity. }
  rewrite !HH. reflexivity.
Qed.

Lemma numbered_moved f P o :
  de_edge (numbered (map (fun p => stored_form (moved_points f p)) P) (moved_path f o)) = de_edge (numbered (map stored_form P) o).
Proof.
  destruct o as [p|]; [|reflexivity]. cbn [moved_path option_map numbered de_edge].
  apply (index_same (fun p => stored_form (moved_points f p)) stored_form P p). intros a b. apply stored_moved_iff.
Qed.

Lemma final_erase {D} f P (ss : list (shape D)) :
  map erase (final_regions (map (numbered_shape (map (fun p => stored_form (moved_points f p)) P)) (map (moved_shape f) ss))) =
  map erase (final_regions (map (numbered_shape (map stored_form P)) ss)).
Proof.
  unfold final_regions, enumerate. rewrite !map_length. generalize 0%nat. induction ss as [|s ss IH]; intros n; [reflexivity|].
  cbn [length seq map combine]. rewrite IH. f_equal. unfold erase, final_region, numbered_shape. cbn [fst snd br_data br_outer br_inner tg_data tg_outer tg_inner moved_shape s_data s_outer s_inner].
  assert (HH : forall l, map erase_ring (map (final_ring n) (map (map (numbered (map (fun p => stored_form (moved_points f p)) P))) (map (map (moved_path f)) l))) =
    map erase_ring (map (final_ring n) (map (map (numbered (map stored_form P))) l))).
  { intros l. induction l as [|r l IHl]; [reflexivity|]. cbn [map]. rewrite IHl. f_equal. unfold erase_ring, final_ring. cbn [tr_des tr_region]. rewrite !map_map. f_equal.
    apply map_ext. intros o. rewrite numbered_moved. reflexivity. }
  rewrite !HH. reflexivity.
Qed.

Lemma distinct_moved {D} f (ss : list (shape D)) : exists P,
  distinct (stored_forms ss) = map stored_form P /\
  distinct (stored_forms (map (moved_shape f) ss)) = map (fun p => stored_form (moved_points f p)) P.
Proof.
  exists (reps stored_form (somes (all_paths ss))). rewrite !stored_forms_somes, all_paths_moved, somes_moved. split; [apply distinct_reps|].
  rewrite map_map. rewrite (distinct_reps (fun p => stored_form (moved_points f p))). f_equal. apply reps_same. intros a b. apply stored_moved_iff.
Qed.

Lemma erase_same rs rs' : map erase_ring rs' = map erase_ring rs -> Forall2 same_rings rs rs'.
Proof.
  revert rs'. induction rs as [|r rs IH]; intros [|r' rs']; cbn [map]; try discriminate; [constructor|]. intros [= H1 H2 H3]. constructor; [|apply IH, H3].
  split; [|exact H2]. apply (f_equal (map de_edge)) in H1. rewrite !map_map in H1. exact H1.
Qed.

Lemma stored_points f p : stored_form (moved_points f p) = moved_points f (stored_form p) \/ stored_form (moved_points f p) = rev (moved_points f (stored_form p)).
Proof.
  destruct (stored_either p) as [->| ->], (stored_either (moved_points f p)) as [->| ->]; rewrite ?moved_rev, ?rev_involutive; auto.
Qed.

Lemma edges_related {D} (R : topo_edge -> topo_edge -> Prop) (t s : topology D) : length (tp_edges t) = length (tp_edges s) ->
  (forall i e e', nth_error (tp_edges t) i = Some e -> nth_error (tp_edges s) i = Some e' -> R e e') -> Forall2 R (tp_edges t) (tp_edges s).
Proof.
  generalize (tp_edges t) (tp_edges s). intros l. induction l as [|e l IH]; intros [|e' l']; try discriminate; intros HL H; [constructor|].
  constructor; [exact (H 0%nat e e' eq_refl eq_refl)|]. apply IH; [injection HL; auto|]. intros i. exact (H (S i)).
Qed.

Lemma build_moved_parts {D} m m' f (rs : list (region D)) t s : Forall closed_region rs ->
  build_topology m rs = Ok t -> build_topology m' (map (moved_region f) rs) = Ok s -> same_parts f t s.
Proof.
  intros Hc H H'. apply build_parts in H as ((_ & _ & X) & HR & HE), H' as ((_ & _ & X') & HR' & HE'). rewrite (expected_moved f rs Hc) in HR', HE'.
  destruct (distinct_moved f (expected rs)) as (P & K & K'). rewrite K in *. rewrite K' in *.
  assert (HU : map erase (tp_regions s) = map erase (tp_regions t)) by (rewrite HR, HR'; apply final_erase).
  assert (HS : uses (tp_regions s) = uses (tp_regions t)) by (rewrite <- (uses_erase (tp_regions s)), HU; apply uses_erase).
  split.
  - apply edges_related.
    + apply (f_equal (@length _)) in HE, HE'. rewrite !map_length in HE, HE'. congruence.
    + intros i e e' He He'. destruct (X i e He) as (_ & E0 & E1), (X' i e' He') as (_ & E0' & E1'). rewrite HS in E0', E1'.
      split; [|split; congruence]. apply (map_nth_error te_points) in He, He'. rewrite HE in He. rewrite HE' in He'.
      apply nth_error_map_some in He as (p & Hp & <-), He' as (p' & Hp' & <-). assert (p' = p) by congruence. subst p'. apply stored_points.
  - clear - HU. revert HU. generalize (tp_regions t) (tp_regions s). intros l. induction l as [|g l IH]; intros [|g' l']; cbn [map]; try discriminate; [constructor|].
    intros [= H1 H2 H3 H4]. constructor; [|apply IH, H4]. split; [exact H1|]. split; apply erase_same; assumption.
Qed.

(** ** Shifts *)
Lemma stored_shift x y p : stored_form (moved_points (shifted x y) p) = moved_points (shifted x y) (stored_form p) /\
  direction_of (moved_points (shifted x y) p) = direction_of p.
Proof.
  destruct p as [|a l]; [split; reflexivity|]. set (f := shifted x y).
  destruct (final_nonempty (a :: l)) as [q Hq]; [discriminate|]. rewrite final_last in Hq. assert (EQ : last (a :: l) a = q) by congruence.
  assert (EQ' : last (moved_points f (a :: l)) (moved f a) = moved f q).
  { assert (HH : final (moved_points f (a :: l)) = Some (moved f q)) by (unfold moved_points; rewrite final_map, final_last, EQ; reflexivity).
    cbn [moved_points map] in HH |- *. rewrite final_last in HH. congruence. }
  assert (EX : forall u w, (px (moved f u) <? px (moved f w)) = (px u <? px w) /\ (px (moved f u) =? px (moved f w)) = (px u =? px w) /\
    (py (moved f u) <? py (moved f w)) = (py u <? py w) /\ (py (moved f u) =? py (moved f w)) = (py u =? py w)).
  { intros u w. unfold f, shifted, moved, place. cbn [fr_swap fr_flip_x fr_flip_y fr_x fr_y px py].
    repeat split; apply eq_true_iff_eq; rewrite ?Z.ltb_lt, ?Z.eqb_eq; lia. }
  destruct (EX a q) as (X1 & X2 & X3 & X4).
  change (moved_points f (a :: l)) with (moved f a :: moved_points f l) in EQ' |- *. unfold stored_form, direction_of. cbv zeta. rewrite EQ, EQ', X1, X2, X3, X4.
  destruct ((px a <? px q) || ((px a =? px q) && (py a <? py q))); [split; reflexivity|].
  destruct ((px a =? px q) && (py a =? py q)) eqn:EC; cbn [andb]; [|split; [symmetry; apply moved_rev|reflexivity]].
  apply andb_true_iff in EC as [C1 C2]. apply Z.eqb_eq in C1, C2. assert (a = q) by (destruct a, q; cbn in *; congruence). subst q.
  assert (ES : shoelace (moved f a :: moved_points f l) = shoelace (a :: l)).
  { change (moved f a :: moved_points f l) with (moved_points f (a :: l)). rewrite (shoelace_moved f (a :: l) a a); [|reflexivity|rewrite final_last; congruence]. unfold f, turn, shifted, sign_of. cbn [fr_swap fr_flip_x fr_flip_y]. lia. }
  rewrite ES. destruct (0 <=? _); (split; [|reflexivity]); [reflexivity|symmetry; apply moved_rev].
Qed.

Lemma build_shifted {D} m m' x y (rs : list (region D)) t s : Forall closed_region rs ->
  build_topology m rs = Ok t -> build_topology m' (map (moved_region (shifted x y)) rs) = Ok s -> s = moved_topology (shifted x y) t.
Proof.
  intros Hc H H'. pose proof (build_moved_parts m m' (shifted x y) rs t s Hc H H') as (HP & _).
  apply build_parts in H as (_ & HR & HE), H' as (_ & HR' & HE'). set (f := shifted x y) in *. rewrite (expected_moved f rs Hc) in HR', HE'.
  destruct (distinct_moved f (expected rs)) as (P & K & K'). rewrite K in *. rewrite K' in *. destruct s as [gs es]. unfold moved_topology. cbn [tp_regions tp_edges] in *. f_equal.
  - rewrite HR, HR'. f_equal. rewrite map_map. apply map_ext. intros s. unfold numbered_shape. cbn [moved_shape s_data s_outer s_inner]. 
    assert (HH : forall o, numbered (map (fun p => stored_form (moved_points f p)) P) (moved_path f o) = numbered (map stored_form P) o).
    { intros o. pose proof (numbered_moved f P o) as HN. destruct o as [p|]; [|reflexivity]. cbn [moved_path option_map numbered de_edge] in *. rewrite HN. f_equal. apply stored_shift. }
    f_equal; rewrite map_map; apply map_ext; intros r; rewrite map_map; apply map_ext, HH.
  - assert (HM : map te_points es = map (moved_points f) (map te_points (tp_edges t))).
    { rewrite HE, HE', map_map. apply map_ext. intros p. apply stored_shift. }
    clear - HP HM. revert HM. induction HP as [|e e' l l' (_ & H0 & H1) HP IH]; [reflexivity|]. cbn [map]. intros [= H2 H3]. rewrite <- (IH H3). f_equal.
    unfold moved_edge. rewrite <- H0, <- H1, <- H2. destruct e'. reflexivity.
Qed.
