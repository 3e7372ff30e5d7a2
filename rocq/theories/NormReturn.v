(** * NormReturn: when normalization returns *)
From Verif Require Import GeoProofs TopoProofs BuildProofs.
From Verif Require Export NormTopo.

(** ** Building small rings *)

Definition small_ring (r : ring) : Prop := Forall nonneg (paths r) /\ weights (paths r) < 2 ^ 63.

Lemma paths_values_weight es a : Forall nonneg es -> Z.abs a + weights es < 2 ^ 63 ->
  Forall fits (paths_values a es) /\ Z.abs (a + shoelaces es) <= Z.abs a + weights es.
Proof.
  intros Hn. revert a. induction Hn as [|e es He Hn IH]; intros a Hw.
  - cbn. split; [constructor|lia].
  - pose proof (weight_nonneg _ He) as We. pose proof (weights_nonneg _ Hn) as Ws.
    change (weights (e :: es)) with (weight e + weights es) in *. cbn [shoelaces paths_values].
    destruct (path_values_weight e 0 He) as (F & B); [cbn; lia|]. cbn [Z.add Z.abs] in B.
    destruct (IH (a + shoelace e)) as (F' & B'); [lia|]. split; [|lia].
    apply Forall_app. split; [assumption|]. constructor; [unfold fits; lia|assumption].
Qed.

Lemma weight_segments ps : weights (segments ps) = weight ps.
Proof.
  induction ps as [|p [|q t] IH]; [reflexivity|reflexivity|].
  change (segments (p :: q :: t)) with ([p; q] :: segments (q :: t)).
  change (weights ([p; q] :: segments (q :: t))) with (weight [p; q] + weights (segments (q :: t))). rewrite IH.
  cbn [weight]. lia.
Qed.

Lemma nonneg_segments ps : Forall nonneg (segments ps) -> (2 <= length ps)%nat -> nonneg ps.
Proof.
  induction ps as [|p [|q t] IH]; cbn [length]; intros H L; try lia.
  change (segments (p :: q :: t)) with ([p; q] :: segments (q :: t)) in H. inversion H as [|? ? Hs H']; subst.
  inversion Hs as [|? ? Hp Hs']; subst. inversion Hs' as [|? ? Hq _]; subst. constructor; [assumption|].
  destruct t as [|r t]; [repeat constructor; apply Hq|]. apply IH; [assumption|cbn; lia].
Qed.

Lemma small_ring_values r : small_ring r -> Forall fits (ring_values r).
Proof.
  intros (Hn & Hw). destruct r as [ps|es]; cbn [ring_values paths] in *.
  - rewrite weight_segments in Hw. destruct (Nat.leb_spec 2 (length ps)) as [L|L].
    + apply nonneg_segments in Hn; [|assumption]. destruct (path_values_weight ps 0 Hn) as (F & B); [cbn; lia|].
      cbn [Z.add Z.abs] in B. apply Forall_app. split; [assumption|]. constructor; [unfold fits; lia|constructor].
    + destruct ps as [|p [|q ps]]; cbn in L; try lia; cbn; constructor; try constructor; unfold fits; lia.
  - destruct (paths_values_weight es 0 Hn) as (F & B); [cbn; lia|]. cbn [Z.add Z.abs] in B.
    apply Forall_app. split; [assumption|]. constructor; [unfold fits; lia|constructor].
Qed.

Lemma small_path ps : nonneg ps -> weight ps < 2 ^ 63 -> Forall fits (ring_values (RPoints ps)).
Proof.
  intros Hn Hw. destruct (path_values_weight ps 0 Hn) as (F & B); [cbn; lia|]. cbn [Z.add Z.abs] in B.
  cbn [ring_values]. apply Forall_app. split; [assumption|]. constructor; [unfold fits; lia|constructor].
Qed.

Lemma build_directed_edge_returns m em ps : nonneg ps -> weight ps < 2 ^ 63 ->
  exists x, build_directed_edge m em ps = Ok x.
Proof.
  intros Hn Hw. unfold build_directed_edge. rewrite zero_length_spec. destruct (has_length ps) eqn:Hl; cbn [negb]; [|eauto].
  assert (exists x, canonical m ps = Ok x) as ((k & d) & ->).
  { unfold canonical. destruct ps as [|p l]; [discriminate|]. unfold get, get_or. rewrite nth_error_last. cbn [nth_error bind].
    destruct (pt_ltb _ _); [cbn; eauto|]. destruct (pt_eqb _ _); [|cbn; eauto].
    unfold ring_winding_order. rewrite ring_aw_fits by (apply small_path; assumption). cbn [bind]. eauto. }
  cbn [bind]. destruct (em_find em k); eauto.
Qed.

Lemma build_des_returns m es : forall em, Forall nonneg es -> weights es < 2 ^ 63 ->
  exists x, build_des m em es = Ok x.
Proof.
  intros em. unfold build_des. generalize ([] : list directed_edge, em). clear em.
  induction es as [|e es IH]; intros st Hn Hw; cbn [mfold]; [eauto|].
  inversion Hn as [|? ? He Hn']; subst. pose proof (weight_nonneg _ He). pose proof (weights_nonneg _ Hn').
  change (weights (e :: es)) with (weight e + weights es) in Hw.
  destruct (build_directed_edge_returns m (snd st) e He) as ((o & em1) & ->); [lia|]. cbn [bind]. apply IH; [assumption|lia].
Qed.

Lemma build_ring_of_returns m em r : small_ring r -> exists x, build_ring_of m em r = Ok x.
Proof.
  intros S. unfold build_ring_of, ring_area2. rewrite (ring_aw_fits m r (small_ring_values r S)). cbn [bind fst].
  destruct (_ =? 0); [eauto|]. rewrite ring_edges_paths.
  destruct (build_des_returns m (paths r) em) as ((ds & em1) & ->); try apply S. cbn [bind]. eauto.
Qed.

Lemma build_rings_returns m rs : forall em, Forall small_ring rs -> exists x, build_rings m em rs = Ok x.
Proof.
  intros em. unfold build_rings. generalize ([] : list build_ring, em). clear em.
  induction rs as [|r rs IH]; intros st H; cbn [mfold]; [eauto|]. inversion H; subst.
  destruct (build_ring_of_returns m (snd st) r) as ((o & em1) & ->); [assumption|]. cbn [bind]. apply IH. assumption.
Qed.

Lemma add_regions_returns {D} m (rs : list (region D)) : forall b,
  (forall rg r, In rg rs -> In r (rg_outer rg ++ rg_inner rg) -> small_ring r) ->
  exists b', add_regions m b rs = Ok b'.
Proof.
  unfold add_regions. induction rs as [|rg rs IH]; intros b H; cbn [mfold]; [eauto|].
  assert (exists b1, add_region m b rg = Ok b1) as (b1 & ->).
  { unfold add_region. destruct (build_rings_returns m (rg_outer rg) (bl_edges b)) as ((o & em1) & ->).
    { apply Forall_forall. intros r Hr. apply (H rg); [left; reflexivity|]. apply in_app_iff. auto. }
    cbn [bind]. destruct (_ <? _)%nat; [|eauto].
    destruct (build_rings_returns m (rg_inner rg) em1) as ((i & em2) & ->).
    { apply Forall_forall. intros r Hr. apply (H rg); [left; reflexivity|]. apply in_app_iff. auto. }
    cbn [bind]. eauto. }
  cbn [bind]. apply IH. intros g r Hg. apply H. right. assumption.
Qed.

Lemma build_returns {D} m (rs : list (region D)) :
  (forall rg r, In rg rs -> In r (rg_outer rg ++ rg_inner rg) -> small_ring r) ->
  (forall k, (count_path k (all_paths (expected rs)) <= 2)%nat) ->
  exists t, build_topology m rs = Ok t.
Proof.
  intros H HC. unfold build_topology. destruct (add_regions_returns m rs builder_new H) as (b & E). rewrite E. cbn [bind].
  apply (into_topology_iff m rs b E). assumption.
Qed.

(** ** Counting segments *)

Definition cnt (k : list point) (ps : list (list point)) : nat := length (filter (path_eqb k) (sides ps)).

Lemma sides_app a b : sides (a ++ b) = sides a ++ sides b.
Proof. unfold sides. rewrite flat_map_app, map_app. reflexivity. Qed.

Lemma cnt_app k a b : cnt k (a ++ b) = (cnt k a + cnt k b)%nat.
Proof. unfold cnt. rewrite sides_app, filter_app, app_length. reflexivity. Qed.

Lemma Permutation_filter {A} (f : A -> bool) l l' : Permutation l l' -> Permutation (filter f l) (filter f l').
Proof.
  induction 1; cbn; [reflexivity| | |etransitivity; eassumption].
  - destruct (f x); [constructor|]; assumption.
  - destruct (f x), (f y); try reflexivity. apply perm_swap.
Qed.

Lemma cnt_sides k a b : Permutation (sides a) (sides b) -> cnt k a = cnt k b.
Proof. intros H. apply Permutation_length, Permutation_filter, H. Qed.

Lemma sides_perm a b : Permutation a b -> Permutation (sides a) (sides b).
Proof. intros H. apply Permutation_map. apply Permutation_flat_map. assumption. Qed.

Lemma segments_cons2 p q t : segments (p :: q :: t) = [p; q] :: segments (q :: t).
Proof. reflexivity. Qed.

Lemma segments_app l p r : segments (l ++ p :: r) = segments (l ++ [p]) ++ segments (p :: r).
Proof.
  induction l as [|a [|b l] IH]; cbn [app].
  - reflexivity.
  - destruct r; reflexivity.
  - rewrite !segments_cons2. cbn [app] in IH. rewrite IH. reflexivity.
Qed.

Lemma segments_glue p es q : chain p es q -> segments (glue es) = flat_map segments es.
Proof.
  revert p. induction es as [|e [|f t] IH]; intros p H; [reflexivity| |].
  - cbn [glue map concat flat_map]. rewrite !app_nil_r. reflexivity.
  - pose proof (chain_connected _ _ _ H) as HC. destruct H as (F & r & E & H).
    rewrite glue_cons by assumption. change (flat_map segments (e :: f :: t)) with (segments e ++ flat_map segments (f :: t)).
    rewrite <- (IH r H). rewrite (final_removelast e r E) at 1.
    rewrite (glue_tl r (f :: t) q) by (assumption || discriminate). cbn [tl]. rewrite <- app_assoc. cbn [app].
    rewrite segments_app, <- (final_removelast e r E). reflexivity.
Qed.

Lemma sides_glue p es q : chain p es q -> sides [glue es] = sides es.
Proof. intros H. unfold sides. cbn [flat_map]. rewrite app_nil_r, (segments_glue p es q H). reflexivity. Qed.

Lemma segments_rev ps : segments (rev ps) = rev (map (@rev point) (segments ps)).
Proof.
  induction ps as [|p [|q t] IH]; [reflexivity|reflexivity|].
  rewrite segments_cons2. cbn [map rev] in *. rewrite <- IH. rewrite <- app_assoc. cbn [app].
  rewrite segments_app. reflexivity.
Qed.

Lemma stored_form_pair p q : stored_form [q; p] = stored_form [p; q].
Proof.
  unfold stored_form. cbn [last].
  destruct (Z.ltb_spec (px q) (px p)), (Z.ltb_spec (px p) (px q)), (Z.eqb_spec (px q) (px p)), (Z.eqb_spec (px p) (px q)),
    (Z.ltb_spec (py q) (py p)), (Z.ltb_spec (py p) (py q)), (Z.eqb_spec (py q) (py p)), (Z.eqb_spec (py p) (py q));
    cbn [orb andb]; try lia; try reflexivity.
  assert (p = q) as -> by (destruct p, q; cbn in *; f_equal; lia).
  rewrite shoelace_cons2, det_same. reflexivity.
Qed.

Lemma segments_pair ps s : In s (segments ps) -> exists p q, s = [p; q].
Proof.
  induction ps as [|p [|q t] IH]; [intros []|intros []|]. rewrite segments_cons2. intros [<-|H]; [eauto|auto].
Qed.

Lemma sides_rev ps : Permutation (sides [rev ps]) (sides [ps]).
Proof.
  unfold sides. cbn [flat_map]. rewrite !app_nil_r, segments_rev, map_rev, <- Permutation_rev, map_map.
  rewrite (map_ext_in _ stored_form); [reflexivity|]. intros s Hs. apply segments_pair in Hs as (p & q & ->).
  cbn [rev app]. apply stored_form_pair.
Qed.

Lemma sides_cons e es : sides (e :: es) = sides [e] ++ sides es.
Proof. change (e :: es) with ([e] ++ es). apply sides_app. Qed.

Lemma sides_flipped es : Permutation (sides (map ne_points (flipped es))) (sides (map ne_points es)).
Proof.
  rewrite flipped_points. rewrite (sides_perm _ (map (@rev point) (map ne_points es))).
  2:{ apply Permutation_map. symmetry. apply Permutation_rev. }
  induction (map ne_points es) as [|e l IH]; [reflexivity|]. cbn [map]. rewrite sides_cons, (sides_cons e l).
  apply Permutation_app; [apply sides_rev|assumption].
Qed.

Lemma sides_runs runs out p q : Forall2 joins runs out -> chain p (map ne_points (concat runs)) q ->
  sides (map ne_points out) = sides (map ne_points (concat runs)).
Proof.
  intros HF. revert p. induction HF as [|run e runs out Hj HF IH]; intros p; cbn [concat map]; [reflexivity|].
  rewrite map_app, chain_app, sides_app, sides_cons. intros (r & H1 & H2). rewrite (IH r H2).
  destruct Hj as (_ & _ & ->). unfold walk. rewrite (sides_glue _ _ _ H1). reflexivity.
Qed.

Lemma sides_joined es out : good es -> joined es out ->
  Permutation (sides (map ne_points out)) (sides (map ne_points es)).
Proof.
  intros G (runs & R & HF). pose proof (good_rotation _ _ R G) as (_ & _ & p & HC).
  rewrite (sides_runs runs out p p) by assumption.
  apply sides_perm. symmetry. apply rotation_perm, rotation_map, R.
Qed.

Lemma sides_turned a b : turned a b -> Permutation (sides [a]) (sides [b]).
Proof.
  intros (l & r & -> & ->). apply Permutation_map. cbn [flat_map]. rewrite !app_nil_r.
  destruct l as [|p l]; [rewrite app_nil_r; reflexivity|].
  destruct r as [|q r]; [rewrite app_nil_r; reflexivity|].
  cbn [close app]. rewrite <- !app_assoc. cbn [app].
  change (p :: l ++ q :: r ++ [p]) with ((p :: l) ++ q :: (r ++ [p])).
  change (q :: r ++ p :: l ++ [q]) with ((q :: r) ++ p :: (l ++ [q])).
  rewrite (segments_app (p :: l)), (segments_app (q :: r)). cbn [app]. apply Permutation_app_comm.
Qed.

Lemma sides_tidied base out : good base -> tidied base out ->
  Permutation (sides (map ne_points out)) (sides (map ne_points base)).
Proof.
  intros G [H|(e & e' & H & -> & _ & T)]; [apply sides_joined; assumption|].
  rewrite <- (sides_joined _ _ G H). cbn [map]. symmetry. apply sides_turned. assumption.
Qed.

Lemma sides_normal {D} (t : topology D) r out : good (seen_ring t r) -> normal_ring t r out ->
  Permutation (sides (map ne_points out)) (sides (map ne_points (seen_ring t r))).
Proof.
  intros G (base & HB & (T & _)). destruct HB as [->| ->]; [apply sides_tidied; assumption|].
  rewrite (sides_tidied _ _ (flipped_good _ G) T). apply sides_flipped.
Qed.

Definition ring_cnt (k : list point) (rs : list (list norm_edge)) : nat := cnt k (map ne_points (concat rs)).

Lemma ring_cnt_cons k r rs : ring_cnt k (r :: rs) = (cnt k (map ne_points r) + ring_cnt k rs)%nat.
Proof. unfold ring_cnt. cbn [concat]. rewrite map_app, cnt_app. reflexivity. Qed.

Lemma ring_cnt_app k a b : ring_cnt k (a ++ b) = (ring_cnt k a + ring_cnt k b)%nat.
Proof. unfold ring_cnt. rewrite concat_app, map_app, cnt_app. reflexivity. Qed.

Lemma ring_cnt_perm k a b : Permutation a b -> ring_cnt k a = ring_cnt k b.
Proof.
  intros H. apply cnt_sides, sides_perm, Permutation_map.
  induction H; cbn [concat]; [reflexivity|apply Permutation_app_head; assumption| |etransitivity; eassumption].
  rewrite !app_assoc. apply Permutation_app_tail, Permutation_app_comm.
Qed.

Lemma ring_cnt_filter k f rs : (ring_cnt k (filter f rs) <= ring_cnt k rs)%nat.
Proof. induction rs as [|r rs IH]; [apply le_n|]. cbn [filter]. destruct (f r); rewrite !ring_cnt_cons; lia. Qed.

Lemma cnt_filter k f es : (cnt k (map ne_points (filter f es)) <= cnt k (map ne_points es))%nat.
Proof.
  induction es as [|e es IH]; [cbn; lia|]. cbn [filter]. destruct (f e); cbn [map].
  - change (ne_points e :: map ne_points (filter f es)) with ([ne_points e] ++ map ne_points (filter f es)).
    change (ne_points e :: map ne_points es) with ([ne_points e] ++ map ne_points es). rewrite !cnt_app. lia.
  - change (ne_points e :: map ne_points es) with ([ne_points e] ++ map ne_points es). rewrite !cnt_app. lia.
Qed.

Lemma cnt_split k rs : (ring_cnt k (untouched rs) + cnt k (map ne_points (pool rs)) <= ring_cnt k rs)%nat.
Proof.
  induction rs as [|r rs IH]; [cbn; lia|]. rewrite untouched_cons, pool_cons, ring_cnt_app, map_app, cnt_app, ring_cnt_cons.
  destruct (classify_cases ([], []) r) as [(-> & E & _)|[(-> & E & _)|(-> & E & _)]].
  - rewrite (pool_single_none r E). unfold ring_cnt at 1. cbn [concat]. rewrite app_nil_r. cbn [map]. unfold cnt at 2. cbn. lia.
  - rewrite (pool_single_none r E). unfold ring_cnt at 1. cbn [concat map]. unfold cnt at 1 2. cbn. lia.
  - rewrite (pool_single_mixed r E). unfold ring_cnt at 1. cbn [concat map]. unfold cnt at 1. cbn [sides flat_map map filter length].
    pose proof (cnt_filter k (fun e => negb (redundantb e)) r). fold (useful r) in H. unfold sides. cbn. lia.
Qed.

Lemma cnt_cycles k cycles ms : Forall good cycles -> Forall2 from_cycle cycles ms -> ring_cnt k ms = ring_cnt k cycles.
Proof.
  intros G F. induction F as [|c o cs ms (T & _) F IH]; [reflexivity|]. inversion G; subst. rewrite !ring_cnt_cons, IH by assumption.
  f_equal. apply cnt_sides. apply sides_tidied; assumption.
Qed.

Lemma cnt_side {D} k (t : topology D) o rs outs :
  (forall r, In r rs -> good (seen_ring t r)) -> side_fact t o rs outs ->
  (ring_cnt k outs <= ring_cnt k (map (seen_ring t) rs))%nat.
Proof.
  intros G (nrs & cycles & ms & F1 & C & F2 & P & _ & _ & _ & _).
  assert (E1 : ring_cnt k nrs = ring_cnt k (map (seen_ring t) rs)).
  { clear -F1 G. induction F1 as [|r out rs nrs H F IH]; [reflexivity|]. cbn [map]. rewrite !ring_cnt_cons. rewrite IH.
    2:{ intros x Hx. apply G. right. assumption. }
    f_equal. apply cnt_sides. apply sides_normal; [apply G; left; reflexivity|apply H]. }
  assert (L : longs (pool nrs)).
  { apply pool_longs. clear -F1. induction F1; constructor; [apply H|assumption]. }
  destruct (cycles_good _ _ _ L C F2) as (Gc & _).
  rewrite (ring_cnt_perm k _ _ P), ring_cnt_app, (cnt_cycles k cycles ms Gc F2).
  assert (ring_cnt k cycles = cnt k (map ne_points (pool nrs))) as ->.
  { unfold ring_cnt. apply cnt_sides, sides_perm, Permutation_map. apply C. }
  pose proof (cnt_split k nrs). lia.
Qed.

(** ** Paths used at most as often as their first segments *)

Lemma count_le k a b ps : has_length k = true -> k = a :: b :: skipn 2 k ->
  (count_path k (map Some ps) <= cnt (stored_form [a; b]) ps)%nat.
Proof.
  intros Hk Ek. induction ps as [|p ps IH]; [cbn; lia|].
  change (p :: ps) with ([p] ++ ps). rewrite map_app. unfold count_path. rewrite filter_app, app_length, cnt_app.
  fold (count_path k (map Some ps)). enough ((length (filter (fun o => match o with Some p => path_eqb (stored_form p) k | None => false end) (map Some [p]))
    <= cnt (stored_form [a; b]) [p])%nat) by lia.
  cbn [map filter]. destruct (path_eqb_spec (stored_form p) k) as [E|E]; [|cbn; lia]. cbn [length].
  assert (P : Permutation (sides [k]) (sides [p])).
  { rewrite <- E. unfold stored_form. destruct p; [reflexivity|]. destruct (_ || _); [reflexivity|].
    destruct (_ && _); [reflexivity|]. apply sides_rev. }
  rewrite <- (cnt_sides _ _ _ P). unfold cnt, sides. rewrite Ek. cbn [flat_map]. rewrite app_nil_r, segments_cons2.
  cbn [map filter]. destruct (path_eqb_spec (stored_form [a; b]) (stored_form [a; b])); [cbn; lia|congruence].
Qed.

Lemma has_length_stored p : has_length (stored_form p) = has_length p.
Proof.
  unfold stored_form. destruct p as [|a [|b [|c l]]]; try reflexivity.
  - cbn [last shoelace]. destruct (_ || _); [reflexivity|]. destruct (_ && _); [reflexivity|]. reflexivity.
  - cbn [last]. destruct (_ || _); [reflexivity|]. destruct (_ && _); [reflexivity|]. cbn. rewrite pt_eqb_sym. reflexivity.
  - destruct (_ || _); [reflexivity|]. destruct (_ && _); [reflexivity|]. rewrite has_length_3; [reflexivity|].
    rewrite rev_length. cbn. lia.
Qed.

Lemma count_bounded ps : Forall (fun p => has_length p = true) ps ->
  (forall k, (cnt k ps <= 2)%nat) -> forall k, (count_path k (map Some ps) <= 2)%nat.
Proof.
  intros HL HC k. destruct (has_length k) eqn:Hk.
  - destruct k as [|a [|b k]]; try discriminate. specialize (HC (stored_form [a; b])).
    pose proof (count_le (a :: b :: k) a b ps Hk eq_refl). lia.
  - unfold count_path. clear HC. induction HL as [|p ps Hp HL IH]; [cbn; lia|]. cbn [map filter].
    destruct (path_eqb_spec (stored_form p) k) as [E|E]; [|assumption].
    rewrite <- E, has_length_stored in Hk. congruence.
Qed.

(** ** Returning *)

Lemma mmap_returns {A B} (f : A -> res B) l : (forall a, In a l -> exists b, f a = Ok b) -> exists bs, mmap f l = Ok bs.
Proof.
  induction l as [|a l IH]; intros H; cbn [mmap]; [eauto|].
  destruct (H a (or_introl eq_refl)) as (b & ->). cbn [bind].
  destruct IH as (bs & ->); [intros x Hx; apply H; right; assumption|]. cbn [bind]. eauto.
Qed.

Lemma normalize_side_returns {D} m (t : topology D) o rg rs : valid t -> In rg (tp_regions t) ->
  incl rs (tg_outer rg ++ tg_inner rg) ->
  (forall r, In r rs -> computable (map ne_points (seen_ring t r))) -> mergeable t o rs ->
  exists out, normalize_region_rings m t rs o = Ok out.
Proof.
  intros V Hg Hi HC HM. unfold normalize_region_rings.
  destruct (mmap_returns (normalize_ring m t o) rs) as (nrs & E1).
  { intros r Hr. rewrite (normalize_ring_eq m t o rg r (proj1 V) Hg (Hi r Hr)). destruct (HC r Hr) as (H1 & H2 & H3).
    apply tidy_ring_returns; try assumption. eapply seen_ring_good; eauto. }
  rewrite E1. cbn [bind]. pose proof (Forall2_mmap _ (ring_fact t o) _ _ E1) as F1.
  specialize (F1 (fun r e Hr => normalize_ring_fact m t o rg r e V Hg (Hi r Hr))).
  assert (G : Forall good nrs). { clear -F1. induction F1; constructor; [apply H|assumption]. }
  destruct (join_adjacent_returns nrs G) as (js & E2).
  { apply HM. assert (X : forall r, In r rs -> Z.abs (shoelaces (map ne_points (seen_ring t r))) < 2 ^ 63).
    { intros r Hr. destruct (HC r Hr) as (H1 & H2 & _). apply (norm_area_small Debug); assumption. }
    clear -F1 X. induction F1 as [|r out rs nrs H F IH]; constructor.
    - destruct H as (H1 & _ & _ & _ & _ & W). split; [assumption|]. apply W, X. left. reflexivity.
    - apply IH. intros x Hx. apply X. right. assumption. }
  unfold norm_ring in *. rewrite E2. cbn [bind].
  destruct (join_adjacent_ok nrs js G E2) as (cycles & ms & C & F2 & P & T).
  assert (Lp : longs (pool nrs)).
  { apply pool_longs. clear -G. eapply Forall_impl; [|exact G]. intros a Ha. apply Ha. }
  destruct (cycles_good _ _ _ Lp C F2) as (Gc & Gm).
  destruct (sort_rings_ok js) as (s & Es & _ & _).
  { eapply Permutation_Forall; [symmetry; exact P|]. apply Forall_app.
    split; (eapply Forall_impl; [apply good_keys|]); [apply untouched_good|]; assumption. }
  unfold norm_ring in *. rewrite Es. cbn [bind]. eauto.
Qed.

(** Weights of the resulting rings. *)
Lemma weight_turned a b : turned a b -> weight a = weight b.
Proof.
  intros (l & r & -> & ->). destruct l as [|p l]; [rewrite app_nil_r; reflexivity|].
  destruct r as [|q r]; [rewrite app_nil_r; reflexivity|].
  cbn [close app]. rewrite <- !app_assoc. cbn [app].
  change (p :: l ++ q :: r ++ [p]) with ((p :: l) ++ q :: (r ++ [p])).
  change (q :: r ++ p :: l ++ [q]) with ((q :: r) ++ p :: (l ++ [q])).
  rewrite (weight_app (p :: l)), (weight_app (q :: r)). cbn [app]. lia.
Qed.

Lemma tidied_weights base out : good base -> tidied base out -> weights (map ne_points out) = weights (map ne_points base).
Proof.
  intros G [H|(e & e' & H & -> & _ & T)]; [apply joined_weights; assumption|].
  rewrite <- (joined_weights _ _ G H). cbn [map weights fold_right]. rewrite (weight_turned _ _ T). reflexivity.
Qed.

Lemma tidied_nonneg base out : tidied base out -> Forall nonneg (map ne_points base) -> Forall nonneg (map ne_points out).
Proof.
  intros [H|(e & e' & H & -> & _ & T)] Hn; [eapply joined_nonneg; eassumption|].
  apply (joined_nonneg _ _ H) in Hn. cbn [map] in *. inversion Hn as [|? ? He _]; subst. constructor; [|constructor].
  eapply nonneg_incl; [|exact He]. apply turned_inv in T as (c & c' & R & -> & ->). apply rotation_perm in R.
  intros x Hx. destruct c' as [|y c']; [destruct Hx|]. cbn [close] in Hx.
  assert (I : In x c).
  { apply (Permutation_in x (Permutation_sym R)). apply in_app_iff in Hx as [Hx|[<-|[]]]; [assumption|left; reflexivity]. }
  destruct c as [|z c]; [destruct I|]. cbn [close]. apply in_app_iff. auto.
Qed.

Lemma weight_rev ps : weight (rev ps) = weight ps.
Proof.
  induction ps as [|p [|q t] IH]; [reflexivity|reflexivity|].
  cbn [rev] in *. rewrite <- app_assoc. cbn [app]. rewrite weight_app, IH. cbn [weight]. lia.
Qed.

Lemma flipped_weights es : weights (map ne_points (flipped es)) = weights (map ne_points es).
Proof.
  rewrite flipped_points. rewrite (weights_perm _ (map (@rev point) (map ne_points es))).
  2:{ apply Permutation_map. symmetry. apply Permutation_rev. }
  induction (map ne_points es) as [|e l IH]; [reflexivity|]. cbn [map weights fold_right].
  unfold weights in IH. rewrite weight_rev, IH. reflexivity.
Qed.

Lemma flipped_nonneg es : Forall nonneg (map ne_points es) -> Forall nonneg (map ne_points (flipped es)).
Proof.
  rewrite flipped_points. intros H. apply (Forall_map (@rev point)). apply Forall_rev. eapply Forall_impl; [|exact H].
  intros a Ha. eapply nonneg_incl; [|exact Ha]. intros x Hx. apply in_rev in Hx. assumption.
Qed.

Definition total (rs : list (list norm_edge)) : Z := weights (map ne_points (concat rs)).

Lemma total_cons r rs : total (r :: rs) = weights (map ne_points r) + total rs.
Proof. unfold total. cbn [concat]. rewrite map_app, weights_app. reflexivity. Qed.

Lemma total_in r rs : Forall nonneg (map ne_points (concat rs)) -> In r rs -> weights (map ne_points r) <= total rs.
Proof.
  intros Hn. induction rs as [|x rs IH]; [intros []|]. rewrite total_cons. cbn [concat] in Hn. rewrite map_app in Hn.
  apply Forall_app in Hn as (H1 & H2). pose proof (weights_nonneg _ H1). pose proof (weights_nonneg _ H2).
  unfold total in *. intros [<-|Hr]; [lia|]. specialize (IH H2 Hr). lia.
Qed.

Lemma total_app a b : total (a ++ b) = total a + total b.
Proof. unfold total. rewrite concat_app, map_app, weights_app. reflexivity. Qed.

Lemma rings_paths_concat {D} (t : topology D) rs : rings_paths t rs = map ne_points (concat (map (seen_ring t) rs)).
Proof. unfold rings_paths. induction rs as [|r rs IH]; [reflexivity|]. cbn [flat_map map concat]. rewrite map_app, IH. reflexivity. Qed.

Definition plain_nonneg (es : list norm_edge) : Prop := Forall nonneg (map ne_points es).

Lemma plain_nonneg_app a b : plain_nonneg (a ++ b) <-> plain_nonneg a /\ plain_nonneg b.
Proof. unfold plain_nonneg. rewrite map_app, Forall_app. reflexivity. Qed.

Lemma weights_filter f es : plain_nonneg es ->
  plain_nonneg (filter f es) /\ weights (map ne_points (filter f es)) <= weights (map ne_points es).
Proof.
  unfold plain_nonneg. induction es as [|e es IH]; cbn [filter map]; [split; [constructor|lia]|].
  intros H. inversion H as [|? ? He H']; subst. destruct (IH H') as (I1 & I2). pose proof (weight_nonneg _ He).
  change (weights (ne_points e :: map ne_points es)) with (weight (ne_points e) + weights (map ne_points es)).
  destruct (f e); [|split; [assumption|lia]]. cbn [map].
  change (weights (ne_points e :: map ne_points (filter f es))) with (weight (ne_points e) + weights (map ne_points (filter f es))).
  split; [constructor; assumption|lia].
Qed.

Lemma total_split rs : plain_nonneg (concat rs) ->
  plain_nonneg (concat (untouched rs)) /\ plain_nonneg (pool rs) /\
  total (untouched rs) + weights (map ne_points (pool rs)) <= total rs.
Proof.
  induction rs as [|r rs IH]; [cbn; intros _; repeat split; try constructor; unfold total; cbn; lia|].
  cbn [concat]. rewrite plain_nonneg_app. intros (H1 & H2). destruct (IH H2) as (I1 & I2 & I3).
  rewrite untouched_cons, pool_cons, concat_app, !plain_nonneg_app, total_app, map_app, weights_app, total_cons.
  destruct (classify_cases ([], []) r) as [(-> & E & _)|[(-> & E & _)|(-> & E & _)]].
  - rewrite (pool_single_none r E). cbn [concat]. rewrite app_nil_r. unfold total at 1. cbn [concat]. rewrite app_nil_r.
    repeat split; try assumption; try constructor. change (weights (map ne_points [])) with 0. lia.
  - rewrite (pool_single_none r E). unfold total at 1. cbn [concat]. pose proof (weights_nonneg _ H1).
    repeat split; try assumption; try constructor. change (weights (map ne_points [])) with 0. lia.
  - rewrite (pool_single_mixed r E). unfold total at 1. cbn [concat].
    destruct (weights_filter (fun e => negb (redundantb e)) r H1) as (F1 & F2). fold (useful r) in F1, F2.
    repeat split; try assumption; try constructor. change (weights (map ne_points [])) with 0. lia.
Qed.

Lemma tidied_total cycles ms : Forall good cycles -> Forall2 from_cycle cycles ms -> plain_nonneg (concat cycles) ->
  total ms = total cycles /\ plain_nonneg (concat ms).
Proof.
  intros G F. induction F as [|c o cs ms (T & _) F IH]; [auto|]. inversion G; subst. cbn [concat].
  rewrite !plain_nonneg_app, !total_cons. intros (H1' & H2'). destruct (IH ltac:(assumption) H2') as (-> & I2).
  rewrite (tidied_weights c o) by assumption. repeat split; try assumption. eapply tidied_nonneg; eassumption.
Qed.

Lemma normal_weights {D} (t : topology D) r out : good (seen_ring t r) -> normal_ring t r out ->
  plain_nonneg (seen_ring t r) ->
  weights (map ne_points out) = weights (map ne_points (seen_ring t r)) /\ plain_nonneg out.
Proof.
  intros G (base & HB & (T & _)) Hn. destruct HB as [->| ->].
  - split; [apply tidied_weights; assumption|eapply tidied_nonneg; eassumption].
  - split; [rewrite (tidied_weights (flipped (seen_ring t r)) out (flipped_good _ G) T); apply flipped_weights|].
    eapply tidied_nonneg; [eassumption|]. apply flipped_nonneg. assumption.
Qed.

Lemma side_small {D} (t : topology D) o rs outs :
  (forall r, In r rs -> good (seen_ring t r)) -> computable_side t rs -> side_fact t o rs outs ->
  Forall small_ring (map into_ring outs).
Proof.
  intros G (Hn & Hw & _) (nrs & cycles & ms & F1 & C & F2 & P & _ & _ & _ & _).
  rewrite rings_paths_concat in Hn, Hw. fold (plain_nonneg (concat (map (seen_ring t) rs))) in Hn. fold (total (map (seen_ring t) rs)) in Hw.
  assert (E1 : total nrs = total (map (seen_ring t) rs) /\ plain_nonneg (concat nrs)).
  { clear -F1 G Hn. induction F1 as [|r out rs nrs H F IH]; [auto|]. cbn [map concat] in *. rewrite !total_cons.
    apply plain_nonneg_app in Hn as (Hn1 & Hn2). rewrite plain_nonneg_app.
    destruct IH as (-> & I); [intros x Hx; apply G; right; assumption|assumption|].
    destruct (normal_weights t r out) as (-> & ?); [apply G; left; reflexivity|apply H|assumption|]. auto. }
  destruct E1 as (E1 & N1).
  assert (L : longs (pool nrs)).
  { apply pool_longs. clear -F1. induction F1; constructor; [apply H|assumption]. }
  destruct (cycles_good _ _ _ L C F2) as (Gc & _).
  destruct (total_split nrs N1) as (T1 & T2 & T3).
  assert (Nc : plain_nonneg (concat cycles)).
  { eapply Permutation_Forall; [|exact T2]. apply Permutation_map. symmetry. apply C. }
  destruct (tidied_total _ _ Gc F2 Nc) as (T4 & T5).
  assert (T6 : total cycles = weights (map ne_points (pool nrs))).
  { unfold total. apply weights_perm, Permutation_map, C. }
  assert (N2 : plain_nonneg (concat (untouched nrs ++ ms))).
  { rewrite concat_app, plain_nonneg_app. auto. }
  apply (Forall_map into_ring). eapply Permutation_Forall; [symmetry; exact P|].
  apply Forall_forall. intros r Hr. pose proof (total_in r _ N2 Hr) as B. rewrite total_app in B.
  split; cbn [into_ring paths]; [|lia].
  assert (I : incl (map ne_points r) (map ne_points (concat (untouched nrs ++ ms)))).
  { intros x Hx. apply in_map_iff in Hx as (e & <- & He). apply in_map. apply in_concat. eauto. }
  eapply Forall_in_incl; [exact I|exact N2].
Qed.

Lemma computable_side_ring {D} (t : topology D) rs r : computable_side t rs -> In r rs ->
  computable (map ne_points (seen_ring t r)).
Proof.
  intros (Hn & Hw & Hs) Hr. rewrite rings_paths_concat in Hn, Hw. split; [|split; [|apply Hs; assumption]].
  - eapply Forall_in_incl; [|exact Hn]. intros x Hx. apply in_map_iff in Hx as (e & <- & He).
    apply in_map, in_concat. exists (seen_ring t r). split; [apply in_map; assumption|assumption].
  - pose proof (total_in (seen_ring t r) (map (seen_ring t) rs) Hn (in_map _ _ _ Hr)) as B. unfold total in B. lia.
Qed.

Lemma normalize_region_returns {D} m (t : topology D) rg : valid t -> In rg (tp_regions t) ->
  computable_side t (tg_outer rg) -> computable_side t (tg_inner rg) ->
  mergeable t Clockwise (tg_outer rg) -> mergeable t CounterClockwise (tg_inner rg) ->
  exists g, normalize_region m t rg = Ok g.
Proof.
  intros V Hg C1 C2 M1 M2. unfold normalize_region.
  destruct (normalize_side_returns m t Clockwise rg (tg_outer rg) V Hg) as (o & ->); try assumption.
  { intros x Hx. apply in_app_iff. auto. }
  { intros r Hr. exact (computable_side_ring t _ r C1 Hr). }
  cbn [bind]. destruct (normalize_side_returns m t CounterClockwise rg (tg_inner rg) V Hg) as (i & ->); try assumption.
  { intros x Hx. apply in_app_iff. auto. }
  { intros r Hr. exact (computable_side_ring t _ r C2 Hr). }
  cbn [bind]. eauto.
Qed.

(** The paths of the regions handed to the builder. *)
Definition out_paths {D} (g : region D) : list (list point) :=
  flat_map paths (filter has_area (rg_outer g) ++ filter has_area (rg_inner g)).

Lemma cnt_flat {A} k (f : A -> list (list point)) (g : A -> list (list point)) l :
  (forall a, In a l -> (cnt k (f a) <= cnt k (g a))%nat) -> (cnt k (flat_map f l) <= cnt k (flat_map g l))%nat.
Proof.
  induction l as [|a l IH]; intros H; [cbn; lia|]. cbn [flat_map]. rewrite !cnt_app.
  specialize (H a (or_introl eq_refl)) as H1. assert (forall x, In x l -> (cnt k (f x) <= cnt k (g x))%nat) by (intros; apply H; right; assumption).
  specialize (IH H0). lia.
Qed.

Lemma cnt_area_filter k rs : (cnt k (flat_map paths (filter has_area rs)) <= cnt k (flat_map paths rs))%nat.
Proof.
  induction rs as [|r rs IH]; [apply le_n|]. cbn [filter]. destruct (has_area r); cbn [flat_map]; rewrite !cnt_app; lia.
Qed.

Lemma flat_paths_into outs : flat_map paths (map into_ring outs) = map ne_points (concat outs).
Proof. induction outs as [|r outs IH]; [reflexivity|]. cbn [map flat_map concat]. rewrite IH, map_app. reflexivity. Qed.

Lemma out_paths_cnt {D} m k (t : topology D) rg g : valid t -> In rg (tp_regions t) -> normalize_region m t rg = Ok g ->
  (cnt k (out_paths g) <= cnt k (region_paths t rg))%nat /\ Forall (fun p => has_length p = true) (out_paths g).
Proof.
  intros V Hg H. destruct (normalize_region_fact m t rg g V Hg H) as (outs & ins & -> & S1 & S2).
  assert (G : forall r, In r (tg_outer rg ++ tg_inner rg) -> good (seen_ring t r)).
  { intros r Hr. eapply seen_ring_good; eassumption. }
  pose proof (cnt_side k t Clockwise (tg_outer rg) outs (fun r Hr => G r (in_or_app _ _ _ (or_introl Hr))) S1) as B1.
  pose proof (cnt_side k t CounterClockwise (tg_inner rg) ins (fun r Hr => G r (in_or_app _ _ _ (or_intror Hr))) S2) as B2.
  unfold out_paths, region_paths. cbn [rg_outer rg_inner]. rewrite !flat_map_app, !cnt_app. split.
  - pose proof (cnt_area_filter k (map into_ring outs)) as A1. pose proof (cnt_area_filter k (map into_ring ins)) as A2.
    rewrite flat_paths_into in A1, A2. fold (ring_cnt k outs) in A1. fold (ring_cnt k ins) in A2.
    unfold ring_cnt at 2 in B1. unfold ring_cnt at 2 in B2.
    rewrite <- rings_paths_concat in B1, B2. unfold rings_paths in B1, B2. lia.
  - assert (X : forall o rs l, side_fact t o rs l -> Forall (fun p => has_length p = true) (flat_map paths (filter has_area (map into_ring l)))).
    { intros o rs l S. apply side_lengthy in S as (L & _). apply Forall_forall. intros p Hp.
      apply in_flat_map in Hp as (r & Hr & Hp). apply filter_In in Hr as (Hr & _). apply in_map_iff in Hr as (es & <- & Hes).
      cbn [into_ring paths] in Hp. apply in_map_iff in Hp as (e & <- & He). rewrite Forall_forall in L. specialize (L es Hes).
      unfold lengthy in L. rewrite Forall_forall in L. auto. }
    apply Forall_app. eauto.
Qed.

Lemma expected_paths {D} (gs : list (region D)) :
  Forall (fun g => Forall (fun p => has_length p = true) (out_paths g)) gs ->
  incl (all_paths (expected gs)) (map Some (flat_map out_paths gs)) /\
  forall k, (count_path k (all_paths (expected gs)) <= count_path k (map Some (flat_map out_paths gs)))%nat.
Proof.
  assert (X : forall rs, Forall (fun p => has_length p = true) (flat_map paths rs) ->
     concat (map expected_ring rs) = map Some (flat_map paths rs)).
  { induction rs as [|r rs IH]; cbn [flat_map]; [reflexivity|]. intros H. apply Forall_app in H as (H1 & H2).
    cbn [map concat]. rewrite map_app, (IH H2). f_equal. unfold expected_ring. f_equal. apply filter_true. assumption. }
  intros H. assert (Y : forall g : region D, Forall (fun p => has_length p = true) (out_paths g) ->
    all_paths (expected [g]) = [] \/ all_paths (expected [g]) = map Some (out_paths g)).
  { intros g Hg. unfold all_paths, expected. cbn [flat_map]. rewrite app_nil_r. unfold expected_region.
    destruct (filter has_area (rg_outer g)) as [|x l] eqn:E; [left; reflexivity|]. right. cbn [flat_map]. unfold shape_paths. cbn [s_outer s_inner].
    unfold out_paths in *. rewrite E in *. rewrite flat_map_app in Hg. apply Forall_app in Hg as (Hg1 & Hg2).
    rewrite app_nil_r, (X _ Hg1), (X _ Hg2), flat_map_app, map_app. reflexivity. }
  assert (Z : forall g gs', all_paths (expected (g :: gs')) = all_paths (expected [g]) ++ all_paths (expected (D := D) gs')).
  { intros g gs'. unfold all_paths, expected. cbn [flat_map]. rewrite app_nil_r, flat_map_app. reflexivity. }
  assert (CA : forall k a b, count_path k (a ++ b) = (count_path k a + count_path k b)%nat).
  { intros k a b. unfold count_path. rewrite filter_app, app_length. reflexivity. }
  induction H as [|g gs Hg H (I1 & I2)]; [split; [intros x []|intros k; apply le_n]|].
  rewrite Z. cbn [flat_map]. rewrite map_app. destruct (Y g Hg) as [->| ->]; split.
  - intros x Hx. apply in_app_iff. right. apply I1. exact Hx.
  - intros k. rewrite !CA. specialize (I2 k). change (count_path k []) with 0%nat. lia.
  - apply incl_app; [apply incl_appl, incl_refl|apply incl_appr; assumption].
  - intros k. rewrite !CA. specialize (I2 k). lia.
Qed.

Lemma cnt_filter_sides k ps : length (filter (path_eqb k) (sides ps)) = cnt k ps.
Proof. reflexivity. Qed.

Lemma normalize_returns {D} m (t : topology D) : valid t ->
  (forall rg, In rg (tp_regions t) -> computable_side t (tg_outer rg) /\ computable_side t (tg_inner rg)) ->
  at_most_two (topology_paths t) ->
  (forall rg, In rg (tp_regions t) -> mergeable t Clockwise (tg_outer rg) /\ mergeable t CounterClockwise (tg_inner rg)) ->
  exists t', normalize m t = Ok t'.
Proof.
  intros V HC H2 HM.
  destruct (mmap_returns (normalize_region m t) (tp_regions t)) as (gs & E).
  { intros rg Hg. apply normalize_region_returns; auto; try apply HC; try apply HM; assumption. }
  assert (F : Forall2 (fun rg g => normalize_region m t rg = Ok g /\ In rg (tp_regions t)) (tp_regions t) gs).
  { eapply Forall2_mmap; [eassumption|]. auto. }
  destruct (build_returns m gs) as (t' & B).
  - intros g r Hg Hr. destruct (Forall2_in_r _ _ _ g F Hg) as (rg & Hin & En & _).
    destruct (normalize_region_fact m t rg g V Hin En) as (outs & ins & -> & S1 & S2). cbn [rg_outer rg_inner] in Hr.
    destruct (HC rg Hin) as (C1 & C2).
    apply (side_small t _ (tg_outer rg)) in S1; [|intros x Hx; eapply seen_ring_good; eauto; apply in_app_iff; auto|assumption].
    apply (side_small t _ (tg_inner rg)) in S2; [|intros x Hx; eapply seen_ring_good; eauto; apply in_app_iff; auto|assumption].
    rewrite Forall_forall in S1, S2. apply in_app_iff in Hr as [Hr|Hr]; auto.
  - assert (L : Forall (fun g => Forall (fun p => has_length p = true) (out_paths g)) gs).
    { apply Forall_forall. intros g Hg. destruct (Forall2_in_r _ _ _ g F Hg) as (rg & Hin & En & _).
      apply (out_paths_cnt m [] t rg g V Hin En). }
    destruct (expected_paths gs L) as (_ & LE). intros k. eapply Nat.le_trans; [apply LE|].
    apply count_bounded.
    + apply Forall_flat_map. assumption.
    + intros k'. eapply Nat.le_trans; [|apply (H2 k')]. rewrite cnt_filter_sides. unfold topology_paths.
      clear -F V. induction F as [|rg g rgs gs (En & Hin) F IH]; [apply le_n|]. cbn [flat_map]. rewrite !cnt_app.
      destruct (out_paths_cnt m k' t rg g V Hin En). lia.
  - exists t'. apply normalize_Ok. exists gs. auto.
Qed.

(** Without redundant edges there is nothing to merge. *)
Lemma plain_mergeable {D} (t : topology D) o rs :
  (forall r e, In r rs -> In e (seen_ring t r) -> ~ redundant e) -> mergeable t o rs.
Proof.
  intros N nrs F.
  assert (U : Forall (Forall (fun e => ~ redundant e)) nrs).
  { clear -F N. induction F as [|r out rs nrs H F IH]; constructor.
    - apply Forall_forall. intros e He. destruct (in_seen_label t r _ out e (proj1 H) He eq_refl) as (f & Hf & L).
      pose proof (N r f (or_introl eq_refl) Hf) as X. unfold redundant in *. unfold label in L. congruence.
    - apply IH. intros x e Hx. apply N. right. assumption. }
  assert (pool nrs = []) as ->; [|split; [constructor|reflexivity]].
  destruct (untouched_all nrs U) as (_ & X). exact X.
Qed.
