(** * MemoryNorm: normalization only compares region pointers *)
From Verif Require Import MemorySpec SimplifyFrame SimplifyProofs Spec GeoProofs TopoProofs MemoryProofs.

Section Relabel.
Context (f : option nat -> option nat) (f_inj : forall a b, f a = f b -> a = b).

Definition re (e : norm_edge) : norm_edge := NE (ne_points e) (f (ne_reg0 e)) (f (ne_reg1 e)).
Definition rem (m : bmap) : bmap := map (fun kv => (fst kv, re (snd kv))) m.

Lemma eqb_eq a b : opt_nat_eqb a b = true <-> a = b.
Proof. destruct a as [a|], b as [b|]; cbn; try (split; congruence). rewrite Nat.eqb_eq. split; congruence. Qed.
Lemma eqb_re a b : opt_nat_eqb (f a) (f b) = opt_nat_eqb a b.
Proof. apply eq_true_iff_eq. rewrite !eqb_eq. split; [apply f_inj|congruence]. Qed.
Lemma same_re a b : same_regions (re a) (re b) = same_regions a b.
Proof. unfold same_regions. cbn [re ne_reg0 ne_reg1]. rewrite !eqb_re. reflexivity. Qed.
Lemma redundant_re e : is_redundant (re e) = is_redundant e.
Proof. apply eqb_re. Qed.

Lemma join_step_re l e : join_step (map re l) (re e) = rmap (map re) (join_step l e).
Proof. destruct l as [|x l]; [reflexivity|]. cbn [map join_step]. rewrite same_re. destruct (same_regions x e); [|reflexivity]. unfold tail_points. cbn [re ne_points]. destruct (ne_points e); reflexivity. Qed.

Lemma removelast_map {A B} (F : A -> B) l : removelast (map F l) = map F (removelast l).
Proof. induction l as [|a [|b l] IH]; [reflexivity|reflexivity|]. change (map F (a :: b :: l)) with (F a :: map F (b :: l)). cbn [removelast map] in *. rewrite IH. reflexivity. Qed.

Lemma join_wrap_re l : join_wrap (map re l) = rmap (map re) (join_wrap l).
Proof.
  destruct l as [|x l]; [reflexivity|]. unfold join_wrap. change (map re (x :: l)) with (re x :: map re l). cbv iota. replace (rev (re x :: map re l)) with (map re (rev (x :: l))) by (rewrite map_rev; reflexivity).
  destruct (rev (x :: l)) as [|y [|z r]]; try reflexivity. cbn [map]. rewrite same_re.
  destruct (same_regions x y); [|reflexivity]. unfold tail_points. cbn [re ne_points]. destruct (ne_points x); cbn [bind rmap]; [reflexivity|]. rewrite removelast_map. reflexivity.
Qed.

Lemma join_re l : join_related_edges (map re l) = rmap (map re) (join_related_edges l).
Proof.
  unfold join_related_edges. apply (bind_rmap (map re)); [exact (mfold_rmap (map re) re join_step join_step join_step_re l [])|]. intros r _. rewrite <- (map_rev re r). apply join_wrap_re.
Qed.

Lemma area_re m l : norm_area m (map re l) = norm_area m l.
Proof. unfold norm_area. apply fold_stored. reflexivity. Qed.

Lemma wind_re m l o : wind_edges m (map re l) o = rmap (map re) (wind_edges m l o).
Proof.
  unfold wind_edges, norm_winding. rewrite area_re. apply bind_rsame. intros w _. cbn [rmap]. destruct (winding_eqb o w); [reflexivity|]. rewrite map_rev, !map_map. reflexivity.
Qed.

Lemma island_re e : rotate_island_edge (re e) = rmap re (rotate_island_edge e).
Proof.
  unfold rotate_island_edge. cbn [re ne_points ne_reg0 ne_reg1]. destruct (min_index (ne_points e)) as [[|i]|]; try reflexivity.
  apply bind_rsame. intros a _. apply bind_rsame. intros b _. apply bind_rsame. reflexivity.
Qed.

Lemma mmap_map {A B C} (F : A -> B) (k : B -> res C) l : mmap k (map F l) = mmap (fun a => k (F a)) l.
Proof. induction l as [|a l IH]; [reflexivity|]. cbn [map mmap]. rewrite IH. reflexivity. Qed.

Lemma rotate_re l : rotate_edges (map re l) = rmap (map re) (rotate_edges l).
Proof.
  assert (HG : (firsts <- mmap (fun e => get (ne_points e) 0) (map re l) ;;
      match min_index firsts with None | Some O => Ok (map re l) | Some i => Ok (skipn i (map re l) ++ firstn i (map re l)) end) =
    rmap (map re) (firsts <- mmap (fun e => get (ne_points e) 0) l ;;
      match min_index firsts with None | Some O => Ok l | Some i => Ok (skipn i l ++ firstn i l) end)).
  { rewrite mmap_map. cbn [re ne_points]. apply bind_rsame. intros fs _. destruct (min_index fs) as [[|i]|]; try reflexivity. cbn [rmap]. rewrite map_app, skipn_map, firstn_map. reflexivity. }
  destruct l as [|a [|b l]]; [exact HG| |exact HG]. cbn [map rotate_edges]. apply (bind_rmap re); [apply island_re|reflexivity].
Qed.

Lemma insert_re k v m : bm_insert k (re v) (rem m) = option_map rem (bm_insert k v m).
Proof.
  induction m as [|[k' v'] m IH]; [reflexivity|]. cbn [rem map bm_insert fst snd]. destruct (pt_eqb k k'); [reflexivity|]. destruct (pt_ltb k k'); [reflexivity|].
  fold (rem m). rewrite IH. destruct (bm_insert k v m); reflexivity.
Qed.

Lemma remove_re k m : bm_remove k (rem m) = option_map (fun x => (re (fst x), rem (snd x))) (bm_remove k m).
Proof.
  induction m as [|[k' v'] m IH]; [reflexivity|]. cbn [rem map bm_remove fst snd]. destruct (pt_eqb k k'); [reflexivity|]. fold (rem m). rewrite IH. destruct (bm_remove k m) as [[e m']|]; reflexivity.
Qed.

Lemma index_re m l : index_edges (rem m) (map re l) = rmap rem (index_edges m l).
Proof.
  unfold index_edges. apply (mfold_rmap rem). intros s e. cbn [re ne_points]. apply bind_rsame. intros p _. fold (re e). rewrite insert_re. destruct (bm_insert p e s); reflexivity.
Qed.

Lemma filter_re (P : norm_edge -> bool) l : (forall e, P (re e) = P e) -> filter P (map re l) = map re (filter P l).
Proof. intros H. induction l as [|e l IH]; [reflexivity|]. cbn [map filter]. rewrite H, IH. destruct (P e); reflexivity. Qed.

Definition rst (st : list norm_ring * bmap) : list norm_ring * bmap := (map (map re) (fst st), rem (snd st)).

Lemma classify_re st r : classify_ring (rst st) (map re r) = rmap rst (classify_ring st r).
Proof.
  unfold classify_ring. cbv zeta. rewrite (filter_re is_redundant) by apply redundant_re.
  rewrite (filter_re (fun e => negb (is_redundant e))) by (intros e; rewrite redundant_re; reflexivity). rewrite !map_length.
  destruct (length (filter is_redundant r)) as [|n]; [cbn [rst fst snd rmap]; unfold rst; cbn [fst snd]; rewrite map_app; reflexivity|].
  destruct (length (filter (fun e => negb (is_redundant e)) r)) as [|n']; [reflexivity|]. cbn [rst fst snd]. apply (bind_rmap rem); [apply index_re|reflexivity].
Qed.

Lemma follow_re fuel start : forall endp m acc, follow fuel start endp (rem m) (map re acc) = rmap (fun x => (map re (fst x), rem (snd x))) (follow fuel start endp m acc).
Proof.
  induction fuel as [|fuel IH]; intros endp m acc; [reflexivity|]. cbn [follow]. rewrite remove_re. destruct (bm_remove endp m) as [[e m']|]; [|reflexivity]. cbn [option_map fst snd re ne_points].
  apply bind_rsame. intros q _. destruct (pt_eqb q start); [cbn [rmap fst snd]; rewrite map_app; reflexivity|]. transitivity (follow fuel start q (rem m') (map re (acc ++ [e]))); [rewrite map_app; reflexivity|apply IH].
Qed.

Lemma rebuild_re fuel : forall m ret, rebuild fuel (rem m) (map (map re) ret) = rmap (map (map re)) (rebuild fuel m ret).
Proof.
  induction fuel as [|fuel IH]; intros [|[k v] m] ret; try reflexivity. cbn [rem map rebuild fst snd]. change ((k, re v) :: map _ m) with (rem ((k, v) :: m)).
  unfold rem at 1. rewrite map_length. fold (rem ((k, v) :: m)). apply (bind_rmap (fun x => (map re (fst x), rem (snd x)))); [exact (follow_re _ k k ((k, v) :: m) [])|]. intros [es m'] _. cbn [fst snd].
  apply (bind_rmap (map re)); [apply join_re|]. intros es1 _. apply (bind_rmap (map re)); [apply rotate_re|]. intros es2 _. transitivity (rebuild fuel (rem m') (map (map re) (ret ++ [es2]))); [rewrite map_app; reflexivity|apply IH].
Qed.

Lemma key_re r : ring_key (map re r) = ring_key r.
Proof. unfold ring_key, get. rewrite get_or_map. destruct (get_or PIndex r 0); reflexivity. Qed.

Lemma sort_re rs : sort_rings (map (map re) rs) = rmap (map (map re)) (sort_rings rs).
Proof.
  unfold sort_rings, norm_ring. rewrite map_length. destruct (Nat.leb (length rs) 1); [reflexivity|]. rewrite mmap_map.
  rewrite (mmap_moved (fun p => p) ring_key) by (intros r; rewrite key_re; destruct (ring_key r); reflexivity).
  unfold norm_ring. destruct (@mmap (list norm_edge) point ring_key rs) as [ks|p]; cbn [rmap bind]; [|reflexivity]. rewrite map_id. f_equal.
  set (g := fun kr : point * norm_ring => (fst kr, map re (snd kr))).
  assert (HI : forall k r l, insert_by_key k (map re r) (map g l) = map g (insert_by_key k r l)).
  { intros k r l. induction l as [|[k' r'] l IH]; [reflexivity|]. cbn [map g fst snd insert_by_key]. destruct (pt_ltb k' k || pt_eqb k' k); [|reflexivity]. rewrite IH. reflexivity. }
  assert (HF : forall l acc, fold_left (fun acc kr => insert_by_key (fst kr) (snd kr) acc) (map g l) (map g acc) = map g (fold_left (fun acc kr => insert_by_key (fst kr) (snd kr) acc) l acc)).
  { intros l. induction l as [|kr l IH]; intros acc; [reflexivity|]. cbn [map fold_left]. change (fst (g kr)) with (fst kr). change (snd (g kr)) with (map re (snd kr)). rewrite HI. apply IH. }
  assert (HC : forall ks rs, combine ks (map (map re) rs) = map g (combine ks rs)).
  { intros ks0. induction ks0 as [|k ks0 IH]; intros [|r rs0]; try reflexivity. cbn [map combine]. rewrite IH. reflexivity. }
  rewrite HC. transitivity (map snd (map g (fold_left (fun acc kr => insert_by_key (fst kr) (snd kr) acc) (combine ks rs) []))); [rewrite <- HF; reflexivity|rewrite !map_map; reflexivity].
Qed.

Lemma adjacent_re rs : join_adjacent_rings (map (map re) rs) = rmap (map (map re)) (join_adjacent_rings rs).
Proof.
  unfold join_adjacent_rings. apply (bind_rmap rst); [exact (mfold_rmap rst (map re) classify_ring classify_ring classify_re rs ([], []))|]. intros [ret m] _. cbn [rst fst snd].
  destruct m as [|kv m]; [reflexivity|]. change (rem (kv :: m)) with ((fst kv, re (snd kv)) :: rem m). cbv iota. change ((fst kv, re (snd kv)) :: rem m) with (rem (kv :: m)).
  unfold rem at 1. rewrite map_length. apply (bind_rmap (map (map re))); [apply rebuild_re|]. intros r _. apply sort_re.
Qed.

Lemma into_re r : into_ring (map re r) = into_ring r.
Proof. unfold into_ring. rewrite map_map. reflexivity. Qed.
End Relabel.

Lemma bind_rsub {A B C} (F : A -> B) (x : res A) x' (k : B -> res C) (k' : A -> res C) :
  x' = rmap F x -> (forall a, x = Ok a -> k (F a) = k' a) -> bind x' k = bind x k'.
Proof. intros -> H. destruct x as [a|p]; [exact (H a eq_refl)|reflexivity]. Qed.

Section Norm.
Context {D : Type} (sz : sizes) (h : home) (t : topology D) (to : Z).
Context (Hsz : proper sz) (Hl : livable sz h t) (Hx : exact_references t).

Definition name (o : option nat) : option nat := option_map (fun i => Z.to_nat (region_address sz h i)) o.

Lemma name_inj a b : name a = name b -> a = b.
Proof.
  destruct Hsz as (_ & _ & Hs), Hl as (_ & Hr & _). unfold name, region_address. destruct a as [a|], b as [b|]; cbn [option_map]; try discriminate; [|reflexivity].
  intros [= E]. f_equal. nia.
Qed.

Lemma name_of o : region_name (or_null (region_address sz h) o) = name o.
Proof.
  destruct Hsz as (_ & _ & Hs), Hl as (_ & Hr & _). unfold region_name, name, or_null, region_address. destruct o as [i|]; [|reflexivity].
  destruct (Z.eqb_spec (h_regions h + Z.of_nat i * sz_region sz) 0); [nia|reflexivity].
Qed.

Lemma users_has_ring i rr : In rr (users i (uses (tp_regions t))) -> has_ring t rr.
Proof.
  unfold users. rewrite in_map_iff. intros ([j rr'] & E & H). cbn in E. subst rr'. apply filter_In in H as [H _]. unfold uses in H. apply in_flat_map in H as ([ri rg] & H1 & H2).
  assert (HE : forall A (l : list A) k x, In (k, x) (enumerate l) -> nth_error l k = Some x).
  { intros A l k x. unfold enumerate. intros Hin. apply In_nth_error in Hin as (n & Hn).
    assert (forall s, nth_error (combine (seq s (length l)) l) n = Some (k, x) -> k = (s + n)%nat /\ nth_error l n = Some x) as HH.
    { clear. revert n. induction l as [|a l IH]; intros [|n] s; cbn; try discriminate; [intros [= <- <-]; split; [lia|reflexivity]|]. intros E. apply IH in E as [-> ?]. split; [lia|assumption]. }
    apply HH in Hn as [-> ?]. assumption. }
  apply HE in H1. unfold uses_region in H2. cbn [fst snd] in H2. apply in_app_or in H2 as [H2|H2]; apply in_flat_map in H2 as ([k r] & H3 & H4); apply HE in H3; unfold uses_ring in H4; cbn [fst snd] in H4;
    apply in_map_iff in H4 as (d & [= _ <-] & _); exists rg; cbn [rr_region rr_side rr_index]; (split; [assumption|]); apply nth_error_Some; congruence.
Qed.

Lemma deref_has rr : has_ring t rr -> exists r, deref_ring t rr = Ok r.
Proof.
  intros (g & H1 & H2). unfold deref_ring. unfold get_or at 1. rewrite H1. cbn [bind]. unfold get_or. apply nth_error_Some in H2. destruct (nth_error _ (rr_index rr)) as [r|]; [eauto|congruence].
Qed.

Lemma ring_at_stored rr r : has_ring t rr -> deref_ring t rr = Ok r -> p_ring_at sz (map (stored_region sz h) (enumerate (tp_regions t))) (ring_address sz h rr) = Ok (stored_ring sz h r).
Proof.
  intros HR HD. destruct Hsz as (_ & Hs & _), Hl as (_ & _ & _ & Huniq).
  assert (HG : forall gs i, (forall j g, nth_error gs j = Some g -> nth_error (tp_regions t) (i + j) = Some g) -> (i <= rr_region rr)%nat -> (rr_region rr < i + length gs)%nat ->
    p_ring_at sz (map (stored_region sz h) (combine (seq i (length gs)) gs)) (ring_address sz h rr) = Ok (stored_ring sz h r)).
  { induction gs as [|g gs IH]; intros i HN H1 H2; [cbn in H2; lia|]. cbn [length seq combine map p_ring_at]. cbn [stored_region pg_outer_at pg_outer pg_inner_at pg_inner fst snd]. rewrite !map_length.
    pose proof (HN 0%nat g eq_refl) as Hg. rewrite Nat.add_0_r in Hg.
    assert (Hin : forall s k, index_at (h_rings h i s) (sz_ring sz) (length (match s with Outer => tg_outer g | Inner => tg_inner g end)) (ring_address sz h rr) = Some k -> rr = RR i s k).
    { intros s k E. apply index_at_some in E as [E Hk]; [|exact Hs]. apply Huniq; [exact HR|exists g; split; [exact Hg|exact Hk]|]. rewrite E. reflexivity. }
    assert (Hsome : forall s, rr_region rr = i -> rr_side rr = s ->
      index_at (h_rings h i s) (sz_ring sz) (length (match s with Outer => tg_outer g | Inner => tg_inner g end)) (ring_address sz h rr) = Some (rr_index rr)).
    { intros s Ei Es. unfold ring_address. rewrite Ei, Es. apply index_at_slot; [exact Hs|]. destruct HR as (g' & Hg' & Hk). rewrite Ei in Hg'. rewrite Es in Hk. assert (g' = g) by congruence. subst g'. exact Hk. }
    pose proof (Hin Outer) as HO. pose proof (Hin Inner) as HI. pose proof (Hsome Outer) as SO. pose proof (Hsome Inner) as SI. cbn [rr_region] in *.
    destruct (index_at (h_rings h i Outer) _ _ _) as [k|].
    { specialize (HO k eq_refl). rewrite HO in HD. unfold deref_ring in HD. cbn [rr_region rr_side rr_index] in HD. unfold get_or in HD at 1. rewrite Hg in HD. cbn [bind] in HD.
      rewrite get_or_map, HD. reflexivity. }
    destruct (index_at (h_rings h i Inner) _ _ _) as [k|].
    { specialize (HI k eq_refl). rewrite HI in HD. unfold deref_ring in HD. cbn [rr_region rr_side rr_index] in HD. unfold get_or in HD at 1. rewrite Hg in HD. cbn [bind] in HD.
      rewrite get_or_map, HD. reflexivity. }
    assert (rr_region rr <> i) as Hne by (intros E; destruct (rr_side rr); [discriminate (SO E eq_refl)|discriminate (SI E eq_refl)]).
    apply IH; [|lia|cbn in H2; lia]. intros j g' Hj. replace (S i + j)%nat with (i + S j)%nat by lia. apply HN. exact Hj. }
  destruct HR as (g & Hg & Hk) eqn:EHR. apply (HG (tp_regions t) 0%nat); [tauto|lia|]. apply nth_error_Some. congruence.
Qed.

Lemma ring0_at e rr i : nth_error (tp_edges t) i = Some e -> te_ring0 e = Some rr \/ te_ring1 e = Some rr -> has_ring t rr.
Proof.
  intros He H. destruct Hx as (_ & _ & H3). destruct (H3 i e He) as (_ & E0 & E1). destruct H as [H|H]; [rewrite E0 in H|rewrite E1 in H]; apply nth_error_In in H; exact (users_has_ring i rr H).
Qed.

Lemma with_stored d :
  ('(ps, p0, p1) <- p_with_directed_edge sz (regions_moved to (stored sz h t)) (PDE (edge_address sz h (de_edge d)) (de_dir d)) ;; Ok (NE ps (region_name p0) (region_name p1))) =
  rmap (re name) (with_directed_edge t d).
Proof.
  destruct Hsz as (Hs & Hs2 & _). assert (HL := Hl). destruct HL as (_ & _ & Hp & _). unfold p_with_directed_edge, with_directed_edge. cbn [regions_moved stored pt_edges_at pt_edges pt_regions pd_edge pd_dir].
  change (edge_address sz h (de_edge d)) with (slot (h_edges h) (sz_edge sz) (de_edge d)). rewrite (deref_slot _ _ _ _ Hs), get_or_map. unfold get_or. destruct (nth_error (tp_edges t) (de_edge d)) as [e|] eqn:Ee; cbn [rmap bind]; [|reflexivity].
  cbv zeta. cbn [stored_edge pe_points pe_ring0 pe_ring1].
  assert (Hnull : forall gs : list (p_region D), Forall (fun g => 0 < pg_outer_at g /\ 0 < pg_inner_at g) gs -> p_ring_at sz gs 0 = Panic PNull).
  { intros gs. induction gs as [|g gs IH]; [reflexivity|]. intros HF. inversion HF as [|? ? [G1 G2] HF']. subst. cbn [p_ring_at]. unfold index_at.
    replace (0 <=? 0 - pg_outer_at g) with false by (symmetry; apply Z.leb_gt; lia). replace (0 <=? 0 - pg_inner_at g) with false by (symmetry; apply Z.leb_gt; lia). cbn. apply IH, HF'. }
  destruct (te_ring0 e) as [r0|] eqn:E0; cbn [or_null].
  2:{ rewrite Hnull; [reflexivity|]. apply Forall_forall. intros g Hg. apply in_map_iff in Hg as ([i g'] & <- & _). cbn. split; apply Hp. }
  assert (HR0 : has_ring t r0) by (apply (ring0_at e r0 (de_edge d) Ee); left; exact E0). destruct (deref_has r0 HR0) as [x0 HD0]. rewrite (ring_at_stored r0 x0 HR0 HD0), HD0. cbn [bind].
  destruct (te_ring1 e) as [r1|] eqn:E1; cbn [or_null].
  - assert (HR1 : has_ring t r1) by (apply (ring0_at e r1 (de_edge d) Ee); right; exact E1). destruct (deref_has r1 HR1) as [x1 HD1].
    replace (ring_address sz h r1 =? 0) with false by (symmetry; apply Z.eqb_neq; unfold ring_address; specialize (Hp (rr_region r1) (rr_side r1)); nia).
    rewrite (ring_at_stored r1 x1 HR1 HD1), HD1. cbn [bind rmap stored_ring pr_region]. rewrite !name_of. reflexivity.
  - cbn [Z.eqb bind rmap stored_ring pr_region]. rewrite name_of. reflexivity.
Qed.

Lemma norm_ring_stored m o r : p_normalize_ring sz m (regions_moved to (stored sz h t)) o (stored_ring sz h r) = rmap (map (re name)) (normalize_ring m t o r).
Proof.
  unfold p_normalize_ring, normalize_ring. cbn [stored_ring pr_des]. rewrite mmap_map.
  apply (bind_rmap (map (re name))); [apply mmap_moved; intros d; apply with_stored|]. intros es _.
  apply (bind_rmap (map (re name))); [apply join_re, name_inj|]. intros es1 _. apply (bind_rmap (map (re name))); [apply wind_re|]. intros es2 _. apply rotate_re.
Qed.

Lemma norm_rings_stored m rs o : p_normalize_rings sz m (regions_moved to (stored sz h t)) (map (stored_ring sz h) rs) o = normalize_region_rings m t rs o.
Proof.
  unfold p_normalize_rings, normalize_region_rings. rewrite mmap_map.
  apply (bind_rsub (map (map (re name)))); [apply mmap_moved; intros r; apply norm_ring_stored|]. intros nrs _.
  apply (bind_rsub (map (map (re name)))); [apply adjacent_re, name_inj|]. intros j _. apply (bind_rsub (map (map (re name)))); [apply sort_re|]. intros s _.
  rewrite map_map. f_equal. apply map_ext. intros r. apply into_re.
Qed.

Lemma norm_stored pl m : allocates pl -> p_normalize sz pl m (regions_moved to (stored sz h t)) = rmap (left_at sz pl) (normalize m t).
Proof.
  intros Hpl. unfold p_normalize, normalize. cbn [regions_moved stored pt_regions].
  rewrite (fold_stored (fun b (ig : nat * topo_region D) => g <- normalize_region m t (snd ig) ;; add_region m b g)).
  - unfold enumerate. rewrite (fold_snd (fun b rg => g <- normalize_region m t rg ;; add_region m b g)). apply bind_rsame. intros b _. apply into_stored; assumption.
  - intros b [i g]. cbn [snd]. unfold p_normalize_region, normalize_region. cbn [stored_region pg_outer pg_inner pg_data fst snd].
    change (PTopology to (map (stored_region sz h) (enumerate (tp_regions t))) (h_edges h) (map (stored_edge sz h) (tp_edges t))) with (regions_moved to (stored sz h t)).
    rewrite !norm_rings_stored. reflexivity.
Qed.
End Norm.

(** ** Topologies as the builders leave them *)
Lemma left_stays {D} sz pl (t : topology D) : edges_stay pl -> left_at sz pl t = regions_moved (regions_end pl) (stored sz (home_of pl) t).
Proof. intros H. unfold left_at, regions_moved, stored, regions_end, boxed_at. cbn [home_of h_edges h_regions pt_regions pt_edges pt_edges_at]. destruct H as [-> | ->]; [|destruct (pl_spare_edges pl)]; reflexivity. Qed.

Lemma left_home {D} sz pl (t : topology D) : edges_stay pl -> regions_stay pl -> left_at sz pl t = stored sz (home_of pl) t.
Proof.
  intros H1 H2. rewrite left_stays by exact H1. unfold regions_moved, stored, regions_end. cbn [pt_regions pt_edges pt_edges_at home_of h_regions].
  destruct H2 as [-> | ->]; [|destruct (pl_spare_regions pl)]; reflexivity.
Qed.

Lemma outcome_ext {A B} (R S : A -> B) x y : (forall a, R a = S a) -> y = rmap R x -> same_outcome S x y.
Proof. intros H ->. destruct x; cbn; [rewrite H|]; reflexivity. Qed.

Lemma at_home {D} sz h (t : topology D) : stored sz h t = regions_moved (h_regions h) (stored sz h t).
Proof. reflexivity. Qed.

Section Results.
Context (sz : sizes) (pl : placing) (Hsz : proper sz) (Hpl : allocates pl) (He : edges_stay pl).
Let moved_home {D} (t : topology D) := regions_moved (regions_end pl) (stored sz (home_of pl) t).

Lemma build_anywhere {D} m (rs : list (region D)) : same_outcome moved_home (build_topology m rs) (p_build sz pl m rs).
Proof. apply (outcome_ext (left_at sz pl)); [intros t; apply left_stays, He|apply build_stored; assumption]. Qed.
Lemma norm_anywhere {D} m h to (t : topology D) : livable sz h t -> exact_references t ->
  same_outcome moved_home (normalize m t) (p_normalize sz pl m (regions_moved to (stored sz h t))).
Proof. intros H1 H2. apply (outcome_ext (left_at sz pl)); [intros u; apply left_stays, He|apply norm_stored; assumption]. Qed.
Lemma clip_anywhere {D} m h to (t : topology D) k : livable sz h t ->
  same_outcome moved_home (clip_topology m t k) (p_clip sz pl m (regions_moved to (stored sz h t)) k).
Proof. intros (H & _). apply (outcome_ext (left_at sz pl)); [intros u; apply left_stays, He|apply clip_stored; assumption]. Qed.

Hypothesis Hr : regions_stay pl.
Lemma build_home {D} m (rs : list (region D)) : same_outcome (stored sz (home_of pl)) (build_topology m rs) (p_build sz pl m rs).
Proof. apply (outcome_ext (left_at sz pl)); [intros t; apply left_home; [apply He|apply Hr]|apply build_stored; assumption]. Qed.
Lemma norm_home {D} m h (t : topology D) : livable sz h t -> exact_references t ->
  same_outcome (stored sz (home_of pl)) (normalize m t) (p_normalize sz pl m (stored sz h t)).
Proof. intros H1 H2. apply (outcome_ext (left_at sz pl)); [intros u; apply left_home; [apply He|apply Hr]|rewrite at_home; apply norm_stored; assumption]. Qed.
Lemma clip_home {D} m h (t : topology D) k : livable sz h t ->
  same_outcome (stored sz (home_of pl)) (clip_topology m t k) (p_clip sz pl m (stored sz h t) k).
Proof. intros (H & _). apply (outcome_ext (left_at sz pl)); [intros u; apply left_home; [apply He|apply Hr]|rewrite at_home; apply clip_stored; assumption]. Qed.
End Results.

Lemma simplify_anywhere {D} sz h to m (t : topology D) thr :
  same_outcome (fun t' => regions_moved to (stored sz h t')) (simplify m t thr) (p_simplify m (regions_moved to (stored sz h t)) thr).
Proof. apply outcome_rmap, simplify_stored. Qed.

Lemma build_rings {D} sz pl m (rs : list (region D)) pt : proper sz -> allocates pl -> p_build sz pl m rs = Ok pt ->
  exists t, build_topology m rs = Ok t /\ pt_edges pt = map (stored_edge sz (home_of pl)) (tp_edges t) /\
    pt_regions pt = map (stored_region sz (home_of pl)) (enumerate (tp_regions t)).
Proof. intros H1 H2. rewrite build_stored by assumption. destruct (build_topology m rs) as [t|p]; [|discriminate]. intros [= <-]. exists t. repeat split. Qed.

(** ** Following pointers *)
Lemma follow_edge {D} sz h (t : topology D) i e : proper sz -> nth_error (tp_edges t) i = Some e ->
  deref (pt_edges_at (stored sz h t)) (sz_edge sz) (pt_edges (stored sz h t)) (edge_address sz h i) = Ok (i, stored_edge sz h e).
Proof.
  intros (Hs & _) H. cbn [stored pt_edges_at pt_edges]. change (edge_address sz h i) with (slot (h_edges h) (sz_edge sz) i). rewrite (deref_slot _ _ _ _ Hs), get_or_map. unfold get_or. rewrite H. reflexivity.
Qed.

Lemma follow_region {D} sz h (t : topology D) i g : proper sz -> nth_error (tp_regions t) i = Some g ->
  deref (pt_regions_at (stored sz h t)) (sz_region sz) (pt_regions (stored sz h t)) (region_address sz h i) = Ok (i, stored_region sz h (i, g)).
Proof.
  intros (_ & _ & Hs) H. cbn [stored pt_regions_at pt_regions]. change (region_address sz h i) with (slot (h_regions h) (sz_region sz) i). rewrite (deref_slot _ _ _ _ Hs), get_or_map. unfold get_or.
  replace (nth_error (enumerate (tp_regions t)) i) with (Some (i, g)); [reflexivity|]. unfold enumerate.
  assert (HH : forall (l : list (topo_region D)) s n x, nth_error l n = Some x -> nth_error (combine (seq s (length l)) l) n = Some ((s + n)%nat, x)).
  { intros l. induction l as [|a l IH]; intros s [|n] x E; try discriminate; cbn in *; [injection E as ->; f_equal; f_equal; lia|]. rewrite (IH (S s) n x E). f_equal. f_equal. lia. }
  rewrite (HH _ 0%nat i g H). reflexivity.
Qed.

Lemma follow_ring {D} sz h (t : topology D) rr r : proper sz -> livable sz h t -> has_ring t rr -> deref_ring t rr = Ok r ->
  p_ring_at sz (pt_regions (stored sz h t)) (ring_address sz h rr) = Ok (stored_ring sz h r).
Proof. intros H1 H2 H3 H4. apply (ring_at_stored sz h t H1 H2 rr r H3 H4). Qed.
