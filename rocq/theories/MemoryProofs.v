(** * MemoryProofs: topologies in memory behave like topologies with indices *)
From Verif Require Import MemorySpec SimplifyFrame SimplifyProofs Spec GeoProofs TopoProofs.

Lemma outcome_rmap {A B} (R : A -> B) x y : same_outcome R x y <-> y = rmap R x.
Proof. unfold same_outcome, rmap. destruct x; reflexivity. Qed.

Lemma rmap_rmap {A B C} (F : A -> B) (G : B -> C) x : rmap G (rmap F x) = rmap (fun a => G (F a)) x.
Proof. destruct x; reflexivity. Qed.

Lemma rmap_ext {A B} (F G : A -> B) x : (forall a, F a = G a) -> rmap F x = rmap G x.
Proof. intros H. destruct x; cbn; [rewrite H|]; reflexivity. Qed.

Lemma index_at_slot base size n i : 0 < size -> (i < n)%nat -> index_at base size n (slot base size i) = Some i.
Proof.
  intros Hs Hi. unfold index_at, slot. replace (base + Z.of_nat i * size - base) with (Z.of_nat i * size) by lia.
  rewrite Z.mod_mul, Z.div_mul by lia. replace (0 <=? Z.of_nat i * size) with true by (symmetry; apply Z.leb_le; nia).
  replace (Z.of_nat i <? Z.of_nat n) with true by (symmetry; apply Z.ltb_lt; lia). cbn. rewrite Nat2Z.id. reflexivity.
Qed.

Lemma index_at_past base size n i : 0 < size -> (n <= i)%nat -> index_at base size n (slot base size i) = None.
Proof.
  intros Hs Hi. unfold index_at, slot. replace (base + Z.of_nat i * size - base) with (Z.of_nat i * size) by lia.
  rewrite Z.mod_mul, Z.div_mul by lia. replace (Z.of_nat i <? Z.of_nat n) with false by (symmetry; apply Z.ltb_ge; lia). rewrite !andb_false_r. reflexivity.
Qed.

Lemma index_at_some base size n p i : 0 < size -> index_at base size n p = Some i -> p = slot base size i /\ (i < n)%nat.
Proof.
  intros Hs. unfold index_at, slot. destruct (Z.leb_spec 0 (p - base)) as [H0|H0]; [|discriminate]. destruct (Z.eqb_spec ((p - base) mod size) 0) as [H1|H1]; [|discriminate].
  destruct (Z.ltb_spec ((p - base) / size) (Z.of_nat n)) as [H2|H2]; [|discriminate]. cbn. intros [= <-].
  assert (0 <= (p - base) / size) by (apply Z.div_pos; lia). rewrite Z2Nat.id by lia. pose proof (Z.div_mod (p - base) size). split; [lia|]. lia.
Qed.

Lemma deref_slot {A} base size (l : list A) i : 0 < size -> deref base size l (slot base size i) = rmap (fun x => (i, x)) (get_or PNull l i).
Proof.
  intros Hs. unfold deref. destruct (Nat.lt_ge_cases i (length l)) as [H|H].
  - rewrite index_at_slot by assumption. destruct (get_or PNull l i); reflexivity.
  - rewrite index_at_past by assumption. unfold get_or. rewrite (proj2 (nth_error_None _ _) H). reflexivity.
Qed.

Section Build.
Context (sz : sizes) (pl : placing) (Hsz : proper sz) (Hpl : allocates pl).
Let h := home_of pl.

Lemma ring_nonnull rr : (ring_address sz h rr =? 0) = false.
Proof. destruct Hsz as (_ & H1 & _), Hpl as (_ & _ & H2). apply Z.eqb_neq. unfold ring_address. specialize (H2 (rr_region rr) (rr_side rr)). cbn [h home_of h_rings]. nia. Qed.

Lemma null_ring o : (or_null (ring_address sz h) o =? 0) = is_none o.
Proof. destruct o as [rr|]; [apply ring_nonnull|reflexivity]. Qed.

Lemma link_edge_stored rr es d :
  p_link_edge sz pl (ring_address sz h rr) (map (stored_edge sz h) es) (PDE (edge_address sz h (de_edge d)) (de_dir d)) = rmap (map (stored_edge sz h)) (link_edge rr es d).
Proof.
  unfold p_link_edge, link_edge. cbn [pd_edge]. destruct Hsz as (Hs & _ & _).
  change (edge_address sz h (de_edge d)) with (slot (pl_edges pl) (sz_edge sz) (de_edge d)). rewrite (deref_slot _ _ _ _ Hs).
  apply (bind_rmap (fun e => (de_edge d, stored_edge sz h e))).
  { rewrite get_or_map. destruct (get_or PNull es (de_edge d)); reflexivity. }
  intros e _. cbn [stored_edge pe_points pe_ring0 pe_ring1]. rewrite null_ring. destruct (te_ring0 e) as [r0|] eqn:E0; cbn [is_none].
  - rewrite null_ring. apply bind_rsame. intros _ _. cbn [rmap]. rewrite map_set_nth. unfold stored_edge. cbn [te_points te_ring0 te_ring1]. reflexivity.
  - cbn [rmap]. rewrite map_set_nth. unfold stored_edge. cbn [te_points te_ring0 te_ring1]. reflexivity.
Qed.

Lemma mfold_rmap {S S' A A'} (F : S -> S') (G : A -> A') (f : S -> A -> res S) (f' : S' -> A' -> res S') :
  (forall s a, f' (F s) (G a) = rmap F (f s a)) -> forall l s, mfold f' (map G l) (F s) = rmap F (mfold f l s).
Proof. intros H l. induction l as [|a l IH]; intros s; [reflexivity|]. cbn [map mfold]. apply (bind_rmap F); [apply H|]. intros s' _. apply IH. Qed.

(** Rings without region pointers. *)
Definition bare (r : topo_ring) : topo_ring := TRing (tr_des r) None.

Lemma link_rings_stored i s rs : forall k es,
  p_link_rings sz pl (region_address sz h i) (pl_rings pl i s) k (map (stored_ring sz h) rs) (map (stored_edge sz h) es) =
  rmap (fun es' => (map (fun r => stored_ring sz h (TRing (tr_des r) (Some i))) rs, map (stored_edge sz h) es')) (mfold (link_ring i s) (combine (seq k (length rs)) rs) es).
Proof.
  induction rs as [|r rs IH]; intros k es; [reflexivity|]. cbn [map p_link_rings length seq combine mfold].
  apply (bind_rmap (map (stored_edge sz h))).
  - unfold link_ring. cbn [fst snd stored_ring pr_des]. apply (mfold_rmap (map (stored_edge sz h))). intros es0 d. exact (link_edge_stored (RR i s k) es0 d).
  - intros es1 _. rewrite IH. destruct (mfold (link_ring i s) _ es1) as [es2|p]; reflexivity.
Qed.

Lemma link_regions_stored {D} (gs : list (topo_region D)) : forall i es,
  p_link_regions sz pl i (map (stored_region sz h) (combine (seq i (length gs)) gs)) (map (stored_edge sz h) es) =
  rmap (fun es' => (map (stored_region sz h) (combine (seq i (length gs)) (map set_region (combine (seq i (length gs)) gs))), map (stored_edge sz h) es'))
    (mfold link_region (combine (seq i (length gs)) gs) es).
Proof.
  induction gs as [|g gs IH]; intros i es; [reflexivity|]. cbn [length seq combine map p_link_regions mfold]. cbv zeta. unfold link_region at 1. cbn [fst snd].
  unfold stored_region at 1 2 3 4. cbn [pg_outer_at pg_outer pg_inner_at pg_inner pg_data fst snd].
  change (slot (pl_regions pl) (sz_region sz) i) with (region_address sz h i). change (h_rings h) with (pl_rings pl). rewrite link_rings_stored.
  unfold enumerate. destruct (mfold (link_ring i Outer) _ es) as [es1|p]; cbn [rmap bind]; [|reflexivity]. rewrite link_rings_stored.
  destruct (mfold (link_ring i Inner) _ es1) as [es2|p]; cbn [rmap bind]; [|reflexivity].
  rewrite IH. destruct (mfold link_region _ es2) as [es3|p]; cbn [rmap bind]; [|reflexivity].
  f_equal. f_equal. f_equal. unfold stored_region. cbn [fst snd set_region tg_data tg_outer tg_inner]. rewrite !map_map. reflexivity.
Qed.

Lemma ring_null_stored n r : p_ring_null sz pl n r = rmap (stored_ring sz h) (topo_ring_null n r).
Proof.
  unfold p_ring_null, topo_ring_null. apply (bind_rmap (map (fun d => PDE (edge_address sz h (de_edge d)) (de_dir d)))); [|reflexivity].
  apply mmap_moved. intros d. destruct (Nat.ltb _ n); reflexivity.
Qed.

Lemma region_null_stored {D} n ir : p_region_null (D := D) sz pl n ir = rmap (fun g => stored_region sz h (fst ir, g)) (topo_region_null n (snd ir)).
Proof.
  unfold p_region_null, topo_region_null. apply (bind_rmap (map (stored_ring sz h))); [apply mmap_moved, ring_null_stored|]. intros outer _.
  apply (bind_rmap (map (stored_ring sz h))); [apply mmap_moved, ring_null_stored|]. reflexivity.
Qed.

Lemma regions_null_stored {D} n (gs : list (build_region D)) : forall i,
  mmap (p_region_null sz pl n) (combine (seq i (length gs)) gs) =
  rmap (fun rs => map (stored_region sz h) (combine (seq i (length rs)) rs)) (mmap (topo_region_null n) gs).
Proof.
  induction gs as [|g gs IH]; intros i; [reflexivity|]. cbn [length seq combine mmap]. rewrite region_null_stored. cbn [snd fst].
  destruct (topo_region_null n g) as [g'|p]; cbn [rmap bind]; [|reflexivity]. rewrite IH. destruct (mmap _ gs) as [gs'|p]; reflexivity.
Qed.

(** The topology as the builder leaves it. *)
Definition left_at {D} (t : topology D) : p_topology D :=
  PTopology (boxed_at (pl_spare_regions pl) (pl_regions pl) (pl_moved_regions pl)) (map (stored_region sz h) (enumerate (tp_regions t)))
    (boxed_at (pl_spare_edges pl) (pl_edges pl) (pl_moved_edges pl)) (map (stored_edge sz h) (tp_edges t)).

Lemma finish_stored {D} (gs : list (build_region D)) pts :
  p_finish sz pl gs pts = rmap left_at (finish_topology gs (map (fun p => TEdge p None None) pts)).
Proof.
  unfold p_finish, finish_topology. rewrite map_length. apply (bind_rmap (fun rs => map (stored_region sz h) (enumerate rs))); [apply regions_null_stored|]. intros rs _.
  replace (map (fun ps => PEdge ps 0 0) pts) with (map (stored_edge sz h) (map (fun p => TEdge p None None) pts)) by (rewrite map_map; reflexivity).
  unfold enumerate at 1 2. rewrite link_regions_stored. destruct (mfold link_region _ _) as [es|p]; cbn [rmap bind]; [|reflexivity].
  unfold left_at. cbn [tp_regions tp_edges]. unfold enumerate. rewrite map_length, combine_length, seq_length, Nat.min_id. reflexivity.
Qed.

Lemma into_stored {D} (b : builder D) : p_into_topology sz pl b = rmap left_at (into_topology b).
Proof. unfold p_into_topology, into_topology, into_topology_iter. apply bind_rsame. intros v _. apply bind_rsame. intros pts _. apply finish_stored. Qed.

Lemma build_stored {D} m (rs : list (region D)) : p_build sz pl m rs = rmap left_at (build_topology m rs).
Proof. unfold p_build, build_topology. apply bind_rsame. intros b _. apply into_stored. Qed.
End Build.

(** ** Clipping *)
Section Clip.
Context (sz : sizes) (h : home) (Hsz : proper sz) (He : 0 < h_edges h).

Lemma find_stored m finder i : p_find_old sz m (h_edges h) finder (edge_address sz h i) = find_old finder i.
Proof.
  destruct Hsz as (Hs & _). unfold p_find_old, find_old, edge_address. replace (h_edges h <=? _) with true by (symmetry; apply Z.leb_le; nia). cbn [bind].
  replace (h_edges h + Z.of_nat i * sz_edge sz - h_edges h) with (Z.of_nat i * sz_edge sz) by lia. rewrite Z.div_mul, Nat2Z.id by lia. reflexivity.
Qed.

Lemma step_stored m old finder s d :
  p_clip_ring_step sz m (h_edges h) old finder s (PDE (edge_address sz h (de_edge d)) (de_dir d)) = clip_ring_step m old finder s d.
Proof.
  unfold p_clip_ring_step. cbn [pd_edge pd_dir]. rewrite find_stored. unfold clip_ring_step at 2. destruct (find_old finder (de_edge d)) as [o|p]; reflexivity.
Qed.

Lemma fold_stored {S A B} (f : S -> A -> res S) (f' : S -> B -> res S) (G : A -> B) : (forall s a, f' s (G a) = f s a) -> forall l s, mfold f' (map G l) s = mfold f l s.
Proof. intros H l. induction l as [|a l IH]; intros s; [reflexivity|]. cbn [map mfold]. rewrite H. destruct (f s a); [apply IH|reflexivity]. Qed.

Lemma clip_ring_stored m old finder nes r : p_clip_ring sz m (h_edges h) old finder nes (stored_ring sz h r) = clip_ring m old finder nes r.
Proof. unfold p_clip_ring, clip_ring. cbn [stored_ring pr_des]. rewrite (fold_stored (clip_ring_step m old finder)); [reflexivity|]. intros s d. apply step_stored. Qed.

Lemma clip_rings_stored m old finder nes rs : p_clip_rings sz m (h_edges h) old finder nes (map (stored_ring sz h) rs) = clip_rings m old finder nes rs.
Proof. unfold p_clip_rings, clip_rings. apply fold_stored. intros st r. rewrite clip_ring_stored. reflexivity. Qed.

Lemma cadd_stored {D} m (b : cbuilder D) ig : p_cadd_region sz m (h_edges h) b (stored_region sz h ig) = cadd_region m b (snd ig).
Proof. unfold p_cadd_region, cadd_region. cbn [stored_region pg_outer pg_inner pg_data]. rewrite clip_rings_stored. destruct (clip_rings _ _ _ _ _) as [[outer nes]|]; cbn [bind]; [|reflexivity]. rewrite clip_rings_stored. reflexivity. Qed.

Lemma fold_snd {S A} (f : S -> A -> res S) l : forall i s, mfold (fun s x => f s (snd x)) (combine (seq i (length l)) l) s = mfold f l s.
Proof. induction l as [|a l IH]; intros i s; [reflexivity|]. cbn. destruct (f s a); [apply IH|reflexivity]. Qed.

Lemma clip_edges_points m k es es' : map te_points es = map te_points es' -> clip_edges m k es = clip_edges m k es'.
Proof.
  unfold clip_edges. generalize (@nil (option nat), @nil (list point)). revert es'. induction es as [|e es IH]; intros [|e' es'] st H; try discriminate; [reflexivity|].
  cbn [map] in H. injection H as H1 H2. cbn [mfold]. rewrite H1. destruct (clip_edge m k (te_points e')); cbn [bind]; [|reflexivity]. apply IH, H2.
Qed.

Lemma clip_stored {D} pl m (t : topology D) k to : allocates pl ->
  p_clip sz pl m (regions_moved to (stored sz h t)) k = rmap (left_at sz pl) (clip_topology m t k).
Proof.
  intros Hpl. unfold p_clip, clip_topology, cbuilder_new, cinto_topology, cinto_topology_iter. cbn [regions_moved stored pt_edges pt_regions pt_edges_at]. rewrite map_map.
  cbn [stored_edge pe_points]. rewrite (clip_edges_points m k _ (tp_edges t)) by (rewrite map_map; reflexivity).
  destruct (clip_edges m k (tp_edges t)) as [[finder old]|p]; cbn [bind]; [|reflexivity].
  rewrite (fold_stored (fun b ig => cadd_region m b (snd ig))) by (intros; apply cadd_stored). unfold enumerate. rewrite fold_snd.
  apply bind_rsame. intros b _. apply bind_rsame. intros segs _. rewrite (finish_stored sz pl Hsz Hpl). rewrite map_app, !map_map. reflexivity.
Qed.
End Clip.

(** ** Simplification *)
Lemma simplify_stored {D} sz h m (t : topology D) thr to :
  p_simplify m (regions_moved to (stored sz h t)) thr = rmap (fun t' => regions_moved to (stored sz h t')) (simplify m t thr).
Proof.
  unfold p_simplify, simplify. cbn [regions_moved stored pt_edges pt_regions pt_edges_at pt_regions_at].
  apply (bind_rmap (map (stored_edge sz h))); [|reflexivity]. induction (tp_edges t) as [|e es IH]; [reflexivity|]. cbn [map mmap].
  apply (bind_rmap (stored_edge sz h)); [cbn [stored_edge pe_points pe_ring0 pe_ring1]; destruct (simplify_edge m (te_points e) thr); reflexivity|]. intros e' _.
  apply (bind_rmap (map (stored_edge sz h))); [exact IH|reflexivity].
Qed.
