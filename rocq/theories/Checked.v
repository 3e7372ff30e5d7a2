(** * Checked: overflow checks only turn answers into panics *)
From Verif Require Import CheckedSpec.

Lemma ag_refl {A} (x : res A) : agrees x x.
Proof. left. reflexivity. Qed.
Lemma ag_over {A} (x : res A) : agrees (Panic POverflow) x.
Proof. right. reflexivity. Qed.
Lemma ag_bind {A B} (x y : res A) (k l : A -> res B) : agrees x y -> (forall a, agrees (k a) (l a)) -> agrees (bind x k) (bind y l).
Proof. intros [-> | ->] H; [|apply ag_over]. destruct y as [a|p]; [apply H|apply ag_refl]. Qed.
Lemma ag_fold {S A} (f g : S -> A -> res S) l : (forall s a, agrees (f s a) (g s a)) -> forall s, agrees (mfold f l s) (mfold g l s).
Proof. intros H. induction l as [|a l IH]; intros s; [apply ag_refl|]. cbn [mfold]. apply ag_bind; [apply H|apply IH]. Qed.
Lemma ag_map {A B} (f g : A -> res B) l : (forall a, agrees (f a) (g a)) -> agrees (mmap f l) (mmap g l).
Proof. intros H. induction l as [|a l IH]; [apply ag_refl|]. cbn [mmap]. apply ag_bind; [apply H|]. intros b. apply ag_bind; [exact IH|]. intros bs. apply ag_refl. Qed.

Lemma ag_i64 z : agrees (i64_ret Debug z) (i64_ret Release z).
Proof. unfold i64_ret. destruct (_ : bool); [apply ag_refl|apply ag_over]. Qed.

Ltac ag := repeat first
  [ apply ag_refl | apply ag_i64 | apply ag_over
  | lazymatch goal with
    | |- agrees (bind _ _) (bind _ _) => apply ag_bind; [|intros ?]
    | |- agrees (mfold _ _ _) (mfold _ _ _) => apply ag_fold; intros ? ?
    | |- agrees (mmap _ _) (mmap _ _) => apply ag_map; intros ?
    | |- agrees (match ?x with _ => _ end) (match ?x with _ => _ end) => destruct x
    | |- agrees (let '_ := ?x in _) (let '_ := ?x in _) => destruct x
    end ].

Lemma cross_ag p q : agrees (cross Debug p q) (cross Release p q).
Proof. unfold cross. ag. Qed.
Lemma area_step_ag a pq : agrees (area_step Debug a pq) (area_step Release a pq).
Proof. unfold area_step. apply ag_bind; [apply cross_ag|]. intros c. apply ag_i64. Qed.
Lemma signed_area2_ag ps : agrees (signed_area2 Debug ps) (signed_area2 Release ps).
Proof. apply ag_fold. apply area_step_ag. Qed.
Lemma split_sign_ag a : agrees (split_sign Debug a) (split_sign Release a).
Proof. unfold split_sign. ag. Qed.
Lemma pts_area_ag ps : agrees (pts_area2_and_winding Debug ps) (pts_area2_and_winding Release ps).
Proof. apply ag_bind; [apply signed_area2_ag|]. apply split_sign_ag. Qed.
Lemma pts_area2_ag ps : agrees (pts_area2 Debug ps) (pts_area2 Release ps).
Proof. apply ag_bind; [apply pts_area_ag|]. intros x. apply ag_refl. Qed.
Lemma pts_winding_ag ps : agrees (pts_winding_order Debug ps) (pts_winding_order Release ps).
Proof. apply ag_bind; [apply pts_area_ag|]. intros x. apply ag_refl. Qed.
Lemma ring_area_ag r : agrees (ring_area2_and_winding Debug r) (ring_area2_and_winding Release r).
Proof.
  destruct r as [ps|es]; [apply pts_area_ag|]. apply ag_bind; [|apply split_sign_ag]. apply ag_fold. intros a e. apply ag_bind; [apply signed_area2_ag|]. intros s. apply ag_i64.
Qed.
Lemma ring_area2_ag r : agrees (ring_area2 Debug r) (ring_area2 Release r).
Proof. apply ag_bind; [apply ring_area_ag|]. intros x. apply ag_refl. Qed.
Lemma ring_winding_ag r : agrees (ring_winding_order Debug r) (ring_winding_order Release r).
Proof. apply ag_bind; [apply ring_area_ag|]. intros x. apply ag_refl. Qed.

Lemma canonical_ag ps : agrees (canonical Debug ps) (canonical Release ps).
Proof. unfold canonical. ag. apply ring_winding_ag. Qed.
Lemma bde_ag em ps : agrees (build_directed_edge Debug em ps) (build_directed_edge Release em ps).
Proof. unfold build_directed_edge. ag. apply canonical_ag. Qed.
Lemma build_ring_ag em r : agrees (build_ring_of Debug em r) (build_ring_of Release em r).
Proof. unfold build_ring_of, build_des. ag; [apply ring_area2_ag|apply bde_ag]. Qed.
Lemma build_rings_ag em rs : agrees (build_rings Debug em rs) (build_rings Release em rs).
Proof. unfold build_rings. ag. apply build_ring_ag. Qed.
Lemma add_region_ag {D} (b : builder D) rg : agrees (add_region Debug b rg) (add_region Release b rg).
Proof. unfold add_region. ag; apply build_rings_ag. Qed.
Lemma build_ag {D} (rs : list (region D)) : agrees (build_topology Debug rs) (build_topology Release rs).
Proof. unfold build_topology, add_regions. ag. apply add_region_ag. Qed.

Lemma norm_ring_ag {D} (t : topology D) o r : agrees (normalize_ring Debug t o r) (normalize_ring Release t o r).
Proof. unfold normalize_ring, wind_edges, norm_winding, norm_area. ag. apply area_step_ag. Qed.
Lemma norm_region_ag {D} (t : topology D) rg : agrees (normalize_region Debug t rg) (normalize_region Release t rg).
Proof. unfold normalize_region, normalize_region_rings. ag; apply norm_ring_ag. Qed.
Lemma normalize_ag {D} (t : topology D) : agrees (normalize Debug t) (normalize Release t).
Proof. unfold normalize. ag; [apply norm_region_ag|apply add_region_ag]. Qed.

Lemma interpolate_ag v a1 c1 a2 c2 : agrees (interpolate Debug v a1 c1 a2 c2) (interpolate Release v a1 c1 a2 c2).
Proof. unfold interpolate. ag. Qed.
Lemma intersect_ag k p q : agrees (mask_intersect Debug k p q) (mask_intersect Release k p q).
Proof. unfold mask_intersect. ag; apply interpolate_ag. Qed.
Lemma clip_edge_ag k ps : agrees (clip_edge Debug k ps) (clip_edge Release k ps).
Proof. unfold clip_edge, clip_step. cbv zeta. ag; apply intersect_ag. Qed.
Lemma plug_ag p q s : agrees (plug_gap Debug p q s) (plug_gap Release p q s).
Proof. unfold plug_gap. ag; apply signed_area2_ag. Qed.
Lemma clip_ring_ag old finder nes r : agrees (clip_ring Debug old finder nes r) (clip_ring Release old finder nes r).
Proof. unfold clip_ring, clip_ring_step. ag; solve [apply plug_ag|apply signed_area2_ag]. Qed.
Lemma clip_rings_ag old finder nes rs : agrees (clip_rings Debug old finder nes rs) (clip_rings Release old finder nes rs).
Proof. unfold clip_rings. ag. apply clip_ring_ag. Qed.
Lemma clip_ag {D} (t : topology D) k : agrees (clip_topology Debug t k) (clip_topology Release t k).
Proof. unfold clip_topology, cbuilder_new, clip_edges, cadd_region. ag; solve [apply clip_edge_ag|apply clip_rings_ag]. Qed.

Lemma weight_ag a b c : agrees (weight2 Debug a b c) (weight2 Release a b c).
Proof. unfold weight2. ag. Qed.
Lemma heap_from_ag ps : agrees (heap_from Debug ps) (heap_from Release ps).
Proof. unfold heap_from, init_interior. cbv zeta. ag. apply weight_ag. Qed.
Lemma recalc_ag h i : agrees (recalc Debug h i) (recalc Release h i).
Proof. unfold recalc. cbv zeta. ag. apply weight_ag. Qed.
Lemma vw_ag fuel thr : forall h lw, agrees (vw_loop fuel Debug thr h lw) (vw_loop fuel Release thr h lw).
Proof.
  induction fuel as [|fuel IH]; intros h lw; cbn [vw_loop]; (destruct (ph_heap h) as [|x l]; [apply ag_refl|]); [apply ag_refl|]. cbv zeta. ag; solve [apply recalc_ag|apply IH].
Qed.
Lemma simplify_edge_ag ps thr : agrees (simplify_edge Debug ps thr) (simplify_edge Release ps thr).
Proof. unfold simplify_edge, visvalingam_whyatt. cbv zeta. ag; [apply heap_from_ag|apply vw_ag]. Qed.
Lemma simplify_ag {D} (t : topology D) thr : agrees (simplify Debug t thr) (simplify Release t thr).
Proof. unfold simplify. ag. apply simplify_edge_ag. Qed.

Lemma u32_mul2_ag z : agrees (u32_mul2 Debug z) (u32_mul2 Release z).
Proof. unfold u32_mul2. ag. Qed.
Lemma shp_new_ag af s : agrees (shp_reader_new Debug af s) (shp_reader_new Release af s).
Proof. unfold shp_reader_new, read_shp_header, parse_shp_header. ag. apply u32_mul2_ag. Qed.
Lemma header_rest_ag h : agrees (header_rest Debug h) (header_rest Release h).
Proof. unfold header_rest. ag. Qed.
Lemma dbf_new_ag af enc s : agrees (dbf_reader_new Debug af enc s) (dbf_reader_new Release af enc s).
Proof. unfold dbf_reader_new, read_dbf_meta, read_dbf_fields. ag. apply header_rest_ag. Qed.
Lemma sf_new_ag afs afd enc r s : agrees (sf_reader_new Debug afs afd enc r s) (sf_reader_new Release afs afd enc r s).
Proof. unfold sf_reader_new. ag; [apply shp_new_ag|apply dbf_new_ag]. Qed.
Lemma sf_open_ag afs afd enc shp dbf : agrees (sf_open Debug afs afd enc shp dbf) (sf_open Release afs afd enc shp dbf).
Proof. unfold sf_open. ag; solve [apply shp_new_ag|apply dbf_new_ag]. Qed.

Lemma partition_ag rs : forall a b, agrees (partition_rings Debug rs a b) (partition_rings Release rs a b).
Proof. induction rs as [|r rs IH]; intros a b; cbn [partition_rings]; ag; solve [apply ring_winding_ag|apply IH]. Qed.
Lemma geo_next_ag afs afd g : agrees (geo_next Debug afs afd g) (geo_next Release afs afd g).
Proof. unfold geo_next. cbv zeta. ag. apply partition_ag. Qed.
Lemma import_loop_ag fuel afs afd : forall g b n, agrees (import_loop fuel Debug afs afd g b n) (import_loop fuel Release afs afd g b n).
Proof. induction fuel as [|fuel IH]; intros g b n; cbn [import_loop]; ag; solve [apply geo_next_ag|apply add_region_ag|apply IH]. Qed.
Lemma import_ag afs afd enc shp dbf : agrees (import Debug afs afd enc shp dbf) (import Release afs afd enc shp dbf).
Proof. unfold import. cbv zeta. ag; solve [apply sf_open_ag|apply import_loop_ag]. Qed.

Lemma alike_refl x : runs_alike x x.
Proof. left. reflexivity. Qed.

Lemma alike_over out x : (exists more, fst x = out ++ more) -> runs_alike (out, Crashed POverflow) x.
Proof. intros H. right. split; [reflexivity|exact H]. Qed.

Lemma cat_alike v afs afd enc shp dbf : runs_alike (cat_shp v Debug afs afd enc shp dbf) (cat_shp v Release afs afd enc shp dbf).
Proof.
  unfold cat_shp. destruct (sf_open_ag afs afd enc shp dbf) as [-> | ->]; [apply alike_refl|]. apply alike_over. eexists. reflexivity.
Qed.

Lemma shp_alike v afs afd enc shp dbf : runs_alike (shp_to_geo_data v Debug afs afd enc shp dbf) (shp_to_geo_data v Release afs afd enc shp dbf).
Proof.
  unfold shp_to_geo_data. destruct (sf_open_ag afs afd enc shp dbf) as [-> | ->]; [|apply alike_over; eexists; reflexivity].
  destruct (sf_open Release afs afd enc shp dbf) as [[r|e]|p]; try apply alike_refl. cbv zeta.
  destruct (import_loop_ag (import_fuel (geo_iterator_new r)) afs afd (geo_iterator_new r) builder_new 0) as [-> | ->]; [|apply alike_over; eexists; reflexivity].
  destruct (import_loop _ Release _ _ _ _ _) as [[[b n]|e]|p]; try apply alike_refl.
  destruct (into_topology b) as [t|p]; [|apply alike_refl]. match goal with |- context [match normalize _ _ with Ok _ => _ | Panic p => (?o, Crashed p) end] => set (out1 := o); clearbody out1 end.
  destruct (normalize_ag t) as [-> | ->].
  - destruct (normalize Release t) as [t1|p]; [|apply alike_refl]. destruct (clip_ag t1 (MinX (2 ^ 31))) as [-> | ->]; [apply alike_refl|]. apply alike_over.
    destruct (clip_topology Release t1 _) as [t2|p]; [eexists; reflexivity|]. exists []. rewrite app_nil_r. reflexivity.
  - apply alike_over. destruct (normalize Release t) as [t1|p]; [|exists []; rewrite app_nil_r; reflexivity].
    destruct (clip_topology Release t1 _) as [t2|p]; cbn [fst]; [rewrite <- app_assoc|]; eexists; reflexivity.
Qed.

Lemma main_shp_alike v afs afd fs args : runs_alike (main_shp_to_geo_data v Debug afs afd fs args) (main_shp_to_geo_data v Release afs afd fs args).
Proof.
  unfold main_shp_to_geo_data, with_args. destruct args as [|a [|b [|c l]]]; try apply alike_refl. destruct (decode_utf8 a), (decode_utf8 b); try apply alike_refl. apply shp_alike.
Qed.
Lemma main_cat_alike v afs afd fs args : runs_alike (main_cat_shp v Debug afs afd fs args) (main_cat_shp v Release afs afd fs args).
Proof.
  unfold main_cat_shp, with_args. destruct args as [|a [|b [|c l]]]; try apply alike_refl. destruct (decode_utf8 a), (decode_utf8 b); try apply alike_refl. apply cat_alike.
Qed.
