(** * DataProofs: the operations only carry the data along *)
From Verif Require Import DataSpec Normalize Clip Simplify.

Lemma fold_with {S S' A A'} (h : S -> S') (g : A -> A') (F : S -> A -> res S) (F' : S' -> A' -> res S') :
  (forall s a, F' (h s) (g a) = outcome_with h (F s a)) ->
  forall l s, mfold F' (map g l) (h s) = outcome_with h (mfold F l s).
Proof.
  intros H l. induction l as [|a l IH]; intros s; [reflexivity|]. cbn [map mfold]. rewrite H. destruct (F s a) as [s'|p]; [apply IH|reflexivity].
Qed.
Lemma map_with {A A' B B'} (g : A -> A') (h : B -> B') (F : A -> res B) (F' : A' -> res B') :
  (forall a, F' (g a) = outcome_with h (F a)) ->
  forall l, mmap F' (map g l) = outcome_with (map h) (mmap F l).
Proof.
  intros H l. induction l as [|a l IH]; [reflexivity|]. cbn [map mmap]. rewrite H, IH. destruct (F a); [|reflexivity]. cbn. destruct (mmap F l); reflexivity.
Qed.
Lemma mmap_ext_eq {A B} (F G : A -> res B) l : (forall a, F a = G a) -> mmap F l = mmap G l.
Proof. intros H. induction l as [|a l IH]; [reflexivity|]. cbn [mmap]. rewrite H, IH. reflexivity. Qed.
Lemma enumerate_map {A B} (g : A -> B) l : enumerate (map g l) = map (fun ia => (fst ia, g (snd ia))) (enumerate l).
Proof.
  unfold enumerate. rewrite map_length. generalize 0%nat. induction l as [|a l IH]; intros n; [reflexivity|]. cbn. rewrite IH. reflexivity.
Qed.

Section Data.
Context {D E : Type} (f : D -> E).

Definition bregion_with (br : build_region D) : build_region E := BRegion (f (br_data br)) (br_outer br) (br_inner br).
Definition builder_with (b : builder D) : builder E := Builder (map bregion_with (bl_regions b)) (bl_edges b).
Definition cbuilder_with (b : cbuilder D) : cbuilder E := CB (map bregion_with (cb_regions b)) (cb_old b) (cb_finder b) (cb_new b).

Lemma finish_with (brs : list (build_region D)) es :
  finish_topology (map bregion_with brs) es = outcome_with (topology_with f) (finish_topology brs es).
Proof.
  unfold finish_topology. rewrite (map_with bregion_with (topo_region_with f) (topo_region_null (length es))).
  2:{ intros br. unfold topo_region_null, bregion_with. cbn [br_outer br_inner br_data]. destruct (mmap _ (br_outer br)); [|reflexivity]. cbn [bind]. destruct (mmap _ (br_inner br)); reflexivity. }
  destruct (mmap _ brs) as [rs|p]; [|reflexivity]. cbn [bind outcome_with]. rewrite enumerate_map.
  pose proof (fold_with (fun x : list topo_edge => x) (fun ia : nat * topo_region D => (fst ia, topo_region_with f (snd ia))) link_region link_region) as HF.
  rewrite HF by (intros s [i rg]; unfold link_region; cbn [fst snd topo_region_with tg_outer tg_inner]; match goal with |- ?x = outcome_with _ ?y => change y with x; destruct x; reflexivity end).
  destruct (mfold _ (enumerate rs) es) as [es'|p]; [|reflexivity]. cbn [bind outcome_with]. f_equal. unfold topology_with. cbn [tp_regions tp_edges]. f_equal.
  rewrite !map_map. apply map_ext. intros [i rg]. reflexivity.
Qed.

Lemma into_with (b : builder D) : into_topology (builder_with b) = outcome_with (topology_with f) (into_topology b).
Proof.
  unfold into_topology, into_topology_iter, builder_with. cbn [bl_regions bl_edges].
  destruct (place_edges _ _) as [v|]; [|reflexivity]. cbn [bind]. destruct (expect_all v); [|reflexivity]. cbn [bind]. apply finish_with.
Qed.

Lemma add_with m (b : builder D) rg : add_region m (builder_with b) (region_with f rg) = outcome_with builder_with (add_region m b rg).
Proof.
  unfold add_region, builder_with, region_with. cbn [bl_regions bl_edges rg_outer rg_inner rg_data].
  destruct (build_rings m (bl_edges b) (rg_outer rg)) as [[outer em1]|p]; [|reflexivity]. cbn [bind].
  destruct (0 <? length outer)%nat; [|reflexivity]. destruct (build_rings m em1 (rg_inner rg)) as [[inner em2]|p]; [|reflexivity].
  cbn. rewrite map_app. reflexivity.
Qed.

Lemma build_with m (rs : list (region D)) : build_topology m (map (region_with f) rs) = outcome_with (topology_with f) (build_topology m rs).
Proof.
  unfold build_topology, add_regions. change (@builder_new E) with (builder_with builder_new).
  rewrite (fold_with builder_with (region_with f) (add_region m) (add_region m)) by (intros; apply add_with).
  destruct (mfold _ rs builder_new) as [b|p]; [|reflexivity]. cbn [bind outcome_with]. apply into_with.
Qed.

Lemma deref_with (t : topology D) r : deref_ring (topology_with f t) r = deref_ring t r.
Proof.
  unfold deref_ring, get_or, topology_with. cbn [tp_regions]. rewrite nth_error_map. destruct (nth_error (tp_regions t) (rr_region r)); reflexivity.
Qed.
Lemma wde_with (t : topology D) d : with_directed_edge (topology_with f t) d = with_directed_edge t d.
Proof.
  unfold with_directed_edge. change (tp_edges (topology_with f t)) with (tp_edges t). destruct (get_or PNull (tp_edges t) (de_edge d)) as [e|]; [|reflexivity].
  cbn [bind]. destruct (te_ring0 e) as [r0|], (te_ring1 e) as [r1|]; rewrite ?deref_with; reflexivity.
Qed.
Lemma norm_rings_with m (t : topology D) rs o : normalize_region_rings m (topology_with f t) rs o = normalize_region_rings m t rs o.
Proof.
  unfold normalize_region_rings. rewrite (mmap_ext_eq (normalize_ring m (topology_with f t) o) (normalize_ring m t o)); [reflexivity|].
  intros r. unfold normalize_ring. rewrite (mmap_ext_eq (with_directed_edge (topology_with f t)) (with_directed_edge t)); [reflexivity|apply wde_with].
Qed.
Lemma norm_region_with m (t : topology D) rg :
  normalize_region m (topology_with f t) (topo_region_with f rg) = outcome_with (region_with f) (normalize_region m t rg).
Proof.
  unfold normalize_region, topo_region_with. cbn [tg_outer tg_inner tg_data]. rewrite !norm_rings_with.
  destruct (normalize_region_rings m t (tg_outer rg) Clockwise); [|reflexivity]. cbn [bind].
  destruct (normalize_region_rings m t (tg_inner rg) CounterClockwise); reflexivity.
Qed.

Lemma normalize_with m (t : topology D) : normalize m (topology_with f t) = outcome_with (topology_with f) (normalize m t).
Proof.
  unfold normalize. change (@builder_new E) with (builder_with builder_new). change (tp_regions (topology_with f t)) with (map (topo_region_with f) (tp_regions t)).
  rewrite (fold_with builder_with (topo_region_with f) (fun b rg => g <- normalize_region m t rg ;; add_region m b g)).
  2:{ intros b rg. rewrite norm_region_with. destruct (normalize_region m t rg); [|reflexivity]. apply add_with. }
  destruct (mfold _ (tp_regions t) builder_new) as [b|p]; [|reflexivity]. apply into_with.
Qed.

Lemma cadd_with m (b : cbuilder D) rg : cadd_region m (cbuilder_with b) (topo_region_with f rg) = outcome_with cbuilder_with (cadd_region m b rg).
Proof.
  unfold cadd_region, cbuilder_with, topo_region_with. cbn [cb_regions cb_old cb_finder cb_new tg_outer tg_inner tg_data].
  destruct (clip_rings m (cb_old b) (cb_finder b) (cb_new b) (tg_outer rg)) as [[outer n1]|p]; [|reflexivity]. cbn [bind].
  destruct (0 <? length outer)%nat; [|reflexivity]. destruct (clip_rings m (cb_old b) (cb_finder b) n1 (tg_inner rg)) as [[inner n2]|p]; [|reflexivity].
  cbn. rewrite map_app. reflexivity.
Qed.

Lemma clip_with m (t : topology D) k : clip_topology m (topology_with f t) k = outcome_with (topology_with f) (clip_topology m t k).
Proof.
  unfold clip_topology, cbuilder_new. change (tp_edges (topology_with f t)) with (tp_edges t). change (tp_regions (topology_with f t)) with (map (topo_region_with f) (tp_regions t)).
  destruct (clip_edges m k (tp_edges t)) as [[finder old]|p]; [|reflexivity]. cbn [bind].
  change (CB (D:=E) [] old finder (NES (length old) [])) with (cbuilder_with (CB [] old finder (NES (length old) []))).
  rewrite (fold_with cbuilder_with (topo_region_with f) (cadd_region m) (cadd_region m)) by (intros; apply cadd_with).
  match goal with |- bind (outcome_with _ ?x) _ = _ => destruct x as [b|p]; [|reflexivity] end. cbn [bind outcome_with].
  unfold cinto_topology, cinto_topology_iter. change (cb_new (cbuilder_with b)) with (cb_new b). destruct (nes_into_iter _ _); [|reflexivity]. apply finish_with.
Qed.

Lemma simplify_with m (t : topology D) thr : simplify m (topology_with f t) thr = outcome_with (topology_with f) (simplify m t thr).
Proof. unfold simplify. change (tp_edges (topology_with f t)) with (tp_edges t). destruct (mmap _ (tp_edges t)); reflexivity. Qed.
End Data.
