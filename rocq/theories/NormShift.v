(** * NormShift: normalizing a shifted topology *)
From Coq Require Import Permutation.
From Verif Require Import BuildProofs MemorySpec SimplifyFrame SimplifyProofs Spec GeoProofs TopoProofs MemoryProofs MemoryNorm
  BuildFrameSpec BuildFrame FrameTopo NormSpec NormProofs NormRing NormTopo Checked CheckedSpec.

Section Ordered.
Context (f : point -> point).
Hypothesis f_ltb : forall p q, pt_ltb (f p) (f q) = pt_ltb p q.
Hypothesis f_eqb : forall p q, pt_eqb (f p) (f q) = pt_eqb p q.

Definition at_f (e : norm_edge) : norm_edge := NE (map f (ne_points e)) (ne_reg0 e) (ne_reg1 e).
Definition map_f (m : bmap) : bmap := map (fun kv => (f (fst kv), at_f (snd kv))) m.

Lemma min_from_f l : forall bi b i, min_index_from bi (f b) i (map f l) = min_index_from bi b i l.
Proof. induction l as [|p l IH]; intros bi b i; [reflexivity|]. cbn [map min_index_from]. rewrite f_ltb. destruct (pt_ltb p b); apply IH. Qed.
Lemma min_index_f l : min_index (map f l) = min_index l.
Proof. destruct l as [|p l]; [reflexivity|]. cbn [map min_index]. rewrite min_from_f. reflexivity. Qed.

Lemma tail_f e : tail_points (at_f e) = rmap (map f) (tail_points e).
Proof. unfold tail_points. cbn [at_f ne_points]. destruct (ne_points e); reflexivity. Qed.

Lemma join_step_f l e : join_step (map at_f l) (at_f e) = rmap (map at_f) (join_step l e).
Proof.
  destruct l as [|x l]; [reflexivity|]. cbn [map join_step]. change (same_regions (at_f x) (at_f e)) with (same_regions x e). destruct (same_regions x e); [|reflexivity].
  apply (bind_rmap (map f)); [apply tail_f|]. intros tl _. cbn [rmap map]. f_equal. f_equal. unfold at_f. cbn [ne_points ne_reg0 ne_reg1]. rewrite map_app. reflexivity.
Qed.

Lemma join_wrap_f l : join_wrap (map at_f l) = rmap (map at_f) (join_wrap l).
Proof.
  destruct l as [|x l]; [reflexivity|]. unfold join_wrap. change (map at_f (x :: l)) with (at_f x :: map at_f l). cbv iota. replace (rev (at_f x :: map at_f l)) with (map at_f (rev (x :: l))) by (rewrite map_rev; reflexivity).
  destruct (rev (x :: l)) as [|y [|z r]]; try reflexivity. cbn [map]. change (same_regions (at_f x) (at_f y)) with (same_regions x y).
  destruct (same_regions x y); [|reflexivity]. apply (bind_rmap (map f)); [apply tail_f|]. intros tl _. cbn [rmap map]. rewrite removelast_map. f_equal. f_equal. unfold at_f. cbn [ne_points ne_reg0 ne_reg1]. rewrite map_app. reflexivity.
Qed.

Lemma join_f l : join_related_edges (map at_f l) = rmap (map at_f) (join_related_edges l).
Proof.
  unfold join_related_edges. apply (bind_rmap (map at_f)); [exact (mfold_rmap (map at_f) at_f join_step join_step join_step_f l [])|]. intros r _. rewrite <- (map_rev at_f r). apply join_wrap_f.
Qed.

Lemma slice_f l a b : slice (map f l) a b = map f (slice l a b).
Proof. unfold slice. rewrite skipn_map, firstn_map. reflexivity. Qed.

Lemma island_f e : rotate_island_edge (at_f e) = rmap at_f (rotate_island_edge e).
Proof.
  unfold rotate_island_edge. cbn [at_f ne_points ne_reg0 ne_reg1]. rewrite min_index_f. destruct (min_index (ne_points e)) as [[|i]|]; try reflexivity.
  apply (bind_rmap f); [apply get_map|]. intros a _. rewrite map_length. apply (bind_rmap f); [apply get_map|]. intros b _. rewrite f_eqb. apply bind_rsame. intros _ _. cbn [rmap]. unfold at_f. cbn [ne_points ne_reg0 ne_reg1]. rewrite !slice_f, map_app. reflexivity.
Qed.

Lemma rotate_f l : rotate_edges (map at_f l) = rmap (map at_f) (rotate_edges l).
Proof.
  assert (HG : (firsts <- mmap (fun e => get (ne_points e) 0) (map at_f l) ;;
      match min_index firsts with None | Some O => Ok (map at_f l) | Some i => Ok (skipn i (map at_f l) ++ firstn i (map at_f l)) end) =
    rmap (map at_f) (firsts <- mmap (fun e => get (ne_points e) 0) l ;;
      match min_index firsts with None | Some O => Ok l | Some i => Ok (skipn i l ++ firstn i l) end)).
  { rewrite mmap_map. cbn [at_f ne_points]. apply (bind_rmap (map f)); [apply (mmap_moved f); intros e; apply get_map|].
    intros fs _. rewrite min_index_f. destruct (min_index fs) as [[|i]|]; try reflexivity. cbn [rmap]. rewrite map_app, skipn_map, firstn_map. reflexivity. }
  destruct l as [|a [|b l]]; [exact HG| |exact HG]. cbn [map rotate_edges]. apply (bind_rmap at_f); [apply island_f|reflexivity].
Qed.

Lemma insert_f k v m : bm_insert (f k) (at_f v) (map_f m) = option_map map_f (bm_insert k v m).
Proof.
  induction m as [|[k' v'] m IH]; [reflexivity|]. cbn [map_f map bm_insert fst snd]. rewrite f_eqb, f_ltb. destruct (pt_eqb k k'); [reflexivity|]. destruct (pt_ltb k k'); [reflexivity|].
  fold (map_f m). rewrite IH. destruct (bm_insert k v m); reflexivity.
Qed.

Lemma remove_f k m : bm_remove (f k) (map_f m) = option_map (fun x => (at_f (fst x), map_f (snd x))) (bm_remove k m).
Proof.
  induction m as [|[k' v'] m IH]; [reflexivity|]. cbn [map_f map bm_remove fst snd]. rewrite f_eqb. destruct (pt_eqb k k'); [reflexivity|]. fold (map_f m). rewrite IH. destruct (bm_remove k m) as [[e m']|]; reflexivity.
Qed.

Lemma index_f m l : index_edges (map_f m) (map at_f l) = rmap map_f (index_edges m l).
Proof.
  unfold index_edges. apply (mfold_rmap map_f). intros s e. apply (bind_rmap f); [apply get_map|]. intros p _. rewrite insert_f. destruct (bm_insert p e s); reflexivity.
Qed.

Lemma filter_f (P : norm_edge -> bool) l : (forall e, P (at_f e) = P e) -> filter P (map at_f l) = map at_f (filter P l).
Proof. intros H. induction l as [|e l IH]; [reflexivity|]. cbn [map filter]. rewrite H, IH. destruct (P e); reflexivity. Qed.

Definition st_f (st : list norm_ring * bmap) : list norm_ring * bmap := (map (map at_f) (fst st), map_f (snd st)).

Lemma classify_f st r : classify_ring (st_f st) (map at_f r) = rmap st_f (classify_ring st r).
Proof.
  unfold classify_ring. cbv zeta. rewrite (filter_f is_redundant) by reflexivity. rewrite (filter_f (fun e => negb (is_redundant e))) by reflexivity. rewrite !map_length.
  destruct (length (filter is_redundant r)) as [|n]; [cbn [st_f fst snd rmap]; unfold st_f; cbn [fst snd]; rewrite map_app; reflexivity|].
  destruct (length (filter (fun e => negb (is_redundant e)) r)) as [|n']; [reflexivity|]. cbn [st_f fst snd]. apply (bind_rmap map_f); [apply index_f|reflexivity].
Qed.

Lemma follow_f fuel start : forall endp m acc, follow fuel (f start) (f endp) (map_f m) (map at_f acc) = rmap (fun x => (map at_f (fst x), map_f (snd x))) (follow fuel start endp m acc).
Proof.
  induction fuel as [|fuel IH]; intros endp m acc; [reflexivity|]. cbn [follow]. rewrite remove_f. destruct (bm_remove endp m) as [[e m']|]; [|reflexivity]. cbn [option_map fst snd].
  apply (bind_rmap f); [cbn [at_f ne_points]; rewrite <- map_rev; destruct (rev (ne_points e)); reflexivity|].
  intros q _. rewrite f_eqb. destruct (pt_eqb q start); [cbn [rmap fst snd]; rewrite map_app; reflexivity|]. transitivity (follow fuel (f start) (f q) (map_f m') (map at_f (acc ++ [e]))); [rewrite map_app; reflexivity|apply IH].
Qed.

Lemma rebuild_f fuel : forall m ret, rebuild fuel (map_f m) (map (map at_f) ret) = rmap (map (map at_f)) (rebuild fuel m ret).
Proof.
  induction fuel as [|fuel IH]; intros [|[k v] m] ret; try reflexivity. cbn [map_f map rebuild fst snd]. change ((f k, at_f v) :: map _ m) with (map_f ((k, v) :: m)).
  unfold map_f at 1. rewrite map_length. fold (map_f ((k, v) :: m)). apply (bind_rmap (fun x => (map at_f (fst x), map_f (snd x)))); [exact (follow_f _ k k ((k, v) :: m) [])|]. intros [es m'] _. cbn [fst snd].
  apply (bind_rmap (map at_f)); [apply join_f|]. intros es1 _. apply (bind_rmap (map at_f)); [apply rotate_f|]. intros es2 _. transitivity (rebuild fuel (map_f m') (map (map at_f) (ret ++ [es2]))); [rewrite map_app; reflexivity|apply IH].
Qed.

Lemma key_f r : ring_key (map at_f r) = rmap f (ring_key r).
Proof. unfold ring_key. apply (bind_rmap at_f); [apply get_map|]. intros e _. apply get_map. Qed.

Lemma sort_f rs : sort_rings (map (map at_f) rs) = rmap (map (map at_f)) (sort_rings rs).
Proof.
  unfold sort_rings, norm_ring. rewrite map_length. destruct (Nat.leb (length rs) 1); [reflexivity|]. rewrite mmap_map.
  rewrite (mmap_moved f ring_key) by (intros r; apply key_f).
  unfold norm_ring. destruct (@mmap (list norm_edge) point ring_key rs) as [ks|p]; cbn [rmap bind]; [|reflexivity]. f_equal.
  set (g := fun kr : point * norm_ring => (f (fst kr), map at_f (snd kr))).
  assert (HI : forall k r l, insert_by_key (f k) (map at_f r) (map g l) = map g (insert_by_key k r l)).
  { intros k r l. induction l as [|[k' r'] l IH]; [reflexivity|]. cbn [map g fst snd insert_by_key]. rewrite f_ltb, f_eqb. destruct (pt_ltb k' k || pt_eqb k' k); [|reflexivity]. rewrite IH. reflexivity. }
  assert (HF : forall l acc, fold_left (fun acc kr => insert_by_key (fst kr) (snd kr) acc) (map g l) (map g acc) = map g (fold_left (fun acc kr => insert_by_key (fst kr) (snd kr) acc) l acc)).
  { intros l. induction l as [|kr l IH]; intros acc; [reflexivity|]. cbn [map fold_left]. change (fst (g kr)) with (f (fst kr)). change (snd (g kr)) with (map at_f (snd kr)). rewrite HI. apply IH. }
  assert (HC : forall ks rs, combine (map f ks) (map (map at_f) rs) = map g (combine ks rs)).
  { intros ks0. induction ks0 as [|k ks0 IH]; intros [|r rs0]; try reflexivity. cbn [map combine]. rewrite IH. reflexivity. }
  rewrite HC. transitivity (map snd (map g (fold_left (fun acc kr => insert_by_key (fst kr) (snd kr) acc) (combine ks rs) []))); [rewrite <- HF; reflexivity|rewrite !map_map; reflexivity].
Qed.

Lemma adjacent_f rs : join_adjacent_rings (map (map at_f) rs) = rmap (map (map at_f)) (join_adjacent_rings rs).
Proof.
  unfold join_adjacent_rings. apply (bind_rmap st_f); [exact (mfold_rmap st_f (map at_f) classify_ring classify_ring classify_f rs ([], []))|]. intros [ret m] _. cbn [st_f fst snd].
  destruct m as [|kv m]; [reflexivity|]. change (map_f (kv :: m)) with ((f (fst kv), at_f (snd kv)) :: map_f m). cbv iota. change ((f (fst kv), at_f (snd kv)) :: map_f m) with (map_f (kv :: m)).
  unfold map_f at 1. rewrite map_length. apply (bind_rmap (map (map at_f))); [apply rebuild_f|]. intros r _. apply sort_f.
Qed.
End Ordered.

Section Shift.
Context (x y : Z).
Let f := shifted x y.

Lemma shift_ltb p q : pt_ltb (moved f p) (moved f q) = pt_ltb p q.
Proof.
  destruct p as [a b], q as [c d]. unfold pt_ltb, moved, f, shifted, place. cbn [fr_swap fr_flip_x fr_flip_y fr_x fr_y px py].
  destruct (Z.ltb_spec (x + a) (x + c)), (Z.ltb_spec a c), (Z.eqb_spec (x + a) (x + c)), (Z.eqb_spec a c), (Z.ltb_spec (y + b) (y + d)), (Z.ltb_spec b d); cbn; try reflexivity; lia.
Qed.
Lemma shift_eqb p q : pt_eqb (moved f p) (moved f q) = pt_eqb p q.
Proof.
  destruct p as [a b], q as [c d]. unfold pt_eqb, moved, f, shifted, place. cbn [fr_swap fr_flip_x fr_flip_y fr_x fr_y px py].
  destruct (Z.eqb_spec (x + a) (x + c)), (Z.eqb_spec a c), (Z.eqb_spec (y + b) (y + d)), (Z.eqb_spec b d); cbn; try reflexivity; lia.
Qed.

Let mvd := at_f (moved f).

Lemma wind_f es o : closed_chain (map ne_points es) -> wind_edges Release (map mvd es) o = rmap (map mvd) (wind_edges Release es o).
Proof.
  intros H. unfold wind_edges, norm_winding.
  assert (HA : norm_area Release (map mvd es) = norm_area Release es).
  { unfold norm_area. rewrite <- wrap_0, !norm_area_release. do 3 f_equal. rewrite map_map. change (fun e => ne_points (mvd e)) with (fun e => moved_points f (ne_points e)).
    rewrite <- (map_map ne_points (moved_points f)). rewrite (shoelaces_closed f _ H). change (turn f) with 1. rewrite Z.mul_1_l. reflexivity. }
  rewrite HA. apply bind_rsame. intros w _. cbn [rmap]. destruct (winding_eqb o w); [reflexivity|]. rewrite map_rev, !map_map. f_equal. f_equal. apply map_ext. intros e. unfold reverse_norm_edge, mvd, at_f. cbn [ne_points ne_reg0 ne_reg1]. rewrite map_rev. reflexivity.
Qed.

Context {D : Type} (t : topology D) (Ht : valid t).
Let t' := moved_topology f t.

Lemma with_f d : with_directed_edge t' d = rmap mvd (with_directed_edge t d).
Proof.
  unfold with_directed_edge. cbn [t' moved_topology tp_edges]. apply (bind_rmap (moved_edge f)); [apply get_or_map|]. intros e _. cbn [moved_edge te_ring0 te_ring1 te_points].
  change (deref_ring (moved_topology f t)) with (deref_ring t).
  apply bind_rsame. intros r0 _. apply bind_rsame. intros r1 _. cbn [rmap]. unfold mvd, at_f. cbn [ne_points ne_reg0 ne_reg1]. destruct (de_dir d); [reflexivity|]. unfold moved_points. rewrite map_rev. reflexivity.
Qed.

Lemma ring_f o rg r : In rg (tp_regions t) -> In r (tg_outer rg ++ tg_inner rg) -> normalize_ring Release t' o r = rmap (map mvd) (normalize_ring Release t o r).
Proof.
  intros Hg Hr. unfold normalize_ring. apply (bind_rmap (map mvd)); [apply mmap_moved; intros d; apply with_f|]. intros es Hes.
  assert (G : good es).
  { rewrite (seen_ring_ok t rg r (proj1 Ht) Hg Hr) in Hes. injection Hes as <-. apply (seen_ring_good t rg r Ht Hg Hr). }
  apply (bind_rmap (map mvd)); [apply join_f|]. intros es1 H1.
  destruct (join_related_ok es) as (es1' & E & J & _).
  { destruct G as (_ & L & _). unfold nonempty_pts. clear -L. induction es as [|e es IH]; constructor; inversion L; subst; [destruct (ne_points e); [cbn in *; lia|discriminate]|auto]. }
  rewrite H1 in E. injection E as <-. apply (bind_rmap (map mvd)); [apply wind_f; apply (joined_facts es es1 G J)|]. intros es2 _. apply (rotate_f (moved f) shift_ltb shift_eqb).
Qed.

Lemma mmap_in {A B C} (F : B -> C) (g : A -> res B) (g' : A -> res C) l : (forall a, In a l -> g' a = rmap F (g a)) -> mmap g' l = rmap (map F) (mmap g l).
Proof.
  induction l as [|a l IH]; intros H; [reflexivity|]. cbn [mmap]. apply (bind_rmap F); [apply H; left; reflexivity|]. intros b _. apply (bind_rmap (map F)); [apply IH; intros; apply H; right; assumption|]. reflexivity.
Qed.

Lemma rings_f o rg rs : In rg (tp_regions t) -> incl rs (tg_outer rg ++ tg_inner rg) ->
  normalize_region_rings Release t' rs o = rmap (map (moved_ring f)) (normalize_region_rings Release t rs o).
Proof.
  intros Hg Hr. unfold normalize_region_rings. apply (bind_rmap (map (map mvd))); [apply mmap_in; intros r H; apply (ring_f o rg r Hg), Hr, H|]. intros nrs _.
  apply (bind_rmap (map (map mvd))); [apply (adjacent_f (moved f) shift_ltb shift_eqb)|]. intros js _. apply (bind_rmap (map (map mvd))); [apply (sort_f (moved f) shift_ltb shift_eqb)|]. intros ss _.
  cbn [rmap]. rewrite !map_map. f_equal. apply map_ext. intros r. unfold into_ring. cbn [moved_ring]. rewrite !map_map. reflexivity.
Qed.

Lemma region_f rg : In rg (tp_regions t) -> normalize_region Release t' rg = rmap (moved_region f) (normalize_region Release t rg).
Proof.
  intros Hg. unfold normalize_region. apply (bind_rmap (map (moved_ring f))); [apply (rings_f _ rg); [exact Hg|apply incl_appl, incl_refl]|]. intros o _.
  apply (bind_rmap (map (moved_ring f))); [apply (rings_f _ rg); [exact Hg|apply incl_appr, incl_refl]|]. reflexivity.
Qed.

Lemma regions_f : mmap (normalize_region Release t') (tp_regions t') = rmap (map (moved_region f)) (mmap (normalize_region Release t) (tp_regions t)).
Proof. cbn [t' moved_topology tp_regions]. apply mmap_in. exact region_f. Qed.
End Shift.

(** ** Building *)
Section Build.
Context {D : Type} (x y : Z).
Let f := shifted x y.
Let back := shifted (- x) (- y).

Lemma back_moved p : moved back (moved f p) = p.
Proof. destruct p as [a b]. unfold moved, back, f, shifted, place. cbn [fr_swap fr_flip_x fr_flip_y fr_x fr_y px py]. f_equal; lia. Qed.

Lemma back_points ps : moved_points back (moved_points f ps) = ps.
Proof. unfold moved_points. rewrite map_map. rewrite (map_ext _ (fun p => p)), map_id by apply back_moved. reflexivity. Qed.

Lemma back_ring r : moved_ring back (moved_ring f r) = r.
Proof. destruct r as [ps|es]; cbn [moved_ring]; f_equal; [apply back_points|]. rewrite map_map. rewrite (map_ext _ (fun p => p)), map_id by apply back_points. reflexivity. Qed.

Lemma back_region (g : region D) : moved_region back (moved_region f g) = g.
Proof.
  destruct g as [d o i]. unfold moved_region. cbn [rg_data rg_outer rg_inner]. rewrite !map_map. rewrite !(map_ext _ (fun r => r) back_ring), !map_id. reflexivity.
Qed.

Lemma closed_ring_moved g r : closed_ring r -> closed_ring (moved_ring g r).
Proof.
  assert (H1 : forall l, first (moved_points g l) = option_map (moved g) (first l)) by (intros [|p l]; reflexivity).
  assert (H2 : forall l, final (moved_points g l) = option_map (moved g) (final l)).
  { intros l. unfold final, moved_points. rewrite <- map_rev. destruct (rev l); reflexivity. }
  destruct r as [ps|es]; cbn [moved_ring closed_ring].
  - intros [H E]. split; [destruct ps; [congruence|discriminate]|]. rewrite H1, H2, E. reflexivity.
  - intros [p H]. exists (moved g p). set (q := p) in H at 2. change (moved g p) with (moved g q) at 2. clearbody q. revert p H.
    induction es as [|e es IH]; intros p H; cbn [map chain] in *; [congruence|]. destruct H as (Hf & r & Hr & H). rewrite H1, H2, Hf, Hr. split; [reflexivity|]. exists (moved g r). split; [reflexivity|]. apply IH. exact H.
Qed.

Lemma closed_moved_region g : closed_region g -> closed_region (moved_region (D:=D) f g).
Proof.
  unfold closed_region. cbn [moved_region rg_outer rg_inner]. rewrite <- map_app. intros H. apply Forall_map. revert H. apply Forall_impl. intros r H. apply closed_ring_moved. exact H.
Qed.

Lemma build_f (rs : list (region D)) : Forall closed_region rs ->
  build_topology Release (map (moved_region f) rs) = rmap (moved_topology f) (build_topology Release rs).
Proof.
  intros H. destruct (build_topology Release rs) as [t|p] eqn:E; cbn [rmap].
  - destruct (build_moved_returns Release f rs t H E) as (s & E'). rewrite E'. f_equal. exact (build_shifted Release Release x y rs t s H E E').
  - destruct (build_topology Release (map (moved_region f) rs)) as [s|q] eqn:E'.
    + exfalso. assert (HC : Forall closed_region (map (moved_region f) rs)) by (apply Forall_map; revert H; apply Forall_impl; exact closed_moved_region).
      destruct (build_moved_returns Release back _ s HC E') as (s' & E2). rewrite map_map, (map_ext _ (fun r => r) back_region), map_id in E2. congruence.
    + apply build_topology_panic in E as [[E _]|[-> _]]; [discriminate|]. apply build_topology_panic in E' as [[E' _]|[-> _]]; [discriminate|]. reflexivity.
Qed.
End Build.

Lemma side_closed {D} (t : topology D) o rs outs : side_fact t o rs outs -> Forall closed_ring (map into_ring outs).
Proof.
  intros (nrs & cycles & ms & F & _ & _ & P & _ & G & _). apply Forall_map. apply Forall_forall. intros r Hr. cbn [into_ring closed_ring].
  apply (Permutation_in r P) in Hr. apply in_app_iff in Hr as [Hr|Hr].
  - apply filter_In in Hr as [Hr _]. destruct (Forall2_in_r _ _ _ _ F Hr) as (r0 & _ & _ & (_ & _ & C) & _). exact C.
  - rewrite Forall_forall in G. apply G. exact Hr.
Qed.

Lemma normalize_release {D} (t : topology D) :
  normalize Release t = (gs <- mmap (normalize_region Release t) (tp_regions t) ;; build_topology Release gs).
Proof.
  unfold normalize, build_topology, add_regions. generalize (tp_regions t). intros rgs. generalize (@builder_new D).
  induction rgs as [|rg rgs IH]; intros b; [reflexivity|]. cbn [mfold mmap]. destruct (normalize_region Release t rg) as [g|]; [|reflexivity]. cbn [bind].
  destruct (add_region Release b g) as [b'|p] eqn:E; [|apply add_region_panic in E as [E _]; discriminate]. cbn [bind]. rewrite IH.
  destruct (mmap (normalize_region Release t) rgs) as [gs|]; [|reflexivity]. cbn [bind mfold]. rewrite E. reflexivity.
Qed.

Lemma normalize_f {D} x y (t : topology D) : valid t ->
  normalize Release (moved_topology (shifted x y) t) = rmap (moved_topology (shifted x y)) (normalize Release t).
Proof.
  intros V. rewrite !normalize_release. apply (bind_rmap (map (moved_region (shifted x y)))); [apply regions_f; exact V|]. intros gs Hg.
  apply build_f. apply Forall_forall. intros g Hin.
  destruct (Forall2_in_r _ _ _ _ (mmap_Ok_inv _ _ _ Hg) Hin) as (rg & Hr & E). destruct (normalize_region_fact Release t rg g V Hr E) as (outs & ins & -> & S1 & S2).
  unfold closed_region. cbn [rg_outer rg_inner]. apply Forall_app. split; eapply side_closed; eassumption.
Qed.
