(** * MemoryProps: property theorems C106 and C107 (statements only)

    Topologies are laid out in memory ([Memory], [MemorySpec]): pointers are addresses, set while
    the vectors of edges and regions are still growable. *)
From Verif Require Import MemorySpec MemoryProofs MemoryNorm BuildProps.

(** A layout like the one of a 64-bit program. *)
Definition sizes64 : sizes := Sizes 32 24 40.
Definition rings_apart (i : nat) (s : side) : Z := 10000 + 1000 * Z.of_nat i + match s with Outer => 0 | Inner => 500 end.
Lemma apart_pos i s : 0 < rings_apart i s.
Proof. unfold rings_apart. destruct s; lia. Qed.
Definition quiet : placing := Placing 1000 2000 false false 0 0 rings_apart.
Definition regions_move : placing := Placing 1000 2000 false true 0 3000 rings_apart.
Definition edges_move : placing := Placing 1000 2000 true false 4000 0 rings_apart.

(** ** C106: pointers lead to the parts of the returned topology *)

(** The buffers of the vectors are pointed into before they are boxed.  If the vector of regions has
    room to give back and is moved then, the region pointers of the rings lead nowhere. *)
Theorem C106_regions_refuted : exists sz pl (rs : list (region Z)) pt g r,
  proper sz /\ allocates pl /\ edges_stay pl /\
  p_build sz pl Release rs = Ok pt /\ In g (pt_regions pt) /\ In r (pg_outer g) /\ pr_region r <> 0 /\
  deref (pt_regions_at pt) (sz_region sz) (pt_regions pt) (pr_region r) = Panic PNull.
Proof.
  exists sizes64, regions_move, sample. eexists _, _, _.
  split; [vm_compute; repeat split; reflexivity|]. split; [repeat split; try reflexivity; apply apart_pos|].
  split; [left; reflexivity|]. split; [vm_compute; reflexivity|]. split; [left; reflexivity|]. split; [left; reflexivity|].
  split; [discriminate|vm_compute; reflexivity].
Qed.
Print Assumptions C106_regions_refuted.

(** Likewise for the edges; normalizing the topology then follows a pointer that leads nowhere. *)
Theorem C106_edges_refuted : exists sz pl (rs : list (region Z)) pt,
  proper sz /\ allocates pl /\ regions_stay pl /\
  p_build sz pl Release rs = Ok pt /\
  (exists t t', build_topology Release rs = Ok t /\ normalize Release t = Ok t') /\
  p_normalize sz pl Release pt = Panic PNull.
Proof.
  exists sizes64, edges_move, [Region 7 [sq 0 0] []]. destruct (p_build sizes64 edges_move Release [Region 7 [sq 0 0] []]) as [pt|p] eqn:E; [|exfalso; revert E; vm_compute; discriminate]. exists pt.
  split; [vm_compute; repeat split; reflexivity|]. split; [repeat split; try reflexivity; apply apart_pos|].
  split; [left; reflexivity|]. split; [reflexivity|]. vm_compute in E. injection E as <-. split; [eexists _, _; split; [vm_compute; reflexivity|]; vm_compute; reflexivity|vm_compute; reflexivity].
Qed.
Print Assumptions C106_edges_refuted.

(** What is missing: vectors that boxing moves.  Where boxing leaves the vectors in place, every
    pointer of a built, normalized or clipped topology is the address of what it should lead to. *)
Theorem C106_build_partial : forall D sz pl m (rs : list (region D)), proper sz -> allocates pl -> edges_stay pl -> regions_stay pl ->
  same_outcome (stored sz (home_of pl)) (build_topology m rs) (p_build sz pl m rs).
Proof. intros D sz pl m rs H1 H2 H3 H4. exact (build_home sz pl H1 H2 H3 H4 m rs). Qed.
Print Assumptions C106_build_partial.

Theorem C106_normalize_partial : forall D sz pl m h (t : topology D), proper sz -> allocates pl -> edges_stay pl -> regions_stay pl ->
  livable sz h t -> exact_references t ->
  same_outcome (stored sz (home_of pl)) (normalize m t) (p_normalize sz pl m (stored sz h t)).
Proof. intros D sz pl m h t H1 H2 H3 H4. exact (norm_home sz pl H1 H2 H3 H4 m h t). Qed.
Print Assumptions C106_normalize_partial.

Theorem C106_clip_partial : forall D sz pl m h (t : topology D) k, proper sz -> allocates pl -> edges_stay pl -> regions_stay pl ->
  livable sz h t -> same_outcome (stored sz (home_of pl)) (clip_topology m t k) (p_clip sz pl m (stored sz h t) k).
Proof. intros D sz pl m h t k H1 H2 H3 H4. exact (clip_home sz pl H1 H2 H3 H4 m h t k). Qed.
Print Assumptions C106_clip_partial.

(** Following such a pointer gives the part. *)
Theorem C106_follow_partial : forall D sz h (t : topology D), proper sz -> livable sz h t ->
  (forall i e, nth_error (tp_edges t) i = Some e ->
     deref (pt_edges_at (stored sz h t)) (sz_edge sz) (pt_edges (stored sz h t)) (edge_address sz h i) = Ok (i, stored_edge sz h e)) /\
  (forall i g, nth_error (tp_regions t) i = Some g ->
     deref (pt_regions_at (stored sz h t)) (sz_region sz) (pt_regions (stored sz h t)) (region_address sz h i) = Ok (i, stored_region sz h (i, g))) /\
  (forall rr r, has_ring t rr -> deref_ring t rr = Ok r ->
     p_ring_at sz (pt_regions (stored sz h t)) (ring_address sz h rr) = Ok (stored_ring sz h r)).
Proof.
  intros D sz h t H1 H2. split; [|split]; intros.
  - apply follow_edge; assumption.
  - apply follow_region; assumption.
  - apply follow_ring; assumption.
Qed.
Print Assumptions C106_follow_partial.

(** The rings are boxed before anything points to them: whatever boxing does to the two vectors, the
    ring pointers of the edges are the addresses of their rings. *)
Theorem C106_rings_partial : forall D sz pl m (rs : list (region D)) pt, proper sz -> allocates pl -> p_build sz pl m rs = Ok pt ->
  exists t, build_topology m rs = Ok t /\ pt_edges pt = map (stored_edge sz (home_of pl)) (tp_edges t) /\
    pt_regions pt = map (stored_region sz (home_of pl)) (enumerate (tp_regions t)).
Proof. intros D. exact build_rings. Qed.
Print Assumptions C106_rings_partial.

(** ** C107: results do not depend on addresses *)

(** As long as boxing leaves the edges in place, where things lie, how large they are and whether
    the regions are moved under their pointers makes no difference: each operation on a topology in
    memory ends like the operation on the topology with indices. *)
Theorem C107_build : forall D sz pl m (rs : list (region D)), proper sz -> allocates pl -> edges_stay pl ->
  same_outcome (fun t => regions_moved (regions_end pl) (stored sz (home_of pl) t)) (build_topology m rs) (p_build sz pl m rs).
Proof. intros D sz pl m rs H1 H2 H3. exact (build_anywhere sz pl H1 H2 H3 m rs). Qed.
Print Assumptions C107_build.

Theorem C107_normalize : forall D sz pl m h to (t : topology D), proper sz -> allocates pl -> edges_stay pl -> livable sz h t -> exact_references t ->
  same_outcome (fun t' => regions_moved (regions_end pl) (stored sz (home_of pl) t')) (normalize m t)
    (p_normalize sz pl m (regions_moved to (stored sz h t))).
Proof. intros D sz pl m h to t H1 H2 H3. exact (norm_anywhere sz pl H1 H2 H3 m h to t). Qed.
Print Assumptions C107_normalize.

Theorem C107_clip : forall D sz pl m h to (t : topology D) k, proper sz -> allocates pl -> edges_stay pl -> livable sz h t ->
  same_outcome (fun t' => regions_moved (regions_end pl) (stored sz (home_of pl) t')) (clip_topology m t k)
    (p_clip sz pl m (regions_moved to (stored sz h t)) k).
Proof. intros D sz pl m h to t k H1 H2 H3. exact (clip_anywhere sz pl H1 H2 H3 m h to t k). Qed.
Print Assumptions C107_clip.

Theorem C107_simplify : forall D sz h to m (t : topology D) thr,
  same_outcome (fun t' => regions_moved to (stored sz h t')) (simplify m t thr) (p_simplify m (regions_moved to (stored sz h t)) thr).
Proof. intros D. exact simplify_anywhere. Qed.
Print Assumptions C107_simplify.

(** A whole run: build, normalize, clip, simplify, each allocating as it likes. *)
Theorem C107_run : forall D sz pl1 pl2 pl3 m (rs : list (region D)) k thr, proper sz ->
  allocates pl1 -> allocates pl2 -> allocates pl3 -> edges_stay pl1 -> edges_stay pl2 -> edges_stay pl3 ->
  (forall t, build_topology m rs = Ok t -> livable sz (home_of pl1) t) ->
  (forall t t', build_topology m rs = Ok t -> normalize m t = Ok t' -> livable sz (home_of pl2) t') ->
  same_outcome (fun t => regions_moved (regions_end pl3) (stored sz (home_of pl3) t))
    (t <- build_topology m rs ;; t1 <- normalize m t ;; t2 <- clip_topology m t1 k ;; simplify m t2 thr)
    (t <- p_build sz pl1 m rs ;; t1 <- p_normalize sz pl2 m t ;; t2 <- p_clip sz pl3 m t1 k ;; p_simplify m t2 thr).
Proof.
  intros D sz pl1 pl2 pl3 m rs k thr H A1 A2 A3 E1 E2 E3 L1 L2.
  pose proof (C107_build D sz pl1 m rs H A1 E1) as B. destruct (build_topology m rs) as [t|p] eqn:Eb; cbn [same_outcome] in B; rewrite B; cbn [bind same_outcome]; [|reflexivity].
  pose proof (C107_normalize D sz pl2 m (home_of pl1) (regions_end pl1) t H A2 E2 (L1 t eq_refl) (proj1 (C13_references D m rs t Eb))) as N.
  destruct (normalize m t) as [t1|p] eqn:En; cbn [same_outcome] in N; rewrite N; cbn [bind same_outcome]; [|reflexivity].
  pose proof (C107_clip D sz pl3 m (home_of pl2) (regions_end pl2) t1 k H A3 E3 (L2 t t1 eq_refl En)) as K.
  destruct (clip_topology m t1 k) as [t2|p] eqn:Ek; cbn [same_outcome] in K; rewrite K; cbn [bind same_outcome]; [|reflexivity].
  apply C107_simplify.
Qed.
Print Assumptions C107_run.

Lemma few_rings {D} sz (t : topology D) : sizes64 = sz -> (forall g, In g (tp_regions t) -> (length (tg_outer g) <= 20 /\ length (tg_inner g) <= 20)%nat) ->
  forall h, 0 < h_edges h -> 0 < h_regions h -> h_rings h = rings_apart -> livable sz h t.
Proof.
  intros <- Hn h H1 H2 H3. split; [exact H1|]. split; [exact H2|]. split; [intros i s; rewrite H3; unfold rings_apart; destruct s; lia|].
  intros [i s k] [i' s' k'] (g & Hg & Hk) (g' & Hg' & Hk') E. unfold ring_address in E. rewrite H3 in E. unfold rings_apart in E. cbn [rr_region rr_side rr_index sizes64 sz_ring] in *.
  apply nth_error_In, Hn in Hg as [? ?]. apply nth_error_In, Hn in Hg' as [? ?].
  assert (k <= 20 /\ k' <= 20)%nat as [? ?] by (destruct s, s'; lia).
  destruct s, s'; try lia; f_equal; lia.
Qed.

Example C107_case : exists t t1, build_topology Debug sample = Ok t /\ normalize Debug t = Ok t1 /\
  livable sizes64 (home_of regions_move) t /\ livable sizes64 (home_of quiet) t1 /\
  (exists pt, p_build sizes64 regions_move Debug sample = Ok pt /\ pt_regions_at pt = 3000 /\
    map (fun e => (pe_ring0 e, pe_ring1 e)) (firstn 2 (pt_edges pt)) = [(10000, 0); (10000, 11000)]).
Proof.
  eexists _, _. split; [vm_compute; reflexivity|]. split; [vm_compute; reflexivity|].
  split; [apply few_rings; try reflexivity; intros g Hg; cbn in Hg; repeat (destruct Hg as [<- | Hg]; [cbn; lia|]); destruct Hg|].
  split; [apply few_rings; try reflexivity; intros g Hg; cbn in Hg; repeat (destruct Hg as [<- | Hg]; [cbn; lia|]); destruct Hg|].
  eexists. split; [vm_compute; reflexivity|]. split; [reflexivity|]. vm_compute. reflexivity.
Qed.

Example C106_case : exists t, build_topology Debug sample = Ok t /\ proper sizes64 /\ edges_stay quiet /\ regions_stay quiet /\
  livable sizes64 (home_of quiet) t /\ exact_references t /\
  p_normalize sizes64 quiet Debug (stored sizes64 (home_of quiet) t) <> Panic PNull.
Proof.
  destruct (build_topology Debug sample) as [t|p] eqn:E; [|exfalso; revert E; vm_compute; discriminate].
  exists t. split; [reflexivity|]. split; [vm_compute; repeat split; reflexivity|]. split; [left; reflexivity|]. split; [left; reflexivity|].
  split; [|split; [apply (C13_references Z Debug sample t E)|]]; clear -E; vm_compute in E; injection E as <-.
  - apply few_rings; try reflexivity; intros g Hg; cbn in Hg; repeat (destruct Hg as [<- | Hg]; [cbn; lia|]); destruct Hg.
  - vm_compute. discriminate.
Qed.
