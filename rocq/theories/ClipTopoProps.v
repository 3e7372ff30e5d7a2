(** * ClipTopoProps: C23-C29 and C62, clipping a topology *)
From Coq Require Import Permutation.
From Verif Require Import ClipTopoSpec Simplify GeoProofs TopoProofs BuildProofs ClipEdgeProofs ClipTopoProofs ClipTopoLaws.

(** Two squares sharing a side, the right one with a hole, and a far away triangle.  [MinY 5]
    cuts both squares and the hole, and removes the triangle. *)
Definition land : list (region Z) :=
  [ Region 1 [RPoints [Pt 0 0; Pt 10 0; Pt 10 10; Pt 0 10; Pt 0 0]] [];
    Region 2 [RPoints [Pt 10 0; Pt 20 0; Pt 20 10; Pt 10 10; Pt 10 0]]
             [RPoints [Pt 12 2; Pt 12 8; Pt 18 8; Pt 18 2; Pt 12 2]];
    Region 3 [RPoints [Pt 0 0; Pt 2 1; Pt 1 3; Pt 0 0]] [] ].
Definition land_topology : topology Z :=
  match build_topology Debug land with Ok t => t | Panic _ => Topology [] [] end.
Definition clipped_land : topology Z :=
  match clip_topology Debug land_topology (MinY 5) with Ok t => t | Panic _ => Topology [] [] end.

Example land_ok : build_topology Debug land = Ok land_topology /\
  clip_topology Debug land_topology (MinY 5) = Ok clipped_land /\
  length (tp_edges land_topology) = 14%nat /\ length (tp_edges clipped_land) = 11%nat /\
  map tg_data (tp_regions clipped_land) = [1; 2].
Proof. vm_compute. auto. Qed.

(** ** C23: rings of a clipped topology are closed *)
Theorem C23_closed : forall D m k (t t' : topology D) rg r,
  clip_topology m t k = Ok t' -> In rg (tp_regions t') -> In r (tg_outer rg ++ tg_inner rg) ->
  exists ps, read_ring (tp_edges t') r = map Some ps /\ ps <> [] /\ closed_chain ps.
Proof.
  intros D m k t t' rg r H. apply clip_topology_ok in H as (C & b & _ & Hb & _ & HR & HE).
  eapply clip_rings_closed; eassumption.
Qed.
Print Assumptions C23_closed.

(** A ring that was not closed at all is closed by clipping. *)
Example C23_case : clip_topology Debug
    (Topology [TRegion 1 [TRing [DE 0 Forward] (Some 0%nat)] []]
              [TEdge [Pt 5 0; Pt 9 0; Pt 9 9; Pt 5 9] (Some (RR 0 Outer 0)) None]) (MaxX 7)
  = Ok (Topology [TRegion 1 [TRing [DE 0 Forward; DE 1 Backward] (Some 0%nat)] []]
              [TEdge [Pt 5 0; Pt 7 0; Pt 7 9; Pt 5 9] (Some (RR 0 Outer 0)) None;
               TEdge [Pt 5 0; Pt 5 9] (Some (RR 0 Outer 0)) None]).
Proof. vm_compute. reflexivity. Qed.

(** ** C24: the result lies inside the mask *)
Theorem C24_inside : forall D m k (t t' : topology D) e p,
  clip_topology m t k = Ok t' -> In e (tp_edges t') -> In p (te_points e) ->
  (inside k p \/ on_line k p) /\ ~ outside k p.
Proof.
  intros D m k t t' e p H He Hp. apply clip_topology_ok in H as (C & b & HC & (_ & _ & Hn & _) & _ & _ & HE).
  pose proof (clip_points_kept m k t C (cb_new b) HC Hn) as HF. rewrite <- HE in HF.
  rewrite Forall_forall in HF. apply (in_map te_points) in He. apply HF in He. rewrite Forall_forall in He. apply He in Hp.
  split; [exact Hp|]. destruct k; unfold kept_point, inside, on_line, outside, axis, level in *; lia.
Qed.
Print Assumptions C24_inside.

Example C24_case : forall e p, In e (tp_edges clipped_land) -> In p (te_points e) -> 5 <= py p.
Proof.
  intros e p He Hp. destruct land_ok as (_ & H & _).
  destruct (C24_inside _ _ _ _ _ e p H He Hp) as [[Hi|Hi] _]; [unfold inside in Hi|unfold on_line, axis, level in Hi]; lia.
Qed.

(** ** C25: which regions and rings are kept *)
Theorem C25_kept : forall D m k (t t' : topology D),
  clip_topology m t k = Ok t' ->
  exists C, clips m k t C /\ read_topology t' = clipped_topology C t.
Proof.
  intros D m k t t' H. apply clip_topology_ok in H as (C & b & HC & Hb & _ & HR & HE).
  exists C. split; [exact HC|]. eapply clip_read; eassumption.
Qed.
Print Assumptions C25_kept.

(** [C] is determined by the input. *)
Theorem C25_clips_unique : forall D m k (t : topology D) C C', clips m k t C -> clips m k t C' -> C = C'.
Proof. intros D. exact clips_unique. Qed.
Print Assumptions C25_clips_unique.

(** A kept ring has area; in the exact range, kept means having area. *)
Theorem C25_area : forall C r,
  (ring_kept C r = true -> clipped_area C r <> 0) /\
  (fits (clipped_area C r) -> clipped_area C r <> 0 -> ring_kept C r = true).
Proof.
  intros C r. unfold ring_kept. rewrite !negb_true_iff, !Z.eqb_neq. split.
  - intros H E. rewrite E in H. apply H. reflexivity.
  - intros Hf Hn E. apply Hn. apply wrap_zero in E. rewrite wrap_id in E by exact Hf. exact E.
Qed.
Print Assumptions C25_area.

Example C25_case : read_topology clipped_land =
  [ Shape 1 [[Some [Pt 10 5; Pt 10 10]; Some [Pt 10 10; Pt 0 10]; Some [Pt 0 10; Pt 0 5]; Some [Pt 0 5; Pt 10 5]]] [];
    Shape 2 [[Some [Pt 20 5; Pt 20 10]; Some [Pt 20 10; Pt 10 10]; Some [Pt 10 10; Pt 10 5]; Some [Pt 10 5; Pt 20 5]]]
            [[Some [Pt 12 5; Pt 12 8]; Some [Pt 12 8; Pt 18 8]; Some [Pt 18 8; Pt 18 5]; Some [Pt 18 5; Pt 12 5]]] ].
Proof. vm_compute. reflexivity. Qed.

(** ** C26: shared edges stay shared *)
Theorem C26_shared : forall D m k (t t' : topology D),
  clip_topology m t k = Ok t' ->
  exists C, clips m k t C /\
    Forall2 (fun d p => de_dir d = pc_dir p /\ read_de (tp_edges t') d = Some (pc_path p))
            (all_des t') (surviving_pieces C (tp_regions t)) /\
    (forall i j d1 d2 p1 p2,
       nth_error (all_des t') i = Some d1 -> nth_error (surviving_pieces C (tp_regions t)) i = Some p1 ->
       nth_error (all_des t') j = Some d2 -> nth_error (surviving_pieces C (tp_regions t)) j = Some p2 ->
       (de_edge d1 = de_edge d2 <-> pc_key p1 = pc_key p2)).
Proof.
  intros D m k t t' H. apply clip_topology_ok in H as (C & b & HC & Hb & _ & HR & HE).
  pose proof (pieces_realised C b _ Hb) as HP. rewrite <- (all_des_eq t' (cb_regions b) HR) in HP.
  pose proof Hb as (_ & _ & Hn & _). exists C. split; [exact HC|]. split.
  - eapply Forall2_impl'; [|exact HP]. intros d p Hd. split; [apply Hd|eapply realises_read; eassumption].
  - assert (HN : forall i d p, nth_error (all_des t') i = Some d -> nth_error (surviving_pieces C (tp_regions t)) i = Some p ->
               realises C (cb_new b) d p).
    { clear - HP. induction HP as [|x y l l' Hxy HF IH]; intros [|i] d p Hd Hp; try discriminate; cbn in *; [congruence|eauto]. }
    intros i j d1 d2 p1 p2 H1 H2 H3 H4. eapply realises_key; eauto.
Qed.
Print Assumptions C26_shared.

(** The edges are the visible clipped edges, followed by the closing lines; each closing line is
    stored once for both directions and joins end points of visible edges. *)
Theorem C26_edges : forall D m k (t t' : topology D),
  clip_topology m t k = Ok t' ->
  exists C gaps, clips m k t C /\
    map te_points (tp_edges t') = filter (fun c => (2 <=? length c)%nat) C ++ map (fun s => [fst s; snd s]) gaps /\
    NoDup gaps /\
    Forall (fun s : point * point => lt_point (fst s) (snd s) /\
      forall p, p = fst s \/ p = snd s ->
        exists c, In c C /\ (2 <= length c)%nat /\ (first c = Some p \/ final c = Some p)) gaps.
Proof.
  intros D m k t t' H. apply clip_topology_ok in H as (C & b & HC & Hb & _ & HR & HE).
  pose proof Hb as (_ & _ & (_ & _ & Hnd & HF) & _). exists C, (map fst (nes_edges (cb_new b))).
  split; [exact HC|]. split; [rewrite HE; unfold pts_of; rewrite map_map; reflexivity|]. split; [exact Hnd|].
  apply Forall_map. eapply Forall_impl; [|exact HF]. intros kv (H1 & (c1 & Hc1 & E1) & (c2 & Hc2 & E2)). split; [exact H1|].
  apply in_old in Hc1 as [? ?], Hc2 as [? ?]. intros p [->| ->]; [exists c1|exists c2]; auto.
Qed.
Print Assumptions C26_edges.

(** Before clipping, edge 1 is shared; afterwards its upper half is. *)
Example C26_case :
  nth_error (tp_edges land_topology) 1 = Some (TEdge [Pt 10 0; Pt 10 10] (Some (RR 0 Outer 0)) (Some (RR 1 Outer 0))) /\
  In (TEdge [Pt 10 5; Pt 10 10] (Some (RR 0 Outer 0)) (Some (RR 1 Outer 0))) (tp_edges clipped_land).
Proof. vm_compute. auto. Qed.

(** ** C27: clipping with everything inside changes nothing *)
Theorem C27_identity : forall D m k (t t' : topology D),
  exact_references t ->
  (forall e p, In e (tp_edges t) -> In p (te_points e) -> inside k p) ->
  (forall e, In e (tp_edges t) -> (2 <= length (te_points e))%nat) ->
  (forall rg r, In rg (tp_regions t) -> In r (tg_outer rg ++ tg_inner rg) ->
     exists ps, read_ring (tp_edges t) r = map Some ps /\ closed_chain ps /\ shoelaces ps mod 2 ^ 64 <> 0) ->
  (forall rg, In rg (tp_regions t) -> tg_outer rg <> []) ->
  clip_topology m t k = Ok t' -> t' = t.
Proof. intros D m k t t' H1 H2 H3 H4 H5. apply clip_identity. constructor; assumption. Qed.
Print Assumptions C27_identity.

Theorem C27_returns : forall D k (t : topology D),
  wf_mask k -> wf_topology t ->
  exact_references t ->
  (forall e p, In e (tp_edges t) -> In p (te_points e) -> inside k p) ->
  (forall e, In e (tp_edges t) -> (2 <= length (te_points e))%nat) ->
  (forall rg r, In rg (tp_regions t) -> In r (tg_outer rg ++ tg_inner rg) ->
     exists ps, read_ring (tp_edges t) r = map Some ps /\ closed_chain ps /\ shoelaces ps mod 2 ^ 64 <> 0) ->
  (forall rg, In rg (tp_regions t) -> tg_outer rg <> []) ->
  clip_topology Release t k = Ok t /\
  (clip_topology Debug t k = Ok t \/ clip_topology Debug t k = Panic POverflow).
Proof. intros D k t Hk Hw H1 H2 H3 H4 H5. apply clip_identity_returns; [assumption..|]. constructor; assumption. Qed.
Print Assumptions C27_returns.

(** The clipped topology meets the conditions for a mask further out. *)
Example C27_case :
  (forall e p, In e (tp_edges clipped_land) -> In p (te_points e) -> inside (MinY 4) p) /\
  (forall e, In e (tp_edges clipped_land) -> (2 <= length (te_points e))%nat) /\
  exact_references clipped_land /\
  (forall rg r, In rg (tp_regions clipped_land) -> In r (tg_outer rg ++ tg_inner rg) ->
     exists ps, read_ring (tp_edges clipped_land) r = map Some ps /\ closed_chain ps /\ shoelaces ps mod 2 ^ 64 <> 0) /\
  clip_topology Debug clipped_land (MinY 4) = Ok clipped_land.
Proof.
  split. { intros e p He Hp. cbn. pose proof (C24_case e p He Hp). lia. }
  split. { apply Forall_forall. vm_compute. repeat constructor. }
  split. { destruct land_ok as (_ & H & _). apply clip_topology_ok in H as (C & b & _ & _ & HX & _). exact HX. }
  split.
  { intros rg r Hg Hr. destruct land_ok as (_ & H & _). destruct (C23_closed _ _ _ _ _ rg r H Hg Hr) as (ps & E & _ & Hc).
    exists ps. split; [exact E|]. split; [exact Hc|]. clear H Hc.
    assert (HN : forall o, read_ring (tp_edges clipped_land) r = o ->
              shoelaces (map (fun x => match x with Some l => l | None => [] end) o) mod 2 ^ 64 <> 0).
    { intros o <-. clear ps E. vm_compute in Hg. destruct Hg as [<-|[<-|[]]]; cbn in Hr.
      - destruct Hr as [<-|[]]. vm_compute. discriminate.
      - destruct Hr as [<-|[<-|[]]]; vm_compute; discriminate. }
    specialize (HN _ E). rewrite map_map in HN. rewrite map_id in HN. exact HN. }
  vm_compute. reflexivity.
Qed.

(** ** C28: edges without ring *)
(** A thin triangle whose tip, after rounding, is flat: both edges stay without ring. *)
Theorem C28_used_refuted : exists (rs : list (region Z)) t t' k e,
  build_topology Debug rs = Ok t /\ clip_topology Debug t k = Ok t' /\ clip_topology Release t k = Ok t' /\
  In e (tp_edges t') /\ te_ring0 e = None /\ te_ring1 e = None.
Proof.
  exists [Region 7 [RPoints [Pt 10 0; Pt 0 0; Pt 10 1; Pt 10 0]] []]. do 2 eexists. exists (MaxX 1). eexists.
  split; [vm_compute; reflexivity|]. split; [vm_compute; reflexivity|]. split; [vm_compute; reflexivity|].
  split; [left; reflexivity|]. split; reflexivity.
Qed.
Print Assumptions C28_used_refuted.

(** If the ring was a single edge, passing the result to simplify panics. *)
Theorem C28_simplify_refuted : exists (rs : list (region Z)) t t' k thr,
  build_topology Debug rs = Ok t /\ clip_topology Debug t k = Ok t' /\ clip_topology Release t k = Ok t' /\
  simplify Debug t' thr = Panic PAssert /\ simplify Release t' thr = Panic PAssert.
Proof.
  exists [Region 7 [REdges [[Pt 0 0; Pt 10 0; Pt 0 1; Pt 0 0]]] []]. do 2 eexists. exists (MinX 9), 5.
  split; [vm_compute; reflexivity|]. split; [vm_compute; reflexivity|]. split; [vm_compute; reflexivity|].
  split; reflexivity.
Qed.
Print Assumptions C28_simplify_refuted.

(** What is missing: dropped rings. If every ring with a visible part is kept, together with its
    region, and every edge of the input belongs to a ring, then so does every edge of the result. *)
Theorem C28_used_partial : forall D m k (t t' : topology D) C,
  clip_topology m t k = Ok t' -> clips m k t C ->
  exact_references t -> (forall e, In e (tp_edges t) -> te_ring0 e <> None) ->
  (forall rg r, In rg (tp_regions t) -> In r (tg_outer rg ++ tg_inner rg) -> visible C r <> [] ->
     ring_kept C r = true /\ region_kept C rg = true) ->
  forall e, In e (tp_edges t') -> te_ring0 e <> None.
Proof.
  intros D m k t t' C0 H HC0 Hx Hu HL. apply clip_topology_ok in H as (C & b & HC & Hb & HX & HR & HE).
  assert (C = C0) as -> by (eapply clips_unique; eassumption).
  eapply clip_all_used; [exact Hb|exact HX|exact HR|exact HE|exact HL|].
  intros i c Hi Hl. assert (Hlen : length (tp_edges t) = length C0) by (eapply Forall2_length'; exact HC).
  assert (Hlt : (i < length (tp_edges t))%nat) by (rewrite Hlen; apply nth_error_Some; congruence).
  destruct (nth_error (tp_edges t) i) as [e|] eqn:E; [|apply nth_error_None in E; lia].
  assert (H0 : te_ring0 e <> None) by (eapply Hu, nth_error_In, E).
  destruct Hx as (_ & _ & Hx). destruct (Hx i e E) as (_ & E0 & _). rewrite E0 in H0.
  assert (Hin : In i (map fst (uses (tp_regions t)))).
  { apply (count_occ_In Nat.eq_dec). rewrite <- users_length. destruct (users i (uses (tp_regions t))); [contradiction|cbn; lia]. }
  rewrite uses_all_des in Hin. apply in_map_iff in Hin as (d & <- & Hd). unfold all_des in Hd.
  apply in_flat_map in Hd as (rg & Hg & Hd). rewrite <- concat_app, <- map_app in Hd. apply in_concat in Hd as (ds & Hds & Hd).
  apply in_map_iff in Hds as (r & <- & Hr). exists rg, r, d. auto.
Qed.
Print Assumptions C28_used_partial.

Definition land_clips : list (list point) :=
  map (fun e => match clip_edge Debug (MinY 5) (te_points e) with Ok c => c | Panic _ => [] end) (tp_edges land_topology).
Example C28_case : clips Debug (MinY 5) land_topology land_clips /\
  (forall e, In e (tp_edges land_topology) -> te_ring0 e <> None) /\
  (forall rg r, In rg (tp_regions land_topology) -> In r (tg_outer rg ++ tg_inner rg) -> visible land_clips r <> [] ->
     ring_kept land_clips r = true /\ region_kept land_clips rg = true).
Proof.
  split. { apply clips_check. vm_compute. reflexivity. }
  split. { apply Forall_forall. vm_compute. repeat (constructor; [discriminate|]). constructor. }
  intros rg r Hg Hr Hv. vm_compute in Hg. destruct Hg as [<-|[<-|[<-|[]]]]; cbn in Hr.
  - destruct Hr as [<-|[]]. vm_compute. auto.
  - destruct Hr as [<-|[<-|[]]]; vm_compute; auto.
  - destruct Hr as [<-|[]]. exfalso. apply Hv. vm_compute. reflexivity.
Qed.

(** ** C29: when clipping panics *)
Theorem C29_outcome : forall D m k (t : topology D), wf_mask k -> wf_topology t -> references_valid t ->
  (m = Debug /\ clip_topology m t k = Panic POverflow) \/
  (exists C, clips m k t C /\
    (((exists t', clip_topology m t k = Ok t') /\ (forall key, (count_key key (surviving_pieces C (tp_regions t)) <= 2)%nat)) \/
     (clip_topology m t k = Panic PAssert /\ (exists key, (2 < count_key key (surviving_pieces C (tp_regions t)))%nat)))).
Proof. intros D m k t. apply clip_topology_cases. Qed.
Print Assumptions C29_outcome.

Theorem C29_release : forall D k (t : topology D), wf_mask k -> wf_topology t -> references_valid t ->
  exists C, clips Release k t C /\
    ((exists t', clip_topology Release t k = Ok t') <->
     (forall key, (count_key key (surviving_pieces C (tp_regions t)) <= 2)%nat)).
Proof.
  intros D k t Hk Hw Hv. destruct (clip_topology_cases Release t k Hk Hw Hv) as [[? _]|(C & HC & [[E HA]|[E (key & HA)]])].
  - discriminate.
  - exists C. tauto.
  - exists C. split; [exact HC|]. split; [intros [t' H]; congruence|]. intros H. specialize (H key). lia.
Qed.
Print Assumptions C29_release.

Theorem C29_references : forall D m k (t t' : topology D), clip_topology m t k = Ok t' -> exact_references t'.
Proof. intros D m k t t' H. apply clip_topology_ok in H as (C & b & _ & _ & HX & _). exact HX. Qed.
Print Assumptions C29_references.

(** Three regions of a valid topology (every edge is used at most twice) whose clipped rings need
    the same closing line: clipping panics. *)
Definition spikes : list (region Z) :=
  [ Region 1 [RPoints [Pt 0 10; Pt 0 0; Pt 10 0; Pt 10 10; Pt 0 10]] [];
    Region 2 [RPoints [Pt 0 10; Pt 3 9; Pt 10 10; Pt 10 20; Pt 0 10]] [];
    Region 3 [RPoints [Pt 0 10; Pt 3 8; Pt 10 10; Pt 11 21; Pt 0 10]] [] ].
Example C29_case :
  (exists t, build_topology Debug land = Ok t /\ exists t', clip_topology Release t (MinX 3) = Ok t') /\
  (exists t, build_topology Debug spikes = Ok t /\ clip_topology Debug t (MaxY 10) = Panic PAssert).
Proof.
  split; eexists; (split; [vm_compute; reflexivity|]); [eexists|]; vm_compute; reflexivity.
Qed.

(** ** C62: independence of the HashMap's iteration order *)
Theorem C62_iteration_order : forall D m (t : topology D) k b0 b iter,
  cbuilder_new m k t = Ok b0 -> mfold (cadd_region m) (tp_regions t) b0 = Ok b ->
  Permutation iter (nes_edges (cb_new b)) -> cinto_topology_iter b iter = cinto_topology b.
Proof. intros D. exact clip_iteration. Qed.
Print Assumptions C62_iteration_order.

Example C62_case : exists b0 b, cbuilder_new Debug (MinY 5) land_topology = Ok b0 /\
  mfold (cadd_region Debug) (tp_regions land_topology) b0 = Ok b /\
  length (nes_edges (cb_new b)) = 3%nat /\ rev (nes_edges (cb_new b)) <> nes_edges (cb_new b).
Proof. do 2 eexists. split; [vm_compute; reflexivity|]. split; [vm_compute; reflexivity|]. split; [reflexivity|vm_compute; discriminate]. Qed.
