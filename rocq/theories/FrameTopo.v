(** * FrameTopo: clipping a topology in another frame *)
From Coq Require Import Permutation.
From Verif Require Import FrameSpec GeoProofs TopoProofs BuildProofs ClipEdgeProofs ClipTopoProofs ClipTopoLaws ClipTrace ClipLocal FrameProofs.

(** ** Areas *)
Definition sign_of (b : bool) : Z := if b then -1 else 1.
Definition turn (f : frame) : Z := sign_of (fr_swap f) * sign_of (fr_flip_x f) * sign_of (fr_flip_y f).
Definition potential (f : frame) (p : point) : Z :=
  let u := if fr_swap f then py p else px p in
  let w := if fr_swap f then px p else py p in
  fr_x f * sign_of (fr_flip_y f) * w - fr_y f * sign_of (fr_flip_x f) * u.

Lemma turn_cases f : turn f = 1 \/ turn f = -1.
Proof. unfold turn. destruct f as [[] [] [] ? ?]; cbn; auto. Qed.

Lemma det_moved f p q : det (moved f p) (moved f q) = turn f * det p q + potential f q - potential f p.
Proof.
  destruct f as [[] [] [] ox oy], p as [a b], q as [c d];
    unfold det, moved, place, turn, potential, sign_of; cbn [fr_swap fr_flip_x fr_flip_y fr_x fr_y px py]; ring.
Qed.

Lemma shoelace_moved f l : forall p q, first l = Some p -> final l = Some q ->
  shoelace (moved_points f l) = turn f * shoelace l + potential f q - potential f p.
Proof.
  induction l as [|a [|b l] IH]; intros p q Hp Hq; [discriminate| |].
  - injection Hp as <-. injection Hq as <-. cbn. lia.
  - injection Hp as <-. unfold moved_points in *. cbn [map]. rewrite !shoelace_cons2, det_moved.
    change (moved f b :: map (moved f) l) with (map (moved f) (b :: l)).
    rewrite (IH b q eq_refl); [lia|]. rewrite <- Hq. unfold final. cbn [rev]. destruct (rev l ++ [b]) eqn:E; [|reflexivity].
    apply app_eq_nil in E as [_ E]. discriminate.
Qed.

Lemma shoelaces_moved f es : forall p q, chain p es q ->
  shoelaces (map (moved_points f) es) = turn f * shoelaces es + potential f q - potential f p.
Proof.
  induction es as [|e es IH]; intros p q; cbn [chain map shoelaces]; [intros ->; lia|].
  intros (F & r & E & H). rewrite (IH r q H), (shoelace_moved f e p r F E). lia.
Qed.

Lemma shoelaces_closed f es : closed_chain es -> shoelaces (map (moved_points f) es) = turn f * shoelaces es.
Proof. intros [p H]. rewrite (shoelaces_moved f es p p H). lia. Qed.

(** ** Pieces *)
Definition moved_key (f : frame) (k : use_key) : use_key :=
  match k with
  | KOld i => KOld i
  | KGap a b => if pt_ltb (moved f a) (moved f b) then KGap (moved f a) (moved f b) else KGap (moved f b) (moved f a)
  end.
Definition matches (f : frame) (p p' : piece) : Prop :=
  pc_path p' = moved_points f (pc_path p) /\ pc_key p' = moved_key f (pc_key p).
Definition good_key (k : use_key) : Prop := match k with KOld _ => True | KGap a b => pt_ltb a b = true end.

Lemma pt_ltb_total p q : p <> q -> pt_ltb p q = negb (pt_ltb q p).
Proof.
  intros H. assert (HH : px p <> px q \/ py p <> py q).
  { destruct (Z.eq_dec (px p) (px q)) as [E|E]; [right|left; exact E]. intros E'. apply H. destruct p, q. cbn in *. congruence. }
  unfold pt_ltb. destruct (Z.ltb_spec (px p) (px q)), (Z.ltb_spec (px q) (px p)), (Z.eqb_spec (px p) (px q)), (Z.eqb_spec (px q) (px p)),
    (Z.ltb_spec (py p) (py q)), (Z.ltb_spec (py q) (py p)); cbn; try reflexivity; lia.
Qed.

Lemma pt_ltb_neq p q : pt_ltb p q = true -> p <> q.
Proof. intros H ->. revert H. unfold pt_ltb. rewrite !Z.ltb_irrefl, andb_false_r. discriminate. Qed.

Lemma gap_if p q : gap p q = if pt_eqb p q then [] else if pt_ltb p q then [Piece (KGap p q) Forward [p; q]] else [Piece (KGap q p) Backward [p; q]].
Proof. unfold gap. rewrite lt_pointb. reflexivity. Qed.

Lemma gap_good p q : Forall (fun x => good_key (pc_key x)) (gap p q).
Proof.
  rewrite gap_if. destruct (pt_eqb_spec p q) as [|H]; [constructor|]. destruct (pt_ltb p q) eqn:E; constructor; try constructor; cbn.
  - exact E.
  - rewrite (pt_ltb_total q p) by congruence. rewrite E. reflexivity.
Qed.

Lemma gap_moved f p q : Forall2 (matches f) (gap p q) (gap (moved f p) (moved f q)).
Proof.
  rewrite !gap_if, moved_eqb. destruct (pt_eqb_spec p q) as [|H]; [constructor|].
  assert (HN : moved f p <> moved f q) by (intros E; apply H, (moved_inj f), E).
  destruct (pt_ltb p q) eqn:E1, (pt_ltb (moved f p) (moved f q)) eqn:E2; (constructor; [|constructor]); (split; [reflexivity|]);
    cbn [pc_key moved_key]; rewrite ?E2; try reflexivity.
  - rewrite (pt_ltb_total _ _ (not_eq_sym HN)), E2. reflexivity.
  - rewrite (pt_ltb_total _ _ (not_eq_sym HN)), E2. reflexivity.
Qed.

Lemma good_back f k : good_key k -> moved_key (inverse f) (moved_key f k) = k.
Proof.
  destruct k as [i|a b]; [reflexivity|]. cbn [good_key]. intros H. pose proof (pt_ltb_neq _ _ H) as HN. cbn [moved_key].
  destruct (pt_ltb (moved f a) (moved f b)); cbn [moved_key]; rewrite !inverse_moved; [rewrite H; reflexivity|].
  rewrite (pt_ltb_total b a) by congruence. rewrite H. reflexivity.
Qed.

Lemma nth_error_moved f (C : list (list point)) i : nth_error (map (moved_points f) C) i = option_map (moved_points f) (nth_error C i).
Proof. apply nth_error_map. Qed.

Lemma first_map g l : first (map g l) = option_map g (first l).
Proof. destruct l; reflexivity. Qed.

Lemma visible_piece_moved f C d : Forall2 (matches f) (visible_piece C d) (visible_piece (map (moved_points f) C) d).
Proof.
  unfold visible_piece. rewrite nth_error_moved. destruct (nth_error C (de_edge d)) as [[|p [|q c]]|]; cbn [option_map]; try constructor.
  - split; [|reflexivity]. cbn [pc_path]. unfold oriented. destruct (de_dir d); [reflexivity|]. unfold moved_points. rewrite map_rev. reflexivity.
  - constructor.
Qed.

Lemma visible_moved f C r : Forall2 (matches f) (visible C r) (visible (map (moved_points f) C) r).
Proof.
  unfold visible. induction (tr_des r) as [|d ds IH]; cbn [flat_map]; [constructor|]. apply Forall2_app; [apply visible_piece_moved|exact IH].
Qed.

Lemma gap_between_moved f a b : Forall2 (matches f) (gap_between a b) (gap_between (option_map (moved f) a) (option_map (moved f) b)).
Proof. destruct a, b; cbn; try constructor. apply gap_moved. Qed.

Lemma matches_first f p p' : matches f p p' -> first (pc_path p') = option_map (moved f) (first (pc_path p)).
Proof. intros [-> _]. apply first_map. Qed.
Lemma matches_final f p p' : matches f p p' -> final (pc_path p') = option_map (moved f) (final (pc_path p)).
Proof. intros [-> _]. apply final_map. Qed.

Lemma close_moved f start p p' ps ps' : matches f p p' -> Forall2 (matches f) ps ps' ->
  Forall2 (matches f) (close_gaps start p ps) (close_gaps (option_map (moved f) start) p' ps').
Proof.
  intros Hp HF. revert p p' Hp. induction HF as [|q q' ps ps' Hq HF IH]; intros p p' Hp; cbn [close_gaps]; rewrite (matches_final f p p' Hp).
  - apply gap_between_moved.
  - rewrite (matches_first f q q' Hq). apply Forall2_app; [apply gap_between_moved|]. constructor; [exact Hq|apply IH, Hq].
Qed.

Lemma clipped_ring_moved f C r : Forall2 (matches f) (clipped_ring C r) (clipped_ring (map (moved_points f) C) r).
Proof.
  unfold clipped_ring. destruct (visible_moved f C r) as [|p p' ps ps' Hp HF]; [constructor|].
  constructor; [exact Hp|]. rewrite (matches_first f p p' Hp). apply close_moved; assumption.
Qed.

Lemma matches_paths f ps ps' : Forall2 (matches f) ps ps' -> map pc_path ps' = map (moved_points f) (map pc_path ps).
Proof. induction 1 as [|p p' ps ps' [H _] HF IH]; [reflexivity|]. cbn [map]. rewrite H, IH. reflexivity. Qed.
Lemma matches_keys f ps ps' : Forall2 (matches f) ps ps' -> map pc_key ps' = map (moved_key f) (map pc_key ps).
Proof. induction 1 as [|p p' ps ps' [_ H] HF IH]; [reflexivity|]. cbn [map]. rewrite H, IH. reflexivity. Qed.

Lemma clipped_area_moved f C r : clipped_area (map (moved_points f) C) r = turn f * clipped_area C r.
Proof.
  unfold clipped_area. rewrite (matches_paths f _ _ (clipped_ring_moved f C r)).
  destruct (clipped_ring C r) as [|p ps] eqn:E; [cbn; lia|]. rewrite <- E. apply shoelaces_closed, clipped_ring_closed. congruence.
Qed.

Lemma ring_kept_moved f C r : ring_kept (map (moved_points f) C) r = ring_kept C r.
Proof.
  unfold ring_kept. rewrite clipped_area_moved. f_equal. destruct (turn_cases f) as [->| ->]; [rewrite Z.mul_1_l; reflexivity|].
  apply eq_true_iff_eq. rewrite !Z.eqb_eq. rewrite !Z.mod_divide by lia. split; intros [z Hz]; exists (- z); lia.
Qed.

Lemma existsb_same {A} (g h : A -> bool) l : (forall x, g x = h x) -> existsb g l = existsb h l.
Proof. intros H. induction l as [|x l IH]; [reflexivity|]. cbn. rewrite H, IH. reflexivity. Qed.

Lemma region_kept_moved {D} f C (rg : topo_region D) : region_kept (map (moved_points f) C) rg = region_kept C rg.
Proof. apply existsb_same, ring_kept_moved. Qed.

Lemma clipped_rings_moved f C rs : Forall2 (Forall2 (matches f)) (clipped_rings C rs) (clipped_rings (map (moved_points f) C) rs).
Proof.
  unfold clipped_rings. induction rs as [|r rs IH]; cbn [filter map]; [constructor|]. rewrite ring_kept_moved.
  destruct (ring_kept C r); [|exact IH]. constructor; [apply clipped_ring_moved|exact IH].
Qed.

Lemma read_pieces_moved f ps ps' : Forall2 (matches f) ps ps' -> read_pieces ps' = map (moved_path f) (read_pieces ps).
Proof. unfold read_pieces. induction 1 as [|p p' ps ps' [H _] HF IH]; [reflexivity|]. cbn [map moved_path option_map]. rewrite H, IH. reflexivity. Qed.

Lemma read_rings_moved f rs rs' : Forall2 (Forall2 (matches f)) rs rs' -> map read_pieces rs' = map (map (moved_path f)) (map read_pieces rs).
Proof. induction 1 as [|p p' ps ps' H HF IH]; [reflexivity|]. cbn [map]. rewrite (read_pieces_moved f _ _ H), IH. reflexivity. Qed.

Lemma clipped_shape_moved {D} f C (rg : topo_region D) : clipped_shape (map (moved_points f) C) rg = moved_shape f (clipped_shape C rg).
Proof. unfold clipped_shape, moved_shape. cbn [s_data s_outer s_inner]. f_equal; apply read_rings_moved, clipped_rings_moved. Qed.

Lemma clipped_topology_moved {D} f C (t : topology D) :
  clipped_topology (map (moved_points f) C) (moved_topology f t) = map (moved_shape f) (clipped_topology C t).
Proof.
  unfold clipped_topology. cbn [moved_topology tp_regions]. induction (tp_regions t) as [|rg rgs IH]; [reflexivity|]. cbn [filter].
  rewrite region_kept_moved. destruct (region_kept C rg); [|exact IH]. cbn [map]. rewrite clipped_shape_moved, IH. reflexivity.
Qed.

(** ** Uses of lines *)
Lemma close_good start p ps : Forall (fun x => good_key (pc_key x)) ps -> Forall (fun x => good_key (pc_key x)) (close_gaps start p ps).
Proof.
  intros H. revert p. induction H as [|q ps Hq H IH]; intros p; cbn [close_gaps].
  - destruct (final (pc_path p)), start; cbn; try constructor. apply gap_good.
  - apply Forall_app. split; [|constructor; [exact Hq|apply IH]].
    destruct (final (pc_path p)), (first (pc_path q)); cbn; try constructor. apply gap_good.
Qed.

Lemma visible_good C r : Forall (fun x => good_key (pc_key x)) (visible C r).
Proof.
  rewrite Forall_forall. intros x Hx. unfold visible in Hx. apply in_flat_map in Hx as (d & _ & Hx). revert Hx. unfold visible_piece.
  destruct (nth_error C (de_edge d)) as [[|? [|? ?]]|]; intros Hx; try destruct Hx as [<-|[]]; try destruct Hx. exact I.
Qed.

Lemma clipped_good C r : Forall (fun x => good_key (pc_key x)) (clipped_ring C r).
Proof.
  unfold clipped_ring. pose proof (visible_good C r) as H. destruct (visible C r) as [|p ps]; [constructor|].
  inversion H; subst. constructor; [assumption|apply close_good; assumption].
Qed.

Lemma surviving_good {D} C (rgs : list (topo_region D)) : Forall (fun x => good_key (pc_key x)) (surviving_pieces C rgs).
Proof.
  rewrite Forall_forall. intros x Hx. unfold surviving_pieces in Hx. apply in_flat_map in Hx as (rg & _ & Hx).
  assert (HH : forall rs, In x (concat (clipped_rings C rs)) -> good_key (pc_key x)).
  { intros rs H. apply in_concat in H as (l & Hl & Hx'). unfold clipped_rings in Hl. apply in_map_iff in Hl as (r & <- & _).
    pose proof (clipped_good C r) as HG. rewrite Forall_forall in HG. apply HG, Hx'. }
  apply in_app_iff in Hx as [H|H]; eapply HH, H.
Qed.

Lemma Forall2_concat {A B} (R : A -> B -> Prop) l l' : Forall2 (Forall2 R) l l' -> Forall2 R (concat l) (concat l').
Proof. induction 1; cbn [concat]; [constructor|]. apply Forall2_app; assumption. Qed.

Lemma surviving_moved {D} f C (rgs : list (topo_region D)) :
  Forall2 (matches f) (surviving_pieces C rgs) (surviving_pieces (map (moved_points f) C) rgs).
Proof.
  unfold surviving_pieces. induction rgs as [|rg rgs IH]; cbn [filter]; [constructor|]. rewrite region_kept_moved.
  destruct (region_kept C rg); [|exact IH]. cbn [flat_map]. repeat apply Forall2_app; try exact IH; apply Forall2_concat, clipped_rings_moved.
Qed.

Lemma count_moved f ks key : Forall good_key ks -> (forall k, (count_occ use_key_eq_dec ks k <= 2)%nat) ->
  (count_occ use_key_eq_dec (map (moved_key f) ks) key <= 2)%nat.
Proof.
  intros HG HK.
  destruct (in_dec use_key_eq_dec key (map (moved_key f) ks)) as [Hi|Hi].
  2:{ rewrite (proj1 (count_occ_not_In use_key_eq_dec _ _) Hi). lia. }
  apply in_map_iff in Hi as (k & <- & Hk). rewrite Forall_forall in HG. pose proof (HG k Hk) as Gk.
  rewrite <- (HK k). clear Hk HK. induction ks as [|k0 ks IH]; [cbn; lia|]. cbn [map count_occ].
  assert (IHk : (count_occ use_key_eq_dec (map (moved_key f) ks) (moved_key f k) <= count_occ use_key_eq_dec ks k)%nat).
  { apply IH. intros x Hx. apply HG. right. exact Hx. }
  destruct (use_key_eq_dec (moved_key f k0) (moved_key f k)) as [E|E], (use_key_eq_dec k0 k) as [E'|E']; try lia.
  exfalso. apply E'. rewrite <- (good_back f k0), <- (good_back f k), E; auto. apply HG. left. reflexivity.
Qed.

(** ** Topologies *)
Lemma trace_release ps a : exists b, trace Release ps a = Ok b.
Proof.
  revert a. induction ps as [|p ps IH]; intros a; [exists a; reflexivity|]. unfold trace. cbn [mfold]. unfold piece_area at 1.
  rewrite signed_area2_release. cbn [bind]. unfold i64_add. rewrite i64_ret_release. cbn [bind]. apply IH.
Qed.

Lemma clips_release_of {D} m k (t : topology D) C : wf_mask k -> wf_topology t -> clips m k t C -> clips Release k t C.
Proof.
  intros Hk Hw HC. destruct m; [|exact HC]. unfold clips, wf_topology in *.
  induction HC as [|e c es C He HC IH]; [constructor|]. inversion Hw; subst. constructor; [|auto].
  apply clip_edge_debug_release; assumption.
Qed.

Lemma clips_moved {D} m f k (t : topology D) C : wf_mask k -> wf_mask (moved_mask f k) -> wf_topology t -> stays f t ->
  clips m k t C -> clips m (moved_mask f k) (moved_topology f t) (map (moved_points f) C).
Proof.
  intros Hk Hk' Hw Hs HC. unfold clips, wf_topology, stays in *. cbn [moved_topology tp_edges].
  induction HC as [|e c es C He HC IH]; [constructor|]. inversion Hw; subst. inversion Hs; subst.
  constructor; [|auto]. cbn [moved_edge te_points]. rewrite clip_edge_moved, He by assumption. reflexivity.
Qed.

Lemma moved_wf {D} f (t : topology D) : stays f t -> wf_topology (moved_topology f t).
Proof. unfold stays, wf_topology. cbn [moved_topology tp_edges]. rewrite Forall_map. exact (fun h => h). Qed.

Lemma clip_moved_read {D} m m' f k (t t' s : topology D) : wf_mask k -> wf_mask (moved_mask f k) -> wf_topology t -> stays f t ->
  clip_topology m t k = Ok t' -> clip_topology m' (moved_topology f t) (moved_mask f k) = Ok s ->
  read_topology s = map (moved_shape f) (read_topology t').
Proof.
  intros Hk Hk' Hw Hs E E'.
  pose proof (clip_topology_traced m t t' k E) as (C & _ & HC & _). pose proof (clip_topology_traced m' _ s _ E') as (C' & _ & HC' & _).
  pose proof (clips_moved Release f k t C Hk Hk' Hw Hs (clips_release_of m k t C Hk Hw HC)) as HR.
  pose proof (clips_release_of m' _ _ C' Hk' (moved_wf f t Hs) HC') as HR'.
  pose proof (clips_unique Release _ _ _ _ HR HR') as <-.
  rewrite (clip_reads m k t t' C HC E), (clip_reads m' _ _ s _ HC' E'). apply clipped_topology_moved.
Qed.

Lemma clip_moved_returns {D} m f k (t t' : topology D) : wf_mask k -> wf_mask (moved_mask f k) -> wf_topology t -> stays f t ->
  clip_topology m t k = Ok t' -> exists s, clip_topology Release (moved_topology f t) (moved_mask f k) = Ok s.
Proof.
  intros Hk Hk' Hw Hs E.
  pose proof (clip_topology_traced m t t' k E) as (C & _ & HC & _).
  pose proof (clips_moved Release f k t C Hk Hk' Hw Hs (clips_release_of m k t C Hk Hw HC)) as C2.
  pose proof (proj1 (clip_returns_iff m t k C HC) (ex_intro _ t' E)) as [HF HK].
  apply (clip_returns_iff Release _ _ _ C2). cbn [moved_topology tp_regions]. split.
  - rewrite Forall_forall in *. intros rg Hg r Hr. rewrite map_length. split; [|apply trace_release].
    apply (HF rg Hg r). revert Hr. unfold seen_rings. rewrite region_kept_moved. exact (fun h => h).
  - intros key. unfold count_key. rewrite (matches_keys f _ _ (surviving_moved f C (tp_regions t))). apply count_moved; [|exact HK].
    pose proof (surviving_good C (tp_regions t)) as HG. rewrite Forall_forall in *. intros x Hx. apply in_map_iff in Hx as (p & <- & Hp). apply HG, Hp.
Qed.
