(** * PlaceLaws: the places covered by regions, before and after each operation *)
From Verif Require Import GeoProofs TopoProofs BuildProofs ClipEdgeProofs ClipTopoProofs ClipTopoLaws NormProofs NormRing NormJoin NormTopo NormReturn NormLaws ComposeProofs ComposeLaws PlaceSpec PlaceProofs PlaceNorm PlaceClip.

Lemma present_app a b : present (a ++ b) = present a ++ present b.
Proof. apply flat_map_app. Qed.

Lemma present_some l : present (map Some l) = l.
Proof. unfold present. induction l as [|x l IH]; [reflexivity|]. cbn. rewrite IH. reflexivity. Qed.

Lemma winding_app z a b : winding_number z (a ++ b) = winding_number z a + winding_number z b.
Proof. unfold winding_number. rewrite !winds_tally. apply tally_app. Qed.

Lemma winding_concat z rs : winding_number z (concat rs) = sum (map (winding_number z) rs).
Proof. induction rs as [|r rs IH]; [reflexivity|]. cbn [concat]. rewrite winding_app, IH. reflexivity. Qed.

(** ** Building *)

Lemma short_winding z ps : has_length ps = false -> winding_number z [ps] = 0.
Proof.
  unfold has_length. destruct ps as [|a [|b [|c ps]]]; [reflexivity|reflexivity| |discriminate].
  intros H. apply negb_false_iff, pt_eqb_eq in H. subst b. unfold winding_number. rewrite winds_tally, tally_one.
  change (segments [a; a]) with [[a; a]]. cbn [map]. rewrite crossing_self. reflexivity.
Qed.

Lemma expected_ring_winding z r : winding_number z (present (expected_ring r)) = winding_number z (paths r).
Proof.
  unfold expected_ring. rewrite present_some. induction (paths r) as [|p l IH]; [reflexivity|]. cbn [filter].
  change (p :: l) with ([p] ++ l). rewrite winding_app. destruct (has_length p) eqn:E.
  - change (p :: filter has_length l) with ([p] ++ filter has_length l). rewrite winding_app, IH. reflexivity.
  - rewrite (short_winding z p E), IH. reflexivity.
Qed.

Lemma input_cons r rs : input_paths (r :: rs) = paths r ++ input_paths rs.
Proof. reflexivity. Qed.

Lemma expected_rings_winding z rs :
  winding_number z (present (concat (map expected_ring (filter has_area rs)))) +
  winding_number z (input_paths (filter (fun r => negb (has_area r)) rs)) = winding_number z (input_paths rs).
Proof.
  induction rs as [|r rs IH]; [reflexivity|]. cbn [filter]. rewrite input_cons, winding_app.
  destruct (has_area r); cbn [negb].
  - cbn [map concat]. rewrite present_app, winding_app, expected_ring_winding. lia.
  - rewrite input_cons, winding_app. lia.
Qed.

Lemma build_winding {D} m (rs : list (region D)) t : build_topology m rs = Ok t ->
  exists parts, read_topology t = concat parts /\
    Forall2 (fun rg part => (length part <= 1)%nat /\ (forall s, In s part -> s_data s = rg_data rg) /\
       exists lost_o lost_i, incl lost_o (rg_outer rg) /\ incl lost_i (rg_inner rg) /\
         Forall (fun r => has_area r = false) lost_o /\ (part <> [] -> Forall (fun r => has_area r = false) lost_i) /\
         forall z,
         winding_number z (present (concat (flat_map s_outer part))) + winding_number z (input_paths lost_o) = winding_number z (input_paths (rg_outer rg)) /\
         winding_number z (present (concat (flat_map s_inner part))) + winding_number z (input_paths lost_i) = winding_number z (input_paths (rg_inner rg))) rs parts.
Proof.
  intros H. apply build_read in H. rewrite H. exists (map expected_region rs).
  split; [unfold expected; apply flat_map_concat_map|]. clear H. induction rs as [|rg rs IH]; constructor; [|exact IH].
  assert (I : forall l, incl (filter (fun r => negb (has_area r)) l) l) by (intros l x Hx; apply filter_In in Hx; tauto).
  assert (A : forall l, Forall (fun r => has_area r = false) (filter (fun r => negb (has_area r)) l)).
  { intros l. apply Forall_forall. intros x Hx. apply filter_In in Hx as (_ & Hx). destruct (has_area x); [discriminate|reflexivity]. }
  unfold expected_region. destruct (filter has_area (rg_outer rg)) as [|o os] eqn:Eo.
  - split; [cbn; lia|]. split; [intros s []|]. exists (filter (fun r => negb (has_area r)) (rg_outer rg)), (rg_inner rg).
    split; [apply I|]. split; [apply incl_refl|]. split; [apply A|]. split; [congruence|]. intros z. split; [|cbn; lia].
    rewrite <- (expected_rings_winding z (rg_outer rg)), Eo. reflexivity.
  - split; [cbn; lia|]. split; [intros s [<-|[]]; reflexivity|].
    exists (filter (fun r => negb (has_area r)) (rg_outer rg)), (filter (fun r => negb (has_area r)) (rg_inner rg)).
    split; [apply I|]. split; [apply I|]. split; [apply A|]. split; [intros _; apply A|]. intros z.
    cbn [flat_map s_outer s_inner]. rewrite !app_nil_r, <- Eo. split; apply expected_rings_winding.
Qed.

(** ** Normalization *)

Lemma sized_total outs : Forall good outs -> exists lost, Forall flat lost /\ (sized outs = outs -> lost = []) /\ forall z,
  winding_number z (map ne_points (concat outs)) = winding_number z (present (concat (map as_read (sized outs)))) + winding_number z (concat lost).
Proof.
  intros G. exists (map (map ne_points) (filter (fun r => shoelaces (map ne_points r) mod 2 ^ 64 =? 0) outs)).
  split; [|split].
  - apply Forall_forall. intros l Hl. apply in_map_iff in Hl as (r & <- & Hr). apply filter_In in Hr as (Hr & Ha).
    rewrite Forall_forall in G. split; [apply G, Hr|]. apply Z.eqb_eq, Ha.
  - intros E. assert (N : filter (fun r => shoelaces (map ne_points r) mod 2 ^ 64 =? 0) outs = []); [|rewrite N; reflexivity].
    clear G. destruct (filter _ outs) as [|x l] eqn:F; [reflexivity|exfalso].
    assert (Hx : In x (x :: l)) by (left; reflexivity). rewrite <- F in Hx. apply filter_In in Hx as (Hx & Ha).
    rewrite <- E in Hx. unfold sized in Hx. apply filter_In in Hx as (_ & Hx). rewrite Ha in Hx. discriminate.
  - clear G. intros z. unfold sized. induction outs as [|r outs IH]; [reflexivity|]. cbn [concat filter]. rewrite map_app, winding_app, IH.
    destruct (shoelaces (map ne_points r) mod 2 ^ 64 =? 0); cbn [negb map concat].
    + rewrite winding_app. lia.
    + unfold as_read at 2. rewrite present_app, present_some, winding_app. lia.
Qed.

Lemma covered_app z a b : covered_by (a ++ b) z = xorb (covered_by a z) (covered_by b z).
Proof. unfold covered_by. rewrite winding_app. apply Z.odd_add. Qed.

Lemma region_paths_edges {D} (t : topology D) rg : region_paths t rg = map ne_points (side_edges t (tg_outer rg ++ tg_inner rg)).
Proof.
  unfold region_paths, side_edges. induction (tg_outer rg ++ tg_inner rg) as [|r rs IH]; [reflexivity|].
  cbn [flat_map]. rewrite map_app, IH. reflexivity.
Qed.

Lemma region_covered {D} (t : topology D) rg outs ins z : valid t -> In rg (tp_regions t) ->
  side_fact t Clockwise (tg_outer rg) outs -> side_fact t CounterClockwise (tg_inner rg) ins ->
  covered_by (region_paths t rg) z = xorb (covered_by (map ne_points (concat outs)) z) (covered_by (map ne_points (concat ins)) z).
Proof.
  intros V Hg So Si. apply In_nth_error in Hg as (ri & Hr).
  rewrite <- covered_app, region_paths_edges, <- map_app. unfold covered_by, winding_number. rewrite !winds_tally. symmetry.
  eapply region_odd; try eassumption. apply crossing_odd.
Qed.

Lemma normalize_covered {D} m (t t' : topology D) : valid t -> normalize m t = Ok t' ->
  by_region t t' (fun rg part => 
    (part <> [] -> exists lost, Forall flat lost /\ (nothing_redundant t rg -> lost = []) /\ forall z,
       covered_by (region_paths t rg) z = xorb (covered_by (present (flat_map shape_paths part)) z) (covered_by (concat lost) z))
    /\ (nothing_redundant t rg -> tg_outer rg <> [] -> part <> [])).
Proof.
  intros V H. eapply by_region_impl; [|exact (normalize_by_region m t t' V H)].
  intros rg part Hg (outs & ins & So & Si & ->).
  assert (NR : nothing_redundant t rg -> sized outs = outs /\ sized ins = ins /\ (tg_outer rg <> [] -> outs <> [])).
  { intros N.
    destruct (plain_sized t Clockwise (tg_outer rg) outs) as (no & F1 & P1 & E1); [intros r e Hr; apply N; apply in_app_iff; auto|assumption|].
    destruct (plain_sized t CounterClockwise (tg_inner rg) ins) as (ni & F2 & P2 & E2); [intros r e Hr; apply N; apply in_app_iff; auto|assumption|].
    split; [assumption|]. split; [assumption|]. intros Ne ->. apply Permutation_nil in P1. subst. inversion F1. congruence. }
  split.
  - intros Hp. unfold read_back in *. destruct (sized outs) as [|x l] eqn:Es; [congruence|]. rewrite <- Es in *. clear Hp.
    destruct (sized_total outs) as (lo & Fo & No & Wo); [eapply side_lengthy; eassumption|].
    destruct (sized_total ins) as (li & Fi & Ni & Wi); [eapply side_lengthy; eassumption|].
    exists (lo ++ li). split; [apply Forall_app; auto|]. split.
    + intros N. destruct (NR N) as (E1 & E2 & _). rewrite No, Ni by assumption. reflexivity.
    + intros z. rewrite (region_covered t rg outs ins z V Hg So Si). unfold covered_by. rewrite Wo, Wi, concat_app, winding_app, !Z.odd_add.
      cbn [flat_map shape_paths s_outer s_inner]. rewrite app_nil_r. unfold shape_paths. cbn [s_outer s_inner]. rewrite present_app, winding_app, Z.odd_add.
      rewrite !xorb_assoc. f_equal. rewrite <- !xorb_assoc. f_equal. apply xorb_comm.
  - intros N Ne. destruct (NR N) as (-> & _ & E). specialize (E Ne). destruct outs; [congruence|discriminate].
Qed.

(** ** Clipping *)

Lemma segments_combine (ps : list point) p q : In (p, q) (combine ps (tl ps)) <-> In [p; q] (segments ps).
Proof.
  induction ps as [|a ps IH]; [reflexivity|]. destruct ps as [|b t]; [reflexivity|].
  change (segments (a :: b :: t)) with ([a; b] :: segments (b :: t)). cbn [tl combine]. split; intros [H|H].
  - left. congruence.
  - right. apply IH, H.
  - left. congruence.
  - right. apply IH, H.
Qed.

Lemma isect_near m k p q : wf_mask k -> wf_point p -> wf_point q -> small_step p q -> opposite k p q -> near k p q (isect m k p q).
Proof.
  intros Hk Hp Hq Hf Ho. apply rounded_near. unfold small_step in Hf.
  assert (Hf' : Z.abs (level k - axis k p) * Z.abs (along k q - along k p) < 2 ^ 63).
  { pose proof (opposite_between k p q Ho) as Hb.
    assert (Z.abs (axis k q - axis k p) * Z.abs (along k q - along k p) < 2 ^ 63) by (destruct k; cbn [axis along]; lia).
    assert (Z.abs (level k - axis k p) <= Z.abs (axis k q - axis k p)) by lia. nia. }
  destruct (mask_intersect_ok m k p q Hk Hp Hq Ho Hf') as [H1 H2]. unfold isect. rewrite H1. exact H2.
Qed.

Lemma good_fine {D} m k (t : topology D) z : wf_mask k -> wf_topology t -> good_place k t z ->
  forall e, In e (tp_edges t) -> fine_path k z (isect m k) (te_points e).
Proof.
  intros Hk Ht HG e He p q Hin. apply segments_combine in Hin. destruct (HG e p q He Hin) as (H1 & H2 & H3).
  split; [|split; assumption]. intros Ho. 
  unfold wf_topology in Ht. rewrite Forall_forall in Ht. specialize (Ht e He). unfold wf_points in Ht. rewrite Forall_forall in Ht.
  assert (P : In p (te_points e) /\ In q (te_points e)).
  { destruct (segment_ends [te_points e] p q) as (e' & [<-|[]] & H); [cbn [flat_map]; rewrite app_nil_r; assumption|exact H]. }
  apply isect_near; try assumption; apply Ht, P.
Qed.

Lemma seen_off {D} k (t : topology D) z r : good_place k t z -> off z (map ne_points (seen_ring t r)).
Proof.
  intros HG p q Hin. apply in_flat_map in Hin as (ps & Hps & Hin). apply in_map_iff in Hps as (e & <- & He).
  apply in_flat_map in He as (d & _ & He). unfold seen in He. destruct (nth_error (tp_edges t) (de_edge d)) as [te|] eqn:E; [|destruct He].
  destruct He as [<-|[]]. cbn [ne_points] in Hin. apply nth_error_In in E. unfold oriented in Hin.
  destruct (de_dir d); [apply (HG te p q E Hin)|].
  assert (O : off z [rev (te_points te)]).
  { apply off_rev. intros a b Hab. cbn [flat_map] in Hab. rewrite app_nil_r in Hab. apply (HG te a b E Hab). }
  apply O. cbn [flat_map]. rewrite app_nil_r. assumption.
Qed.

Lemma clipped_side {D} m k (t : topology D) C z rs : wf_mask k -> wf_topology t -> clips m k t C -> inside_place k z -> good_place k t z ->
  (forall r, In r rs -> closed_chain (map ne_points (seen_ring t r))) ->
  exists lost, Forall flat lost /\
    winding_number z (rings_paths t rs) =
    winding_number z (present (concat (map read_pieces (clipped_rings C rs)))) + winding_number z (concat lost).
Proof.
  intros Hk Ht HC Hz HG HR. induction rs as [|r rs IH]; [exists []; split; [constructor|reflexivity]|].
  destruct IH as (lost & F & E); [intros x Hx; apply HR; right; exact Hx|].
  assert (HW : winding_number z (map pc_path (clipped_ring C r)) = winding_number z (map ne_points (seen_ring t r))).
  { eapply clipped_ring_winding; [exact Hz|exact HC| | |].
    - apply good_fine; assumption.
    - eapply seen_off. eassumption.
    - apply HR. left. reflexivity. }
  assert (HP : forall ps, present (read_pieces ps) = map pc_path ps).
  { intros ps. unfold read_pieces. rewrite <- (map_map pc_path Some). apply present_some. }
  unfold rings_paths, clipped_rings in *. cbn [flat_map filter]. rewrite winding_app, E.
  destruct (ring_kept C r) eqn:Ek; cbn [map concat].
  - exists lost. split; [assumption|]. rewrite present_app, winding_app, HP, HW. lia.
  - destruct (clipped_ring C r) as [|p ps] eqn:Er.
    + exists lost. split; [assumption|]. rewrite <- HW. cbn. lia.
    + rewrite <- Er in *. exists (map pc_path (clipped_ring C r) :: lost). split.
      * constructor; [|assumption]. split; [apply clipped_ring_closed; rewrite Er; discriminate|].
        unfold ring_kept in Ek. apply negb_false_iff, Z.eqb_eq in Ek. exact Ek.
      * cbn [concat]. rewrite winding_app, HW. lia.
Qed.

Lemma clip_winding {D} m k (t t' : topology D) z : wf_mask k -> wf_topology t -> closed_rings t ->
  clip_topology m t k = Ok t' -> inside_place k z -> good_place k t z ->
  by_region t t' (fun rg part => exists lost_o lost_i, Forall flat lost_o /\ (part <> [] -> Forall flat lost_i) /\
    winding_number z (rings_paths t (tg_outer rg)) =
      winding_number z (present (concat (flat_map s_outer part))) + winding_number z (concat lost_o) /\
    winding_number z (rings_paths t (tg_inner rg)) =
      winding_number z (present (concat (flat_map s_inner part))) + winding_number z (concat lost_i)).
Proof.
  intros Hk Ht HR H Hz HG. apply clip_topology_ok in H as (C & b & HC & Hb & _ & HRg & HE).
  pose proof (clip_read C b _ t' Hb HRg HE) as ER.
  exists (map (fun rg => if region_kept C rg then [clipped_shape C rg] else []) (tp_regions t)). split.
  - rewrite ER. unfold clipped_topology. clear. induction (tp_regions t) as [|rg rgs IH]; [reflexivity|]. cbn [filter map concat].
    destruct (region_kept C rg); cbn [map app]; rewrite IH; reflexivity.
  - assert (X : forall rgs, incl rgs (tp_regions t) -> Forall2 (fun rg part => (length part <= 1)%nat /\ (forall s, In s part -> s_data s = tg_data rg) /\
      exists lost_o lost_i, Forall flat lost_o /\ (part <> [] -> Forall flat lost_i) /\
      winding_number z (rings_paths t (tg_outer rg)) =
        winding_number z (present (concat (flat_map s_outer part))) + winding_number z (concat lost_o) /\
      winding_number z (rings_paths t (tg_inner rg)) =
        winding_number z (present (concat (flat_map s_inner part))) + winding_number z (concat lost_i)) rgs
      (map (fun rg => if region_kept C rg then [clipped_shape C rg] else []) rgs)); [|apply X, incl_refl].
    intros rgs. induction rgs as [|rg rgs IH]; intros I; constructor; [|apply IH; intros x Hx; apply I; right; exact Hx].
    assert (Hg : In rg (tp_regions t)) by (apply I; left; reflexivity).
    destruct (clipped_side m k t C z (tg_outer rg) Hk Ht HC Hz HG) as (lo & Fo & Eo).
    { intros r Hr. apply (HR rg r Hg). apply in_app_iff. auto. }
    destruct (clipped_side m k t C z (tg_inner rg) Hk Ht HC Hz HG) as (li & Fi & Ei).
    { intros r Hr. apply (HR rg r Hg). apply in_app_iff. auto. }
    destruct (region_kept C rg) eqn:Ek.
    + split; [cbn; lia|]. split; [intros s [<-|[]]; reflexivity|]. exists lo, li. split; [assumption|]. split; [auto|].
      cbn [flat_map clipped_shape s_outer s_inner]. rewrite !app_nil_r. auto.
    + split; [cbn; lia|]. split; [intros s []|]. exists lo, [rings_paths t (tg_inner rg)]. split; [assumption|]. split; [congruence|].
      cbn [flat_map]. rewrite Eo. split; [|cbn [concat]; rewrite app_nil_r; reflexivity].
      assert (N : clipped_rings C (tg_outer rg) = []); [|rewrite N; reflexivity].
      unfold clipped_rings. unfold region_kept in Ek. clear -Ek. induction (tg_outer rg) as [|r rs IH]; [reflexivity|].
      cbn [existsb filter] in *. apply orb_false_iff in Ek as (E1 & E2). rewrite E1. apply IH, E2.
Qed.

(** ** Outside *)

Lemma behind_off d z es : (forall e p, In e es -> In p e -> ahead d z p < 0) -> off z es /\ winds_by d z es = 0.
Proof.
  intros H. split.
  - intros p q Hin. destruct (segment_ends es p q Hin) as (e & He & Hp & Hq). rewrite (on_segment_frame d).
    pose proof (H e p He Hp). pose proof (H e q He Hq). lia.
  - apply behind_zero. intros e p He Hp. specialize (H e p He Hp). lia.
Qed.

Lemma behind_winding d z es : closed_chain es -> (forall e p, In e es -> In p e -> ahead d z p < 0) -> winding_number z es = 0.
Proof.
  intros HC H. destruct (behind_off d z es H) as (O & E). unfold winding_number. rewrite (any_ray East d z es O HC). exact E.
Qed.

Lemma off_line k z p : outside_place k z -> ~ outside k p -> ahead (match away k with East => West | West => East | South => North | North => South end) z p < 0.
Proof. unfold outside_place, outside, away, ahead, east, south. destruct k; intros H1 H2; nia. Qed.

Lemma read_ring_paths {D} (t : topology D) r ps : read_ring (tp_edges t) r = map Some ps ->
  forall e p, In e ps -> In p e -> exists te, In te (tp_edges t) /\ In p (te_points te).
Proof.
  intros E e p He Hp. assert (X : In (Some e) (read_ring (tp_edges t) r)) by (rewrite E; apply in_map, He).
  unfold read_ring in X. apply in_map_iff in X as (d & Hd & _). unfold read_de in Hd.
  destruct (nth_error (tp_edges t) (de_edge d)) as [te|] eqn:En; [|discriminate]. injection Hd as <-.
  exists te. split; [eapply nth_error_In; eassumption|]. unfold oriented in Hp. destruct (de_dir d); [assumption|apply in_rev; assumption].
Qed.

Lemma seen_read {D} (t : topology D) r ps : read_ring (tp_edges t) r = map Some ps -> map ne_points (seen_ring t r) = ps.
Proof.
  unfold read_ring, seen_ring. revert ps. induction (tr_des r) as [|d ds IH]; intros ps E; destruct ps as [|p ps]; try discriminate; [reflexivity|].
  cbn [map flat_map] in *. injection E as E1 E2. rewrite map_app, (IH ps E2). unfold read_de in E1. unfold seen.
  destruct (nth_error (tp_edges t) (de_edge d)) as [te|]; [|discriminate]. injection E1 as <-. reflexivity.
Qed.
