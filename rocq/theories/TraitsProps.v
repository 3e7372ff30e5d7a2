(** * TraitsProps: C133, comparisons and hashes *)
From Coq Require Import Sorted.
From Verif Require Import TraitsSpec TraitsProofs GeoProofs NormSpec.
Open Scope Z_scope.

(** ** C133: comparisons obey the laws of their traits *)

(** Points are ordered by x, then by y; [==] and [<] agree with that. *)
Theorem C133_points : ordering_laws point_cmp /\ agrees pt_eqb point_cmp /\ (forall a b, pt_eqb a b = true <-> a = b) /\
  forall a b, point_partial_cmp a b = Some (point_cmp a b) /\ op_lt (point_partial_cmp a b) = pt_ltb a b /\
    (point_cmp a b = Lt <-> px a < px b \/ (px a = px b /\ py a < py b)).
Proof. split; [exact point_laws|]. split; [exact point_agrees|]. split; [apply pt_eqb_eq|]. intros a b. exact (point_ops a b). Qed.
Print Assumptions C133_points.

(** The keys of the hash maps: equal keys, and only they, give a hasher the same values, and what one key
    gives never goes on as another key. *)
Theorem C133_hashes :
  (forall a b, (pts_eqb a b = true <-> path_hash a = path_hash b) /\ (pts_eqb a b = true <-> a = b)) /\
  (forall a b x y, path_hash a ++ x = path_hash b ++ y -> a = b /\ x = y) /\
  (forall a b, (gap_eq a b = true <-> gap_hash a = gap_hash b) /\ (gap_eq a b = true <-> a = b)).
Proof.
  split; [|split; [exact path_prefix_free|]].
  - intros a b. split; [|apply pts_eqb_eq]. rewrite pts_eqb_eq. split; [intros ->; reflexivity|]. intros H.
    destruct (path_prefix_free a b [] []) as (E & _); [rewrite !app_nil_r; exact H|exact E].
  - intros a b. split; [|apply gap_eq_eq]. rewrite gap_eq_eq. symmetry. apply gap_fed.
Qed.
Print Assumptions C133_hashes.

(** Points of the heap: by weight only. *)
Theorem C133_weights : ordering_laws weight_cmp /\ agrees weight_eq weight_cmp /\ equivalence_laws weight_eq /\
  forall a b, weight_partial_cmp a b = Some (weight_cmp a b) /\ (weight_cmp a b = Lt <-> vp_weight a < vp_weight b).
Proof.
  split; [exact weight_laws|]. split; [exact weight_agrees|]. split; [apply (by_image vp_weight); intros a b; apply Z.eqb_eq|].
  intros a b. split; [reflexivity|]. unfold weight_cmp, Z.lt. tauto.
Qed.
Print Assumptions C133_weights.

(** Edges that are being normalized: by their points only, and a copy is the same edge. *)
Theorem C133_edges : equivalence_laws norm_edge_eq /\ equivalence_laws norm_ring_eq /\
  (forall a b, norm_edge_eq a b = true <-> ne_points a = ne_points b) /\
  (forall a b, norm_ring_eq a b = true <-> map ne_points a = map ne_points b) /\ (forall e, norm_edge_clone e = e).
Proof.
  split; [apply (by_image ne_points), norm_edge_eq_eq|]. split; [apply (by_image (map ne_points)), norm_ring_eq_eq|].
  split; [exact norm_edge_eq_eq|]. split; [exact norm_ring_eq_eq|]. intros []. reflexivity.
Qed.
Print Assumptions C133_edges.

(** Rings that are being normalized: [cmp] obeys the laws of an ordering where it answers, and it answers
    exactly for rings that have a first point.  Equal rings compare as equal. *)
Theorem C133_rings_partial : forall a b,
  ((exists c, norm_ring_cmp a b = Ok c) <-> (exists p q, ring_start (map ne_points a) = Some p /\ ring_start (map ne_points b) = Some q)) /\
  (forall c, norm_ring_cmp a b = Ok c -> norm_ring_cmp b a = Ok (CompOpp c) /\ (norm_ring_eq a b = true -> c = Eq)) /\
  (forall d c, norm_ring_cmp a b = Ok Lt -> norm_ring_cmp b d = Ok c -> c = Lt \/ c = Eq -> norm_ring_cmp a d = Ok Lt).
Proof.
  destruct point_laws as (Rf & Sw & Tr & Co). intros a b. split; [|split].
  - rewrite cmp_start. destruct (ring_start (map ne_points a)), (ring_start (map ne_points b)); split; intros H; eauto; try (destruct H as (? & H); discriminate); destruct H as (? & ? & ? & ?); discriminate.
  - intros c H. rewrite cmp_start in H. rewrite cmp_start. destruct (ring_start (map ne_points a)) as [p|] eqn:Ea; [|discriminate].
    destruct (ring_start (map ne_points b)) as [q|] eqn:Eb; [|discriminate]. injection H as <-. split; [rewrite Sw; reflexivity|].
    intros E. apply norm_ring_eq_eq in E. rewrite E, Eb in Ea. injection Ea as ->. apply Rf.
  - intros d c. rewrite !cmp_start. destruct (ring_start (map ne_points a)) as [p|]; [|discriminate].
    destruct (ring_start (map ne_points b)) as [q|]; [|discriminate]. destruct (ring_start (map ne_points d)) as [r|]; [|discriminate].
    intros [= H1] [= H2] [-> | ->]; f_equal; [eapply Tr; eassumption|].
    assert (H3 : point_cmp r q = Eq) by (rewrite Sw, H2; reflexivity). pose proof (Co r q p H3) as H4. rewrite (Sw p r), (Sw p q), H1 in H4.
    destruct (point_cmp p r); cbn in H4; congruence.
Qed.
Print Assumptions C133_rings_partial.

(** The law that [cmp] is [Equal] for equal rings only fails: two rings that start at the same point. *)
Definition rings_agree : Prop := forall a b c, norm_ring_cmp a b = Ok c -> (norm_ring_eq a b = true <-> c = Eq).
Definition upper : norm_ring := [NE [Pt 0 0; Pt 10 0; Pt 10 10; Pt 0 0] (Some 0%nat) None].
Definition lower : norm_ring := [NE [Pt 0 0; Pt 10 20; Pt 0 20; Pt 0 0] (Some 0%nat) None].
Theorem C133_rings_refuted : ~ rings_agree.
Proof. intros H. pose proof (proj2 (H upper lower Eq eq_refl) eq_refl) as E. discriminate. Qed.
Print Assumptions C133_rings_refuted.

(** So sorting leaves something open, and leaves it as it was: rings of a region that start at the same point stay
    in their order, if no edge has the region on both sides. *)
Theorem C133_stable : forall D m (t : topology D) rs o nrs out p, mmap (normalize_ring m t o) rs = Ok nrs ->
  (forall r e, In r nrs -> In e r -> ne_reg0 e <> ne_reg1 e) -> normalize_region_rings m t rs o = Ok out ->
  filter (starts_at p) out = filter (starts_at p) (map into_ring nrs).
Proof.
  intros D m t rs o nrs out p N L. apply (normalize_stable m t rs o nrs out p N). apply Forall_forall. intros r Hr. apply Forall_forall. intros e He. exact (L r e Hr He).
Qed.
Print Assumptions C133_stable.

(** Points of a .shp file: [==] agrees with [partial_cmp], which answers the same both ways; a point
    equals itself exactly when both coordinates are numbers. *)
Theorem C133_shp_points : forall a b,
  (shp_point_eq a b = true <-> shp_point_cmp a b = Some Eq) /\ shp_point_cmp b a = option_map CompOpp (shp_point_cmp a b) /\
  (shp_point_eq a a = true <-> is_number (sp_x a) /\ is_number (sp_y a)).
Proof. intros a b. split; [apply shp_eq_cmp|]. split; [apply shp_cmp_swap|apply shp_refl]. Qed.
Print Assumptions C133_shp_points.

(** Two triangles that start at the same point; in the other order, the normalized region has them in the other
    order.  Zero has two signs; NaN is no number. *)
Definition two (r1 r2 : norm_ring) : list (region Z) := [Region 1 [into_ring r1; into_ring r2] []].
Definition normal_starts (rs : list (region Z)) : list (list (option (list point))) :=
  match (t <- build_topology Debug rs ;; normalize Debug t) with Ok n => flat_map s_outer (read_topology n) | Panic _ => [] end.
Example C133_case :
  norm_ring_cmp upper lower = Ok Eq /\ norm_ring_eq upper lower = false /\ norm_ring_cmp [] upper = Panic PIndex /\
  normal_starts (two upper lower) = [map (fun e => Some (ne_points e)) upper; map (fun e => Some (ne_points e)) lower] /\
  normal_starts (two lower upper) = [map (fun e => Some (ne_points e)) lower; map (fun e => Some (ne_points e)) upper] /\
  path_hash [Pt 1 2] = [FedLen 1; FedU32 1; FedU32 2] /\
  shp_point_eq (SP 0 0) (SP (2 ^ 63) 0) = true /\ shp_point_eq (SP (2047 * 2 ^ 52 + 1) 0) (SP (2047 * 2 ^ 52 + 1) 0) = false.
Proof. repeat split; vm_compute; reflexivity. Qed.
