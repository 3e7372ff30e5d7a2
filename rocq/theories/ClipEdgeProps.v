(** * ClipEdgeProps: C16-C22, clipping points, segments and edges *)
From Verif Require Import ClipSpec GeoProofs TopoProofs BuildProofs ClipEdgeProofs.

(** ** C16: classification of points *)
Theorem C16_test_classifies : forall k p,
  (mask_test k p = Inside <-> inside k p) /\
  (mask_test k p = OnEdge <-> on_line k p) /\
  (mask_test k p = Outside <-> outside k p).
Proof. intros k p. split; [apply mask_test_inside|split; [apply mask_test_on|apply mask_test_outside]]. Qed.
Print Assumptions C16_test_classifies.

Example C16_cases :
  inside (MinX 3) (Pt 4 0) /\ on_line (MinX 3) (Pt 3 9) /\ outside (MinX 3) (Pt 2 9) /\
  inside (MaxX 3) (Pt 2 0) /\ outside (MaxX 3) (Pt 4 0) /\
  inside (MinY 3) (Pt 0 4) /\ outside (MinY 3) (Pt 4 2) /\
  inside (MaxY 3) (Pt 9 2) /\ outside (MaxY 3) (Pt 0 4).
Proof. unfold inside, on_line, outside; cbn; lia. Qed.

(** ** C17: intersection points *)
Theorem C17_intersect : forall m k p q,
  wf_mask k -> wf_point p -> wf_point q -> opposite k p q ->
  Z.abs (px q - px p) * Z.abs (py q - py p) < 2 ^ 63 ->
  exists r, mask_intersect m k p q = Ok r /\ wf_point r /\ rounded_crossing k p q r.
Proof.
  intros m k p q Hk Hp Hq Ho Hf.
  assert (Hf' : Z.abs (level k - axis k p) * Z.abs (along k q - along k p) < 2 ^ 63).
  { pose proof (opposite_between k p q Ho) as Hb.
    assert (Z.abs (axis k q - axis k p) * Z.abs (along k q - along k p) < 2 ^ 63) by (destruct k; cbn [axis along]; lia).
    assert (Z.abs (level k - axis k p) <= Z.abs (axis k q - axis k p)) by lia. nia. }
  destruct (mask_intersect_ok m k p q Hk Hp Hq Ho Hf') as [H1 H2]. exists (crossing k p q).
  split; [exact H1|]. split; [eapply mask_intersect_wf; eassumption|exact H2].
Qed.
Print Assumptions C17_intersect.

Example C17_case : opposite (MinX 3) (Pt 10 7) (Pt 0 0) /\
  mask_intersect Debug (MinX 3) (Pt 10 7) (Pt 0 0) = Ok (Pt 3 3) /\
  rounded_crossing (MinX 3) (Pt 10 7) (Pt 0 0) (Pt 3 3) /\
  ~ rounded_crossing (MinX 3) (Pt 10 7) (Pt 0 0) (Pt 3 2).
Proof. unfold opposite, rounded_crossing, inside, outside, on_line. cbn. split; [lia|]. split; [vm_compute; reflexivity|]. lia. Qed.

(** ** C18: not for every u32 segment *)
Theorem C18_intersect_refuted : exists k p q r,
  wf_mask k /\ wf_point p /\ wf_point q /\ opposite k p q /\
  mask_intersect Release k p q = Ok r /\
  Z.abs ((along k r - along k p) * (axis k q - axis k p)
         - (level k - axis k p) * (along k q - along k p)) > 2 ^ 30 * Z.abs (axis k q - axis k p) /\
  mask_intersect Debug k p q = Panic POverflow.
Proof.
  exists (MinX (3 * 2 ^ 30 - 1)), (Pt 0 0), (Pt (3 * 2 ^ 30) (3 * 2 ^ 30)). eexists.
  unfold wf_mask, wf_point, is_u32, opposite, inside, outside. cbn [level px py].
  repeat (split; [lia|]). split; [vm_compute; reflexivity|]. split; [|vm_compute; reflexivity].
  vm_compute. reflexivity.
Qed.
Print Assumptions C18_intersect_refuted.

(** What holds for every u32 segment: release returns a u32 point on the mask line; debug
    returns one or panics by overflow; and the point is right whenever the product of the
    distance to the line and the other extent fits (weaker than C17's hypothesis).
    Missing from C18: larger segments. *)
Theorem C18_intersect_partial : forall m k p q,
  wf_mask k -> wf_point p -> wf_point q -> opposite k p q ->
  ((exists r, mask_intersect m k p q = Ok r /\ wf_point r /\ on_line k r) \/
   (m = Debug /\ mask_intersect m k p q = Panic POverflow)) /\
  (Z.abs (level k - axis k p) * Z.abs (along k q - along k p) < 2 ^ 63 ->
   exists r, mask_intersect m k p q = Ok r /\ rounded_crossing k p q r).
Proof.
  intros m k p q Hk Hp Hq Ho. split.
  - destruct (mask_intersect m k p q) as [r|pn] eqn:E.
    + left. exists r. split; [reflexivity|]. split; [eapply mask_intersect_wf|eapply mask_intersect_on_line]; eassumption.
    + right. apply mask_intersect_panic in E as [-> ->]; auto.
  - intros Hf. exists (crossing k p q). apply mask_intersect_ok; assumption.
Qed.
Print Assumptions C18_intersect_partial.

(** ** C19: points of a clipped edge *)

(** A path that enters, touches and leaves the kept side x > 3. *)
Definition zigzag : list point :=
  [Pt 0 0; Pt 6 2; Pt 3 5; Pt 8 5; Pt 8 9; Pt 0 9; Pt 3 12; Pt 9 12; Pt 1 20].

Theorem C19_points : forall m k ps out, clip_edge m k ps = Ok out ->
  ((2 <= length ps)%nat -> filter (insideb k) out = filter (insideb k) ps) /\
  (forall p, In p out -> inside k p \/ on_line k p) /\
  (forall p, In p out -> ~ outside k p) /\
  (out = [] <-> ((length ps < 2)%nat \/ forall p, In p ps -> ~ inside k p)) /\
  (out = [] \/ (2 <= length out)%nat) /\
  (length out <= 2 * (length ps - 1))%nat.
Proof.
  intros m k ps out H. pose proof (clip_edge_good _ _ _ _ H) as HX. pose proof (clip_edge_path _ _ _ _ H) as ->.
  pose proof (clip_path_points k _ ps HX) as HF. rewrite Forall_forall in HF.
  split; [intros Hl; rewrite <- run_edge_clip_path; apply run_edge_inside; assumption|].
  split; [exact HF|].
  split; [intros p Hp Ho; destruct (HF p Hp); destruct (mask_test_spec k p) as [G|[G|G]]; tauto|].
  split; [|split; [|apply clip_path_length]].
  - destruct ps as [|p0 [|p1 t]].
    + split; [intros _; left; cbn; lia|reflexivity].
    + split; [intros _; left; cbn; lia|reflexivity].
    + destruct (clip_path_empty k (isect m k) (p0 :: p1 :: t)) as [E _]; [cbn; lia|].
      rewrite E. split; [intros; right; assumption|intros [Hl|]; [cbn in Hl; lia|assumption]].
  - destruct ps as [|p0 [|p1 t]]; [left; reflexivity|left; reflexivity|].
    apply (clip_path_empty k (isect m k) (p0 :: p1 :: t)). cbn. lia.
Qed.
Print Assumptions C19_points.

(** The function tests points by [inside]; release always returns, debug fails only by overflow. *)
Theorem C19_insideb : forall k p, insideb k p = true <-> inside k p.
Proof. intros k p. symmetry. apply reflect_iff, insideb_spec. Qed.
Print Assumptions C19_insideb.

Theorem C19_returns : forall m k ps, wf_mask k -> wf_points ps ->
  (exists out, clip_edge m k ps = Ok out) \/ (m = Debug /\ clip_edge m k ps = Panic POverflow).
Proof.
  intros m k ps Hk Hp. destruct (clip_edge m k ps) eqn:E; [left; eauto|right].
  apply clip_edge_panic in E as [-> ->]; auto.
Qed.
Print Assumptions C19_returns.

Example C19_case : clip_edge Debug (MinX 3) zigzag =
  Ok [Pt 3 1; Pt 6 2; Pt 3 5; Pt 8 5; Pt 8 9; Pt 3 9; Pt 3 12; Pt 9 12; Pt 3 18] /\
  wf_mask (MinX 3) /\ wf_points zigzag.
Proof. split; [vm_compute; reflexivity|]. split; [unfold wf_mask, is_u32; cbn; lia|]. repeat constructor; cbn; lia. Qed.

(** ** C20: the output is the segment-by-segment clip *)
Theorem C20_path : forall m k ps out, clip_edge m k ps = Ok out ->
  exists X,
    (forall p q, In (p, q) (combine ps (tl ps)) -> opposite k p q ->
       mask_intersect m k p q = Ok (X p q)) /\
    out = clip_path k X ps /\
    dedup out = dedup (part_points (kept_parts k X ps)) /\
    parts_joined k (kept_parts k X ps).
Proof.
  intros m k ps out H. exists (isect m k). pose proof (clip_edge_good _ _ _ _ H) as HX.
  pose proof (clip_edge_path _ _ _ _ H) as E. split; [exact (proj2 (clip_edge_ok _ _ _ _ H))|].
  split; [exact E|]. split; [rewrite E; apply clip_path_dedup|apply kept_parts_joined, HX].
Qed.
Print Assumptions C20_path.

Example C20_case : exists X, clip_edge Debug (MinX 3) zigzag = Ok (clip_path (MinX 3) X zigzag) /\
  kept_parts (MinX 3) X zigzag =
    [(Pt 3 1, Pt 6 2, false); (Pt 6 2, Pt 3 5, true); (Pt 3 5, Pt 8 5, true); (Pt 8 5, Pt 8 9, true);
     (Pt 8 9, Pt 3 9, true); (Pt 3 12, Pt 9 12, true); (Pt 9 12, Pt 3 18, true)].
Proof. exists (crossing (MinX 3)). split; vm_compute; reflexivity. Qed.

(** ** C21: identity inside, and clipping twice *)
Theorem C21_inside_identity : forall m k ps, (2 <= length ps)%nat -> (forall p, In p ps -> inside k p) ->
  clip_edge m k ps = Ok ps.
Proof.
  intros m k ps Hl HF. apply Forall_forall in HF. rewrite clip_edge_no_outside.
  - rewrite run_edge_all_inside by assumption. reflexivity.
  - eapply Forall_impl; [|exact HF]. intros a Ha. left. exact Ha.
Qed.
Print Assumptions C21_inside_identity.

Theorem C21_twice : forall m k ps out, clip_edge m k ps = Ok out ->
  exists out', clip_edge m k out = Ok out' /\ dedup out' = dedup out /\ subseq out' out /\
    clip_edge m k out' = Ok out'.
Proof. exact clip_edge_again. Qed.
Print Assumptions C21_twice.

(** Clipping twice may really remove a point: the path leaves the kept side and comes back
    through a point of the line. *)
Example C21_case :
  clip_edge Debug (MinX 3) [Pt 5 5; Pt 0 5; Pt 3 5; Pt 5 7] = Ok [Pt 5 5; Pt 3 5; Pt 5 7] /\
  clip_edge Debug (MinX 3) [Pt 5 5; Pt 3 5; Pt 0 8; Pt 0 2; Pt 6 8; Pt 9 9]
    = Ok [Pt 5 5; Pt 3 5; Pt 3 5; Pt 6 8; Pt 9 9] /\
  clip_edge Debug (MinX 3) [Pt 5 5; Pt 3 5; Pt 3 5; Pt 6 8; Pt 9 9] = Ok [Pt 5 5; Pt 3 5; Pt 6 8; Pt 9 9].
Proof. vm_compute. auto. Qed.

(** ** C22: reversal *)
Theorem C22_reverse_refuted : exists k ps out, clip_edge Debug k ps = Ok out /\
  clip_edge Release k ps = Ok out /\
  clip_edge Debug k (rev ps) <> Ok (rev out) /\ clip_edge Release k (rev ps) <> Ok (rev out) /\
  (forall out', clip_edge Debug k (rev ps) = Ok out' -> dedup out' <> rev (dedup out)).
Proof.
  exists (MinX 3), [Pt 0 0; Pt 10 7], [Pt 3 2; Pt 10 7].
  split; [vm_compute; reflexivity|]. split; [vm_compute; reflexivity|].
  split; [vm_compute; discriminate|]. split; [vm_compute; discriminate|].
  intros out' H. vm_compute in H. injection H as <-. vm_compute. discriminate.
Qed.
Print Assumptions C22_reverse_refuted.

(** Even with exact crossings, a point may be listed twice in one direction only. *)
Theorem C22_repetition_refuted : exists k ps out out', clip_edge Debug k ps = Ok out /\
  clip_edge Debug k (rev ps) = Ok out' /\ out' <> rev out /\
  (forall p q, In (p, q) (combine ps (tl ps)) -> opposite k p q ->
     mask_intersect Debug k q p = mask_intersect Debug k p q).
Proof.
  exists (MinX 3), [Pt 5 5; Pt 0 5; Pt 3 5; Pt 5 7]. do 2 eexists.
  split; [vm_compute; reflexivity|]. split; [vm_compute; reflexivity|]. split; [vm_compute; discriminate|].
  intros p q Hin _. cbn in Hin. destruct Hin as [[= <- <-]|[[= <- <-]|[[= <- <-]|[]]]]; vm_compute; reflexivity.
Qed.
Print Assumptions C22_repetition_refuted.

(** Up to repetitions of a point and with crossings computed alike in both directions, clipping
    commutes with reversal. Missing from C22: crossings whose rounding depends on the direction. *)
Theorem C22_reverse_partial : forall m k ps out out',
  clip_edge m k ps = Ok out -> clip_edge m k (rev ps) = Ok out' ->
  (forall p q, In (p, q) (combine ps (tl ps)) -> opposite k p q ->
     mask_intersect m k q p = mask_intersect m k p q) ->
  dedup out' = rev (dedup out).
Proof. exact clip_edge_rev. Qed.
Print Assumptions C22_reverse_partial.

(** In particular for crossings at integer points. *)
Theorem C22_reverse_exact_partial : forall m k ps out,
  wf_mask k -> wf_points ps -> clip_edge m k ps = Ok out ->
  (forall p q, In (p, q) (combine ps (tl ps)) -> opposite k p q ->
     (axis k q - axis k p | (level k - axis k p) * (along k q - along k p)) /\
     Z.abs (px q - px p) * Z.abs (py q - py p) < 2 ^ 63) ->
  exists out', clip_edge m k (rev ps) = Ok out' /\ dedup out' = rev (dedup out).
Proof.
  intros m k ps out Hk Hps H Hd.
  assert (HS : forall p q, In (p, q) (combine ps (tl ps)) -> opposite k p q ->
     exists r, mask_intersect m k p q = Ok r /\ mask_intersect m k q p = Ok r).
  { intros p q Hin Ho. destruct (Hd p q Hin Ho) as [Hdiv Hsize].
    unfold wf_points in Hps. rewrite Forall_forall in Hps.
    pose proof (Hps p (in_combine_l _ _ _ _ Hin)) as Wp.
    pose proof (in_combine_r _ _ _ _ Hin) as Hq.
    assert (Wq : wf_point q) by (apply Hps; destruct ps; [destruct Hq|right; exact Hq]).
    assert (Ho' : opposite k q p) by (unfold opposite in *; tauto).
    destruct (C17_intersect m k p q Hk Wp Wq Ho Hsize) as (r & E1 & _ & R1).
    destruct (C17_intersect m k q p Hk Wq Wp Ho') as (r' & E2 & _ & R2).
    { rewrite <- (Z.abs_opp (px p - px q)), <- (Z.abs_opp (py p - py q)). replace (- (px p - px q)) with (px q - px p) by lia.
      replace (- (py p - py q)) with (py q - py p) by lia. exact Hsize. }
    exists r. split; [exact E1|]. rewrite E2. f_equal.
    destruct R1 as (L1 & B1 & D1 & _). destruct R2 as (L2 & B2 & D2 & _).
    pose proof (opposite_between k p q Ho) as Hb.
    assert (along k r' = along k r).
    { destruct Hdiv as [z Hz].
      assert (along k r - along k p = z) by nia. assert (along k r' - along k p = z) by nia. lia. }
    unfold on_line in *. destruct k, r, r'; cbn in *; subst; reflexivity. }
  exists (run_edge k (isect m k) (rev ps)).
  assert (HR : clip_edge m k (rev ps) = Ok (run_edge k (isect m k) (rev ps))).
  { apply clip_edge_returns. intros p q Hin Ho. rewrite segs_rev, <- in_rev, in_map_iff in Hin.
    destruct Hin as ([a b] & [= <- <-] & Hin). cbn [fst snd] in *.
    assert (Ho' : opposite k a b) by (unfold opposite in *; tauto).
    destruct (HS a b Hin Ho') as (r & _ & E). unfold isect. rewrite E. reflexivity. }
  split; [exact HR|]. eapply clip_edge_rev; [exact H|exact HR|].
  intros p q Hin Ho. destruct (HS p q Hin Ho) as (r & E1 & E2). congruence.
Qed.
Print Assumptions C22_reverse_exact_partial.

Example C22_case : clip_edge Debug (MinX 3) [Pt 0 0; Pt 6 2; Pt 3 5] = Ok [Pt 3 1; Pt 6 2; Pt 3 5] /\
  clip_edge Debug (MinX 3) (rev [Pt 0 0; Pt 6 2; Pt 3 5]) = Ok (rev [Pt 3 1; Pt 6 2; Pt 3 5]) /\
  (6 - 0 | (3 - 0) * (2 - 0)).
Proof. split; [vm_compute; reflexivity|]. split; [vm_compute; reflexivity|]. exists 1. reflexivity. Qed.
