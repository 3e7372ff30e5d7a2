(** * CutProofs: cutting a map in two *)
From Verif Require Import GeoProofs TopoProofs BuildProofs ClipEdgeProofs ClipTopoProofs ClipTopoLaws ComposeProofs NormProofs NormTopo NormLaws PlaceSpec PlaceProofs PlaceClip PlaceLaws ClipAreaSpec ClipArea CutSpec.
Open Scope Z_scope.

(** ** Both sides of the line *)

Lemma crossing_other k p q : crossing (other_side k) p q = crossing k p q.
Proof. destruct k; reflexivity. Qed.
Lemma on_line_other k p : on_line (other_side k) p <-> on_line k p.
Proof. destruct k; reflexivity. Qed.
Lemma inside_other k p : inside (other_side k) p <-> outside k p.
Proof. destruct k; reflexivity. Qed.
Lemma outside_other k p : outside (other_side k) p <-> inside k p.
Proof. destruct k; reflexivity. Qed.
Lemma opposite_other k p q : opposite (other_side k) p q <-> opposite k p q.
Proof. unfold opposite. rewrite !inside_other, !outside_other. tauto. Qed.
Lemma rounded_other k p q x : rounded_crossing (other_side k) p q x <-> rounded_crossing k p q x.
Proof. destruct k; reflexivity. Qed.

Lemma other_other k : other_side (other_side k) = k.
Proof. destruct k; reflexivity. Qed.

Lemma cut_other k ps w : cut k ps w -> cut (other_side k) ps w.
Proof.
  induction 1; constructor; try assumption; rewrite ?opposite_other, ?rounded_other; assumption.
Qed.

Lemma cut_map_other {D} k (t w : topology D) : cut_map k t w -> cut_map (other_side k) t w.
Proof.
  intros (H1 & H2). split; [assumption|]. eapply Forall2_impl'; [|exact H2]. intros e e' (H & G). split; [apply cut_other, H|exact G].
Qed.

(** ** One path *)

Definition crosses (k : clip_mask) (p q : point) : bool :=
  (insideb k p && outsideb k q) || (outsideb k p && insideb k q).
Lemma crosses_spec k p q : reflect (opposite k p q) (crosses k p q).
Proof.
  unfold crosses, opposite. destruct (insideb_spec k p), (outsideb_spec k q), (outsideb_spec k p), (insideb_spec k q); cbn; constructor; tauto.
Qed.

Fixpoint add_points (k : clip_mask) (ps : list point) : list point :=
  match ps with
  | p :: ((q :: _) as t) => if crosses k p q then p :: crossing k p q :: add_points k t else p :: add_points k t
  | _ => ps
  end.

Definition easy (k : clip_mask) (ps : list point) : Prop :=
  forall p q, In (p, q) (combine ps (tl ps)) -> opposite k p q -> rounded_crossing k p q (crossing k p q).

Lemma easy_tl k p ps : easy k (p :: ps) -> easy k ps.
Proof. intros H a b Hin. apply H. destruct ps as [|q t]; [destruct Hin|]. right. exact Hin. Qed.

Lemma add_points_hd k p ps : exists w, add_points k (p :: ps) = p :: w.
Proof. destruct ps as [|q t]; [exists []; reflexivity|]. cbn [add_points]. destruct (crosses k p q); eexists; reflexivity. Qed.

Lemma add_points_cut k ps : easy k ps -> cut k ps (add_points k ps).
Proof.
  induction ps as [|p ps IH]; intros HE; [constructor|]. destruct ps as [|q t]; [constructor|].
  specialize (IH (easy_tl _ _ _ HE)). destruct (add_points_hd k q t) as (w & Ew).
  change (add_points k (p :: q :: t)) with (if crosses k p q then p :: crossing k p q :: add_points k (q :: t) else p :: add_points k (q :: t)).
  rewrite Ew in *. destruct (crosses_spec k p q) as [Ho|Ho]; [|constructor; assumption].
  constructor; try assumption. apply HE; [left; reflexivity|exact Ho].
Qed.

(** A cut path with known crossings. *)
Definition knows (k : clip_mask) (X : point -> point -> point) (ps : list point) : Prop :=
  forall p q, In (p, q) (combine ps (tl ps)) -> opposite k p q -> X p q = crossing k p q.

Lemma knows_tl k X p ps : knows k X (p :: ps) -> knows k X ps.
Proof. intros H a b Hin. apply H. destruct ps as [|q t]; [destruct Hin|]. right. exact Hin. Qed.

Lemma kept_parts_cons2 k X p q t : kept_parts k X (p :: q :: t) = kept_part k (X p q) p q ++ kept_parts k X (q :: t).
Proof. reflexivity. Qed.

Lemma in_out k p : insideb k p = true -> outsideb k p = false.
Proof. rewrite insideb_depth, outsideb_depth. intros H. apply Z.ltb_lt in H. apply Z.ltb_ge. lia. Qed.
Lemma line_in k x : on_line k x -> insideb k x = false.
Proof. intros H. rewrite insideb_depth, (depth_line k x H). reflexivity. Qed.
Lemma line_out k x : on_line k x -> outsideb k x = false.
Proof. intros H. rewrite outsideb_depth, (depth_line k x H). reflexivity. Qed.

Lemma kept_part_plain k x y p q : ~ opposite k p q -> kept_part k x p q = kept_part k y p q.
Proof.
  intros H.
  assert (C : crosses k p q = false) by (destruct (crosses_spec k p q); [contradiction|reflexivity]).
  unfold crosses in C. unfold kept_part. destruct (insideb k p) eqn:Ip.
  - destruct (outsideb k q); [discriminate|reflexivity].
  - destruct (insideb k q); [|reflexivity]. destruct (outsideb k p); [discriminate|reflexivity].
Qed.

Definition ends_list (parts : list (point * point * bool)) : list (list point) := map ends_of parts.

Lemma part_points_ends parts parts' : ends_list parts = ends_list parts' -> part_points parts = part_points parts'.
Proof.
  revert parts'. induction parts as [|[[a b] v] l IH]; intros [|[[a' b'] v'] l'] H; try discriminate; [reflexivity|].
  cbn in H. injection H as -> -> H. cbn. f_equal. f_equal. apply IH. exact H.
Qed.

(** Points on the line do not change what is kept. *)
Lemma cut_parts k X Y ps : easy k ps -> knows k X ps -> ends_list (kept_parts k X ps) = ends_list (kept_parts k Y (add_points k ps)).
Proof.
  unfold ends_list. induction ps as [|p ps IH]; intros HE HK; [reflexivity|]. destruct ps as [|q t]; [reflexivity|].
  specialize (IH (easy_tl _ _ _ HE) (knows_tl _ _ _ _ HK)). rewrite kept_parts_cons2, map_app, IH.
  change (add_points k (p :: q :: t)) with (if crosses k p q then p :: crossing k p q :: add_points k (q :: t) else p :: add_points k (q :: t)).
  destruct (add_points_hd k q t) as (w & Ew). rewrite Ew. destruct (crosses_spec k p q) as [Ho|Ho].
  - rewrite !kept_parts_cons2, !map_app, app_assoc. f_equal.
    rewrite (HK p q (or_introl eq_refl) Ho). destruct (HE p q (or_introl eq_refl) Ho) as (HL & _). set (x := crossing k p q) in *.
    unfold kept_part. rewrite (line_in k x HL), (line_out k x HL).
    destruct Ho as [(H1 & H2)|(H1 & H2)].
    + destruct (insideb_spec k p); [|contradiction]. destruct (outsideb_spec k q); [|contradiction].
      destruct (insideb_spec k q); [|reflexivity]. exfalso. destruct k; cbn in *; lia.
    + destruct (insideb_spec k p); [exfalso; destruct k; cbn in *; lia|]. destruct (insideb_spec k q); [|contradiction].
      destruct (outsideb_spec k p); [|contradiction]. reflexivity.
  - rewrite kept_parts_cons2, map_app. f_equal. rewrite (kept_part_plain k (X p q) (Y p q) p q Ho). reflexivity.
Qed.

Lemma cut_dedup k X Y ps : easy k ps -> knows k X ps -> dedup (clip_path k X ps) = dedup (clip_path k Y (add_points k ps)).
Proof. intros HE HK. rewrite !clip_path_dedup. f_equal. apply part_points_ends, cut_parts; assumption. Qed.

(** No segment of a cut path crosses the line. *)
Lemma cut_plain_steps k ps w : cut k ps w -> forall p q, In [p; q] (segments w) -> ~ opposite k p q.
Proof.
  induction 1 as [|p|p q ps w Hn H IH|p q x ps w Ho Hx H IH]; intros a b Hin.
  - destruct Hin.
  - destruct Hin.
  - cbn [segments] in Hin. destruct Hin as [E|Hin]; [injection E as <- <-; assumption|]. apply IH, Hin.
  - destruct Hx as (HL & _). cbn [segments] in Hin. destruct Hin as [E|[E|Hin]]; [injection E as <- <-|injection E as <- <-|apply IH, Hin].
    + unfold opposite. intros [(_ & G)|(_ & G)]; destruct (mask_test_spec k x) as [J|[J|J]]; tauto.
    + unfold opposite. intros [(G & _)|(G & _)]; destruct (mask_test_spec k x) as [J|[J|J]]; tauto.
Qed.

Lemma cut_first k ps w : cut k ps w -> first w = first ps.
Proof. induction 1; reflexivity. Qed.

Lemma cut_final k ps w : cut k ps w -> final w = final ps.
Proof.
  induction 1 as [|p|p q ps w Hn H IH|p q x ps w Ho Hx H IH]; [reflexivity|reflexivity| |]; rewrite ?final_cons2; exact IH.
Qed.

Lemma cut_small k ps w : cut k ps w -> (forall p q, In [p; q] (segments ps) -> small_step p q) ->
  forall p q, In [p; q] (segments w) -> small_step p q.
Proof.
  induction 1 as [|p|p q ps w Hn H IH|p q x ps w Ho Hx H IH]; intros HS a b Hin.
  - destruct Hin.
  - destruct Hin.
  - cbn [segments] in Hin. destruct Hin as [E|Hin]; [apply HS; left; exact E|]. apply IH; [|exact Hin]. intros c d Hcd. apply HS. right. exact Hcd.
  - assert (S : small_step p q) by (apply HS; left; reflexivity). destruct Hx as (HL & HB & _). apply opposite_between in Ho.
    unfold small_step in *. unfold on_line in HL.
    assert (G : Z.abs (axis k q - axis k p) * Z.abs (along k q - along k p) < 2 ^ 63) by (destruct k; cbn [axis along] in *; lia).
    cbn [segments] in Hin. destruct Hin as [E|[E|Hin]]; [injection E as <- <-|injection E as <- <-|].
    + assert (Z.abs (axis k x - axis k p) * Z.abs (along k x - along k p) < 2 ^ 63); [|destruct k; cbn [axis along] in *; lia].
      assert (Z.abs (axis k x - axis k p) <= Z.abs (axis k q - axis k p)) by lia.
      assert (Z.abs (along k x - along k p) <= Z.abs (along k q - along k p)) by lia. nia.
    + assert (Z.abs (axis k q - axis k x) * Z.abs (along k q - along k x) < 2 ^ 63); [|destruct k; cbn [axis along] in *; lia].
      assert (Z.abs (axis k q - axis k x) <= Z.abs (axis k q - axis k p)) by lia.
      assert (Z.abs (along k q - along k x) <= Z.abs (along k q - along k p)) by lia. nia.
    + apply IH; [|exact Hin]. intros c d Hcd. apply HS. right. exact Hcd.
Qed.

Lemma cut_wf k ps w : wf_mask k -> cut k ps w -> wf_points ps -> wf_points w.
Proof.
  intros Hk. unfold wf_points. induction 1 as [|p|p q ps w Hn H IH|p q x ps w Ho Hx H IH]; intros HW; [assumption|assumption| |].
  - inversion HW; subst. constructor; [assumption|]. apply IH. assumption.
  - inversion HW as [|? ? Hp HW']; subst. constructor; [assumption|]. constructor; [|apply IH; assumption].
    inversion HW' as [|? ? Hq _]; subst. destruct Hx as (HL & HB & _). unfold on_line, wf_mask, wf_point, is_u32 in *.
    destruct k; cbn [axis along level] in *; lia.
Qed.

Lemma small_easy k ps : wf_mask k -> wf_points ps -> (forall p q, In [p; q] (segments ps) -> small_step p q) ->
  easy k ps /\ (forall m, knows k (isect m k) ps) /\ (forall m, exists c, clip_edge m k ps = Ok c).
Proof.
  intros Hk HW HS.
  assert (A : forall m p q, In (p, q) (combine ps (tl ps)) -> opposite k p q ->
    mask_intersect m k p q = Ok (crossing k p q) /\ rounded_crossing k p q (crossing k p q)).
  { intros m p q Hin Ho. apply segments_combine in Hin. pose proof (HS p q Hin) as Hf. unfold small_step in Hf.
    assert (P : In p ps /\ In q ps).
    { destruct (segment_ends [ps] p q) as (e' & [<-|[]] & H); [cbn [flat_map]; rewrite app_nil_r; assumption|exact H]. }
    unfold wf_points in HW. rewrite Forall_forall in HW.
    apply mask_intersect_ok; try assumption; [apply HW, P|apply HW, P|].
    pose proof (opposite_between k p q Ho) as Hb.
    assert (Z.abs (axis k q - axis k p) * Z.abs (along k q - along k p) < 2 ^ 63) by (destruct k; cbn [axis along]; lia).
    assert (Z.abs (level k - axis k p) <= Z.abs (axis k q - axis k p)) by lia. nia. }
  split; [intros p q Hin Ho; apply (A Debug p q Hin Ho)|]. split.
  - intros m p q Hin Ho. unfold isect. rewrite (proj1 (A m p q Hin Ho)). reflexivity.
  - intros m. eexists. apply (clip_edge_returns m k (crossing k)). intros p q Hin Ho. apply (A m p q Hin Ho).
Qed.
