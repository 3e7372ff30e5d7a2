(** * PlacePipe: building, normalizing and clipping one after the other *)
From Verif Require Import GeoProofs TopoProofs BuildProofs ClipEdgeProofs ClipTopoProofs ClipTopoLaws NormProofs NormRing NormJoin NormTopo NormReturn NormLaws NormAdjacent ComposeProofs ComposeLaws PlaceSpec PlaceProofs PlaceNorm PlaceClip PlaceLaws.

(** ** Segments *)

Lemma stored_pair_eq p q a b : stored_form [p; q] = stored_form [a; b] -> (a = p /\ b = q) \/ (a = q /\ b = p).
Proof.
  assert (X : forall u v, stored_form [u; v] = [u; v] \/ stored_form [u; v] = [v; u]).
  { intros u v. unfold stored_form. cbv zeta. destruct (_ || _); [left; reflexivity|]. destruct (_ && _); [left|right]; reflexivity. }
  destruct (X p q) as [->| ->], (X a b) as [->| ->]; intros H; injection H; auto.
Qed.

Definition segment_in (p q : point) (ps : list point) : Prop := In [p; q] (segments ps) \/ In [q; p] (segments ps).

Lemma segment_in_rev p q ps : segment_in p q (rev ps) -> segment_in p q ps.
Proof.
  unfold segment_in. intros H. assert (X : forall a b, In [a; b] (segments (rev ps)) -> In [b; a] (segments ps)).
  { intros a b Hab. rewrite segments_rev in Hab. apply in_map_iff in Hab as (s & E & Hs). apply in_rev in Hs.
    destruct (segments_pairs _ _ Hs) as (u & v & ->). cbn in E. injection E as <- <-. exact Hs. }
  destruct H as [H|H]; apply X in H; auto.
Qed.

Lemma normalize_segments {D} m (t t' : topology D) e p q : valid t -> normalize m t = Ok t' -> In e (tp_edges t') ->
  segment_in p q (te_points e) -> exists e0, In e0 (tp_edges t) /\ segment_in p q (te_points e0).
Proof.
  intros V H He Hs. apply normalize_Ok in H as (gs & E & B).
  destruct (built_edge m gs t' e B He) as (g & r & ps & Hg & Hr & Hp & HL & Ee).
  assert (Hps : segment_in p q ps) by (destruct Ee as [Ee|Ee]; rewrite Ee in Hs; [assumption|apply segment_in_rev; assumption]).
  assert (F : Forall2 (fun rg g => normalize_region m t rg = Ok g /\ In rg (tp_regions t)) (tp_regions t) gs).
  { eapply Forall2_mmap; [eassumption|]. auto. }
  destruct (Forall2_in_r _ _ _ g F Hg) as (rg & Hin & En & _).
  destruct (normalize_region_fact m t rg g V Hin En) as (outs & ins & -> & S1 & S2). cbn [rg_outer rg_inner] in Hr.
  assert (Y : forall o rs outs out a b, incl rs (tg_outer rg ++ tg_inner rg) -> side_fact t o rs outs -> In out outs -> In ps (map ne_points out) ->
    In [a; b] (segments ps) -> exists e0, In e0 (tp_edges t) /\ segment_in a b (te_points e0)).
  { intros o rs os out a b Hi SF Ho Hx Hab. apply in_map_iff in Hx as (x & Ex & Hx).
    destruct (lin_side (stored_form [a; b]) (label x) t o rs os out) as (r1 & f & Hr1 & Hf & _ & Hk & _).
    - intros r1 Hr1. apply (seen_ring_good t rg); auto.
    - assumption.
    - assumption.
    - exists x. split; [assumption|]. split; [reflexivity|]. rewrite Ex. unfold sides. cbn [flat_map]. rewrite app_nil_r. apply in_map, Hab.
    - unfold sides in Hk. cbn [flat_map] in Hk. rewrite app_nil_r in Hk. apply in_map_iff in Hk as (s' & Es & Hs').
      destruct (segments_pairs _ _ Hs') as (u & v & ->).
      assert (Q : segment_in a b (ne_points f)).
      { symmetry in Es. apply stored_pair_eq in Es as [(-> & ->)|(-> & ->)]; [left|right]; assumption. }
      apply seen_edge in Hf as (d & te & _ & Ed & ->). cbn [ne_points] in Q.
      exists te. split; [eapply nth_error_In; eassumption|]. unfold oriented in Q. destruct (de_dir d); [assumption|apply segment_in_rev; assumption]. }
  assert (X : forall o rs outs out, incl rs (tg_outer rg ++ tg_inner rg) -> side_fact t o rs outs -> In out outs -> In ps (map ne_points out) ->
    exists e0, In e0 (tp_edges t) /\ segment_in p q (te_points e0)).
  { intros o rs os out Hi SF Ho Hx. destruct Hps as [Hps|Hps].
    - eapply Y; eassumption.
    - destruct (Y o rs os out q p Hi SF Ho Hx Hps) as (e0 & H0 & Q). exists e0. split; [assumption|]. unfold segment_in in *. tauto. }
  apply in_app_iff in Hr as [Hr|Hr]; apply in_map_iff in Hr as (out & <- & Ho); cbn [paths into_ring] in Hp.
  - apply (X Clockwise (tg_outer rg) outs out); try assumption. intros z Hz. apply in_app_iff. auto.
  - apply (X CounterClockwise (tg_inner rg) ins out); try assumption. intros z Hz. apply in_app_iff. auto.
Qed.

Lemma small_swap p q : small_step p q -> small_step q p.
Proof.
  unfold small_step. rewrite <- (Z.abs_opp (px p - px q)), <- (Z.abs_opp (py p - py q)).
  replace (- (px p - px q)) with (px q - px p) by ring. replace (- (py p - py q)) with (py q - py p) by ring. auto.
Qed.

Lemma input_good {D} m (rs : list (region D)) t t1 k z : valid t -> build_topology m rs = Ok t -> normalize m t = Ok t1 ->
  good_input k rs z -> good_place k t1 z.
Proof.
  intros V B N HG e p q He Hs.
  destruct (normalize_segments m t t1 e p q V N He (or_introl Hs)) as (e0 & H0 & Q).
  destruct (built_edge m rs t e0 B H0) as (g & r & ps & Hg & Hr & Hp & _ & Ee).
  assert (Q' : segment_in p q ps) by (destruct Ee as [Ee|Ee]; rewrite Ee in Q; [assumption|apply segment_in_rev; assumption]).
  destruct Q' as [Q'|Q'].
  - apply (HG g r ps p q); assumption.
  - destruct (HG g r ps q p Hg Hr Hp Q') as (H1 & H2 & H3). split; [apply small_swap, H1|]. split; [apply clear_swap, H2|].
    rewrite on_segment_swap. exact H3.
Qed.

Lemma input_wf {D} m (rs : list (region D)) t t1 : valid t -> build_topology m rs = Ok t -> normalize m t = Ok t1 ->
  wf_input rs -> wf_topology t1.
Proof.
  intros V B N HW. apply Forall_forall. intros e He. apply Forall_forall. intros p Hp.
  destruct (normalize_points m t t1 e p V N He Hp) as (e0 & H0 & Hp0).
  destruct (built_edge m rs t e0 B H0) as (g & r & ps & Hg & Hr & Hps & _ & Ee).
  apply (HW g r ps p Hg Hr Hps). destruct Ee as [Ee|Ee]; rewrite Ee in Hp0; [assumption|apply in_rev; assumption].
Qed.

(** ** Following regions *)

Lemma map_concat_inv {A B} (f : A -> B) (parts : list (list B)) : forall l, map f l = concat parts ->
  exists ls, l = concat ls /\ parts = map (map f) ls.
Proof.
  induction parts as [|p parts IH]; intros l E.
  - cbn in E. apply map_eq_nil in E. subst. exists []. auto.
  - cbn [concat] in E. revert l E. induction p as [|b p IHp]; intros l E.
    + destruct (IH l E) as (ls & -> & ->). exists ([] :: ls). auto.
    + destruct l as [|a l]; [discriminate|]. cbn [map app] in E. injection E as Ea E. destruct (IHp l E) as (ls & -> & Els).
      destruct ls as [|l0 ls]; [discriminate|]. cbn [map] in Els. injection Els as E0 E1.
      exists ((a :: l0) :: ls). cbn [map concat app]. split; [reflexivity|]. congruence.
Qed.

Lemma Forall2_concat_split {A B} (Q : A -> B -> Prop) (ms : list (list A)) : forall parts, Forall2 Q (concat ms) parts ->
  exists pss, parts = concat pss /\ Forall2 (Forall2 Q) ms pss.
Proof.
  induction ms as [|m ms IH]; intros parts F.
  - inversion F. exists []. auto.
  - cbn [concat] in F. apply Forall2_app_inv_l in F as (a & b & Fa & Fb & ->). destruct (IH b Fb) as (pss & -> & F').
    exists (a :: pss). split; [reflexivity|]. constructor; assumption.
Qed.

Lemma Forall2_join {A B C} (P : A -> list B -> Prop) (Q : B -> list C -> Prop) (R : A -> list C -> Prop) xs mids parts :
  (forall x mid pss, P x mid -> Forall2 Q mid pss -> R x (concat pss)) ->
  Forall2 P xs mids -> Forall2 Q (concat mids) parts ->
  exists fin, concat parts = concat fin /\ Forall2 R xs fin.
Proof.
  intros HR F1 F2. apply Forall2_concat_split in F2 as (pss & -> & F2).
  exists (map (fun ps => concat ps) pss). split.
  - clear. induction pss as [|ps pss IH]; [reflexivity|]. cbn [concat map]. rewrite concat_app, IH. reflexivity.
  - revert pss F2. induction F1 as [|x mid xs mids H F1 IH]; intros pss F2; inversion F2; subst; constructor; auto. eapply HR; eassumption.
Qed.

Lemma read_region_paths {D} (t : topology D) rg : present (shape_paths (read_region (tp_edges t) rg)) = region_paths t rg.
Proof.
  unfold shape_paths, read_region, region_paths. cbn [s_outer s_inner]. rewrite flat_map_app, present_app.
  assert (X : forall rs, present (concat (map (read_ring (tp_edges t)) rs)) = flat_map (fun r => map ne_points (seen_ring t r)) rs).
  { induction rs as [|r rs IH]; [reflexivity|]. cbn [map concat flat_map]. rewrite present_app, IH. f_equal.
    unfold read_ring, seen_ring. induction (tr_des r) as [|d ds IHd]; [reflexivity|]. cbn [map flat_map]. rewrite map_app, <- IHd.
    unfold seen, read_de. destruct (nth_error (tp_edges t) (de_edge d)); reflexivity. }
  rewrite !X. reflexivity.
Qed.

Lemma shape_winding {D} z (part : list (shape D)) : (length part <= 1)%nat ->
  winding_number z (present (flat_map shape_paths part)) =
  winding_number z (present (concat (flat_map s_outer part))) + winding_number z (present (concat (flat_map s_inner part))).
Proof.
  destruct part as [|s [|s' part]]; cbn [length]; intros H; [reflexivity| |lia]. cbn [flat_map]. rewrite !app_nil_r.
  unfold shape_paths. rewrite present_app, winding_app. reflexivity.
Qed.

Lemma input_app a b : input_paths (a ++ b) = input_paths a ++ input_paths b.
Proof. apply flat_map_app. Qed.

Definition step_build {D} z (rg : region D) (part : list (shape D)) : Prop :=
  (length part <= 1)%nat /\ (forall s, In s part -> s_data s = rg_data rg) /\
  (part <> [] -> exists lost, incl lost (rg_outer rg ++ rg_inner rg) /\ Forall (fun r => has_area r = false) lost /\
     covered_by (input_paths (rg_outer rg ++ rg_inner rg)) z =
     xorb (covered_by (present (flat_map shape_paths part)) z) (covered_by (input_paths lost) z)).

Lemma build_step {D} m (rs : list (region D)) t z : build_topology m rs = Ok t ->
  exists parts, read_topology t = concat parts /\ Forall2 (step_build z) rs parts.
Proof.
  intros B. destruct (build_winding m rs t B) as (parts & E & F). exists parts. split; [exact E|].
  eapply Forall2_impl'; [|exact F]. intros rg part (L & Dd & lo & li & Io & Ii & Ao & Ai & W). split; [assumption|]. split; [assumption|].
  intros Hp. exists (lo ++ li). split; [apply incl_app; [apply incl_appl|apply incl_appr]; assumption|].
  split; [apply Forall_app; auto|]. destruct (W z) as (W1 & W2). unfold covered_by. rewrite <- Z.odd_add. f_equal.
  rewrite shape_winding by assumption. rewrite !input_app, !winding_app. lia.
Qed.

Definition step_on {D} (t : topology D) z (rg : topo_region D) (part : list (shape D)) : Prop :=
  (length part <= 1)%nat /\ (forall s, In s part -> s_data s = tg_data rg) /\
  (part <> [] -> exists lost, Forall flat lost /\
     covered_by (region_paths t rg) z =
     xorb (covered_by (present (flat_map shape_paths part)) z) (covered_by (concat lost) z)).

Lemma normalize_step {D} m (t t' : topology D) z : valid t -> normalize m t = Ok t' ->
  exists parts, read_topology t' = concat parts /\ Forall2 (step_on t z) (tp_regions t) parts.
Proof.
  intros V N. destruct (normalize_covered m t t' V N) as (parts & E & F). exists parts. split; [exact E|].
  eapply Forall2_impl'; [|exact F]. intros rg part (L & Dd & X & _). split; [assumption|]. split; [assumption|].
  intros Hp. destruct (X Hp) as (lost & Fl & _ & W). exists lost. auto.
Qed.

Lemma clip_step {D} m k (t t' : topology D) z : wf_mask k -> wf_topology t -> closed_rings t ->
  clip_topology m t k = Ok t' -> inside_place k z -> good_place k t z ->
  exists parts, read_topology t' = concat parts /\ Forall2 (step_on t z) (tp_regions t) parts.
Proof.
  intros Hk Ht HR H Hz HG. destruct (clip_winding m k t t' z Hk Ht HR H Hz HG) as (parts & E & F). exists parts. split; [exact E|].
  eapply Forall2_impl'; [|exact F]. intros rg part (L & Dd & lo & li & Fo & Fi & W1 & W2). split; [assumption|]. split; [assumption|].
  intros Hp. exists (lo ++ li). split; [apply Forall_app; auto|]. unfold covered_by. rewrite <- Z.odd_add. f_equal.
  rewrite shape_winding by assumption. unfold region_paths. rewrite flat_map_app, concat_app, !winding_app.
  unfold rings_paths in W1, W2. lia.
Qed.

Lemma followed_build {D} m (rs : list (region D)) t z : build_topology m rs = Ok t ->
  exists parts, read_topology t = concat parts /\ Forall2 (followed z) rs parts.
Proof.
  intros B. destruct (build_step m rs t z B) as (parts & E & F). exists parts. split; [exact E|].
  eapply Forall2_impl'; [|exact F]. intros rg part (L & Dd & X). split; [assumption|]. split; [assumption|].
  intros Hp. destruct (X Hp) as (lost & I & A & W). exists lost, []. split; [assumption|]. split; [assumption|]. split; [constructor|].
  rewrite W. cbn [concat]. change (covered_by [] z) with false. rewrite xorb_false_r. reflexivity.
Qed.

Lemma followed_step {D} (rs : list (region D)) (t t' : topology D) z :
  (exists parts, read_topology t = concat parts /\ Forall2 (followed z) rs parts) ->
  (exists parts, read_topology t' = concat parts /\ Forall2 (step_on t z) (tp_regions t) parts) ->
  exists parts, read_topology t' = concat parts /\ Forall2 (followed z) rs parts.
Proof.
  intros (p1 & E1 & F1) (p2 & E2 & F2). unfold read_topology in E1. apply map_concat_inv in E1 as (mids & Er & ->).
  rewrite Er in F2.
  destruct (Forall2_join (fun rg mid => followed z rg (map (read_region (tp_edges t)) mid)) (step_on t z) (followed z) rs mids p2) as (fin & Ef & Ff).
  - intros rg mid pss (L & Dd & X) F. rewrite map_length in L. destruct mid as [|g [|g' mid]]; cbn [length] in L; [| |lia].
    + inversion F; subst. unfold followed; cbn [concat length]. split; [lia|]. split; [intros s []|congruence].
    + inversion F as [|? part ? ? (L' & Dd' & X') F']; subst. inversion F'; subst. cbn [concat]. rewrite app_nil_r.
      split; [assumption|]. split.
      * intros s Hs. rewrite (Dd' s Hs). apply (Dd (read_region (tp_edges t) g)). left. reflexivity.
      * intros Hp. destruct (X' Hp) as (lost & Fl & W'). destruct X as (li & l & I & A & Fl0 & W); [discriminate|].
        exists li, (l ++ lost). split; [assumption|]. split; [assumption|]. split; [apply Forall_app; auto|].
        cbn [map flat_map] in W. rewrite app_nil_r, read_region_paths, W' in W. rewrite W, concat_app, covered_app.
        destruct (covered_by (present _) z), (covered_by (concat lost) z), (covered_by (input_paths li) z), (covered_by (concat l) z); reflexivity.
  - clear -F1. remember (map (map (read_region (tp_edges t))) mids) as ps eqn:Eps. revert mids Eps.
    induction F1 as [|rg part rs ps H F1 IH]; intros mids Eps; destruct mids as [|mid mids]; try discriminate; [constructor|].
    cbn [map] in Eps. injection Eps as -> Eps. constructor; [assumption|]. apply IH. assumption.
  - assumption.
  - exists fin. split; [congruence|assumption].
Qed.

Lemma pipeline_covered {D} m (rs : list (region D)) t t1 t2 k z :
  (forall x r, In x rs -> In r (rg_outer x ++ rg_inner x) -> closed_ring r) -> wf_input rs -> wf_mask k ->
  build_topology m rs = Ok t -> normalize m t = Ok t1 -> clip_topology m t1 k = Ok t2 ->
  inside_place k z -> good_input k rs z ->
  exists parts, read_topology t2 = concat parts /\ Forall2 (followed z) rs parts.
Proof.
  intros HC HW Hk B N Cl Hz HG. pose proof (built_valid m rs t HC B) as V. pose proof (normalize_valid m t t1 V N) as V1.
  apply (followed_step rs t1 t2).
  - apply (followed_step rs t t1); [eapply followed_build; eassumption|eapply normalize_step; eassumption].
  - apply (clip_step m k t1 t2 z Hk (input_wf m rs t t1 V B N HW)); try assumption.
    + intros rg r Hg Hr. apply (proj2 (proj2 V1) rg r Hg Hr).
    + exact (input_good m rs t t1 k z V B N HG).
Qed.
