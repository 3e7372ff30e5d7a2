(** * ClipArea: clipping and areas *)
From Coq Require Import Setoid Qabs Lqa.
From Verif Require Import GeoProofs TopoProofs BuildProofs ClipEdgeProofs ClipTopoProofs ClipTopoLaws ComposeProofs NormProofs NormTopo NormLaws PlaceSpec PlaceProofs PlaceClip PlaceLaws ClipAreaSpec.
Open Scope Z_scope.

(** ** Fractions *)

Lemma Qinj_lt a b : a < b -> (inject_Z a < inject_Z b)%Q.
Proof. intros H. rewrite <- Zlt_Qlt. exact H. Qed.

Lemma qsum_app a b : (qsum (a ++ b) == qsum a + qsum b)%Q.
Proof. induction a as [|x a IH]; cbn [app qsum fold_right]; [unfold qsum; cbn; lra|]. unfold qsum in *. rewrite IH. lra. Qed.

Lemma area_inside_app k a b : (area_inside k (a ++ b) == area_inside k a + area_inside k b)%Q.
Proof. unfold area_inside. rewrite flat_map_app, map_app. apply qsum_app. Qed.

Lemma area_inside_one k ps : area_inside k [ps] = qsum (map (strip k) (segments ps)).
Proof. unfold area_inside. cbn [flat_map]. rewrite app_nil_r. reflexivity. Qed.

Lemma area_slack_app k a b : area_slack k (a ++ b) = area_slack k a + area_slack k b.
Proof. unfold area_slack. rewrite flat_map_app, map_app. apply sum_app. Qed.

Lemma area_slack_one k ps : area_slack k [ps] = sum (map (slack k) (segments ps)).
Proof. unfold area_slack. cbn [flat_map]. rewrite app_nil_r. reflexivity. Qed.

(** ** Whole strips *)

Definition band (k : clip_mask) (s : list point) : Z :=
  match s with [p; q] => (depth k p + depth k q) * (run k q - run k p) | _ => 0 end.

Lemma band_self k p : band k [p; p] = 0.
Proof. cbn [band]. lia. Qed.

Lemma band_odd k : odd_fun (band k).
Proof. intros p q. cbn [band]. lia. Qed.

Lemma depth_line k p : on_line k p -> depth k p = 0.
Proof. unfold on_line, axis, level, depth. destruct k; lia. Qed.

Lemma band_line k p q : on_line k p -> on_line k q -> band k [p; q] = 0.
Proof. intros H1 H2. cbn [band]. rewrite (depth_line k p H1), (depth_line k q H2). lia. Qed.

(** The potential that makes up the difference to the shoelace formula. *)
Definition tilt (k : clip_mask) (p : point) : Z :=
  match k with
  | MinX v => px p * py p - 2 * v * py p
  | MaxX v => px p * py p - 2 * v * py p
  | MinY v => 2 * v * px p - px p * py p
  | MaxY v => 2 * v * px p - px p * py p
  end.

Lemma band_det k p q : band k [p; q] = det p q + tilt k q - tilt k p.
Proof. unfold band, depth, run, det, tilt. destruct k; ring. Qed.

Lemma band_path k ps p q : first ps = Some p -> final ps = Some q ->
  tally (band k) [ps] = shoelace ps + tilt k q - tilt k p.
Proof.
  rewrite tally_one. revert p. induction ps as [|a ps IH]; intros p Hp Hq; [discriminate|].
  injection Hp as ->. destruct ps as [|b t]; [cbn in *; injection Hq as ->; lia|].
  change (segments (p :: b :: t)) with ([p; b] :: segments (b :: t)). cbn [map sum fold_right].
  change (fold_right Z.add 0) with sum. rewrite (IH b eq_refl), band_det.
  - change (shoelace (p :: b :: t)) with (det p b + shoelace (b :: t)). lia.
  - rewrite <- Hq. symmetry. apply final_cons2.
Qed.

Lemma band_chain k es : forall p q, chain p es q -> tally (band k) es = shoelaces es + tilt k q - tilt k p.
Proof.
  induction es as [|e es IH]; intros p q H; [cbn in H; subst q; cbn; lia|].
  destruct H as (Hf & r & Hr & H). rewrite tally_cons, (band_path k e p r Hf Hr), (IH r q H). cbn [shoelaces]. lia.
Qed.

Lemma band_closed k es : closed_chain es -> tally (band k) es = shoelaces es.
Proof. intros (p & H). rewrite (band_chain k es p p H). lia. Qed.

(** ** Both sides *)

Lemma depth_other k p : depth (other_side k) p = - depth k p.
Proof. destruct k; cbn [other_side depth]; lia. Qed.

Lemma run_other k p : run (other_side k) p = - run k p.
Proof. destruct k; cbn [other_side run]; lia. Qed.

Lemma div_frac n d : (inject_Z n / inject_Z (Zpos d) == n # d)%Q.
Proof. rewrite (Qmake_Qdiv n d). reflexivity. Qed.

Lemma both_strips k p q : (strip k [p; q] + strip (other_side k) [p; q] == inject_Z (band k [p; q]))%Q.
Proof.
  cbn [strip band]. unfold strip_between. rewrite !depth_other, !run_other.
  set (a := depth k p). set (b := depth k q). replace (- run k q - - run k p) with (- (run k q - run k p)) by lia.
  set (w := run k q - run k p). clearbody a b w. cbn zeta.
  destruct (Z.leb_spec 0 a), (Z.leb_spec 0 b), (Z.leb_spec 0 (- a)), (Z.leb_spec 0 (- b)), (Z.leb_spec a 0), (Z.leb_spec b 0),
    (Z.leb_spec (- a) 0), (Z.leb_spec (- b) 0), (Z.ltb_spec 0 a), (Z.ltb_spec 0 (- a)); try lia; cbn [andb];
  rewrite ?Qplus_0_r, ?Qplus_0_l, <- ?inject_Z_plus; try (apply inject_Z_injective; first [ring|replace b with (- a) by lia; ring]).
  - replace (- b - - a) with (a - b) by lia. destruct (a - b) as [|d|] eqn:E; try lia. rewrite !div_frac.
    unfold Qeq, Qplus, inject_Z. cbn [Qnum Qden]. rewrite Pos2Z.inj_mul. nia.
  - replace (- a - - b) with (b - a) by lia. destruct (b - a) as [|d|] eqn:E; try lia. rewrite !div_frac.
    unfold Qeq, Qplus, inject_Z. cbn [Qnum Qden]. rewrite Pos2Z.inj_mul. nia.
Qed.

Lemma both_segments k ss : Forall (fun s => exists p q, s = [p; q]) ss ->
  (qsum (map (strip k) ss) + qsum (map (strip (other_side k)) ss) == inject_Z (sum (map (band k) ss)))%Q.
Proof.
  induction 1 as [|s ss (p & q & ->) _ IH]; [reflexivity|]. cbn [map qsum sum fold_right].
  change (fold_right Qplus 0%Q) with qsum. change (fold_right Z.add 0) with sum. rewrite inject_Z_plus, <- IH, <- (both_strips k p q). lra.
Qed.

Lemma all_segments es : Forall (fun s : list point => exists p q, s = [p; q]) (flat_map segments es).
Proof.
  apply Forall_forall. intros s Hs. apply in_flat_map in Hs as (e & _ & Hs). destruct (segments_pairs _ _ Hs) as (a & b & ->). eauto.
Qed.

Lemma areas_add k es : closed_chain es ->
  (area_inside k es + area_inside (other_side k) es == inject_Z (shoelaces es))%Q.
Proof.
  intros H. rewrite <- (band_closed k es H). apply both_segments, all_segments.
Qed.

(** ** Everything on one side *)

Lemma strip_inside k p q : ~ outside k p -> ~ outside k q -> strip k [p; q] = inject_Z (band k [p; q]).
Proof.
  intros Hp Hq. cbn [strip band]. unfold strip_between. assert (0 <= depth k p) by (destruct k; cbn [depth outside] in *; lia).
  assert (0 <= depth k q) by (destruct k; cbn [depth outside] in *; lia).
  destruct (Z.leb_spec 0 (depth k p)), (Z.leb_spec 0 (depth k q)); try lia. reflexivity.
Qed.

Lemma strip_outside k p q : ~ inside k p -> ~ inside k q -> (strip k [p; q] == 0)%Q.
Proof.
  intros Hp Hq. cbn [strip]. unfold strip_between. assert (depth k p <= 0) by (destruct k; cbn [depth inside] in *; lia).
  assert (depth k q <= 0) by (destruct k; cbn [depth inside] in *; lia).
  destruct (Z.leb_spec 0 (depth k p)), (Z.leb_spec 0 (depth k q)), (Z.leb_spec (depth k p) 0), (Z.leb_spec (depth k q) 0); try lia; cbn [andb]; try reflexivity.
  assert (E : depth k p + depth k q = 0) by lia. rewrite E. reflexivity.
Qed.

Lemma area_all_inside k es : closed_chain es -> (forall e p, In e es -> In p e -> ~ outside k p) ->
  (area_inside k es == inject_Z (shoelaces es))%Q.
Proof.
  intros HC H. rewrite <- (band_closed k es HC). unfold area_inside, tally.
  assert (A : forall s, In s (flat_map segments es) -> strip k s = inject_Z (band k s)).
  { intros s Hs. pose proof (all_segments es) as F. rewrite Forall_forall in F. destruct (F s Hs) as (p & q & ->).
    destruct (segment_ends es p q Hs) as (e & He & Hp & Hq). apply strip_inside; eapply H; eassumption. }
  induction (flat_map segments es) as [|s ss IH]; [reflexivity|]. cbn [map qsum sum fold_right].
  change (fold_right Qplus 0%Q) with qsum. change (fold_right Z.add 0) with sum. rewrite inject_Z_plus, <- IH, A; [lra|left; reflexivity|].
  intros s' Hs'. apply A. right. exact Hs'.
Qed.

Lemma area_all_outside k es : (forall e p, In e es -> In p e -> ~ inside k p) -> (area_inside k es == 0)%Q.
Proof.
  intros H. unfold area_inside.
  assert (A : forall s, In s (flat_map segments es) -> (strip k s == 0)%Q).
  { intros s Hs. pose proof (all_segments es) as F. rewrite Forall_forall in F. destruct (F s Hs) as (p & q & ->).
    destruct (segment_ends es p q Hs) as (e & He & Hp & Hq). apply strip_outside; eapply H; eassumption. }
  induction (flat_map segments es) as [|s ss IH]; [reflexivity|]. cbn [map qsum fold_right].
  change (fold_right Qplus 0%Q) with qsum. rewrite IH, A; [lra|left; reflexivity|]. intros s' Hs'. apply A. right. exact Hs'.
Qed.

(** ** One segment *)

Lemma cut_bound a y w d : 0 < a -> 0 < d -> Z.abs (a * w - y * d) < d ->
  (Qabs (inject_Z (a * y) - inject_Z (a * a * w) / inject_Z d) <= inject_Z (if (a * w) mod d =? 0 then 0 else a))%Q.
Proof.
  intros Ha Hd HE. destruct d as [|d|]; try lia. rewrite div_frac.
  assert (X : Z.abs (a * y * Zpos d - a * a * w) <= (if (a * w) mod Zpos d =? 0 then 0 else a) * Zpos d).
  { replace (a * y * Zpos d - a * a * w) with (- (a * (a * w - y * Zpos d))) by ring. rewrite Z.abs_opp, Z.abs_mul, (Z.abs_eq a) by lia.
    destruct (Z.eqb_spec ((a * w) mod Zpos d) 0) as [E|_]; [|nia].
    apply Z.mod_divide in E as (c & E); [|lia]. rewrite E in HE |- *.
    replace (c * Zpos d - y * Zpos d) with ((c - y) * Zpos d) in * by ring.
    assert (c - y = 0) by nia. rewrite H. lia. }
  unfold Qabs, Qminus, Qopp, Qplus, Qle, inject_Z. cbn [Qnum Qden]. rewrite !Z.mul_1_r, Pos2Z.inj_mul, Z.mul_1_l.
  replace (a * y * Zpos d + - (a * a * w)) with (a * y * Zpos d - a * a * w) by ring. exact X.
Qed.

Lemma near_depth k p q x : near k p q x ->
  depth k x = 0 /\
  Z.abs (depth k p * (run k q - run k p) - (run k x - run k p) * (depth k p - depth k q)) < Z.abs (depth k p - depth k q).
Proof.
  unfold near. intros (H1 & _ & H3). split; [apply depth_line, H1|].
  unfold on_line, axis, along, level, depth, run in *. destruct k; lia.
Qed.

Lemma mod_zero_sign x y d e : d <> 0 -> (y = x \/ y = - x) -> (e = d \/ e = - d) -> (y mod e =? 0) = (x mod d =? 0).
Proof.
  intros Hd Hy He. assert (He0 : e <> 0) by lia.
  assert (X : y mod e = 0 <-> x mod d = 0).
  { rewrite !Z.mod_divide by assumption. destruct Hy as [-> | ->], He as [-> | ->]; rewrite ?Z.divide_opp_l, ?Z.divide_opp_r; reflexivity. }
  destruct (Z.eqb_spec (y mod e) 0), (Z.eqb_spec (x mod d) 0); tauto.
Qed.

Lemma between_mod k p q : depth k p <> depth k q ->
  (((level k - axis k p) * (along k q - along k p)) mod (axis k q - axis k p) =? 0)
  = ((depth k p * (run k q - run k p)) mod (depth k p - depth k q) =? 0).
Proof.
  intros H. apply mod_zero_sign; [lia| |]; unfold level, axis, along, depth, run in *; destruct k; first [left; lia|right; lia].
Qed.

Lemma insideb_depth k p : insideb k p = (0 <? depth k p).
Proof. apply eq_true_iff_eq. destruct k; cbn [insideb depth]; rewrite !Z.ltb_lt; lia. Qed.

Lemma outsideb_depth k p : outsideb k p = (depth k p <? 0).
Proof. apply eq_true_iff_eq. destruct k; cbn [outsideb depth]; rewrite !Z.ltb_lt; lia. Qed.

Lemma Qabs_zero x y : (x == y -> Qabs (x - y) <= 0)%Q.
Proof. intros ->. assert (E : (y - y == 0)%Q) by lra. rewrite E. cbn. lra. Qed.

Definition bent (X : point -> point -> point) (k : clip_mask) (p q : point) : Prop := opposite k p q -> near k p q (X p q).

Lemma part_strip k X p q : bent X k p q ->
  (Qabs (inject_Z (sum (map (fun s => band k (ends_of s)) (kept_part k (X p q) p q))) - strip k [p; q])
   <= inject_Z (slack k [p; q]))%Q.
Proof.
  intros HX. cbn [strip slack]. unfold kept_part, between_points, strip_between. rewrite !insideb_depth, !outsideb_depth.
  unfold bent in HX.
  assert (Ho : opposite k p q <-> (0 < depth k p /\ depth k q < 0) \/ (depth k p < 0 /\ 0 < depth k q)).
  { unfold opposite, inside, outside, depth. destruct k; lia. }
  destruct (Z.ltb_spec 0 (depth k p)) as [Hp|Hp].
  - destruct (Z.leb_spec 0 (depth k p)); [|lia]. destruct (Z.ltb_spec (depth k q) 0) as [Hq|Hq].
    + destruct (near_depth k p q _ (HX (proj2 Ho (or_introl (conj Hp Hq))))) as (Hx & HE).
      destruct (Z.leb_spec 0 (depth k q)); [lia|]. destruct (Z.leb_spec (depth k p) 0); [lia|].
      rewrite between_mod by lia. cbn [andb orb map sum fold_right ends_of fst snd band]. rewrite Hx.
      replace ((depth k p + 0) * (run k (X p q) - run k p) + 0) with (depth k p * (run k (X p q) - run k p)) by ring.
      rewrite (Z.max_l (depth k p)) by lia. rewrite (Z.abs_eq (depth k p - depth k q)) in HE by lia.
      pose proof (cut_bound (depth k p) (run k (X p q) - run k p) (run k q - run k p) (depth k p - depth k q) Hp ltac:(lia) HE) as B.
      destruct (_ mod _ =? 0); exact B.
    + destruct (Z.leb_spec 0 (depth k q)); [|lia]. destruct (Z.ltb_spec (depth k p) 0); [lia|]. cbn [andb orb map sum fold_right ends_of fst snd band].
      apply Qabs_zero. rewrite Z.add_0_r. reflexivity.
  - destruct (Z.ltb_spec 0 (depth k q)) as [Hq|Hq].
    + destruct (Z.leb_spec 0 (depth k q)); [|lia]. destruct (Z.ltb_spec (depth k p) 0) as [Hp'|Hp'].
      * destruct (near_depth k p q _ (HX (proj2 Ho (or_intror (conj Hp' Hq))))) as (Hx & HE).
        destruct (Z.leb_spec 0 (depth k p)); [lia|]. destruct (Z.leb_spec (depth k q) 0); [lia|].
        rewrite between_mod by lia. rewrite !andb_false_r. cbn [andb orb map sum fold_right ends_of fst snd band]. rewrite Hx.
        replace ((0 + depth k q) * (run k q - run k (X p q)) + 0) with (depth k q * (run k q - run k (X p q))) by ring.
        rewrite (Z.max_r (depth k p)) by lia. rewrite (Z.abs_neq (depth k p - depth k q)) in HE by lia.
        pose proof (cut_bound (depth k q) (run k q - run k (X p q)) (run k q - run k p) (depth k q - depth k p) Hq ltac:(lia)) as B.
        assert (EM : ((depth k p * (run k q - run k p)) mod (depth k p - depth k q) =? 0) =
                     ((depth k q * (run k q - run k p)) mod (depth k q - depth k p) =? 0)).
        { transitivity ((depth k p * (run k q - run k p)) mod (depth k q - depth k p) =? 0).
          - apply mod_zero_sign; [lia|left; reflexivity|right; lia].
          - replace (depth k q * (run k q - run k p)) with (depth k p * (run k q - run k p) + (run k q - run k p) * (depth k q - depth k p)) by ring.
            rewrite Z.mod_add by lia. reflexivity. }
        rewrite EM. destruct (_ mod _ =? 0); apply B; lia.
      * destruct (Z.leb_spec 0 (depth k p)); [|lia]. cbn [andb orb map sum fold_right ends_of fst snd band].
        apply Qabs_zero. rewrite Z.add_0_r. reflexivity.
    + rewrite !andb_false_r. cbn [andb orb map sum fold_right].
      destruct (Z.leb_spec 0 (depth k p)), (Z.leb_spec 0 (depth k q)), (Z.leb_spec (depth k p) 0), (Z.leb_spec (depth k q) 0); try lia; cbn [andb];
        apply Qabs_zero; try reflexivity.
      apply inject_Z_injective. replace (depth k p + depth k q) with 0 by lia. ring.
Qed.

(** ** One path *)

Lemma Qabs_add x y a b c d : (Qabs (x - a) <= c -> Qabs (y - b) <= d -> Qabs ((x + y) - (a + b)) <= c + d)%Q.
Proof.
  intros H1 H2. assert (E : (x + y - (a + b) == (x - a) + (y - b))%Q) by lra. rewrite E.
  eapply Qle_trans; [apply Qabs_triangle|]. lra.
Qed.

Lemma parts_strip k X ps : (forall p q, In (p, q) (combine ps (tl ps)) -> bent X k p q) ->
  (Qabs (inject_Z (sum (map (fun s => band k (ends_of s)) (kept_parts k X ps))) - area_inside k [ps]) <= inject_Z (area_slack k [ps]))%Q.
Proof.
  rewrite area_inside_one, area_slack_one. induction ps as [|p ps IH]; intros HF; [apply Qabs_zero; reflexivity|].
  destruct ps as [|q t]; [apply Qabs_zero; reflexivity|].
  change (kept_parts k X (p :: q :: t)) with (kept_part k (X p q) p q ++ kept_parts k X (q :: t)).
  change (segments (p :: q :: t)) with ([p; q] :: segments (q :: t)).
  rewrite map_app, sum_app. cbn [map qsum sum fold_right]. change (fold_right Qplus 0%Q) with qsum. change (fold_right Z.add 0) with sum.
  rewrite !inject_Z_plus. apply Qabs_add.
  - apply part_strip, HF. left. reflexivity.
  - apply IH. intros a b Hab. apply HF. right. exact Hab.
Qed.

Lemma joined_band k parts : parts_joined k parts ->
  tally (band k) [part_points parts] = sum (map (fun s => band k (ends_of s)) parts).
Proof.
  rewrite tally_one. induction parts as [|[[a b] v] parts IH]; intros HJ; [reflexivity|].
  destruct parts as [|[[a' b'] v'] t]; [cbn; lia|].
  destruct HJ as (HJ & HJ'). cbn [fst snd] in HJ. specialize (IH HJ').
  change (part_points ((a, b, v) :: (a', b', v') :: t)) with (a :: b :: part_points ((a', b', v') :: t)).
  set (l := part_points ((a', b', v') :: t)) in *.
  assert (El : exists l', l = a' :: l') by (unfold l; cbn; eexists; reflexivity). destruct El as (l' & El).
  assert (Es : segments (a :: b :: l) = [a; b] :: [b; a'] :: segments l) by (rewrite El; reflexivity).
  rewrite Es. cbn [map sum fold_right]. change (fold_right Z.add 0) with sum. rewrite IH.
  assert (Q : band k [b; a'] = 0) by (destruct HJ as [->|(H1 & H2)]; [apply band_self|apply band_line; assumption]).
  rewrite Q. change (ends_of (a, b, v)) with [a; b]. reflexivity.
Qed.

Lemma clip_path_strip k X ps : (forall p q, In (p, q) (combine ps (tl ps)) -> bent X k p q) ->
  good_X k X ps /\
  (Qabs (inject_Z (tally (band k) [clip_path k X ps]) - area_inside k [ps]) <= inject_Z (area_slack k [ps]))%Q.
Proof.
  intros HF. assert (G : good_X k X ps) by (intros p q Hin Ho; apply (HF p q Hin Ho)). split; [exact G|].
  rewrite <- (tally_dedup (band k) (clip_path k X ps)), clip_path_dedup, tally_dedup by apply band_self.
  rewrite (joined_band k _ (kept_parts_joined k X ps G)). apply parts_strip, HF.
Qed.

(** ** Turning paths around *)

Lemma strip_swap k p q : (strip k [q; p] == - strip k [p; q])%Q.
Proof.
  cbn [strip]. unfold strip_between. replace (run k p - run k q) with (- (run k q - run k p)) by lia.
  set (a := depth k p). set (b := depth k q). set (w := run k q - run k p). clearbody a b w. cbn zeta.
  rewrite (andb_comm (0 <=? b)), (andb_comm (b <=? 0)).
  destruct (Z.leb_spec 0 a), (Z.leb_spec 0 b), (Z.leb_spec a 0), (Z.leb_spec b 0), (Z.ltb_spec 0 a), (Z.ltb_spec 0 b); try lia; cbn [andb]; try reflexivity;
    try (rewrite <- inject_Z_opp; apply inject_Z_injective; ring).
  - destruct (a - b) as [|d|] eqn:E; try lia. rewrite !div_frac. unfold Qeq, Qopp. cbn [Qnum Qden]. ring.
  - destruct (b - a) as [|d|] eqn:E; try lia. rewrite !div_frac. unfold Qeq, Qopp. cbn [Qnum Qden]. ring.
Qed.

Lemma slack_swap k p q : slack k [q; p] = slack k [p; q].
Proof.
  cbn [slack]. unfold between_points. rewrite Z.max_comm, !insideb_depth, !outsideb_depth.
  destruct (Z.eq_dec (depth k p) (depth k q)) as [E|E].
  - rewrite E. destruct (Z.ltb_spec 0 (depth k q)), (Z.ltb_spec (depth k q) 0); try lia; reflexivity.
  - rewrite !between_mod by lia. rewrite (orb_comm ((0 <? depth k q) && (depth k p <? 0))), (andb_comm (0 <? depth k q)), (andb_comm (depth k q <? 0)).
    assert (M : ((depth k q * (run k p - run k q)) mod (depth k q - depth k p) =? 0) =
                ((depth k p * (run k q - run k p)) mod (depth k p - depth k q) =? 0)).
    { transitivity ((depth k q * (run k q - run k p)) mod (depth k p - depth k q) =? 0).
      - apply mod_zero_sign; [lia|right; ring|right; lia].
      - replace (depth k p * (run k q - run k p)) with (depth k q * (run k q - run k p) + (run k q - run k p) * (depth k p - depth k q)) by ring.
        rewrite Z.mod_add by lia. reflexivity. }
    rewrite M. reflexivity.
Qed.

Lemma area_inside_rev k ps : (area_inside k [rev ps] == - area_inside k [ps])%Q.
Proof.
  rewrite !area_inside_one, segments_rev.
  assert (X : forall l, (forall s, In s l -> exists p q, s = [p; q]) -> (qsum (map (strip k) (map (@rev point) (rev l))) == - qsum (map (strip k) l))%Q).
  { induction l as [|s l IH]; intros H; [reflexivity|]. cbn [rev]. rewrite !map_app, qsum_app, IH by (intros; apply H; right; assumption).
    destruct (H s (or_introl eq_refl)) as (p & q & ->). cbn [map rev app]. unfold qsum. cbn [fold_right]. rewrite (strip_swap k p q). lra. }
  apply X. apply segments_pairs.
Qed.

Lemma area_slack_rev k ps : area_slack k [rev ps] = area_slack k [ps].
Proof.
  rewrite !area_slack_one, segments_rev.
  assert (X : forall l, (forall s, In s l -> exists p q, s = [p; q]) -> sum (map (slack k) (map (@rev point) (rev l))) = sum (map (slack k) l)).
  { induction l as [|s l IH]; intros H; [reflexivity|]. cbn [rev]. rewrite !map_app, sum_app, IH by (intros; apply H; right; assumption).
    destruct (H s (or_introl eq_refl)) as (p & q & ->). cbn [map]. change (rev [p; q]) with [q; p]. rewrite (slack_swap k p q). unfold sum. cbn [fold_right]. lia. }
  apply X. apply segments_pairs.
Qed.

(** ** One ring *)

Section Ring.
Context {D : Type}.
Variable m : mode.
Variable k : clip_mask.
Variable t : topology D.
Variable C : list (list point).
Hypothesis HC : clips m k t C.
Hypothesis all_bent : forall e p q, In e (tp_edges t) -> In (p, q) (combine (te_points e) (tl (te_points e))) -> bent (isect m k) k p q.

Lemma clip_of i e : nth_error (tp_edges t) i = Some e -> nth_error C i = Some (clip_path k (isect m k) (te_points e)).
Proof.
  intros E. assert (X : exists c, nth_error C i = Some c /\ clip_edge m k (te_points e) = Ok c).
  { unfold clips in HC. clear all_bent. revert i E. induction HC as [|e0 c0 es cs H F IH]; intros i E; [destruct i; discriminate|].
    destruct i as [|i]; [injection E as ->; exists c0; auto|]. apply IH; assumption. }
  destruct X as (c & Ec & H). rewrite (clip_edge_path m k _ _ H) in Ec. exact Ec.
Qed.

Lemma small_band c : big c = false -> tally (band k) [c] = 0.
Proof. destruct c as [|a [|b c]]; [reflexivity|reflexivity|discriminate]. Qed.

Lemma piece_strip d0 :
  (Qabs (inject_Z (tally (band k) (map pc_path (visible_piece C d0))) - area_inside k (map ne_points (seen t d0)))
   <= inject_Z (area_slack k (map ne_points (seen t d0))))%Q.
Proof.
  unfold seen. destruct (nth_error (tp_edges t) (de_edge d0)) as [e|] eqn:E.
  - pose proof (clip_of _ _ E) as Ec. rewrite (visible_piece_big C d0 _ Ec).
    destruct (clip_path_strip k (isect m k) (te_points e)) as (_ & B).
    { intros p q. apply all_bent. eapply nth_error_In. eassumption. }
    set (c := clip_path k (isect m k) (te_points e)) in *. cbn [map ne_points].
    assert (HO : (Qabs (inject_Z (tally (band k) [oriented c (de_dir d0)]) - area_inside k [oriented (te_points e) (de_dir d0)])
       <= inject_Z (area_slack k [oriented (te_points e) (de_dir d0)]))%Q).
    { unfold oriented. destruct (de_dir d0); [exact B|].
      rewrite tally_rev1, area_inside_rev, area_slack_rev, inject_Z_opp by apply band_odd. rewrite <- Qabs_opp.
      assert (EQ : (- (- inject_Z (tally (band k) [c]) - - area_inside k [te_points e]) == inject_Z (tally (band k) [c]) - area_inside k [te_points e])%Q) by lra.
      rewrite EQ. exact B. }
    destruct (big c) eqn:Bg; cbn [map pc_path]; [exact HO|].
    rewrite small_band in HO; [exact HO|]. unfold oriented. destruct (de_dir d0); [assumption|]. unfold big in *. rewrite rev_length. assumption.
  - unfold visible_piece. rewrite (clips_none k m t C HC _ E). apply Qabs_zero. reflexivity.
Qed.

Lemma pieces_strip ds :
  (Qabs (inject_Z (tally (band k) (map pc_path (flat_map (visible_piece C) ds))) - area_inside k (map ne_points (flat_map (seen t) ds)))
   <= inject_Z (area_slack k (map ne_points (flat_map (seen t) ds))))%Q.
Proof.
  induction ds as [|d0 ds IH]; [apply Qabs_zero; reflexivity|]. cbn [flat_map].
  rewrite !map_app, !tally_app, area_inside_app, area_slack_app, !inject_Z_plus. apply Qabs_add; [apply piece_strip|exact IH].
Qed.

(** Ends of the pieces. *)
Definition level_gap (a b : point) : Prop := a = b \/ (on_line k a /\ on_line k b).

Lemma touches_level n a b : touches k n a -> touches k n b -> level_gap a b.
Proof. intros [(H1 & ->)|(H1 & H2)] [(H3 & ->)|(H3 & H4)]; try contradiction; [left; reflexivity|right; auto]. Qed.

Lemma piece_touches d0 e n n' : seen t d0 = [e] -> first (ne_points e) = Some n -> final (ne_points e) = Some n' ->
  (visible_piece C d0 = [] /\ (n = n' \/ (~ inside k n /\ ~ inside k n'))) \/
  (exists q a b, visible_piece C d0 = [q] /\ fst_of q = Some a /\ fin_of q = Some b /\ touches k n a /\ touches k n' b).
Proof.
  unfold seen. destruct (nth_error (tp_edges t) (de_edge d0)) as [te|] eqn:E; [|discriminate].
  intros He. injection He as <-. cbn [ne_points]. intros Hn Hn'.
  rewrite (visible_piece_big C d0 _ (clip_of _ _ E)).
  destruct (clip_path_strip k (isect m k) (te_points te)) as (HF & _).
  { intros p q. apply all_bent. eapply nth_error_In. eassumption. }
  assert (HE : exists p q, first (te_points te) = Some p /\ final (te_points te) = Some q /\
    (n, n') = match de_dir d0 with Forward => (p, q) | Backward => (q, p) end).
  { unfold oriented in *. destruct (de_dir d0); [exists n, n'; auto|]. rewrite first_rev in Hn. rewrite final_rev in Hn'. exists n', n. auto. }
  destruct HE as (p & q & Hp & Hq & EE). destruct (clip_path_ends k _ _ p q HF Hp Hq) as (Z & T).
  set (c := clip_path k (isect m k) (te_points te)) in *. destruct (big c) eqn:B.
  - right. assert (Hne : c <> []) by (intros Ec0; rewrite Ec0 in B; discriminate).
    destruct (final_nonempty c Hne) as (b & Hb). destruct c as [|a c'] eqn:Ecc; [congruence|].
    destruct (T a b eq_refl Hb) as (T1 & T2). exists (Piece (KOld (de_edge d0)) (de_dir d0) (oriented (a :: c') (de_dir d0))).
    unfold fst_of, fin_of. cbn [pc_path].
    destruct (de_dir d0); injection EE as -> ->; unfold oriented; [exists a, b|exists b, a]; rewrite ?first_rev, ?final_rev; auto.
  - left. split; [reflexivity|]. specialize (Z eq_refl). destruct (de_dir d0); injection EE as -> ->; [assumption|].
    destruct Z as [->|Z]; [left; reflexivity|right; tauto].
Qed.

Fixpoint level_gaps (s : point) (p : piece) (ps : list piece) : Prop :=
  match ps with
  | [] => forall a, fin_of p = Some a -> level_gap a s
  | q :: t => (forall a b, fin_of p = Some a -> fst_of q = Some b -> level_gap a b) /\ level_gaps s q t
  end.

Lemma walk_level ds : forall n n' p s, chain n (map ne_points (flat_map (seen t) ds)) n' ->
  (forall a, fin_of p = Some a -> touches k n a) -> touches k n' s ->
  level_gaps s p (flat_map (visible_piece C) ds).
Proof.
  induction ds as [|d0 ds IH]; intros n n' p s HCh Hp Hs.
  - cbn in HCh. subst n'. cbn [flat_map level_gaps]. intros a Ha. eapply touches_level; [apply Hp, Ha|exact Hs].
  - cbn [flat_map] in *. destruct (seen_single t d0) as [E|(e & E)].
    + rewrite E in HCh. rewrite (unseen k m t C HC d0 E). apply (IH n n'); assumption.
    + rewrite E in HCh. cbn [app map chain] in HCh. destruct HCh as (Hf & n1 & Hn1 & HCh).
      destruct (piece_touches d0 e n n1 E Hf Hn1) as [(Ev & Hm)|(q & a & b & Ev & Ha & Hb & Ta & Tb)]; rewrite Ev; cbn [app].
      * apply (IH n1 n'); [assumption| |assumption]. intros a Ha. eapply touches_move; [exact Hm|apply Hp, Ha].
      * cbn [level_gaps]. split.
        -- intros a' b' Ha' Hb'. rewrite Ha in Hb'. injection Hb' as <-. eapply touches_level; [apply Hp, Ha'|exact Ta].
        -- apply (IH n1 n'); [assumption| |assumption]. intros a' Ha'. rewrite Hb in Ha'. injection Ha' as <-. exact Tb.
Qed.

Lemma walk_around ds : forall n n' p ps, chain n (map ne_points (flat_map (seen t) ds)) n' ->
  flat_map (visible_piece C) ds = p :: ps ->
  (exists a, fst_of p = Some a /\ touches k n a) /\ (forall s, touches k n' s -> level_gaps s p ps).
Proof.
  induction ds as [|d0 ds IH]; intros n n' p ps HCh Hv; [discriminate|].
  cbn [flat_map] in *. destruct (seen_single t d0) as [E|(e & E)].
  - rewrite E in HCh. rewrite (unseen k m t C HC d0 E) in Hv. apply (IH n n'); assumption.
  - rewrite E in HCh. cbn [app map chain] in HCh. destruct HCh as (Hf & n1 & Hn1 & HCh).
    destruct (piece_touches d0 e n n1 E Hf Hn1) as [(Ev & Hm)|(q & a & b & Ev & Ha & Hb & Ta & Tb)]; rewrite Ev in Hv; cbn [app] in Hv.
    + destruct (IH n1 n' p ps HCh Hv) as ((a & Ha & Ta) & HG). split; [|exact HG]. exists a. split; [assumption|].
      eapply touches_move; [|exact Ta]. destruct Hm as [->|Hm]; [left; reflexivity|right; tauto].
    + injection Hv as <- <-. split; [exists a; auto|]. intros s Hs. apply (walk_level ds n1 n'); [assumption| |assumption].
      intros a' Ha'. rewrite Hb in Ha'. injection Ha' as <-. exact Tb.
Qed.

Lemma level_gap_band a b : level_gap a b -> tally (band k) (map pc_path (gap a b)) = 0.
Proof.
  unfold gap. intros Q. destruct ((px a =? px b) && (py a =? py b)); [reflexivity|].
  assert (X : tally (band k) [[a; b]] = 0).
  { unfold tally. cbn [flat_map segments app map sum fold_right]. rewrite Z.add_0_r.
    destruct Q as [->|(Q1 & Q2)]; [apply band_self|apply band_line; assumption]. }
  destruct ((px a <? px b) || _); exact X.
Qed.

Lemma gaps_band s ps : forall p, has_ends p -> Forall has_ends ps -> level_gaps s p ps ->
  tally (band k) (map pc_path (close_gaps (Some s) p ps)) = tally (band k) (map pc_path ps).
Proof.
  induction ps as [|q ps IH]; intros p (x & a & Hx & Ha) HE HQ; cbn [close_gaps level_gaps] in *; unfold fin_of, fst_of in *.
  - rewrite Ha. cbn [gap_between]. apply level_gap_band, HQ, Ha.
  - inversion HE as [|? ? Hq HE']; subst. destruct HQ as (HQ & HQ'). pose proof Hq as (b & y & Hb & _). unfold fst_of in Hb.
    rewrite Ha, Hb. cbn [gap_between]. 
    change (map pc_path (q :: ps)) with (map pc_path [q] ++ map pc_path ps).
    change (q :: close_gaps (Some s) q ps) with ([q] ++ close_gaps (Some s) q ps).
    rewrite !map_app, !tally_app, (level_gap_band a b (HQ a b Ha Hb)), (IH q Hq HE' HQ'). reflexivity.
Qed.

Lemma ring_band r : closed_chain (map ne_points (seen_ring t r)) ->
  tally (band k) (map pc_path (clipped_ring C r)) = tally (band k) (map pc_path (visible C r)).
Proof.
  intros (n & HCh). unfold seen_ring in *. unfold clipped_ring. pose proof (visible_ends C r) as HE.
  destruct (visible C r) as [|p ps] eqn:Ev; [reflexivity|].
  destruct (walk_around (tr_des r) n n p ps HCh Ev) as ((s & Hs & Ts) & HG). specialize (HG s Ts).
  inversion HE as [|? ? Hp HE']; subst. unfold fst_of in Hs. rewrite Hs.
  change (map pc_path (p :: ps)) with (map pc_path [p] ++ map pc_path ps).
  change (p :: close_gaps (Some s) p ps) with ([p] ++ close_gaps (Some s) p ps).
  rewrite !map_app, !tally_app, (gaps_band s ps p Hp HE' HG). reflexivity.
Qed.

Lemma ring_area r : closed_chain (map ne_points (seen_ring t r)) ->
  (Qabs (inject_Z (clipped_area C r) - area_inside k (map ne_points (seen_ring t r)))
   <= inject_Z (area_slack k (map ne_points (seen_ring t r))))%Q.
Proof.
  intros HCl.
  assert (E : clipped_area C r = tally (band k) (map pc_path (visible C r))).
  { rewrite <- (ring_band r HCl). unfold clipped_area. destruct (clipped_ring C r) as [|p ps] eqn:Er; [reflexivity|].
    rewrite <- Er. symmetry. apply band_closed, clipped_ring_closed. rewrite Er. discriminate. }
  rewrite E. apply pieces_strip.
Qed.

End Ring.

(** ** Topologies *)

Lemma steps_bent {D} m k (t : topology D) : wf_mask k -> wf_topology t -> small_steps t ->
  forall e p q, In e (tp_edges t) -> In (p, q) (combine (te_points e) (tl (te_points e))) -> bent (isect m k) k p q.
Proof.
  intros Hk Ht HS e p q He Hin Ho. apply segments_combine in Hin.
  unfold wf_topology in Ht. rewrite Forall_forall in Ht. specialize (Ht e He). unfold wf_points in Ht. rewrite Forall_forall in Ht.
  assert (P : In p (te_points e) /\ In q (te_points e)).
  { destruct (segment_ends [te_points e] p q) as (e' & [<-|[]] & H); [cbn [flat_map]; rewrite app_nil_r; assumption|exact H]. }
  apply isect_near; try assumption; [apply Ht, P|apply Ht, P|]. eapply HS; eassumption.
Qed.

Lemma side_area {D} m k (t : topology D) C rs : wf_mask k -> wf_topology t -> small_steps t -> clips m k t C ->
  (forall r, In r rs -> closed_chain (map ne_points (seen_ring t r))) ->
  exists lost, Forall flat lost /\
    (Qabs (inject_Z (shoelaces (present (concat (map read_pieces (clipped_rings C rs)))) + shoelaces (concat lost))
           - area_inside k (rings_paths t rs)) <= inject_Z (area_slack k (rings_paths t rs)))%Q.
Proof.
  intros Hk Ht HS HC HR. induction rs as [|r rs IH]; [exists []; split; [constructor|apply Qabs_zero; reflexivity]|].
  destruct IH as (lost & F & E); [intros x Hx; apply HR; right; exact Hx|].
  pose proof (ring_area m k t C HC (steps_bent m k t Hk Ht HS) r (HR r (or_introl eq_refl))) as HW.
  assert (HP : forall ps, present (read_pieces ps) = map pc_path ps).
  { intros ps. unfold read_pieces. rewrite <- (map_map pc_path Some). apply present_some. }
  pose proof (Qabs_add _ _ _ _ _ _ HW E) as B. rewrite <- !inject_Z_plus, <- area_inside_app, <- area_slack_app in B. unfold clipped_area in B.
  unfold rings_paths, clipped_rings in *. cbn [flat_map filter].
  destruct (ring_kept C r) eqn:Ek; cbn [map concat].
  - exists lost. split; [assumption|]. rewrite present_app, shoelaces_app, HP, <- Z.add_assoc. exact B.
  - destruct (clipped_ring C r) as [|p ps] eqn:Er.
    + exists lost. split; [assumption|exact B].
    + rewrite <- Er in *. exists (map pc_path (clipped_ring C r) :: lost). split.
      * constructor; [|assumption]. split; [apply clipped_ring_closed; rewrite Er; discriminate|].
        unfold ring_kept in Ek. apply negb_false_iff, Z.eqb_eq in Ek. exact Ek.
      * cbn [concat]. rewrite shoelaces_app, (Z.add_comm (shoelaces (map pc_path _))), Z.add_assoc, Z.add_comm. exact B.
Qed.

Lemma region_not_kept {D} C (rg : topo_region D) : region_kept C rg = false -> clipped_rings C (tg_outer rg) = [].
Proof.
  unfold clipped_rings, region_kept. induction (tg_outer rg) as [|r rs IH]; [reflexivity|]. cbn [existsb filter]. intros H.
  apply orb_false_iff in H as (E1 & E2). rewrite E1. apply IH, E2.
Qed.

Lemma clip_keeps_area {D} m k (t t' : topology D) : wf_mask k -> wf_topology t -> small_steps t -> closed_rings t ->
  clip_topology m t k = Ok t' ->
  by_region t t' (fun rg part =>
    keeps_area k (rings_paths t (tg_outer rg)) (present (concat (flat_map s_outer part))) /\
    (part <> [] -> keeps_area k (rings_paths t (tg_inner rg)) (present (concat (flat_map s_inner part))))).
Proof.
  intros Hk Ht HS HR H. apply clip_topology_ok in H as (C & b & HC & Hb & _ & HRg & HE).
  pose proof (clip_read C b _ t' Hb HRg HE) as ER.
  exists (map (fun rg => if region_kept C rg then [clipped_shape C rg] else []) (tp_regions t)). split.
  - rewrite ER. unfold clipped_topology. clear. induction (tp_regions t) as [|rg rgs IH]; [reflexivity|]. cbn [filter map concat].
    destruct (region_kept C rg); cbn [map app]; rewrite IH; reflexivity.
  - assert (X : forall rgs, incl rgs (tp_regions t) -> Forall2 (fun rg part => (length part <= 1)%nat /\ (forall s, In s part -> s_data s = tg_data rg) /\
      (keeps_area k (rings_paths t (tg_outer rg)) (present (concat (flat_map s_outer part))) /\
      (part <> [] -> keeps_area k (rings_paths t (tg_inner rg)) (present (concat (flat_map s_inner part)))))) rgs
      (map (fun rg => if region_kept C rg then [clipped_shape C rg] else []) rgs)); [|apply X, incl_refl].
    intros rgs. induction rgs as [|rg rgs IH]; intros I; constructor; [|apply IH; intros x Hx; apply I; right; exact Hx].
    assert (Hg : In rg (tp_regions t)) by (apply I; left; reflexivity).
    destruct (side_area m k t C (tg_outer rg) Hk Ht HS HC) as (lo & Fo & Eo).
    { intros r Hr. apply (HR rg r Hg). apply in_app_iff. auto. }
    destruct (side_area m k t C (tg_inner rg) Hk Ht HS HC) as (li & Fi & Ei).
    { intros r Hr. apply (HR rg r Hg). apply in_app_iff. auto. }
    destruct (region_kept C rg) eqn:Ek.
    + split; [cbn; lia|]. split; [intros s [<-|[]]; reflexivity|]. 
      cbn [flat_map clipped_shape s_outer s_inner]. rewrite !app_nil_r. split; [exists lo; auto|intros _; exists li; auto].
    + split; [cbn; lia|]. split; [intros s []|]. rewrite (region_not_kept C rg Ek) in Eo. split; [exists lo; auto|congruence].
Qed.

Lemma both_sides {D} m m' k (t : topology D) C C' r : wf_mask k -> wf_topology t -> small_steps t ->
  clips m k t C -> clips m' (other_side k) t C' -> closed_chain (map ne_points (seen_ring t r)) ->
  Z.abs (clipped_area C r + clipped_area C' r - shoelaces (map ne_points (seen_ring t r)))
  <= area_slack k (map ne_points (seen_ring t r)) + area_slack (other_side k) (map ne_points (seen_ring t r)).
Proof.
  intros Hk Ht HS HC HC' HR.
  assert (Hk' : wf_mask (other_side k)) by (destruct k; exact Hk).
  pose proof (ring_area m k t C HC (steps_bent m k t Hk Ht HS) r HR) as H1.
  pose proof (ring_area m' (other_side k) t C' HC' (steps_bent m' _ t Hk' Ht HS) r HR) as H2.
  pose proof (Qabs_add _ _ _ _ _ _ H1 H2) as B. rewrite (areas_add k _ HR) in B.
  rewrite <- !inject_Z_plus in B. unfold Qminus in B. rewrite <- inject_Z_opp, <- inject_Z_plus in B.
  unfold Qabs, Qle, inject_Z in B. cbn [Qnum Qden] in B. lia.
Qed.
