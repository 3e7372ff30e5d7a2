(** * PlaceClip: clipping keeps the places on the kept side that a ring goes around *)
From Verif Require Import GeoProofs TopoProofs BuildProofs ClipEdgeProofs ClipTopoProofs ClipTopoLaws ComposeProofs NormProofs NormTopo NormLaws PlaceSpec PlaceProofs.

(** ** One segment *)

Lemma behind_line k z p : inside_place k z -> ~ inside k p -> ahead (away k) z p < 0.
Proof.
  unfold inside_place, inside, away, ahead, east, south. destruct k; intros H1 H2; nia.
Qed.

Lemma not_inside_cases k p : ~ inside k p <-> on_line k p \/ outside k p.
Proof. unfold inside, on_line, outside, axis, level. destruct k; lia. Qed.

(** Signs of the swept areas of a segment and of the same segment up to a rounded crossing. *)
Lemma cut_sign (a b c d u w n : Z) : 0 < n -> c < u -> u < 0 -> 0 <= a ->
  Z.abs ((w - b) * (c - a) - (u - a) * (d - b)) < n * (a - c) ->
  n * (a - c) <= Z.abs (a * d - c * b) ->
  (0 < a * d - c * b -> 0 < a * w - u * b) /\ (a * d - c * b < 0 -> a * w - u * b < 0).
Proof.
  intros Hn Hcu Hu Ha HE HC.
  set (E := (w - b) * (c - a) - (u - a) * (d - b)) in *.
  set (X := a * d - c * b) in *. set (Y := a * w - u * b).
  assert (R : Y * (a - c) = X * (a - u) - a * E) by (unfold X, Y, E; ring).
  assert (B : a * Z.abs E <= a * Z.abs X) by nia.
  assert (B2 : (a - u) * Z.abs X = a * Z.abs X + (- u) * Z.abs X) by ring.
  assert (HX : 0 < Z.abs X) by nia.
  assert (B3 : 0 < (- u) * Z.abs X) by nia.
  split; intros HS.
  - assert (0 < Y * (a - c)); [|nia]. rewrite R. rewrite (Z.abs_eq X) in * by lia. nia.
  - assert (Y * (a - c) < 0); [|nia]. rewrite R. rewrite (Z.abs_neq X) in * by lia. nia.
Qed.

Lemma cut_between (a b d u w : Z) : u < 0 -> 0 <= a -> Z.min b d <= w <= Z.max b d ->
  (0 < a * w - u * b -> b <= 0 -> 0 < w) /\ (a * w - u * b < 0 -> 0 < b -> w <= 0).
Proof. intros Hu Ha Hw. split; intros; nia. Qed.

Lemma cut_segment (a b c d u w n : Z) : 0 < n -> c < u -> u < 0 -> u < a ->
  Z.abs ((w - b) * (c - a) - (u - a) * (d - b)) < n * (a - c) ->
  Z.min b d <= w <= Z.max b d ->
  a < 0 \/ n * (a - c) <= Z.abs (a * d - c * b) ->
  ((if (b <=? 0) && (0 <? w) && (0 <? a * w - u * b) then 1
    else if (w <=? 0) && (0 <? b) && (a * w - u * b <? 0) then -1 else 0) =
   (if (b <=? 0) && (0 <? d) && (0 <? a * d - c * b) then 1
    else if (d <=? 0) && (0 <? b) && (a * d - c * b <? 0) then -1 else 0)) /\
  ~ (a * w - u * b = 0 /\ Z.min a u <= 0 <= Z.max a u /\ Z.min b w <= 0 <= Z.max b w).
Proof.
  intros Hn Hcu Hu Hua HE Hw HC.
  destruct (Z.lt_ge_cases a 0) as [Ha|Ha].
  - split; [|lia].
    assert (P1 : b <= 0 -> 0 < w -> a * w - u * b < 0) by nia.
    assert (P2 : w <= 0 -> 0 < b -> 0 < a * w - u * b) by nia.
    assert (P3 : b <= 0 -> 0 < d -> a * d - c * b < 0) by nia.
    assert (P4 : d <= 0 -> 0 < b -> 0 < a * d - c * b) by nia.
    destruct (Z.leb_spec b 0), (Z.ltb_spec 0 w), (Z.leb_spec w 0), (Z.ltb_spec 0 b), (Z.ltb_spec 0 d), (Z.leb_spec d 0); try lia; cbn [andb];
      destruct (Z.ltb_spec 0 (a * w - u * b)), (Z.ltb_spec (a * w - u * b) 0), (Z.ltb_spec 0 (a * d - c * b)), (Z.ltb_spec (a * d - c * b) 0); try reflexivity; lia.
  - destruct HC as [HC|HC]; [lia|].
    destruct (cut_sign a b c d u w n Hn Hcu Hu Ha HE HC) as (S1 & S2).
    destruct (cut_between a b d u w Hu Ha Hw) as (B1 & B2).
    assert (N : a * d - c * b <> 0) by nia.
    assert (Q1 : b <= 0 -> d <= 0 -> a * d - c * b <= 0) by nia.
    assert (Q2 : 0 < b -> 0 < d -> 0 < a * d - c * b) by nia.
    split; [|lia].
    destruct (Z.leb_spec b 0), (Z.ltb_spec 0 w), (Z.leb_spec w 0), (Z.ltb_spec 0 b), (Z.ltb_spec 0 d), (Z.leb_spec d 0); try lia; cbn [andb];
      destruct (Z.ltb_spec 0 (a * w - u * b)), (Z.ltb_spec (a * w - u * b) 0), (Z.ltb_spec 0 (a * d - c * b)), (Z.ltb_spec (a * d - c * b) 0); try reflexivity; lia.
Qed.

(** The crossing point, as far as it matters here. *)
Definition near (k : clip_mask) (p q x : point) : Prop :=
  on_line k x /\
  Z.min (along k p) (along k q) <= along k x <= Z.max (along k p) (along k q) /\
  Z.abs ((along k x - along k p) * (axis k q - axis k p)
         - (level k - axis k p) * (along k q - along k p)) < Z.abs (axis k q - axis k p).

Lemma near_swap k p q x : near k p q x -> near k q p x.
Proof.
  intros (HL & HB & HE). split; [assumption|]. split; [lia|].
  rewrite <- (Z.abs_opp (_ - _ * _)), <- (Z.abs_opp (axis k p - axis k q)).
  replace (- (axis k p - axis k q)) with (axis k q - axis k p) by ring.
  replace (- ((along k x - along k q) * (axis k p - axis k q) - (level k - axis k q) * (along k p - along k q)))
    with ((along k x - along k p) * (axis k q - axis k p) - (level k - axis k p) * (along k q - along k p)) by ring.
  assumption.
Qed.

Lemma rounded_near k p q x : rounded_crossing k p q x -> near k p q x.
Proof. intros (H1 & H2 & H3 & _). split; [|split]; assumption. Qed.

Lemma cut_crossing k z x p q : inside_place k z -> inside k p -> outside k q -> near k p q x -> clear_of k z p q ->
  ray_crossing (away k) z p x = ray_crossing (away k) z p q /\ ~ on_segment z p x.
Proof.
  intros Hz Hp Hq (HL & HB & HE) HC. specialize (HC (or_introl (conj Hp Hq))).
  unfold ray_crossing. rewrite (on_segment_frame (away k)), !(swept_frame (away k)) in *.
  apply (cut_segment (ahead (away k) z p) (across (away k) z p) (ahead (away k) z q) (across (away k) z q) (ahead (away k) z x) (across (away k) z x) (Zpos (pl_n z))); [lia| | | | | |].
  - unfold on_line, outside, inside in *. unfold axis, level in *. destruct k; cbn [away ahead]; unfold east, south; nia.
  - apply behind_line; [assumption|]. rewrite not_inside_cases. left. assumption.
  - unfold on_line, outside, inside in *. unfold axis, level in *. destruct k; cbn [away ahead]; unfold east, south; nia.
  - assert (HE' : Z.pos (pl_n z) * Z.pos (pl_n z) * Z.abs ((along k x - along k p) * (axis k q - axis k p) - (level k - axis k p) * (along k q - along k p)) <
                  Z.pos (pl_n z) * Z.pos (pl_n z) * Z.abs (axis k q - axis k p)) by nia.
    unfold on_line in HL.
    assert (EQ : Z.abs ((across (away k) z x - across (away k) z p) * (ahead (away k) z q - ahead (away k) z p) -
       (ahead (away k) z x - ahead (away k) z p) * (across (away k) z q - across (away k) z p)) =
       Z.pos (pl_n z) * Z.pos (pl_n z) * Z.abs ((along k x - along k p) * (axis k q - axis k p) - (level k - axis k p) * (along k q - along k p))).
    { rewrite <- HL. rewrite <- (Z.abs_eq (Z.pos (pl_n z) * Z.pos (pl_n z))) at 1 by lia. rewrite <- Z.abs_mul.
      destruct k; cbn [away ahead across axis along]; unfold east, south;
        first [apply f_equal; ring | rewrite <- Z.abs_opp; apply f_equal; ring]. }
    rewrite EQ.
    assert (EQ2 : Z.pos (pl_n z) * (ahead (away k) z p - ahead (away k) z q) = Z.pos (pl_n z) * Z.pos (pl_n z) * Z.abs (axis k q - axis k p)).
    { rewrite <- Z.mul_assoc. f_equal. unfold inside, outside, axis in *. destruct k; cbn [away ahead]; unfold east, south; nia. }
    rewrite EQ2. exact HE'.
  - destruct k; cbn [away across along] in *; unfold east, south; nia.
  - destruct HC as [(HC & _)|HC]; [left; assumption|right].
    rewrite Z.abs_eq in HC; [exact HC|]. unfold inside, outside in *. destruct k; cbn [away ahead]; unfold east, south; nia.
Qed.

Lemma on_segment_swap z p q : on_segment z p q <-> on_segment z q p.
Proof. unfold on_segment. rewrite (swept_swap z p q). lia. Qed.

Lemma clear_swap k z p q : clear_of k z p q -> clear_of k z q p.
Proof.
  unfold clear_of. intros H O. destruct H as [H|H]; [unfold opposite in *; tauto|tauto|right].
  rewrite (swept_swap z p q), Z.abs_opp. rewrite <- (Z.abs_opp (ahead _ _ q - _)).
  replace (- (ahead (away k) z q - ahead (away k) z p)) with (ahead (away k) z p - ahead (away k) z q) by ring. assumption.
Qed.

Section Clip.
Variable k : clip_mask.
Variable z : place.
Hypothesis inside_z : inside_place k z.

Local Notation d := (away k).
Local Notation f := (segment_crossing d z).

(** No crossing and no meeting on the far side. *)
Lemma far_side p q : ~ inside k p -> ~ inside k q -> ray_crossing d z p q = 0 /\ ~ on_segment z p q.
Proof.
  intros Hp Hq. pose proof (behind_line k z p inside_z Hp) as A. pose proof (behind_line k z q inside_z Hq) as B.
  split; [apply no_crossing; lia|]. rewrite (on_segment_frame d). lia.
Qed.

Lemma on_line_far p : on_line k p -> ~ inside k p.
Proof. intros H. apply not_inside_cases. auto. Qed.

Definition ends_of (s : point * point * bool) : list point := [fst (fst s); snd (fst s)].

Definition fine (X : point -> point -> point) (p q : point) : Prop :=
  (opposite k p q -> near k p q (X p q)) /\ clear_of k z p q /\ ~ on_segment z p q.

Lemma part_crossing X p q : fine X p q ->
  sum (map (fun s => f (ends_of s)) (kept_part k (X p q) p q)) = f [p; q] /\
  (forall s, In s (kept_part k (X p q) p q) -> ~ on_segment z (fst (fst s)) (snd (fst s))).
Proof.
  intros (HX & HC & HO). unfold kept_part, ends_of.
  destruct (insideb_spec k p) as [Hp|Hp].
  - cbn [map sum fold_right fst snd]. destruct (outsideb_spec k q) as [Hq|Hq].
    + destruct (cut_crossing k z (X p q) p q inside_z Hp Hq (HX (or_introl (conj Hp Hq))) HC) as (E & N).
      cbn [segment_crossing]. split; [lia|]. intros s [<-|[]]. exact N.
    + split; [lia|]. intros s [<-|[]]. exact HO.
  - destruct (insideb_spec k q) as [Hq|Hq].
    + destruct (outsideb_spec k p) as [Op|Op]; cbn [map sum fold_right fst snd].
      * destruct (cut_crossing k z (X p q) q p inside_z Hq Op (near_swap _ _ _ _ (HX (or_intror (conj Op Hq)))) (clear_swap _ _ _ _ HC)) as (E & N).
        cbn [segment_crossing]. rewrite (crossing_swap d z (X p q) q), (crossing_swap d z p q).
        split; [lia|]. intros s [<-|[]]. cbn [fst snd]. rewrite on_segment_swap. exact N.
      * split; [lia|]. intros s [<-|[]]. exact HO.
    + cbn [map sum fold_right]. split; [|intros s []]. symmetry. apply far_side; assumption.
Qed.

(** ** One path *)

Definition fine_path (X : point -> point -> point) (ps : list point) : Prop :=
  forall p q, In (p, q) (combine ps (tl ps)) -> fine X p q.

Lemma tally_one g ps : tally g [ps] = sum (map g (segments ps)).
Proof. unfold tally. cbn [flat_map]. rewrite app_nil_r. reflexivity. Qed.

Lemma parts_crossing X ps : fine_path X ps ->
  sum (map (fun s => f (ends_of s)) (kept_parts k X ps)) = tally f [ps] /\
  (forall s, In s (kept_parts k X ps) -> ~ on_segment z (fst (fst s)) (snd (fst s))).
Proof.
  rewrite tally_one. induction ps as [|p ps IH]; intros HF; [split; [reflexivity|intros s []]|].
  destruct ps as [|q t]; [split; [reflexivity|intros s []]|].
  destruct IH as (E & N); [intros a b Hab; apply HF; right; exact Hab|].
  change (kept_parts k X (p :: q :: t)) with (kept_part k (X p q) p q ++ kept_parts k X (q :: t)).
  destruct (part_crossing X p q) as (E1 & N1); [apply HF; left; reflexivity|].
  change (segments (p :: q :: t)) with ([p; q] :: segments (q :: t)).
  rewrite map_app, sum_app, E1, E. split; [reflexivity|].
  intros s Hs. apply in_app_iff in Hs as [Hs|Hs]; auto.
Qed.

Lemma fine_good X ps : fine_path X ps -> good_X k X ps.
Proof. intros HF p q Hin Ho. apply (HF p q Hin), Ho. Qed.

Lemma joined_parts parts : parts_joined k parts ->
  (forall s, In s parts -> ~ on_segment z (fst (fst s)) (snd (fst s))) ->
  tally f [part_points parts] = sum (map (fun s => f (ends_of s)) parts) /\
  (forall p q, In [p; q] (segments (part_points parts)) -> ~ on_segment z p q).
Proof.
  rewrite tally_one. induction parts as [|[[a b] v] parts IH]; intros HJ HO; [split; [reflexivity|intros p q []]|].
  destruct parts as [|[[a' b'] v'] t].
  - split; [cbn; lia|]. intros p q [H|[]]. injection H as <- <-. apply (HO (a, b, v)). left. reflexivity.
  - destruct HJ as (HJ & HJ'). cbn [fst snd] in HJ. destruct IH as (E & N); [exact HJ'|intros s Hs; apply HO; right; exact Hs|].
    change (part_points ((a, b, v) :: (a', b', v') :: t)) with (a :: b :: part_points ((a', b', v') :: t)).
    set (l := part_points ((a', b', v') :: t)) in *.
    assert (El : exists l', l = a' :: l') by (unfold l; cbn; eexists; reflexivity). destruct El as (l' & El).
    assert (Es : segments (a :: b :: l) = [a; b] :: [b; a'] :: segments l) by (rewrite El; reflexivity).
    rewrite Es. cbn [map sum fold_right]. change (fold_right Z.add 0) with sum. rewrite E.
    assert (Q : f [b; a'] = 0 /\ ~ on_segment z b a').
    { destruct HJ as [->|(H1 & H2)].
      - split; [apply crossing_self|]. intros On. apply (HO (a, a', v)); [left; reflexivity|]. cbn [fst snd].
        exfalso. apply (HO (a', b', v')); [right; left; reflexivity|]. cbn [fst snd].
        unfold on_segment, swept in *. split; [|lia]. assert (east z a' = 0) by lia. assert (south z a' = 0) by lia. nia.
      - apply far_side; apply on_line_far; assumption. }
    destruct Q as (Q1 & Q2). split; [rewrite Q1; change (ends_of (a, b, v)) with [a; b]; reflexivity|].
    intros p q [H|[H|H]].
    + injection H as <- <-. apply (HO (a, b, v)). left. reflexivity.
    + injection H as <- <-. assumption.
    + apply N, H.
Qed.

Lemma dedup_segments ps s : In s (segments (dedup ps)) -> In s (segments ps).
Proof.
  induction ps as [|p ps IH]; [intros []|]. destruct ps as [|q t]; [intros []|].
  destruct (dedup_hd q t) as (t' & E). 
  change (dedup (p :: q :: t)) with (if pt_eqb p q then dedup (q :: t) else p :: dedup (q :: t)).
  change (segments (p :: q :: t)) with ([p; q] :: segments (q :: t)).
  destruct (pt_eqb p q); [intros H; right; apply IH, H|]. rewrite E. change (segments (p :: q :: t')) with ([p; q] :: segments (q :: t')).
  intros [H|H]; [left; exact H|right]. apply IH. rewrite E. exact H.
Qed.

Lemma segments_dedup ps s : In s (segments ps) -> In s (segments (dedup ps)) \/ exists p, In p ps /\ s = [p; p].
Proof.
  induction ps as [|p ps IH]; [intros []|]. destruct ps as [|q t]; [intros []|].
  destruct (dedup_hd q t) as (t' & E). 
  change (dedup (p :: q :: t)) with (if pt_eqb p q then dedup (q :: t) else p :: dedup (q :: t)).
  change (segments (p :: q :: t)) with ([p; q] :: segments (q :: t)).
  intros [<-|H].
  - destruct (pt_eqb p q) eqn:Ep; [right; apply pt_eqb_eq in Ep; subst q; exists p; split; [left|]; reflexivity|left].
    rewrite E. left. reflexivity.
  - destruct (IH H) as [H'|(r & Hr & ->)]; [left|right; exists r; split; [right; exact Hr|reflexivity]].
    destruct (pt_eqb p q); [exact H'|]. rewrite E in *. right. exact H'.
Qed.

Lemma off_one ps : off z [ps] <-> forall p q, In [p; q] (segments ps) -> ~ on_segment z p q.
Proof. unfold off. cbn [flat_map]. rewrite app_nil_r. reflexivity. Qed.

Lemma at_end p q : on_segment z p p -> on_segment z p q /\ on_segment z q p.
Proof.
  unfold on_segment, swept. intros (_ & H1 & H2). assert (east z p = 0) by lia. assert (south z p = 0) by lia.
  split; (split; [nia|lia]).
Qed.

Lemma clip_path_crossing X ps : fine_path X ps ->
  tally f [clip_path k X ps] = tally f [ps] /\ off z [clip_path k X ps].
Proof.
  intros HF. destruct (parts_crossing X ps HF) as (E & N).
  destruct (joined_parts _ (kept_parts_joined k X ps (fine_good X ps HF)) N) as (E' & N').
  split.
  - rewrite <- (tally_dedup f (clip_path k X ps)), clip_path_dedup, tally_dedup, E', E by apply crossing_self. reflexivity.
  - apply off_one. intros p q H. apply segments_dedup in H as [H|(r & Hr & H)].
    + rewrite clip_path_dedup in H. apply N', dedup_segments, H.
    + injection H as -> ->. apply fold_parts_in in Hr as [[]|(s & Hs & Hr)]. intros On.
      apply (N s Hs). destruct Hr as [->| ->]; [apply (proj1 (at_end _ _ On))|apply (proj2 (at_end _ _ On))].
Qed.

(** ** Ends *)

Definition touches (n a : point) : Prop := (inside k n /\ a = n) \/ (~ inside k n /\ on_line k a).

Lemma first_dedup ps : first (dedup ps) = first ps.
Proof. destruct ps as [|p t]; [reflexivity|]. destruct (dedup_hd p t) as (t' & ->). reflexivity. Qed.

Lemma final_dedup ps : final (dedup ps) = final ps.
Proof.
  replace (dedup ps) with (rev (dedup (rev ps))) by (rewrite dedup_rev; apply rev_involutive).
  rewrite final_rev, first_dedup. rewrite <- (rev_involutive ps) at 2. rewrite final_rev. reflexivity.
Qed.

Lemma kept_parts_nil X ps p q : kept_parts k X ps = [] -> first ps = Some p -> final ps = Some q ->
  p = q \/ (~ inside k p /\ ~ inside k q).
Proof.
  intros E Hp Hq. destruct ps as [|a [|b t]]; [discriminate|left; cbn in *; congruence|right].
  assert (N : forall r, In r (a :: b :: t) -> ~ inside k r).
  { clear Hp Hq. revert a E. induction t as [|c t IH] in b |- *; intros a E.
    - unfold kept_parts in E. cbn [tl combine flat_map fst snd app] in E. unfold kept_part in E.
      destruct (insideb_spec k a); [discriminate|]. destruct (insideb_spec k b); [destruct (outsideb k a); discriminate|].
      intros r [<-|[<-|[]]]; assumption.
    - change (kept_parts k X (a :: b :: c :: t)) with (kept_part k (X a b) a b ++ kept_parts k X (b :: c :: t)) in E.
      apply app_eq_nil in E as (E1 & E2). intros r [<-|Hr]; [|apply (IH c b E2 r Hr)].
      unfold kept_part in E1. destruct (insideb_spec k a); [discriminate|assumption]. }
  split; apply N; [apply first_in, Hp|apply final_in, Hq].
Qed.

Lemma first_part_touches X p t s l : good_X k X (p :: t) -> kept_parts k X (p :: t) = s :: l -> touches p (fst (fst s)).
Proof.
  intros HX E. destruct (insideb_spec k p) as [Hp|Hp].
  - left. split; [assumption|]. destruct t as [|q t]; [discriminate|].
    change (kept_parts k X (p :: q :: t)) with (kept_part k (X p q) p q ++ kept_parts k X (q :: t)) in E.
    unfold kept_part in E. destruct (insideb_spec k p); [|contradiction]. cbn [app] in E. injection E as <- _. reflexivity.
  - right. split; [assumption|]. eapply first_part_on_line; eassumption.
Qed.

Lemma last_part_touches X ps : forall q s l, good_X k X ps -> final ps = Some q -> kept_parts k X ps = l ++ [s] -> touches q (snd (fst s)).
Proof.
  induction ps as [|p ps IH] using rev_ind; intros q s l HX Hq E; [discriminate|].
  rewrite final_app in Hq. injection Hq as <-.
  destruct (final ps) as [r|] eqn:Er.
  2:{ destruct ps as [|a ps]; [cbn in E; destruct l; discriminate|]. destruct (final_nonempty (a :: ps)) as (x & Ex); [discriminate|]. congruence. }
  unfold kept_parts in E. rewrite (segs_snoc ps p r Er), flat_map_app in E. cbn [flat_map fst snd app] in E. rewrite app_nil_r in E.
  assert (Hrp : In (r, p) (combine (ps ++ [p]) (tl (ps ++ [p])))).
  { rewrite (segs_snoc ps p r Er). apply in_app_iff. right. left. reflexivity. }
  destruct (kept_part k (X r p) r p) as [|s' [|]] eqn:Es.
  - rewrite app_nil_r in E. fold (kept_parts k X ps) in E.
    assert (T : touches r (snd (fst s))).
    { apply (IH r s l); [|reflexivity|exact E]. intros a b Hab. apply HX. rewrite (segs_snoc ps p r Er). apply in_app_iff. left. exact Hab. }
    unfold kept_part in Es. destruct (insideb_spec k r) as [|Hr]; [discriminate|].
    destruct (insideb_spec k p) as [|Hp]; [destruct (outsideb k r); discriminate|].
    destruct T as [(T & _)|(_ & T)]; [contradiction|]. right. auto.
  - apply app_inj_tail in E as (_ & ->). unfold kept_part in Es. destruct (insideb_spec k r) as [Hr|Hr].
    + injection Es as <-. cbn [fst snd]. destruct (outsideb_spec k p) as [Op|Op].
      * right. split; [apply not_inside_cases; auto|]. apply HX; [assumption|left; auto].
      * destruct (trichotomy k p) as [[I|O]|O]; [left; auto|right; split; [apply on_line_far|]; assumption|contradiction].
    + destruct (insideb_spec k p) as [Hp|Hp]; [|discriminate]. destruct (outsideb k r); injection Es as <-; left; auto.
  - pose proof (kept_part_length k (X r p) r p) as L. rewrite Es in L. cbn in L. lia.
Qed.

Lemma part_points_first s l : first (part_points (s :: l)) = Some (fst (fst s)).
Proof. reflexivity. Qed.

Lemma part_points_final l s : final (part_points (l ++ [s])) = Some (snd (fst s)).
Proof.
  rewrite part_points_app. unfold part_points at 2. cbn [flat_map app].
  change [fst (fst s); snd (fst s)] with ([fst (fst s)] ++ [snd (fst s)]). rewrite app_assoc. apply final_app.
Qed.

Lemma clip_path_ends X ps p q : good_X k X ps -> first ps = Some p -> final ps = Some q ->
  (big (clip_path k X ps) = false -> (p = q \/ (~ inside k p /\ ~ inside k q))) /\
  (forall a b, first (clip_path k X ps) = Some a -> final (clip_path k X ps) = Some b -> touches p a /\ touches q b).
Proof.
  intros HX Hp Hq.
  assert (F : first (clip_path k X ps) = first (part_points (kept_parts k X ps))).
  { rewrite <- first_dedup, clip_path_dedup, first_dedup. reflexivity. }
  assert (L : final (clip_path k X ps) = final (part_points (kept_parts k X ps))).
  { rewrite <- final_dedup, clip_path_dedup, final_dedup. reflexivity. }
  split.
  - intros B. apply (kept_parts_nil X ps); [|assumption|assumption].
    destruct (kept_parts k X ps) as [|[[a b] v] l] eqn:E; [reflexivity|exfalso].
    unfold clip_path in B. rewrite E in B. cbn [fold_left append_part] in B. cbn [final] in B. rewrite andb_false_r in B. cbn [app] in B.
    pose proof (fold_parts_length l [a; b]) as (_ & H). cbn [length] in H.
    destruct (fold_left append_part l [a; b]) as [|x [|y t]]; cbn [length] in H; try lia. discriminate.
  - intros a b Ha Hb. rewrite F in Ha. rewrite L in Hb. split.
    + destruct ps as [|p0 t]; [discriminate|]. injection Hp as ->.
      destruct (kept_parts k X (p :: t)) as [|s l] eqn:E; [discriminate|]. rewrite part_points_first in Ha. injection Ha as <-.
      eapply first_part_touches; eassumption.
    + destruct (kept_parts k X ps) as [|s l] eqn:E using rev_ind; [discriminate|]. clear IHl.
      rewrite part_points_final in Hb. injection Hb as <-. eapply last_part_touches; eassumption.
Qed.

Lemma off_rev ps : off z [ps] -> off z [rev ps].
Proof.
  rewrite !off_one. intros H p q Hin. rewrite segments_rev in Hin. apply in_map_iff in Hin as (s & E & Hs). apply in_rev in Hs.
  destruct (segments_pairs _ _ Hs) as (a & b & ->). cbn in E. injection E as <- <-. rewrite on_segment_swap. apply H, Hs.
Qed.

(** ** One ring *)

Section Ring.
Context {D : Type}.
Variable m : mode.
Variable t : topology D.
Variable C : list (list point).
Hypothesis HC : clips m k t C.
Hypothesis all_fine : forall e, In e (tp_edges t) -> fine_path (isect m k) (te_points e).

Lemma clips_nth i e : nth_error (tp_edges t) i = Some e ->
  nth_error C i = Some (clip_path k (isect m k) (te_points e)) /\ fine_path (isect m k) (te_points e).
Proof.
  intros E. assert (X : exists c, nth_error C i = Some c /\ clip_edge m k (te_points e) = Ok c).
  { unfold clips in HC. clear all_fine. revert i E. induction HC as [|e0 c0 es cs H F IH]; intros i E; [destruct i; discriminate|].
    destruct i as [|i]; [injection E as ->; exists c0; auto|]. apply IH; assumption. }
  destruct X as (c & Ec & H). rewrite (clip_edge_path m k _ _ H) in Ec. split; [exact Ec|].
  apply all_fine. eapply nth_error_In. eassumption.
Qed.

Lemma clips_none i : nth_error (tp_edges t) i = None -> nth_error C i = None.
Proof. intros E. apply nth_error_None. apply nth_error_None in E. pose proof (Forall2_length' _ _ _ HC) as L. unfold clips in HC. lia. Qed.

Lemma small_tally c : big c = false -> tally f [c] = 0.
Proof. destruct c as [|a [|b c]]; [reflexivity|reflexivity|discriminate]. Qed.

Lemma seen_piece d0 : tally f (map pc_path (visible_piece C d0)) = tally f (map ne_points (seen t d0)) /\
  off z (map pc_path (visible_piece C d0)).
Proof.
  unfold seen. destruct (nth_error (tp_edges t) (de_edge d0)) as [e|] eqn:E.
  - destruct (clips_nth _ _ E) as (Ec & HF). rewrite (visible_piece_big C d0 _ Ec).
    destruct (clip_path_crossing _ _ HF) as (H1 & H2). set (c := clip_path k (isect m k) (te_points e)) in *.
    assert (HO : tally f [oriented c (de_dir d0)] = tally f [oriented (te_points e) (de_dir d0)] /\ off z [oriented c (de_dir d0)]).
    { unfold oriented. destruct (de_dir d0); [split; assumption|].
      rewrite !tally_rev1, H1 by apply crossing_odd. split; [reflexivity|apply off_rev, H2]. }
    cbn [map ne_points]. destruct (big c) eqn:B; cbn [map pc_path]; [exact HO|].
    split; [|intros p q []]. destruct HO as (HO & _). rewrite <- HO. symmetry. apply small_tally.
    unfold oriented. destruct (de_dir d0); [assumption|]. unfold big in *. rewrite rev_length. assumption.
  - unfold visible_piece. rewrite (clips_none _ E). split; [reflexivity|intros p q []].
Qed.

Lemma seen_pieces ds : tally f (map pc_path (flat_map (visible_piece C) ds)) = tally f (map ne_points (flat_map (seen t) ds)) /\
  off z (map pc_path (flat_map (visible_piece C) ds)).
Proof.
  induction ds as [|d0 ds (IH1 & IH2)]; [split; [reflexivity|intros p q []]|]. cbn [flat_map].
  rewrite !map_app, !tally_app, IH1. destruct (seen_piece d0) as (E & O). rewrite E. split; [reflexivity|].
  apply off_app. split; assumption.
Qed.

(** Ends of the pieces. *)
Definition quiet (a b : point) : Prop := a = b \/ (ray_crossing d z a b = 0 /\ ~ on_segment z a b).

Lemma touches_quiet n a b : touches n a -> touches n b -> quiet a b.
Proof.
  intros [(H1 & ->)|(H1 & H2)] [(H3 & ->)|(H3 & H4)]; try contradiction; [left; reflexivity|right].
  apply far_side; apply on_line_far; assumption.
Qed.

Lemma touches_move n n' a : n = n' \/ (~ inside k n /\ ~ inside k n') -> touches n a -> touches n' a.
Proof. intros [->|(H1 & H2)] H; [assumption|]. destruct H as [(H & _)|(_ & H)]; [contradiction|right; auto]. Qed.

Lemma piece_ends d0 e n n' : seen t d0 = [e] -> first (ne_points e) = Some n -> final (ne_points e) = Some n' ->
  (visible_piece C d0 = [] /\ (n = n' \/ (~ inside k n /\ ~ inside k n'))) \/
  (exists q a b, visible_piece C d0 = [q] /\ fst_of q = Some a /\ fin_of q = Some b /\ touches n a /\ touches n' b).
Proof.
  unfold seen. destruct (nth_error (tp_edges t) (de_edge d0)) as [te|] eqn:E; [|discriminate].
  intros He. injection He as <-. cbn [ne_points]. intros Hn Hn'.
  destruct (clips_nth _ _ E) as (Ec & HF). rewrite (visible_piece_big C d0 _ Ec). apply fine_good in HF.
  assert (HE : exists p q, first (te_points te) = Some p /\ final (te_points te) = Some q /\
    (n, n') = match de_dir d0 with Forward => (p, q) | Backward => (q, p) end).
  { unfold oriented in *. destruct (de_dir d0); [exists n, n'; auto|]. rewrite first_rev in Hn. rewrite final_rev in Hn'. exists n', n. auto. }
  destruct HE as (p & q & Hp & Hq & EE). destruct (clip_path_ends _ _ p q HF Hp Hq) as (Z & T).
  set (c := clip_path k (isect m k) (te_points te)) in *. destruct (big c) eqn:B.
  - right. assert (Hne : c <> []) by (intros Ec0; rewrite Ec0 in B; discriminate).
    destruct (final_nonempty c Hne) as (b & Hb). destruct c as [|a c'] eqn:Ecc; [congruence|].
    destruct (T a b eq_refl Hb) as (T1 & T2). exists (Piece (KOld (de_edge d0)) (de_dir d0) (oriented (a :: c') (de_dir d0))).
    unfold fst_of, fin_of. cbn [pc_path].
    destruct (de_dir d0); injection EE as -> ->; unfold oriented; [exists a, b|exists b, a]; rewrite ?first_rev, ?final_rev; auto.
  - left. split; [reflexivity|]. specialize (Z eq_refl). destruct (de_dir d0); injection EE as -> ->; [assumption|].
    destruct Z as [->|Z]; [left; reflexivity|right; tauto].
Qed.

Fixpoint quiet_gaps (s : point) (p : piece) (ps : list piece) : Prop :=
  match ps with
  | [] => forall a, fin_of p = Some a -> quiet a s
  | q :: t => (forall a b, fin_of p = Some a -> fst_of q = Some b -> quiet a b) /\ quiet_gaps s q t
  end.

Lemma seen_single d0 : seen t d0 = [] \/ exists e, seen t d0 = [e].
Proof. unfold seen. destruct (nth_error (tp_edges t) (de_edge d0)); [right; eexists; reflexivity|left; reflexivity]. Qed.

Lemma unseen d0 : seen t d0 = [] -> visible_piece C d0 = [].
Proof.
  unfold seen, visible_piece. destruct (nth_error (tp_edges t) (de_edge d0)) eqn:E; [discriminate|]. rewrite (clips_none _ E). reflexivity.
Qed.

Lemma walk_gaps ds : forall n n' p s, chain n (map ne_points (flat_map (seen t) ds)) n' ->
  (forall a, fin_of p = Some a -> touches n a) -> touches n' s ->
  quiet_gaps s p (flat_map (visible_piece C) ds).
Proof.
  induction ds as [|d0 ds IH]; intros n n' p s HCh Hp Hs.
  - cbn in HCh. subst n'. cbn [flat_map quiet_gaps]. intros a Ha. eapply touches_quiet; [apply Hp, Ha|exact Hs].
  - cbn [flat_map] in *. destruct (seen_single d0) as [E|(e & E)].
    + rewrite E in HCh. rewrite (unseen d0 E). apply (IH n n'); assumption.
    + rewrite E in HCh. cbn [app map chain] in HCh. destruct HCh as (Hf & n1 & Hn1 & HCh).
      destruct (piece_ends d0 e n n1 E Hf Hn1) as [(Ev & Hm)|(q & a & b & Ev & Ha & Hb & Ta & Tb)]; rewrite Ev; cbn [app].
      * apply (IH n1 n'); [assumption| |assumption]. intros a Ha. eapply touches_move; [exact Hm|apply Hp, Ha].
      * cbn [quiet_gaps]. split.
        -- intros a' b' Ha' Hb'. rewrite Ha in Hb'. injection Hb' as <-. eapply touches_quiet; [apply Hp, Ha'|exact Ta].
        -- apply (IH n1 n'); [assumption| |assumption]. intros a' Ha'. rewrite Hb in Ha'. injection Ha' as <-. exact Tb.
Qed.

Lemma walk_ring ds : forall n n' p ps, chain n (map ne_points (flat_map (seen t) ds)) n' ->
  flat_map (visible_piece C) ds = p :: ps ->
  (exists a, fst_of p = Some a /\ touches n a) /\ (forall s, touches n' s -> quiet_gaps s p ps).
Proof.
  induction ds as [|d0 ds IH]; intros n n' p ps HCh Hv; [discriminate|].
  cbn [flat_map] in *. destruct (seen_single d0) as [E|(e & E)].
  - rewrite E in HCh. rewrite (unseen d0 E) in Hv. apply (IH n n'); assumption.
  - rewrite E in HCh. cbn [app map chain] in HCh. destruct HCh as (Hf & n1 & Hn1 & HCh).
    destruct (piece_ends d0 e n n1 E Hf Hn1) as [(Ev & Hm)|(q & a & b & Ev & Ha & Hb & Ta & Tb)]; rewrite Ev in Hv; cbn [app] in Hv.
    + destruct (IH n1 n' p ps HCh Hv) as ((a & Ha & Ta) & HG). split; [|exact HG]. exists a. split; [assumption|].
      eapply touches_move; [|exact Ta]. destruct Hm as [->|Hm]; [left; reflexivity|right; tauto].
    + injection Hv as <- <-. split; [exists a; auto|]. intros s Hs. apply (walk_gaps ds n1 n'); [assumption| |assumption].
      intros a' Ha'. rewrite Hb in Ha'. injection Ha' as <-. exact Tb.
Qed.

Lemma quiet_gap a b : quiet a b -> tally f (map pc_path (gap a b)) = 0 /\ off z (map pc_path (gap a b)).
Proof.
  unfold gap. intros Q. destruct ((px a =? px b) && (py a =? py b)) eqn:E; [split; [reflexivity|intros p q []]|].
  assert (Hne : a <> b).
  { intros ->. rewrite !Z.eqb_refl in E. discriminate. }
  destruct Q as [Q|(Q1 & Q2)]; [contradiction|].
  assert (X : tally f [[a; b]] = 0 /\ off z [[a; b]]).
  { split; [cbn; lia|]. intros p q [H|[]]. injection H as <- <-. exact Q2. }
  destruct ((px a <? px b) || _); exact X.
Qed.

Lemma gaps_tally s ps : forall p, has_ends p -> Forall has_ends ps -> quiet_gaps s p ps -> off z (map pc_path ps) ->
  tally f (map pc_path (close_gaps (Some s) p ps)) = tally f (map pc_path ps) /\
  off z (map pc_path (close_gaps (Some s) p ps)).
Proof.
  induction ps as [|q ps IH]; intros p (x & a & Hx & Ha) HE HQ HO; cbn [close_gaps quiet_gaps] in *; unfold fin_of, fst_of in *.
  - rewrite Ha. cbn [gap_between]. apply quiet_gap, HQ, Ha.
  - inversion HE as [|? ? Hq HE']; subst. destruct HQ as (HQ & HQ'). pose proof Hq as (b & y & Hb & _). unfold fst_of in Hb.
    rewrite Ha, Hb. cbn [gap_between]. destruct (quiet_gap a b (HQ a b Ha Hb)) as (G1 & G2).
    change (map pc_path (q :: ps)) with (map pc_path [q] ++ map pc_path ps) in *. apply off_app in HO as (O1 & O2).
    destruct (IH q Hq HE' HQ' O2) as (I1 & I2).
    change (q :: close_gaps (Some s) q ps) with ([q] ++ close_gaps (Some s) q ps).
    rewrite !map_app, !tally_app, G1, I1. split; [lia|]. rewrite !off_app. auto.
Qed.

Lemma clipped_ring_tally r : closed_chain (map ne_points (seen_ring t r)) ->
  tally f (map pc_path (clipped_ring C r)) = tally f (map ne_points (seen_ring t r)) /\
  off z (map pc_path (clipped_ring C r)).
Proof.
  intros (n & HCh). unfold seen_ring in *. unfold clipped_ring. pose proof (visible_ends C r) as HE.
  destruct (seen_pieces (tr_des r)) as (E & O). fold (visible C r) in E, O.
  destruct (visible C r) as [|p ps] eqn:Ev; [split; assumption|].
  destruct (walk_ring (tr_des r) n n p ps HCh Ev) as ((s & Hs & Ts) & HG). specialize (HG s Ts).
  inversion HE as [|? ? Hp HE']; subst.
  change (map pc_path (p :: ps)) with (map pc_path [p] ++ map pc_path ps) in *. apply off_app in O as (O1 & O2).
  destruct (gaps_tally s ps p Hp HE' HG O2) as (G1 & G2). unfold fst_of in Hs. rewrite Hs.
  change (p :: close_gaps (Some s) p ps) with ([p] ++ close_gaps (Some s) p ps).
  rewrite <- E, !map_app, !tally_app, G1. split; [reflexivity|]. apply off_app. auto.
Qed.

Lemma clipped_ring_winding r : off z (map ne_points (seen_ring t r)) -> closed_chain (map ne_points (seen_ring t r)) ->
  winding_number z (map pc_path (clipped_ring C r)) = winding_number z (map ne_points (seen_ring t r)).
Proof.
  intros HO HCl. destruct (clipped_ring_tally r HCl) as (E & O). rewrite <- !winds_tally in E. unfold winding_number.
  rewrite (any_ray East d z _ HO HCl), <- E. destruct (clipped_ring C r) as [|p ps] eqn:Er; [reflexivity|].
  rewrite <- Er in *. apply any_ray; [exact O|]. apply clipped_ring_closed. rewrite Er. discriminate.
Qed.

End Ring.
End Clip.
