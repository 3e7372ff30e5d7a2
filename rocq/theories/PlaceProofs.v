(** * PlaceProofs: lemmas about winding numbers *)
From Verif Require Import GeoProofs ClipEdgeProofs NormReturn NormLaws PlaceSpec.

(** ** Adding up over segments *)

Definition tally (f : list point -> Z) (es : list (list point)) : Z := sum (map f (flat_map segments es)).

Lemma sum_app a b : sum (a ++ b) = sum a + sum b.
Proof. induction a as [|x a IH]; [reflexivity|]. unfold sum in *. cbn [app fold_right]. lia. Qed.

Lemma sum_perm a b : Permutation a b -> sum a = sum b.
Proof. induction 1; unfold sum in *; cbn [fold_right] in *; lia. Qed.

Lemma tally_app f a b : tally f (a ++ b) = tally f a + tally f b.
Proof. unfold tally. rewrite flat_map_app, map_app, sum_app. reflexivity. Qed.

Lemma tally_cons f e es : tally f (e :: es) = tally f [e] + tally f es.
Proof. apply (tally_app f [e] es). Qed.

Lemma tally_perm f a b : Permutation a b -> tally f a = tally f b.
Proof. intros H. apply sum_perm, Permutation_map. apply Permutation_flat_map. assumption. Qed.

Lemma tally_concat f rs : tally f (concat rs) = sum (map (tally f) rs).
Proof. induction rs as [|r rs IH]; [reflexivity|]. cbn [concat]. rewrite tally_app, IH. reflexivity. Qed.

Definition odd_fun (f : list point -> Z) : Prop := forall p q, f [p; q] = - f [q; p].

Lemma segments_snoc ps p q : segments ((ps ++ [p]) ++ [q]) = segments (ps ++ [p]) ++ [[p; q]].
Proof.
  induction ps as [|a ps IH]; [reflexivity|]. destruct ps as [|b ps]; [reflexivity|].
  cbn [app segments] in *. rewrite IH. reflexivity.
Qed.

Lemma segments_rev ps : segments (rev ps) = map (@rev point) (rev (segments ps)).
Proof.
  induction ps as [|a ps IH]; [reflexivity|]. destruct ps as [|b ps]; [reflexivity|].
  cbn [rev] in *. rewrite segments_snoc, IH. cbn [segments rev]. rewrite map_app. reflexivity.
Qed.

Lemma segments_pairs ps s : In s (segments ps) -> exists p q, s = [p; q].
Proof.
  induction ps as [|a ps IH]; [intros []|]. destruct ps as [|b ps]; [intros []|].
  cbn [segments In]. intros [<-|H]; [eauto|apply IH, H].
Qed.

Lemma tally_rev1 f ps : odd_fun f -> tally f [rev ps] = - tally f [ps].
Proof.
  intros Hf. unfold tally. cbn [flat_map]. rewrite !app_nil_r, segments_rev.
  assert (X : forall l, (forall s, In s l -> exists p q, s = [p; q]) -> sum (map f (map (@rev point) (rev l))) = - sum (map f l)).
  { induction l as [|s l IH]; intros H; [reflexivity|]. cbn [rev]. rewrite !map_app, sum_app, IH by (intros; apply H; right; assumption).
    destruct (H s (or_introl eq_refl)) as (p & q & ->). cbn [map rev app]. unfold sum. cbn [fold_right]. rewrite (Hf q p). lia. }
  apply X. apply segments_pairs.
Qed.

Lemma tally_rev f es : odd_fun f -> tally f (map (@rev point) (rev es)) = - tally f es.
Proof.
  intros Hf. induction es as [|e es IH]; [reflexivity|]. cbn [rev]. rewrite map_app, tally_app, IH. cbn [map].
  rewrite tally_rev1, (tally_cons f e es) by assumption. lia.
Qed.

Lemma tally_glue f p es q : chain p es q -> tally f [glue es] = tally f es.
Proof. intros H. unfold tally. cbn [flat_map]. rewrite app_nil_r, (segments_glue p es q H). reflexivity. Qed.

Lemma tally_path_app f l1 p l2 : tally f [l1 ++ p :: l2] = tally f [l1 ++ [p]] + tally f [p :: l2].
Proof.
  unfold tally. cbn [flat_map]. rewrite !app_nil_r. induction l1 as [|a l1 IH]; [reflexivity|].
  destruct l1 as [|b l1]; cbn [app segments map] in *; unfold sum in *; cbn [fold_right] in *; lia.
Qed.

Lemma tally_close f c1 c2 : tally f [close (c1 ++ c2)] = tally f [close (c2 ++ c1)].
Proof.
  destruct c1 as [|p c1]; [rewrite app_nil_r; reflexivity|]. destruct c2 as [|q c2]; [rewrite app_nil_r; reflexivity|].
  unfold close. cbn [app]. rewrite <- !app_assoc. cbn [app].
  pose proof (tally_path_app f (p :: c1) q (c2 ++ [p])) as E1. cbn [app] in E1. rewrite E1.
  pose proof (tally_path_app f (q :: c2) p (c1 ++ [q])) as E2. cbn [app] in E2. rewrite E2. lia.
Qed.

Lemma tally_turned f a b : turned a b -> tally f [a] = tally f [b].
Proof. intros (l & r & -> & ->). apply tally_close. Qed.

Lemma tally_nil f : f [] = 0 -> tally f [[]] = 0.
Proof. reflexivity. Qed.

Lemma tally_dedup f ps : (forall p, f [p; p] = 0) -> tally f [dedup ps] = tally f [ps].
Proof.
  intros Hf. induction ps as [|p ps IH]; [reflexivity|]. destruct ps as [|q ps]; [reflexivity|].
  rewrite dedup_cons2. assert (E : tally f [p :: q :: ps] = f [p; q] + tally f [q :: ps]).
  { unfold tally. cbn [flat_map segments app map]. reflexivity. }
  rewrite E. destruct (pt_eqb p q) eqn:Epq.
  - apply pt_eqb_eq in Epq. subst. rewrite Hf. lia.
  - rewrite <- IH. destruct (dedup_hd q ps) as (t & Et). rewrite Et. reflexivity.
Qed.

(** ** Winding numbers as tallies *)

Lemma winds_tally d z es : winds_by d z es = tally (segment_crossing d z) es.
Proof. reflexivity. Qed.

Lemma swept_swap z p q : swept z q p = - swept z p q.
Proof. unfold swept. lia. Qed.

Lemma crossing_swap d z p q : ray_crossing d z p q = - ray_crossing d z q p.
Proof.
  unfold ray_crossing. rewrite (swept_swap z p q). generalize (swept z p q). intros c.
  destruct (Z.leb_spec (across d z p) 0), (Z.ltb_spec 0 (across d z q)), (Z.ltb_spec 0 c),
    (Z.leb_spec (across d z q) 0), (Z.ltb_spec 0 (across d z p)), (Z.ltb_spec c 0), (Z.ltb_spec 0 (-c)), (Z.ltb_spec (-c) 0);
    cbn [andb]; lia.
Qed.

Lemma crossing_odd d z : odd_fun (segment_crossing d z).
Proof. intros p q. cbn. apply crossing_swap. Qed.

Lemma crossing_self d z p : segment_crossing d z [p; p] = 0.
Proof. cbn. pose proof (crossing_swap d z p p). lia. Qed.

(** ** The direction of the ray does not matter *)

Definition next_ray (d : ray) : ray := match d with East => South | South => West | West => North | North => East end.

Definition corner (d : ray) (z : place) (p : point) : Z :=
  if (0 <=? ahead d z p) && (0 <? across d z p) then 1 else 0.

Lemma turn_ray (a b c d : Z) :
  ~ (a * d - c * b = 0 /\ Z.min a c <= 0 <= Z.max a c /\ Z.min b d <= 0 <= Z.max b d) ->
  (if (b <=? 0) && (0 <? d) && (0 <? a * d - c * b) then 1
   else if (d <=? 0) && (0 <? b) && (a * d - c * b <? 0) then -1 else 0) -
  (if (- a <=? 0) && (0 <? - c) && (0 <? a * d - c * b) then 1
   else if (- c <=? 0) && (0 <? - a) && (a * d - c * b <? 0) then -1 else 0) =
  (if (0 <=? c) && (0 <? d) then 1 else 0) - (if (0 <=? a) && (0 <? b) then 1 else 0).
Proof.
  intros H.
  destruct (Z.leb_spec b 0), (Z.ltb_spec 0 d), (Z.leb_spec d 0), (Z.ltb_spec 0 b); try lia; cbn [andb];
  destruct (Z.leb_spec (-a) 0), (Z.ltb_spec 0 (-c)), (Z.leb_spec (-c) 0), (Z.ltb_spec 0 (-a)),
    (Z.leb_spec 0 c), (Z.leb_spec 0 a); try lia; cbn [andb];
  destruct (Z.ltb_spec 0 (a * d - c * b)), (Z.ltb_spec (a * d - c * b) 0); try lia; cbn [andb]; try lia; exfalso; try nia.
  all: idtac.
Qed.

Lemma swept_frame d z p q : swept z p q = ahead d z p * across d z q - ahead d z q * across d z p.
Proof. unfold swept. destruct d; cbn [ahead across]; lia. Qed.

Lemma across_next d z p : across (next_ray d) z p = - ahead d z p.
Proof. destruct d; cbn [across ahead next_ray]; lia. Qed.

Lemma on_segment_frame d z p q : on_segment z p q <->
  (ahead d z p * across d z q - ahead d z q * across d z p = 0 /\
   Z.min (ahead d z p) (ahead d z q) <= 0 <= Z.max (ahead d z p) (ahead d z q) /\
   Z.min (across d z p) (across d z q) <= 0 <= Z.max (across d z p) (across d z q)).
Proof.
  unfold on_segment. rewrite <- (swept_frame d z p q). generalize (swept z p q). intros c.
  destruct d; cbn [ahead across]; split; intros (H1 & H2 & H3); repeat split; lia.
Qed.

Lemma crossing_next d z p q : ~ on_segment z p q ->
  ray_crossing d z p q - ray_crossing (next_ray d) z p q = corner d z q - corner d z p.
Proof.
  rewrite (on_segment_frame d). intros H. unfold ray_crossing, corner. rewrite (swept_frame d z p q), !across_next.
  apply turn_ray. assumption.
Qed.

Lemma first_cons (p : point) t : first (p :: t) = Some p.
Proof. reflexivity. Qed.
Lemma final_cons2 (p q : point) t : final (p :: q :: t) = final (q :: t).
Proof.
  unfold final. cbn [rev]. destruct (rev t) as [|x l]; reflexivity.
Qed.

Lemma path_next d z ps p q : off z [ps] -> first ps = Some p -> final ps = Some q ->
  winds_by d z [ps] - winds_by (next_ray d) z [ps] = corner d z q - corner d z p.
Proof.
  unfold off, winds_by. cbn [flat_map]. rewrite app_nil_r. revert p. induction ps as [|a ps IH]; intros p Ho Hf Hl; [discriminate|].
  injection Hf as ->. destruct ps as [|b ps].
  - injection Hl as ->. cbn. lia.
  - rewrite final_cons2 in Hl. change (segments (p :: b :: ps)) with ([p; b] :: segments (b :: ps)) in *.
    cbn [map segment_crossing]. unfold sum in *. cbn [fold_right].
    specialize (IH b (fun x y Hxy => Ho x y (or_intror Hxy)) eq_refl Hl).
    pose proof (crossing_next d z p b (Ho p b (or_introl eq_refl))). lia.
Qed.

Lemma off_app z a b : off z (a ++ b) <-> off z a /\ off z b.
Proof.
  unfold off. rewrite flat_map_app. split.
  - intros H. split; intros p q Hpq; apply H, in_app_iff; auto.
  - intros (H1 & H2) p q Hpq. apply in_app_iff in Hpq as [Hpq|Hpq]; auto.
Qed.

Lemma chain_next d z es : forall p q, off z es -> chain p es q ->
  winds_by d z es - winds_by (next_ray d) z es = corner d z q - corner d z p.
Proof.
  induction es as [|e es IH]; intros p q Ho.
  - cbn [chain]. intros ->. unfold winds_by. cbn. lia.
  - cbn [chain]. intros (Hf & r & Hl & HC). apply (off_app z [e] es) in Ho as (Ho1 & Ho2).
    rewrite !winds_tally, !(tally_cons _ e es), <- !winds_tally.
    pose proof (path_next d z e p r Ho1 Hf Hl). pose proof (IH r q Ho2 HC). lia.
Qed.

Lemma any_ray d d' z es : off z es -> closed_chain es -> winds_by d z es = winds_by d' z es.
Proof.
  intros Ho (p & HC).
  assert (X : forall d, winds_by d z es = winds_by (next_ray d) z es).
  { intros r. pose proof (chain_next r z es p p Ho HC). lia. }
  pose proof (X East). pose proof (X South). pose proof (X West). cbn [next_ray] in *.
  destruct d, d'; congruence.
Qed.

(** ** Places outside the bounding box *)

Lemma no_crossing d z p q : (ahead d z p <= 0 /\ ahead d z q <= 0) \/ (across d z p <= 0 /\ across d z q <= 0) \/
  (0 < across d z p /\ 0 < across d z q) -> ray_crossing d z p q = 0.
Proof.
  intros H. unfold ray_crossing. rewrite (swept_frame d).
  destruct (Z.leb_spec (across d z p) 0), (Z.ltb_spec 0 (across d z q)), (Z.leb_spec (across d z q) 0), (Z.ltb_spec 0 (across d z p));
    try lia; cbn [andb]; try reflexivity.
  - destruct (Z.ltb_spec 0 (ahead d z p * across d z q - ahead d z q * across d z p)); [|reflexivity]. exfalso. nia.
  - destruct (Z.ltb_spec (ahead d z p * across d z q - ahead d z q * across d z p) 0); [|reflexivity]. exfalso. nia.
Qed.

Lemma tally_zero f es : (forall p q, In [p; q] (flat_map segments es) -> f [p; q] = 0) -> tally f es = 0.
Proof.
  intros H. unfold tally.
  assert (P : forall s, In s (flat_map segments es) -> f s = 0).
  { intros s Hs. apply in_flat_map in Hs as (e & He & Hs). destruct (segments_pairs e s Hs) as (p & q & ->).
    apply H. apply in_flat_map. eauto. }
  clear H. induction (flat_map segments es) as [|s l IH]; [reflexivity|]. unfold sum in *. cbn [map fold_right].
  rewrite IH by (intros; apply P; right; assumption). rewrite (P s (or_introl eq_refl)). reflexivity.
Qed.

Lemma segment_ends es p q : In [p; q] (flat_map segments es) -> exists e, In e es /\ In p e /\ In q e.
Proof.
  intros H. apply in_flat_map in H as (e & He & Hs). exists e. split; [assumption|].
  clear He. induction e as [|a e IH]; [destruct Hs|]. destruct e as [|b e]; [destruct Hs|]. cbn [segments In] in Hs.
  destruct Hs as [[= -> ->]|Hs]; [split; [left|right; left]; reflexivity|]. destruct (IH Hs). split; right; assumption.
Qed.

Lemma behind_zero d z es : (forall e p, In e es -> In p e -> ahead d z p <= 0) -> winds_by d z es = 0.
Proof.
  intros H. rewrite winds_tally. apply tally_zero. intros p q Hpq. cbn.
  destruct (segment_ends es p q Hpq) as (e & He & Hp & Hq). apply no_crossing. left. split; eapply H; eassumption.
Qed.
