(** * PlaceNorm: normalization keeps the places a region covers *)
From Verif Require Import GeoProofs TopoProofs BuildProofs NormProofs NormRing NormJoin NormTopo NormReturn NormLaws ComposeLaws PlaceSpec PlaceProofs.

Section Tally.
Variable f : list point -> Z.
Hypothesis f_odd : odd_fun f.

Local Notation total es := (tally f (map ne_points es)).

Lemma total_app a b : total (a ++ b) = total a + total b.
Proof. rewrite map_app. apply tally_app. Qed.

Lemma joins_total run e p q : joins run e -> chain p (map ne_points run) q -> total [e] = total run.
Proof. intros (_ & _ & E) H. cbn [map]. rewrite E. eapply tally_glue. eassumption. Qed.

Lemma joined_total_gen (keep : norm_edge -> bool) base out : (forall a b, label a = label b -> keep a = keep b) ->
  good base -> joined base out -> total (filter keep out) = total (filter keep base).
Proof.
  intros HK G (runs & R & F). pose proof (good_rotation _ _ R G) as (_ & _ & p & HC).
  rewrite (tally_perm f (map ne_points (filter keep base)) (map ne_points (filter keep (concat runs)))).
  2:{ apply Permutation_map, Permutation_filter, rotation_perm, R. }
  clear R G base. destruct (ex_intro (fun q => chain p (map ne_points (concat runs)) q) p HC) as (q & HQ). clear HC. revert p HQ.
  induction F as [|run e runs out Hj F IH]; intros p HC; [reflexivity|]. cbn [concat] in *.
  rewrite map_app, NormProofs.chain_app in HC. destruct HC as (c & H1 & H2). rewrite filter_app, total_app.
  rewrite (filter_kind keep run (keep e)).
  2:{ destruct Hj as (_ & L & _). eapply Forall_impl; [|exact L]. intros x Hx. apply HK. assumption. }
  cbn [filter]. specialize (IH c H2). pose proof (joins_total run e p c Hj H1) as A.
  destruct (keep e).
  - change (e :: filter keep out) with ([e] ++ filter keep out). rewrite total_app. lia.
  - cbn [map]. change (tally f []) with 0. lia.
Qed.

Lemma tidied_total_gen keep base out : (forall a b, label a = label b -> keep a = keep b) ->
  good base -> tidied base out -> total (filter keep out) = total (filter keep base).
Proof.
  intros HK G [H|(e & e' & H & -> & L & T)]; [apply joined_total_gen; assumption|].
  rewrite <- (joined_total_gen keep _ _ HK G H). cbn [filter]. rewrite (HK e' e L).
  destruct (keep e); [|reflexivity]. cbn [map]. symmetry. apply tally_turned. assumption.
Qed.

Lemma filter_all {A} (l : list A) : filter (fun _ => true) l = l.
Proof. induction l as [|a l IH]; [reflexivity|]. cbn. rewrite IH. reflexivity. Qed.

Lemma tidied_total base out : good base -> tidied base out -> total out = total base.
Proof. intros G T. rewrite <- (filter_all out), <- (filter_all base). apply tidied_total_gen; auto. Qed.

Lemma flipped_total es : total (flipped es) = - total es.
Proof. rewrite flipped_points. apply tally_rev. assumption. Qed.

Lemma flipped_filter keep es : (forall a b, label a = label b -> keep a = keep b) ->
  filter keep (flipped es) = flipped (filter keep es).
Proof.
  intros HK. induction es as [|e es IH]; [reflexivity|].
  change (flipped (e :: es)) with (flipped ([e] ++ es)). rewrite flipped_app, filter_app, IH.
  change (filter keep (e :: es)) with (filter keep ([e] ++ es)). rewrite filter_app, flipped_app. f_equal.
  unfold flipped. cbn [rev app map filter]. rewrite (HK _ e) by reflexivity. destruct (keep e); reflexivity.
Qed.

Lemma normal_total {D} (t : topology D) keep r out : (forall a b, label a = label b -> keep a = keep b) ->
  good (seen_ring t r) -> normal_ring t r out -> Z.odd (total (filter keep out)) = Z.odd (total (filter keep (seen_ring t r))).
Proof.
  intros HK G (base & HB & T & _). destruct HB as [->| ->].
  - rewrite (tidied_total_gen keep _ _ HK G T). reflexivity.
  - rewrite (tidied_total_gen keep _ _ HK (flipped_good _ G) T), flipped_filter, flipped_total, Z.odd_opp by assumption. reflexivity.
Qed.

Lemma total_split es : total es = total (useful es) + total (filter redundantb es).
Proof.
  unfold useful. induction es as [|e es IH]; [reflexivity|]. change (e :: es) with ([e] ++ es).
  rewrite !filter_app, !total_app, IH. cbn [filter]. destruct (redundantb e); cbn [negb map]; change (tally f []) with 0; lia.
Qed.

Lemma total_concat rs : total (concat rs) = sum (map (fun r => total r) rs).
Proof. induction rs as [|r rs IH]; [reflexivity|]. cbn [concat]. rewrite total_app, IH. reflexivity. Qed.

Lemma cycles_total cycles ms : Forall good cycles -> Forall2 from_cycle cycles ms -> total (concat ms) = total (concat cycles).
Proof.
  intros G F. induction F as [|c o cs ms (T & _) F IH]; [reflexivity|]. inversion G; subst.
  cbn [concat]. rewrite !total_app, IH by assumption. f_equal. apply tidied_total; assumption.
Qed.

Definition side_edges {D} (t : topology D) (rs : list topo_ring) : list norm_edge := flat_map (seen_ring t) rs.

Lemma side_total {D} (t : topology D) o rs outs : (forall r, In r rs -> good (seen_ring t r)) -> side_fact t o rs outs ->
  Z.odd (total (concat outs)) = Z.odd (total (useful (side_edges t rs))).
Proof.
  intros Gs (nrs & cycles & ms & F1 & C & F2 & P & _).
  assert (L : longs (pool nrs)).
  { apply pool_longs. clear -F1. induction F1; constructor; [apply H|assumption]. }
  destruct (cycles_good _ _ _ L C F2) as (Gc & _).
  assert (E1 : total (concat outs) = total (useful (concat nrs))).
  { rewrite (tally_perm f _ _ (Permutation_map ne_points (useful_parts nrs))), map_app, tally_app.
    rewrite !total_concat. rewrite (sum_perm _ _ (Permutation_map _ P)), map_app, sum_app. f_equal.
    rewrite <- total_concat, (cycles_total cycles ms Gc F2). apply tally_perm, Permutation_map, C. }
  rewrite E1. clear -F1 Gs f_odd. unfold side_edges. induction F1 as [|r out rs nrs H F IH]; [reflexivity|].
  cbn [concat flat_map]. unfold useful in *. rewrite !filter_app, !total_app, !Z.odd_add, IH by (intros x Hx; apply Gs; right; assumption).
  f_equal. apply normal_total; [|apply Gs; left; reflexivity|apply H]. intros a b E. rewrite (label_redundantb a b E). reflexivity.
Qed.

End Tally.

(** ** Redundant edges are passed twice *)

Fixpoint xors (l : list bool) : bool := match l with [] => false | b :: t => xorb b (xors t) end.

Lemma xors_app a b : xors (a ++ b) = xorb (xors a) (xors b).
Proof. induction a as [|x a IH]; [cbn; destruct (xors b); reflexivity|]. cbn. rewrite IH. destruct x, (xors a), (xors b); reflexivity. Qed.

Lemma xors_perm a b : Permutation a b -> xors a = xors b.
Proof. induction 1; cbn; try congruence. destruct x, y, (xors l); reflexivity. Qed.

Lemma xors_even (g : nat -> bool) n : forall l, (length l <= n)%nat ->
  (forall i, g i = true -> Nat.Even (count_occ Nat.eq_dec l i)) -> xors (map g l) = false.
Proof.
  induction n as [|n IH]; intros l Hl H; destruct l as [|i l]; cbn [length] in *; try lia; [reflexivity|reflexivity|].
  destruct (g i) eqn:E.
  - assert (Hi : In i l).
    { apply (count_occ_In Nat.eq_dec). specialize (H i E). cbn [count_occ] in H. destruct (Nat.eq_dec i i); [|congruence].
      destruct H as (k & Hk). lia. }
    apply in_split in Hi as (a & b & ->).
    rewrite (xors_perm (map g (i :: a ++ i :: b)) (map g (i :: i :: a ++ b))).
    2:{ apply Permutation_map. constructor. symmetry. apply Permutation_middle. }
    cbn [map xors]. rewrite E, IH; [reflexivity| |].
    + rewrite app_length in *. cbn [length] in Hl. lia.
    + intros j Hj. specialize (H j Hj). cbn [count_occ] in H. rewrite count_occ_app in *. cbn [count_occ] in H.
      destruct (Nat.eq_dec i j); destruct H as (k & Hk); [exists (k - 1)%nat|exists k]; lia.
  - cbn [map xors]. rewrite E, IH; [reflexivity|lia|]. intros j Hj. specialize (H j Hj). cbn [count_occ] in H.
    destruct (Nat.eq_dec i j); [congruence|assumption].
Qed.

Lemma edge_regions_length {D} (t : topology D) i : length (edge_regions t i) = length (users i (uses (tp_regions t))).
Proof. unfold edge_regions. apply map_length. Qed.

Definition redundant_id {D} (t : topology D) (i : nat) : bool :=
  redundantb (NE [] (nth_error (edge_regions t i) 0) (nth_error (edge_regions t i) 1)).

Lemma redundant_twice {D} (t : topology D) ri rg i : exact_references t -> nth_error (tp_regions t) ri = Some rg ->
  redundant_id t i = true -> Nat.Even (count_occ Nat.eq_dec (des_of (tg_outer rg) ++ des_of (tg_inner rg)) i).
Proof.
  intros (_ & Hin & HR) Hr Hd.
  assert (EQ : count_occ Nat.eq_dec (des_of (tg_outer rg) ++ des_of (tg_inner rg)) i = length (users i (uses_region (ri, rg)))).
  { rewrite users_length. unfold uses_region. cbn [fst snd]. rewrite map_app, !uses_rings_fst. reflexivity. }
  rewrite EQ. clear EQ.
  assert (Hin' : In (ri, rg) (enumerate (tp_regions t))) by (apply in_enumerate; assumption).
  assert (H2 : (length (users i (uses (tp_regions t))) <= 2)%nat).
  { destruct (nth_error (tp_edges t) i) as [e|] eqn:Ee; [apply (HR i e Ee)|].
    assert (Z0 : users i (uses (tp_regions t)) = []); [|rewrite Z0; cbn; lia].
    destruct (users i (uses (tp_regions t))) as [|u l] eqn:Eu; [reflexivity|]. exfalso.
    assert (Hu : In u (users i (uses (tp_regions t)))) by (rewrite Eu; left; reflexivity).
    apply users_in in Hu. apply Hin in Hu. cbn [fst] in Hu. apply nth_error_None in Ee. lia. }
  unfold redundant_id, edge_regions, redundantb in Hd. cbn [ne_reg0 ne_reg1] in Hd. revert H2 Hd.
  unfold uses. apply in_split in Hin' as (a & b & E). rewrite E. rewrite flat_map_app. cbn [flat_map]. rewrite !users_app, !app_length.
  set (A := users i (flat_map uses_region a)). set (B := users i (flat_map uses_region b)).
  assert (HA : forall rr, In rr (users i (uses_region (ri, rg))) -> rr_region rr = ri).
  { intros rr Hrr. unfold users in Hrr. apply in_map_iff in Hrr as (u & <- & Hu). apply filter_In in Hu as (Hu & _). apply uses_region_own in Hu. exact Hu. }
  assert (HN : NoDup (map fst (enumerate (tp_regions t)))).
  { assert (X : forall (l : list (topo_region D)) n, map fst (combine (seq n (length l)) l) = seq n (length l)).
    { induction l as [|x l IH]; intros n; [reflexivity|]. cbn [length seq combine map fst]. rewrite IH. reflexivity. }
    unfold enumerate. rewrite X. apply seq_NoDup. }
  assert (HO : forall rr, In rr (A ++ B) -> rr_region rr <> ri).
  { intros rr Hrr Er. assert (X : exists ir, In ir (a ++ b) /\ fst ir = ri).
    { apply in_app_iff in Hrr. unfold A, B in Hrr. destruct Hrr as [Hrr|Hrr]; apply users_in in Hrr; apply in_flat_map in Hrr as (ir & Hir & Hu);
        apply uses_region_own in Hu; exists ir; (split; [apply in_app_iff; auto|cbn [snd] in Hu; congruence]). }
    destruct X as (ir & Hir & Ei). rewrite E, map_app in HN. cbn [map fst] in HN. apply NoDup_remove_2 in HN. apply HN.
    rewrite <- map_app, <- Ei. apply in_map. assumption. }
  destruct (users i (uses_region (ri, rg))) as [|u0 [|u1 [|u2 l]]]; cbn [length]; intros H2 Hd.
  - exists 0%nat. reflexivity.
  - exfalso. pose proof (HA u0 (or_introl eq_refl)) as H0.
    destruct A as [|a0 [|a1 A]], B as [|b0 [|b1 B]]; cbn [length] in H2; try lia; cbn [app map nth_error] in Hd; try discriminate;
      apply Nat.eqb_eq in Hd; [apply (HO b0)|apply (HO a0)]; try (left; reflexivity); congruence.
  - exists 1%nat. reflexivity.
  - lia.
Qed.

Section Region.
Variable f : list point -> Z.
Hypothesis f_odd : odd_fun f.
Local Notation total es := (tally f (map ne_points es)).

Definition redundant_odd {D} (t : topology D) (i : nat) : bool :=
  redundant_id t i && match nth_error (tp_edges t) i with Some e => Z.odd (tally f [te_points e]) | None => false end.

Lemma seen_odd {D} (t : topology D) ds :
  Z.odd (total (filter redundantb (flat_map (seen t) ds))) = xors (map (redundant_odd t) (map de_edge ds)).
Proof.
  induction ds as [|d ds IH]; [reflexivity|]. cbn [flat_map map xors]. rewrite filter_app, total_app, Z.odd_add, IH. f_equal.
  unfold seen, redundant_odd. destruct (nth_error (tp_edges t) (de_edge d)) as [e|]; [|rewrite andb_false_r; reflexivity].
  cbn [filter]. change (redundantb (NE (oriented (te_points e) (de_dir d)) (nth_error (edge_regions t (de_edge d)) 0)
    (nth_error (edge_regions t (de_edge d)) 1))) with (redundant_id t (de_edge d)).
  destruct (redundant_id t (de_edge d)); [|reflexivity]. cbn [map ne_points andb].
  destruct (de_dir d); cbn [oriented]; [reflexivity|]. rewrite tally_rev1, Z.odd_opp by assumption. reflexivity.
Qed.

Lemma side_edges_des {D} (t : topology D) rs : side_edges t rs = flat_map (seen t) (flat_map tr_des rs).
Proof. unfold side_edges, seen_ring. induction rs as [|r rs IH]; [reflexivity|]. cbn [flat_map]. rewrite flat_map_app, IH. reflexivity. Qed.

Lemma des_of_des rs : des_of rs = map de_edge (flat_map tr_des rs).
Proof. unfold des_of. induction rs as [|r rs IH]; [reflexivity|]. cbn [flat_map]. rewrite map_app, IH. reflexivity. Qed.

Lemma redundant_even {D} (t : topology D) ri rg : exact_references t -> nth_error (tp_regions t) ri = Some rg ->
  Z.odd (total (filter redundantb (side_edges t (tg_outer rg ++ tg_inner rg)))) = false.
Proof.
  intros HR Hr. rewrite side_edges_des, seen_odd. rewrite flat_map_app, map_app, <- !des_of_des.
  apply (xors_even _ (length (des_of (tg_outer rg) ++ des_of (tg_inner rg)))); [lia|].
  intros i Hi. apply andb_true_iff in Hi as (Hi & _). eapply redundant_twice; eassumption.
Qed.

Lemma side_edges_app {D} (t : topology D) a b : side_edges t (a ++ b) = side_edges t a ++ side_edges t b.
Proof. apply flat_map_app. Qed.

(** The rings of both sides of a region, before and after. *)
Lemma region_odd {D} (t : topology D) ri rg outs ins : valid t -> nth_error (tp_regions t) ri = Some rg ->
  side_fact t Clockwise (tg_outer rg) outs -> side_fact t CounterClockwise (tg_inner rg) ins ->
  Z.odd (total (concat outs ++ concat ins)) = Z.odd (total (side_edges t (tg_outer rg ++ tg_inner rg))).
Proof.
  intros V Hr So Si. pose proof (nth_error_In _ _ Hr) as Hg.
  rewrite (total_split f (side_edges t (tg_outer rg ++ tg_inner rg))), Z.odd_add.
  rewrite (redundant_even t ri rg (proj1 V) Hr), xorb_false_r, side_edges_app.
  unfold useful at 1. rewrite filter_app. fold (useful (side_edges t (tg_outer rg))). fold (useful (side_edges t (tg_inner rg))).
  rewrite !total_app, !Z.odd_add. f_equal; (eapply side_total; [assumption| |eassumption]);
    intros r Hx; (eapply seen_ring_good; [eassumption|eassumption|]); apply in_app_iff; auto.
Qed.

(** Nothing redundant: every ring by itself, in the direction it was given. *)
Lemma sized_split outs : Permutation outs (sized outs ++ filter (fun r => shoelaces (map ne_points r) mod 2 ^ 64 =? 0) outs).
Proof.
  unfold sized. induction outs as [|r outs IH]; [reflexivity|]. cbn [filter].
  destruct (shoelaces (map ne_points r) mod 2 ^ 64 =? 0); cbn [negb app].
  - rewrite <- Permutation_middle. constructor. assumption.
  - constructor. assumption.
Qed.

End Region.
