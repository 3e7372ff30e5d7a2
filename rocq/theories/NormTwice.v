(** * NormTwice: what normalizing leaves alone, and normalizing twice *)
From Verif Require Import GeoProofs TopoProofs BuildProofs.
From Verif Require Export NormAdjacent NormReturn.

(** ** A ring in normal form is left alone *)

Lemma join_loop_apart es : forall acc,
  (forall a x y b, rev acc ++ es = a ++ x :: y :: b -> label x <> label y) ->
  mfold join_step es acc = Ok (rev es ++ acc).
Proof.
  induction es as [|e es IH]; intros acc H; [reflexivity|]. cbn [mfold].
  assert (S : join_step acc e = Ok (e :: acc)).
  { unfold join_step. destruct acc as [|z acc]; [reflexivity|].
    destruct (same_regions_spec z e) as [L|L]; [|reflexivity]. exfalso.
    apply (H (rev acc) z e es); [cbn [rev]; rewrite <- app_assoc; reflexivity|assumption]. }
  rewrite S. cbn [bind]. rewrite IH.
  - cbn [rev]. rewrite <- app_assoc. reflexivity.
  - intros a x y b E. apply (H a x y b). rewrite <- E. cbn [rev]. rewrite <- app_assoc. reflexivity.
Qed.

Lemma join_related_fixed es : fewest es -> join_related_edges es = Ok es.
Proof.
  intros F. unfold join_related_edges. rewrite join_loop_apart.
  2:{ cbn [rev app]. intros a x y b ->. apply (F x y (b ++ a)). exists a, (x :: y :: b). auto. }
  cbn [bind]. rewrite app_nil_r, rev_involutive. unfold join_wrap. destruct es as [|e mid]; [reflexivity|].
  destruct (rev (e :: mid)) as [|l [|l' r]] eqn:Er; [reflexivity|reflexivity|].
  destruct (same_regions_spec e l) as [L|L]; [|reflexivity]. exfalso.
  apply (f_equal (@rev _)) in Er. rewrite rev_involutive in Er. cbn [rev] in Er.
  destruct (rev r) as [|z w] eqn:Ez; cbn [app] in Er.
  - injection Er as -> ->. apply (F l l' []); [exists [l'], [l]; auto|congruence].
  - injection Er as -> ->. apply (F l z (w ++ [l'])); [|congruence]. exists (z :: w ++ [l']), [l].
    split; [cbn [app]; rewrite <- app_assoc; reflexivity|reflexivity].
Qed.

Lemma wind_fixed m es o (K : Prop) : winds o (map ne_points es) -> Z.abs (shoelaces (map ne_points es)) < 2 ^ 63 ->
  (K -> Forall nonneg (map ne_points es) /\ weights (map ne_points es) < 2 ^ 63) ->
  wind_edges m es o = Ok es \/ (m = Debug /\ ~ K /\ wind_edges m es o = Panic POverflow).
Proof.
  intros W B HK. unfold wind_edges, norm_winding. destruct (norm_area m es) as [a|p] eqn:E; cbn [bind].
  - left. apply norm_area_ok in E. rewrite wrap_id in E by (unfold fits; lia). subst a.
    assert (Z.eqb (shoelaces (map ne_points es)) 0 = false) as -> by (destruct o; cbn [winds] in W; lia). cbn [negb rassert bind].
    destruct o; cbn [winds] in W; destruct (Z.ltb_spec 0 (shoelaces (map ne_points es))); try lia; reflexivity.
  - right. destruct (norm_area_panic m es p E) as (-> & ->). split; [reflexivity|]. split; [|reflexivity].
    intros k. destruct (HK k) as (Hn & Hw). destruct (norm_area_small Debug es Hn Hw) as (E' & _). congruence.
Qed.

Lemma min_index_first p l : (forall q, In q l -> le_point p q) -> min_index (p :: l) = Some 0%nat.
Proof.
  intros H. destruct (min_index_some (p :: l)) as (j & Ej); [discriminate|]. rewrite Ej. f_equal.
  apply min_index_ok in Ej. eapply first_min_inj; [exact Ej|]. exists p. split; [reflexivity|]. split.
  - intros q [<-|Hq]; [apply le_point_refl|auto].
  - intros k q Hk. lia.
Qed.

Lemma rotate_fixed es : nonempty_pts es -> starts_smallest (map ne_points es) -> rotate_edges es = Ok es.
Proof.
  intros Ne (e0 & rest & p & E & Fp & H1 & H2). destruct es as [|e es]; [discriminate|]. cbn [map] in E. injection E as E Er. subst e0.
  destruct es as [|e' es].
  - cbn [map] in Er. subst rest. cbn [rotate_edges]. unfold rotate_island_edge.
    destruct (ne_points e) as [|q l] eqn:Ee; [discriminate|]. injection Fp as ->. rewrite min_index_first; [reflexivity|].
    intros q Hq. apply H2; [reflexivity|right; assumption].
  - assert (Nr : rest <> []) by (subst rest; discriminate). specialize (H1 Nr).
    change (rotate_edges (e :: e' :: es)) with (firsts <- mmap (fun e => get (ne_points e) 0) (e :: e' :: es) ;;
      match min_index firsts with None | Some O => Ok (e :: e' :: es)
      | Some i => Ok (skipn i (e :: e' :: es) ++ firstn i (e :: e' :: es)) end).
    destruct (mmap_firsts _ Ne) as (ps & -> & HF). cbn [bind].
    inversion HF as [|? y ? ys Hy Hys]; subst. assert (y = p) by congruence. subst y.
    rewrite min_index_first; [reflexivity|]. intros q Hq. destruct (Forall2_in_r _ _ _ _ Hys Hq) as (f & Hf & Eq).
    apply (H1 (ne_points f)); [right; apply in_map; assumption|assumption].
Qed.

Lemma tidy_fixed m o es (K : Prop) : good es -> fewest es -> starts_smallest (map ne_points es) ->
  winds o (map ne_points es) -> Z.abs (shoelaces (map ne_points es)) < 2 ^ 63 ->
  (K -> Forall nonneg (map ne_points es) /\ weights (map ne_points es) < 2 ^ 63) ->
  tidy_ring m o es = Ok es \/ (m = Debug /\ ~ K /\ tidy_ring m o es = Panic POverflow).
Proof.
  intros G F S W B HK. unfold tidy_ring. rewrite (join_related_fixed es F). cbn [bind].
  destruct (wind_fixed m es o K W B HK) as [->|(-> & NK & ->)]; cbn [bind]; [|auto]. left.
  apply rotate_fixed; [apply long_nonempty, G|assumption].
Qed.

(** ** Sorting rings in order, merging rings without redundant edges *)

Lemma insert_last k r l : Forall (fun x => le_point (fst x) k) l -> insert_by_key k r l = l ++ [(k, r)].
Proof.
  induction 1 as [|(k' & r') l H HF IH]; cbn [insert_by_key app]; [reflexivity|]. rewrite IH.
  assert (pt_ltb k' k || pt_eqb k' k = true) as ->; [|reflexivity]. cbn [fst] in H. apply orb_true_iff.
  destruct H as [H| ->]; [left; apply pt_ltb_lt; assumption|right; apply pt_eqb_refl].
Qed.

Lemma insert_in_order l : forall acc, StronglySorted key_le (acc ++ l) ->
  fold_left (fun acc kr => insert_by_key (fst kr) (snd kr) acc) l acc = acc ++ l.
Proof.
  induction l as [|(k & r) l IH]; intros acc H; cbn [fold_left fst snd]; [symmetry; apply app_nil_r|].
  assert (A : Forall (fun x => le_point (fst x) k) acc).
  { clear IH. induction acc as [|a acc IH]; constructor; cbn [app] in H; inversion H as [|? ? H' HA]; subst; [|auto].
    rewrite Forall_forall in HA. apply (HA (k, r)). apply in_app_iff. right. left. reflexivity. }
  rewrite (insert_last k r acc A). rewrite IH; rewrite <- app_assoc; [reflexivity|assumption].
Qed.

Lemma sort_fixed rs : Forall (fun r => r <> [] /\ nonempty_pts r) rs -> in_order (map (map ne_points) rs) ->
  sort_rings rs = Ok rs.
Proof.
  intros H S. unfold sort_rings. destruct (Nat.leb_spec (@length norm_ring rs) 1) as [L|L]; [reflexivity|].
  destruct (ring_keys rs H) as (ks & -> & H2). cbn [bind].
  rewrite insert_in_order; [f_equal; exact (combine_snd _ _ _ H2)|]. cbn [app]. clear -S H2.
  induction H2 as [|r k rs ks Hk H2 IH]; cbn [combine]; [constructor|]. unfold in_order in S. cbn [map] in S.
  inversion S as [|? ? S' A]; subst. constructor; [apply IH; assumption|]. apply Forall_forall. intros (k' & r') Hin.
  rewrite Forall_forall in A. specialize (A (map ne_points r')). unfold key_le. cbn [fst].
  assert (Hr : In r' rs) by (eapply in_combine_r; exact Hin).
  destruct (A (in_map _ _ _ Hr)) as (p & q & Hp & Hq & Lpq). assert (ring_start (map ne_points r') = Some k').
  { pose proof (combine_in _ _ _ H2) as C. rewrite Forall_forall in C. apply (C (k', r') Hin). }
  assert (k = p) by congruence. assert (k' = q) by congruence. subst. assumption.
Qed.

Lemma classify_plain rs : forall ret, Forall (Forall (fun e => ~ redundant e)) rs ->
  mfold classify_ring rs (ret, []) = Ok (ret ++ rs, []).
Proof.
  induction rs as [|r rs IH]; intros ret H; cbn [mfold]; [rewrite app_nil_r; reflexivity|].
  inversion H as [|? ? Hr Hrs]; subst.
  destruct (classify_cases (ret, []) r) as [(U & _ & ->)|[(U & _)|(U & _)]].
  - cbn [bind fst snd]. rewrite IH by assumption. rewrite <- app_assoc. reflexivity.
  - exfalso. destruct (untouched_all [r]) as (E & _); [constructor; [assumption|constructor]|]. congruence.
  - exfalso. destruct (untouched_all [r]) as (E & _); [constructor; [assumption|constructor]|]. congruence.
Qed.

Lemma join_adjacent_plain rs : Forall (Forall (fun e => ~ redundant e)) rs -> join_adjacent_rings rs = Ok rs.
Proof. intros H. unfold join_adjacent_rings. rewrite (classify_plain rs [] H). reflexivity. Qed.

(** ** The regions using an edge are listed in order *)

Definition region_des {D} (rg : topo_region D) : list directed_edge := flat_map tr_des (region_rings rg).
Definition region_uses {D} (k : nat) (rg : topo_region D) : nat := count_occ Nat.eq_dec (map de_edge (region_des rg)) k.

Lemma users_app k a b : users k (a ++ b) = users k a ++ users k b.
Proof. unfold users. rewrite filter_app, map_app. reflexivity. Qed.

Lemma users_rings k n s rs : forall j,
  map rr_region (users k (flat_map (uses_ring n s) (combine (seq j (length rs)) rs))) =
  repeat n (count_occ Nat.eq_dec (map de_edge (flat_map tr_des rs)) k).
Proof.
  induction rs as [|r rs IH]; intros j; [reflexivity|]. cbn [length seq combine flat_map].
  rewrite users_app, map_app, IH, map_app, count_occ_app, repeat_app. f_equal.
  unfold uses_ring. cbn [fst snd]. induction (tr_des r) as [|d ds IHd]; [reflexivity|]. unfold users in *. cbn [map filter fst count_occ].
  destruct (Nat.eqb_spec (de_edge d) k), (Nat.eq_dec (de_edge d) k); try contradiction; cbn [map snd rr_region repeat]; rewrite IHd; reflexivity.
Qed.

Lemma edge_regions_eq {D} (t : topology D) k :
  edge_regions t k = flat_map (fun ir => repeat (fst ir) (region_uses k (snd ir))) (enumerate (tp_regions t)).
Proof.
  unfold edge_regions, uses. induction (enumerate (tp_regions t)) as [|(n & rg) l IH]; [reflexivity|].
  cbn [flat_map fst snd]. rewrite users_app, map_app, IH. f_equal. unfold uses_region, enumerate. cbn [fst snd].
  rewrite users_app, map_app, !users_rings. unfold region_uses, region_des, region_rings.
  rewrite flat_map_app, map_app, count_occ_app, repeat_app. reflexivity.
Qed.

Lemma edge_regions_sorted {D} (t : topology D) k :
  (forall rg, In rg (tp_regions t) -> NoDup (map de_edge (region_des rg))) -> StronglySorted lt (edge_regions t k).
Proof.
  rewrite edge_regions_eq. unfold enumerate. generalize 0%nat as s. induction (tp_regions t) as [|rg rgs IH]; intros s H; [constructor|].
  cbn [length seq combine flat_map fst snd].
  assert (U : (region_uses k rg <= 1)%nat).
  { apply (NoDup_count_occ Nat.eq_dec). apply H. left. reflexivity. }
  assert (IH' := IH (S s) (fun rg Hg => H rg (or_intror Hg))).
  destruct (region_uses k rg) as [|[|n]]; [exact IH'| |lia]. cbn [repeat app]. constructor; [exact IH'|].
  apply Forall_forall. intros i Hi. apply in_flat_map in Hi as ((j & rg') & Hj & Hr). cbn [fst snd] in Hr.
  apply repeat_spec in Hr. subst j. apply in_combine_l, in_seq in Hj. lia.
Qed.

Lemma sorted_members l l' : StronglySorted lt l -> StronglySorted lt l' -> (forall x, In x l <-> In x l') -> l = l'.
Proof.
  intros H. revert l'. induction H as [|a l HS IH HA]; intros l' S' E.
  - destruct l' as [|b l']; [reflexivity|]. exfalso. apply (E b). left. reflexivity.
  - destruct l' as [|b l']; [exfalso; apply (E a); left; reflexivity|]. inversion S' as [|? ? S'' A']; subst.
    rewrite Forall_forall in HA, A'. assert (a = b).
    { pose proof (proj1 (E a) (or_introl eq_refl)) as [Ha|Ha]; [congruence|].
      pose proof (proj2 (E b) (or_introl eq_refl)) as [Hb|Hb]; [congruence|]. specialize (HA _ Hb). specialize (A' _ Ha). lia. }
    subst b. f_equal. apply IH; [assumption|]. intros x. split; intros Hx.
    + destruct (proj1 (E x) (or_intror Hx)) as [<-|Hx']; [|assumption]. specialize (HA _ Hx). lia.
    + destruct (proj2 (E x) (or_intror Hx)) as [<-|Hx']; [|assumption]. specialize (A' _ Hx). lia.
Qed.

Lemma edge_regions_le {D} (t : topology D) k : StronglySorted le (edge_regions t k).
Proof.
  rewrite edge_regions_eq. unfold enumerate. generalize 0%nat as s. induction (tp_regions t) as [|rg rgs IH]; intros s; [constructor|].
  cbn [length seq combine flat_map fst snd].
  assert (F : Forall (le s) (flat_map (fun ir => repeat (fst ir) (region_uses k (snd ir))) (combine (seq (S s) (length rgs)) rgs))).
  { apply Forall_forall. intros i Hi. apply in_flat_map in Hi as ((j & rg') & Hj & Hr). cbn [fst snd] in Hr.
    apply repeat_spec in Hr. subst j. apply in_combine_l, in_seq in Hj. lia. }
  induction (region_uses k rg) as [|n IHn]; [apply IH|]. cbn [repeat app]. constructor; [exact IHn|].
  apply Forall_app. split; [|assumption]. clear. induction n; constructor; [lia|assumption].
Qed.

Lemma sorted_strict l : StronglySorted le l -> NoDup l -> StronglySorted lt l.
Proof.
  induction 1 as [|a l HS IH HA]; intros N; [constructor|]. inversion N as [|? ? Ni N']; subst. constructor; [auto|].
  rewrite Forall_forall in *. intros x Hx. specialize (HA x Hx). assert (x <> a) by congruence. lia.
Qed.

(** ** Normalized edges and what they are made of *)

Definition lab (l : list nat) : option nat * option nat := (nth_error l 0, nth_error l 1).

Lemma lab_inj a b : (length a <= 2)%nat -> (length b <= 2)%nat -> lab a = lab b -> a = b.
Proof.
  unfold lab. destruct a as [|x [|y [|z a]]], b as [|x' [|y' [|z' b]]]; cbn [length nth_error]; try lia; intros _ _ [=]; congruence.
Qed.

Lemma lab_mentions l j : (length l <= 2)%nat -> In j l <-> mentions j (lab l).
Proof.
  unfold mentions, lab. destruct l as [|x [|y [|z l]]]; cbn [length nth_error fst snd In]; try lia; intros _; split; intuition congruence.
Qed.

Lemma removelast_close c : removelast (close c) = c.
Proof. destruct c as [|p c]; [reflexivity|]. cbn [close]. apply removelast_last. Qed.

Lemma piece_visits base e x : good base -> In e base -> piece base e x ->
  incl (removelast (ne_points e)) (removelast (ne_points x)).
Proof.
  intros G He [(u & v & rest & R & _ & E & _)|(_ & T & _)] p Hp.
  - destruct (good_rotation _ _ R G) as (_ & _ & (q & C)).
    change (e :: v ++ rest) with ((e :: v) ++ rest) in C. rewrite app_assoc, map_app in C. apply chain_app in C as (r & C & _).
    rewrite E. unfold walk. rewrite (glue_chain q _ r) by (assumption || (destruct u; discriminate)). rewrite removelast_last.
    apply in_concat. exists (removelast (ne_points e)). split; [|assumption]. apply in_map, in_map, in_app_iff. right. left. reflexivity.
  - rewrite (good_walk base G) in T. apply turned_inv in T as (c & d & R & E1 & E2). apply close_inj in E1. subst c.
    rewrite E2, removelast_close. apply (Permutation_in p (rotation_perm _ _ R)). eapply in_visits; eassumption.
Qed.

Lemma visits_tidied base out : good base -> tidied base out -> Permutation (visits base) (visits out).
Proof.
  intros G T. destruct (good_tidied base out G T) as (G' & W & _). rewrite (good_walk base G), (good_walk out G') in W.
  apply turned_inv in W as (c & d & R & E1 & E2). apply close_inj in E1, E2. subst. apply rotation_perm. assumption.
Qed.

Lemma tidied_circuit base out : circuit base -> tidied base out -> circuit out.
Proof.
  intros (G & N & A) T. destruct (good_tidied base out G T) as (G' & _ & E). split; [assumption|]. split; [|congruence].
  apply (Permutation_NoDup (visits_tidied base out G T) N).
Qed.

Lemma nodup_removelast c e f p : NoDup (visits c) -> In e c -> In f c ->
  In p (removelast (ne_points e)) -> In p (removelast (ne_points f)) -> e = f.
Proof.
  intros N He Hf. assert (E : visits c = flat_map (fun e => removelast (ne_points e)) c).
  { unfold visits. rewrite !flat_map_concat_map, map_map. reflexivity. }
  rewrite E in N. apply (nodup_flat_map _ _ e f p N He Hf).
Qed.

Lemma piece_of base out x : circuit base -> from_cycle base out -> In x out ->
  exists e, In e base /\ label x = label e /\ piece base e x.
Proof.
  intros C F Hx. pose proof (tidied_circuit base out C (proj1 F)) as C'.
  pose proof (good_long out x (proj1 C') Hx) as L.
  destruct (ne_points x) as [|p l] eqn:Ex; [cbn in L; lia|].
  assert (Hp : In p (removelast (ne_points x))) by (rewrite Ex; apply removelast_first; [assumption|reflexivity]).
  pose proof (in_visits out x p Hx Hp) as Hv. apply (Permutation_in p (Permutation_sym (visits_tidied base out (proj1 C) (proj1 F)))) in Hv.
  unfold visits in Hv. apply in_flat_map in Hv as (ps & Hps & Hin). apply in_map_iff in Hps as (e & <- & He).
  destruct (tidied_piece base out e (proj1 C) F He) as (y & Hy & Ly & Py). exists e. split; [assumption|].
  assert (y = x); [|subst y; auto]. apply (nodup_removelast out y x p); try assumption; [apply C'|].
  apply (piece_visits base e y (proj1 C) He Py). assumption.
Qed.

Lemma tidied_side base out x s : good base -> tidied base out -> In x out -> In s (sides [ne_points x]) ->
  exists e, In e base /\ label e = label x /\ In s (sides [ne_points e]).
Proof.
  assert (X : forall out x, good base -> joined base out -> In x out -> In s (sides [ne_points x]) ->
    exists e, In e base /\ label e = label x /\ In s (sides [ne_points e])).
  { clear out x. intros out x G (runs & R & HF) Hx Hs. pose proof (good_rotation _ _ R G) as (_ & _ & p & HC).
    apply in_split in Hx as (o1 & o2 & ->). apply Forall2_app_inv_r in HF as (r1 & r2' & H1 & H2 & ->).
    inversion H2 as [|run ? r2 ? Hj H2']; subst. rewrite concat_app in HC. cbn [concat] in HC. rewrite !map_app in HC.
    apply chain_app in HC as (a & _ & HC). apply chain_app in HC as (b & HC & _). destruct Hj as (_ & L & E).
    rewrite E in Hs. unfold walk in Hs. rewrite (sides_glue _ _ _ HC) in Hs. unfold sides in Hs.
    apply in_map_iff in Hs as (g & <- & Hg). apply in_flat_map in Hg as (ps & Hps & Hg). apply in_map_iff in Hps as (e & <- & He).
    exists e. split; [|split].
    - apply (Permutation_in e (Permutation_sym (rotation_perm _ _ R))). rewrite concat_app. cbn [concat].
      apply in_app_iff. right. apply in_app_iff. left. assumption.
    - rewrite Forall_forall in L. auto.
    - unfold sides. cbn [flat_map]. rewrite app_nil_r. apply in_map. assumption. }
  intros G [J|(e & e' & J & -> & L & T)] Hx Hs; [apply (X out x); assumption|].
  destruct Hx as [<-|[]]. destruct (X [e] e G J (or_introl eq_refl)) as (f & Hf & Lf & Sf).
  - apply (Permutation_in s (Permutation_sym (sides_turned _ _ T))). assumption.
  - exists f. split; [assumption|]. split; [congruence|assumption].
Qed.

Lemma side_exists ps : (2 <= length ps)%nat -> exists s, In s (sides [ps]).
Proof.
  destruct ps as [|p [|q l]]; cbn [length]; try lia. intros _. exists (stored_form [p; q]). unfold sides. cbn [flat_map].
  rewrite app_nil_r, segments_cons2. left. reflexivity.
Qed.

Lemma sides_same a b s : a = b \/ a = rev b -> In s (sides [a]) -> In s (sides [b]).
Proof. intros [->| ->]; [auto|]. apply Permutation_in, sides_rev. Qed.

Lemma sides_oriented ps d s : In s (sides [oriented ps d]) -> In s (sides [ps]).
Proof. apply sides_same. destruct d; auto. Qed.

Lemma sides_flip e s : In s (sides [ne_points (flip e)]) -> In s (sides [ne_points e]).
Proof. apply sides_same. right. reflexivity. Qed.

Lemma Forall2_concat {A B} (P : A -> B -> Prop) l l' : Forall2 (Forall2 P) l l' -> Forall2 P (concat l) (concat l').
Proof. induction 1; cbn; [constructor|]. apply Forall2_app; assumption. Qed.

Lemma map_eq_Forall2 {A B C} (f : A -> C) (g : B -> C) l l' : map f l = map g l' -> Forall2 (fun a b => f a = g b) l l'.
Proof.
  revert l'. induction l as [|a l IH]; intros [|b l'] E; try discriminate; [constructor|]. cbn in E. injection E as E1 E2.
  constructor; auto.
Qed.

(** ** Labels are the same in the normalized topology *)

(** [xs] are the normalized rings of region [rg], and the rings of [rg'] in [t']. *)
Definition renders {D} (t t' : topology D) (rg rg' : topo_region D) (xs : list (list norm_edge)) : Prop :=
  (forall out, In out xs -> exists r o, In r (region_rings rg) /\ ring_fact t o r out) /\
  (forall r, In r (region_rings rg) -> exists out o, In out xs /\ ring_fact t o r out) /\
  NoDup (flat_map visits xs) /\
  Forall2 (fun r out => read_ring (tp_edges t') r = as_read out) (region_rings rg') xs.

Section Labels.
Context {D : Type} (m : mode) (t t' : topology D) (gs : list (region D)).
Hypothesis V : valid t.
Hypothesis B : build_topology m gs = Ok t'.
Hypothesis Sep : separate t.
Hypothesis Bd : forall rg, In rg (tp_regions t) -> boundary (map (seen_ring t) (region_rings rg)).
Hypothesis A : forall rg r, In rg (tp_regions t) -> In r (region_rings rg) ->
  Z.abs (shoelaces (map ne_points (seen_ring t r))) < 2 ^ 63.
Hypothesis Pl : forall rg, In rg (tp_regions t) -> nothing_redundant t rg.
Hypothesis R : forall i rg', nth_error (tp_regions t') i = Some rg' ->
  exists rg xs, nth_error (tp_regions t) i = Some rg /\ renders t t' rg rg' xs.
Hypothesis R' : forall i rg, nth_error (tp_regions t) i = Some rg ->
  exists rg' xs, nth_error (tp_regions t') i = Some rg' /\ renders t t' rg rg' xs.

Let X' : exact_references t'.
Proof. destruct (build_topology_ok m gs t' B) as (b & _ & _ & X & _). exact X. Qed.

Lemma edge_regions_two k te : nth_error (tp_edges t) k = Some te -> (length (edge_regions t k) <= 2)%nat.
Proof. intros E. destruct V as ((_ & _ & V3) & _). destruct (V3 k te E) as (L & _). unfold edge_regions. rewrite map_length. assumption. Qed.

Lemma region_used (u : topology D) i rg r d : nth_error (tp_regions u) i = Some rg -> In r (region_rings rg) -> In d (tr_des r) ->
  In i (edge_regions u (de_edge d)).
Proof.
  intros Hg Hr Hd. apply edge_regions_in. apply in_app_iff in Hr as [Hr|Hr]; apply In_nth_error in Hr as (k & Hk).
  - exists (RR i Outer k). split; [|reflexivity]. apply in_uses_region. exists rg, r. cbn. auto using in_map.
  - exists (RR i Inner k). split; [|reflexivity]. apply in_uses_region. exists rg, r. cbn. auto using in_map.
Qed.

Lemma used_region (u : topology D) i k : In i (edge_regions u k) ->
  exists rg r d, nth_error (tp_regions u) i = Some rg /\ In r (region_rings rg) /\ In d (tr_des r) /\ de_edge d = k.
Proof.
  intros H. apply edge_regions_in in H as (rr & H & <-). apply in_uses_region in H as (rg & r & Hg & Hr & Hk).
  apply in_map_iff in Hk as (d & <- & Hd). exists rg, r, d. split; [assumption|]. split; [|auto].
  apply nth_error_In in Hr. apply in_app_iff. destruct (rr_side rr); auto.
Qed.

(** Every segment of a normalized edge lies on an edge of [t] between the same regions. *)
Lemma norm_source i rg r o out x s : nth_error (tp_regions t) i = Some rg -> In r (region_rings rg) -> ring_fact t o r out ->
  In x out -> In s (sides [ne_points x]) ->
  exists k te, nth_error (tp_edges t) k = Some te /\ In s (sides [te_points te]) /\ label x = lab (edge_regions t k) /\
    In i (edge_regions t k).
Proof.
  intros Hg Hr ((base & HB & (T & _)) & _) Hx Hs.
  assert (G : good (seen_ring t r)) by (eapply seen_ring_good; [assumption|eapply nth_error_In; exact Hg|exact Hr]).
  assert (Gb : good base) by (destruct HB as [->| ->]; [assumption|apply flipped_good; assumption]).
  destruct (tidied_side base out x s Gb T Hx Hs) as (e & He & Le & Se).
  assert (Y : exists g, In g (seen_ring t r) /\ label g = label x /\ In s (sides [ne_points g])).
  { destruct (directed_in _ _ e HB He) as [H|H]; [exists e; auto|]. exists (flip e). split; [assumption|]. split; [rewrite flip_label; assumption|].
    apply sides_flip. rewrite flip_flip. assumption. }
  destruct Y as (g & Hin & Lg & Sg). apply seen_edge in Hin as (d & te & Hd & Et & ->).
  exists (de_edge d), te. split; [assumption|]. split; [apply (sides_oriented _ (de_dir d)); assumption|].
  split; [symmetry; exact Lg|]. eapply region_used; eassumption.
Qed.

Lemma ring_fact_long o r out x : ring_fact t o r out -> In x out -> (2 <= length (ne_points x))%nat.
Proof. intros (_ & G & _) H. eapply good_long; eassumption. Qed.

(** Normalized edges along the same path lie between the same regions, theirs included. *)
Lemma same_source i j rgi rgj xs ys rg' rg'' x y outx outy : nth_error (tp_regions t) i = Some rgi -> nth_error (tp_regions t) j = Some rgj ->
  renders t t' rgi rg' xs -> renders t t' rgj rg'' ys -> In outx xs -> In outy ys -> In x outx -> In y outy ->
  ne_points x = ne_points y \/ ne_points x = rev (ne_points y) ->
  exists k te, nth_error (tp_edges t) k = Some te /\ label x = lab (edge_regions t k) /\ label y = lab (edge_regions t k) /\
    In i (edge_regions t k) /\ In j (edge_regions t k).
Proof.
  intros Hi Hj (F1 & _) (F2 & _) Hox Hoy Hx Hy E.
  destruct (F1 outx Hox) as (r & o & Hr & Rf). destruct (F2 outy Hoy) as (r' & o' & Hr' & Rf').
  destruct (side_exists (ne_points x)) as (s & Hs); [apply (ring_fact_long o r outx x Rf Hx)|].
  destruct (norm_source i rgi r o outx x s Hi Hr Rf Hx Hs) as (k & te & Ek & Sk & Lx & Ik).
  destruct (norm_source j rgj r' o' outy y s Hj Hr' Rf' Hy (sides_same _ _ s E Hs)) as (k' & te' & Ek' & Sk' & Ly & Ik').
  assert (k = k') by (eapply Sep; eassumption). subst k'. exists k, te. auto.
Qed.

Lemma render_des rg rg' xs : renders t t' rg rg' xs ->
  Forall2 (fun d x => read_de (tp_edges t') d = Some (ne_points x)) (region_des rg') (concat xs).
Proof.
  intros (_ & _ & _ & F). unfold region_des. rewrite flat_map_concat_map. apply Forall2_concat.
  induction F as [|r out rs xs' E F IH]; cbn [map]; constructor; [|assumption].
  unfold read_ring, as_read in E. rewrite map_map in E. apply (map_eq_Forall2 _ (fun x => Some (ne_points x))). assumption.
Qed.

Lemma render_circuit i rg rg' xs out : nth_error (tp_regions t) i = Some rg -> renders t t' rg rg' xs -> In out xs -> circuit out.
Proof.
  intros Hi (F & _) Ho. destruct (F out Ho) as (r & o & Hr & ((base & HB & (T & _)) & _)).
  apply (tidied_circuit base); [|assumption]. eapply directed_circuit; [|exact HB].
  destruct (Bd rg (nth_error_In _ _ Hi)) as (C & _). rewrite Forall_forall in C. apply C, in_map. assumption.
Qed.

Lemma first_in_visits c x : In x c -> (2 <= length (ne_points x))%nat -> exists p, first (ne_points x) = Some p /\ In p (visits c) /\ In p (removelast (ne_points x)).
Proof.
  intros Hx L. destruct (ne_points x) as [|p l] eqn:E; [cbn in L; lia|]. exists p. split; [reflexivity|].
  assert (In p (removelast (p :: l))) by (apply removelast_first; [assumption|reflexivity]). split; [|assumption].
  apply (in_visits c x p Hx). rewrite E. assumption.
Qed.

Lemma render_no_return i rg rg' xs x y : nth_error (tp_regions t) i = Some rg -> renders t t' rg rg' xs ->
  In x (concat xs) -> In y (concat xs) -> ne_points x <> rev (ne_points y).
Proof.
  intros Hi Rn Hx Hy E. apply in_concat in Hx as (ox & Hox & Hx). apply in_concat in Hy as (oy & Hoy & Hy).
  destruct (same_source i i rg rg xs xs rg' rg' x y ox oy Hi Hi Rn Rn Hox Hoy Hx Hy (or_intror E)) as (k & te & _ & Lx & Ly & _).
  pose proof (render_circuit i rg rg' xs ox Hi Rn Hox) as Cx. pose proof (render_circuit i rg rg' xs oy Hi Rn Hoy) as Cy.
  assert (Ex : x = flip y).
  { destruct x as [px a b], y as [py a' b']. unfold flip, label, lab in *. cbn in *. congruence. }
  assert (ox = oy).
  { destruct (first_in_visits ox x Hx) as (p & Fp & Vp & _); [apply (good_long ox x (proj1 Cx) Hx)|].
    destruct Rn as (_ & _ & N & _). apply (nodup_flat_map visits xs ox oy p N Hox Hoy Vp).
    eapply final_visited; [apply Cy|exact Hy|]. rewrite Ex, flip_first in Fp. assumption. }
  subst oy. rewrite Ex in Hx. apply (no_return _ y Cy Hy Hx).
Qed.

Lemma nodup_starts_concat xs : Forall good xs -> NoDup (flat_map visits xs) -> NoDup (starts (concat xs)).
Proof.
  intros G N. apply nodup_starts.
  - apply Forall_forall. intros ps H. apply in_map_iff in H as (e & <- & He). apply in_concat in He as (c & Hc & He).
    rewrite Forall_forall in G. apply (good_long c e (G c Hc) He).
  - replace (visits (concat xs)) with (flat_map visits xs); [assumption|]. clear. unfold visits.
    induction xs as [|c xs IH]; [reflexivity|]. cbn [flat_map concat]. rewrite map_app, flat_map_app, IH. reflexivity.
Qed.

Lemma des_distinct es des xs : NoDup (starts xs) -> (forall x y, In x xs -> In y xs -> ne_points x <> rev (ne_points y)) ->
  Forall2 (fun d x => read_de es d = Some (ne_points x)) des xs -> NoDup (map de_edge des).
Proof.
  intros N P F. induction F as [|d x des xs E F IH]; cbn [map]; [constructor|].
  unfold starts in N. cbn [map] in N. inversion N as [|? ? Ni N']; subst. constructor.
  - intros H. apply in_map_iff in H as (d2 & Ed & Hd2). destruct (Forall2_in_l _ _ _ _ F Hd2) as (x2 & Hx2 & E2). cbv beta in E2.
    apply read_de_some in E as (te & H1 & H2). apply read_de_some in E2 as (te2 & H3 & H4). rewrite Ed in H3.
    assert (te2 = te) by congruence. subst te2. destruct (oriented_flip (te_points te) (de_dir d2) (de_dir d)) as [Z|Z].
    + apply Ni. apply in_map_iff. exists (ne_points x2). split; [congruence|]. apply in_map. assumption.
    + apply (P x x2); [left; reflexivity|right; assumption|congruence].
  - apply IH; [assumption|]. intros a b Ha Hb. apply P; right; assumption.
Qed.

Lemma region_des_distinct rg' : In rg' (tp_regions t') -> NoDup (map de_edge (region_des rg')).
Proof.
  intros H. apply In_nth_error in H as (i & Hi). destruct (R i rg' Hi) as (rg & xs & Hg & Rn).
  apply (des_distinct (tp_edges t') _ (concat xs)).
  - apply nodup_starts_concat; [|apply Rn]. apply Forall_forall. intros c Hc. eapply (render_circuit i); eassumption.
  - intros x y. eapply render_no_return; eassumption.
  - eapply render_des; eassumption.
Qed.

Lemma source_nodup i rg k te : nth_error (tp_regions t) i = Some rg -> nth_error (tp_edges t) k = Some te -> In i (edge_regions t k) ->
  NoDup (edge_regions t k).
Proof.
  intros Hi Hk Hin. pose proof (edge_regions_two k te Hk) as L.
  destruct (used_region t i k Hin) as (rg0 & r & d & Hg & Hr & Hd & <-). assert (rg0 = rg) by congruence. subst rg0.
  assert (Hs : In (NE (oriented (te_points te) (de_dir d)) (nth_error (edge_regions t (de_edge d)) 0) (nth_error (edge_regions t (de_edge d)) 1)) (seen_ring t r)).
  { apply in_flat_map. exists d. split; [assumption|]. unfold seen. rewrite Hk. left. reflexivity. }
  apply nth_error_In in Hi. pose proof (Pl rg Hi r _ Hr Hs) as N. unfold redundant in N. cbn [ne_reg0 ne_reg1] in N.
  destruct (edge_regions t (de_edge d)) as [|a [|b [|c l]]]; cbn [length nth_error] in *; try lia; repeat constructor; cbn; intuition congruence.
Qed.

(** The regions using an edge of the normalized topology. *)
Lemma edge_regions_kept i rg rg' xs d x : nth_error (tp_regions t) i = Some rg -> nth_error (tp_regions t') i = Some rg' ->
  renders t t' rg rg' xs -> In d (region_des rg') -> In x (concat xs) -> read_de (tp_edges t') d = Some (ne_points x) ->
  label x = lab (edge_regions t' (de_edge d)).
Proof.
  intros Hi Hi' Rn Hd Hx Ed. pose proof Hx as Hxs. apply in_concat in Hx as (out & Ho & Hx).
  destruct (same_source i i rg rg xs xs rg' rg' x x out out Hi Hi Rn Rn Ho Ho Hx Hx (or_introl eq_refl)) as (k & te & Ek & Lx & _ & Ik & _).
  rewrite Lx. f_equal. apply sorted_members.
  { apply sorted_strict; [apply edge_regions_le|]. eapply source_nodup; eassumption. }
  { apply edge_regions_sorted. apply region_des_distinct. }
  pose proof (edge_regions_two k te Ek) as L2.
  intros j. split.
  - intros Hj.
    assert (Mj : mentions j (label x)) by (rewrite Lx; apply lab_mentions; assumption).
    assert (Mi : mentions i (label x)) by (rewrite Lx; apply lab_mentions; assumption).
    destruct Rn as (F1 & _). destruct (F1 out Ho) as (r & o & Hr & Rf). pose proof Rf as ((base & HB & Fc) & _).
    assert (Cr : circuit (seen_ring t r)).
    { destruct (Bd rg (nth_error_In _ _ Hi)) as (C & _). rewrite Forall_forall in C. apply C, in_map. assumption. }
    pose proof (directed_circuit _ _ Cr HB) as Cb.
    destruct (piece_of base out x Cb Fc Hx) as (e & He & Le & Pe). rewrite Le in Mi, Mj.
    assert (Hg : exists g, In g (seen_ring t r) /\ (g = e \/ g = flip e)).
    { destruct (directed_in _ _ e HB He) as [H|H]; [exists e|exists (flip e)]; auto. }
    destruct Hg as (g & Hg & Eg). assert (Mg : mentions j (label g)) by (destruct Eg as [->| ->]; assumption).
    destruct (seen_mentions t r g j Hg Mg) as (rgj & r' & Hj' & Hr' & Hgr).
    assert (Her : In e (seen_ring t r') \/ In (flip e) (seen_ring t r')).
    { destruct Eg as [->| ->]; [assumption|]. rewrite flip_flip in Hgr. tauto. }
    destruct (R' j rgj Hj') as (rgj' & ys & Hgj' & Rj). pose proof Rj as (_ & F2 & _).
    destruct (F2 r' Hr') as (outy & o' & Hoy & Rfy). pose proof Rfy as ((base' & HB' & Fc') & _).
    assert (Cr' : circuit (seen_ring t r')).
    { destruct (Bd rgj (nth_error_In _ _ Hj')) as (C & _). rewrite Forall_forall in C. apply C, in_map. assumption. }
    pose proof (directed_circuit _ _ Cr' HB') as Cb'.
    assert (Hb' : In e base' \/ In (flip e) base') by (destruct HB' as [->| ->]; [assumption|rewrite in_flip', in_flip; tauto]).
    pose proof (Bd rg (nth_error_In _ _ Hi)) as Bi. pose proof (Bd rgj (nth_error_In _ _ Hj')) as Bj.
    assert (Sx : shared (label e) base (map (seen_ring t) (region_rings rgj))) by (eapply region_shared; eassumption).
    assert (Sy : shared (label e) base' (map (seen_ring t) (region_rings rg))) by (eapply region_shared; eassumption).
    assert (Y : exists y, In y outy /\ (ne_points x = ne_points y \/ ne_points x = rev (ne_points y)) /\
      (first (ne_points x) <> final (ne_points x) \/ turned (walk base) (ne_points x))).
    { destruct Hb' as [Hb'|Hb'].
      - destruct (tidied_piece base' outy e (proj1 Cb') Fc' Hb') as (y & Hy & _ & Py). exists y. split; [assumption|].
        destruct (twin_same (map (seen_ring t) (region_rings rg)) (map (seen_ring t) (region_rings rgj)) (seen_ring t r) (seen_ring t r') base base' e x y)
          as (E & O); try assumption; try (apply in_map; assumption). auto.
      - destruct (tidied_piece base' outy (flip e) (proj1 Cb') Fc' Hb') as (y & Hy & _ & Py). exists y. split; [assumption|].
        apply (piece_flipped base' _ _ (proj1 Cb')) in Py. rewrite flip_flip in Py.
        destruct (twin_same (map (seen_ring t) (region_rings rg)) (map (seen_ring t) (region_rings rgj)) (seen_ring t r) (seen_ring t r') base (flipped base') e x (flip y))
          as (E & O); try assumption; try (apply in_map; assumption); [apply directed_flipped; assumption|apply shared_flipped; assumption|apply in_flip'; assumption|].
        auto. }
    destruct Y as (y & Hy & Pxy & O).
    assert (Hy' : In y (concat ys)) by (apply in_concat; eauto).
    destruct (Forall2_in_r _ _ _ _ (render_des rgj rgj' ys Rj) Hy') as (d' & Hd' & Ed'). cbv beta in Ed'.
    assert (O' : first (ne_points x) <> final (ne_points x) \/
       (shoelace (ne_points x) mod 2 ^ 64 <> 0 /\ shoelace (ne_points x) mod 2 ^ 64 <> 2 ^ 63)).
    { destruct O as [O|O]; [left; assumption|right]. apply shoelace_turned in O.
      assert (W : shoelace (walk base) = shoelaces (map ne_points base)).
      { destruct Cb as ((_ & _ & (p & C)) & _). eapply shoelace_walk. exact C. }
      assert (Ab : Z.abs (shoelaces (map ne_points base)) = Z.abs (shoelaces (map ne_points (seen_ring t r)))).
      { destruct HB as [->| ->]; [reflexivity|]. rewrite flipped_area. apply Z.abs_opp. }
      pose proof (A rg r (nth_error_In _ _ Hi) Hr) as N2. destruct Cr as (_ & _ & N1). rewrite O in W. rewrite <- W in Ab.
      assert (N0 : shoelace (ne_points x) <> 0) by lia.
      pose proof (Z.div_mod (shoelace (ne_points x)) (2 ^ 64)) as DM. split; intros M; rewrite M in DM; lia. }
    assert (Edge : de_edge d = de_edge d').
    { destruct Pxy as [E|E].
      - rewrite <- E in Ed'. f_equal. apply (shared_same m gs t' d d' (ne_points x)); assumption.
      - assert (ne_points y = rev (ne_points x)) as E2 by (rewrite E, rev_involutive; reflexivity). rewrite E2 in Ed'.
        apply (shared_reverse m gs t' d d' (ne_points x)); assumption. }
    rewrite Edge. apply in_flat_map in Hd' as (rr & Hrr & Hd'). eapply region_used; eassumption.
  - intros Hj. destruct (used_region t' j (de_edge d) Hj) as (rgj' & r' & d' & Hj' & Hr' & Hd' & Edd).
    destruct (R j rgj' Hj') as (rgj & ys & Hgj & Rj).
    assert (Hdj : In d' (region_des rgj')) by (apply in_flat_map; eauto).
    destruct (Forall2_in_l _ _ _ _ (render_des rgj rgj' ys Rj) Hdj) as (y & Hy & Ey). cbv beta in Ey.
    apply in_concat in Hy as (outy & Hoy & Hy).
    assert (E : ne_points x = ne_points y \/ ne_points x = rev (ne_points y)).
    { apply read_de_some in Ed as (te1 & H1 & H2). apply read_de_some in Ey as (te2 & H3 & H4). rewrite Edd in H3.
      assert (te2 = te1) by congruence. subst te2. destruct (oriented_flip (te_points te1) (de_dir d') (de_dir d)) as [Z|Z]; [left|right]; congruence. }
    destruct (same_source i j rg rgj xs ys rg' rgj' x y out outy Hi Hgj Rn Rj Ho Hoy Hx Hy E) as (k' & te' & Ek' & Lx' & _ & _ & Ij).
    assert (edge_regions t k = edge_regions t k').
    { apply lab_inj; [assumption|eapply edge_regions_two; eassumption|congruence]. }
    congruence.
Qed.

Lemma seen_all ds out :
  Forall2 (fun d x => read_de (tp_edges t') d = Some (ne_points x) /\ label x = lab (edge_regions t' (de_edge d))) ds out ->
  flat_map (seen t') ds = out.
Proof.
  induction 1 as [|d x ds out (E & L) F IH]; [reflexivity|]. cbn [flat_map]. rewrite IH. unfold seen.
  apply read_de_some in E as (te & -> & E). cbn [app]. f_equal. destruct x as [ps a b]. unfold label, lab in L. cbn in *. congruence.
Qed.

Lemma seen_again i rg rg' xs : nth_error (tp_regions t) i = Some rg -> nth_error (tp_regions t') i = Some rg' ->
  renders t t' rg rg' xs -> map (seen_ring t') (region_rings rg') = xs.
Proof.
  intros Hi Hi' Rn. pose proof Rn as (_ & _ & _ & F).
  assert (Y : forall r out, In r (region_rings rg') -> In out xs -> read_ring (tp_edges t') r = as_read out -> seen_ring t' r = out).
  { intros r out Hr Ho E. unfold read_ring, as_read in E. rewrite map_map in E. apply map_eq_Forall2 in E. unfold seen_ring.
    assert (I1 : forall d, In d (tr_des r) -> In d (region_des rg')) by (intros d Hd; apply in_flat_map; eauto).
    assert (I2 : forall x, In x out -> In x (concat xs)) by (intros x Hx; apply in_concat; eauto).
    apply seen_all. revert I1 I2. clear -Hi Hi' Rn E V B Sep Bd A Pl R R'. induction E as [|d x ds out' E F' IH]; intros I1 I2; [constructor|]. constructor.
    - split; [assumption|]. eapply edge_regions_kept; try eassumption; [apply I1|apply I2]; left; reflexivity.
    - apply IH; intros z Hz; [apply I1|apply I2]; right; assumption. }
  clear Rn. induction F as [|r out rs xs' E F IH]; [reflexivity|]. cbn [map]. f_equal.
  - apply Y; [left; reflexivity|left; reflexivity|assumption].
  - apply IH. intros r0 out0 Hr0 Ho0. apply Y; right; assumption.
Qed.

End Labels.

(** ** Normalizing twice *)

Definition side_norm {D} (t : topology D) (o : winding) (rs : list topo_ring) (outs : list (list norm_edge)) : Prop :=
  exists nrs, Forall2 (ring_fact t o) rs nrs /\ Permutation outs nrs /\ in_order (map (map ne_points) outs).

Definition plain_norm {D} (t : topology D) (rg : topo_region D) (g : region D) : Prop :=
  exists outs ins, g = Region (tg_data rg) (map into_ring outs) (map into_ring ins) /\
    side_norm t Clockwise (tg_outer rg) outs /\ side_norm t CounterClockwise (tg_inner rg) ins.

Lemma plain_norms {D} m (t : topology D) gs : valid t -> mmap (normalize_region m t) (tp_regions t) = Ok gs ->
  (forall rg, In rg (tp_regions t) -> nothing_redundant t rg) -> Forall2 (plain_norm t) (tp_regions t) gs.
Proof.
  intros V E N. eapply Forall2_mmap; [exact E|]. intros rg g Hg Hr.
  destruct (normalize_region_fact m t rg g V Hg Hr) as (outs & ins & -> & So & Si). exists outs, ins. split; [reflexivity|].
  split; (apply plain_side; [|assumption]); intros r e Hin; apply (N rg Hg); apply in_app_iff; auto.
Qed.

Lemma side_norm_in {D} (t : topology D) o rs outs out : side_norm t o rs outs -> In out outs -> exists r, In r rs /\ ring_fact t o r out.
Proof.
  intros (nrs & F & P & _) H. apply (Permutation_in out P) in H. destruct (Forall2_in_r _ _ _ _ F H) as (r & Hr & Hf). eauto.
Qed.

Lemma side_norm_has {D} (t : topology D) o rs outs r : side_norm t o rs outs -> In r rs -> exists out, In out outs /\ ring_fact t o r out.
Proof.
  intros (nrs & F & P & _) H. destruct (Forall2_in_l _ _ _ _ F H) as (out & Ho & Hf). exists out. split; [|assumption].
  apply (Permutation_in out (Permutation_sym P)). assumption.
Qed.

Lemma expected_norm {D} (t : topology D) o rs outs : side_norm t o rs outs ->
  filter has_area (map into_ring outs) = map into_ring outs /\ map expected_ring (map into_ring outs) = map as_read outs.
Proof.
  intros S. split.
  - apply filter_true. apply (Forall_map into_ring). apply Forall_forall. intros out Ho.
    destruct (side_norm_in t o rs outs out S Ho) as (r & _ & Hf). eapply ring_fact_area; eassumption.
  - rewrite map_map. apply map_ext_in. intros out Ho. apply expected_into_ring.
    destruct (side_norm_in t o rs outs out S Ho) as (r & _ & (_ & _ & L & _)). assumption.
Qed.

Definition norm_shape {D} (es : list topo_edge) (g : region D) (rg' : topo_region D) : Prop :=
  tg_data rg' = rg_data g /\ map (read_ring es) (tg_outer rg') = map expected_ring (rg_outer g) /\
  map (read_ring es) (tg_inner rg') = map expected_ring (rg_inner g).

Lemma norm_shapes {D} m (t t' : topology D) gs : Forall2 (plain_norm t) (tp_regions t) gs ->
  (forall rg, In rg (tp_regions t) -> tg_outer rg <> []) -> build_topology m gs = Ok t' ->
  Forall2 (norm_shape (tp_edges t')) gs (tp_regions t').
Proof.
  intros F N B. apply build_read in B. unfold read_topology in B.
  assert (E : expected gs = map (fun g => Shape (rg_data g) (map expected_ring (rg_outer g)) (map expected_ring (rg_inner g))) gs).
  { clear B. unfold expected. induction F as [|rg g rgs gs (outs & ins & -> & So & Si) F IH]; [reflexivity|]. cbn [flat_map map].
    rewrite IH by (intros x Hx; apply N; right; assumption). unfold expected_region at 1. cbn [rg_outer rg_inner rg_data].
    rewrite (proj1 (expected_norm _ _ _ _ So)), (proj1 (expected_norm _ _ _ _ Si)).
    destruct outs as [|o outs]; [|reflexivity]. exfalso. destruct So as (nrs & F1 & P & _). apply Permutation_nil in P. subst nrs.
    inversion F1 as [E1|]. apply (N rg (or_introl eq_refl)). congruence. }
  rewrite E in B. symmetry in B. apply map_eq_Forall2 in B. eapply Forall2_impl'; [|exact B]. intros g rg' H. unfold read_region in H.
  injection H as H1 H2 H3. split; [symmetry; assumption|]. split; symmetry; assumption.
Qed.

Lemma side_visits {D} (t : topology D) o rs outs : (forall r, In r rs -> good (seen_ring t r)) -> side_norm t o rs outs ->
  Permutation (flat_map visits outs) (flat_map visits (map (seen_ring t) rs)).
Proof.
  intros G (nrs & F & P & _). rewrite (Permutation_flat_map visits P). clear P outs.
  induction F as [|r out rs nrs ((base & HB & (T & _)) & _) F IH]; [reflexivity|]. cbn [map flat_map]. apply Permutation_app.
  - pose proof (G r (or_introl eq_refl)) as Gr. destruct HB as [->| ->].
    + symmetry. apply visits_tidied; assumption.
    + rewrite <- (visits_tidied _ _ (flipped_good _ Gr) T). apply visits_flipped. assumption.
  - apply IH. intros x Hx. apply G. right. assumption.
Qed.

Lemma normalize_again_loop {D} m (t' : topology D) (K : Prop) rgs gs : 
  Forall2 (fun rg g => normalize_region m t' rg = Ok g \/ (m = Debug /\ ~ K /\ normalize_region m t' rg = Panic POverflow)) rgs gs ->
  forall b b', add_regions m b gs = Ok b' ->
  mfold (fun b rg => g <- normalize_region m t' rg ;; add_region m b g) rgs b = Ok b' \/
  (m = Debug /\ ~ K /\ mfold (fun b rg => g <- normalize_region m t' rg ;; add_region m b g) rgs b = Panic POverflow).
Proof.
  induction 1 as [|rg g rgs gs H F IH]; intros b b'; unfold add_regions; cbn [mfold]; [auto|].
  destruct H as [->|(-> & K' & ->)]; cbn [bind]; [|auto].
  destruct (add_region m b g) as [b1|]; cbn [bind]; [|discriminate]. apply IH.
Qed.


Lemma ring_again {D} m (t : topology D) (K : Prop) o r out : good (seen_ring t r) -> ring_fact t o r out ->
  Z.abs (shoelaces (map ne_points (seen_ring t r))) < 2 ^ 63 ->
  (K -> Forall nonneg (map ne_points (seen_ring t r)) /\ weights (map ne_points (seen_ring t r)) < 2 ^ 63) ->
  tidy_ring m o out = Ok out \/ (m = Debug /\ ~ K /\ tidy_ring m o out = Panic POverflow).
Proof.
  intros G (Nr & Go & _ & _ & Ea & W) B HK. pose proof Nr as (base & HB & (_ & Fw & S)).
  apply tidy_fixed; [assumption|assumption|assumption|apply W; assumption|rewrite Ea; assumption|].
  intros k. destruct (HK k) as (Hn & Hw). destruct (normal_weights t r out G Nr Hn) as (E & N). split; [exact N|]. rewrite E. assumption.
Qed.

Lemma rings_again {D} m (t t' : topology D) (K : Prop) o rs0 rg' rs outs : exact_references t' -> In rg' (tp_regions t') ->
  incl rs (region_rings rg') -> map (seen_ring t') rs = outs -> side_norm t o rs0 outs ->
  (forall r, In r rs0 -> good (seen_ring t r) /\ Z.abs (shoelaces (map ne_points (seen_ring t r))) < 2 ^ 63 /\
     (forall e, In e (seen_ring t r) -> ~ redundant e) /\
     (K -> Forall nonneg (map ne_points (seen_ring t r)) /\ weights (map ne_points (seen_ring t r)) < 2 ^ 63)) ->
  normalize_region_rings m t' rs o = Ok (map into_ring outs) \/
  (m = Debug /\ ~ K /\ normalize_region_rings m t' rs o = Panic POverflow).
Proof.
  intros X Hg Hi Es S H0. unfold normalize_region_rings.
  assert (M : mmap (normalize_ring m t' o) rs = Ok outs \/ (m = Debug /\ ~ K /\ mmap (normalize_ring m t' o) rs = Panic POverflow)).
  { assert (Q : forall out, In out outs -> tidy_ring m o out = Ok out \/ (m = Debug /\ ~ K /\ tidy_ring m o out = Panic POverflow)).
    { intros out Ho. destruct (side_norm_in t o rs0 outs out S Ho) as (r & Hr & Rf). destruct (H0 r Hr) as (G & B & _ & HK).
      eapply ring_again; eassumption. }
    clear S H0. subst outs. induction rs as [|r rs IH]; [left; reflexivity|]. cbn [mmap map].
    rewrite (normalize_ring_eq m t' o rg' r X Hg) by (apply Hi; left; reflexivity).
    destruct (Q (seen_ring t' r)) as [->|(-> & NK & ->)]; [left; reflexivity| |cbn [bind]; auto]. cbn [bind].
    destruct IH as [->|(-> & NK & ->)]; [intros x Hx; apply Hi; right; assumption|intros x Hx; apply Q; right; assumption| |]; cbn [bind]; auto. }
  destruct M as [->|(-> & NK & ->)]; cbn [bind]; [left|auto].
  rewrite join_adjacent_plain; cbn [bind].
  - rewrite sort_fixed; [reflexivity| |destruct S as (nrs & _ & _ & S); exact S]. apply Forall_forall. intros out Ho. apply good_keys.
    destruct (side_norm_in t o rs0 outs out S Ho) as (r & Hr & (_ & G & _)). assumption.
  - apply Forall_forall. intros out Ho. apply Forall_forall. intros e He Re.
    destruct (side_norm_in t o rs0 outs out S Ho) as (r & Hr & (Nr & _)). destruct (H0 r Hr) as (_ & _ & P & _).
    destruct (in_seen_label t r _ out e Nr He eq_refl) as (f & Hf & L). apply (P f Hf). eapply label_redundant; eassumption.
Qed.

Lemma Forall2_nth_r {A B} (P : A -> B -> Prop) l l' i b : Forall2 P l l' -> nth_error l' i = Some b ->
  exists a, nth_error l i = Some a /\ P a b.
Proof.
  intros H. revert i. induction H; intros [|i]; cbn; try discriminate.
  - intros [= <-]. eauto.
  - apply IHForall2.
Qed.

Lemma app_inj_len {A} (a b c d : list A) : a ++ b = c ++ d -> length a = length c -> a = c /\ b = d.
Proof.
  revert c. induction a as [|x a IH]; intros [|y c] E L; try discriminate; [auto|].
  injection E as -> E. destruct (IH c E) as (-> & ->); [cbn in L; lia|auto].
Qed.

Lemma Forall2_by_nth {A B} (P : A -> B -> Prop) l l' : length l = length l' ->
  (forall i a b, nth_error l i = Some a -> nth_error l' i = Some b -> P a b) -> Forall2 P l l'.
Proof.
  revert l'. induction l as [|a l IH]; intros [|b l'] L H; try discriminate; [constructor|]. constructor.
  - apply (H 0%nat); reflexivity.
  - apply IH; [cbn in L; lia|]. intros i. apply (H (S i)).
Qed.

Lemma normalize_twice {D} m (t t' : topology D) (K : Prop) : valid t -> normalize m t = Ok t' ->
  (forall rg, In rg (tp_regions t) -> tg_outer rg <> [] /\ nothing_redundant t rg /\ simple_boundary t rg) ->
  (forall rg r, In rg (tp_regions t) -> In r (region_rings rg) -> Z.abs (shoelaces (map ne_points (seen_ring t r))) < 2 ^ 63) ->
  separate t ->
  (K -> forall rg r, In rg (tp_regions t) -> In r (region_rings rg) ->
     Forall nonneg (map ne_points (seen_ring t r)) /\ weights (map ne_points (seen_ring t r)) < 2 ^ 63) ->
  normalize m t' = Ok t' \/ (m = Debug /\ ~ K /\ normalize m t' = Panic POverflow).
Proof.
  intros V H P A Sep HK. apply normalize_Ok in H as (gs & E & B).
  pose proof (plain_norms m t gs V E (fun rg Hg => proj1 (proj2 (P rg Hg)))) as F.
  pose proof (norm_shapes m t t' gs F (fun rg Hg => proj1 (P rg Hg)) B) as F'.
  assert (X : exact_references t') by (destruct (build_topology_ok m gs t' B) as (b & _ & _ & X & _); exact X).
  assert (G : forall rg r, In rg (tp_regions t) -> In r (region_rings rg) -> good (seen_ring t r)) by (intros; eapply seen_ring_good; eassumption).
  assert (Bd : forall rg, In rg (tp_regions t) -> boundary (map (seen_ring t) (region_rings rg))).
  { intros rg Hg. apply region_boundary; [assumption|assumption|apply P; assumption|]. intros r Hr.
    apply In_nth_error in Hg as (i & Hi). destruct (Forall2_nth_l _ _ _ _ _ F Hi) as (g & _ & (outs & ins & _ & So & Si)).
    assert (Y : exists o out, ring_fact t o r out).
    { apply in_app_iff in Hr as [Hr|Hr]; [destruct (side_norm_has _ _ _ _ r So Hr) as (out & _ & Rf)|destruct (side_norm_has _ _ _ _ r Si Hr) as (out & _ & Rf)]; eauto. }
    destruct Y as (o & out & (_ & _ & _ & W & _)). intros Z. apply W. rewrite Z. reflexivity. }
  assert (Rn : forall i rg g rg' outs ins, nth_error (tp_regions t) i = Some rg -> nth_error gs i = Some g -> nth_error (tp_regions t') i = Some rg' ->
    g = Region (tg_data rg) (map into_ring outs) (map into_ring ins) ->
    side_norm t Clockwise (tg_outer rg) outs -> side_norm t CounterClockwise (tg_inner rg) ins -> norm_shape (tp_edges t') g rg' ->
    renders t t' rg rg' (outs ++ ins)).
  { intros i rg g rg' outs ins Hi _ _ -> So Si (_ & S1 & S2). cbn [rg_outer rg_inner] in S1, S2.
    rewrite (proj2 (expected_norm _ _ _ _ So)) in S1. rewrite (proj2 (expected_norm _ _ _ _ Si)) in S2. split; [|split; [|split]].
    - intros out Ho. unfold region_rings. apply in_app_iff in Ho as [Ho|Ho].
      + destruct (side_norm_in _ _ _ _ out So Ho) as (r & Hr & Rf). exists r, Clockwise. split; [apply in_app_iff; auto|assumption].
      + destruct (side_norm_in _ _ _ _ out Si Ho) as (r & Hr & Rf). exists r, CounterClockwise. split; [apply in_app_iff; auto|assumption].
    - intros r Hr. apply in_app_iff in Hr as [Hr|Hr].
      + destruct (side_norm_has _ _ _ _ r So Hr) as (out & Ho & Rf). exists out, Clockwise. split; [apply in_app_iff; auto|assumption].
      + destruct (side_norm_has _ _ _ _ r Si Hr) as (out & Ho & Rf). exists out, CounterClockwise. split; [apply in_app_iff; auto|assumption].
    - apply nth_error_In in Hi. destruct (Bd rg Hi) as (_ & N). unfold region_rings in N. rewrite map_app, flat_map_app in N. rewrite flat_map_app.
      eapply Permutation_NoDup; [|exact N]. symmetry. apply Permutation_app; (eapply side_visits; [|eassumption]); intros r Hr; apply (G rg r Hi); apply in_app_iff; auto.
    - unfold region_rings. apply Forall2_app; apply map_eq_Forall2; assumption. }
  assert (R : forall i rg', nth_error (tp_regions t') i = Some rg' -> exists rg xs, nth_error (tp_regions t) i = Some rg /\ renders t t' rg rg' xs).
  { intros i rg' Hi'. destruct (Forall2_nth_r _ _ _ _ _ F' Hi') as (g & Hg & Sh). destruct (Forall2_nth_r _ _ _ _ _ F Hg) as (rg & Hi & (outs & ins & Eg & So & Si)).
    exists rg, (outs ++ ins). split; [assumption|]. eapply (Rn i rg g rg'); eassumption. }
  assert (R' : forall i rg, nth_error (tp_regions t) i = Some rg -> exists rg' xs, nth_error (tp_regions t') i = Some rg' /\ renders t t' rg rg' xs).
  { intros i rg Hi. destruct (Forall2_nth_l _ _ _ _ _ F Hi) as (g & Hg & (outs & ins & Eg & So & Si)). destruct (Forall2_nth_l _ _ _ _ _ F' Hg) as (rg' & Hi' & Sh).
    exists rg', (outs ++ ins). split; [assumption|]. eapply (Rn i rg g rg'); eassumption. }
  assert (L : Forall2 (fun rg g => normalize_region m t' rg = Ok g \/ (m = Debug /\ ~ K /\ normalize_region m t' rg = Panic POverflow)) (tp_regions t') gs).
  { apply Forall2_by_nth; [symmetry; eapply Forall2_length'; exact F'|]. intros i rg' g Hi' Hg.
    destruct (Forall2_nth_l _ _ _ _ _ F' Hg) as (rg2 & Hi2 & Sh). assert (rg2 = rg') by congruence. subst rg2.
    destruct (Forall2_nth_r _ _ _ _ _ F Hg) as (rg & Hi & (outs & ins & Eg & So & Si)).
    pose proof (Rn i rg g rg' outs ins Hi Hg Hi' Eg So Si Sh) as Ren.
    pose proof (seen_again m t t' gs V B Sep Bd A (fun rg Hg => proj1 (proj2 (P rg Hg))) R R' i rg rg' _ Hi Hi' Ren) as Sa.
    unfold region_rings in Sa. rewrite map_app in Sa.
    assert (Lo : length (map (seen_ring t') (tg_outer rg')) = length outs).
    { destruct Sh as (_ & S1 & _). subst g. cbn [rg_outer] in S1. apply (f_equal (@length _)) in S1. rewrite !map_length in S1. rewrite map_length. assumption. }
    apply app_inj_len in Sa as (Sa1 & Sa2); [|assumption].
    apply nth_error_In in Hi' as In'. apply nth_error_In in Hi as In0.
    assert (Q : forall r, In r (region_rings rg) -> good (seen_ring t r) /\ Z.abs (shoelaces (map ne_points (seen_ring t r))) < 2 ^ 63 /\
       (forall e, In e (seen_ring t r) -> ~ redundant e) /\
       (K -> Forall nonneg (map ne_points (seen_ring t r)) /\ weights (map ne_points (seen_ring t r)) < 2 ^ 63)).
    { intros r Hr. split; [eapply G; eassumption|]. split; [eapply A; eassumption|]. split.
      - intros e He. apply (proj1 (proj2 (P rg In0)) r e Hr He).
      - intros k. eapply HK; eassumption. }
    unfold normalize_region.
    destruct (rings_again m t t' K Clockwise (tg_outer rg) rg' (tg_outer rg') outs) as [->|(-> & NK & ->)]; try assumption;
      [intros r Hr; apply in_app_iff; auto|intros r Hr; apply Q; apply in_app_iff; auto| |cbn [bind]; auto]. cbn [bind].
    destruct (rings_again m t t' K CounterClockwise (tg_inner rg) rg' (tg_inner rg') ins) as [->|(-> & NK & ->)]; try assumption;
      [intros r Hr; apply in_app_iff; auto|intros r Hr; apply Q; apply in_app_iff; auto| |cbn [bind]; auto]. cbn [bind].
    left. f_equal. subst g. f_equal. apply Sh. }
  unfold build_topology in B. destruct (add_regions m builder_new gs) as [b|] eqn:Eb; [|discriminate]. cbn [bind] in B.
  unfold normalize. destruct (normalize_again_loop m t' K _ _ L builder_new b Eb) as [->|(-> & NK & ->)]; cbn [bind]; auto.
Qed.

(** ** Topologies built from points *)

Lemma short_stored a b : a <> b -> stored_form (stored_form [a; b]) = stored_form [a; b].
Proof.
  intros N. destruct (stored_form_cases [a; b] a b eq_refl eq_refl) as [(E & H)|(E & H)]; rewrite E; [exact E|].
  destruct (stored_form_cases (rev [a; b]) b a eq_refl eq_refl) as [(E' & _)|(_ & H')]; [exact E'|]. exfalso.
  destruct H as [H|(X & _)]; [|congruence]. destruct H' as [H'|(X & _)]; [|congruence]. eapply lt_point_asym; eassumption.
Qed.

Lemma segments_two ps s : In s (segments ps) -> exists x y, s = [x; y].
Proof.
  induction ps as [|p [|q ps] IH]; [intros []|intros []|]. intros [<-|H]; [eauto|]. apply IH. exact H.
Qed.

Lemma points_separate {D} m (rs : list (region D)) t : build_topology m rs = Ok t ->
  (forall rg r, In rg rs -> In r (rg_outer rg ++ rg_inner rg) -> exists ps, r = RPoints ps) -> separate t.
Proof.
  intros B HP. assert (Q : forall i e, nth_error (tp_edges t) i = Some e -> sides [te_points e] = [te_points e]).
  { intros i e He. apply build_topology_ok in B as (b & Hb & _ & _ & _ & Hk). pose proof Hb as (_ & Fm & Hc).
    assert (Hi : nth_error (keys (bl_edges b)) i = Some (te_points e)) by (rewrite <- Hk; apply map_nth_error; assumption).
    assert (Li : (i < length (bl_edges b))%nat) by (rewrite <- keys_length; apply nth_error_Some; congruence).
    pose proof (Hc i (conj (Nat.le_0_l _) Li)) as Iu. apply in_map_iff in Iu as (d & Ed & Id).
    apply Forall2_flat in Fm. destruct (Forall2_in_l _ _ _ _ Fm Id) as (o & Io & (p & -> & (Hp & _))).
    rewrite Ed in Hp. assert (Ep : te_points e = stored_form p) by congruence.
    assert (Sg : exists x y, p = [x; y] /\ x <> y).
    { unfold all_paths in Io. apply in_flat_map in Io as (s & Is & Io). rewrite expected_keeps in Is.
      apply in_map_iff in Is as (rg & <- & Irg). apply filter_In in Irg as (Irg & _).
      unfold shape_paths in Io. cbn [s_outer s_inner] in Io. rewrite <- concat_app, <- map_app in Io.
      apply in_concat in Io as (l & Il & Io). apply in_map_iff in Il as (r & <- & Ir).
      assert (Ir' : In r (rg_outer rg ++ rg_inner rg)) by (apply in_app_iff in Ir as [Ir|Ir]; apply filter_In in Ir as (Ir & _); apply in_app_iff; auto).
      destruct (HP rg r Irg Ir') as (ps & ->). unfold expected_ring in Io. apply in_map_iff in Io as (q & [= ->] & Io).
      apply filter_In in Io as (Io & HL). cbn [paths] in Io. apply segments_two in Io as (x & y & ->). exists x, y. split; [reflexivity|].
      intros ->. revert HL. cbn [has_length]. destruct (pt_eqb_spec y y); [discriminate|congruence]. }
    destruct Sg as (x & y & -> & Nx). unfold sides. cbn [flat_map]. rewrite app_nil_r. rewrite Ep.
    destruct (stored_form_cases [x; y] x y eq_refl eq_refl) as [(E & _)|(E & _)]; pose proof (short_stored x y Nx) as S2; rewrite E in *; cbn [rev app segments map] in *; rewrite S2; reflexivity. }
  intros i j a b s Ha Hb Sa Sb. rewrite (Q i a Ha) in Sa. rewrite (Q j b Hb) in Sb. destruct Sa as [<-|[]], Sb as [E|[]].
  destruct (build_edges_stored m rs t B) as (Nd & _). eapply (NoDup_nth_error_inj _ i j); [exact Nd|apply map_nth_error; exact Ha|].
  rewrite <- E. apply map_nth_error. exact Hb.
Qed.

Lemma built_outer {D} m (rs : list (region D)) t rg : build_topology m rs = Ok t -> In rg (tp_regions t) -> tg_outer rg <> [].
Proof.
  intros B Hg. pose proof (build_read m rs t B) as R. rewrite expected_keeps in R.
  assert (I : In (Shape (tg_data rg) (map (read_ring (tp_edges t)) (tg_outer rg)) (map (read_ring (tp_edges t)) (tg_inner rg))) (read_topology t)) by (unfold read_topology; apply (in_map (read_region (tp_edges t))) in Hg; exact Hg).
  rewrite R in I. apply in_map_iff in I as (x & E & Ix). apply filter_In in Ix as (_ & K). unfold keeps in K.
  injection E as _ E _. destruct (filter has_area (rg_outer x)); [discriminate|]. destruct (tg_outer rg); discriminate.
Qed.
