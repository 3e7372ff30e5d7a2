(** * ComposeProofs: lemmas on applying the operations one after the other *)
From Coq Require Import Permutation.
From Verif Require Import ClipTopoSpec Simplify GeoProofs TopoProofs BuildProofs ClipEdgeProofs ClipTopoProofs ClipTopoLaws
  SimplifyProofs SimplifyLaws SimplifyHeap NormTopo.
From Verif Require Export ComposeSpec.

(** ** Clipping keeps topologies valid *)

Lemma inside_not_on_line k p : inside k p -> on_line k p -> False.
Proof. intros H L. apply on_line_not_inside in L. destruct (insideb_spec k p); [discriminate|contradiction]. Qed.

Lemma kept_parts_cons k X u v t :
  kept_parts k X (u :: v :: t) = kept_part k (X u v) u v ++ kept_parts k X (v :: t).
Proof. reflexivity. Qed.

Lemma kept_part_inside k x p q : inside k p \/ inside k q -> (1 <= length (kept_part k x p q))%nat.
Proof.
  intros H. unfold kept_part. destruct (insideb_spec k p); [cbn; lia|]. destruct (insideb_spec k q); [|tauto].
  destruct (outsideb k p); cbn; lia.
Qed.

Lemma kept_parts_in k X ps p q : In (p, q) (combine ps (tl ps)) -> inside k p \/ inside k q ->
  (1 <= length (kept_parts k X ps))%nat.
Proof.
  intros Hin H. destruct (kept_part k (X p q) p q) as [|s l] eqn:E.
  { apply (kept_part_inside k (X p q)) in H. rewrite E in H. cbn in H. lia. }
  assert (I : In s (kept_parts k X ps)).
  { unfold kept_parts. apply in_flat_map. exists (p, q). split; [assumption|]. cbn [fst snd]. rewrite E. left. reflexivity. }
  destruct (kept_parts k X ps); [destruct I|cbn; lia].
Qed.

Lemma one_part k X ps p : (length (kept_parts k X ps) <= 1)%nat -> In (p, p) (combine ps (tl ps)) -> inside k p ->
  ps = [p; p].
Proof.
  induction ps as [|u [|v [|w t]] IH]; intros HL Hin Hp; [destruct Hin|destruct Hin| |].
  - destruct Hin as [[= -> ->]|[]]. reflexivity.
  - rewrite kept_parts_cons, app_length in HL. exfalso.
    destruct (insideb_spec k v) as [Iv|Iv].
    + pose proof (kept_part_inside k (X u v) u v (or_intror Iv)).
      pose proof (kept_parts_in k X (v :: w :: t) v w (or_introl eq_refl) (or_introl Iv)). lia.
    + destruct Hin as [[= -> ->]|Hin]; [contradiction|].
      assert (E : v :: w :: t = [p; p]) by (apply IH; [lia|exact Hin|assumption]). injection E as -> -> ->. contradiction.
Qed.

Lemma append_part_nil s : append_part [] s = [fst (fst s); snd (fst s)].
Proof. destruct s as [[a b] v]. unfold append_part. cbn [final rev fst snd]. destruct v; reflexivity. Qed.

Lemma clip_path_flat k X ps a : good_X k X ps -> clip_path k X ps = [a; a] -> ps = [a; a].
Proof.
  intros HX. unfold clip_path. destruct (kept_parts k X ps) as [|s l] eqn:E; [discriminate|].
  cbn [fold_left]. rewrite append_part_nil. intros H.
  pose proof (fold_parts_length l [fst (fst s); snd (fst s)]) as (_ & L). rewrite H in L. cbn [length] in L.
  destruct l; [|cbn in L; lia]. cbn [fold_left] in H. injection H as H1 H2. clear L.
  assert (I : In s (kept_parts k X ps)) by (rewrite E; left; reflexivity).
  unfold kept_parts in I. apply in_flat_map in I as ([p q] & Hin & Hs). cbn [fst snd] in Hs.
  unfold kept_part in Hs. destruct (insideb_spec k p) as [Ip|Ip].
  - destruct Hs as [<-|[]]. cbn [fst snd] in *. subst p. destruct (outsideb_spec k q) as [Oq|Oq].
    + exfalso. apply (inside_not_on_line k a Ip). rewrite <- H2. apply HX; [assumption|]. left. auto.
    + subst q. apply (one_part k X); [rewrite E; apply le_n|assumption|assumption].
  - exfalso. destruct (insideb_spec k q) as [Iq|Iq]; [|destruct Hs]. destruct (outsideb_spec k p) as [Op|Op]; destruct Hs as [<-|[]]; cbn [fst snd] in *.
    + subst q. apply (inside_not_on_line k a Iq). rewrite <- H1. apply HX; [assumption|]. right. auto.
    + subst. contradiction.
Qed.

Lemma clip_edge_length m k ps out : has_length ps = true -> clip_edge m k ps = Ok out -> big out = true -> has_length out = true.
Proof.
  intros Hl H Hb. pose proof (clip_edge_good _ _ _ _ H) as HX. apply clip_edge_path in H.
  destruct out as [|a [|b [|c l]]]; try discriminate; [|reflexivity]. cbn [has_length].
  destruct (pt_eqb_spec a b) as [->|]; [|reflexivity]. symmetry in H. apply clip_path_flat in H; [|assumption].
  subst ps. cbn [has_length] in Hl. rewrite pt_eqb_refl in Hl. discriminate.
Qed.

(** What is read suffices to see that a topology is valid. *)
Lemma valid_intro {D} (t : topology D) : exact_references t ->
  (forall e, In e (tp_edges t) -> has_length (te_points e) = true) ->
  (forall rg r, In rg (tp_regions t) -> In r (tg_outer rg ++ tg_inner rg) ->
     exists ps, read_ring (tp_edges t) r = map Some ps /\ ps <> [] /\ closed_chain ps) -> valid t.
Proof.
  intros X L R. split; [assumption|]. split; [assumption|]. intros rg r Hg Hin.
  destruct (R rg r Hg Hin) as (ps & E & N & C).
  assert (Hlt : forall d, In d (tr_des r) -> (de_edge d < length (tp_edges t))%nat).
  { intros d Hd. destruct (ring_des_used t rg r d Hg Hin Hd) as (rr & Hu). destruct X as (_ & X & _).
    apply (X (de_edge d, rr)). apply users_in. assumption. }
  rewrite (read_seen t r Hlt) in E. apply map_Some_inj in E. rewrite E. split; [|assumption].
  intros Ed. unfold seen_ring in E. rewrite Ed in E. cbn in E. congruence.
Qed.

Lemma clip_valid {D} m k (t t' : topology D) : valid t -> clip_topology m t k = Ok t' -> valid t'.
Proof.
  intros (_ & L & _) H. apply clip_topology_ok in H as (C & b & HC & Hb & X & HR & HE).
  apply valid_intro; [assumption| |].
  - intros e He. apply (in_map te_points) in He. rewrite HE in He. unfold pts_of in He. apply in_app_iff in He as [He|He].
    + unfold old_of in He. apply filter_In in He as (He & Hbig).
      eapply Forall2_in_r in HC as (e0 & He0 & Ec); [|exact He]. eapply clip_edge_length; [apply L, He0|exact Ec|assumption].
    + destruct Hb as (_ & _ & (_ & _ & _ & HN) & _). apply in_map_iff in He as (kv & <- & Hk).
      rewrite Forall_forall in HN. destruct (HN kv Hk) as (LT & _). unfold seg_points. cbn [has_length].
      destruct (pt_eqb_spec (fst (fst kv)) (snd (fst kv))) as [E|]; [|reflexivity]. exfalso. rewrite E in LT. unfold lt_point in LT. lia.
  - intros rg r Hg Hi. eapply clip_rings_closed; eassumption.
Qed.

(** ** Normalization keeps topologies valid *)

Lemma normalize_valid {D} m (t t' : topology D) : valid t -> normalize m t = Ok t' -> valid t'.
Proof.
  intros V H. apply normalize_Ok in H as (gs & E & B). eapply built_valid; [|exact B]. intros g r Hg Hr.
  assert (F : Forall2 (fun rg g => normalize_region m t rg = Ok g /\ In rg (tp_regions t)) (tp_regions t) gs).
  { eapply Forall2_mmap; [eassumption|]. auto. }
  destruct (Forall2_in_r _ _ _ g F Hg) as (rg & Hin & En & _).
  destruct (normalize_region_fact m t rg g V Hin En) as (outs & ins & -> & S1 & S2). cbn [rg_outer rg_inner] in Hr.
  apply side_lengthy in S1 as (_ & G1). apply side_lengthy in S2 as (_ & G2). rewrite Forall_forall in G1, G2.
  apply in_app_iff in Hr as [Hr|Hr]; apply in_map_iff in Hr as (es & <- & Hes); [apply G1 in Hes|apply G2 in Hes]; apply Hes.
Qed.

(** ** Simplification keeps topologies valid *)

Lemma simplify_edge_length m ps thr r : thr <= 2 ^ 64 - 1 -> has_length ps = true -> simplify_edge m ps thr = Ok r -> has_length r = true.
Proof.
  intros Ht Hl E. destruct (edge_ok_dec ps) as [HE|HE]; [|rewrite simplify_edge_rejects in E by exact HE; discriminate].
  destruct (simplify_edge_ok m ps thr HE Ht) as [[_ E']|(r' & E' & H)]; rewrite E in E'; [discriminate|]. injection E' as <-.
  destruct H as (_ & Hf & Hfi & H2 & H4 & _). destruct r as [|a [|b [|c l]]]; [cbn in H2; lia|cbn in H2; lia| |reflexivity].
  cbn [has_length]. destruct (pt_eqb_spec a b) as [->|]; [|reflexivity]. exfalso.
  assert (is_closed ps) as C. { split; [intros ->; cbn in Hf; discriminate|]. rewrite <- Hf, <- Hfi. reflexivity. }
  specialize (H4 C). cbn in H4. lia.
Qed.

Lemma simplify_valid {D} m (t t' : topology D) thr : thr <= 2 ^ 64 - 1 -> valid t -> simplify m t thr = Ok t' -> valid t'.
Proof.
  intros Ht (X & L & R) H. pose proof (simplify_parts m t t' thr H) as (ER & F). apply valid_intro.
  - eapply simplify_references; eassumption.
  - intros e He. destruct (Forall2_in_r _ _ _ e F He) as (e0 & He0 & E & _). eapply simplify_edge_length; [exact Ht|apply L, He0|exact E].
  - intros rg r Hg Hin. rewrite ER in Hg. destruct (R rg r Hg Hin) as (N & C).
    assert (Hlt : forall d, In d (tr_des r) -> (de_edge d < length (tp_edges t))%nat).
    { intros d Hd. destruct (ring_des_used t rg r d Hg Hin Hd) as (rr & Hu). destruct X as (_ & X & _).
      apply (X (de_edge d, rr)). apply users_in. assumption. }
    pose proof (read_seen t r Hlt) as E. destruct (simplify_rings m t t' thr r _ Ht H E C) as (ps' & E' & C' & S).
    exists ps'. split; [assumption|]. split; [|assumption]. intros ->. apply Forall2_length' in S as S'. symmetry in S'.
    apply length_zero_iff_nil, map_eq_nil in S'.
    unfold seen_ring in S'. destruct (tr_des r) as [|d ds]; [congruence|]. cbn [flat_map] in S'. apply app_eq_nil in S' as (S' & _).
    unfold seen in S'. destruct (nth_error (tp_edges t) (de_edge d)) eqn:En; [discriminate|]. apply nth_error_None in En.
    specialize (Hlt d (or_introl eq_refl)). lia.
Qed.

(** ** Rectangles *)

Lemma quot_neg_r n d : 0 < d -> 0 <= n -> Z.quot n (- d) = - (n / d).
Proof. intros. rewrite Z.quot_opp_r by lia. rewrite Z.quot_div_nonneg by lia. reflexivity. Qed.
Lemma quot_neg_l n d : 0 < d -> 0 <= n -> Z.quot (- n) d = - (n / d).
Proof. intros. rewrite Z.quot_opp_l by lia. rewrite Z.quot_div_nonneg by lia. reflexivity. Qed.

(** The quotient of a product that wrapped around. *)
Lemma wrapped_quot A W d : 0 < A < d -> d < 2 ^ 32 -> 0 <= W < 2 ^ 32 -> 2 ^ 63 <= A * W ->
  2 ^ 32 - W <= (2 ^ 64 - A * W) / d < 2 ^ 32.
Proof.
  intros HA Hd HW HN. set (k := (2 ^ 64 - A * W) / d).
  pose proof (Z.div_mod (2 ^ 64 - A * W) d ltac:(lia)) as E. fold k in E.
  pose proof (Z.mod_pos_bound (2 ^ 64 - A * W) d ltac:(lia)) as B.
  assert (HdL : 2 ^ 31 < d) by nia. split; [|nia].
  destruct (Z_lt_le_dec k (2 ^ 32 - W)) as [L|L]; [exfalso|assumption].
  assert ((k + 1) * d <= (2 ^ 32 - W) * d) by nia. nia.
Qed.

Lemma wrap_above z : 2 ^ 63 <= z < 2 ^ 64 -> wrap_i64 z = z - 2 ^ 64.
Proof.
  intros H. unfold wrap_i64. nums. replace (z + 2 ^ 63) with (z - 2 ^ 63 + 1 * 2 ^ 64) by lia.
  rewrite Z.mod_add by lia. rewrite Z.mod_small by lia. lia.
Qed.
Lemma wrap_below z : - 2 ^ 64 < z < - 2 ^ 63 -> wrap_i64 z = z + 2 ^ 64.
Proof.
  intros H. unfold wrap_i64. nums. replace (z + 2 ^ 63) with (z + 3 * 2 ^ 63 + (-1) * 2 ^ 64) by lia.
  rewrite Z.mod_add by lia. rewrite Z.mod_small by lia. lia.
Qed.

(** The interpolated coordinate lies between the two ends', even when the product wraps. *)
Lemma interpolate_between m v a1 c1 a2 c2 c :
  is_u32 v -> is_u32 a1 -> is_u32 c1 -> is_u32 a2 -> is_u32 c2 ->
  (a1 < v < a2 \/ a2 < v < a1) ->
  interpolate m v a1 c1 a2 c2 = Ok c -> Z.min c1 c2 <= as_u32 c <= Z.max c1 c2.
Proof.
  intros Hv H1 H2 H3 H4 Hb. pose proof (quot_interp v a1 c1 a2 c2 Hb) as (B1 & _ & _). unfold is_u32 in *.
  unfold interpolate, i64_sub, i64_mul, i64_add, i64_div.
  rewrite (i64_ret_fits m (v - a1)) by (unfold fits; lia). cbn [bind].
  rewrite (i64_ret_fits m (c2 - c1)) by (unfold fits; lia). cbn [bind].
  destruct (fits_dec ((v - a1) * (c2 - c1))) as [F|F].
  - rewrite i64_ret_fits by assumption. cbn [bind].
    rewrite (i64_ret_fits m (a2 - a1)) by (unfold fits; lia). cbn [bind].
    destruct (Z.eqb_spec (a2 - a1) 0); [lia|].
    destruct (in_i64 (Z.quot _ _)); cbn [bind]; [|discriminate].
    rewrite (i64_ret_fits m) by (unfold fits; lia). intros [= <-].
    assert (E : as_u32 (c1 + Z.quot ((v - a1) * (c2 - c1)) (a2 - a1)) = c1 + Z.quot ((v - a1) * (c2 - c1)) (a2 - a1))
      by (nums; apply Z.mod_small; lia).
    rewrite E. lia.
  - destruct m; [rewrite i64_ret_debug by assumption; discriminate|]. rewrite i64_ret_release. cbn [bind].
    rewrite (i64_ret_fits Release (a2 - a1)) by (unfold fits; lia). cbn [bind].
    destruct (Z.eqb_spec (a2 - a1) 0); [lia|].
    destruct (in_i64 (Z.quot _ _)); cbn [bind]; [|discriminate].
    assert (HN : 2 ^ 63 <= Z.abs (v - a1) * Z.abs (c2 - c1)) by (rewrite <- Z.abs_mul; unfold fits in F; lia).
    assert (K := wrapped_quot (Z.abs (v - a1)) (Z.abs (c2 - c1)) (Z.abs (a2 - a1)) ltac:(lia) ltac:(lia) ltac:(lia) HN).
    set (k := (2 ^ 64 - Z.abs (v - a1) * Z.abs (c2 - c1)) / Z.abs (a2 - a1)) in K.
    assert (HU : Z.abs (v - a1) * Z.abs (c2 - c1) < 2 ^ 64) by nia.
    assert (EQ : Z.quot (wrap_i64 ((v - a1) * (c2 - c1))) (a2 - a1) = if c1 <? c2 then - k else k).
    { destruct Hb as [Hb|Hb]; destruct (Z.ltb_spec c1 c2) as [C|C].
      - rewrite wrap_above by lia. unfold k. rewrite !Z.abs_eq by lia. rewrite <- quot_neg_l by nia. f_equal. lia.
      - rewrite (Z.abs_neq (c2 - c1)) in * by lia. rewrite (Z.abs_eq (v - a1)) in * by lia.
        assert ((v - a1) * (c2 - c1) <> - 2 ^ 63) by (unfold fits in F; lia).
        rewrite wrap_below by nia. unfold k. rewrite (Z.abs_eq (v - a1)), (Z.abs_neq (c2 - c1)), (Z.abs_eq (a2 - a1)) by lia.
        rewrite Z.quot_div_nonneg by nia. f_equal. lia.
      - rewrite (Z.abs_eq (c2 - c1)) in * by lia. rewrite (Z.abs_neq (v - a1)) in * by lia.
        assert ((v - a1) * (c2 - c1) <> - 2 ^ 63) by (unfold fits in F; lia).
        rewrite wrap_below by nia. unfold k. rewrite (Z.abs_neq (v - a1)), (Z.abs_eq (c2 - c1)), (Z.abs_neq (a2 - a1)) by lia.
        rewrite <- quot_neg_r by nia. f_equal; lia.
      - rewrite (Z.abs_neq (c2 - c1)) in * by lia. rewrite (Z.abs_neq (v - a1)) in * by lia.
        rewrite wrap_above by nia. unfold k. rewrite (Z.abs_neq (v - a1)), (Z.abs_neq (c2 - c1)), (Z.abs_neq (a2 - a1)) by lia.
        rewrite <- (Z.quot_div_nonneg (2 ^ 64 - _)) by nia. rewrite <- Z.quot_opp_opp by lia. f_equal; lia. }
    rewrite EQ. clear EQ. destruct (Z.ltb_spec c1 c2) as [C|C]; rewrite (i64_ret_fits Release) by (unfold fits; lia); intros [= <-].
    + assert (E : as_u32 (c1 + - k) = c1 - k + 2 ^ 32).
      { nums. symmetry. apply (Z.mod_unique _ _ (-1)); lia. }
      rewrite E. lia.
    + assert (E : as_u32 (c1 + k) = c1 + k - 2 ^ 32).
      { nums. symmetry. apply (Z.mod_unique _ _ 1); lia. }
      rewrite E. lia.
Qed.

(** Points of a mask's axis and the other axis, in a rectangle. *)
Lemma in_box_axis k lo hi p : in_box lo hi p <->
  axis k lo <= axis k p <= axis k hi /\ along k lo <= along k p <= along k hi.
Proof. unfold in_box. destruct k; cbn [axis along]; tauto. Qed.

Lemma intersect_in_box m k lo hi p q r : wf_mask k -> wf_point p -> wf_point q -> opposite k p q ->
  in_box lo hi p -> in_box lo hi q -> mask_intersect m k p q = Ok r -> in_box lo hi r.
Proof.
  intros Hk Hp Hq Ho. rewrite !(in_box_axis k). intros (P1 & P2) (Q1 & Q2) H. apply opposite_between in Ho.
  destruct (wf_axis k p Hp) as [P3 P4]. destruct (wf_axis k q Hq) as [Q3 Q4].
  rewrite mask_intersect_eq in H. apply bind_Ok in H as (c & Hc & H).
  apply interpolate_between in Hc; try assumption. injection H as <-.
  destruct k; cbn [axis along level px py] in *; lia.
Qed.

Lemma clip_edge_in_box m k lo hi ps out : wf_mask k ->
  Forall (fun p => wf_point p /\ in_box lo hi p) ps -> clip_edge m k ps = Ok out ->
  Forall (fun p => wf_point p /\ in_box lo hi p) out.
Proof.
  intros Hk F H. pose proof (clip_edge_ok m k ps out H) as (_ & HX). apply clip_edge_path in H as ->.
  rewrite Forall_forall in F. apply Forall_forall. intros z Hz. apply clip_path_origin in Hz as [Hz|(p & q & Hin & Ho & ->)]; [auto|].
  specialize (HX p q Hin Ho). pose proof (in_combine_l _ _ _ _ Hin) as Hp. pose proof (in_combine_r _ _ _ _ Hin) as Hq.
  assert (Hq' : In q ps) by (destruct ps; [destruct Hq|right; exact Hq]).
  destruct (F p Hp), (F q Hq'). split; [eapply mask_intersect_wf; eassumption|]. eapply intersect_in_box; [exact Hk| | |exact Ho| | |exact HX]; assumption.
Qed.

Lemma clip_in_box {D} m k lo hi (t t' : topology D) : wf_mask k ->
  all_points (fun p => wf_point p /\ in_box lo hi p) t -> clip_topology m t k = Ok t' ->
  all_points (fun p => wf_point p /\ in_box lo hi p) t'.
Proof.
  intros Hk F H. apply clip_topology_ok in H as (C & b & HC & (_ & _ & (_ & _ & _ & HN) & _) & _ & _ & HE).
  set (P := fun p => wf_point p /\ in_box lo hi p) in *.
  assert (HK : forall c, In c C -> Forall P c).
  { intros c Hc. destruct (Forall2_in_r _ _ _ c HC Hc) as (e & He & Ec). eapply clip_edge_in_box; [exact Hk| |exact Ec].
    apply Forall_forall. intros p Hp. apply (F e p He Hp). }
  assert (HO : forall p, old_end C p -> P p).
  { intros p (c & Hc & Hp). unfold old_of in Hc. apply filter_In in Hc as [Hc _]. apply HK in Hc. rewrite Forall_forall in Hc. apply Hc.
    destruct Hp; [apply first_in|apply final_in]; assumption. }
  intros e p He Hp. apply (in_map te_points) in He. rewrite HE in He. unfold pts_of in He. apply in_app_iff in He as [He|He].
  - unfold old_of in He. apply filter_In in He as (He & _). apply HK in He. rewrite Forall_forall in He. auto.
  - apply in_map_iff in He as (kv & E & Hk'). rewrite Forall_forall in HN. destruct (HN kv Hk') as (_ & H1 & H2).
    rewrite <- E in Hp. unfold seg_points in Hp. destruct Hp as [<-|[<-|[]]]; apply HO; assumption.
Qed.

Lemma clip_kept {D} m k (t t' : topology D) : clip_topology m t k = Ok t' -> all_points (kept_point k) t'.
Proof.
  intros H e p He Hp. apply clip_topology_ok in H as (C & b & HC & (_ & _ & Hn & _) & _ & _ & HE).
  pose proof (clip_points_kept m k t C (cb_new b) HC Hn) as HF. rewrite <- HE in HF.
  rewrite Forall_forall in HF. apply (in_map te_points) in He. apply HF in He. rewrite Forall_forall in He. auto.
Qed.

(** Clipping again never undoes an earlier clip. *)
Lemma clip_keeps {D} m k k' (t t' : topology D) : wf_mask k -> wf_mask k' ->
  all_points (fun p => wf_point p /\ kept_point k' p) t -> clip_topology m t k = Ok t' ->
  all_points (fun p => wf_point p /\ kept_point k' p) t'.
Proof.
  intros Hk Hk' A C. set (top := 2 ^ 32 - 1).
  set (lo := match k' with MinX x => Pt x 0 | MinY y => Pt 0 y | _ => Pt 0 0 end).
  set (hi := match k' with MaxX x => Pt x top | MaxY y => Pt top y | _ => Pt top top end).
  assert (E : forall p, wf_point p -> kept_point k' p <-> in_box lo hi p).
  { intros p (W1 & W2). unfold is_u32, in_box, kept_point, inside, on_line, lo, hi, top, axis, level in *. destruct k'; cbn [px py] in *; lia. }
  intros e p He Hp. destruct (clip_in_box m k lo hi t t' Hk) with (e := e) (p := p) as (W & B); try assumption.
  - intros e' p' He' Hp'. destruct (A e' p' He' Hp') as (W & K). split; [assumption|]. apply E; assumption.
  - split; [assumption|]. apply E; assumption.
Qed.

Lemma clip_wf {D} m k (t t' : topology D) : wf_mask k -> all_points wf_point t -> clip_topology m t k = Ok t' -> all_points wf_point t'.
Proof.
  intros Hk A C e p He Hp. apply (clip_in_box m k (Pt 0 0) (Pt (2 ^ 32) (2 ^ 32)) t t' Hk) with (e := e); try assumption.
  intros e' p' He' Hp'. pose proof (A e' p' He' Hp') as W. split; [assumption|]. destruct W. unfold is_u32, in_box in *. cbn [px py]. lia.
Qed.

Lemma clip_all_kept {D} m ks : forall (t t' : topology D), Forall wf_mask ks -> all_points wf_point t -> clip_all m ks t = Ok t' ->
  all_points (fun p => wf_point p /\ Forall (fun k => kept_point k p) ks) t' /\
  forall k, wf_mask k -> all_points (kept_point k) t -> all_points (kept_point k) t'.
Proof.
  induction ks as [|k ks IH]; intros t t' HF W H.
  - injection H as <-. split; [|auto]. intros e p He Hp. split; [apply (W e p He Hp)|constructor].
  - cbn [clip_all] in H. destruct (clip_topology m t k) as [t1|] eqn:C; [|discriminate]. cbn [bind] in H.
    inversion HF as [|? ? Hk HF']; subst. pose proof (clip_wf m k t t1 Hk W C) as W1. destruct (IH t1 t' HF' W1 H) as (I1 & I2). split.
    + intros e p He Hp. destruct (I1 e p He Hp) as (J1 & J2). split; [assumption|]. constructor; [|assumption].
      apply (I2 k Hk (clip_kept m k t t1 C) e p He Hp).
    + intros k' Hk' K. apply I2; [assumption|].
      intros e p He Hp. apply (clip_keeps m k k' t t1 Hk Hk') with (e := e); try assumption.
      intros e' p' He' Hp'. split; [apply (W e' p' He' Hp')|apply (K e' p' He' Hp')].
Qed.
