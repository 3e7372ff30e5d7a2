(** * OnceProofs: edges stored once, and in their canonical direction *)
From Verif Require Import OnceSpec Simplify GeoProofs TopoProofs BuildProofs NormProofs NormTopo NormReturn NormLaws ClipEdgeProofs ClipTopoProofs ClipTopoLaws ClipTrace ClipSteps ClipStepsTopo SimplifyProofs SimplifyLaws SimplifyHeap SimplifyProps ClipEdgeProps CrossProofs.

Lemma same_path_sym ps qs : same_path ps qs -> same_path qs ps.
Proof. intros [->| ->]; [left; reflexivity|right; symmetry; apply rev_involutive]. Qed.
Lemma same_path_ends ps qs : same_path ps qs -> same_ends ps qs.
Proof. intros [->| ->]; [left; auto|right]. rewrite first_rev, final_rev. auto. Qed.

(** ** Building *)
Lemma build_once {D} m (rs : list (region D)) t : build_topology m rs = Ok t ->
  (forall e, In e (tp_edges t) -> open_or_wide (te_points e)) -> stored_once t.
Proof.
  intros H W i j e f Hij Hi Hj [E|E]; apply build_edges_stored in H as [Hn Hs].
  - apply Hij. eapply (NoDup_nth_error_inj _ i j (te_points e) Hn); rewrite nth_error_map; [rewrite Hi|rewrite Hj; cbn; rewrite E]; reflexivity.
  - apply nth_error_In in Hi, Hj. rewrite Forall_forall in Hs. pose proof (Hs _ (in_map te_points _ _ Hi)) as S1. pose proof (Hs _ (in_map te_points _ _ Hj)) as S2. rewrite E in S2.
    destruct (stored_reverse _ S1 S2) as (p & P1 & P2 & P). destruct (W e Hi) as [O|[O1 O2]]; [congruence|]. destruct P; contradiction.
Qed.
Lemma build_canonical {D} m (rs : list (region D)) t : build_topology m rs = Ok t -> canonical_edges t.
Proof.
  intros H e p q He Hp Hq Hpq. apply build_edges_stored in H as [Hn Hs]. rewrite Forall_forall in Hs. apply (in_map te_points) in He. apply Hs in He.
  destruct (stored_cases _ _ _ He Hp Hq) as [|[]]; [assumption|contradiction].
Qed.

(** ** Simplifying *)
Lemma Forall2_nth {A B} (R : A -> B -> Prop) l l' i b : Forall2 R l l' -> nth_error l' i = Some b -> exists a, nth_error l i = Some a /\ R a b.
Proof.
  intros F. revert i. induction F as [|x y l l' H F IH]; intros [|i] E; try discriminate; cbn in *; [injection E as <-; eauto|apply IH, E].
Qed.


Lemma simplified_edge {D} m (t t' : topology D) thr i e' : thr <= 2 ^ 64 - 1 -> simplify m t thr = Ok t' -> nth_error (tp_edges t') i = Some e' ->
  exists e, nth_error (tp_edges t) i = Some e /\ subseq (te_points e') (te_points e) /\ first (te_points e') = first (te_points e) /\ final (te_points e') = final (te_points e).
Proof.
  intros Ht H Hi. destruct (simplify_parts m t t' thr H) as (_ & F). destruct (Forall2_nth _ _ _ _ _ F Hi) as (e & He & E & _). exists e. split; [exact He|].
  destruct (C38_subsequence m _ thr _ Ht E) as (S & P & Q & _). auto.
Qed.
Lemma simplify_canonical {D} m (t t' : topology D) thr : thr <= 2 ^ 64 - 1 -> simplify m t thr = Ok t' -> canonical_edges t <-> canonical_edges t'.
Proof.
  intros Ht H. split.
  - intros C e' p q He Hp Hq. apply In_nth_error in He as [i Hi]. destruct (simplified_edge m t t' thr i e' Ht H Hi) as (e & He & _ & P & Q).
    apply (C e p q (nth_error_In _ _ He)); congruence.
  - intros C e p q He Hp Hq. apply In_nth_error in He as [i Hi].
    assert (exists e', nth_error (tp_edges t') i = Some e') as (e' & Hi').
    { destruct (nth_error (tp_edges t') i) eqn:E; [eauto|]. exfalso. apply nth_error_None in E. destruct (simplify_parts m t t' thr H) as (_ & F). apply Forall2_length' in F. apply nth_error_lt in Hi. lia. }
    destruct (simplified_edge m t t' thr i e' Ht H Hi') as (e1 & He1 & _ & P & Q). rewrite Hi in He1. injection He1 as <-.
    apply (C e' p q (nth_error_In _ _ Hi')); congruence.
Qed.

(** ** Clipping *)
Lemma filter_positions {A} (f : A -> bool) : forall l i j a b, i <> j -> nth_error (filter f l) i = Some a -> nth_error (filter f l) j = Some b ->
  exists i' j', i' <> j' /\ nth_error l i' = Some a /\ nth_error l j' = Some b.
Proof.
  assert (One : forall l i a, nth_error (filter f l) i = Some a -> exists i', nth_error l i' = Some a).
  { intros l i a H. apply nth_error_In, filter_In in H as [H _]. apply In_nth_error, H. }
  induction l as [|x l IH]; intros i j a b N Hi Hj; cbn [filter] in *; [destruct i; discriminate|].
  destruct (f x).
  - destruct i as [|i], j as [|j]; cbn in Hi, Hj; try congruence.
    + destruct (One _ _ _ Hj) as (j' & Hj'). exists 0%nat, (S j'). auto.
    + destruct (One _ _ _ Hi) as (i' & Hi'). exists (S i'), 0%nat. auto.
    + destruct (IH i j a b) as (i' & j' & N' & A1 & A2); [congruence|assumption|assumption|]. exists (S i'), (S j'). auto.
  - destruct (IH i j a b N Hi Hj) as (i' & j' & N' & A1 & A2). exists (S i'), (S j'). auto.
Qed.

Lemma segment_with ps p : (2 <= length ps)%nat -> In p ps -> exists a b, In [a; b] (segments ps) /\ (p = a \/ p = b).
Proof.
  induction ps as [|x [|y ps] IH]; cbn [length]; intros L H; [lia|lia|]. destruct H as [->|H]; [exists p, y; cbn; auto|].
  destruct ps as [|z ps]; [destruct H as [->|[]]; exists x, p; cbn; auto|].
  destruct IH as (a & b & I & E); [cbn; lia|exact H|]. exists a, b. split; [right; exact I|exact E].
Qed.

Lemma inside_point m k ps out : clip_edge m k ps = Ok out -> out <> [] -> exists p, In p out /\ inside k p.
Proof.
  intros H N. destruct (C19_points m k ps out H) as (F & _ & _ & E & _).
  destruct (filter (insideb k) ps) as [|p l] eqn:Ef.
  - exfalso. apply N, E. right. intros p Hp Hi. assert (In p (filter (insideb k) ps)) by (apply filter_In; split; [exact Hp|apply C19_insideb, Hi]). rewrite Ef in H0. destruct H0.
  - exists p. destruct (Nat.lt_ge_cases (length ps) 2) as [L|L]; [exfalso; apply N, E; auto|]. specialize (F L). 
    assert (In p (filter (insideb k) out)) by (rewrite F, ?Ef; left; reflexivity). apply filter_In in H0 as [H1 H2]. split; [exact H1|apply C19_insideb, H2].
Qed.

Lemma within_on a b p : within a b p -> lies_on a b p.
Proof.
  intros (u & v & Hu & Hv & Hn & X & Y). split; [|split].
  - unfold turn. assert ((u + v) * ((px b - px a) * (py p - py a) - (px p - px a) * (py b - py a)) = 0); [|nia].
    replace ((u + v) * ((px b - px a) * (py p - py a) - (px p - px a) * (py b - py a)))
      with ((px b - px a) * ((u + v) * py p - (u + v) * py a) - ((u + v) * px p - (u + v) * px a) * (py b - py a)) by ring. rewrite X, Y. ring.
  - destruct (Z.le_ge_cases (px a) (px b)); [rewrite Z.min_l, Z.max_r by lia|rewrite Z.min_r, Z.max_l by lia]; nia.
  - destruct (Z.le_ge_cases (py a) (py b)); [rewrite Z.min_l, Z.max_r by lia|rewrite Z.min_r, Z.max_l by lia]; nia.
Qed.
Lemma lies_on_swap a b p : lies_on a b p -> lies_on b a p.
Proof. unfold lies_on. rewrite turn_swap. intros (A & B & C). rewrite (Z.min_comm (px b)), (Z.max_comm (px b)), (Z.min_comm (py b)), (Z.max_comm (py b)). split; [lia|auto]. Qed.

(** A segment of a clipped edge with an end inside lies on a segment of the edge. *)
Lemma clipped_segment_from m k ps c a b : wf_mask k -> wf_points ps -> small_path ps -> (forall p q, In [p; q] (segments ps) -> between_points k p q = false) ->
  (forall p, ~ In [p; p] (segments ps)) -> clip_edge m k ps = Ok c -> In [a; b] (segments c) -> inside k a \/ inside k b ->
  a <> b /\ exists p q, In [p; q] (segments ps) /\ lies_on p q a /\ lies_on p q b.
Proof.
  intros Wk W0 S0 X NS Ec Hs Hi. pose proof (first_step m k _ Wk W0 S0) as E1. rewrite Ec in E1. injection E1 as E1. rewrite E1 in Hs.
  apply segments_combine in Hs. apply (segs_of_clip k _ _ a b (first_good m k _ Wk W0 S0)) in Hs as [Hs|[L1 L2]].
  2:{ exfalso. unfold on_line in L1, L2. destruct Hi as [Hi|Hi]; destruct k; cbn [axis level inside] in *; lia. }
  apply in_map_iff in Hs as ([[a' b'] v] & [= -> ->] & I). unfold kept_parts in I. apply in_flat_map in I as ([p q] & I & J). cbn [fst snd] in J.
  pose proof (proj2 (segments_combine _ p q) I) as I'. destruct (seg_wf ps W0 S0 p q I) as (Wp & Wq & Ss).
  destruct (clip_part m k p q a b Wk Wp Wq Ss (X _ _ I') (in_map fst _ _ J)) as (A1 & A2 & _ & _).
  split; [|exists p, q; split; [exact I'|]; split; apply within_on; assumption].
  assert (Npq : p <> q) by (intros ->; exact (NS q I')).
  unfold kept_part in J. destruct (insideb_spec k p) as [Ip|Ip].
  - destruct J as [[= <- <- _]|[]]. destruct (outsideb_spec k q) as [Oq|Oq]; [|exact Npq].
    assert (O : opposite k p q) by (left; auto). destruct (computed m k p q Wk Wp Wq O Ss) as (_ & _ & (L & _)). intros Eq. rewrite <- Eq in L. unfold on_line in L. destruct k; cbn [axis level inside] in *; lia.
  - destruct (insideb_spec k q) as [Iq|Iq]; [|destruct J]. destruct (outsideb_spec k p) as [Op|Op]; destruct J as [[= <- <- _]|[]]; [|exact Npq].
    assert (O : opposite k p q) by (right; auto). destruct (computed m k p q Wk Wp Wq O Ss) as (_ & _ & (L & _)). intros Eq. rewrite Eq in L. unfold on_line in L. destruct k; cbn [axis level inside] in *; lia.
Qed.

Lemma segments_rev_in ps a b : In [a; b] (segments ps) -> In [b; a] (segments (rev ps)).
Proof. intros H. apply segments_rev. rewrite rev_involutive. exact H. Qed.

Lemma clip_once {D} m k (t t' : topology D) : wf_mask k -> wf_topology t -> small_steps t -> closed_rings t -> exact_crossings k t ->
  no_overlaps t -> no_stops t -> clip_topology m t k = Ok t' -> stored_once t'.
Proof.
  intros Wk Wt S CR X NO NS H. pose proof H as H0. apply clip_topology_traced in H as (C & cb & HC & HB & _ & _ & HE & _ & HK & _).
  assert (NK : nes_ok C (cb_new cb)) by apply HB. destruct NK as (_ & _ & ND & LT). rewrite Forall_forall in LT.
  assert (OL : forall c, In c (old_of C) -> exists p, In p c /\ inside k p /\ (2 <= length c)%nat).
  { intros c Hc. unfold old_of in Hc. apply filter_In in Hc as (Hc & Hb). destruct (Forall2_in_r _ _ _ _ HC Hc) as (e0 & _ & Ec).
    destruct (inside_point _ _ _ _ Ec) as (p & Hp & Ip); [destruct c; [discriminate|congruence]|]. exists p. split; [exact Hp|]. split; [exact Ip|]. destruct c as [|x [|y c]]; [discriminate|discriminate|cbn; lia]. }
  assert (GL : forall kv, In kv (nes_edges (cb_new cb)) -> on_line k (fst (fst kv)) /\ on_line k (snd (fst kv))).
  { intros kv Hk'. assert (In (fst kv) (keys (cb_new cb))) as Hi by (unfold keys; apply in_map; assumption).
    rewrite HK in Hi. apply in_add_keys in Hi as [[]|Hi]. apply in_flat_map in Hi as (p & Hp & Hg).
    unfold seen_pieces, ring_pieces in Hp. apply in_concat in Hp as (l & Hl & Hp). apply in_map_iff in Hl as (r & <- & Hr). apply in_flat_map in Hr as (rg & Hrg & Hr).
    assert (Hr' : In r (tg_outer rg ++ tg_inner rg)).
    { unfold seen_rings in Hr. apply in_app_iff in Hr as [Hr|Hr]; apply in_app_iff; [auto|]. destruct (region_kept C rg); [auto|destruct Hr]. }
    pose proof (ring_lines m k t C r Wk Wt S HC (CR rg r Hrg Hr')) as HG.
    unfold gap_key in Hg. destruct (pc_key p) as [i|u v] eqn:Ek; [destruct Hg|]. destruct Hg as [Hg|[]]. rewrite <- Hg. exact (HG p u v Hp Ek). }
  assert (Cross : forall c kv, In c (old_of C) -> In kv (nes_edges (cb_new cb)) -> ~ same_path c (seg_points kv)).
  { intros c kv Hc Hk E. destruct (OL c Hc) as (p & Hp & Ip & _). destruct (GL kv Hk) as [L1 L2].
    assert (In p (seg_points kv)) as Hp' by (destruct E as [->| ->]; [exact Hp|apply in_rev in Hp; exact Hp]).
    destruct Hp' as [<-|[<-|[]]]; unfold on_line in L1, L2; destruct k; cbn [axis level inside] in *; lia. }
  intros i j e f Hij Hi Hj E.
  assert (Pi : nth_error (pts_of C (cb_new cb)) i = Some (te_points e)) by (rewrite <- HE, nth_error_map, Hi; reflexivity).
  assert (Pj : nth_error (pts_of C (cb_new cb)) j = Some (te_points f)) by (rewrite <- HE, nth_error_map, Hj; reflexivity).
  unfold pts_of in Pi, Pj. destruct (Nat.lt_ge_cases i (length (old_of C))) as [Li|Li], (Nat.lt_ge_cases j (length (old_of C))) as [Lj|Lj].
  - rewrite nth_error_app1 in Pi, Pj by assumption. destruct (OL _ (nth_error_In _ _ Pi)) as (p & Hp & Ip & Ln).
    destruct (filter_positions _ _ _ _ _ _ Hij Pi Pj) as (i' & j' & N' & Qi & Qj).
    destruct (Forall2_nth _ _ _ _ _ HC Qi) as (e0 & He0 & Ee). destruct (Forall2_nth _ _ _ _ _ HC Qj) as (f0 & Hf0 & Ef).
    destruct (segment_with _ p Ln Hp) as (a & b & Iab & Pab).
    assert (In0 : inside k a \/ inside k b) by (destruct Pab as [<-|<-]; auto).
    assert (G : forall e0 c x y, In e0 (tp_edges t) -> clip_edge m k (te_points e0) = Ok c -> In [x; y] (segments c) -> inside k x \/ inside k y ->
       x <> y /\ exists p q, In [p; q] (segments (te_points e0)) /\ lies_on p q x /\ lies_on p q y).
    { intros e1 c x y I1 Ec Is Ins. apply (clipped_segment_from m k (te_points e1) c x y); try assumption.
      - unfold wf_topology in Wt. rewrite Forall_forall in Wt. apply Wt, I1.
      - intros u v I. exact (S e1 u v I1 I).
      - intros u v I. exact (X e1 u v I1 I).
      - intros u. apply NS, I1. }
    destruct (G e0 _ a b (nth_error_In _ _ He0) Ee Iab In0) as (Nab & p1 & q1 & J1 & A1 & A2).
    destruct E as [E|E].
    + rewrite E in Ef. destruct (G f0 _ a b (nth_error_In _ _ Hf0) Ef Iab In0) as (_ & p2 & q2 & J2 & B1 & B2).
      apply (NO i' j' e0 f0 p1 q1 p2 q2 N' He0 Hf0 J1 J2). exists a, b. auto.
    + rewrite E in Ef. destruct (G f0 _ b a (nth_error_In _ _ Hf0) Ef (segments_rev_in _ _ _ Iab) ltac:(tauto)) as (_ & p2 & q2 & J2 & B1 & B2).
      apply (NO i' j' e0 f0 p1 q1 p2 q2 N' He0 Hf0 J1 J2). exists a, b. auto.
  - rewrite nth_error_app1 in Pi by assumption. rewrite nth_error_app2 in Pj by assumption. apply nth_error_In in Pi, Pj. apply in_map_iff in Pj as (kv & Ek & Hk). rewrite <- Ek in E. exact (Cross _ kv Pi Hk E).
  - rewrite nth_error_app2 in Pi by assumption. rewrite nth_error_app1 in Pj by assumption. apply nth_error_In in Pi, Pj. apply in_map_iff in Pi as (kv & Ek & Hk). apply same_path_sym in E. rewrite <- Ek in E. exact (Cross _ kv Pj Hk E).
  - rewrite nth_error_app2 in Pi, Pj by assumption. rewrite nth_error_map in Pi, Pj.
    destruct (nth_error (nes_edges (cb_new cb)) (i - length (old_of C))) as [[[a b] x]|] eqn:Ki; [|discriminate]. destruct (nth_error (nes_edges (cb_new cb)) (j - length (old_of C))) as [[[c d] y]|] eqn:Kj; [|discriminate].
    cbn [option_map seg_points fst snd] in Pi, Pj. injection Pi as Pi. injection Pj as Pj. rewrite <- Pi, <- Pj in E. destruct E as [E|E].
    + injection E as -> ->. apply Hij. assert (i - length (old_of C) = j - length (old_of C))%nat; [|lia].
      eapply (NoDup_nth_error_inj _ _ _ (a, b) ND); rewrite nth_error_map; [rewrite Ki|rewrite Kj]; reflexivity.
    + cbn in E. injection E as -> ->. destruct (LT _ (nth_error_In _ _ Ki)) as (T1 & _). destruct (LT _ (nth_error_In _ _ Kj)) as (T2 & _). cbn [fst snd] in T1, T2. revert T1 T2. unfold lt_point. lia.
Qed.

(** ** Direction of clipped edges *)
Lemma fold_first : forall parts out a, first out = Some a -> first (fold_left append_part parts out) = Some a.
Proof.
  induction parts as [|[[x y] v] parts IH]; intros out a H; [exact H|]. cbn [fold_left]. apply IH. unfold append_part. destruct out as [|o out]; [discriminate|]. cbn [first] in H.
  destruct (v && _); exact H.
Qed.
Lemma clip_first k X : forall ps p a, good_X k X ps -> first ps = Some p -> first (clip_path k X ps) = Some a ->
  (inside k p /\ a = p) \/ (~ inside k p /\ on_line k a).
Proof.
  induction ps as [|p0 ps IH]; intros p a G Hp Ha; [discriminate|]. cbn [first] in Hp. injection Hp as ->. destruct ps as [|q t]; [discriminate|].
  unfold clip_path, kept_parts in Ha. cbn [tl combine flat_map fst snd] in Ha. rewrite fold_left_app in Ha. unfold kept_part in Ha.
  assert (Gt : good_X k X (q :: t)) by (intros x y I O; apply G; [right; exact I|exact O]).
  assert (G0 : opposite k p q -> on_line k (X p q)) by (intros O; apply G; [left; reflexivity|exact O]).
  destruct (insideb_spec k p) as [Ip|Ip].
  - left. split; [exact Ip|]. cbn [fold_left] in Ha. rewrite (fold_first _ _ p) in Ha; [congruence|]. unfold append_part. cbn [final andb]. reflexivity.
  - right. split; [exact Ip|]. destruct (insideb_spec k q) as [Iq|Iq].
    + destruct (outsideb_spec k p) as [Op|Op]; cbn [fold_left] in Ha.
      * rewrite (fold_first _ _ (X p q)) in Ha; [|reflexivity]. injection Ha as <-. apply G0. right. auto.
      * rewrite (fold_first _ _ p) in Ha; [|reflexivity]. injection Ha as <-. destruct (mask_test_spec k p) as [T|[T|T]]; tauto.
    + cbn [fold_left] in Ha. destruct (IH q a Gt eq_refl Ha) as [[C _]|[_ L]]; [contradiction|exact L].
Qed.
Lemma append_final out a b v : final (append_part out (a, b, v)) = Some b.
Proof. unfold append_part. destruct (v && _); [apply final_snoc'|]. replace (out ++ [a; b]) with ((out ++ [a]) ++ [b]) by (rewrite <- app_assoc; reflexivity). apply final_snoc'. Qed.
Lemma clip_final k X : forall ps q b, good_X k X ps -> final ps = Some q -> final (clip_path k X ps) = Some b ->
  (inside k q /\ b = q) \/ (~ inside k q /\ on_line k b).
Proof.
  intros ps. induction ps as [|q0 l IH] using rev_ind; intros q b G Hq Hb; [discriminate|]. rewrite final_snoc' in Hq. injection Hq as ->.
  destruct l as [|z0 l0] using rev_ind; [cbn in Hb; discriminate|]. clear IHl0.
  assert (Fz : final (l0 ++ [z0]) = Some z0) by apply final_snoc'.
  assert (Gl : good_X k X (l0 ++ [z0])) by (intros x y I O; apply G; [rewrite (segs_snoc _ q z0 Fz); apply in_or_app; auto|exact O]).
  assert (G0 : opposite k z0 q -> on_line k (X z0 q)) by (intros O; apply G; [rewrite (segs_snoc _ q z0 Fz); apply in_or_app; right; left; reflexivity|exact O]).
  unfold clip_path in Hb. rewrite (kept_parts_snoc k X _ z0 q Fz), fold_left_app in Hb. unfold kept_part in Hb.
  destruct (insideb_spec k z0) as [Iz|Iz].
  - cbn [fold_left] in Hb. rewrite append_final in Hb. injection Hb as <-. destruct (outsideb_spec k q) as [Oq|Oq].
    + right. split; [destruct (mask_test_spec k q) as [T|[T|T]]; tauto|apply G0; left; auto].
    + destruct (mask_test_spec k q) as [T|[T|T]]; [left; tauto|right; tauto|tauto].
  - destruct (insideb_spec k q) as [Iq|Iq].
    + left. split; [exact Iq|]. destruct (outsideb_spec k z0); cbn [fold_left] in Hb; rewrite append_final in Hb; congruence.
    + right. split; [exact Iq|]. cbn [fold_left] in Hb. destruct (IH z0 b Gl Fz Hb) as [[C _]|[_ L]]; [contradiction|exact L].
Qed.

Lemma clipped_direction m k ps c p q a b : clip_edge m k ps = Ok c -> first ps = Some p -> final ps = Some q -> (p <> q -> lt_point p q) ->
  first c = Some a -> final c = Some b -> a <> b -> settled k c -> lt_point a b.
Proof.
  intros H Hp Hq L Ha Hb N S. pose proof (clip_edge_good _ _ _ _ H) as G. pose proof (clip_edge_path _ _ _ _ H) as E. rewrite E in Ha, Hb.
  pose proof (clip_first k _ ps p a G Hp Ha) as A. pose proof (clip_final k _ ps q b G Hq Hb) as B. rewrite <- E in Ha, Hb. clear E G H.
  assert (D : {p = q} + {p <> q}) by (repeat decide equality).
  destruct A as [[A1 ->]|[A1 A2]], B as [[B1 ->]|[B1 B2]]; [apply L, N| | |].
  - destruct k; cbn [settled] in S; try (exfalso; destruct (S _ _ Ha Hb) as [_ S2]; exact (S2 B2)).
    all: destruct D as [->|D]; [contradiction|]. all: specialize (L D); unfold lt_point, on_line in *; cbn [axis level inside] in *; lia.
  - destruct k; cbn [settled] in S; try (exfalso; destruct (S _ _ Ha Hb) as [S1 _]; exact (S1 A2)).
    all: destruct D as [->|D]; [contradiction|]. all: specialize (L D); unfold lt_point, on_line in *; cbn [axis level inside] in *; lia.
  - destruct k; cbn [settled] in S; try (exfalso; destruct (S _ _ Ha Hb) as [S1 _]; exact (S1 A2)).
    all: exfalso; exact (S _ _ Ha Hb (conj A2 B2)).
Qed.

Lemma lt_within p q r : lt_point p q -> within p q r -> (r <> p -> lt_point p r) /\ (r <> q -> lt_point r q).
Proof.
  intros L (u & v & Hu & Hv & Hn & X & Y). unfold lt_point in *.
  assert (Ep : r <> p -> 0 < v). { intros N. destruct (Z.eq_dec v 0) as [->|]; [|lia]. exfalso. apply N. destruct r, p. cbn in *. f_equal; nia. }
  assert (Eq : r <> q -> 0 < u). { intros N. destruct (Z.eq_dec u 0) as [->|]; [|lia]. exfalso. apply N. destruct r, q. cbn in *. f_equal; nia. }
  split; intros N; [specialize (Ep N)|specialize (Eq N)]; destruct L as [L|[L1 L2]].
  - left. nia.
  - right. split; nia.
  - left. nia.
  - right. split; nia.
Qed.

Lemma clipped_segment_direction m k p q c a b : wf_mask k -> wf_point p -> wf_point q -> small_step p q -> between_points k p q = false -> lt_point p q ->
  clip_edge m k [p; q] = Ok c -> first c = Some a -> final c = Some b -> a <> b -> lt_point a b.
Proof.
  intros Wk Wp Wq Ss X L H Ha Hb N. pose proof (clip_edge_path _ _ _ _ H) as E.
  assert (K : In (a, b) (map fst (kept_part k (isect m k p q) p q))).
  { subst c. unfold clip_path, kept_parts in *. cbn [tl combine flat_map fst snd] in *. rewrite app_nil_r in *. unfold kept_part in *.
    destruct (insideb k p); [|destruct (insideb k q); [destruct (outsideb k p)|discriminate]]; cbn [fold_left append_part final rev andb app first map fst] in *; injection Ha as <-; injection Hb as <-; left; reflexivity. }
  destruct (clip_part m k p q a b Wk Wp Wq Ss X K) as (A & B & _ & _).
  unfold kept_part in K. destruct (insideb k p); [|destruct (insideb k q); [destruct (outsideb k p)|destruct K]]; destruct K as [K|[]]; injection K as <- <-.
  - apply (proj1 (lt_within _ _ _ L B)). congruence.
  - apply (proj2 (lt_within _ _ _ L A)). exact N.
  - exact L.
Qed.

Lemma clip_canonical {D} m k (t t' : topology D) : clip_topology m t k = Ok t' -> canonical_edges t ->
  forall e' a b, In e' (tp_edges t') -> first (te_points e') = Some a -> final (te_points e') = Some b -> a <> b ->
  settled k (te_points e') \/
  (exists e p q, In e (tp_edges t) /\ clip_edge m k (te_points e) = Ok (te_points e') /\ te_points e = [p; q] /\ wf_mask k /\ wf_point p /\ wf_point q /\ small_step p q /\ between_points k p q = false) \/
  (forall e, In e (tp_edges t) -> clip_edge m k (te_points e) <> Ok (te_points e')) ->
  lt_point a b.
Proof.
  intros H CE e' a b He Ha Hb N S. apply clip_topology_traced in H as (C & cb & HC & HB & _ & _ & HE & _ & HK & _).
  assert (NK : nes_ok C (cb_new cb)) by apply HB. destruct NK as (_ & _ & ND & LT). rewrite Forall_forall in LT.
  apply (in_map te_points) in He. rewrite HE in He. unfold pts_of in He. apply in_app_iff in He as [He|He].
  2:{ apply in_map_iff in He as ([[u v] x] & E & Hk). specialize (LT _ Hk) as (L & _). cbn [fst snd] in L. unfold seg_points in E. cbn [fst snd] in E. rewrite <- E in Ha, Hb. cbn in Ha, Hb. congruence. }
  unfold old_of in He. apply filter_In in He as (He & Hb2). destruct (Forall2_in_r _ _ _ _ HC He) as (e0 & H0 & Ec).
  destruct S as [S|[(e & p & q & I1 & I2 & E & Wk & Wp & Wq & Ss & X)|S]]; [| |exfalso; exact (S e0 H0 Ec)].
  - destruct (te_points e0) as [|p0 ps0] eqn:E0; [cbn in Ec; injection Ec as Ec; rewrite <- Ec in Ha; discriminate|].
    destruct (final (p0 :: ps0)) as [q0|] eqn:F; [|exfalso; unfold final in F; destruct (rev (p0 :: ps0)) eqn:R; [apply (f_equal (@length _)) in R; rewrite rev_length in R; discriminate|discriminate]].
    apply (clipped_direction m k (p0 :: ps0) _ p0 q0 a b Ec eq_refl F); try assumption. intros N0. apply (CE e0); [exact H0|rewrite E0; reflexivity|rewrite E0; exact F|exact N0].
  - assert (Npq : {p = q} + {p <> q}) by (repeat decide equality). rewrite E in I2. destruct Npq as [->|Npq].
    + exfalso. pose proof (clip_edge_path _ _ _ _ I2) as P. rewrite P in Ha, Hb. unfold clip_path, kept_parts in Ha, Hb. cbn [tl combine flat_map fst snd] in Ha, Hb. unfold kept_part in Ha, Hb.
      destruct (insideb_spec k q) as [Iq|Iq]; [|discriminate]. destruct (outsideb_spec k q) as [Oq|Oq]; [destruct k; cbn in Iq, Oq; lia|]. cbn in Ha, Hb. congruence.
    + apply (clipped_segment_direction m k p q (te_points e')); try assumption. apply (CE e p q I1); [rewrite E; reflexivity|rewrite E; reflexivity|exact Npq].
Qed.

(** ** Deciding the conditions *)
Lemma parallel wx wy zx zy ux uy : wx * uy - wy * ux = 0 -> zx * uy - zy * ux = 0 -> ux <> 0 \/ uy <> 0 -> wx * zy - wy * zx = 0.
Proof.
  intros W Z U. assert (A : ux * (wx * zy - wy * zx) = 0) by (replace (ux * (wx * zy - wy * zx)) with (wx * (zy * ux) - (wy * ux) * zx) by ring; replace (zy * ux) with (zx * uy) by lia; replace (wy * ux) with (wx * uy) by lia; ring).
  assert (B : uy * (wx * zy - wy * zx) = 0) by (replace (uy * (wx * zy - wy * zx)) with ((wx * uy) * zy - wy * (zx * uy)) by ring; replace (zx * uy) with (zy * ux) by lia; replace (wx * uy) with (wy * ux) by lia; ring).
  destruct U; nia.
Qed.
Lemma overlap_line a b c d : overlap a b c d -> turn a b c = 0 /\ turn a b d = 0.
Proof.
  intros (x & y & N & (A1 & _) & (A2 & _) & (B1 & X1 & Y1) & (B2 & X2 & Y2)).
  assert (U : px y - px x <> 0 \/ py y - py x <> 0).
  { destruct (Z.eq_dec (px y) (px x)); [|lia]. destruct (Z.eq_dec (py y) (py x)); [|lia]. exfalso. apply N. destruct x, y. cbn in *. congruence. }
  assert (V : px d - px c <> 0 \/ py d - py c <> 0) by (destruct (Z.eq_dec (px d) (px c)); [|lia]; destruct (Z.eq_dec (py d) (py c)); lia).
  unfold turn in *. set (bx := px b - px a) in *. set (by_ := py b - py a) in *. set (dx := px d - px c) in *. set (dy := py d - py c) in *.
  assert (P1 : bx * (py y - py x) - by_ * (px y - px x) = 0) by lia.
  assert (P2 : dx * (py y - py x) - dy * (px y - px x) = 0) by lia.
  assert (Q : bx * dy - by_ * dx = 0) by (exact (parallel _ _ _ _ _ _ P1 P2 U)).
  assert (R : (px x - px c) * dy - (py x - py c) * dx = 0) by lia.
  assert (S : bx * (py x - py c) - by_ * (px x - px c) = 0) by (exact (parallel _ _ _ _ _ _ Q R V)).
  split; [lia|]. unfold dx, dy in Q. lia.
Qed.
Definition may_overlap (s z : point * point) : bool :=
  (turn (fst s) (snd s) (fst z) =? 0) && (turn (fst s) (snd s) (snd z) =? 0).
Definition no_overlapsb {D} (t : topology D) : bool :=
  let n := seq 0 (length (tp_edges t)) in
  let ss i := match nth_error (tp_edges t) i with Some e => segment_pairs (te_points e) | None => [] end in
  forallb (fun i => forallb (fun j => Nat.eqb i j || forallb (fun s => forallb (fun z => negb (may_overlap s z)) (ss j)) (ss i)) n) n.
Lemma no_overlapsb_ok {D} (t : topology D) : no_overlapsb t = true -> no_overlaps t.
Proof.
  unfold no_overlapsb. intros H i j e f a b c d N Hi Hj Ha Hc O. rewrite forallb_forall in H.
  assert (Li : In i (seq 0 (length (tp_edges t)))) by (apply in_seq; apply nth_error_lt in Hi; lia).
  assert (Lj : In j (seq 0 (length (tp_edges t)))) by (apply in_seq; apply nth_error_lt in Hj; lia).
  specialize (H i Li). rewrite forallb_forall in H. specialize (H j Lj). apply orb_true_iff in H as [H|H]; [apply Nat.eqb_eq in H; contradiction|].
  rewrite Hi, Hj in H. rewrite forallb_forall in H. specialize (H (a, b) (proj2 (segment_pairs_in _ _ _) Ha)). rewrite forallb_forall in H. specialize (H (c, d) (proj2 (segment_pairs_in _ _ _) Hc)).
  unfold may_overlap in H. cbn [fst snd] in H. destruct (overlap_line a b c d O) as [X Y]. rewrite X, Y in H. discriminate.
Qed.
Definition all_openb (es : list topo_edge) : bool :=
  forallb (fun e => match first (te_points e), final (te_points e) with Some p, Some q => negb (pt_eqb p q) | _, _ => false end) es.
Lemma all_openb_ok es : all_openb es = true -> forall e, In e es -> open_or_wide (te_points e).
Proof.
  unfold all_openb. rewrite forallb_forall. intros H e He. left. specialize (H e He). intros X. rewrite X in H.
  destruct (final (te_points e)) as [q|]; [|discriminate]. rewrite pt_eqb_refl in H. discriminate.
Qed.
