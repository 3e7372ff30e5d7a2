(** * SimplifyLaws: what simplification returns *)
From Coq Require Import Permutation.
From Verif Require Import ClipSpec Simplify GeoProofs TopoProofs BuildProofs ClipEdgeProofs SimplifyProofs.

Definition pt0 := Pt 0 0.
Definition nthp (ps : list point) (i : nat) : point := nth i ps pt0.

Lemma nthp_some ps i : (i < length ps)%nat -> nth_error ps i = Some (nthp ps i).
Proof. intros H. apply nth_error_nth', H. Qed.

(** The triangle weight of interior point [i]. *)
Definition weight_at (m : mode) (ps : list point) (i : nat) : res Z :=
  weight2 m (nthp ps (i - 1)) (nthp ps i) (nthp ps (i + 1)).

Record raw_point (m : mode) (ps : list point) (i : nat) (v : vpoint) : Prop := {
  rp_geo : vp_geo v = nthp ps i;
  rp_heap : vp_heap v = 0%nat;
  rp_next : vp_next v = if Nat.eqb i (length ps - 1) then None else Some (i + 1)%nat;
  rp_prev : vp_prev v = if Nat.eqb i 0 then None else Some (i - 1)%nat;
  rp_ends : i = 0%nat \/ i = (length ps - 1)%nat -> vp_weight v = u64_max;
  rp_weight : interior ps i -> weight_at m ps i = Ok (vp_weight v);
  rp_range : 0 <= vp_weight v <= u64_max }.

Lemma u64_max_nonneg : 0 <= u64_max.
Proof. discriminate. Qed.

Lemma raw_points m ps mid : (2 <= length ps)%nat -> mmap (init_interior m ps) (seq 1 (length ps - 2)) = Ok mid ->
  Forall2 (fun i v => init_interior m ps i = Ok v) (seq 1 (length ps - 2)) mid ->
  let pts := VP (nthp ps 0) u64_max 0 (Some 1%nat) None :: mid ++ [VP (nthp ps (length ps - 1)) u64_max 0 None (Some (length ps - 2)%nat)] in
  length pts = length ps /\ forall i v, nth_error pts i = Some v -> raw_point m ps i v.
Proof.
  intros H2 _ HF pts. assert (HL : length mid = (length ps - 2)%nat) by (rewrite <- (Forall2_length' _ _ _ HF), seq_length; reflexivity).
  split. { subst pts. cbn [length]. rewrite app_length, HL. cbn [length]. lia. }
  assert (HU := u64_max_nonneg).
  intros i v Hv. destruct i as [|i].
  { cbn in Hv. injection Hv as <-. constructor; cbn [vp_geo vp_heap vp_next vp_prev vp_weight]; try reflexivity; try (intros _; reflexivity); try (unfold interior; lia); try (split; discriminate).
        destruct (Nat.eqb_spec 0 (length ps - 1)); [lia|reflexivity]. }
  cbn [pts nth_error] in Hv. destruct (Nat.lt_ge_cases i (length mid)) as [Hi|Hi].
  - rewrite nth_error_app1 in Hv by exact Hi.
    assert (Hf : init_interior m ps (S i) = Ok v).
    { clear -HF Hv. assert (G : forall n s l, Forall2 (fun i v => init_interior m ps i = Ok v) (seq s n) l -> forall i, nth_error l i = Some v -> init_interior m ps (s + i) = Ok v).
      { induction n as [|n IH]; intros s0 l HF' j Hi; inversion HF'; subst; [destruct j; discriminate|]. destruct j; cbn in Hi.
        - rewrite Nat.add_0_r. congruence.
        - replace (s0 + S j)%nat with (S s0 + j)%nat by lia. eapply IH; eassumption. }
      apply (G _ _ _ HF). exact Hv. }
    assert (HW : weight_at m ps (S i) = Ok (vp_weight v) /\ v = VP (nthp ps (S i)) (vp_weight v) 0 (Some (S i + 1)%nat) (Some (S i - 1)%nat)).
    { unfold init_interior in Hf. rewrite (get_ok ps (S i - 1) (nthp ps (S i - 1))) in Hf by (apply nthp_some; lia).
      rewrite (get_ok ps (S i) (nthp ps (S i))) in Hf by (apply nthp_some; lia).
      rewrite (get_ok ps (S i + 1) (nthp ps (S i + 1))) in Hf by (apply nthp_some; lia). cbn [bind] in Hf.
      unfold weight_at. destruct (weight2 m (nthp ps (S i - 1)) (nthp ps (S i)) (nthp ps (S i + 1))) as [w|]; [|discriminate].
      cbn [bind] in Hf. injection Hf as <-. auto. }
    destruct HW as [HW Ev]. rewrite Ev. constructor; cbn [vp_geo vp_heap vp_next vp_prev vp_weight]; try reflexivity.
    + destruct (Nat.eqb_spec (S i) (length ps - 1)); [lia|reflexivity].
    + lia.
    + intros _. exact HW.
    + destruct (weight2_cases m (nthp ps (S i - 1)) (nthp ps (S i)) (nthp ps (S i + 1))) as [[_ E]|(w & E & Hw)]; unfold weight_at in HW; rewrite HW in E; [discriminate|]. injection E as <-. exact Hw.
  - rewrite nth_error_app2 in Hv by exact Hi. destruct (i - length mid)%nat as [|k] eqn:E; [|destruct k; discriminate].
    cbn in Hv. injection Hv as <-. assert (Ei : S i = (length ps - 1)%nat) by lia. rewrite Ei. constructor; cbn [vp_geo vp_heap vp_next vp_prev vp_weight]; try reflexivity; try (intros _; reflexivity); try (unfold interior; lia); try (split; discriminate).
    + rewrite Nat.eqb_refl. reflexivity.
    + destruct (Nat.eqb_spec (length ps - 1) 0); [lia|]. f_equal. lia.
Qed.

Lemma linked_seq c k : forall s, (forall i, (s <= i)%nat -> (i + 1 < s + k)%nat -> nx c i = Some (i + 1)%nat /\ pv c (i + 1) = Some i) -> linked c (seq s k).
Proof.
  induction k as [|k IH]; intros s H; [exact I|]. cbn [seq]. destruct k as [|k]; [exact I|]. cbn [seq linked].
  destruct (H s) as [H1 H2]; [lia|lia|]. replace (s + 1)%nat with (S s) in * by lia. split; [exact H1|]. split; [exact H2|].
  apply IH. intros i Hi Hj. apply H; lia.
Qed.

Lemma list_of_seq ps : (2 <= length ps)%nat -> list_of ps (seq 1 (length ps - 2)) = seq 0 (length ps).
Proof.
  intros H. unfold list_of. assert (E : length ps = S (length ps - 2 + 1)) by lia. rewrite E at 3. cbn [seq]. rewrite seq_app. cbn [seq].
  replace (1 + (length ps - 2))%nat with (length ps - 1)%nat by lia. reflexivity.
Qed.

Lemma raw_binv m ps pts : (2 <= length ps)%nat -> length pts = length ps ->
  (forall i v, nth_error pts i = Some v -> raw_point m ps i v) -> binv ps (PH pts (seq 1 (length ps - 2))) (seq 1 (length ps - 2)).
Proof.
  intros H2 HL HR.
  assert (HC : forall i t, nth_error (map core pts) i = Some t -> exists v, nth_error pts i = Some v /\ t = core v).
  { intros i t. rewrite nth_error_map. destruct (nth_error pts i) as [v|]; [|discriminate]. cbn. intros [= <-]. eauto. }
  assert (HG : forall i, (i < length ps)%nat -> exists v, nth_error pts i = Some v /\ raw_point m ps i v).
  { intros i Hi. rewrite <- HL in Hi. apply nth_error_ge in Hi as [v Hv]. eauto. }
  constructor.
  - split; cbn [ph_heap ph_points]; [apply seq_NoDup|]. intros k i Hk. apply nth_error_In, in_seq in Hk.
    destruct (HG i) as (v & Hv & R); [lia|]. exists v. split; [exact Hv|]. left. apply (rp_heap _ _ _ _ R).
  - unfold cores. cbn [ph_points]. constructor.
    + apply nth_error_ext. intros i. rewrite nth_error_map, nth_error_map. destruct (nth_error pts i) as [v|] eqn:E.
      * cbn. rewrite nthp_some by (rewrite <- HL; eapply nth_error_lt, E). rewrite (rp_geo _ _ _ _ (HR i v E)). reflexivity.
      * cbn. symmetry. apply nth_error_None. rewrite <- HL. apply nth_error_None, E.
    + exact H2.
    + destruct (HG 0%nat) as (v & Hv & R); [lia|]. exists (vp_next v). rewrite nth_error_map, Hv. cbn [option_map]. unfold core.
      rewrite (rp_geo _ _ _ _ R), (rp_prev _ _ _ _ R), (rp_ends _ _ _ _ R) by auto. reflexivity.
    + destruct (HG (length ps - 1)%nat) as (v & Hv & R); [lia|]. exists (vp_prev v). rewrite nth_error_map, Hv. cbn [option_map]. unfold core.
      rewrite (rp_geo _ _ _ _ R), (rp_next _ _ _ _ R), (rp_ends _ _ _ _ R), Nat.eqb_refl by auto. reflexivity.
    + intros i t j Ht Hj. apply HC in Ht as (v & Hv & ->). pose proof (nth_error_lt _ _ _ Hv). pose proof (HR i v Hv) as R.
      cbn [core co_next co_prev] in Hj. rewrite (rp_next _ _ _ _ R), (rp_prev _ _ _ _ R) in Hj.
      destruct (Nat.eqb_spec i (length ps - 1)), (Nat.eqb_spec i 0); destruct Hj as [[= <-]|[= <-]]; lia.
    + apply Forall_forall. intros t Ht. apply In_nth_error in Ht as [i Ht]. apply HC in Ht as (v & Hv & ->). apply (rp_range _ _ _ _ (HR i v Hv)).
  - apply Permutation_refl.
  - intros i Hi. apply in_seq in Hi. unfold interior. lia.
  - rewrite list_of_seq by exact H2. apply linked_seq. intros i _ Hi. cbn [plus] in Hi. unfold nx, pv, cores. cbn [ph_points]. rewrite !nth_error_map.
    destruct (HG i) as (v & -> & R); [lia|]. destruct (HG (i + 1)%nat) as (v' & -> & R'); [lia|]. cbn [option_map core co_next co_prev].
    rewrite (rp_next _ _ _ _ R), (rp_prev _ _ _ _ R'). destruct (Nat.eqb_spec i (length ps - 1)), (Nat.eqb_spec (i + 1) 0); try lia.
    split; [reflexivity|]. f_equal. lia.
Qed.

(** Edges the heap accepts. *)
Definition edge_ok (ps : list point) : Prop := (2 <= length ps)%nat /\ (is_closed ps -> (4 <= length ps)%nat).

Lemma first_nthp ps : (1 <= length ps)%nat -> first ps = Some (nthp ps 0).
Proof. destruct ps; [cbn; lia|reflexivity]. Qed.
Lemma final_nthp ps : (1 <= length ps)%nat -> final ps = Some (nthp ps (length ps - 1)).
Proof.
  intros H. destruct ps as [|p ps'] using rev_ind; [cbn in H; lia|]. unfold final, nthp. rewrite rev_unit. cbn [hd_error].
  rewrite app_length. cbn [length]. replace (length ps' + 1 - 1)%nat with (length ps') by lia. rewrite app_nth2 by lia. rewrite Nat.sub_diag. reflexivity.
Qed.
Lemma closed_nthp ps : (1 <= length ps)%nat -> is_closed ps <-> nthp ps 0 = nthp ps (length ps - 1).
Proof.
  intros H. unfold is_closed. rewrite first_nthp, final_nthp by exact H. split; [intros [_ [= E]]; exact E|]. intros ->. split; [|reflexivity].
  intros ->. cbn in H. lia.
Qed.

Lemma heap_from_cases m ps : edge_ok ps ->
  (m = Debug /\ heap_from m ps = Panic POverflow) \/
  exists h0 h, heap_from m ps = Ok h /\ heapify h0 = Ok h /\ same h0 h /\
    ph_heap h0 = seq 1 (length ps - 2) /\ (forall i v, nth_error (ph_points h0) i = Some v -> raw_point m ps i v) /\
    binv ps h (seq 1 (length ps - 2)).
Proof.
  intros [H2 H4]. unfold heap_from. destruct (Nat.leb_spec 2 (length ps)) as [_|]; [|lia]. cbn [rassert bind].
  rewrite (get_ok ps 0 (nthp ps 0)) by (apply nthp_some; lia). cbn [bind].
  rewrite (get_ok ps (length ps - 1) (nthp ps (length ps - 1))) by (apply nthp_some; lia). cbn [bind].
  assert (HA : negb (pt_eqb (nthp ps 0) (nthp ps (length ps - 1))) || Nat.leb 4 (length ps) = true).
  { destruct (pt_eqb_spec (nthp ps 0) (nthp ps (length ps - 1))) as [E|E]; [|reflexivity]. cbn [negb orb]. apply Nat.leb_le, H4. apply closed_nthp; [lia|exact E]. }
  rewrite HA. cbn [rassert bind].
  destruct (mmap_cases m (init_interior m ps) (fun i v => init_interior m ps i = Ok v) (seq 1 (length ps - 2))) as [[Hm ->]|(mid & E & HF)].
  - intros i Hi. apply in_seq in Hi. unfold init_interior.
    rewrite (get_ok ps (i - 1) (nthp ps (i - 1))) by (apply nthp_some; lia).
    rewrite (get_ok ps i (nthp ps i)) by (apply nthp_some; lia).
    rewrite (get_ok ps (i + 1) (nthp ps (i + 1))) by (apply nthp_some; lia). cbn [bind].
    destruct (weight2_cases m (nthp ps (i - 1)) (nthp ps i) (nthp ps (i + 1))) as [[Hm ->]|(w & -> & _)]; cbn [bind]; [left; auto|right; eauto].
  - left. auto.
  - rewrite E. cbn [bind]. right. destruct (raw_points m ps mid H2 E HF) as [HL HR].
    set (h0 := PH _ _). pose proof (raw_binv m ps (ph_points h0) H2 HL HR) as HB. change (PH (ph_points h0) (seq 1 (length ps - 2))) with h0 in HB.
    destruct (heapify_ok h0 (bi_hok _ _ _ HB)) as (h & Eh & (Hs1 & Hs2 & Hs3)). exists h0, h.
    split; [exact Eh|]. split; [exact Eh|]. split; [split; auto|]. split; [reflexivity|]. split; [exact HR|].
    constructor.
    + exact Hs3.
    + rewrite Hs1. apply (bi_einv _ _ _ HB).
    + eapply Permutation_trans; [apply (bi_perm _ _ _ HB)|exact Hs2].
    + apply (bi_int _ _ _ HB).
    + rewrite Hs1. apply (bi_link _ _ _ HB).
Qed.

(** ** Keeping rings rings *)
Lemma subseq_in {A} (l l' : list A) a : subseq l l' -> In a l -> In a l'.
Proof. induction 1; cbn [In]; intros H'; [assumption|auto|]. destruct H'; auto. Qed.
Lemma subseq_single {A} (l : list A) a : In a l -> subseq [a] l.
Proof.
  induction l as [|x l IH]; cbn [In]; [intros []|]. intros [->|H]; [apply sub_take, subseq_nil|apply sub_skip, IH, H].
Qed.
Lemma subseq_map {A B} (f : A -> B) l l' : subseq l l' -> subseq (map f l) (map f l').
Proof. induction 1; cbn; constructor; assumption. Qed.
Lemma subseq_filter {A} (f : A -> bool) l : subseq (filter f l) l.
Proof. induction l as [|a l IH]; cbn; [constructor|]. destruct (f a); constructor; assumption. Qed.
Lemma subseq_length {A} (l l' : list A) : subseq l l' -> (length l <= length l')%nat.
Proof. induction 1; cbn; lia. Qed.

Definition two_of (st : vpoint * vpoint * bool) : list vpoint :=
  let '(first, second, lower) := st in if (lower : bool) then [first; second] else [second; first].

Lemma top2_ok l : forall pre st, subseq (two_of st) pre -> subseq (two_of (fold_left top2_step l st)) (pre ++ l).
Proof.
  induction l as [|p l IH]; intros pre st H; cbn [fold_left]; [rewrite app_nil_r; exact H|].
  replace (pre ++ p :: l) with ((pre ++ [p]) ++ l) by (rewrite <- app_assoc; reflexivity). apply IH.
  destruct st as [[a b] lower]. unfold top2_step.
  assert (Ha : In a pre) by (eapply subseq_in; [exact H|]; destruct lower; cbn; auto).
  assert (Hap : subseq [a; p] (pre ++ [p])) by (apply (subseq_app [a] pre [p] [p]); [apply subseq_single, Ha|apply subseq_refl]).
  destruct (vp_weight a <? vp_weight p); [exact Hap|]. destruct (vp_weight b <? vp_weight p); [exact Hap|].
  rewrite <- (app_nil_r (two_of (a, b, lower))). apply subseq_app; [exact H|apply subseq_nil].
Qed.

Lemma split_ends {A} (l : list A) : (2 <= length l)%nat -> exists a mid b, l = a :: mid ++ [b].
Proof.
  intros H. destruct l as [|a l]; [cbn in H; lia|]. destruct (exists_last (l := l)) as (mid & b & ->); [intros ->; cbn in H; lia|]. eauto.
Qed.

Lemma final_snoc (l : list point) a : final (l ++ [a]) = Some a.
Proof. unfold final. rewrite rev_unit. reflexivity. Qed.

Lemma ring_fix_ok pts p0 mid pn thr : pts = p0 :: mid ++ [pn] ->
  thr <= vp_weight p0 -> thr <= vp_weight pn -> (vp_geo p0 = vp_geo pn -> (4 <= length pts)%nat) ->
  let ret := map vp_geo (filter (fun p => thr <=? vp_weight p) pts) in
  exists r, ring_fix pts ret = Ok r /\ subseq r (map vp_geo pts) /\ first r = Some (vp_geo p0) /\ final r = Some (vp_geo pn) /\
    (2 <= length r)%nat /\ (vp_geo p0 = vp_geo pn -> (4 <= length r)%nat) /\
    (vp_geo p0 <> vp_geo pn \/ (4 <= length ret)%nat -> r = ret).
Proof.
  intros E H0 Hn H4 ret.
  assert (Er : ret = vp_geo p0 :: map vp_geo (filter (fun p => thr <=? vp_weight p) mid) ++ [vp_geo pn]).
  { subst ret pts. cbn [filter]. rewrite (proj2 (Z.leb_le _ _) H0). cbn [map]. rewrite filter_app, map_app. cbn [filter].
    rewrite (proj2 (Z.leb_le _ _) Hn). reflexivity. }
  assert (Hl : (2 <= length ret)%nat) by (rewrite Er; cbn [length]; rewrite app_length; cbn [length]; lia).
  unfold ring_fix. rewrite (get_ok ret 0 (vp_geo p0)) by (rewrite Er; reflexivity). cbn [bind].
  rewrite (get_ok ret (length ret - 1) (vp_geo pn)).
  2:{ rewrite Er. cbn [length]. rewrite app_length. cbn [length]. rewrite Nat.sub_succ, Nat.sub_0_r, Nat.add_1_r. cbn [nth_error].
      rewrite nth_error_app2 by lia. rewrite Nat.sub_diag. reflexivity. }
  cbn [bind]. assert (Hsub : subseq ret (map vp_geo pts)) by (apply subseq_map, subseq_filter).
  destruct (pt_eqb_spec (vp_geo p0) (vp_geo pn)) as [Eq|Eq]; cbn [andb].
  2:{ exists ret. split; [reflexivity|]. split; [exact Hsub|]. split; [rewrite Er; reflexivity|].
      split; [rewrite Er; change (final ((vp_geo p0 :: map vp_geo (filter (fun p => thr <=? vp_weight p) mid)) ++ [vp_geo pn]) = Some (vp_geo pn)); apply final_snoc|]. split; [exact Hl|]. split; [contradiction|reflexivity]. }
  destruct (Nat.ltb_spec (length ret) 4) as [Hlt|Hge].
  2:{ exists ret. split; [reflexivity|]. split; [exact Hsub|]. split; [rewrite Er; reflexivity|].
      split; [rewrite Er; change (final ((vp_geo p0 :: map vp_geo (filter (fun p => thr <=? vp_weight p) mid)) ++ [vp_geo pn]) = Some (vp_geo pn)); apply final_snoc|]. split; [exact Hl|]. split; [intros _; exact Hge|reflexivity]. }
  specialize (H4 Eq). destruct mid as [|p1 [|p2 rest]]; [subst pts; cbn in H4; lia|subst pts; cbn in H4; lia|].
  rewrite (get_ok pts 1 p1) by (rewrite E; reflexivity). rewrite (get_ok pts 2 p2) by (rewrite E; reflexivity). cbn [bind].
  destruct (Nat.leb_spec 4 (length pts)) as [_|]; [|lia]. cbn [bind].
  set (st0 := if _ <? _ then _ else _).
  assert (Hst : subseq (two_of st0) [p1; p2]) by (subst st0; destruct (_ <? _); apply subseq_refl).
  assert (Hf : firstn (length pts - 4) (skipn 3 pts) = rest).
  { rewrite E. cbn [app skipn length]. rewrite app_length. cbn [length]. replace (S (S (S (length rest + 1))) - 4)%nat with (length rest) by lia.
    rewrite firstn_app, Nat.sub_diag. cbn [firstn]. rewrite firstn_all, app_nil_r. reflexivity. }
  rewrite Hf. pose proof (top2_ok rest _ _ Hst) as HT. destruct (fold_left top2_step rest st0) as [[a b] lower]. cbn [two_of] in HT.
  rewrite (get_ok pts 0 p0) by (rewrite E; reflexivity).
  rewrite (get_ok pts (length pts - 1) pn).
  2:{ rewrite E. cbn [length app]. rewrite app_length. cbn [length]. rewrite Nat.sub_succ, Nat.sub_0_r, Nat.add_1_r. cbn [nth_error].
      rewrite nth_error_app2 by lia. rewrite Nat.sub_diag. reflexivity. }
  assert (HS : forall x y, subseq [x; y] ([p1; p2] ++ rest) -> subseq [vp_geo p0; vp_geo x; vp_geo y; vp_geo pn] (map vp_geo pts)).
  { intros x y Hxy. rewrite E. change [vp_geo p0; vp_geo x; vp_geo y; vp_geo pn] with (map vp_geo (p0 :: [x; y] ++ [pn])). apply subseq_map.
    apply sub_take. change (p1 :: p2 :: rest) with ([p1; p2] ++ rest). apply subseq_app; [exact Hxy|apply subseq_refl]. }
  destruct lower; cbn [bind]; eexists; (split; [reflexivity|]); (split; [apply HS, HT|]); cbn [first final hd_error rev app length];
    repeat split; try reflexivity; try lia; intros [?|?]; try contradiction; lia.
Qed.

(** ** simplify_edge *)
Lemma geo_points h : map vp_geo (ph_points h) = map co_geo (cores h).
Proof. unfold cores. rewrite map_map. reflexivity. Qed.

(** What the final state says about the result. *)
Lemma result_ok ps h' thr : einv ps (cores h') -> edge_ok ps -> thr <= u64_max ->
  let ret := map vp_geo (filter (fun p => thr <=? vp_weight p) (ph_points h')) in
  exists r, ring_fix (ph_points h') ret = Ok r /\ subseq r ps /\ first r = first ps /\ final r = final ps /\ (2 <= length r)%nat /\
    (is_closed ps -> (4 <= length r)%nat) /\ (~ is_closed ps \/ (4 <= length ret)%nat -> r = ret).
Proof.
  intros He [H2 H4] Ht ret. pose proof (einv_length _ _ He) as HL. unfold cores in HL. rewrite map_length in HL.
  destruct (split_ends (ph_points h')) as (p0 & mid & pn & E); [lia|].
  destruct (ei_first _ _ He) as [n0 E0]. destruct (ei_last _ _ He) as [nn En].
  assert (E0' : core p0 = CO (nthp ps 0) u64_max n0 None) by (apply cores_nth in E0 as (p & Ep & Ec); rewrite E in Ep; cbn [nth_error] in Ep; injection Ep as <-; exact Ec).
  assert (En' : core pn = CO (nthp ps (length ps - 1)) u64_max None nn).
  { apply cores_nth in En as (p & Ep & Ec). rewrite <- HL, E in Ep. cbn [length] in Ep. rewrite app_length in Ep. cbn [length] in Ep.
    rewrite Nat.sub_succ, Nat.sub_0_r, Nat.add_1_r in Ep. cbn [nth_error] in Ep. rewrite nth_error_app2, Nat.sub_diag in Ep by lia. cbn in Ep.
    injection Ep as <-. exact Ec. }
  assert (G0 : vp_geo p0 = nthp ps 0) by exact (f_equal co_geo E0').
  assert (Gn : vp_geo pn = nthp ps (length ps - 1)) by exact (f_equal co_geo En').
  assert (W0 : vp_weight p0 = u64_max) by exact (f_equal co_weight E0').
  assert (Wn : vp_weight pn = u64_max) by exact (f_equal co_weight En').
  assert (HC : is_closed ps <-> vp_geo p0 = vp_geo pn) by (rewrite G0, Gn; apply closed_nthp; lia).
  destruct (ring_fix_ok (ph_points h') p0 mid pn thr E) as (r & Er & Hsub & Hf & Hn & Hr2 & Hr4 & Heq); [lia|lia| |].
  { intros Eq. rewrite HL. apply H4, HC, Eq. }
  exists r. split; [exact Er|]. rewrite geo_points, (ei_geo _ _ He) in Hsub. split; [exact Hsub|].
  rewrite Hf, Hn, G0, Gn. rewrite first_nthp, final_nthp by lia. split; [reflexivity|]. split; [reflexivity|]. split; [exact Hr2|]. split.
  - intros Hc. apply Hr4, HC, Hc.
  - intros Hc. apply Heq. destruct Hc as [Hc|Hc]; [left; intros Eq; apply Hc, HC, Eq|right; exact Hc].
Qed.

Lemma simplify_edge_ok m ps thr : edge_ok ps -> thr <= u64_max ->
  (m = Debug /\ simplify_edge m ps thr = Panic POverflow) \/
  exists r, simplify_edge m ps thr = Ok r /\ subseq r ps /\ first r = first ps /\ final r = final ps /\ (2 <= length r)%nat /\
    (is_closed ps -> (4 <= length r)%nat) /\ (thr <= 0 -> r = ps).
Proof.
  intros HE Ht. unfold simplify_edge. destruct (heap_from_cases m ps HE) as [[Hm ->]|(h0 & h & -> & _ & _ & _ & _ & HB)]; cbn [bind]; [left; auto|].
  unfold visvalingam_whyatt.
  destruct (vw_loop_ok m ps thr (length (ph_heap h)) h 0) as [[Hm ->]|(h' & -> & He & _ & _)]; cbn [bind]; [lia| | |left; auto|].
  { split; [apply HB|]. split; [apply HB|]. split; [|right; eauto]. intros i Hi. apply (bi_int _ _ _ HB). eapply Permutation_in; [apply Permutation_sym, HB|exact Hi]. }
  { pose proof u64_max_nonneg. lia. }
  right. destruct (result_ok ps h' thr He HE Ht) as (r & Er & Hsub & Hf & Hn & Hr2 & Hr4 & Heq).
  exists r. split; [exact Er|]. repeat (split; [assumption|]). intros H0.
  assert (Eret : map vp_geo (filter (fun p => thr <=? vp_weight p) (ph_points h')) = ps).
  { transitivity (map vp_geo (ph_points h')); [f_equal|rewrite geo_points; apply (ei_geo _ _ He)].
    pose proof (ei_weight _ _ He) as HW. unfold cores in HW. apply Forall_map in HW. clear -HW H0. induction HW as [|p l Hp HW IH]; [reflexivity|]. cbn [filter].
    destruct (Z.leb_spec thr (vp_weight p)) as [_|Hc]; [rewrite IH; reflexivity|]. cbn in Hp. lia. }
  rewrite Heq; [exact Eret|]. rewrite Eret. destruct HE as [_ H4]. destruct (pt_eqb_spec (nthp ps 0) (nthp ps (length ps - 1))) as [Eq|Eq].
  - right. apply H4. assert (2 <= length ps)%nat by (apply subseq_length in Hsub; lia). apply closed_nthp; [lia|exact Eq].
  - left. intros Hc. assert (2 <= length ps)%nat by (apply subseq_length in Hsub; lia). apply closed_nthp in Hc; [contradiction|lia].
Qed.

Lemma heap_from_rejects m ps : ~ edge_ok ps -> heap_from m ps = Panic PAssert.
Proof.
  intros H. unfold heap_from. destruct (Nat.leb_spec 2 (length ps)) as [H2|H2]; [|reflexivity]. cbn [rassert bind].
  rewrite (get_ok ps 0 (nthp ps 0)) by (apply nthp_some; lia). cbn [bind].
  rewrite (get_ok ps (length ps - 1) (nthp ps (length ps - 1))) by (apply nthp_some; lia). cbn [bind].
  destruct (pt_eqb_spec (nthp ps 0) (nthp ps (length ps - 1))) as [E|E].
  - cbn [negb orb]. destruct (Nat.leb_spec 4 (length ps)) as [H4|H4]; [|reflexivity]. exfalso. apply H. split; [exact H2|]. intros _. exact H4.
  - exfalso. apply H. split; [exact H2|]. intros Hc. apply closed_nthp in Hc; [contradiction|lia].
Qed.
Lemma simplify_edge_rejects m ps thr : ~ edge_ok ps -> simplify_edge m ps thr = Panic PAssert.
Proof. intros H. unfold simplify_edge. rewrite heap_from_rejects by exact H. reflexivity. Qed.
