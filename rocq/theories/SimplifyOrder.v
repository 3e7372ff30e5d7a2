(** * SimplifyOrder: the order of removal does not depend on the threshold *)
From Coq Require Import Permutation Sorted.
From Verif Require Import ClipTopoSpec Simplify SimplifySpec GeoProofs TopoProofs BuildProofs ClipEdgeProofs SimplifyProofs SimplifyLaws SimplifyHeap SimplifyWeights.

(** ** The turns of the loop are determined *)
Lemma pops_prefix m h lw l1 h1 lw1 : pops m h lw l1 h1 lw1 -> forall l2 h2 lw2, pops m h lw l2 h2 lw2 ->
  (exists l, l1 = l2 ++ l /\ pops m h2 lw2 l h1 lw1) \/ (exists l, l2 = l1 ++ l /\ pops m h1 lw1 l h2 lw2).
Proof.
  induction 1 as [h lw|h lw top ha p hb hc l h1 lw1 E1 E2 E3 E4 HP IH]; intros l2 h2 lw2 H2.
  - right. exists l2. auto.
  - inversion H2 as [|? ? top' ha' p' hb' hc' l' ? ? F1 F2 F3 F4 HP']; subst.
    + left. exists (top :: l). split; [reflexivity|]. econstructor; eassumption.
    + rewrite E1 in F1. injection F1 as <- <-. rewrite E2 in F2. injection F2 as <-. rewrite E3 in F3. injection F3 as <-.
      rewrite E4 in F4. injection F4 as <-. destruct (IH _ _ _ HP') as [(l0 & -> & H)|(l0 & -> & H)]; [left|right]; exists l0; auto.
Qed.

Lemma pops_max m h lw l h' lw' : pops m h lw l h' lw' -> lw <= lw'.
Proof. induction 1; lia. Qed.

Lemma pops_further m h lw t1 t2 l1 h1 lw1 l2 h2 lw2 h' : t1 <= t2 -> pops m h lw l1 h1 lw1 -> (lw1 < t1 \/ l1 = []) ->
  pops m h lw l2 h2 lw2 -> ends t2 h2 lw2 h' -> exists l, l2 = l1 ++ l.
Proof.
  intros Ht H1 Hl H2 HE. destruct (pops_prefix _ _ _ _ _ _ H1 _ _ _ H2) as [(l & -> & H)|(l & -> & _)]; [|eauto].
  inversion H as [|? ? top ha p hb hc l0 ? ? E1 E2 E3 E4 HP]; subst; [exists []; rewrite !app_nil_r; reflexivity|]. exfalso.
  destruct Hl as [Hl|Hl]; [|destruct l2; discriminate]. apply pops_max in HP. destruct HE as [[HE _]|(top' & p' & _ & F1 & F2 & _ & F3)].
  - unfold hpop in E1. rewrite HE in E1. discriminate.
  - rewrite E1 in F1. injection F1 as <- <-. rewrite E2 in F2. injection F2 as <-. lia.
Qed.

(** ** Sorted lists *)
Lemma sorted_unique (l : list nat) : forall l', StronglySorted lt l -> StronglySorted lt l' -> (forall x, In x l <-> In x l') -> l = l'.
Proof.
  induction l as [|a l IH]; intros [|b l'] S1 S2 HE; [reflexivity|exfalso; apply (HE b); left; reflexivity|exfalso; apply (HE a); left; reflexivity|].
  inversion S1 as [|? ? S1' F1]; inversion S2 as [|? ? S2' F2]; subst. rewrite Forall_forall in F1, F2.
  assert (a = b) as ->.
  { destruct (proj1 (HE a) (or_introl eq_refl)) as [<-|Ha]; [reflexivity|]. destruct (proj2 (HE b) (or_introl eq_refl)) as [<-|Hb]; [reflexivity|].
    apply F2 in Ha. apply F1 in Hb. lia. }
  f_equal. apply IH; [assumption..|]. intros x. split; intros Hx.
  - destruct (proj1 (HE x) (or_intror Hx)) as [<-|H]; [apply F1 in Hx; lia|exact H].
  - destruct (proj2 (HE x) (or_intror Hx)) as [<-|H]; [apply F2 in Hx; lia|exact H].
Qed.
Lemma sorted_filter f (l : list nat) : StronglySorted lt l -> StronglySorted lt (filter f l).
Proof.
  induction 1 as [|a l H IH F]; cbn [filter]; [constructor|]. destruct (f a); [|exact IH]. constructor; [exact IH|].
  rewrite Forall_forall in *. intros x Hx. apply filter_In in Hx as [Hx _]. auto.
Qed.
Lemma in_remaining n gone i : In i (remaining n gone) <-> (i < n)%nat /\ ~ In i gone.
Proof.
  unfold remaining. rewrite filter_In, in_seq, negb_true_iff. split; intros [H1 H2].
  - split; [lia|]. intros H. assert (E : existsb (Nat.eqb i) gone = true) by (apply existsb_exists; exists i; split; [exact H|apply Nat.eqb_refl]). congruence.
  - split; [lia|]. destruct (existsb (Nat.eqb i) gone) eqn:E; [|reflexivity]. apply existsb_exists in E as (x & Hx & E). apply Nat.eqb_eq in E as <-. contradiction.
Qed.
Lemma list_of_sorted ps mid : (2 <= length ps)%nat -> StronglySorted lt mid -> (forall i, In i mid -> interior ps i) -> StronglySorted lt (list_of ps mid).
Proof.
  intros H2 HS Hi. unfold list_of. constructor.
  - induction HS as [|a l H IH F]; cbn [app]; [repeat constructor|]. constructor; [apply IH; intros i Hin; apply Hi; right; exact Hin|].
    apply Forall_app. split; [exact F|]. constructor; [|constructor]. specialize (Hi a (or_introl eq_refl)). unfold interior in Hi. lia.
  - apply Forall_app. split; [|constructor; [lia|constructor]]. apply Forall_forall. intros x Hx. apply Hi in Hx. unfold interior in Hx. lia.
Qed.

Lemma remaining_mid ps gone mid : (2 <= length ps)%nat -> StronglySorted lt mid -> (forall i, In i mid -> interior ps i) ->
  Permutation (seq 1 (length ps - 2)) (gone ++ mid) -> remaining (length ps) gone = list_of ps mid.
Proof.
  intros H2 HS Hi HP. apply sorted_unique; [apply sorted_filter, sorted_seq|apply list_of_sorted; assumption|]. intros x. rewrite in_remaining.
  assert (HD : NoDup (gone ++ mid)) by (eapply Permutation_NoDup; [exact HP|apply seq_NoDup]).
  assert (HX : forall y, In y gone \/ In y mid <-> (1 <= y < length ps - 1)%nat).
  { intros y. rewrite <- in_app_iff. split; intros H.
    - apply (Permutation_in _ (Permutation_sym HP)), in_seq in H. lia.
    - apply (Permutation_in _ HP), in_seq. lia. }
  unfold list_of. cbn [In]. rewrite in_app_iff. cbn [In]. split.
  - intros [Hx Hg]. destruct (Nat.eq_dec x 0) as [->|H0]; [auto|]. destruct (Nat.eq_dec x (length ps - 1)) as [->|H1]; [auto|].
    right. left. destruct (proj2 (HX x)); [lia|contradiction|assumption].
  - intros [<-|[Hx|[<-|[]]]].
    + split; [lia|]. intros Hg. pose proof (proj1 (HX _) (or_introl Hg)). lia.
    + pose proof (proj1 (HX _) (or_intror Hx)). split; [lia|]. intros Hg. apply in_split in Hg as (g1 & g2 & ->). rewrite <- app_assoc in HD. cbn [app] in HD.
      apply NoDup_remove in HD as [_ HD]. apply HD. rewrite !in_app_iff. auto.
    + split; [lia|]. intros Hg. pose proof (proj1 (HX _) (or_introl Hg)). lia.
Qed.

(** ** The result from the points removed *)
Lemma kept_by_seq ps ws thr (f : nat -> bool) : length ws = length ps -> (forall i w, nth_error ws i = Some w -> f i = (thr <=? w)) ->
  kept_by ps ws thr = map (fun i => nth i ps (Pt 0 0)) (filter f (seq 0 (length ps))).
Proof.
  unfold kept_by. revert ws f. induction ps as [|p ps IH]; intros [|w ws] f HL Hf; try discriminate; [reflexivity|]. cbn [combine length seq filter].
  rewrite (Hf 0%nat w eq_refl). cbn [snd]. rewrite <- seq_shift.
  assert (E : map fst (filter (fun q => thr <=? snd q) (combine ps ws)) = map (fun i => nth i (p :: ps) (Pt 0 0)) (filter f (map S (seq 0 (length ps))))).
  { rewrite (IH ws (fun i => f (S i))); [|cbn in HL; lia|intros i w' Hi; apply Hf; exact Hi]. clear.
    generalize (seq 0 (length ps)). intros l. induction l as [|i l IHl]; [reflexivity|]. cbn [map filter]. destruct (f (S i)); cbn [map]; [f_equal|]; exact IHl. }
  destruct (thr <=? w); cbn [map fst nth]; [f_equal|]; exact E.
Qed.

Lemma filter_filter {A} (f g : A -> bool) l : (forall x, In x l -> f x = true -> g x = true) -> filter f (filter g l) = filter f l.
Proof.
  induction l as [|a l IH]; intros H; [reflexivity|]. cbn [filter]. assert (IH' := IH (fun x Hx => H x (or_intror Hx))).
  destruct (g a) eqn:G; cbn [filter]; [rewrite IH'; reflexivity|]. destruct (f a) eqn:F; [|exact IH']. rewrite (H a (or_introl eq_refl) F) in G. discriminate.
Qed.

Lemma left_by_state m ps thr gone mid h : (2 <= length ps)%nat -> thr <= u64_max -> wgood m ps thr h mid -> Permutation (seq 1 (length ps - 2)) (gone ++ mid) ->
  forall ws, length ws = length ps -> (forall i, nth_error ws i = wt (cores h) i) -> left_by m ps gone thr (kept_by ps ws thr).
Proof.
  intros H2 Ht G HP ws HL Hw. pose proof (remaining_mid ps gone mid H2 (wg_sort _ _ _ _ _ G) (wg_int _ _ _ _ _ G) HP) as ER.
  set (keep := fun i => match nth_error ws i with Some w => thr <=? w | None => false end).
  assert (HK : forall i w, nth_error ws i = Some w -> keep i = (thr <=? w)) by (intros i w E; unfold keep; rewrite E; reflexivity).
  pose proof (wg_einv _ _ _ _ _ G) as He.
  assert (HE : forall i n p x, nth_error (cores h) i = Some (CO p u64_max n x) -> keep i = true).
  { intros i n p x E. rewrite (HK i u64_max); [apply Z.leb_le, Ht|]. rewrite Hw. unfold wt. rewrite E. reflexivity. }
  exists keep. split; [|split; [|split]].
  - rewrite (kept_by_seq ps ws thr keep HL HK). f_equal. unfold remaining. symmetry. apply filter_filter. intros x Hx Hk.
    apply in_seq in Hx. apply negb_true_iff. destruct (existsb (Nat.eqb x) gone) eqn:E; [|reflexivity]. exfalso. apply existsb_exists in E as (y & Hy & E). apply Nat.eqb_eq in E as <-.
    assert (Hi : interior ps x).
    { unfold interior. assert (In x (seq 1 (length ps - 2))) by (eapply Permutation_in; [apply Permutation_sym, HP|apply in_or_app; auto]). apply in_seq in H. lia. }
    assert (Hn : ~ In x mid).
    { assert (HD : NoDup (gone ++ mid)) by (eapply Permutation_NoDup; [exact HP|apply seq_NoDup]). apply in_split in Hy as (g1 & g2 & ->). rewrite <- app_assoc in HD. cbn [app] in HD.
      apply NoDup_remove in HD as [_ HD]. intros H. apply HD. rewrite !in_app_iff. auto. }
    destruct (wg_dead _ _ _ _ _ G x Hi Hn) as (w & _ & _ & _ & Ew & Hlt & _). rewrite <- Hw in Ew. rewrite (HK _ _ Ew) in Hk. apply Z.leb_le in Hk. lia.
  - destruct (ei_first _ _ He) as [n E]. eapply HE, E.
  - destruct (ei_last _ _ He) as [n E]. eapply HE, E.
  - intros A j i k B E. rewrite ER in E. destruct (wg_link _ _ _ _ _ G) as [->|HLk].
    { exfalso. apply (f_equal (@length _)) in E. rewrite app_length in E. cbn in E. lia. }
    rewrite E in HLk. apply linked_app in HLk as [_ HLk]. cbn [linked] in HLk. destruct HLk as (_ & L2 & L3 & _).
    assert (Hin : In i mid).
    { pose proof (list_of_sorted ps mid H2 (wg_sort _ _ _ _ _ G) (wg_int _ _ _ _ _ G)) as HS. rewrite E in HS.
      assert (Hi : In i (list_of ps mid)) by (rewrite E; apply in_or_app; right; right; left; reflexivity).
      pose proof (sorted_app_lt (A ++ [j]) (i :: k :: B)) as Q. rewrite <- app_assoc in Q. specialize (Q HS j i (in_elt _ _ _) (or_introl eq_refl)).
      pose proof (sorted_app_lt (A ++ [j; i]) (k :: B)) as Q'. rewrite <- app_assoc in Q'. specialize (Q' HS i k). 
      assert (Hik : (i < k)%nat) by (apply Q'; [apply in_or_app; right; right; left; reflexivity|left; reflexivity]).
      assert (Hkm : In k (list_of ps mid)) by (rewrite E; apply in_or_app; right; right; right; left; reflexivity).
      rewrite <- ER in Hkm. apply in_remaining in Hkm as [Hkm _]. unfold list_of in Hi. destruct Hi as [<-|Hi]; [lia|]. apply in_app_iff in Hi as [Hi|[<-|[]]]; [exact Hi|lia]. }
    destruct (wg_live _ _ _ _ _ G i Hin) as (j' & k' & w & Ej & Ek & Ew & Et). rewrite L2 in Ej. injection Ej as <-. rewrite L3 in Ek. injection Ek as <-.
    exists w. split; [exact Et|]. apply HK. rewrite Hw. exact Ew.
Qed.

Lemma simplify_runs m ps thr r h : edge_ok ps -> thr <= u64_max -> heap_from m ps = Ok h -> simplify_edge m ps thr = Ok r ->
  exists gone h0 lw0 h', pops m h 0 gone h0 lw0 /\ (lw0 < thr \/ gone = []) /\ ends thr h0 lw0 h' /\ NoDup gone /\ (forall i, In i gone -> interior ps i) /\
    (~ is_closed ps \/ (4 < length r)%nat -> left_by m ps gone thr r).
Proof.
  intros HE Ht Eh E. unfold simplify_edge in E. rewrite Eh in E. cbn [bind] in E. unfold visvalingam_whyatt in E. apply bind_Ok in E as (h' & El & E).
  pose proof u64_max_nonneg as HU. pose proof (wgood_start m ps thr h HE Eh) as G.
  destruct (vw_pops m ps thr _ h 0 _ h' G ltac:(lia) (or_intror eq_refl) El) as (gone & h0 & lw0 & mid & HP & Hl & Hend & G0 & HPm).
  exists gone, h0, lw0, h'. split; [exact HP|]. split; [exact Hl|]. split; [exact Hend|].
  assert (HD : NoDup (gone ++ mid)) by (eapply Permutation_NoDup; [exact HPm|apply seq_NoDup]).
  split; [clear - HD; induction gone as [|a g IH]; [constructor|]; cbn [app] in HD; inversion HD as [|? ? H1 H2]; subst; constructor; [|apply IH, H2]; intros H; apply H1, in_or_app; auto|].
  split; [intros i Hi; assert (Hs : In i (seq 1 (length ps - 2))) by (eapply Permutation_in; [apply Permutation_sym, HPm|apply in_or_app; auto]); apply in_seq in Hs; unfold interior; lia|].
  intros Hc.
  assert (Hwt : forall k, wt (cores h') k = wt (cores h0) k) by (eapply ends_wt; eassumption).
  assert (He : einv ps (cores h')).
  { destruct Hend as [[_ ->]|(top & p & _ & EP & EV & _)]; [apply (wg_einv _ _ _ _ _ G0)|]. apply (popped_ok _ _ _ _ _ _ _ _ G0 EP EV). }
  assert (EG : map vp_geo (ph_points h') = ps) by (rewrite geo_points; apply (ei_geo _ _ He)).
  destruct (result_ok ps h' thr He HE Ht) as (r' & Er & _ & _ & _ & _ & Hr4 & Heq). rewrite E in Er. injection Er as <-.
  rewrite kept_map, EG in Heq, E.
  assert (Ek : r = kept_by ps (map vp_weight (ph_points h')) thr).
  { destruct Hc as [Hc|Hc]; [apply Heq; auto|]. destruct (Nat.lt_ge_cases (length (kept_by ps (map vp_weight (ph_points h')) thr)) 4) as [Hlt|Hge]; [|apply Heq; auto].
    destruct (Nat.lt_ge_cases (length ps) 4) as [Hp|Hp].
    - apply Heq. left. intros Hcl. destruct HE as [_ H4]. specialize (H4 Hcl). lia.
    - destruct (ring_fix_best (ph_points h') ps _ r EG Hp Hlt E) as [Hr|(i1 & i2 & w1 & w2 & _ & _ & _ & _ & Hr & _)]; [exact Hr|]. rewrite Hr in Hc. cbn in Hc. lia. }
  rewrite Ek. destruct HE as [H2 _]. apply (left_by_state m ps thr gone mid h0 H2 Ht G0 HPm); [rewrite <- EG, !map_length; reflexivity|].
  intros i. rewrite <- Hwt. unfold wt, cores. rewrite !nth_error_map. destruct (nth_error (ph_points h') i); reflexivity.
Qed.

Lemma simplify_further m ps t1 t2 r1 r2 : t1 <= t2 -> t2 <= u64_max -> simplify_edge m ps t1 = Ok r1 -> simplify_edge m ps t2 = Ok r2 ->
  exists gone more, NoDup (gone ++ more) /\ (forall i, In i (gone ++ more) -> interior ps i) /\
    (~ is_closed ps \/ (4 < length r1)%nat -> left_by m ps gone t1 r1) /\
    (~ is_closed ps \/ (4 < length r2)%nat -> left_by m ps (gone ++ more) t2 r2).
Proof.
  intros H12 Ht E1 E2. destruct (edge_ok_dec ps) as [HE|HE]; [|rewrite simplify_edge_rejects in E1 by exact HE; discriminate].
  destruct (heap_from m ps) as [h|] eqn:Eh; [|unfold simplify_edge in E1; rewrite Eh in E1; discriminate].
  destruct (simplify_runs m ps t1 r1 h HE ltac:(lia) Eh E1) as (g1 & h1 & lw1 & h1' & P1 & L1 & _ & _ & _ & R1).
  destruct (simplify_runs m ps t2 r2 h HE Ht Eh E2) as (g2 & h2 & lw2 & h2' & P2 & _ & F2 & D2 & I2 & R2).
  destruct (pops_further m h 0 t1 t2 g1 h1 lw1 g2 h2 lw2 h2' H12 P1 L1 P2 F2) as [more ->]. exists g1, more. auto.
Qed.

(** ** Edges of at most four points *)
Lemma three_result m a b c thr r : a <> c -> thr <= u64_max -> simplify_edge m [a; b; c] thr = Ok r ->
  exists w, weight2 m a b c = Ok w /\ r = if thr <=? w then [a; b; c] else [a; c].
Proof.
  intros Hne Ht E. destruct (weight2_cases m a b c) as [[_ E']|(w & E' & R1)]; cases E; try discriminate E'; injection E as <-; injection E' as <-.
  all: eexists; split; [reflexivity|]; match goal with |- context [?x <=? ?y] => destruct (Z.leb_spec x y) end; [first [reflexivity|lia]..].
Qed.

Lemma four_result m a b c d thr r : a <> d -> thr <= u64_max -> simplify_edge m [a; b; c; d] thr = Ok r ->
  exists w1 w2, weight2 m a b c = Ok w1 /\ weight2 m b c d = Ok w2 /\
    ((thr <= w1 /\ thr <= w2 /\ r = [a; b; c; d]) \/
     (w1 <= w2 /\ w1 < thr /\ exists w, weight2 m a c d = Ok w /\ r = if thr <=? w then [a; c; d] else [a; d]) \/
     (w2 < w1 /\ w2 < thr /\ exists w, weight2 m a b d = Ok w /\ r = if thr <=? w then [a; b; d] else [a; d])).
Proof.
  intros Hne Ht E. unfold simplify_edge, heap_from in E. cbn [length Nat.leb rassert bind get get_or nth_error Nat.sub] in E.
  destruct (pt_eqb_spec a d) as [|_]; [contradiction|]. cbn [negb orb rassert bind] in E.
  cbn [seq mmap init_interior get get_or nth_error bind Nat.sub Nat.add] in E.
  destruct (weight2 m a b c) as [w1|] eqn:E1; [|discriminate]. cbn [bind] in E.
  destruct (weight2 m b c d) as [w2|] eqn:E2; [|discriminate]. cbn [bind app] in E.
  destruct (weight2_cases m a b c) as [[_ E']|(w & E' & R1)]; rewrite E1 in E'; [discriminate|]. injection E' as <-.
  destruct (weight2_cases m b c d) as [[_ E']|(w & E' & R2)]; rewrite E2 in E'; [discriminate|]. injection E' as <-.
  exists w1, w2. split; [reflexivity|]. split; [reflexivity|].
  cases E; injection E as <-.
  all: first [left; repeat split; lia
    | right; left; split; [lia|split; [lia|]]; eexists; split; [first [eassumption|reflexivity]|]
    | right; right; split; [lia|split; [lia|]]; eexists; split; [first [eassumption|reflexivity]|]].
  all: match goal with |- context [?x <=? ?y] => destruct (Z.leb_spec x y) end; [first [reflexivity|lia]..].
Qed.

Lemma few_fewer m ps t1 t2 r1 r2 : (length ps <= 4)%nat -> ~ is_closed ps -> t1 <= t2 -> t2 <= u64_max ->
  simplify_edge m ps t1 = Ok r1 -> simplify_edge m ps t2 = Ok r2 -> subseq r2 r1.
Proof.
  intros HL Hc H12 Ht E F. destruct (edge_ok_dec ps) as [HE|HE]; [|rewrite simplify_edge_rejects in E by exact HE; discriminate]. destruct HE as [H2 _].
  assert (HS : forall (l : list point), subseq l l) by (induction l; constructor; assumption).
  destruct ps as [|a [|b [|c [|d [|]]]]]; cbn [length] in *; try lia.
  - cases E; injection E as <-; cases F; injection F as <-; apply HS.
  - assert (Hne : a <> c) by (intros ->; apply Hc; split; [discriminate|reflexivity]).
    apply three_result in E as (w & Ew & ->); [|exact Hne|lia]. apply three_result in F as (w' & Ew' & ->); [|exact Hne|lia].
    rewrite Ew in Ew'. injection Ew' as <-. destruct (Z.leb_spec t1 w), (Z.leb_spec t2 w); try lia; repeat first [apply sub_nil|apply sub_take|apply sub_skip].
  - assert (Hne : a <> d) by (intros ->; apply Hc; split; [discriminate|reflexivity]).
    apply four_result in E as (w1 & w2 & E1 & E2 & E); [|exact Hne|lia]. apply four_result in F as (v1 & v2 & F1 & F2 & F); [|exact Hne|lia].
    rewrite E1 in F1. injection F1 as <-. rewrite E2 in F2. injection F2 as <-.
    destruct E as [(A1 & A2 & ->)|[(A1 & A2 & w & Ew & ->)|(A1 & A2 & w & Ew & ->)]];
    destruct F as [(B1 & B2 & ->)|[(B1 & B2 & v & Ev & ->)|(B1 & B2 & v & Ev & ->)]]; try lia.
    + apply HS.
    + destruct (t2 <=? v); repeat first [apply sub_nil|apply sub_take|apply sub_skip].
    + destruct (t2 <=? v); repeat first [apply sub_nil|apply sub_take|apply sub_skip].
    + rewrite Ew in Ev. injection Ev as <-. destruct (Z.leb_spec t1 w), (Z.leb_spec t2 w); try lia; repeat first [apply sub_nil|apply sub_take|apply sub_skip].
    + rewrite Ew in Ev. injection Ev as <-. destruct (Z.leb_spec t1 w), (Z.leb_spec t2 w); try lia; repeat first [apply sub_nil|apply sub_take|apply sub_skip].
Qed.

(** ** Simplifying a simplified edge *)
Lemma settled_at m thr r i a b c : settled m thr r -> (0 < i)%nat -> nth_error r (i - 1) = Some a -> nth_error r i = Some b -> nth_error r (i + 1) = Some c ->
  exists w, weight2 m a b c = Ok w /\ thr <= w.
Proof.
  intros HS Hi Ha Hb Hc. apply nth_error_split in Ha as (l1 & l2 & -> & HL).
  assert (E : i = (length l1 + 1)%nat) by lia. subst i. rewrite nth_error_app2 in Hb, Hc by lia.
  replace (length l1 + 1 - length l1)%nat with 1%nat in Hb by lia. replace (length l1 + 1 + 1 - length l1)%nat with 2%nat in Hc by lia.
  destruct l2 as [|b' [|c' l2]]; cbn in Hb, Hc; try discriminate. injection Hb as ->. injection Hc as ->. eapply HS. reflexivity.
Qed.

Lemma settled_stays m thr r : edge_ok r -> 0 <= thr <= u64_max -> settled m thr r -> simplify_edge m r thr = Ok r.
Proof.
  intros HE Ht HS.
  assert (HW : forall i, interior r i -> exists w, tri m r (i - 1) i (i + 1) = Ok w /\ thr <= w).
  { intros i Hi. unfold interior in Hi. unfold tri. eapply (settled_at m thr r i); [exact HS|lia|apply nthp_some; lia..]. }
  assert (Eh : exists h, heap_from m r = Ok h).
  { destruct (heap_from_cases m r HE) as [[_ E]|(h0 & h & E & _)]; [exfalso|eauto]. unfold heap_from in E.
    destruct HE as [H2 H4]. destruct (Nat.leb_spec 2 (length r)); [|lia]. cbn [rassert bind] in E.
    rewrite (get_ok r 0 (nthp r 0)) in E by (apply nthp_some; lia). cbn [bind] in E.
    rewrite (get_ok r (length r - 1) (nthp r (length r - 1))) in E by (apply nthp_some; lia). cbn [bind] in E.
    assert (EA : negb (pt_eqb (nthp r 0) (nthp r (length r - 1))) || Nat.leb 4 (length r) = true).
    { destruct (pt_eqb_spec (nthp r 0) (nthp r (length r - 1))) as [Heq|]; [|reflexivity]. cbn [negb orb]. apply Nat.leb_le, H4. apply closed_nthp; [lia|exact Heq]. }
    rewrite EA in E. cbn [rassert bind] in E.
    assert (EM : forall l, (forall i, In i l -> interior r i) -> exists mid, mmap (init_interior m r) l = Ok mid /\ Forall2 (fun i v => init_interior m r i = Ok v) l mid).
    { induction l as [|i l IH]; intros Hl; [exists []; split; constructor|]. destruct (IH (fun j Hj => Hl j (or_intror Hj))) as (mid & Em & HF).
      pose proof (Hl i (or_introl eq_refl)) as Hi. destruct (HW i Hi) as (w & Ew & _). unfold interior in Hi.
      assert (Ei : exists v, init_interior m r i = Ok v).
      { unfold init_interior. rewrite (get_ok r (i - 1) (nthp r (i - 1))) by (apply nthp_some; lia). rewrite (get_ok r i (nthp r i)) by (apply nthp_some; lia).
        rewrite (get_ok r (i + 1) (nthp r (i + 1))) by (apply nthp_some; lia). cbn [bind]. unfold tri in Ew. rewrite Ew. cbn [bind]. eauto. }
      destruct Ei as [v Ei]. exists (v :: mid). split; [|constructor; assumption]. cbn [mmap]. rewrite Ei. cbn [bind]. rewrite Em. reflexivity. }
    destruct (EM (seq 1 (length r - 2))) as (mid & Em & HF); [intros i Hi; apply in_seq in Hi; unfold interior; lia|]. rewrite Em in E. cbn [bind] in E.
    destruct (raw_points m r mid H2 Em HF) as [HL HR]. pose proof (raw_binv m r _ H2 HL HR) as HB.
    destruct (heapify_ok _ (bi_hok _ _ _ HB)) as (h & Eh & _). rewrite Eh in E. discriminate. }
  destruct Eh as [h Eh]. pose proof (wgood_start m r thr h HE Eh) as G. pose proof u64_max_nonneg as HU.
  assert (EV : exists h', vw_loop (length (ph_heap h)) m thr h 0 = Ok h' /\ einv r (cores h')).
  { destruct (ph_heap h) as [|t0 rest] eqn:EH; [exists h; cbn [length vw_loop]; rewrite EH; split; [reflexivity|apply (wg_einv _ _ _ _ _ G)]|].
    assert (Hb : binv r h (seq 1 (length r - 2))).
    { constructor; try apply G. destruct (wg_link _ _ _ _ _ G) as [E0|HL]; [|exact HL]. exfalso. pose proof (wg_perm _ _ _ _ _ G) as HP. rewrite E0, EH in HP. apply Permutation_nil in HP. discriminate. }
    destruct (hpop_ok r h _ Hb) as (top & h1 & A & B & x & y & E1 & EM & _ & _ & He1 & _); [congruence|].
    assert (Htop : interior r top) by (apply (wg_int _ _ _ _ _ G); rewrite EM; apply in_elt).
    destruct (points_get r h1 top He1) as [p Ep]; [unfold interior in Htop; lia|]. pose proof (vget_ok _ _ _ Ep) as Ev.
    destruct (popped_ok m r thr h _ top h1 p G E1 Ev) as (_ & Hp0 & Hwp & _ & _).
    destruct (wg_live _ _ _ _ _ G top) as (j & k & w & Ej & Ek & Ew & Et); [rewrite EM; apply in_elt|]. rewrite Hwp in Ew. injection Ew as <-.
    exists h1. cbn [length vw_loop]. rewrite EH, E1. cbn [bind]. rewrite Ev. cbn [bind]. destruct (Z.ltb_spec (vp_weight p) 0) as [|_]; [lia|].
    destruct (Z.leb_spec thr (vp_weight p)) as [_|Hlt]; [auto|]. exfalso.
    destruct (neighbours (cores h) r _ top (bi_link _ _ _ Hb) (wg_sort _ _ _ _ _ G) (wg_int _ _ _ _ _ G)) as (j' & k' & Ej' & Ek' & Ho & Hk & Hn); [rewrite EM; apply in_elt|].
    rewrite Ej in Ej'. injection Ej' as <-. rewrite Ek in Ek'. injection Ek' as <-. unfold interior in Htop.
    assert (j = top - 1)%nat as ->.
    { destruct (Nat.eq_dec j (top - 1)) as [|Hne]; [assumption|]. exfalso. apply (Hn (top - 1)%nat); [lia|lia|]. apply in_seq. lia. }
    assert (k = top + 1)%nat as ->.
    { destruct (Nat.eq_dec k (top + 1)) as [|Hne]; [assumption|]. exfalso. apply (Hn (top + 1)%nat); [lia|lia|]. apply in_seq. lia. }
    destruct (HW top Htop) as (w' & Et' & Hw'). rewrite Et in Et'. injection Et' as <-. lia. }
  destruct EV as (h' & EV & He'). destruct (result_ok r h' thr He' HE ltac:(lia)) as (r' & Er & _).
  assert (E : simplify_edge m r thr = Ok r') by (unfold simplify_edge, visvalingam_whyatt; rewrite Eh; cbn [bind]; rewrite EV; cbn [bind]; exact Er).
  rewrite E. f_equal. eapply unchanged_if; [exact Ht|exact E|]. intros i a b c w Hi Ha Hb Hc Hw. destruct (settled_at m thr r i a b c HS Hi Ha Hb Hc) as (w' & Hw' & Hle). congruence.
Qed.

Lemma weights_ok m r thr r' : edge_ok r -> simplify_edge m r thr = Ok r' -> forall i, interior r i -> exists w, tri m r (i - 1) i (i + 1) = Ok w.
Proof.
  intros HE E i Hi. unfold simplify_edge in E. apply bind_Ok in E as (h & Eh & _).
  destruct (heap_from_cases m r HE) as [[_ E']|(h0 & h1 & E' & _ & [Hc _] & _ & HR & HB)]; rewrite Eh in E'; [discriminate|]. injection E' as <-.
  destruct (points_get r h i (bi_einv _ _ _ HB)) as [p Ep]; [unfold interior in Hi; lia|].
  assert (HL : length (ph_points h0) = length (ph_points h)) by (apply (f_equal (@length _)) in Hc; unfold cores in Hc; rewrite !map_length in Hc; congruence).
  destruct (nth_error_ge (ph_points h0) i) as [v Ev]; [rewrite HL; eapply nth_error_lt, Ep|]. exists (vp_weight v). apply (rp_weight _ _ _ _ (HR i v Ev) Hi).
Qed.

Lemma again_iff m ps thr r : 0 <= thr <= u64_max -> ~ is_closed ps -> simplify_edge m ps thr = Ok r ->
  (simplify_edge m r thr = Ok r <-> settled m thr r).
Proof.
  intros Ht Hc E. destruct (edge_ok_dec ps) as [HE|HE]; [|rewrite simplify_edge_rejects in E by exact HE; discriminate].
  destruct (simplify_edge_ok m ps thr HE ltac:(lia)) as [[_ E']|(r0 & E' & _ & Hf & Hl & H2 & _)]; rewrite E in E'; [discriminate|]. injection E' as <-.
  assert (Hcr : ~ is_closed r).
  { intros [_ HC]. apply Hc. split; [destruct HE; intros ->; cbn in *; lia|congruence]. }
  assert (HEr : edge_ok r) by (split; [exact H2|contradiction]).
  split; [|apply settled_stays; assumption]. intros E' a b c l l' ->.
  assert (Hn : nth_error (l ++ a :: b :: c :: l') (length l + 1 - 1) = Some a /\ nth_error (l ++ a :: b :: c :: l') (length l + 1) = Some b /\
    nth_error (l ++ a :: b :: c :: l') (length l + 1 + 1) = Some c).
  { rewrite !nth_error_app2 by lia. replace (length l + 1 - 1 - length l)%nat with 0%nat by lia. replace (length l + 1 - length l)%nat with 1%nat by lia.
    replace (length l + 1 + 1 - length l)%nat with 2%nat by lia. auto. }
  destruct Hn as (Na & Nb & Nc).
  destruct (weights_ok m _ thr _ HEr E' (length l + 1)%nat) as [w Ew]; [unfold interior; rewrite app_length; cbn [length]; lia|].
  unfold tri, nthp in Ew. rewrite (nth_error_nth _ _ _ Na), (nth_error_nth _ _ _ Nb), (nth_error_nth _ _ _ Nc) in Ew.
  exists w. split; [exact Ew|]. destruct (Z.lt_ge_cases w thr) as [Hlt|Hge]; [exfalso|exact Hge].
  pose proof (changed_if m _ thr _ (length l + 1)%nat a b c w Ht Hcr E' ltac:(lia) Na Nb Nc Ew Hlt). lia.
Qed.
