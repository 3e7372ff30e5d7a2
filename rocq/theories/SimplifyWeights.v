(** * SimplifyWeights: the weights the elimination loop ends with *)
From Coq Require Import Permutation Sorted.
From Verif Require Import ClipTopoSpec Simplify SimplifySpec GeoProofs TopoProofs BuildProofs ClipEdgeProofs SimplifyProofs SimplifyLaws SimplifyHeap.

(** ** Neighbours in the list of remaining points *)
Lemma sorted_app_lt (A B : list nat) : StronglySorted lt (A ++ B) -> forall x y, In x A -> In y B -> (x < y)%nat.
Proof.
  induction A as [|a A IH]; intros H x y Hx Hy; [destruct Hx|]. cbn [app] in H. inversion H as [|? ? H1 H2]; subst. destruct Hx as [<-|Hx].
  - rewrite Forall_forall in H2. apply H2, in_app_iff. auto.
  - apply IH; assumption.
Qed.
Lemma sorted_drop (A B : list nat) x : StronglySorted lt (A ++ x :: B) -> StronglySorted lt (A ++ B).
Proof.
  induction A as [|a A IH]; intros H; cbn [app] in *; inversion H as [|? ? H1 H2]; subst; [exact H1|]. constructor; [apply IH, H1|].
  apply Forall_app in H2 as [H2 H3]. apply Forall_app. split; [exact H2|]. inversion H3; assumption.
Qed.
Lemma sorted_seq n k : StronglySorted lt (seq n k).
Proof. revert n. induction k as [|k IH]; intros n; cbn [seq]; constructor; [apply IH|]. apply Forall_forall. intros x Hx. apply in_seq in Hx. lia. Qed.

Lemma neighbours c ps mid i : linked c (list_of ps mid) -> StronglySorted lt mid -> (forall i, In i mid -> interior ps i) -> In i mid ->
  exists j k, pv c i = Some j /\ nx c i = Some k /\ (j < i < k)%nat /\ (k < length ps)%nat /\ forall x, (j < x < k)%nat -> x <> i -> ~ In x mid.
Proof.
  intros Hl HS Hi Hin. pose proof (Hi i Hin) as Hii. unfold interior in Hii. apply in_split in Hin as (A & B & ->).
  set (x := last (0%nat :: A) 0%nat). set (y := hd (length ps - 1)%nat B).
  assert (EL : exists A' B', list_of ps (A ++ i :: B) = A' ++ x :: i :: y :: B').
  { exists (removelast (0%nat :: A)), (tl (B ++ [(length ps - 1)%nat])).
    assert (E1 : 0%nat :: A = removelast (0%nat :: A) ++ [x]) by (apply app_removelast_last; discriminate).
    assert (E2 : B ++ [(length ps - 1)%nat] = y :: tl (B ++ [(length ps - 1)%nat])) by (subst y; destruct B; reflexivity).
    unfold list_of. rewrite <- !app_assoc. cbn [app].
    change (0%nat :: A ++ i :: B ++ [(length ps - 1)%nat]) with ((0%nat :: A) ++ i :: B ++ [(length ps - 1)%nat]).
    rewrite E1 at 1. rewrite <- app_assoc. cbn [app]. rewrite E2 at 1. reflexivity. }
  destruct EL as (A' & B' & EL). rewrite EL in Hl. apply linked_app in Hl as [_ Hl]. cbn [linked] in Hl. destruct Hl as (L1 & L2 & L3 & L4 & _).
  exists x, y. split; [exact L2|]. split; [exact L3|].
  assert (HA : forall z, In z A -> (z <= x)%nat /\ (x < i)%nat).
  { intros z Hz. assert (HxA : In x A).
    { subst x. destruct A as [|a A0]; [destruct Hz|]. change (last (0%nat :: a :: A0) 0%nat) with (last (a :: A0) 0%nat). apply last_in. discriminate. }
    split; [|apply (sorted_app_lt A (i :: B) HS); [exact HxA|left; reflexivity]].
    destruct (exists_last (l := A)) as (A0 & a & EA); [intros ->; destruct Hz|]. assert (x = a) as Exa.
    { subst x. rewrite EA. change (last ((0%nat :: A0) ++ [a]) 0%nat = a). apply last_last. }
    rewrite EA in Hz, HS. rewrite <- app_assoc in HS. apply in_app_iff in Hz as [Hz|[Hz|[]]]; [|lia].
    pose proof (sorted_app_lt A0 ([a] ++ i :: B) HS z a Hz (or_introl eq_refl)). lia. }
  assert (HxA : (x < i)%nat).
  { destruct A as [|a A0]; [subst x; cbn; lia|]. apply (HA a (or_introl eq_refl)). }
  assert (HB : forall z, In z B -> (y <= z)%nat).
  { intros z Hz. subst y. destruct B as [|b B0]; [destruct Hz|]. cbn [hd]. destruct Hz as [<-|Hz]; [lia|].
    pose proof (sorted_app_lt (A ++ [i; b]) B0) as HQ. rewrite <- app_assoc in HQ. specialize (HQ HS b z). rewrite in_app_iff in HQ. cbn [In] in HQ.
    apply Nat.lt_le_incl, HQ; tauto. }
  assert (HyB : (i < y)%nat /\ (y < length ps)%nat).
  { subst y. destruct B as [|b B0]; [cbn; lia|]. cbn [hd]. split.
    - pose proof (sorted_app_lt (A ++ [i]) (b :: B0)) as HQ. rewrite <- app_assoc in HQ. specialize (HQ HS i b). rewrite in_app_iff in HQ. cbn [In] in HQ. apply HQ; tauto.
    - assert (Hb : In b (A ++ i :: b :: B0)) by (rewrite in_app_iff; cbn [In]; tauto). apply Hi in Hb. unfold interior in Hb. lia. }
  split; [lia|]. split; [lia|]. intros z Hz Hne Hin. apply in_app_iff in Hin as [Hin|[Hin|Hin]]; [apply HA in Hin; lia|congruence|apply HB in Hin; lia].
Qed.

(** ** What recalculation does to the weights *)
Lemma geo_nth ps h i p : einv ps (cores h) -> nth_error (ph_points h) i = Some p -> vp_geo p = nthp ps i.
Proof.
  intros He Hp. pose proof (ei_geo _ _ He) as HG. unfold cores in HG. rewrite map_map in HG. cbn [core co_geo] in HG.
  assert (E : nth_error ps i = Some (vp_geo p)) by (rewrite <- HG, nth_error_map, Hp; reflexivity).
  unfold nthp. symmetry. apply nth_error_nth, E.
Qed.

Lemma wt_point h i p : nth_error (ph_points h) i = Some p -> wt (cores h) i = Some (vp_weight p).
Proof. intros E. unfold wt, cores. rewrite nth_error_map, E. reflexivity. Qed.

Lemma recalc_wt m ps h bi h' : hok h -> einv ps (cores h) -> heap_interior ps h ->
  (bi = 0%nat \/ bi = (length ps - 1)%nat \/ In bi (ph_heap h)) -> recalc m h bi = Ok h' ->
  (forall k, k <> bi -> wt (cores h') k = wt (cores h) k) /\
  (forall a c, pv (cores h) bi = Some a -> nx (cores h) bi = Some c ->
     exists w, weight2 m (nthp ps a) (nthp ps bi) (nthp ps c) = Ok w /\ wt (cores h') bi = Some w).
Proof.
  intros Hh He Hi Hb E. pose proof (einv_length _ _ He) as HL. unfold cores in HL. rewrite map_length in HL. pose proof (ei_len _ _ He) as H2.
  assert (Hbl : (bi < length (ph_points h))%nat).
  { destruct Hb as [->|[->|Hb]]; [lia|lia|]. apply Hi in Hb. unfold interior in Hb. lia. }
  destruct (nth_error_ge _ _ Hbl) as [b Eb].
  assert (Ec : nth_error (cores h) bi = Some (core b)) by (unfold cores; rewrite nth_error_map, Eb; reflexivity).
  unfold recalc in E. rewrite (vget_ok _ _ _ Eb) in E. cbn [bind] in E. unfold pv, nx. rewrite Ec. cbn [core co_prev co_next].
  destruct (vp_prev b) as [ai|] eqn:Ep; [|injection E as <-; split; [reflexivity|discriminate]].
  destruct (vp_next b) as [ci|] eqn:En; [|injection E as <-; split; [reflexivity|discriminate]].
  assert (Hin : In bi (ph_heap h)).
  { destruct Hb as [->|[->|Hb]]; [| |exact Hb].
    - destruct (ei_first _ _ He) as [n E0]. rewrite E0 in Ec. injection Ec as Ec. assert (None = vp_prev b) by congruence. congruence.
    - destruct (ei_last _ _ He) as [n E0]. rewrite E0 in Ec. injection Ec as Ec. assert (None = vp_next b) by congruence. congruence. }
  assert (Hai : (ai < length (ph_points h))%nat) by (rewrite HL; eapply (ei_range _ _ He); [exact Ec|right; exact Ep]).
  assert (Hci : (ci < length (ph_points h))%nat) by (rewrite HL; eapply (ei_range _ _ He); [exact Ec|left; exact En]).
  destruct (nth_error_ge _ _ Hai) as [a Ea], (nth_error_ge _ _ Hci) as [c Ecc].
  rewrite (vget_ok _ _ _ Ea), (vget_ok _ _ _ Ecc) in E. cbn [bind] in E. apply bind_Ok in E as (w & Ew & E).
  rewrite (geo_nth ps h ai a He Ea), (geo_nth ps h bi b He Eb), (geo_nth ps h ci c He Ecc) in Ew.
  rewrite (vupd_ok h bi b) in E by exact Eb. cbn [bind] in E.
  set (h1 := PH (set_nth (ph_points h) bi (set_weight w b)) (ph_heap h)) in E.
  assert (Hh1 : hok h1) by (apply hok_set_weight; assumption).
  assert (Hc1 : cores h1 = set_nth (cores h) bi (CO (co_geo (core b)) w (co_next (core b)) (co_prev (core b)))).
  { unfold cores, h1. cbn [ph_points]. rewrite map_set_nth. reflexivity. }
  assert (Hbh : (vp_heap b < length (ph_heap h))%nat).
  { destruct Hh as (_ & HI). apply In_nth_error in Hin as [k Hk]. destruct (HI k bi Hk) as (p & Hp & [H0|H0]).
    - assert (p = b) as -> by congruence. rewrite H0. apply nth_error_lt in Hk. lia.
    - assert (p = b) as -> by congruence. eapply nth_error_lt, H0. }
  assert (HF : forall x, (exists h2, x = Ok h2 /\ same h1 h2) -> x = Ok h' -> 
    (forall k, k <> bi -> wt (cores h') k = wt (cores h) k) /\
    (forall a c, Some ai = Some a -> Some ci = Some c -> exists w, weight2 m (nthp ps a) (nthp ps bi) (nthp ps c) = Ok w /\ wt (cores h') bi = Some w)).
  { intros x (h2 & -> & (Hs1 & _ & _)) [= ->]. rewrite Hs1, Hc1. split.
    - intros k Hk. unfold wt. rewrite nth_error_set_neq by congruence. reflexivity.
    - intros a' c' [= <-] [= <-]. exists w. split; [exact Ew|]. unfold wt. rewrite nth_error_set_eq by (unfold cores; rewrite map_length; exact Hbl). reflexivity. }
  destruct (Z.ltb_spec w (vp_weight b)) as [Hlt|Hge].
  { eapply HF; [|exact E]. apply sift_up_ok; [assumption|exact Hbh|unfold sift_fuel; cbn [ph_heap h1]; lia]. }
  destruct (Z.ltb_spec (vp_weight b) w) as [Hlt|Hge'].
  2:{ injection E as <-. split; [reflexivity|]. intros a' c' [= <-] [= <-]. exists w. split; [exact Ew|]. unfold wt. rewrite Ec. cbn. f_equal. lia. }
  cbn [ph_heap h1] in E. destruct (Nat.leb_spec 1 (length (ph_heap h))); [|lia]. cbn [bind] in E.
  eapply HF; [|exact E]. apply sift_down_ok; [assumption|cbn [ph_heap h1]; lia|lia|unfold sift_fuel; cbn [ph_heap h1]; lia..].
Qed.

(** ** The invariant of the loop *)
Section Loop.
Context (m : mode) (ps : list point) (thr : Z).

Definition tri (j i k : nat) : res Z := weight2 m (nthp ps j) (nthp ps i) (nthp ps k).

(** Remaining points have the weight their links say. *)
Definition live (c : list coret) (i : nat) : Prop :=
  exists j k w, pv c i = Some j /\ nx c i = Some k /\ wt c i = Some w /\ tri j i k = Ok w.

(** Removed points are below the threshold. *)
Definition dead (mid : list nat) (c : list coret) (i : nat) : Prop :=
  exists w j k w0, wt c i = Some w /\ w < thr /\ (j < i < k)%nat /\ (k < length ps)%nat /\ tri j i k = Ok w0 /\ w0 <= w /\
    forall x, (j < x < k)%nat -> x <> i -> ~ In x mid.

Record wgood (h : pheap) (mid : list nat) : Prop := {
  wg_hok : hok h;
  wg_einv : einv ps (cores h);
  wg_perm : Permutation mid (ph_heap h);
  wg_int : forall i, In i mid -> interior ps i;
  wg_sort : StronglySorted lt mid;
  wg_link : mid = [] \/ linked (cores h) (list_of ps mid);
  wg_live : forall i, In i mid -> live (cores h) i;
  wg_dead : forall i, interior ps i -> ~ In i mid -> dead mid (cores h) i }.

(** What holds of the weights in the end. *)
Definition ended (c : list coret) (i : nat) : Prop :=
  exists w j k w0, wt c i = Some w /\ (j < i < k)%nat /\ (k < length ps)%nat /\ tri j i k = Ok w0 /\ w0 <= w /\ (thr <= w -> w0 = w) /\
    forall x wx, (j < x < k)%nat -> x <> i -> wt c x = Some wx -> wx < thr.

Lemma wgood_ended h mid : wgood h mid -> forall i, interior ps i -> ended (cores h) i.
Proof.
  intros G i Hi.
  assert (HD : forall j k, (j < i < k)%nat -> (k < length ps)%nat -> (forall x, (j < x < k)%nat -> x <> i -> ~ In x mid) ->
    forall x wx, (j < x < k)%nat -> x <> i -> wt (cores h) x = Some wx -> wx < thr).
  { intros j k Hjk Hk Hn x wx Hx Hne Hw. destruct (wg_dead _ _ G x) as (w & ? & ? & ? & E & Hlt & _); [unfold interior; lia|apply Hn; assumption|].
    rewrite Hw in E. injection E as <-. exact Hlt. }
  destruct (in_dec Nat.eq_dec i mid) as [Hin|Hin].
  - destruct (wg_live _ _ G i Hin) as (j & k & w & Hj & Hk & Hw & Et). destruct (wg_link _ _ G) as [E|HL]; [rewrite E in Hin; destruct Hin|].
    destruct (neighbours _ _ _ i HL (wg_sort _ _ G) (wg_int _ _ G) Hin) as (j' & k' & Hj' & Hk' & Ho & Hl & Hn).
    rewrite Hj in Hj'. injection Hj' as <-. rewrite Hk in Hk'. injection Hk' as <-.
    exists w, j, k, w. repeat (split; [first [assumption|lia|reflexivity]|]). apply HD; assumption.
  - destruct (wg_dead _ _ G i Hi Hin) as (w & j & k & w0 & Hw & Hlt & Ho & Hl & Et & Hle & Hn).
    exists w, j, k, w0. repeat (split; [first [assumption|lia]|]). apply HD; assumption.
Qed.

Lemma ended_wt c c' i : (forall k, wt c' k = wt c k) -> ended c i -> ended c' i.
Proof.
  intros HW (w & j & k & w0 & Hw & Ho & Hl & Et & Hle & Hk & Hn). exists w, j, k, w0. rewrite HW. repeat (split; [assumption|]).
  intros x wx Hx Hne. rewrite HW. apply Hn; assumption.
Qed.

(** One turn of the loop after the threshold has been checked. *)
Definition go_on (top : nat) (h2 : pheap) : res pheap :=
  p2 <- vget h2 top ;;
  h3 <- (match vp_prev p2 with Some i => recalc m h2 i | None => Ok h2 end) ;;
  p3 <- vget h3 top ;;
  match vp_next p3 with Some i => recalc m h3 i | None => Ok h3 end.
Definition raised (top : nat) (lw : Z) (p : vpoint) (h1 : pheap) : res pheap :=
  if vp_weight p <? lw then vupd h1 top (set_weight lw) else Ok h1.

Lemma popped_ok h mid top h1 p : wgood h mid -> hpop h = Ok (top, h1) -> vget h1 top = Ok p ->
  ph_heap h <> [] /\ 0 <= vp_weight p <= u64_max /\ wt (cores h) top = Some (vp_weight p) /\ (forall k, wt (cores h1) k = wt (cores h) k) /\ einv ps (cores h1).
Proof.
  intros G EP EV. assert (EH : ph_heap h <> []) by (intros EH; unfold hpop in EP; rewrite EH in EP; discriminate).
  destruct G as [Hh He HP Hint HS HL Hlive Hdead].
  assert (Hb : binv ps h mid).
  { constructor; auto. destruct HL as [->|HL]; [|exact HL]. apply Permutation_nil in HP. contradiction. }
  destruct (hpop_ok ps h mid Hb EH) as (top' & h1' & A & B & x & y & E1 & EM & Et & Hh1 & He1 & HP1 & HL1 & HW1 & _).
  rewrite EP in E1. injection E1 as <- <-. unfold vget, get_or in EV. destruct (nth_error (ph_points h1) top) as [p'|] eqn:Ep; [|discriminate]. injection EV as ->.
  split; [exact EH|]. split.
  { pose proof (ei_weight _ _ He1) as HW. rewrite Forall_forall in HW. specialize (HW (core p)). apply HW. unfold cores. apply in_map. eapply nth_error_In, Ep. }
  split; [rewrite <- (wt_map _ _ HW1); apply wt_point, Ep|]. split; [apply wt_map, HW1|exact He1].
Qed.

Lemma wgood_pop h mid lw top0 h1 p h2 h4 : wgood h mid -> 0 <= lw <= u64_max -> (lw < thr \/ lw = 0) ->
  hpop h = Ok (top0, h1) -> vget h1 top0 = Ok p -> raised top0 lw p h1 = Ok h2 -> Z.max lw (vp_weight p) < thr -> go_on top0 h2 = Ok h4 ->
  0 <= vp_weight p <= u64_max /\ exists A B, mid = A ++ top0 :: B /\ wgood h4 (A ++ B).
Proof.
  intros G Hlw0 Hlw EP EV ER HM E. assert (EH : exists rest, ph_heap h = top0 :: rest).
  { unfold hpop in EP. destruct (ph_heap h) as [|t0 rest]; [discriminate|]. exists rest. cbn [length Nat.leb rassert bind get get_or nth_error] in EP.
    destruct (Nat.eqb (S (length rest)) 1); [injection EP as <- _; reflexivity|]. repeat (apply bind_Ok in EP as (? & _ & EP)). injection EP as <- _. reflexivity. }
  destruct EH as [rest EH]. destruct G as [Hh He HP Hint HS HL Hlive Hdead].
  assert (Hb : binv ps h mid).
  { constructor; auto. destruct HL as [->|HL]; [|exact HL]. rewrite EH in HP. apply Permutation_nil in HP. discriminate. }
  destruct (hpop_ok ps h mid Hb) as (top & h1' & A & B & x & y & E1 & EM & Et & Hh1 & He1 & HP1 & HL1 & HW1 & Hpx & Hny & Hx & Hy & Hpx0 & Hny0 & Hlk); [congruence|].
  rewrite EP in E1. injection E1 as <- <-. clear Et. subst mid.
  assert (Htop : interior ps top0) by (apply Hint, in_elt).
  assert (Hint' : forall i, In i (A ++ B) -> interior ps i).
  { intros z H. apply Hint. apply in_app_iff in H. apply in_app_iff. cbn [In]. tauto. }
  assert (Hntop : ~ In top0 (A ++ B)).
  { assert (Hnd : NoDup (A ++ top0 :: B)) by (eapply Permutation_NoDup; [apply Permutation_sym, HP|apply Hh]). apply NoDup_remove in Hnd. apply Hnd. }
  assert (Hmid : forall z, In z (A ++ top0 :: B) <-> z = top0 \/ In z (A ++ B)).
  { intros z. rewrite !in_app_iff. cbn [In]. intuition. }
  destruct (points_get ps h1 top0 He1) as [p' Ep]; [unfold interior in Htop; lia|]. rewrite (vget_ok _ _ _ Ep) in EV. injection EV as ->.
  assert (Hwp : wt (cores h) top0 = Some (vp_weight p)) by (rewrite <- (wt_map _ _ HW1); apply wt_point, Ep).
  assert (Hp0 : 0 <= vp_weight p <= u64_max).
  { pose proof (ei_weight _ _ He1) as HW. rewrite Forall_forall in HW. specialize (HW (core p)). apply HW. unfold cores. apply in_map. eapply nth_error_In, Ep. }
  split; [exact Hp0|]. exists A, B. split; [reflexivity|].
  assert (HB : forall h2 lw', hok h2 -> einv ps (cores h2) -> ph_heap h2 = ph_heap h1 -> only_weights (cores h1) (cores h2) ->
     (forall k, k <> top0 -> wt (cores h2) k = wt (cores h1) k) -> wt (cores h2) top0 = Some lw' -> vp_weight p <= lw' < thr -> lw' <= u64_max ->
     go_on top0 h2 = Ok h4 -> wgood h4 (A ++ B)).
  { clear E h2 ER. intros h2 lw' Hh2 He2 EH2 Ho2 Hk2 Hw2 Hlw' Hmax E. unfold go_on in E.
    destruct (points_get ps h2 top0 He2) as [p2 Ep2]; [unfold interior in Htop; lia|]. rewrite (vget_ok _ _ _ Ep2) in E. cbn [bind] in E.
    assert (Epx : vp_prev p2 = Some x) by (rewrite <- (proj2 (Ho2 top0)) in Hpx; unfold pv, cores in Hpx; rewrite nth_error_map, Ep2 in Hpx; exact Hpx).
    rewrite Epx in E. apply bind_Ok in E as (h3 & E3 & E).
    assert (Hi2 : heap_interior ps h2) by (intros z H; apply Hint'; rewrite EH2 in H; eapply Permutation_in; [apply Permutation_sym, HP1|exact H]).
    assert (Hx2 : x = 0%nat \/ x = (length ps - 1)%nat \/ In x (ph_heap h2)).
    { destruct Hx as [Hx|Hx]; [auto|]. right; right. rewrite EH2. eapply Permutation_in; [exact HP1|exact Hx]. }
    destruct (recalc_ok m ps h2 x Hh2 He2 Hi2 Hx2) as [[_ E']|(h3' & E' & Hh3 & He3 & HP3 & Ho3 & _)]; rewrite E3 in E'; [discriminate|]. injection E' as <-.
    destruct (recalc_wt m ps h2 x h3 Hh2 He2 Hi2 Hx2 E3) as [Hw3 Hw3'].
    destruct (points_get ps h3 top0 He3) as [p3 Ep3]; [unfold interior in Htop; lia|]. rewrite (vget_ok _ _ _ Ep3) in E. cbn [bind] in E.
    assert (Eny : vp_next p3 = Some y).
    { rewrite <- (proj1 (Ho2 top0)), <- (proj1 (Ho3 top0)) in Hny. unfold nx, cores in Hny. rewrite nth_error_map, Ep3 in Hny. exact Hny. }
    rewrite Eny in E. rename E into E4.
    assert (HP13 : Permutation (A ++ B) (ph_heap h3)) by (eapply Permutation_trans; [exact HP1|rewrite <- EH2; exact HP3]).
    assert (Hi3 : heap_interior ps h3) by (intros z H; apply Hint'; eapply Permutation_in; [apply Permutation_sym, HP13|exact H]).
    assert (Hy3 : y = 0%nat \/ y = (length ps - 1)%nat \/ In y (ph_heap h3)).
    { destruct Hy as [Hy|Hy]; [auto|]. right; right. eapply Permutation_in; [exact HP13|exact Hy]. }
    destruct (recalc_ok m ps h3 y Hh3 He3 Hi3 Hy3) as [[_ E']|(h4' & E' & Hh4 & He4 & HP4 & Ho4 & _)]; rewrite E4 in E'; [discriminate|]. injection E' as <-.
    destruct (recalc_wt m ps h3 y h4 Hh3 He3 Hi3 Hy3 E4) as [Hw4 Hw4'].
    assert (Hfin : (top0 <> x /\ top0 <> y) /\ (x <> y)).
    { destruct (neighbours (cores h) ps (A ++ top0 :: B) top0 (bi_link _ _ _ Hb) HS Hint) as (j & k & Hj & Hk & Ho & Hlk' & _); [apply in_elt|].
      rewrite Hpx0 in Hj. injection Hj as ->. rewrite Hny0 in Hk. injection Hk as ->. lia. }
    destruct Hfin as [[Hx0 Hy0] Hxy].
    assert (Hsame : forall k, k <> top0 -> k <> x -> k <> y -> wt (cores h4) k = wt (cores h) k).
    { intros k K1 K2 K3. rewrite Hw4, Hw3, Hk2 by assumption. apply wt_map, HW1. }
    assert (HdeadOld : forall z, interior ps z -> ~ In z (A ++ top0 :: B) -> z <> x /\ z <> y).
    { intros z Hz Hnz. rewrite Hmid in Hnz. split; intros ->.
      - destruct Hx as [Hx|Hx]; [subst x; unfold interior in Hz; lia|tauto].
      - destruct Hy as [Hy|Hy]; [subst y; unfold interior in Hz; lia|tauto]. }
    assert (Honly : only_weights (cores h1) (cores h4)).
    { intros k. destruct (Ho2 k), (Ho3 k), (Ho4 k). split; congruence. }
    constructor; auto.
    - eapply Permutation_trans; [exact HP13|exact HP4].
    - eapply sorted_drop, HS.
    - destruct HL1 as [E0|HL1]; [left; rewrite E0 in HP1; apply Permutation_sym, Permutation_nil in HP1; exact HP1|].
      right. eapply linked_only; [exact Honly|exact HL1].
    - intros z Hz. destruct HL1 as [E0|HL1].
      { exfalso. rewrite E0 in HP1. apply Permutation_sym, Permutation_nil in HP1. rewrite HP1 in Hz. destruct Hz. }
      destruct Hlk as [E0|Hlk].
      { exfalso. rewrite E0 in HP1. apply Permutation_sym, Permutation_nil in HP1. rewrite HP1 in Hz. destruct Hz. }
      destruct (neighbours (cores h1) ps (A ++ B) z HL1 (sorted_drop _ _ _ HS) Hint' Hz) as (j & k & Hj & Hk & _).
      assert (HT : forall w, wt (cores h4) z = Some w -> tri j z k = Ok w -> live (cores h4) z).
      { intros w Hw Et. exists j, k, w. rewrite (proj1 (Honly z)), (proj2 (Honly z)). auto. }
      destruct (Nat.eq_dec z y) as [->|Hzy].
      { destruct (Hw4' j k) as (w & Et & Hw); [rewrite (proj2 (Ho3 y)), (proj2 (Ho2 y)); exact Hj|rewrite (proj1 (Ho3 y)), (proj1 (Ho2 y)); exact Hk|].
        apply (HT w Hw Et). }
      destruct (Nat.eq_dec z x) as [->|Hzx].
      { destruct (Hw3' j k) as (w & Et & Hw); [rewrite (proj2 (Ho2 x)); exact Hj|rewrite (proj1 (Ho2 x)); exact Hk|].
        apply (HT w); [rewrite Hw4 by exact Hxy; exact Hw|exact Et]. }
      destruct (Hlive z) as (j0 & k0 & w & Hj0 & Hk0 & Hw & Et); [apply Hmid; auto|].
      rewrite (proj2 (Hlk z) Hzy), Hj0 in Hj. injection Hj as <-. rewrite (proj1 (Hlk z) Hzx), Hk0 in Hk. injection Hk as <-.
      apply (HT w); [|exact Et]. rewrite Hsame; [exact Hw| |assumption|assumption]. intros ->. contradiction.
    - intros z Hz Hnz. destruct (Nat.eq_dec z top0) as [->|Hzt].
      + destruct (Hlive top0 (in_elt _ _ _)) as (j & k & w & Hj & Hk & Hw & Et). rewrite Hwp in Hw. injection Hw as <-.
        destruct (neighbours (cores h) ps (A ++ top0 :: B) top0 (bi_link _ _ _ Hb) HS Hint (in_elt _ _ _)) as (j' & k' & Hj' & Hk' & Ho & Hlen & Hn).
        rewrite Hj in Hj'. injection Hj' as <-. rewrite Hk in Hk'. injection Hk' as <-.
        exists lw', j, k, (vp_weight p). rewrite Hw4, Hw3 by assumption. repeat (split; [first [assumption|lia]|]).
        intros q Hq Hne HI. apply (Hn q Hq Hne). apply Hmid. auto.
      + assert (Hnz' : ~ In z (A ++ top0 :: B)) by (rewrite Hmid; tauto).
        destruct (Hdead z Hz Hnz') as (w & j & k & w0 & Hw & Hlt & Ho & Hlen & Et & Hle & Hn). destruct (HdeadOld z Hz Hnz') as [Hzx Hzy].
        exists w, j, k, w0. rewrite Hsame by assumption. repeat (split; [first [assumption|lia]|]).
        intros q Hq Hne HI. apply (Hn q Hq Hne). apply Hmid. auto. }
  assert (Ec : nth_error (cores h1) top0 = Some (core p)) by (unfold cores; rewrite nth_error_map, Ep; reflexivity).
  unfold raised in ER. destruct (Z.ltb_spec (vp_weight p) lw) as [Hlt|Hge].
  - rewrite (vupd_ok _ top0 p) in ER by exact Ep. injection ER as <-. set (h2 := PH _ _) in E.
    assert (Hc2 : cores h2 = set_nth (cores h1) top0 (CO (co_geo (core p)) lw (co_next (core p)) (co_prev (core p)))).
    { unfold cores, h2. cbn [ph_points]. rewrite map_set_nth. reflexivity. }
    apply (HB h2 lw); [apply hok_set_weight; assumption| |reflexivity| | | |lia|lia|exact E].
    + rewrite Hc2. apply einv_set_weight; assumption.
    + rewrite Hc2. intros k. split; [apply nx_set_weight, Ec|apply pv_set_weight, Ec].
    + intros k Hk. unfold wt. rewrite Hc2, nth_error_set_neq by congruence. reflexivity.
    + unfold wt. rewrite Hc2, nth_error_set_eq; [reflexivity|]. apply nth_error_lt in Ec. exact Ec.
  - injection ER as <-. apply (HB h1 (vp_weight p) Hh1 He1 eq_refl (fun k => conj eq_refl eq_refl) (fun k _ => eq_refl)); [apply wt_point, Ep|lia|lia|exact E].
Qed.

(** The loop by its turns. *)
Inductive pops : pheap -> Z -> list nat -> pheap -> Z -> Prop :=
| pops_nil h lw : pops h lw [] h lw
| pops_cons h lw top h1 p h2 h4 l h' lw' : hpop h = Ok (top, h1) -> vget h1 top = Ok p -> raised top lw p h1 = Ok h2 ->
    go_on top h2 = Ok h4 -> pops h4 (Z.max lw (vp_weight p)) l h' lw' -> pops h lw (top :: l) h' lw'.

(** Where the loop ends: nothing left, or the next point reaches the threshold. *)
Definition ends (h : pheap) (lw : Z) (h' : pheap) : Prop :=
  (ph_heap h = [] /\ h' = h) \/
  exists top p, ph_heap h <> [] /\ hpop h = Ok (top, h') /\ vget h' top = Ok p /\ lw <= vp_weight p /\ thr <= vp_weight p.

Lemma vw_pops fuel : forall h lw mid h', wgood h mid -> 0 <= lw <= u64_max -> (lw < thr \/ lw = 0) -> vw_loop fuel m thr h lw = Ok h' ->
  exists l h0 lw0 mid0, pops h lw l h0 lw0 /\ (lw0 < thr \/ l = []) /\ ends h0 lw0 h' /\ wgood h0 mid0 /\ Permutation mid (l ++ mid0).
Proof.
  induction fuel as [|fuel IH]; intros h lw mid h' G Hlw0 Hlw E; cbn [vw_loop] in E.
  { destruct (ph_heap h) eqn:EH; [|discriminate]. injection E as <-. exists [], h, lw, mid. split; [constructor|]. split; [auto|]. split; [left; auto|]. split; [exact G|apply Permutation_refl]. }
  destruct (ph_heap h) as [|t0 rest] eqn:EH.
  { injection E as <-. exists [], h, lw, mid. split; [constructor|]. split; [auto|]. split; [left; auto|]. split; [exact G|apply Permutation_refl]. }
  apply bind_Ok in E as ([top h1] & EP & E). apply bind_Ok in E as (p & EV & E). destruct (popped_ok _ _ _ _ _ G EP EV) as (_ & Hp0 & _).
  assert (HG : forall h2 lw', raised top lw p h1 = Ok h2 -> lw' = Z.max lw (vp_weight p) -> lw' < thr ->
    (p2 <- vget h2 top ;;
            h3 <- (match vp_prev p2 with Some i => recalc m h2 i | None => Ok h2 end) ;;
            p3 <- vget h3 top ;;
            h4 <- (match vp_next p3 with Some i => recalc m h3 i | None => Ok h3 end) ;;
            vw_loop fuel m thr h4 lw') = Ok h' ->
    exists l h0 lw0 mid0, pops h lw l h0 lw0 /\ (lw0 < thr \/ l = []) /\ ends h0 lw0 h' /\ wgood h0 mid0 /\ Permutation mid (l ++ mid0)).
  { intros h2 lw' ER -> Hlt F. apply bind_Ok in F as (p2 & F2 & F). apply bind_Ok in F as (h3 & F3 & F).
    apply bind_Ok in F as (p3 & F4 & F). apply bind_Ok in F as (h4 & F5 & F).
    assert (EG : go_on top h2 = Ok h4) by (unfold go_on; rewrite F2; cbn [bind]; rewrite F3; cbn [bind]; rewrite F4; exact F5).
    destruct (wgood_pop _ _ _ _ _ _ _ _ G Hlw0 Hlw EP EV ER Hlt EG) as (_ & A & B & -> & G4).
    destruct (IH h4 (Z.max lw (vp_weight p)) (A ++ B) h' G4 ltac:(lia) (or_introl Hlt) F) as (l & h0 & lw0 & mid0 & HP & Hl & HE & G0 & HPm). exists (top :: l), h0, lw0, mid0.
    split; [econstructor; eassumption|]. split; [|split; [exact HE|split; [exact G0|]]].
    - destruct Hl as [Hl| ->]; [auto|]. left. inversion HP; subst. exact Hlt.
    - cbn [app]. apply Permutation_sym, Permutation_cons_app, Permutation_sym, HPm. }
  destruct (Z.ltb_spec (vp_weight p) lw) as [Hlt|Hge].
  - apply bind_Ok in E as (h2 & E2 & E).
    apply (HG h2 lw); [unfold raised; destruct (Z.ltb_spec (vp_weight p) lw); [exact E2|lia]|lia|lia|exact E].
  - destruct (Z.leb_spec thr (vp_weight p)) as [Hth|Hth].
    + injection E as <-. exists [], h, lw, mid. split; [constructor|]. split; [auto|]. split; [|split; [exact G|apply Permutation_refl]].
      right. exists top, p. rewrite EH. repeat split; [discriminate|assumption..].
    + apply (HG h1 (vp_weight p)); [unfold raised; destruct (Z.ltb_spec (vp_weight p) lw); [lia|reflexivity]|lia|exact Hth|exact E].
Qed.

Lemma ends_wt h mid lw h' : wgood h mid -> ends h lw h' -> forall k, wt (cores h') k = wt (cores h) k.
Proof. intros G [[_ ->]|(top & p & _ & EP & EV & _)]; [reflexivity|]. apply (popped_ok _ _ _ _ _ G EP EV). Qed.

Lemma vw_ended fuel : forall h lw mid h', wgood h mid -> 0 <= lw <= u64_max -> (lw < thr \/ lw = 0) -> vw_loop fuel m thr h lw = Ok h' ->
  forall i, interior ps i -> ended (cores h') i.
Proof.
  intros h lw mid h' G Hlw0 Hlw E i Hi. destruct (vw_pops _ _ _ _ _ G Hlw0 Hlw E) as (l & h0 & lw0 & mid0 & _ & _ & HE & G0 & _).
  eapply ended_wt; [eapply ends_wt; eassumption|]. eapply wgood_ended; eassumption.
Qed.
End Loop.

(** ** The start *)
Lemma wgood_start m ps thr h : edge_ok ps -> heap_from m ps = Ok h -> wgood m ps thr h (seq 1 (length ps - 2)).
Proof.
  intros HE Eh. destruct (heap_from_cases m ps HE) as [[_ E']|(h0 & h' & E' & _ & Hsm & EH0 & HR & HB)]; rewrite Eh in E'; [discriminate|]. injection E' as <-.
  destruct HB as [Hh He HP Hi Hl]. constructor; auto.
  - apply sorted_seq.
  - intros i Hin. pose proof (Hi i Hin) as Hii. unfold interior in Hii. destruct Hsm as (Hc & _).
    destruct (points_get ps h i He) as [p Ep]; [lia|].
    assert (HL : length (ph_points h0) = length (ph_points h)) by (apply (f_equal (@length _)) in Hc; unfold cores in Hc; rewrite !map_length in Hc; congruence).
    destruct (nth_error_ge (ph_points h0) i) as [v Ev]; [rewrite HL; eapply nth_error_lt, Ep|].
    assert (Ecv : nth_error (cores h) i = Some (core v)) by (rewrite Hc; unfold cores; rewrite nth_error_map, Ev; reflexivity).
    pose proof (HR i v Ev) as R. unfold live, pv, nx, wt. rewrite Ecv. cbn [core co_prev co_next option_map co_weight].
    exists (i - 1)%nat, (i + 1)%nat, (vp_weight v). rewrite (rp_next _ _ _ _ R), (rp_prev _ _ _ _ R).
    destruct (Nat.eqb_spec i 0), (Nat.eqb_spec i (length ps - 1)); try lia. repeat (split; [reflexivity|]).
    apply (rp_weight _ _ _ _ R). exact Hii.
  - intros i Hi' Hn. exfalso. apply Hn, in_seq. unfold interior in Hi'. lia.
Qed.

(** ** The two heaviest interior points *)
Definition best (pre : list vpoint) (st : vpoint * vpoint * bool) : Prop :=
  let '(a, b, lower) := st in
  exists ia ib, nth_error pre ia = Some a /\ nth_error pre ib = Some b /\ (if (lower : bool) then (ia < ib)%nat else (ib < ia)%nat) /\
    vp_weight b <= vp_weight a /\ forall x q, nth_error pre x = Some q -> x <> ia -> x <> ib -> vp_weight q <= vp_weight b.

Lemma top2_best l : forall pre st, best pre st -> best (pre ++ l) (fold_left top2_step l st).
Proof.
  induction l as [|p l IH]; intros pre st H; cbn [fold_left]; [rewrite app_nil_r; exact H|].
  replace (pre ++ p :: l) with ((pre ++ [p]) ++ l) by (rewrite <- app_assoc; reflexivity). apply IH.
  destruct st as [[a b] lower]. destruct H as (ia & ib & Ha & Hb & Ho & Hab & Hq).
  pose proof (nth_error_lt _ _ _ Ha) as La. pose proof (nth_error_lt _ _ _ Hb) as Lb.
  assert (Hp : nth_error (pre ++ [p]) (length pre) = Some p) by (rewrite nth_error_app2, Nat.sub_diag by lia; reflexivity).
  assert (Ha' : nth_error (pre ++ [p]) ia = Some a) by (rewrite nth_error_app1 by exact La; exact Ha).
  assert (Hb' : nth_error (pre ++ [p]) ib = Some b) by (rewrite nth_error_app1 by exact Lb; exact Hb).
  assert (Hin : forall x q, nth_error (pre ++ [p]) x = Some q -> x <> length pre -> nth_error pre x = Some q).
  { intros x q Hx Hne. destruct (Nat.lt_ge_cases x (length pre)) as [Hlt|Hge]; [rewrite nth_error_app1 in Hx by exact Hlt; exact Hx|].
    apply nth_error_lt in Hx. rewrite app_length in Hx. cbn in Hx. lia. }
  assert (HB : forall x q, nth_error (pre ++ [p]) x = Some q -> x <> length pre -> x <> ia -> vp_weight q <= vp_weight b).
  { intros x q Hx Hne Hxa. apply Hin in Hx; [|exact Hne]. destruct (Nat.eq_dec x ib) as [->|Hxb]; [|eapply Hq; eassumption].
    rewrite Hb in Hx. injection Hx as <-. lia. }
  unfold top2_step. destruct (Z.ltb_spec (vp_weight a) (vp_weight p)) as [H1|H1]; [|destruct (Z.ltb_spec (vp_weight b) (vp_weight p)) as [H2|H2]].
  - exists (length pre), ia. repeat (split; [first [assumption|lia]|]). intros x q Hx K1 K2. specialize (HB x q Hx K1 K2). lia.
  - exists ia, (length pre). repeat (split; [first [assumption|lia]|]). intros x q Hx K1 K2. specialize (HB x q Hx K2 K1). lia.
  - exists ia, ib. repeat (split; [assumption|]). intros x q Hx K1 K2.
    destruct (Nat.eq_dec x (length pre)) as [->|Hne]; [rewrite Hp in Hx; injection Hx as <-; exact H2|]. apply (HB x q Hx Hne K1).
Qed.

Lemma ring_fix_best pts ps ret r : map vp_geo pts = ps -> (4 <= length ps)%nat -> (length ret < 4)%nat -> ring_fix pts ret = Ok r ->
  r = ret \/ best_two ps (map vp_weight pts) r.
Proof.
  intros EP HL Hret E. assert (HL' : length pts = length ps) by (rewrite <- EP, map_length; reflexivity).
  unfold ring_fix in E. apply bind_Ok in E as (r0 & _ & E). apply bind_Ok in E as (rn & _ & E).
  destruct (pt_eqb r0 rn && Nat.ltb (length ret) 4); [|left; congruence]. right.
  destruct (split_ends pts) as (p0 & mid & pn & EE); [lia|].
  assert (Hmid : (length mid + 2 = length pts)%nat) by (rewrite EE; cbn [length]; rewrite app_length; cbn; lia).
  destruct mid as [|p1 [|p2 rest]]; [cbn in *; lia|cbn in *; lia|].
  rewrite (get_ok pts 1 p1) in E by (rewrite EE; reflexivity). rewrite (get_ok pts 2 p2) in E by (rewrite EE; reflexivity). cbn [bind] in E.
  destruct (Nat.leb_spec 4 (length pts)) as [_|]; [|lia]. cbn [bind] in E.
  set (st0 := if _ <? _ then _ else _) in E.
  assert (Hst : best [p1; p2] st0).
  { subst st0. destruct (Z.ltb_spec (vp_weight p1) (vp_weight p2)).
    - exists 1%nat, 0%nat. repeat (split; [first [reflexivity|lia]|]). intros [|[|x]] q Hq; try lia. destruct x; discriminate.
    - exists 0%nat, 1%nat. repeat (split; [first [reflexivity|lia]|]). intros [|[|x]] q Hq; try lia. destruct x; discriminate. }
  assert (Hf : firstn (length pts - 4) (skipn 3 pts) = rest).
  { rewrite EE. cbn [app skipn length]. rewrite app_length. cbn [length]. replace (S (S (S (length rest + 1))) - 4)%nat with (length rest) by lia.
    rewrite firstn_app, Nat.sub_diag. cbn [firstn]. rewrite firstn_all, app_nil_r. reflexivity. }
  rewrite Hf in E. pose proof (top2_best rest _ _ Hst) as HT. destruct (fold_left top2_step rest st0) as [[a b] lower].
  rewrite (get_ok pts 0 p0) in E by (rewrite EE; reflexivity).
  assert (Enp : nth_error pts (length pts - 1) = Some pn).
  { rewrite EE. cbn [length app]. rewrite app_length. cbn [length]. rewrite Nat.sub_succ, Nat.sub_0_r, Nat.add_1_r. cbn [nth_error].
    rewrite nth_error_app2 by lia. rewrite Nat.sub_diag. reflexivity. }
  rewrite (get_ok pts (length pts - 1) pn) in E by exact Enp.
  change ([p1; p2] ++ rest) with (p1 :: p2 :: rest) in HT. set (mid := p1 :: p2 :: rest) in *.
  destruct HT as (ia & ib & Ha & Hb & Ho & Hab & Hq).
  assert (HN : forall i p, nth_error pts i = Some p -> nth i ps (Pt 0 0) = vp_geo p).
  { intros i p Hi. rewrite <- EP. apply nth_error_nth. rewrite nth_error_map, Hi. reflexivity. }
  assert (HM : forall i p, nth_error mid i = Some p -> nth_error pts (S i) = Some p).
  { intros i p Hi. rewrite EE. cbn [nth_error]. rewrite nth_error_app1 by (eapply nth_error_lt, Hi). exact Hi. }
  pose proof (nth_error_lt _ _ _ Ha) as La. pose proof (nth_error_lt _ _ _ Hb) as Lb.
  assert (HO : forall x wx, (0 < x < length ps - 1)%nat -> x <> S ia -> x <> S ib -> nth_error (map vp_weight pts) x = Some wx ->
    wx <= vp_weight b /\ wx <= vp_weight a).
  { intros x wx Hx K1 K2 Hw. destruct x as [|x]; [lia|]. rewrite nth_error_map, EE in Hw. cbn [nth_error] in Hw.
    rewrite nth_error_app1 in Hw by lia. destruct (nth_error mid x) as [q|] eqn:Ex; [|discriminate]. injection Hw as <-.
    assert (vp_weight q <= vp_weight b) by (eapply Hq; [exact Ex|congruence..]). lia. }
  assert (HR : forall i1 i2 q1 q2, nth_error mid i1 = Some q1 -> nth_error mid i2 = Some q2 -> (i1 < i2)%nat ->
     (forall x wx, (0 < x < length ps - 1)%nat -> x <> S i1 -> x <> S i2 -> nth_error (map vp_weight pts) x = Some wx -> wx <= vp_weight q1 /\ wx <= vp_weight q2) ->
     best_two ps (map vp_weight pts) [vp_geo p0; vp_geo q1; vp_geo q2; vp_geo pn]).
  { intros i1 i2 q1 q2 H1 H2 H12 HH. exists (S i1), (S i2), (vp_weight q1), (vp_weight q2). pose proof (nth_error_lt _ _ _ H2).
    split; [lia|]. split; [lia|]. rewrite !nth_error_map, (HM _ _ H1), (HM _ _ H2). split; [reflexivity|]. split; [reflexivity|]. split; [|exact HH].
    rewrite (HN 0%nat p0) by (rewrite EE; reflexivity). rewrite (HN _ _ (HM _ _ H1)), (HN _ _ (HM _ _ H2)). rewrite <- HL', (HN _ _ Enp). reflexivity. }
  destruct lower; cbn [bind] in E; injection E as <-.
  - eapply HR; [exact Ha|exact Hb|exact Ho|]. intros x wx K0 K1 K2 K3. apply and_comm. apply (HO x wx K0); assumption.
  - eapply HR; [exact Hb|exact Ha|exact Ho|]. intros x wx K0 K1 K2 K3. apply (HO x wx K0); assumption.
Qed.

(** ** simplify_edge *)
Lemma kept_map thr pts : map vp_geo (filter (fun p => thr <=? vp_weight p) pts) = kept_by (map vp_geo pts) (map vp_weight pts) thr.
Proof.
  unfold kept_by. induction pts as [|p pts IH]; [reflexivity|]. cbn [map combine filter snd]. destruct (thr <=? vp_weight p); cbn [map fst]; rewrite IH; reflexivity.
Qed.

Lemma simplify_weights m ps thr r : edge_ok ps -> thr <= u64_max -> simplify_edge m ps thr = Ok r ->
  exists ws, length ws = length ps /\ (forall i, interior ps i -> final_weight m ps thr ws i) /\
    nth_error ws 0 = Some u64_max /\ nth_error ws (length ps - 1) = Some u64_max /\
    (~ is_closed ps \/ (4 <= length (kept_by ps ws thr))%nat -> r = kept_by ps ws thr) /\
    (is_closed ps -> (length (kept_by ps ws thr) < 4)%nat -> best_two ps ws r).
Proof.
  intros HE Ht E. unfold simplify_edge in E. apply bind_Ok in E as (h & Eh & E). unfold visvalingam_whyatt in E. apply bind_Ok in E as (h' & El & E).
  pose proof u64_max_nonneg as HU.
  pose proof (wgood_start m ps thr h HE Eh) as G.
  pose proof (vw_ended m ps thr _ h 0 _ h' G ltac:(lia) (or_intror eq_refl) El) as HW.
  destruct (heap_from_cases m ps HE) as [[_ E']|(h0 & h1 & E' & _ & _ & _ & _ & HB)]; rewrite Eh in E'; [discriminate|]. injection E' as <-.
  destruct (vw_loop_ok m ps thr (length (ph_heap h)) h 0) as [[_ E']|(h1 & E' & He & _ & _)]; [lia| |lia|rewrite El in E'; discriminate|].
  { split; [apply HB|]. split; [apply HB|]. split; [|right; eauto]. intros i Hi. apply (bi_int _ _ _ HB). eapply Permutation_in; [apply Permutation_sym, HB|exact Hi]. }
  rewrite El in E'. injection E' as <-.
  assert (EG : map vp_geo (ph_points h') = ps) by (rewrite geo_points; apply (ei_geo _ _ He)).
  assert (Ews : forall i, nth_error (map vp_weight (ph_points h')) i = wt (cores h') i).
  { intros i. unfold wt, cores. rewrite !nth_error_map. destruct (nth_error (ph_points h') i); reflexivity. }
  destruct (result_ok ps h' thr He HE Ht) as (r' & Er & _ & _ & _ & _ & Hr4 & Heq). rewrite E in Er. injection Er as <-.
  rewrite kept_map, EG in Heq, E.
  exists (map vp_weight (ph_points h')). split; [rewrite <- EG, !map_length; reflexivity|]. split.
  { intros i Hi. destruct (HW i Hi) as (w & j & k & w0 & Hw & Ho & Hl & Et & Hle & Hk & Hn). exists w, j, k, w0. rewrite Ews.
    repeat (split; [assumption|]). intros x wx Hx Hne Hwx. rewrite Ews in Hwx. eapply Hn; eassumption. }
  rewrite !Ews. unfold wt. destruct (ei_first _ _ He) as [n0 ->]. destruct (ei_last _ _ He) as [nn ->]. split; [reflexivity|]. split; [reflexivity|].
  split; [exact Heq|]. intros Hc Hlt. destruct HE as [_ H4]. specialize (H4 Hc).
  destruct (ring_fix_best (ph_points h') ps _ r EG H4 Hlt E) as [->|HBT]; [|exact HBT]. specialize (Hr4 Hc). lia.
Qed.

(** ** Edges of at most four points *)
Lemma settled_two m thr p q : settled m thr [p; q].
Proof. intros a b c l l' H. apply (f_equal (@length _)) in H. rewrite app_length in H. cbn in H. lia. Qed.
Lemma settled_cons m thr p q s l w : weight2 m p q s = Ok w -> thr <= w -> settled m thr (q :: s :: l) -> settled m thr (p :: q :: s :: l).
Proof.
  intros Hw Ht HS a b c [|x k] l' H; cbn [app] in H.
  - injection H as -> -> -> ->. exists w. auto.
  - injection H as -> H. eapply HS, H.
Qed.

Ltac cases E :=
  cbv -[weight2 pt_eqb Z.leb Z.ltb u64_max] in E;
  repeat (first
    [ discriminate E
    | match type of E with
      | context [?x <? ?y] => destruct (Z.ltb_spec x y)
      | context [?x <=? ?y] => destruct (Z.leb_spec x y)
      | context [weight2 ?m ?a ?b ?c] => let Ew := fresh "Ew" in destruct (weight2 m a b c) eqn:Ew
      | context [pt_eqb ?a ?d] => destruct (pt_eqb_spec a d)
      end; try contradiction; try lia;
      cbv -[weight2 pt_eqb Z.leb Z.ltb u64_max] in E ]).

Lemma four_settled m a b c d thr r : a <> d -> thr <= u64_max -> simplify_edge m [a; b; c; d] thr = Ok r -> settled m thr r.
Proof.
  intros Hne Ht E. unfold simplify_edge, heap_from in E. cbn [length Nat.leb rassert bind get get_or nth_error Nat.sub] in E.
  destruct (pt_eqb_spec a d) as [|_]; [contradiction|]. cbn [negb orb rassert bind] in E.
  cbn [seq mmap init_interior get get_or nth_error bind Nat.sub Nat.add] in E.
  destruct (weight2 m a b c) as [w1|] eqn:E1; [|discriminate]. cbn [bind] in E.
  destruct (weight2 m b c d) as [w2|] eqn:E2; [|discriminate]. cbn [bind app] in E.
  destruct (weight2_cases m a b c) as [[_ E']|(w & E' & R1)]; rewrite E1 in E'; [discriminate|]. injection E' as <-.
  destruct (weight2_cases m b c d) as [[_ E']|(w & E' & R2)]; rewrite E2 in E'; [discriminate|]. injection E' as <-.
  cases E; injection E as <-.
  all: try apply settled_two.
  all: try (eapply settled_cons; [eassumption|lia|apply settled_two]).
  all: eapply settled_cons; [eassumption|lia|eapply settled_cons; [eassumption|lia|apply settled_two]].
Qed.

Lemma few_settled m ps thr r : (length ps <= 4)%nat -> ~ is_closed ps -> thr <= u64_max -> simplify_edge m ps thr = Ok r -> settled m thr r.
Proof.
  intros HL Hc Ht E. destruct (edge_ok_dec ps) as [HE|HE]; [|rewrite simplify_edge_rejects in E by exact HE; discriminate]. destruct HE as [H2 _].
  destruct ps as [|a [|b [|c [|d [|]]]]]; cbn [length] in *; try lia.
  - cases E; injection E as <-; apply settled_two.
  - destruct (weight2_cases m a b c) as [[_ E']|(w & E' & R1)]; cases E; try discriminate E'; injection E as <-; injection E' as <-; try apply settled_two. all: eapply settled_cons; [eassumption|lia|apply settled_two].
  - eapply four_settled; [|exact Ht|exact E]. intros ->. apply Hc. split; [discriminate|reflexivity].
Qed.
