(** * CrossProofs: proofs about edges that cross *)
From Coq Require Import Lia.
From Verif Require Import GeoProofs TopoProofs BuildProofs ClipEdgeProofs ClipTopoProofs ClipTopoLaws ClipTrace ClipTwice ClipArea ClipSteps ClipStepsTopo Simplify SimplifyProofs SimplifyLaws SimplifyHeap NormLaws NormAdjacent ComposeProofs ComposeLaws NormProofs NormRing NormJoin NormTopo NormReturn.
From Verif Require Export CrossSpec.

(** ** Deciding *)
Lemma segment_pairs_in ps a b : In (a, b) (segment_pairs ps) <-> In [a; b] (segments ps).
Proof.
  induction ps as [|p [|q t] IH]; [reflexivity|reflexivity|]. cbn [segment_pairs segments In]. rewrite IH.
  split; (intros [E|E]; [left; congruence|right; exact E]).
Qed.
Lemma segments_crossb_spec a b c d : segments_crossb (a, b) (c, d) = true <-> segments_cross a b c d.
Proof. unfold segments_crossb, segments_cross. cbn [fst snd]. rewrite andb_true_iff, !Z.ltb_lt. reflexivity. Qed.
Lemma planarb_spec {D} (t : topology D) : planarb t = true <-> planar t.
Proof.
  unfold planarb, planar, no_crossings. split.
  - intros H ps qs Hp Hq (a & b & c & d & Hs & Hz & X). apply in_map_iff in Hp as (e & <- & He). apply in_map_iff in Hq as (f & <- & Hf).
    rewrite forallb_forall in H. specialize (H (a, b)). rewrite forallb_forall in H.
    assert (E : negb (segments_crossb (a, b) (c, d)) = true).
    { apply H; apply in_flat_map; [exists e|exists f]; (split; [assumption|]); apply segment_pairs_in; assumption. }
    apply (proj2 (segments_crossb_spec a b c d)) in X. rewrite X in E. discriminate.
  - intros H. apply forallb_forall. intros [a b] Hs. apply forallb_forall. intros [c d] Hz.
    apply in_flat_map in Hs as (e & He & Hs). apply in_flat_map in Hz as (f & Hf & Hz).
    destruct (segments_crossb (a, b) (c, d)) eqn:E; [|reflexivity]. exfalso. apply segments_crossb_spec in E.
    apply (H (te_points e) (te_points f)); try (apply in_map; assumption). exists a, b, c, d.
    split; [apply segment_pairs_in; assumption|]. split; [apply segment_pairs_in; assumption|exact E].
Qed.

(** ** Reversing *)
Lemma turn_swap a b c : turn b a c = - turn a b c.
Proof. unfold turn. ring. Qed.
Lemma cross_swap_l a b c d : segments_cross a b c d -> segments_cross b a c d.
Proof. unfold segments_cross. rewrite !(turn_swap a b). intros [H1 H2]. split; lia. Qed.
Lemma cross_sym a b c d : segments_cross a b c d -> segments_cross c d a b.
Proof. unfold segments_cross. tauto. Qed.
Lemma cross_swap_r a b c d : segments_cross a b c d -> segments_cross a b d c.
Proof. intros H. apply cross_sym, cross_swap_l, cross_sym, H. Qed.

Lemma segments_snoc ps a b : segments (ps ++ [a; b]) = segments (ps ++ [a]) ++ [[a; b]].
Proof.
  induction ps as [|p [|q t] IH]; [reflexivity|reflexivity|]. cbn [app] in *. cbn [segments]. cbn [segments] in IH. rewrite IH. reflexivity.
Qed.
Lemma segments_rev ps a b : In [a; b] (segments (rev ps)) -> In [b; a] (segments ps).
Proof.
  induction ps as [|p [|q t] IH]; [intros []|intros []|]. cbn [rev] in *. rewrite <- app_assoc. cbn [app]. rewrite segments_snoc.
  intros H. apply in_app_iff in H as [H|[H|[]]]; [right; apply IH; exact H|left; congruence].
Qed.
Lemma segments_stored ps a b : In [a; b] (segments (stored_form ps)) -> In [a; b] (segments ps) \/ In [b; a] (segments ps).
Proof.
  unfold stored_form. destruct ps as [|p l]; [intros []|]. cbv zeta. destruct (_ || _); [auto|]. destruct (_ && _); [auto|].
  intros H. right. apply segments_rev. exact H.
Qed.

(** ** Building *)
Lemma paths_from ss ps : (forall a b, In [a; b] (segments ps) -> exists qs, In qs ss /\ (In [a; b] (segments qs) \/ In [b; a] (segments qs))) ->
  forall es, (forall e, In e es -> forall a b, In [a; b] (segments e) -> exists qs, In qs ss /\ (In [a; b] (segments qs) \/ In [b; a] (segments qs))) ->
  no_crossings ss -> no_crossings es.
Proof.
  intros _ es F N x y Hx Hy (a & b & c & d & Hs & Hz & X).
  destruct (F x Hx a b Hs) as (p & Hp & P). destruct (F y Hy c d Hz) as (q & Hq & Q). apply (N p q Hp Hq).
  destruct P as [P|P], Q as [Q|Q];
    [exists a, b, c, d|exists a, b, d, c|exists b, a, c, d|exists b, a, d, c]; (split; [exact P|]); (split; [exact Q|]);
    [exact X|apply cross_swap_r, X|apply cross_swap_l, X|apply cross_swap_r, cross_swap_l, X].
Qed.

Lemma from_paths (ss es : list (list point)) :
  (forall e, In e es -> forall a b, In [a; b] (segments e) -> exists qs, In qs ss /\ (In [a; b] (segments qs) \/ In [b; a] (segments qs))) ->
  no_crossings ss -> no_crossings es.
Proof. apply (paths_from ss []). intros a b []. Qed.

Lemma build_planar {D} m (rs : list (region D)) t : build_topology m rs = Ok t -> no_crossings (input_paths rs) -> planar t.
Proof.
  intros B. apply from_paths. intros ps He a b Hs. apply in_map_iff in He as (e & <- & He).
  destruct (built_edge m rs t e B He) as (x & r & p & Hx & Hr & Hp & _ & E). exists p. split.
  - apply in_flat_map. exists x. split; [assumption|]. apply in_flat_map. eauto.
  - destruct E as [E|E]; rewrite E in Hs; [auto|right; apply segments_rev; exact Hs].
Qed.

(** ** Normalizing *)
Lemma normalize_segments {D} m (t t' : topology D) e a b : valid t -> normalize m t = Ok t' -> In e (tp_edges t') -> In [a; b] (segments (te_points e)) ->
  exists e0, In e0 (tp_edges t) /\ (In [a; b] (segments (te_points e0)) \/ In [b; a] (segments (te_points e0))).
Proof.
  intros V H He Hs. apply normalize_Ok in H as (gs & E & B).
  destruct (built_edge m gs t' e B He) as (g & r & ps & Hg & Hr & Hp & HL & Ee).
  assert (Hps : exists s, (s = [a; b] \/ s = [b; a]) /\ In s (segments ps)).
  { destruct Ee as [Ee|Ee]; rewrite Ee in Hs; [eauto|]. exists [b; a]. split; [auto|apply segments_rev; exact Hs]. }
  destruct Hps as (s & Es & Hss).
  assert (F : Forall2 (fun rg g => normalize_region m t rg = Ok g /\ In rg (tp_regions t)) (tp_regions t) gs).
  { eapply Forall2_mmap; [eassumption|]. auto. }
  destruct (Forall2_in_r _ _ _ g F Hg) as (rg & Hin & En & _).
  destruct (normalize_region_fact m t rg g V Hin En) as (outs & ins & -> & S1 & S2). cbn [rg_outer rg_inner] in Hr.
  assert (SS : forall x y l, stored_form [x; y] = stored_form l -> In l (segments l) -> l = [x; y] \/ l = [y; x]).
  { intros x y l EE Hl. destruct l as [|u [|v [|w l]]]; cbn [segments] in Hl; [destruct Hl|destruct Hl| |].
    - unfold stored_form in EE. cbn [last] in EE. repeat match type of EE with context [if ?c then _ else _] => destruct c end; cbn [rev app] in EE;
        injection EE; intros; subst; auto.
    - exfalso. assert (L : forall l : list (list point), True) by auto. clear -Hl. change (In (u :: v :: w :: l) (segments (u :: v :: w :: l))) in Hl.
      assert (G : forall q s, In s (segments q) -> length s = 2%nat).
      { induction q as [|x [|y q] IH]; [intros ? []|intros ? []|]. cbn [segments]. intros s [<-|Hs]; [reflexivity|apply IH; exact Hs]. }
      apply G in Hl. discriminate. }
  assert (X : forall o rs outs out, incl rs (tg_outer rg ++ tg_inner rg) -> side_fact t o rs outs -> In out outs -> In ps (map ne_points out) ->
    exists e0, In e0 (tp_edges t) /\ (In [a; b] (segments (te_points e0)) \/ In [b; a] (segments (te_points e0)))).
  { intros o rs os out Hi SF Ho Hx. apply in_map_iff in Hx as (x & Ex & Hx).
    destruct (lin_side (stored_form s) (label x) t o rs os out) as (r1 & f & Hr1 & Hf & _ & Hk & _).
    - intros r1 Hr1. apply (seen_ring_good t rg); auto.
    - assumption.
    - assumption.
    - exists x. split; [assumption|]. split; [reflexivity|]. rewrite Ex. unfold sides. cbn [flat_map]. rewrite app_nil_r. apply in_map, Hss.
    - unfold sides in Hk. cbn [flat_map] in Hk. rewrite app_nil_r in Hk. apply in_map_iff in Hk as (s' & Es' & Hs').
      assert (L2 : forall q s, In s (segments q) -> exists u v, s = [u; v]).
      { induction q as [|u [|v q] IH]; [intros ? []|intros ? []|]. cbn [segments]. intros z [<-|Hz]; [eauto|apply IH; exact Hz]. }
      destruct (L2 _ _ Hs') as (u & v & ->).
      assert (Y : [u; v] = [a; b] \/ [u; v] = [b; a]).
      { assert (Y : forall x y, stored_form [u; v] = stored_form [x; y] -> [u; v] = [x; y] \/ [u; v] = [y; x]).
        { intros y z EE. apply SS; [symmetry; exact EE|left; reflexivity]. }
        destruct Es as [-> | ->]; apply Y in Es'; tauto. }
      apply seen_edge in Hf as (d & te & _ & Ed & ->). cbn [ne_points] in Hs'.
      exists te. split; [eapply nth_error_In; eassumption|].
      assert (Z : In [u; v] (segments (te_points te)) \/ In [v; u] (segments (te_points te))).
      { unfold oriented in Hs'. destruct (de_dir d); [auto|right; apply segments_rev; exact Hs']. }
      destruct Y as [Y|Y]; injection Y as -> ->; tauto. }
  apply in_app_iff in Hr as [Hr|Hr]; apply in_map_iff in Hr as (out & <- & Ho); cbn [paths into_ring] in Hp.
  - apply (X Clockwise (tg_outer rg) outs out); try assumption. intros z Hz. apply in_app_iff. auto.
  - apply (X CounterClockwise (tg_inner rg) ins out); try assumption. intros z Hz. apply in_app_iff. auto.
Qed.

Lemma normalize_planar {D} m (t t' : topology D) : valid t -> normalize m t = Ok t' -> planar t -> planar t'.
Proof.
  intros V H. apply from_paths. intros ps He a b Hs. apply in_map_iff in He as (e & <- & He).
  destruct (normalize_segments m t t' e a b V H He Hs) as (e0 & H0 & E). exists (te_points e0). split; [apply in_map; assumption|exact E].
Qed.

(** ** Simplifying *)
Lemma four_points u v w a b c d : let f p := u * px p + v * py p - w in
  turn c d b * f a - turn c d a * f b + turn a b d * f c - turn a b c * f d = 0.
Proof. unfold turn. cbv zeta. ring. Qed.
Lemma turn_flip a b c d : turn c d b - turn c d a = - (turn a b d - turn a b c).
Proof. unfold turn. ring. Qed.

Lemma neg_product x y : x * y < 0 -> (x < 0 /\ 0 < y) \/ (y < 0 /\ 0 < x).
Proof. intros H. destruct (Z.lt_trichotomy x 0) as [A|[A|A]]; [left|subst; lia|right]; nia. Qed.

Lemma separated_apart ps qs a b c d : separated ps qs -> In a ps -> In b ps -> In c qs -> In d qs -> ~ segments_cross a b c d.
Proof.
  intros (u & v & w & N & P & Q) Ha Hb Hc Hd [X1 X2].
  apply P in Ha, Hb. apply Q in Hc, Hd.
  pose proof (four_points u v w a b c d) as I. cbv zeta in I. pose proof (turn_flip a b c d) as T.
  set (fa := u * px a + v * py a - w) in *. set (fb := u * px b + v * py b - w) in *.
  set (fc := u * px c + v * py c - w) in *. set (fd := u * px d + v * py d - w) in *.
  assert (A : fa <= 0) by (unfold fa; lia). assert (B : fb <= 0) by (unfold fb; lia).
  assert (C : 0 <= fc) by (unfold fc; lia). assert (E : 0 <= fd) by (unfold fd; lia).
  assert (Z : fa = 0 /\ fb = 0 /\ fc = 0).
  { set (al := turn c d a) in *. set (be := turn c d b) in *. set (ga := turn a b c) in *. set (de := turn a b d) in *.
    clearbody fa fb fc fd al be ga de. assert (S : (al < 0 /\ 0 < be) \/ (be < 0 /\ 0 < al)) by (apply neg_product in X2; tauto).
    apply neg_product in X1.
    destruct S as [[S1 S2]|[S1 S2]].
    - assert (0 < ga /\ de < 0) as [G1 G2] by lia.
      assert (be * fa <= 0) by nia. assert (- al * fb <= 0) by nia. assert (de * fc <= 0) by nia. assert (- ga * fd <= 0) by nia.
      assert (be * fa = 0) by lia. assert (- al * fb = 0) by lia. assert (de * fc = 0) by lia. nia.
    - assert (ga < 0 /\ 0 < de) as [G1 G2] by lia.
      assert (0 <= be * fa) by nia. assert (0 <= - al * fb) by nia. assert (0 <= de * fc) by nia. assert (0 <= - ga * fd) by nia.
      assert (be * fa = 0) by lia. assert (- al * fb = 0) by lia. assert (de * fc = 0) by lia. nia. }
  destruct Z as (Za & Zb & Zc). unfold fa, fb, fc in Za, Zb, Zc.
  assert (W : turn a b c = 0).
  { assert (U1 : u * turn a b c = 0).
    { unfold turn. replace (u * ((px b - px a) * (py c - py a) - (px c - px a) * (py b - py a)))
        with ((u * px b - u * px a) * (py c - py a) - (u * px c - u * px a) * (py b - py a)) by ring.
      replace (u * px b - u * px a) with (- v * (py b - py a)) by lia. replace (u * px c - u * px a) with (- v * (py c - py a)) by lia. ring. }
    assert (U2 : v * turn a b c = 0).
    { unfold turn. replace (v * ((px b - px a) * (py c - py a) - (px c - px a) * (py b - py a)))
        with ((px b - px a) * (v * py c - v * py a) - (px c - px a) * (v * py b - v * py a)) by ring.
      replace (v * py c - v * py a) with (- u * (px c - px a)) by lia. replace (v * py b - v * py a) with (- u * (px b - px a)) by lia. ring. }
    destruct N as [N|N]; nia. }
  rewrite W in X1. lia.
Qed.

Lemma subseq_part (r ps : list point) a b : subseq r ps -> In [a; b] (segments r) ->
  exists part, part_of part ps /\ first part = Some a /\ final part = Some b.
Proof.
  intros S. induction S as [|x l l' S IH|x l l' S IH]; [intros []| |].
  - intros H. destruct (IH H) as (part & (y & z & ->) & F). exists part. split; [exists (x :: y), z; reflexivity|exact F].
  - destruct l as [|y l]; [intros []|]. cbn [segments]. intros [E|H].
    + injection E as -> ->. clear IH. assert (M : exists m z, l' = m ++ b :: z).
      { clear -S. remember (b :: l) as r. revert b l Heqr. induction S as [|x s s' S IH|x s s' S IH]; intros b l E; [discriminate| |].
        - destruct (IH b l E) as (m & z & ->). exists (x :: m), z. reflexivity.
        - injection E as -> ->. exists [], s'. reflexivity. }
      destruct M as (m & z & ->). exists (a :: m ++ [b]). split; [exists [], z; cbn; rewrite <- app_assoc; reflexivity|]. split; [reflexivity|].
      clear. unfold final. change (a :: m ++ [b]) with ((a :: m) ++ [b]). rewrite rev_app_distr. reflexivity.
    + destruct (IH H) as (part & (u & z & ->) & F). exists part. split; [exists (x :: u), z; reflexivity|exact F].
Qed.

Lemma part_ends part a b : first part = Some a -> final part = Some b -> In a part /\ In b part.
Proof. intros A B. split; [apply first_in; exact A|apply final_in; exact B]. Qed.

Lemma simplify_cross {D} m (t t' : topology D) thr : thr <= 2 ^ 64 - 1 -> simplify m t thr = Ok t' ->
  Forall2 (fun e e' => forall a b, In [a; b] (segments (te_points e')) ->
     exists part, part_of part (te_points e) /\ first part = Some a /\ final part = Some b) (tp_edges t) (tp_edges t').
Proof.
  intros Ht H. destruct (simplify_parts m t t' thr H) as (_ & HF). induction HF as [|e e' es es' (E & _) HF IH]; constructor; [|exact IH]. intros a b. destruct (edge_ok_dec (te_points e)) as [HE|HE]; [|rewrite simplify_edge_rejects in E by exact HE; discriminate].
  destruct (simplify_edge_ok m _ thr HE Ht) as [[_ E']|(r' & E' & HS & _)]; rewrite E in E'; [discriminate|]. injection E' as <-.
  apply subseq_part. exact HS.
Qed.

(** ** Clipping *)
Definition within (a b p : point) : Prop :=
  exists u v, 0 <= u /\ 0 <= v /\ 0 < u + v /\ (u + v) * px p = u * px a + v * px b /\ (u + v) * py p = u * py a + v * py b.
Lemma within_l a b : within a b a.
Proof. exists 1, 0. lia. Qed.
Lemma within_r a b : within a b b.
Proof. exists 0, 1. lia. Qed.

Lemma within_turn a b p c d : within a b p -> exists u v, 0 <= u /\ 0 <= v /\ 0 < u + v /\ (u + v) * turn c d p = u * turn c d a + v * turn c d b.
Proof.
  intros (u & v & Hu & Hv & Hn & X & Y). exists u, v. repeat split; try assumption. unfold turn.
  replace ((u + v) * ((px d - px c) * (py p - py c) - (px p - px c) * (py d - py c)))
    with ((px d - px c) * ((u + v) * py p - (u + v) * py c) - ((u + v) * px p - (u + v) * px c) * (py d - py c)) by ring.
  rewrite X, Y. ring.
Qed.

Lemma within_line c d c' d' : within c d c' -> within c d d' -> exists n k, 0 < n /\ forall x, n * turn c' d' x = k * turn c d x.
Proof.
  intros (u1 & v1 & H1 & H2 & H3 & X1 & Y1) (u2 & v2 & H4 & H5 & H6 & X2 & Y2).
  exists ((u1 + v1) * ((u1 + v1) * (u2 + v2))), ((u1 + v1) * (v2 * (u1 + v1) - v1 * (u2 + v2))). split; [repeat apply Z.mul_pos_pos; lia|]. intros x. unfold turn.
  assert (DX : (u1 + v1) * (u2 + v2) * (px d' - px c') = (v2 * (u1 + v1) - v1 * (u2 + v2)) * (px d - px c)).
  { replace ((u1 + v1) * (u2 + v2) * (px d' - px c')) with ((u1 + v1) * ((u2 + v2) * px d') - (u2 + v2) * ((u1 + v1) * px c')) by ring. rewrite X1, X2. ring. }
  assert (DY : (u1 + v1) * (u2 + v2) * (py d' - py c') = (v2 * (u1 + v1) - v1 * (u2 + v2)) * (py d - py c)).
  { replace ((u1 + v1) * (u2 + v2) * (py d' - py c')) with ((u1 + v1) * ((u2 + v2) * py d') - (u2 + v2) * ((u1 + v1) * py c')) by ring. rewrite Y1, Y2. ring. }
  set (K := v2 * (u1 + v1) - v1 * (u2 + v2)) in *.
  replace ((u1 + v1) * ((u1 + v1) * (u2 + v2)) * ((px d' - px c') * (py x - py c') - (px x - px c') * (py d' - py c')))
    with (((u1 + v1) * (u2 + v2) * (px d' - px c')) * ((u1 + v1) * py x - (u1 + v1) * py c')
          - ((u1 + v1) * px x - (u1 + v1) * px c') * ((u1 + v1) * (u2 + v2) * (py d' - py c'))) by ring.
  rewrite DX, DY, X1, Y1. ring.
Qed.

Lemma cross_half a b c d a' b' c' d' : within a b a' -> within a b b' -> within c d c' -> within c d d' ->
  turn c' d' a' * turn c' d' b' < 0 -> turn c d a * turn c d b < 0.
Proof.
  intros A B C E H. destruct (within_line c d c' d' C E) as (n & k & Hn & L). pose proof (L a') as La. pose proof (L b') as Lb.
  destruct (within_turn a b a' c d A) as (u1 & v1 & H1 & H2 & H3 & X). destruct (within_turn a b b' c d B) as (u2 & v2 & H4 & H5 & H6 & Y).
  set (ta := turn c' d' a') in *. set (tb := turn c' d' b') in *. set (sa := turn c d a') in *. set (sb := turn c d b') in *.
  set (x := turn c d a) in *. set (y := turn c d b) in *. clearbody ta tb sa sb x y. clear L A B C E.
  assert (S : sa * sb < 0).
  { assert (n * n * (ta * tb) = k * k * (sa * sb)) by (replace (n * n * (ta * tb)) with ((n * ta) * (n * tb)) by ring; rewrite La, Lb; ring). nia. }
  destruct (Z.lt_ge_cases (x * y) 0) as [|G]; [assumption|exfalso].
  assert ((0 <= x /\ 0 <= y) \/ (x <= 0 /\ y <= 0)) as [[Gx Gy]|[Gx Gy]] by nia.
  - assert (0 <= sa) by nia. assert (0 <= sb) by nia. nia.
  - assert (sa <= 0) by nia. assert (sb <= 0) by nia. nia.
Qed.
Lemma cross_within a b c d a' b' c' d' : within a b a' -> within a b b' -> within c d c' -> within c d d' ->
  segments_cross a' b' c' d' -> segments_cross a b c d.
Proof. intros A B C E [X Y]. split; [apply (cross_half c d a b c' d' a' b')|apply (cross_half a b c d a' b' c' d')]; assumption. Qed.

Lemma line_apart k a b c d : on_line k a -> on_line k b -> ~ outside k c -> ~ outside k d -> ~ segments_cross a b c d.
Proof.
  intros A B C E [X _]. unfold turn in X. destruct k; unfold on_line in A, B; cbn [axis level outside] in *; rewrite ?A, ?B in X.
  all: match type of X with ?l < 0 => assert (0 <= l); [|lia] end.
  - match goal with |- 0 <= ?l => replace l with ((px c - x) * (px d - x) * ((py b - py a) * (py b - py a))) by ring end. apply Z.mul_nonneg_nonneg; [apply Z.mul_nonneg_nonneg; lia|apply Z.square_nonneg].
  - match goal with |- 0 <= ?l => replace l with ((x - px c) * (x - px d) * ((py b - py a) * (py b - py a))) by ring end. apply Z.mul_nonneg_nonneg; [apply Z.mul_nonneg_nonneg; lia|apply Z.square_nonneg].
  - match goal with |- 0 <= ?l => replace l with ((py c - y) * (py d - y) * ((px b - px a) * (px b - px a))) by ring end. apply Z.mul_nonneg_nonneg; [apply Z.mul_nonneg_nonneg; lia|apply Z.square_nonneg].
  - match goal with |- 0 <= ?l => replace l with ((y - py c) * (y - py d) * ((px b - px a) * (px b - px a))) by ring end. apply Z.mul_nonneg_nonneg; [apply Z.mul_nonneg_nonneg; lia|apply Z.square_nonneg].
Qed.

Lemma crossing_within k p q r : opposite k p q -> rounded_crossing k p q r -> between_points k p q = false -> within p q r.
Proof.
  intros O R E. pose proof (exact_crossing k p q r O R E) as X. destruct R as (L & _). pose proof (opposite_axis k p q O) as B.
  unfold on_line in L. exists (Z.abs (axis k q - level k)), (Z.abs (level k - axis k p)).
  split; [lia|]. split; [lia|]. split; [lia|].
  destruct B as [B|B].
  - rewrite (Z.abs_eq (axis k q - level k)), (Z.abs_eq (level k - axis k p)) by lia.
    destruct k; cbn [axis along level] in *; split; try (rewrite L; ring); nia.
  - rewrite (Z.abs_neq (axis k q - level k)), (Z.abs_neq (level k - axis k p)) by lia.
    destruct k; cbn [axis along level] in *; split; try (rewrite L; ring); nia.
Qed.

Lemma on_line_not_outside k p : on_line k p -> ~ outside k p.
Proof. unfold on_line. destruct k; cbn; lia. Qed.
Lemma in_not_outside k p : inside k p -> ~ outside k p.
Proof. destruct k; cbn; lia. Qed.

Definition clipped_segment {D} (k : clip_mask) (t : topology D) (a b : point) : Prop :=
  (on_line k a /\ on_line k b) \/
  exists e p q, In e (tp_edges t) /\ In [p; q] (segments (te_points e)) /\ within p q a /\ within p q b /\ ~ outside k a /\ ~ outside k b.

Lemma clip_part m k p q a b : wf_mask k -> wf_point p -> wf_point q -> small_step p q -> between_points k p q = false ->
  In (a, b) (map fst (kept_part k (isect m k p q) p q)) -> within p q a /\ within p q b /\ ~ outside k a /\ ~ outside k b.
Proof.
  intros Wk Wp Wq S E J. apply in_map_iff in J as ([[a' b'] v] & [= -> ->] & J). unfold kept_part in J.
  destruct (insideb_spec k p) as [Ip|Ip].
  - destruct J as [[= <- <- _]|[]]. destruct (outsideb_spec k q) as [Oq|Oq].
    + assert (O : opposite k p q) by (left; auto). destruct (computed m k p q Wk Wp Wq O S) as (_ & _ & R).
      split; [apply within_l|]. split; [apply (crossing_within k); assumption|]. split; [apply in_not_outside, Ip|apply on_line_not_outside, R].
    + split; [apply within_l|]. split; [apply within_r|]. split; [apply in_not_outside, Ip|exact Oq].
  - destruct (insideb_spec k q) as [Iq|Iq]; [|destruct J]. destruct (outsideb_spec k p) as [Op|Op]; destruct J as [[= <- <- _]|[]].
    + assert (O : opposite k p q) by (right; auto). destruct (computed m k p q Wk Wp Wq O S) as (_ & _ & R).
      split; [apply (crossing_within k); assumption|]. split; [apply within_r|]. split; [apply on_line_not_outside, R|apply in_not_outside, Iq].
    + split; [apply within_l|]. split; [apply within_r|]. split; [exact Op|apply in_not_outside, Iq].
Qed.

Lemma in_add_keys x : forall ps K, In x (add_keys K ps) -> In x K \/ In x (flat_map gap_key ps).
Proof.
  intros ps. unfold add_keys. generalize (flat_map gap_key ps) as l. induction l as [|y l IH]; intros K H; [auto|].
  cbn [fold_left] in H. apply IH in H as [H|H]; [|cbn; auto]. unfold add_key in H. destruct (in_dec seg_eq_dec y K); [auto|].
  apply in_app_iff in H as [H|[<-|[]]]; cbn; auto.
Qed.

Lemma clip_segments {D} m k (t t' : topology D) e a b : wf_mask k -> wf_topology t -> small_steps t -> closed_rings t -> exact_crossings k t ->
  clip_topology m t k = Ok t' -> In e (tp_edges t') -> In [a; b] (segments (te_points e)) -> clipped_segment k t a b.
Proof.
  intros Wk Wt S CR X H He Hs. apply clip_topology_traced in H as (C & cb & HC & _ & _ & _ & HE & _ & HK & _).
  apply (in_map te_points) in He. rewrite HE in He. unfold pts_of in He. apply in_app_iff in He as [He|He].
  - unfold old_of in He. apply filter_In in He as (He & _). destruct (Forall2_in_r _ _ _ _ HC He) as (e0 & H0 & Ec).
    assert (W0 : wf_points (te_points e0)) by (unfold wf_topology in Wt; rewrite Forall_forall in Wt; apply Wt; assumption).
    assert (S0 : small_path (te_points e0)) by (intros p q I; exact (S e0 p q H0 I)).
    pose proof (first_step m k _ Wk W0 S0) as E1. rewrite Ec in E1. injection E1 as E1. rewrite E1 in Hs.
    apply segments_combine in Hs. apply (segs_of_clip k _ _ a b (first_good m k _ Wk W0 S0)) in Hs as [Hs|Hs]; [right|left; exact Hs].
    apply in_map_iff in Hs as ([[a' b'] v] & [= -> ->] & I). unfold kept_parts in I. apply in_flat_map in I as ([p q] & I & J). cbn [fst snd] in J.
    exists e0, p, q. split; [assumption|]. pose proof (proj2 (segments_combine _ p q) I) as I'. split; [exact I'|].
    destruct (seg_wf (te_points e0) W0 S0 p q I) as (Wp & Wq & Ss). apply (clip_part m k p q a b Wk Wp Wq Ss (X _ _ _ H0 I')).
    apply (in_map fst) in J. exact J.
  - left. apply in_map_iff in He as (kv & E & Hk'). assert (In (fst kv) (keys (cb_new cb))) as Hi by (unfold keys; apply in_map; assumption).
    rewrite HK in Hi. apply in_add_keys in Hi as [[]|Hi]. apply in_flat_map in Hi as (p & Hp & Hg).
    unfold seen_pieces, ring_pieces in Hp. apply in_concat in Hp as (l & Hl & Hp). apply in_map_iff in Hl as (r & <- & Hr).
    apply in_flat_map in Hr as (rg & Hrg & Hr).
    assert (Hr' : In r (tg_outer rg ++ tg_inner rg)).
    { unfold seen_rings in Hr. apply in_app_iff in Hr as [Hr|Hr]; apply in_app_iff; [auto|]. destruct (region_kept C rg); [auto|destruct Hr]. }
    pose proof (ring_lines m k t C r Wk Wt S HC (CR rg r Hrg Hr')) as HG.
    unfold gap_key in Hg. destruct (pc_key p) as [i|u v] eqn:Ek; [destruct Hg|]. destruct Hg as [Hg|[]].
    destruct (HG p u v Hp Ek) as [L1 L2]. rewrite <- E in Hs. unfold seg_points in Hs. destruct kv as [[u' v'] id]. cbn [fst] in Hg. injection Hg as <- <-.
    cbn in Hs. destruct Hs as [Hs|[]]. injection Hs as <- <-. auto.
Qed.

Lemma clip_planar {D} m k (t t' : topology D) : wf_mask k -> wf_topology t -> small_steps t -> closed_rings t -> exact_crossings k t ->
  clip_topology m t k = Ok t' -> planar t -> planar t'.
Proof.
  intros Wk Wt S CR X H N ps qs Hp Hq (a & b & c & d & Hs & Hz & Cr). apply in_map_iff in Hp as (e & <- & He). apply in_map_iff in Hq as (f & <- & Hf).
  assert (NO : forall x y, clipped_segment k t x y -> ~ outside k x /\ ~ outside k y).
  { intros x y [[L1 L2]|(_ & _ & _ & _ & _ & _ & _ & O)]; [split; apply on_line_not_outside; assumption|exact O]. }
  pose proof (clip_segments m k t t' e a b Wk Wt S CR X H He Hs) as A. pose proof (clip_segments m k t t' f c d Wk Wt S CR X H Hf Hz) as B.
  pose proof (NO _ _ A) as [A1 A2]. pose proof (NO _ _ B) as [B1 B2].
  destruct A as [[L1 L2]|(e0 & p & q & He0 & Hs0 & W1 & W2 & _ & _)]; [exact (line_apart k a b c d L1 L2 B1 B2 Cr)|].
  destruct B as [[L1 L2]|(f0 & p' & q' & Hf0 & Hz0 & W3 & W4 & _ & _)]; [exact (line_apart k c d a b L1 L2 A1 A2 (cross_sym _ _ _ _ Cr))|].
  apply (N (te_points e0) (te_points f0)); try (apply in_map; assumption). exists p, q, p', q'. split; [assumption|]. split; [assumption|].
  exact (cross_within p q p' q' a b c d W1 W2 W3 W4 Cr).
Qed.
