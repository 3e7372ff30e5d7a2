(** * ComposeLaws: the edges of a normalized topology *)
From Coq Require Import Permutation.
From Verif Require Import ClipTopoSpec Simplify SimplifyProofs SimplifyHeap SimplifyLaws GeoProofs TopoProofs BuildProofs ClipEdgeProofs ClipTopoProofs ClipTopoLaws NormProofs NormRing NormJoin NormTopo NormReturn NormLaws NormAdjacent ComposeProofs.
From Verif Require Export ComposeSpec.

(** ** Labelled segments *)

(** An edge with label [l] and side [k]. *)
Definition lin (k : list point) (l : option nat * option nat) (es : list norm_edge) : Prop :=
  exists e, In e es /\ label e = l /\ In k (sides [ne_points e]).

Lemma lin_incl k l a b : incl a b -> lin k l a -> lin k l b.
Proof. intros H (e & He & X). exists e. auto. Qed.

Lemma sides_in k ps : In k (sides ps) -> exists p, In p ps /\ In k (sides [p]).
Proof.
  induction ps as [|p ps IH]; [intros []|]. rewrite sides_cons. intros H. apply in_app_iff in H as [H|H].
  - exists p. split; [left; reflexivity|assumption].
  - destruct (IH H) as (x & Hx & Hk). exists x. split; [right; assumption|assumption].
Qed.

Lemma lin_runs k l runs out p q : Forall2 joins runs out -> chain p (map ne_points (concat runs)) q ->
  lin k l out -> lin k l (concat runs).
Proof.
  intros HF. revert p. induction HF as [|run e runs out Hj HF IH]; intros p HC (x & Hx & Hl & Hk); [destruct Hx|].
  cbn [concat] in *. rewrite map_app, chain_app in HC. destruct HC as (r & H1 & H2). destruct Hx as [<-|Hx].
  - destruct Hj as (_ & HL & Hw). rewrite Hw in Hk. unfold walk in Hk. rewrite (sides_glue _ _ _ H1) in Hk.
    apply sides_in in Hk as (ps & Hp & Hk). apply in_map_iff in Hp as (y & <- & Hy).
    rewrite Forall_forall in HL. exists y. split; [apply in_app_iff; auto|]. split; [rewrite (HL y Hy); assumption|assumption].
  - destruct (IH r H2) as (y & Hy & E); [exists x; auto|]. exists y. split; [apply in_app_iff; auto|assumption].
Qed.

Lemma lin_joined k l es out : good es -> joined es out -> lin k l out -> lin k l es.
Proof.
  intros G (runs & R & HF) H. pose proof (good_rotation _ _ R G) as (_ & _ & p & HC).
  apply (lin_runs k l runs out p p HF HC) in H. revert H. apply lin_incl. intros x Hx.
  eapply Permutation_in; [|exact Hx]. symmetry. apply rotation_perm, R.
Qed.

Lemma lin_tidied k l base out : good base -> tidied base out -> lin k l out -> lin k l base.
Proof.
  intros G [H|(e & e' & H & -> & HL & T)] X; [eapply lin_joined; eassumption|].
  apply (lin_joined k l base [e] G H). destruct X as (x & [<-|[]] & Hl & Hk). exists e.
  split; [left; reflexivity|]. split; [congruence|]. eapply Permutation_in; [|exact Hk]. symmetry. apply sides_turned, T.
Qed.

Lemma lin_flipped k l es : lin k l (flipped es) -> lin k l es.
Proof.
  intros (e & He & Hl & Hk). unfold flipped in He. apply in_map_iff in He as (x & <- & Hx).
  exists x. split; [apply in_rev; assumption|]. split; [exact Hl|]. cbn [ne_points] in Hk. eapply Permutation_in; [apply sides_rev|exact Hk].
Qed.

Lemma lin_normal {D} k l (t : topology D) r out : good (seen_ring t r) -> normal_ring t r out -> lin k l out -> lin k l (seen_ring t r).
Proof.
  intros G (base & HB & (T & _)) H. destruct HB as [->| ->]; [eapply lin_tidied; eassumption|].
  apply lin_flipped. eapply lin_tidied; [apply flipped_good, G|exact T|exact H].
Qed.

Lemma same_label_redundant a b : label a = label b -> redundantb a = redundantb b.
Proof. unfold label, redundantb. intros [= -> ->]. reflexivity. Qed.

(** A labelled side of a normalized ring is one of an original ring and separates two regions. *)
Lemma lin_side {D} k l (t : topology D) o rs outs out :
  (forall r, In r rs -> good (seen_ring t r)) -> side_fact t o rs outs -> In out outs -> lin k l out ->
  exists r f, In r rs /\ In f (seen_ring t r) /\ label f = l /\ In k (sides [ne_points f]) /\ redundantb f = false.
Proof.
  intros G (nrs & cycles & ms & F1 & C & F2 & P & _ & _ & _ & _) Ho HL.
  assert (X : forall nr, In nr nrs -> lin k l nr -> exists r f, In r rs /\ In f (seen_ring t r) /\ label f = l /\ In k (sides [ne_points f])).
  { intros nr Hn Hk. destruct (Forall2_in_r _ _ _ nr F1 Hn) as (r & Hr & (N & _)).
    destruct (lin_normal k l t r nr (G r Hr) N Hk) as (f & Hf & Hl & Hs). exists r, f. auto. }
  assert (L : longs (pool nrs)).
  { apply pool_longs. clear -F1. induction F1; constructor; [apply H|assumption]. }
  destruct (cycles_good _ _ _ L C F2) as (Gc & _). rewrite Forall_forall in Gc.
  apply (Permutation_in _ P) in Ho. apply in_app_iff in Ho as [Ho|Ho].
  - unfold untouched in Ho. apply filter_In in Ho as (Hn & Hr). destruct (X out Hn HL) as (r & f & H1 & H2 & H3 & H4).
    exists r, f. repeat (split; [assumption|]). destruct HL as (e & He & El & _).
    rewrite (same_label_redundant f e) by congruence. apply negb_true_iff in Hr.
    destruct (redundantb e) eqn:E; [|reflexivity]. assert (existsb redundantb out = true) by (apply existsb_exists; eauto). congruence.
  - destruct (Forall2_in_r _ _ _ out F2 Ho) as (c & Hc & (T & _)).
    apply (lin_tidied k l c out (Gc c Hc) T) in HL. destruct HL as (e & He & El & Hk).
    assert (Hp : In e (pool nrs)). { eapply Permutation_in; [apply C|]. apply in_concat. eauto. }
    unfold pool in Hp. apply in_concat in Hp as (u & Hu & He'). apply in_map_iff in Hu as (nr & <- & Hn).
    unfold mixed in Hn. apply filter_In in Hn as (Hn & _). unfold useful in He'. apply filter_In in He' as (He' & Hr).
    destruct (X nr Hn) as (r & f & H1 & H2 & H3 & H4); [exists e; auto|]. exists r, f. repeat (split; [assumption|]).
    rewrite (same_label_redundant f e) by congruence. apply negb_true_iff in Hr. exact Hr.
Qed.

(** ** Uses by one region *)

Lemma uses_ring_fst ri s kr : map fst (uses_ring ri s kr) = map de_edge (tr_des (snd kr)).
Proof. unfold uses_ring. rewrite map_map. reflexivity. Qed.

Definition des_of (rs : list topo_ring) : list nat := flat_map (fun r => map de_edge (tr_des r)) rs.

Lemma uses_rings_fst ri s rs : map fst (flat_map (uses_ring ri s) (enumerate rs)) = des_of rs.
Proof.
  unfold enumerate. generalize 0%nat. unfold des_of. induction rs as [|r rs IH]; intros n; [reflexivity|]. cbn [length seq combine flat_map].
  rewrite map_app, uses_ring_fst, IH. reflexivity.
Qed.

Lemma uses_region_own {D} (ir : nat * topo_region D) u : In u (uses_region ir) -> rr_region (snd u) = fst ir.
Proof.
  unfold uses_region. intros H. apply in_app_iff in H as [H|H]; apply in_flat_map in H as (kr & _ & H);
    unfold uses_ring in H; apply in_map_iff in H as (d & <- & _); reflexivity.
Qed.

Lemma twice_used {D} (t : topology D) ri rg i : nth_error (tp_regions t) ri = Some rg ->
  (length (users i (uses (tp_regions t))) <= 2)%nat ->
  (2 <= count_occ Nat.eq_dec (des_of (tg_outer rg)) i \/ 2 <= count_occ Nat.eq_dec (des_of (tg_inner rg)) i)%nat ->
  edge_regions t i = [ri; ri].
Proof.
  intros Hr HL HC. unfold edge_regions.
  assert (Hin : In (ri, rg) (enumerate (tp_regions t))) by (apply in_enumerate; assumption).
  unfold uses in *. apply in_split in Hin as (a & b & E). rewrite E in *. rewrite flat_map_app in *. cbn [flat_map] in *.
  rewrite !users_app, !app_length in HL.
  assert (HU : (2 <= length (users i (uses_region (ri, rg))))%nat).
  { rewrite users_length. unfold uses_region. cbn [fst snd]. rewrite map_app, !uses_rings_fst, count_occ_app. lia. }
  rewrite !users_app. destruct (users i (flat_map uses_region a)) eqn:Ea; [|cbn [length] in HL; lia].
  destruct (users i (flat_map uses_region b)) eqn:Eb; [|cbn [length] in HL; lia]. rewrite app_nil_r. cbn [app length] in *.
  assert (HA : forall rr, In rr (users i (uses_region (ri, rg))) -> rr_region rr = ri).
  { intros rr Hrr. unfold users in Hrr. apply in_map_iff in Hrr as (u & <- & Hu). apply filter_In in Hu as (Hu & _). apply uses_region_own in Hu. exact Hu. }
  destruct (users i (uses_region (ri, rg))) as [|u0 [|u1 [|u2 l]]]; cbn [length] in *; try lia.
  cbn [map]. rewrite (HA u0), (HA u1) by (cbn; auto). reflexivity.
Qed.

(** ** Topologies of single segments *)

Lemma stored_pair p q : lt_point p q -> stored_form [p; q] = [p; q].
Proof.
  intros H. destruct (stored_form_cases [p; q] p q eq_refl eq_refl) as [(E & _)|(_ & [L|(-> & _)])]; [exact E| |];
    unfold lt_point in *; lia.
Qed.

Lemma oriented_sides p q d : lt_point p q -> sides [oriented [p; q] d] = [[p; q]].
Proof.
  intros H. unfold sides, oriented. destruct d; cbn [rev app flat_map segments map]; [|rewrite stored_form_pair]; rewrite (stored_pair p q H); reflexivity.
Qed.

Lemma sides_seen {D} (t : topology D) d f te : segmented t -> nth_error (tp_edges t) (de_edge d) = Some te -> In f (seen t d) ->
  sides [ne_points f] = [te_points te].
Proof.
  intros (_ & S) E H. unfold seen in H. rewrite E in H. destruct H as [<-|[]]. cbn [ne_points].
  destruct (S te (nth_error_In _ _ E)) as (p & q & -> & L). apply oriented_sides, L.
Qed.

Lemma cnt_seen_ring {D} (t : topology D) i e r : segmented t -> nth_error (tp_edges t) i = Some e ->
  (cnt (te_points e) (map ne_points (seen_ring t r)) <= count_occ Nat.eq_dec (map de_edge (tr_des r)) i)%nat.
Proof.
  intros S E. unfold seen_ring. induction (tr_des r) as [|d ds IH]; [apply le_n|]. cbn [flat_map map count_occ].
  rewrite map_app, cnt_app.
  assert (X : (cnt (te_points e) (map ne_points (seen t d)) <= if Nat.eq_dec (de_edge d) i then 1 else 0)%nat).
  { destruct (nth_error (tp_edges t) (de_edge d)) as [te|] eqn:Ed.
    2:{ unfold seen. rewrite Ed. cbn. lia. }
    destruct (seen t d) as [|f [|f' l]] eqn:Es.
    - cbn. lia.
    - unfold cnt. cbn [map]. rewrite (sides_seen t d f te S Ed) by (rewrite Es; left; reflexivity). cbn [filter].
      destruct (path_eqb_spec (te_points e) (te_points te)) as [Eq|]; cbn [length]; [|lia].
      destruct (Nat.eq_dec (de_edge d) i) as [|N]; [lia|]. exfalso. apply N.
      destruct S as (ND & _). apply (NoDup_nth_error (map te_points (tp_edges t))); [exact ND| |].
      + rewrite map_length. apply nth_error_Some. congruence.
      + rewrite !nth_error_map, Ed, E. cbn. congruence.
    - unfold seen in Es. rewrite Ed in Es. discriminate. }
  destruct (Nat.eq_dec (de_edge d) i); lia.
Qed.

Lemma ring_cnt_seen {D} (t : topology D) i e rs : segmented t -> nth_error (tp_edges t) i = Some e ->
  (ring_cnt (te_points e) (map (seen_ring t) rs) <= count_occ Nat.eq_dec (des_of rs) i)%nat.
Proof.
  intros S E. induction rs as [|r rs IH]; [apply le_n|]. cbn [map]. rewrite ring_cnt_cons. unfold des_of. cbn [flat_map].
  rewrite count_occ_app. pose proof (cnt_seen_ring t i e r S E). fold (des_of rs). lia.
Qed.

(** No edge of a normalized ring runs back along itself. *)
Lemma no_return {D} (t : topology D) ri rg o rs outs out x a b : valid t -> segmented t -> nth_error (tp_regions t) ri = Some rg ->
  rs = tg_outer rg \/ rs = tg_inner rg -> side_fact t o rs outs -> In out outs -> In x out -> ne_points x <> [a; b; a].
Proof.
  intros V S Hr Hs F Ho Hx E. set (k := stored_form [a; b]).
  assert (Es : sides [ne_points x] = [k; k]).
  { rewrite E. unfold sides. cbn [flat_map segments app map]. rewrite (stored_form_pair a b). reflexivity. }
  assert (G : forall r, In r rs -> good (seen_ring t r)).
  { intros r Hr'. apply (seen_ring_good t rg); [assumption|eapply nth_error_In; eassumption|]. apply in_app_iff. destruct Hs as [->| ->]; auto. }
  destruct (lin_side k (label x) t o rs outs out G F Ho) as (r & f & Hr' & Hf & Hl & Hk & Hred).
  { exists x. rewrite Es. cbn. auto. }
  unfold seen_ring in Hf. apply in_flat_map in Hf as (d & Hd & Hf).
  destruct (nth_error (tp_edges t) (de_edge d)) as [te|] eqn:Ed; [|unfold seen in Hf; rewrite Ed in Hf; destruct Hf].
  pose proof (sides_seen t d f te S Ed Hf) as Ef. rewrite Ef in Hk. destruct Hk as [Hk|[]].
  assert (C2 : (2 <= ring_cnt k outs)%nat).
  { apply in_split in Ho as (o1 & o2 & ->). apply in_split in Hx as (x1 & x2 & ->). rewrite ring_cnt_app, ring_cnt_cons.
    rewrite map_app, cnt_app. cbn [map]. change (ne_points x :: map ne_points x2) with ([ne_points x] ++ map ne_points x2). rewrite cnt_app.
    assert (cnt k [ne_points x] = 2%nat); [|lia]. unfold cnt. rewrite Es. cbn [filter].
    destruct (path_eqb_spec k k); [reflexivity|congruence]. }
  pose proof (cnt_side k t o rs outs G F) as CS. rewrite <- Hk in CS.
  pose proof (ring_cnt_seen t (de_edge d) te rs S Ed) as CC. rewrite Hk in CC, CS.
  assert (ER : edge_regions t (de_edge d) = [ri; ri]).
  { apply (twice_used t ri rg); [assumption| |].
    - destruct V as ((_ & _ & V3) & _). apply (V3 _ te Ed).
    - destruct Hs as [->| ->]; [left|right]; lia. }
  unfold seen in Hf. rewrite Ed in Hf. destruct Hf as [<-|[]]. unfold redundantb in Hred. cbn [ne_reg0 ne_reg1] in Hred.
  rewrite ER in Hred. cbn [nth_error] in Hred. rewrite Nat.eqb_refl in Hred. discriminate.
Qed.

(** ** Edges of a built topology *)

Lemma built_edge {D} m (rs : list (region D)) t e : build_topology m rs = Ok t -> In e (tp_edges t) ->
  exists x r p, In x rs /\ In r (rg_outer x ++ rg_inner x) /\ In p (paths r) /\ has_length p = true /\ (te_points e = p \/ te_points e = rev p).
Proof.
  intros B He. apply In_nth_error in He as (i & Hi). pose proof (build_used m rs t B i e Hi) as U.
  destruct (users i (uses (tp_regions t))) as [|rr l] eqn:Eu; [congruence|].
  assert (In rr (users i (uses (tp_regions t)))) as Hu by (rewrite Eu; left; reflexivity).
  apply users_in in Hu. apply in_uses_region in Hu as (rg & r & Hg & Hr & Hk). apply in_map_iff in Hk as (d & Ed & Hd).
  assert (X : In (Some (oriented (te_points e) (de_dir d))) (all_paths (read_topology t))).
  { unfold all_paths. apply in_flat_map. exists (read_region (tp_edges t) rg).
    split; [unfold read_topology; apply in_map; eapply nth_error_In; eassumption|].
    assert (Y : In (Some (oriented (te_points e) (de_dir d))) (read_ring (tp_edges t) r)).
    { unfold read_ring. apply in_map_iff. exists d. split; [|assumption]. unfold read_de. rewrite Ed, Hi. reflexivity. }
    unfold shape_paths, read_region. cbn [s_outer s_inner]. apply nth_error_In in Hr. apply in_app_iff.
    destruct (rr_side rr); [left|right]; apply in_concat; exists (read_ring (tp_edges t) r); (split; [apply in_map; assumption|assumption]). }
  rewrite (build_read m rs t B) in X. unfold all_paths in X. apply in_flat_map in X as (s & Hs & X). unfold expected in Hs.
  apply in_flat_map in Hs as (x & Hx & Hs). unfold expected_region in Hs.
  destruct (filter has_area (rg_outer x)) as [|r0 rest] eqn:EF; [destruct Hs|]. destruct Hs as [<-|[]].
  assert (Y : exists r', In r' (rg_outer x ++ rg_inner x) /\ In (Some (oriented (te_points e) (de_dir d))) (expected_ring r')).
  { unfold shape_paths in X. cbn [s_outer s_inner] in X. apply in_app_iff in X as [X|X]; apply in_concat in X as (y & Hy & X);
      apply in_map_iff in Hy as (r' & <- & Hr'); exists r'; (split; [|assumption]); apply in_app_iff; [left|right].
    - assert (In r' (filter has_area (rg_outer x))) as F by (rewrite EF; assumption). apply filter_In in F. apply F.
    - apply filter_In in Hr'. apply Hr'. }
  destruct Y as (r' & Hr' & Y). unfold expected_ring in Y. apply in_map_iff in Y as (p & [= Ep] & Hp). apply filter_In in Hp as (Hp & HL).
  exists x, r', p. repeat (split; [assumption|]). rewrite Ep. unfold oriented. destruct (de_dir d); [left; reflexivity|right; rewrite rev_involutive; reflexivity].
Qed.

Lemma built_segmented {D} m (rs : list (region D)) t : (forall x r, In x rs -> In r (rg_outer x ++ rg_inner x) -> exists ps, r = RPoints ps) ->
  build_topology m rs = Ok t -> segmented t.
Proof.
  intros HP B. destruct (build_edges_stored m rs t B) as (ND & ST). split; [exact ND|]. intros e He.
  destruct (built_edge m rs t e B He) as (x & r & p & Hx & Hr & Hp & HL & Ee). destruct (HP x r Hx Hr) as (ps & ->). cbn [paths] in Hp.
  apply segments_pair in Hp as (a & b & ->).
  assert (Hs : is_stored (te_points e)) by (rewrite Forall_forall in ST; apply ST, in_map, He). destruct Hs as (p' & HL' & Es).
  assert (Hab : a <> b). { cbn [has_length] in HL. destruct (pt_eqb_spec a b); [discriminate|assumption]. }
  assert (E2 : exists u v, te_points e = [u; v] /\ u <> v).
  { destruct Ee as [-> | ->]; cbn [rev app]; eauto. }
  destruct E2 as (u & v & E2 & Huv). exists u, v. split; [exact E2|].
  assert (LP : length p' = 2%nat).
  { assert (length (te_points e) = length p') as <-; [|rewrite E2; reflexivity]. rewrite Es. unfold stored_form.
    destruct p' as [|y l]; [reflexivity|]. cbv zeta. destruct (_ || _); [reflexivity|]. destruct (_ && _); [reflexivity|]. rewrite rev_length. reflexivity. }
  destruct p' as [|u' [|v' [|]]]; try discriminate.
  destruct (stored_form_cases [u'; v'] u' v' eq_refl eq_refl) as [(E & [L|(-> & _)])|(E & [L|(-> & _)])];
    rewrite Es, E in E2; cbn [rev app] in E2; injection E2 as <- <-; try assumption; congruence.
Qed.

(** ** The edges of a normalized topology can be simplified *)

Lemma normalize_no_return {D} m (t t' : topology D) e : valid t -> segmented t -> normalize m t = Ok t' -> In e (tp_edges t') ->
  (2 <= length (te_points e))%nat /\ (is_closed (te_points e) -> (4 <= length (te_points e))%nat).
Proof.
  intros V S H He. apply normalize_Ok in H as (gs & E & B).
  destruct (built_edge m gs t' e B He) as (g & r & p & Hg & Hr & Hp & HL & Ee).
  assert (F : Forall2 (fun rg g => normalize_region m t rg = Ok g /\ In rg (tp_regions t)) (tp_regions t) gs).
  { eapply Forall2_mmap; [eassumption|]. auto. }
  destruct (Forall2_in_r _ _ _ g F Hg) as (rg & Hin & En & _). apply In_nth_error in Hin as (ri & Hri).
  destruct (normalize_region_fact m t rg g V (nth_error_In _ _ Hri) En) as (outs & ins & -> & S1 & S2). cbn [rg_outer rg_inner] in Hr.
  assert (X : forall a b, p <> [a; b; a]).
  { intros a b Ep. apply in_app_iff in Hr as [Hr|Hr]; apply in_map_iff in Hr as (out & <- & Ho); cbn [paths into_ring] in Hp;
      apply in_map_iff in Hp as (x & Ex & Hx); rewrite Ep in Ex.
    - apply (no_return t ri rg Clockwise (tg_outer rg) outs out x a b V S Hri (or_introl eq_refl) S1 Ho Hx Ex).
    - apply (no_return t ri rg CounterClockwise (tg_inner rg) ins out x a b V S Hri (or_intror eq_refl) S2 Ho Hx Ex). }
  assert (LE : length (te_points e) = length p) by (destruct Ee as [-> | ->]; [|rewrite rev_length]; reflexivity).
  split; [rewrite LE; apply has_length_2, HL|]. intros HC. rewrite LE.
  assert (HC' : is_closed p).
  { destruct Ee as [Ee|Ee]; rewrite Ee in HC; [exact HC|]. destruct HC as (N & C). rewrite first_rev, final_rev in C. split; [|congruence].
    intros ->. apply N. reflexivity. }
  destruct HC' as (_ & HC'). destruct p as [|a [|b [|c [|d l]]]]; cbn [length]; try lia; cbn in HC', HL; try discriminate.
  - injection HC' as <-. rewrite pt_eqb_refl in HL. discriminate.
  - injection HC' as <-. destruct (X a b eq_refl).
Qed.

(** ** Normalization creates no points *)

Lemma segment_of ps p : (2 <= length ps)%nat -> In p ps -> exists s, In s (segments ps) /\ In p s.
Proof.
  induction ps as [|a [|b t] IH]; cbn [length]; try lia. intros _ Hp. rewrite segments_cons2. destruct Hp as [<-|Hp].
  - exists [a; b]. cbn. auto.
  - destruct t as [|c t].
    + exists [a; b]. destruct Hp as [<-|[]]. cbn. auto.
    + destruct IH as (s & Hs & H); [cbn [length]; lia|exact Hp|]. exists s. split; [right; exact Hs|exact H].
Qed.

Lemma segment_points ps s p : In s (segments ps) -> In p s -> In p ps.
Proof.
  induction ps as [|a [|b t] IH]; [intros []|intros []|]. rewrite segments_cons2. intros [<-|Hs] Hp.
  - destruct Hp as [<-|[<-|[]]]; cbn; auto.
  - right. apply IH; assumption.
Qed.

Lemma stored_points ps p : In p (stored_form ps) <-> In p ps.
Proof.
  unfold stored_form. destruct ps as [|a l]; [reflexivity|]. cbv zeta. destruct (_ || _); [reflexivity|]. destruct (_ && _); [reflexivity|].
  symmetry. apply in_rev.
Qed.

Lemma normalize_points {D} m (t t' : topology D) e p : valid t -> normalize m t = Ok t' -> In e (tp_edges t') -> In p (te_points e) ->
  exists e0, In e0 (tp_edges t) /\ In p (te_points e0).
Proof.
  intros V H He Hpe. apply normalize_Ok in H as (gs & E & B).
  destruct (built_edge m gs t' e B He) as (g & r & ps & Hg & Hr & Hp & HL & Ee).
  assert (Hps : In p ps) by (destruct Ee as [Ee|Ee]; rewrite Ee in Hpe; [assumption|apply in_rev; assumption]).
  assert (F : Forall2 (fun rg g => normalize_region m t rg = Ok g /\ In rg (tp_regions t)) (tp_regions t) gs).
  { eapply Forall2_mmap; [eassumption|]. auto. }
  destruct (Forall2_in_r _ _ _ g F Hg) as (rg & Hin & En & _).
  destruct (normalize_region_fact m t rg g V Hin En) as (outs & ins & -> & S1 & S2). cbn [rg_outer rg_inner] in Hr.
  assert (X : forall o rs outs out, incl rs (tg_outer rg ++ tg_inner rg) -> side_fact t o rs outs -> In out outs -> In ps (map ne_points out) ->
    exists e0, In e0 (tp_edges t) /\ In p (te_points e0)).
  { intros o rs os out Hi SF Ho Hx. apply in_map_iff in Hx as (x & Ex & Hx).
    destruct (segment_of ps p (has_length_2 ps HL) Hps) as (s & Hs & Hps').
    destruct (lin_side (stored_form s) (label x) t o rs os out) as (r1 & f & Hr1 & Hf & _ & Hk & _).
    - intros r1 Hr1. apply (seen_ring_good t rg); auto.
    - assumption.
    - assumption.
    - exists x. split; [assumption|]. split; [reflexivity|]. rewrite Ex. unfold sides. cbn [flat_map]. rewrite app_nil_r. apply in_map, Hs.
    - unfold sides in Hk. cbn [flat_map] in Hk. rewrite app_nil_r in Hk. apply in_map_iff in Hk as (s' & Es & Hs').
      assert (In p s') as P' by (apply stored_points; rewrite Es; apply stored_points; assumption).
      apply (segment_points _ _ _ Hs') in P'. apply seen_edge in Hf as (d & te & _ & Ed & ->). cbn [ne_points] in P'.
      exists te. split; [eapply nth_error_In; eassumption|]. unfold oriented in P'. destruct (de_dir d); [assumption|apply in_rev; assumption]. }
  apply in_app_iff in Hr as [Hr|Hr]; apply in_map_iff in Hr as (out & <- & Ho); cbn [paths into_ring] in Hp.
  - apply (X Clockwise (tg_outer rg) outs out); try assumption. intros z Hz. apply in_app_iff. auto.
  - apply (X CounterClockwise (tg_inner rg) ins out); try assumption. intros z Hz. apply in_app_iff. auto.
Qed.

(** ** Clipping creates points on the line of the mask only *)

Lemma clip_origin {D} m k (t t' : topology D) e z : clip_topology m t k = Ok t' -> In e (tp_edges t') -> In z (te_points e) ->
  exists e0, In e0 (tp_edges t) /\ (In z (te_points e0) \/
    exists p q, In (p, q) (combine (te_points e0) (tl (te_points e0))) /\ opposite k p q /\ mask_intersect m k p q = Ok z).
Proof.
  intros H He Hz. apply clip_topology_ok in H as (C & b & HC & (_ & _ & (_ & _ & _ & HN) & _) & _ & _ & HE).
  set (P := fun z => exists e0, In e0 (tp_edges t) /\ (In z (te_points e0) \/
    exists p q, In (p, q) (combine (te_points e0) (tl (te_points e0))) /\ opposite k p q /\ mask_intersect m k p q = Ok z)).
  change (P z).
  assert (HK : forall c z, In c C -> In z c -> P z).
  { intros c y Hc Hy. destruct (Forall2_in_r _ _ _ c HC Hc) as (e0 & He0 & Ec). pose proof (clip_edge_ok _ _ _ _ Ec) as (_ & HX).
    apply clip_edge_path in Ec as ->. exists e0. split; [assumption|].
    apply clip_path_origin in Hy as [Hy|(p & q & Hin & Ho & ->)]; [auto|]. right. exists p, q. split; [assumption|]. split; [assumption|].
    apply HX; assumption. }
  assert (HO : forall p, old_end C p -> P p).
  { intros p (c & Hc & Hp). unfold old_of in Hc. apply filter_In in Hc as [Hc _]. apply (HK c p Hc).
    destruct Hp; [apply first_in|apply final_in]; assumption. }
  apply (in_map te_points) in He. rewrite HE in He. unfold pts_of in He. apply in_app_iff in He as [He|He].
  - unfold old_of in He. apply filter_In in He as (He & _). apply (HK _ z He Hz).
  - apply in_map_iff in He as (kv & E & Hk'). rewrite Forall_forall in HN. destruct (HN kv Hk') as (_ & H1 & H2).
    rewrite <- E in Hz. unfold seg_points in Hz. destruct Hz as [<-|[<-|[]]]; apply HO; assumption.
Qed.

(** ** Simplification creates no points *)

Lemma simplify_origin {D} m (t t' : topology D) thr e z : thr <= 2 ^ 64 - 1 -> simplify m t thr = Ok t' -> In e (tp_edges t') -> In z (te_points e) ->
  exists e0, In e0 (tp_edges t) /\ In z (te_points e0).
Proof.
  intros Ht H He Hz. destruct (simplify_parts m t t' thr H) as (_ & HF).
  destruct (Forall2_in_r _ _ _ e HF He) as (e0 & He0 & (E & _)). exists e0. split; [assumption|].
  destruct (edge_ok_dec (te_points e0)) as [HE|HE]; [|rewrite simplify_edge_rejects in E by exact HE; discriminate].
  destruct (simplify_edge_ok m _ thr HE Ht) as [[_ E']|(r' & E' & HS & _)]; rewrite E in E'; [discriminate|]. injection E' as <-.
  eapply subseq_in; eassumption.
Qed.
