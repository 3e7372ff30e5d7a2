(** * LocalProofs: simplification and places away from the removed points *)
From Verif Require Import GeoProofs NormProofs NormReturn ClipTopoLaws ClipEdgeProofs PlaceProofs PlaceLaws Simplify SimplifyProofs SimplifyLaws SimplifyHeap SimplifyPlaceSpec SimplifyPlace SimplifyProps LocalSpec.

Lemma final_snoc (l : list point) p : final (l ++ [p]) = Some p.
Proof. unfold final. rewrite rev_app_distr. reflexivity. Qed.

Lemma final_app_cons (l : list point) p l' : final (l ++ p :: l') = final (p :: l').
Proof. unfold final. rewrite rev_app_distr. cbn [rev]. destruct (rev l') as [|x y]; reflexivity. Qed.

Lemma subseq_tail (a : point) l ps : subseq (a :: l) ps -> subseq l (tl ps).
Proof.
  intros S. remember (a :: l) as r. revert a l Heqr. induction S as [|x s s' S IH|x s s' S IH]; intros a l E; [discriminate| |].
  - subst. specialize (IH a l eq_refl). cbn [tl]. destruct s'; [exact IH|]. cbn [tl] in IH. apply sub_skip. exact IH.
  - injection E as -> ->. exact S.
Qed.

Lemma subseq_split (b : point) l ps : subseq (b :: l) ps -> exists x y, ps = x ++ b :: y /\ subseq l y.
Proof.
  intros S. remember (b :: l) as r. revert b l Heqr. induction S as [|x s s' S IH|x s s' S IH]; intros b l E; [discriminate| |].
  - destruct (IH b l E) as (u & v & -> & H). exists (x :: u), v. auto.
  - injection E as -> ->. exists [], s'. auto.
Qed.

Lemma glue_cons e p es : (exists q, chain p es q) -> es <> [] -> final e = Some p -> glue (e :: es) = removelast e ++ glue es.
Proof.
  intros (q & C) N F. destruct es as [|s es]; [congruence|]. cbn [chain] in C. destruct C as (Fs & _).
  unfold glue. cbn [map concat]. destruct s as [|x s]; [discriminate|]. injection Fs as ->. cbn [tl].
  unfold final in F. destruct (rev e) as [|x e'] eqn:R; [discriminate|]. injection F as ->.
  rewrite <- (rev_involutive e), R. cbn [rev]. rewrite removelast_last, <- app_assoc. reflexivity.
Qed.

Lemma straightens_sub r : forall ps, subseq r ps -> first r = first ps -> final r = final ps -> (2 <= length r)%nat ->
  exists ss, straightens ps r ss /\ ss <> [].
Proof.
  induction r as [|a r IH]; intros ps S F L H; [cbn in H; lia|].
  destruct r as [|b r]; [cbn in H; lia|]. destruct ps as [|a' ps]; [discriminate|]. injection F as <-.
  apply subseq_tail in S. cbn [tl] in S. destruct r as [|c r].
  - exists [a :: ps]. destruct ps as [|x ps]; [inversion S|]. split; [|discriminate].
    cbn in L. split; [|split; [|split]].
    + exists a, b. cbn [chain]. split; [reflexivity|]. exists b. split; [symmetry; exact L|reflexivity].
    + constructor; [cbn; lia|constructor].
    + unfold glue. cbn. rewrite app_nil_r. reflexivity.
    + unfold chord. cbn [map]. rewrite <- L. reflexivity.
  - apply subseq_split in S as (x & y & -> & S).
    destruct (IH (b :: y)) as (ss & ((p & q & C) & L2 & G & GC) & N); [apply sub_take, S|reflexivity| |cbn; lia|].
    { rewrite <- (final_app_cons (a :: x) b y). etransitivity; [|exact L]. symmetry. apply (final_app_cons [a]). }
    assert (P : p = b).
    { destruct ss as [|s ss]; [congruence|]. cbn [chain] in C. destruct C as (Fs & _). destruct s as [|p' s]; [discriminate|]. injection Fs as ->. unfold glue in G. cbn in G. congruence. }
    subst p. assert (FE : final (a :: x ++ [b]) = Some b) by apply (final_snoc (a :: x)).
    exists ((a :: x ++ [b]) :: ss). split; [|discriminate]. split; [|split; [|split]].
    + exists a, q. cbn [chain]. split; [reflexivity|]. exists b. auto.
    + constructor; [cbn; rewrite app_length; cbn; lia|exact L2].
    + rewrite (glue_cons _ b); [|eauto|exact N|exact FE]. rewrite G. change (a :: x ++ [b]) with ((a :: x) ++ [b]). rewrite removelast_last. reflexivity.
    + cbn [map]. assert (CE : chord (a :: x ++ [b]) = [a; b]) by (unfold chord; rewrite FE; reflexivity). rewrite CE, (glue_cons _ b).
      * rewrite GC. reflexivity.
      * exists q. clear -C L2. revert b C. induction L2 as [|s ss Hs L2 IH]; intros b; [cbn; auto|]. cbn [map chain]. intros (F & r & R & C).
        unfold chord. rewrite F, R. split; [reflexivity|]. exists r. split; [reflexivity|exact (IH r C)].
      * destruct ss; [congruence|discriminate].
      * reflexivity.
Qed.

Lemma edge_straightens m ps thr r : thr <= 2 ^ 64 - 1 -> simplify_edge m ps thr = Ok r -> exists ss, straightens ps r ss.
Proof.
  intros Ht E. destruct (C38_subsequence m ps thr r Ht E) as (S & F & L & H). destruct (straightens_sub r ps S F L H) as (ss & X & _). exists ss. exact X.
Qed.

(** ** A closed path apart from the place *)
Lemma apart_crossing z a b p q d : a * east z p + b * south z p < 0 -> a * east z q + b * south z q < 0 ->
  d = (if 0 <=? a then East else West) -> ray_crossing d z p q = 0.
Proof.
  intros Hp Hq ->. unfold ray_crossing, across, swept. generalize dependent (east z p). generalize dependent (south z p). generalize dependent (east z q). generalize dependent (south z q).
  intros sq eq Hq sp ep Hp. destruct (Z.leb_spec 0 a).
  - destruct (Z.leb_spec sp 0), (Z.ltb_spec 0 sq), (Z.leb_spec sq 0), (Z.ltb_spec 0 sp); try lia; cbn [andb]; try reflexivity.
    + destruct (Z.ltb_spec 0 (ep * sq - eq * sp)); [|reflexivity]. exfalso. assert (sq * (a * ep + b * sp) < 0) by nia. assert (- sp * (a * eq + b * sq) <= 0) by nia. assert (a * (ep * sq - eq * sp) < 0) by lia. nia.
    + destruct (Z.ltb_spec (ep * sq - eq * sp) 0); [|reflexivity]. exfalso. assert (sp * (a * eq + b * sq) < 0) by nia. assert (- sq * (a * ep + b * sp) <= 0) by nia. assert (a * (ep * sq - eq * sp) > 0) by lia. nia.
  - destruct (Z.leb_spec (- sp) 0), (Z.ltb_spec 0 (- sq)), (Z.leb_spec (- sq) 0), (Z.ltb_spec 0 (- sp)); try lia; cbn [andb]; try reflexivity.
    + destruct (Z.ltb_spec 0 (ep * sq - eq * sp)); [|reflexivity]. exfalso. assert (- sq * (a * ep + b * sp) < 0) by nia. assert (sp * (a * eq + b * sq) <= 0) by nia. assert (- a * (ep * sq - eq * sp) < 0) by lia. nia.
    + destruct (Z.ltb_spec (ep * sq - eq * sp) 0); [|reflexivity]. exfalso. assert (- sp * (a * eq + b * sq) < 0) by nia. assert (sq * (a * ep + b * sp) <= 0) by nia. assert (- a * (ep * sq - eq * sp) > 0) by lia. nia.
Qed.

Lemma apart_not_on z a b p q : a * east z p + b * south z p < 0 -> a * east z q + b * south z q < 0 -> ~ on_segment z p q.
Proof.
  unfold on_segment, swept. generalize (east z p), (south z p), (east z q), (south z q). intros ep sp eq sq Hp Hq (E & (H1 & H2) & (H3 & H4)).
  (* the place is a combination of the ends *)
  assert (X : exists u v, 0 <= u /\ 0 <= v /\ 0 < u + v /\ u * ep + v * eq = 0 /\ u * sp + v * sq = 0).
  { destruct (Z.eq_dec ep eq) as [Ee|Ee].
    - destruct (Z.eq_dec sp sq) as [Es|Es]; [exists 1, 0; lia|].
      subst eq. assert (ep = 0) by nia. subst ep. exists (Z.abs sq), (Z.abs sp). repeat split; try lia; nia.
    - assert (Z0 : sp * eq = sq * ep) by lia. exists (Z.abs eq), (Z.abs ep). repeat split; try lia. }
  destruct X as (u & v & Hu & Hv & Huv & E1 & E2).
  assert (u * (a * ep + b * sp) + v * (a * eq + b * sq) = 0) by (transitivity (a * (u * ep + v * eq) + b * (u * sp + v * sq)); [ring|rewrite E1, E2; ring]).
  nia.
Qed.

Lemma apart_closed z es : closed_chain es -> (exists a b, forall e p, In e es -> In p e -> a * east z p + b * south z p < 0) -> off z es /\ winding_number z es = 0.
Proof.
  intros HC (a & b & H).
  assert (HS : forall p q, In [p; q] (flat_map segments es) -> a * east z p + b * south z p < 0 /\ a * east z q + b * south z q < 0).
  { intros p q Hin. destruct (segment_ends es p q Hin) as (e & He & Hp & Hq). split; eapply H; eassumption. }
  assert (O : off z es). { intros p q Hin. destruct (HS p q Hin). eapply apart_not_on; eassumption. }
  split; [exact O|]. unfold winding_number. set (d := if 0 <=? a then East else West).
  rewrite (any_ray East d z es O HC), winds_tally. apply tally_zero. intros p q Hin. destruct (HS p q Hin). eapply apart_crossing; try eassumption. reflexivity.
Qed.

Lemma chord_ends s p q : first s = Some p -> final s = Some q -> chord s = [p; q].
Proof. intros F L. unfold chord. rewrite F, L. reflexivity. Qed.

Lemma short_chord s : length s = 2%nat -> chord s = s.
Proof. destruct s as [|a [|b [|c s]]]; try discriminate. reflexivity. Qed.

(** ** Stretch by stretch *)
Lemma stretch_winding z s p q : first s = Some p -> final s = Some q -> spared z s -> winding_number z [chord s] = winding_number z [s].
Proof.
  intros F L [H|(a & b & H)]; [rewrite (short_chord s H); reflexivity|]. rewrite (chord_ends s p q F L).
  assert (Hp : In p s) by (apply first_in; exact F). assert (Hq : In q s) by (apply final_in; exact L).
  destruct (apart_closed z [s; [q; p]]) as (_ & W).
  - exists p. cbn [chain]. split; [exact F|]. exists q. split; [exact L|]. split; [reflexivity|]. exists p. split; reflexivity.
  - exists a, b. intros e x [<-|[<-|[]]] Hx; [apply H, Hx|]. destruct Hx as [<-|[<-|[]]]; apply H; assumption.
  - change [s; [q; p]] with ([s] ++ [[q; p]]) in W. rewrite winding_app in W.
    pose proof (tally_rev1 (segment_crossing East z) [p; q] (crossing_odd East z)) as R. cbn [rev app] in R.
    unfold winding_number in *. rewrite !winds_tally in *. rewrite R in W. lia.
Qed.

Lemma chain_chords ss : forall p q, chain p ss q -> chain p (map chord ss) q.
Proof.
  induction ss as [|s ss IH]; intros p q; [auto|]. cbn [map chain]. intros (F & r & R & C). rewrite (chord_ends s p r F R). split; [reflexivity|]. exists r. auto.
Qed.

Lemma chain_Forall ss : forall p q, chain p ss q -> Forall (fun s => exists a b, first s = Some a /\ final s = Some b) ss.
Proof. induction ss as [|s ss IH]; intros p q; [constructor|]. cbn [chain]. intros (F & r & R & C). constructor; [eauto|eauto]. Qed.

Lemma straightens_winding z ps r ss : straightens ps r ss -> Forall (spared z) ss -> winding_number z [r] = winding_number z [ps].
Proof.
  intros ((p & q & C) & _ & <- & <-) HS. unfold winding_number. rewrite !winds_tally, (tally_glue _ p _ q (chain_chords ss p q C)), (tally_glue _ p ss q C).
  apply chain_Forall in C. induction C as [|s ss (a & b & F & L) C IH]; [reflexivity|]. inversion HS; subst. cbn [map].
  rewrite (tally_cons _ (chord s)), (tally_cons _ s), IH by assumption. f_equal. rewrite <- !winds_tally. apply (stretch_winding z s a b); assumption.
Qed.

Lemma stretch_off z s p q : first s = Some p -> final s = Some q -> spared z s -> (off z [chord s] <-> off z [s]).
Proof.
  intros F L [H|(a & b & H)]; [rewrite (short_chord s H); reflexivity|]. rewrite (chord_ends s p q F L).
  assert (Hp : In p s) by (apply first_in; exact F). assert (Hq : In q s) by (apply final_in; exact L). split; intros _.
  - intros x y Hin. destruct (segment_ends [s] x y Hin) as (e & [<-|[]] & Hx & Hy). apply (apart_not_on z a b); apply H; assumption.
  - intros x y [E|[]]. injection E as <- <-. apply (apart_not_on z a b); apply H; assumption.
Qed.

Lemma straightens_off z ps r ss : straightens ps r ss -> Forall (spared z) ss -> (off z [r] <-> off z [ps]).
Proof.
  intros ((p & q & C) & _ & <- & <-) HS.
  assert (G : forall es, (exists p q, chain p es q) -> (off z [glue es] <-> off z es)).
  { intros es (x & y & Cx). unfold off. cbn [flat_map]. rewrite app_nil_r, (segments_glue x es y Cx). reflexivity. }
  rewrite !G by (try exists p, q; auto using chain_chords). clear G.
  apply chain_Forall in C. induction C as [|s ss (a & b & F & L) C IH]; [reflexivity|]. inversion HS; subst. cbn [map].
  change (chord s :: map chord ss) with ([chord s] ++ map chord ss). change (s :: ss) with ([s] ++ ss). rewrite !off_app, IH by assumption.
  rewrite (stretch_off z s a b) by assumption. reflexivity.
Qed.

(** Twice the area between a stretch and its chord. *)
Lemma stretch_area s p q : first s = Some p -> final s = Some q -> shoelace (s ++ [p]) = shoelace s - shoelace (chord s).
Proof.
  intros F L. rewrite (chord_ends s p q F L). assert (E : s = removelast s ++ [q]).
  { unfold final in L. destruct (rev s) as [|x l] eqn:R; [discriminate|]. injection L as ->. rewrite <- (rev_involutive s), R. cbn [rev]. rewrite removelast_last. reflexivity. }
  rewrite E, <- app_assoc. cbn [app]. rewrite shoelace_app. cbn [shoelace]. unfold det. lia.
Qed.

Lemma straightens_area ps r ss : straightens ps r ss ->
  shoelace ps - shoelace r = sum (map (fun s => shoelace (match first s with Some p => s ++ [p] | None => s end)) ss).
Proof.
  intros ((p & q & C) & _ & <- & <-). pose proof (chain_chords ss p q C) as C'.
  assert (G : forall es, (exists p q, chain p es q) -> shoelace (glue es) = shoelaces es).
  { intros es (x & y & Cx). eapply shoelace_walk; eassumption. }
  rewrite !G by eauto. clear C' G. apply chain_Forall in C. induction C as [|s ss (a & b & F & L) C IH]; [reflexivity|].
  cbn [map]. change (sum (?a :: ?b)) with (a + sum b). rewrite <- IH. rewrite F, (stretch_area s a b F L). cbn [shoelaces]. lia.
Qed.

(** ** Topologies *)
Lemma topology_straightens {D} m (t t' : topology D) thr : thr <= 2 ^ 64 - 1 -> simplify m t thr = Ok t' ->
  exists pieces : nat -> list (list point),
    forall i, (i < length (tp_edges t))%nat -> straightens (edge_points t i) (edge_points t' i) (pieces i).
Proof.
  intros Ht S. apply simplify_parts in S as (_ & F). unfold edge_points. revert F. generalize (tp_edges t), (tp_edges t'). clear t t'.
  intros es es' F. induction F as [|e e' es es' (E & _) F (f & IH)]; [exists (fun _ => []); cbn; lia|].
  destruct (edge_straightens m _ thr _ Ht E) as (ss & H). exists (fun i => match i with O => ss | S j => f j end).
  intros [|i] Hi; [exact H|]. cbn in Hi. apply IH. lia.
Qed.

Lemma simplify_spares {D} m (t t' : topology D) thr pieces z : simplify m t thr = Ok t' ->
  (forall i, (i < length (tp_edges t))%nat -> straightens (edge_points t i) (edge_points t' i) (pieces i)) ->
  forall rgs, (forall i, (i < length (tp_edges t))%nat -> inland i rgs \/ Forall (spared z) (pieces i)) -> surrounded t' rgs z = surrounded t rgs z.
Proof.
  intros S H rgs HS. cut (surrounded t' rgs z - surrounded t rgs z = 0); [lia|]. rewrite (surrounded_change m t t' thr S). apply sum_zero. intros i Hi. apply in_seq in Hi.
  destruct (HS i) as [E|E]; [lia|unfold inland in E; rewrite E; lia|]. rewrite (straightens_winding z _ _ _ (H i ltac:(lia)) E). lia.
Qed.

Lemma one_region {D} (t : topology D) rg z : surrounded t [rg] z = winding_number z (region_paths t rg).
Proof. unfold surrounded. cbn. lia. Qed.
