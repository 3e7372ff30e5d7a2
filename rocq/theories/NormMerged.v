(** * NormMerged: labels, neighbours and normalizing twice when rings are merged *)
From Verif Require Import GeoProofs TopoProofs BuildProofs.
From Verif Require Export NormMerge NormCanon.

(** ** Labels are the same in the normalized topology *)

(** Region [rg'] of [t'] has the rings [xs], made of cycles of all edges between [rg] and others. *)
Definition outlined {D} (t t' : topology D) (rg rg' : topo_region D) (cs xs : list (list norm_edge)) : Prop :=
  Forall2 from_cycle cs xs /\ boundary cs /\
  (forall c, In c cs -> Z.abs (shoelaces (map ne_points c)) < 2 ^ 63) /\
  (forall e, In e (concat cs) -> redundantb e = false /\
     exists r, In r (region_rings rg) /\ (In e (seen_ring t r) \/ In (flip e) (seen_ring t r))) /\
  (forall r g, In r (region_rings rg) -> In g (seen_ring t r) -> redundantb g = false -> In g (concat cs) \/ In (flip g) (concat cs)) /\
  Forall2 (fun r out => read_ring (tp_edges t') r = as_read out) (region_rings rg') xs.

Section Merged.
Context {D : Type} (m : mode) (t t' : topology D) (gs : list (region D)).
Hypothesis V : valid t.
Hypothesis B : build_topology m gs = Ok t'.
Hypothesis Sep : separate t.
Hypothesis Once : forall rg', In rg' (tp_regions t') -> NoDup (map de_edge (region_des rg')).
Hypothesis R : forall i rg', nth_error (tp_regions t') i = Some rg' ->
  exists rg cs xs, nth_error (tp_regions t) i = Some rg /\ outlined t t' rg rg' cs xs.
Hypothesis R' : forall i rg, nth_error (tp_regions t) i = Some rg ->
  exists rg' cs xs, nth_error (tp_regions t') i = Some rg' /\ outlined t t' rg rg' cs xs.

Let X' : exact_references t'.
Proof. destruct (build_topology_ok m gs t' B) as (b & _ & _ & X & _). exact X. Qed.

Lemma outlined_circuit rg rg' cs xs c : outlined t t' rg rg' cs xs -> In c cs -> circuit c.
Proof. intros (_ & (F & _) & _) H. rewrite Forall_forall in F. auto. Qed.

(** Every segment of a normalized edge lies on an edge of [t] between the same regions. *)
Lemma merged_source i rg rg' cs xs out x s : nth_error (tp_regions t) i = Some rg -> outlined t t' rg rg' cs xs ->
  In out xs -> In x out -> In s (sides [ne_points x]) ->
  exists k te, nth_error (tp_edges t) k = Some te /\ In s (sides [te_points te]) /\ label x = lab (edge_regions t k) /\
    In i (edge_regions t k) /\ redundantb x = false.
Proof.
  intros Hg O Ho Hx Hs. pose proof O as (F & _ & _ & E1 & _). destruct (Forall2_in_r _ _ _ _ F Ho) as (c & Hc & Fc).
  pose proof (outlined_circuit _ _ _ _ c O Hc) as Cc.
  destruct (tidied_side c out x s (proj1 Cc) (proj1 Fc) Hx Hs) as (e & He & Le & Se).
  destruct (E1 e) as (Ru & r & Hr & Hin); [apply in_concat; eauto|].
  assert (Y : exists g, In g (seen_ring t r) /\ label g = label x /\ In s (sides [ne_points g])).
  { destruct Hin as [H|H]; [exists e; auto|]. exists (flip e). split; [assumption|]. split; [rewrite flip_label; assumption|].
    apply sides_flip. rewrite flip_flip. assumption. }
  destruct Y as (g & Hing & Lg & Sg). apply seen_edge in Hing as (d & te & Hd & Et & ->).
  exists (de_edge d), te. split; [assumption|]. split; [apply (sides_oriented _ (de_dir d)); assumption|].
  split; [symmetry; exact Lg|]. split; [eapply region_used; eassumption|]. rewrite <- Ru. symmetry. apply label_redundantb. assumption.
Qed.

Lemma outlined_long rg rg' cs xs out x : outlined t t' rg rg' cs xs -> In out xs -> In x out -> (2 <= length (ne_points x))%nat.
Proof.
  intros O Ho Hx. pose proof O as (F & _). destruct (Forall2_in_r _ _ _ _ F Ho) as (c & Hc & Fc).
  destruct (good_tidied c out) as (G & _); [apply (outlined_circuit _ _ _ _ c O Hc)|apply Fc|]. eapply good_long; eassumption.
Qed.

Lemma merged_same_source i j rgi rgj csi csj xs ys rg' rg'' x y outx outy : nth_error (tp_regions t) i = Some rgi -> nth_error (tp_regions t) j = Some rgj ->
  outlined t t' rgi rg' csi xs -> outlined t t' rgj rg'' csj ys -> In outx xs -> In outy ys -> In x outx -> In y outy ->
  ne_points x = ne_points y \/ ne_points x = rev (ne_points y) ->
  exists k te, nth_error (tp_edges t) k = Some te /\ label x = lab (edge_regions t k) /\ label y = lab (edge_regions t k) /\
    In i (edge_regions t k) /\ In j (edge_regions t k) /\ redundantb x = false.
Proof.
  intros Hi Hj Oi Oj Hox Hoy Hx Hy E.
  destruct (side_exists (ne_points x)) as (s & Hs); [eapply outlined_long; [exact Oi|eassumption|eassumption]|].
  destruct (merged_source i rgi rg' csi xs outx x s Hi Oi Hox Hx Hs) as (k & te & Ek & Sk & Lx & Ik & Ru).
  destruct (merged_source j rgj rg'' csj ys outy y s Hj Oj Hoy Hy (NormTwice.sides_same _ _ s E Hs)) as (k' & te' & Ek' & Sk' & Ly & Ik' & _).
  assert (k = k') by (eapply Sep; eassumption). subst k'. exists k, te. auto 10.
Qed.

Lemma outlined_des rg rg' cs xs : outlined t t' rg rg' cs xs ->
  Forall2 (fun d x => read_de (tp_edges t') d = Some (ne_points x)) (region_des rg') (concat xs).
Proof.
  intros (_ & _ & _ & _ & _ & F). unfold region_des. rewrite flat_map_concat_map. apply Forall2_concat.
  induction F as [|r out rs xs' E F IH]; cbn [map]; constructor; [|assumption].
  unfold read_ring, as_read in E. rewrite map_map in E. apply (map_eq_Forall2 _ (fun x => Some (ne_points x))). assumption.
Qed.

Lemma merged_two k te : nth_error (tp_edges t) k = Some te -> (length (edge_regions t k) <= 2)%nat.
Proof. intros E. destruct V as ((_ & _ & V3) & _). destruct (V3 k te E) as (L & _). unfold edge_regions. rewrite map_length. assumption. Qed.

Lemma useful_nodup l x : (length l <= 2)%nat -> label x = lab l -> redundantb x = false -> NoDup l.
Proof.
  unfold lab, label, redundantb. intros L [= -> ->]. destruct l as [|a [|b [|c l]]]; cbn [length nth_error] in *; try lia; try discriminate; intros H;
    repeat constructor; cbn; try tauto. intros [<-|[]]. rewrite Nat.eqb_refl in H. discriminate.
Qed.

(** An edge of one region's outline that mentions another region is part of that region's outline. *)
Lemma outline_other i j rgi rgj csi csj rg' rg'' xs ys e : nth_error (tp_regions t) i = Some rgi -> nth_error (tp_regions t) j = Some rgj ->
  outlined t t' rgi rg' csi xs -> outlined t t' rgj rg'' csj ys -> In e (concat csi) -> mentions j (label e) ->
  In e (concat csj) \/ In (flip e) (concat csj).
Proof.
  intros Hi Hj (_ & _ & _ & E1 & _) (_ & _ & _ & _ & E2 & _) He M. destruct (E1 e He) as (Ru & r & Hr & Hin).
  assert (Hg : exists g, In g (seen_ring t r) /\ (g = e \/ g = flip e)) by (destruct Hin as [H|H]; eauto).
  destruct Hg as (g & Hg & Eg). assert (Mg : mentions j (label g)) by (destruct Eg as [->| ->]; assumption).
  destruct (seen_mentions t r g j Hg Mg) as (rg & r' & Hj' & Hr' & Hgr). assert (rg = rgj) by congruence. subst rg.
  assert (Rg : redundantb g = false) by (rewrite <- Ru; destruct Eg as [->| ->]; [reflexivity|apply label_redundantb; reflexivity]).
  destruct Hgr as [Hgr|Hgr]; apply (E2 r') in Hgr; try assumption; destruct Eg as [->| ->]; rewrite ?flip_flip in *; tauto.
Qed.

Lemma outline_shared i j rgi rgj csi csj rg' rg'' xs ys c l : nth_error (tp_regions t) i = Some rgi -> nth_error (tp_regions t) j = Some rgj ->
  outlined t t' rgi rg' csi xs -> outlined t t' rgj rg'' csj ys -> In c csi -> mentions j l -> shared l c csj.
Proof.
  intros Hi Hj Oi Oj Hc M g Hg Lg. destruct (outline_other i j rgi rgj csi csj rg' rg'' xs ys g Hi Hj Oi Oj) as [H|H]; [apply in_concat; eauto|congruence| |];
    apply in_concat in H as (c' & Hc' & H); exists c'; auto.
Qed.

Lemma merged_regions i rg rg' cs xs d x : nth_error (tp_regions t) i = Some rg -> nth_error (tp_regions t') i = Some rg' ->
  outlined t t' rg rg' cs xs -> In d (region_des rg') -> In x (concat xs) -> read_de (tp_edges t') d = Some (ne_points x) ->
  label x = lab (edge_regions t' (de_edge d)).
Proof.
  intros Hi Hi' Rn Hd Hx Ed. pose proof Hx as Hxs. apply in_concat in Hx as (out & Ho & Hx).
  destruct (merged_same_source i i rg rg cs cs xs xs rg' rg' x x out out Hi Hi Rn Rn Ho Ho Hx Hx (or_introl eq_refl)) as (k & te & Ek & Lx & _ & Ik & _ & Rx).
  pose proof (merged_two k te Ek) as L2.
  rewrite Lx. f_equal. apply sorted_members.
  { apply sorted_strict; [apply edge_regions_le|]. eapply useful_nodup; eassumption. }
  { apply edge_regions_sorted. exact Once. }
  intros j. split.
  - intros Hj.
    assert (Mj : mentions j (label x)) by (rewrite Lx; apply lab_mentions; assumption).
    assert (Mi : mentions i (label x)) by (rewrite Lx; apply lab_mentions; assumption).
    pose proof Rn as (F1 & Bi & Ai & _). destruct (Forall2_in_r _ _ _ _ F1 Ho) as (a & Ha & Fa).
    pose proof (outlined_circuit _ _ _ _ a Rn Ha) as Ca.
    destruct (piece_of a out x Ca Fa Hx) as (e & He & Le & Pe). rewrite Le in Mi, Mj.
    assert (exists rgj, nth_error (tp_regions t) j = Some rgj) as (rgj & Hj').
    { destruct (used_region t j k Hj) as (g & _ & _ & H & _). eauto. }
    destruct (R' j rgj Hj') as (rgj' & csj & ys & Hgj' & Rj).
    assert (Hb : exists b, In b csj /\ (In e b \/ In (flip e) b)).
    { apply (outline_shared i j rg rgj cs csj rg' rgj' xs ys a (label e)); try assumption. reflexivity. }
    destruct Hb as (b & Hb & Heb). pose proof Rj as (F2 & Bj & _). destruct (Forall2_in_l _ _ _ _ F2 Hb) as (outy & Hoy & Fb).
    pose proof (outlined_circuit _ _ _ _ b Rj Hb) as Cb.
    assert (Sx : shared (label e) a csj) by (eapply (outline_shared i j); eassumption).
    assert (Sy : shared (label e) b cs) by (eapply (outline_shared j i); eassumption).
    assert (Y : exists y, In y outy /\ (ne_points x = ne_points y \/ ne_points x = rev (ne_points y)) /\
      (first (ne_points x) <> final (ne_points x) \/ turned (walk a) (ne_points x))).
    { destruct Heb as [Heb|Heb].
      - destruct (tidied_piece b outy e (proj1 Cb) Fb Heb) as (y & Hy & _ & Py). exists y. split; [assumption|].
        destruct (twin_same cs csj a b a b e x y) as (E & O); try assumption; try (left; reflexivity). auto.
      - destruct (tidied_piece b outy (flip e) (proj1 Cb) Fb Heb) as (y & Hy & _ & Py). exists y. split; [assumption|].
        apply (piece_flipped b _ _ (proj1 Cb)) in Py. rewrite flip_flip in Py.
        destruct (twin_same cs csj a b a (flipped b) e x (flip y)) as (E & O); try assumption; [left; reflexivity|right; reflexivity|apply shared_flipped; assumption|apply in_flip'; assumption|].
        auto. }
    destruct Y as (y & Hy & Pxy & O).
    assert (Hy' : In y (concat ys)) by (apply in_concat; eauto).
    destruct (Forall2_in_r _ _ _ _ (outlined_des rgj rgj' csj ys Rj) Hy') as (d' & Hd' & Ed'). cbv beta in Ed'.
    assert (O' : first (ne_points x) <> final (ne_points x) \/
       (shoelace (ne_points x) mod 2 ^ 64 <> 0 /\ shoelace (ne_points x) mod 2 ^ 64 <> 2 ^ 63)).
    { destruct O as [O|O]; [left; assumption|right]. apply shoelace_turned in O.
      assert (W : shoelace (walk a) = shoelaces (map ne_points a)).
      { destruct Ca as ((_ & _ & (p & C)) & _). eapply shoelace_walk. exact C. }
      pose proof (Ai a Ha) as N2. destruct Ca as (_ & _ & N1). rewrite O in W.
      assert (N0 : shoelace (ne_points x) <> 0) by lia.
      pose proof (Z.div_mod (shoelace (ne_points x)) (2 ^ 64)) as DM. split; intros M; rewrite M in DM; lia. }
    assert (Edge : de_edge d = de_edge d').
    { destruct Pxy as [E|E].
      - rewrite <- E in Ed'. f_equal. apply (shared_same m gs t' d d' (ne_points x)); assumption.
      - assert (ne_points y = rev (ne_points x)) as E2 by (rewrite E, rev_involutive; reflexivity). rewrite E2 in Ed'.
        apply (shared_reverse m gs t' d d' (ne_points x)); assumption. }
    rewrite Edge. apply in_flat_map in Hd' as (rr & Hrr & Hd'). eapply region_used; eassumption.
  - intros Hj. destruct (used_region t' j (de_edge d) Hj) as (rgj' & r' & d' & Hj' & Hr' & Hd' & Edd).
    destruct (R j rgj' Hj') as (rgj & csj & ys & Hgj & Rj).
    assert (Hdj : In d' (region_des rgj')) by (apply in_flat_map; eauto).
    destruct (Forall2_in_l _ _ _ _ (outlined_des rgj rgj' csj ys Rj) Hdj) as (y & Hy & Ey). cbv beta in Ey.
    apply in_concat in Hy as (outy & Hoy & Hy).
    assert (E : ne_points x = ne_points y \/ ne_points x = rev (ne_points y)).
    { apply read_de_some in Ed as (te1 & H1 & H2). apply read_de_some in Ey as (te2 & H3 & H4). rewrite Edd in H3.
      assert (te2 = te1) by congruence. subst te2. destruct (oriented_flip (te_points te1) (de_dir d') (de_dir d)) as [Z|Z]; [left|right]; congruence. }
    destruct (merged_same_source i j rg rgj cs csj xs ys rg' rgj' x y out outy Hi Hgj Rn Rj Ho Hoy Hx Hy E) as (k' & te' & Ek' & Lx' & _ & _ & Ij & _).
    assert (edge_regions t k = edge_regions t k').
    { apply lab_inj; [assumption|eapply merged_two; eassumption|congruence]. }
    congruence.
Qed.

(** The rings of the result are seen with the labels they were made with. *)
Lemma merged_seen i rg rg' cs xs : nth_error (tp_regions t) i = Some rg -> nth_error (tp_regions t') i = Some rg' ->
  outlined t t' rg rg' cs xs -> map (seen_ring t') (region_rings rg') = xs.
Proof.
  intros Hi Hi' Rn. pose proof Rn as (_ & _ & _ & _ & _ & F).
  assert (Y : forall r out, In r (region_rings rg') -> In out xs -> read_ring (tp_edges t') r = as_read out -> seen_ring t' r = out).
  { intros r out Hr Ho E. unfold read_ring, as_read in E. rewrite map_map in E. apply map_eq_Forall2 in E. unfold seen_ring.
    assert (I1 : forall d, In d (tr_des r) -> In d (region_des rg')) by (intros d Hd; apply in_flat_map; eauto).
    assert (I2 : forall x, In x out -> In x (concat xs)) by (intros x Hx; apply in_concat; eauto).
    apply seen_all. revert I1 I2. clear -Hi Hi' Rn E V B Sep Once R R'. induction E as [|d x ds out' E F' IH]; intros I1 I2; [constructor|]. constructor.
    - split; [assumption|]. eapply merged_regions; try eassumption; [apply I1|apply I2]; left; reflexivity.
    - apply IH; intros z Hz; [apply I1|apply I2]; right; assumption. }
  clear Rn. induction F as [|r out rs xs' E F IH]; [reflexivity|]. cbn [map]. f_equal.
  - apply Y; [left; reflexivity|left; reflexivity|assumption].
  - apply IH. intros r0 out0 Hr0 Ho0. apply Y; right; assumption.
Qed.

Lemma merged_fewest rg' r : In rg' (tp_regions t') -> In r (region_rings rg') -> ring_alternates t' r.
Proof.
  intros Hg Hr. apply In_nth_error in Hg as (i & Hi'). destruct (R i rg' Hi') as (rg & cs & xs & Hi & O).
  pose proof (merged_seen i rg rg' cs xs Hi Hi' O) as E. apply (in_map (seen_ring t')) in Hr. rewrite E in Hr.
  destruct O as (F & _). destruct (Forall2_in_r _ _ _ _ F Hr) as (c & _ & (_ & Fw & _)). exact Fw.
Qed.

(** The same regions are neighbours. *)
Lemma merged_adjacent i j : i <> j -> adjacent t i j <-> adjacent t' i j.
Proof.
  intros Nij. split.
  - intros (k & Ii & Ij). destruct (used_region t i k Ii) as (rg & r & d & Hi & Hr & Hd & <-).
    destruct (nth_error (tp_edges t) (de_edge d)) as [te|] eqn:Ek.
    2:{ exfalso. destruct V as ((_ & V2 & _) & _). apply edge_regions_in in Ii as (rr & Hu & _).
        specialize (V2 _ Hu). cbn [fst] in V2. apply nth_error_None in Ek. lia. }
    pose proof (merged_two _ te Ek) as L2.
    set (g := NE (oriented (te_points te) (de_dir d)) (nth_error (edge_regions t (de_edge d)) 0) (nth_error (edge_regions t (de_edge d)) 1)).
    assert (Hg : In g (seen_ring t r)). { apply in_flat_map. exists d. split; [assumption|]. unfold seen. rewrite Ek. left. reflexivity. }
    assert (Lg : label g = lab (edge_regions t (de_edge d))) by reflexivity.
    assert (Rg : redundantb g = false).
    { unfold redundantb, g. cbn [ne_reg0 ne_reg1]. destruct (edge_regions t (de_edge d)) as [|a [|b [|c l]]]; cbn [length nth_error In] in *; try lia; try tauto.
      apply Nat.eqb_neq. intuition congruence. }
    destruct (R' i rg Hi) as (rg' & cs & xs & Hi' & O). pose proof O as (F & _ & _ & _ & E2 & _).
    assert (Y : exists e, In e (concat cs) /\ label e = label g) by (destruct (E2 r g Hr Hg Rg) as [H|H]; [exists g|exists (flip g)]; auto).
    destruct Y as (e & He & Le). apply in_concat in He as (c & Hc & He). destruct (Forall2_in_l _ _ _ _ F Hc) as (out & Ho & Fc).
    destruct (tidied_piece c out e (proj1 (outlined_circuit _ _ _ _ c O Hc)) Fc He) as (x & Hx & Lx & _).
    assert (Hxs : In x (concat xs)) by (apply in_concat; eauto).
    destruct (Forall2_in_r _ _ _ _ (outlined_des rg rg' cs xs O) Hxs) as (d' & Hd' & Ed').
    pose proof (merged_regions i rg rg' cs xs d' x Hi Hi' O Hd' Hxs Ed') as Lx'.
    assert (Z : forall n, In n (edge_regions t (de_edge d)) -> In n (edge_regions t' (de_edge d'))).
    { intros n Hn. apply lab_mentions in Hn; [|assumption]. rewrite <- Lg, <- Le, <- Lx, Lx' in Hn. unfold mentions, lab in Hn. cbn [fst snd] in Hn.
      destruct Hn as [Hn|Hn]; eapply nth_error_In; exact Hn. }
    exists (de_edge d'). auto.
  - intros (k & Ii & Ij). destruct (used_region t' i k Ii) as (rg' & r & d & Hi' & Hr & Hd & <-).
    destruct (R i rg' Hi') as (rg & cs & xs & Hi & O).
    assert (Hdd : In d (region_des rg')) by (apply in_flat_map; eauto).
    destruct (Forall2_in_l _ _ _ _ (outlined_des rg rg' cs xs O) Hdd) as (x & Hx & Ed). cbv beta in Ed.
    pose proof (merged_regions i rg rg' cs xs d x Hi Hi' O Hdd Hx Ed) as Lx. apply in_concat in Hx as (out & Ho & Hx).
    destruct (merged_same_source i i rg rg cs cs xs xs rg' rg' x x out out Hi Hi O O Ho Ho Hx Hx (or_introl eq_refl)) as (k & te & Ek & Lx' & _).
    pose proof (merged_two k te Ek) as L2.
    assert (L2' : (length (edge_regions t' (de_edge d)) <= 2)%nat).
    { apply read_de_some in Ed as (te' & Et & _). destruct X' as (_ & _ & X3). destruct (X3 _ te' Et) as (L & _). unfold edge_regions. rewrite map_length. assumption. }
    assert (E : edge_regions t' (de_edge d) = edge_regions t k) by (apply lab_inj; [assumption|assumption|congruence]).
    exists k. rewrite <- E. auto.
Qed.

End Merged.

(** ** Sides as cycles of their outline *)

Definition side_cycles {D} (t : topology D) (o : winding) (rs : list topo_ring) (outs cs : list (list norm_edge)) : Prop :=
  cycles_of (outline t o rs) cs /\ Forall2 from_cycle cs outs /\ Forall good cs /\
  Forall lengthy outs /\ Forall good outs /\ in_order (map (map ne_points) outs).

Lemma side_cycled {D} (t : topology D) o rs outs : (forall r, In r rs -> good (seen_ring t r)) ->
  (forall r, In r rs -> Z.abs (shoelaces (map ne_points (seen_ring t r))) < 2 ^ 63) -> side_fact t o rs outs ->
  exists cs, side_cycles t o rs outs cs.
Proof.
  intros G A S. destruct (side_lengthy t o rs outs S) as (L & Go). pose proof (side_in_order t o rs outs S) as Or.
  destruct (side_outline t o rs outs G S) as (bases & cs & outs' & _ & (P & C) & Po & F & Gc & H). rewrite (H A) in P.
  apply Forall2_swap in F. destruct (Permutation_Forall2 (Permutation_sym Po) F) as (cs' & Pc & F').
  exists cs'. split; [|split; [apply Forall2_swap; exact F'|]].
  - split; [rewrite <- (concat_perm _ _ Pc); exact P|]. apply (Permutation_Forall Pc). assumption.
  - split; [apply (Permutation_Forall Pc); assumption|auto].
Qed.

Lemma headed_cases o s : headed o s = s \/ headed o s = flipped s.
Proof. unfold headed. destruct o; [destruct (0 <? _)|destruct (_ <? 0)]; auto. Qed.

Lemma outline_long {D} (t : topology D) o rs : (forall r, In r rs -> good (seen_ring t r)) ->
  Forall (fun e => (2 <= length e)%nat) (map ne_points (outline t o rs)).
Proof.
  intros G. apply Forall_forall. intros ps H. apply in_map_iff in H as (e & <- & He). apply useful_incl in He.
  unfold headed_rings in He. rewrite <- flat_map_concat_map in He. apply in_flat_map in He as (r & Hr & He). pose proof (G r Hr) as Gr.
  apply (good_long (headed o (seen_ring t r)) e); [|assumption].
  destruct (headed_cases o (seen_ring t r)) as [->| ->]; [assumption|apply flipped_good; assumption].
Qed.

Lemma in_headed o s e : In e (headed o s) -> In e s \/ In (flip e) s.
Proof. destruct (headed_cases o s) as [->| ->]; [auto|]. rewrite in_flip'. auto. Qed.

Lemma headed_in o s g : In g s -> In g (headed o s) \/ In (flip g) (headed o s).
Proof. destruct (headed_cases o s) as [->| ->]; [auto|]. rewrite in_flip. auto. Qed.

Lemma outline_in {D} (t : topology D) o rs e : In e (outline t o rs) ->
  redundantb e = false /\ exists r, In r rs /\ (In e (seen_ring t r) \/ In (flip e) (seen_ring t r)).
Proof.
  intros H. apply filter_In in H as (H & Ru). split; [apply negb_true_iff; exact Ru|].
  unfold headed_rings in H. rewrite <- flat_map_concat_map in H. apply in_flat_map in H as (r & Hr & H). exists r. split; [assumption|].
  eapply in_headed. exact H.
Qed.

Lemma in_outline {D} (t : topology D) o rs r g : In r rs -> In g (seen_ring t r) -> redundantb g = false ->
  In g (outline t o rs) \/ In (flip g) (outline t o rs).
Proof.
  intros Hr Hg Ru. unfold outline, headed_rings. rewrite <- flat_map_concat_map. unfold useful. rewrite !filter_In, !in_flat_map.
  replace (redundantb (flip g)) with (redundantb g) by (apply label_redundantb; reflexivity). rewrite Ru.
  destruct (headed_in o _ g Hg) as [H|H]; [left|right]; (split; [exists r; auto|reflexivity]).
Qed.

(** Other cycles of the same outline have the same areas. *)
Lemma cycles_alike es cs cs0 (P : Z -> Prop) : NoDup (starts es) -> cycles_of es cs -> cycles_of es cs0 ->
  Forall (fun c => P (shoelaces (map ne_points c))) cs0 -> Forall (fun c => P (shoelaces (map ne_points c))) cs /\ (cs0 <> [] -> cs <> []).
Proof.
  intros N (P1 & L1) (P2 & L2) H. destruct (cycles_unique cs cs0) as (c & Pc & F); [| |assumption|assumption|].
  - apply (Permutation_NoDup (starts_perm _ _ (Permutation_sym P1)) N).
  - rewrite P1, P2. reflexivity.
  - split.
    + apply (Permutation_Forall Pc) in H. clear -F H. induction F as [|a b l l' R F IH]; [constructor|]. inversion H; subst. constructor; [|auto].
      rewrite (shoelaces_perm _ _ (Permutation_map ne_points (rotation_perm _ _ R))). assumption.
    + intros N0 ->. apply N0. inversion F; subst. apply Permutation_nil. symmetry. assumption.
Qed.

Lemma cycles_areas cs outs : Forall good cs -> Forall2 from_cycle cs outs ->
  Forall2 (fun c out => shoelaces (map ne_points out) = shoelaces (map ne_points c)) cs outs.
Proof.
  intros G F. induction F as [|c out cs outs (T & _) F IH]; [constructor|]. inversion G; subst. constructor; [|auto].
  destruct (good_tidied c out) as (_ & _ & A); assumption.
Qed.

Lemma cycled_has_area cs outs : Forall good cs -> Forall2 from_cycle cs outs ->
  Forall (fun c => 0 < Z.abs (shoelaces (map ne_points c)) < 2 ^ 63) cs -> filter has_area (map into_ring outs) = map into_ring outs.
Proof.
  intros G F A. apply filter_true, (Forall_map into_ring). pose proof (cycles_areas cs outs G F) as E. clear F G.
  induction E as [|c out cs outs E F IH]; [constructor|]. inversion A as [|? ? A1 A2]; subst. constructor; [|auto].
  unfold has_area. cbn [into_ring ring_area]. rewrite <- E in A1. apply negb_true_iff, Z.eqb_neq. intros M.
  pose proof (Z.div_mod (shoelaces (map ne_points out)) (2 ^ 64)) as DM. rewrite M in DM. lia.
Qed.

(** The normalized region, whose rings all remain. *)
Definition merged_norm {D} (t : topology D) (rg : topo_region D) (g : region D) : Prop :=
  exists outs ins co ci, g = Region (tg_data rg) (map into_ring outs) (map into_ring ins) /\ outs <> [] /\
    side_fact t Clockwise (tg_outer rg) outs /\ side_fact t CounterClockwise (tg_inner rg) ins /\
    side_cycles t Clockwise (tg_outer rg) outs co /\ side_cycles t CounterClockwise (tg_inner rg) ins ci /\
    Forall (fun c => 0 < Z.abs (shoelaces (map ne_points c)) < 2 ^ 63) (co ++ ci) /\
    (wound_outline t rg -> Forall (fun c => winds Clockwise (map ne_points c)) co /\ Forall (fun c => winds CounterClockwise (map ne_points c)) ci).

Lemma outline_starts {D} (t : topology D) rg : (forall r, In r (region_rings rg) -> good (seen_ring t r)) -> simple_outline t rg ->
  NoDup (starts (outline t Clockwise (tg_outer rg))) /\ NoDup (starts (outline t CounterClockwise (tg_inner rg))).
Proof.
  intros G S. unfold simple_outline in S. rewrite map_app, flat_map_app in S. apply nodup_app3 in S as (S1 & S2 & _).
  split; (apply nodup_starts; [apply outline_long; intros r Hr; apply G; apply in_app_iff; auto|assumption]).
Qed.

Lemma merged_norms {D} m (t : topology D) gs : valid t -> mmap (normalize_region m t) (tp_regions t) = Ok gs ->
  (forall rg, In rg (tp_regions t) -> simple_outline t rg /\ measured_outline t rg) ->
  (forall rg r, In rg (tp_regions t) -> In r (region_rings rg) -> Z.abs (shoelaces (map ne_points (seen_ring t r))) < 2 ^ 63) ->
  Forall2 (merged_norm t) (tp_regions t) gs.
Proof.
  intros V E H A. eapply Forall2_mmap; [exact E|]. intros rg g Hg Hr.
  destruct (normalize_region_fact m t rg g V Hg Hr) as (outs & ins & -> & So & Si).
  assert (G : forall r, In r (region_rings rg) -> good (seen_ring t r)) by (intros; eapply seen_ring_good; eassumption).
  destruct (side_cycled t Clockwise (tg_outer rg) outs) as (co & Co); [intros r Hin; apply G; apply in_app_iff; auto|intros r Hin; apply (A rg r Hg); apply in_app_iff; auto|assumption|].
  destruct (side_cycled t CounterClockwise (tg_inner rg) ins) as (ci & Ci); [intros r Hin; apply G; apply in_app_iff; auto|intros r Hin; apply (A rg r Hg); apply in_app_iff; auto|assumption|].
  destruct (H rg Hg) as (Sm & (o0 & i0 & N0 & Do & Di & Ar)). destruct (outline_starts t rg G Sm) as (No & Ni).
  apply Forall_app in Ar as (Ao & Ai).
  destruct (cycles_alike _ co o0 (fun z => 0 < Z.abs z < 2 ^ 63) No (proj1 Co) Do Ao) as (Ao' & Nc).
  destruct (cycles_alike _ ci i0 (fun z => 0 < Z.abs z < 2 ^ 63) Ni (proj1 Ci) Di Ai) as (Ai' & _).
  exists outs, ins, co, ci. split; [reflexivity|]. split.
  - intros ->. destruct Co as (_ & F & _). inversion F; subst. apply Nc; [assumption|reflexivity].
  - split; [assumption|]. split; [assumption|]. split; [assumption|]. split; [assumption|]. split; [apply Forall_app; auto|].
    intros (o1 & i1 & _ & Do1 & Di1 & _ & Wo & Wi). split.
    + apply (cycles_alike _ co o1 (fun z => 0 < z) No (proj1 Co) Do1 Wo).
    + apply (cycles_alike _ ci i1 (fun z => z < 0) Ni (proj1 Ci) Di1 Wi).
Qed.

Lemma cycled_expected {D} (t : topology D) o rs outs cs : side_cycles t o rs outs cs -> map expected_ring (map into_ring outs) = map as_read outs.
Proof.
  intros (_ & _ & _ & L & _). rewrite map_map. apply map_ext_in. intros out Ho. apply expected_into_ring. rewrite Forall_forall in L. auto.
Qed.

Lemma merged_shapes {D} m (t t' : topology D) gs : Forall2 (merged_norm t) (tp_regions t) gs -> build_topology m gs = Ok t' ->
  Forall2 (norm_shape (tp_edges t')) gs (tp_regions t').
Proof.
  intros F B. apply build_read in B. unfold read_topology in B.
  assert (E : expected gs = map (fun g => Shape (rg_data g) (map expected_ring (rg_outer g)) (map expected_ring (rg_inner g))) gs).
  { clear B. unfold expected. induction F as [|rg g rgs gs (outs & ins & co & ci & -> & No & _ & _ & Co & Ci & A & _) F IH]; [reflexivity|]. cbn [flat_map map].
    rewrite IH. unfold expected_region at 1. cbn [rg_outer rg_inner rg_data]. apply Forall_app in A as (Ao & Ai).
    destruct Co as (_ & Fo & Go & _). destruct Ci as (_ & Fi & Gi & _).
    rewrite (cycled_has_area co outs Go Fo Ao), (cycled_has_area ci ins Gi Fi Ai). destruct outs; [congruence|reflexivity]. }
  rewrite E in B. symmetry in B. apply map_eq_Forall2 in B. eapply Forall2_impl'; [|exact B]. intros g rg' H. unfold read_region in H.
  injection H as H1 H2 H3. split; [symmetry; assumption|]. split; symmetry; assumption.
Qed.

Lemma visits_concat xs : visits (concat xs) = flat_map visits xs.
Proof.
  unfold visits. induction xs as [|c xs IH]; [reflexivity|]. cbn [flat_map concat]. rewrite map_app, flat_map_app, IH. reflexivity.
Qed.

Lemma merged_outlined {D} (t t' : topology D) rg rg' g outs ins co ci : simple_outline t rg ->
  g = Region (tg_data rg) (map into_ring outs) (map into_ring ins) ->
  side_cycles t Clockwise (tg_outer rg) outs co -> side_cycles t CounterClockwise (tg_inner rg) ins ci ->
  Forall (fun c => 0 < Z.abs (shoelaces (map ne_points c)) < 2 ^ 63) (co ++ ci) -> norm_shape (tp_edges t') g rg' ->
  outlined t t' rg rg' (co ++ ci) (outs ++ ins).
Proof.
  intros Sm -> Co Ci A (_ & S1 & S2). cbn [rg_outer rg_inner] in S1, S2.
  rewrite (cycled_expected _ _ _ _ _ Co) in S1. rewrite (cycled_expected _ _ _ _ _ Ci) in S2.
  pose proof Co as ((Po & _) & Fo & Go & _). pose proof Ci as ((Pi & _) & Fi & Gi & _).
  assert (N : NoDup (flat_map visits (co ++ ci))).
  { rewrite <- visits_concat. eapply Permutation_NoDup; [|exact Sm]. apply visits_perm. rewrite concat_app. symmetry. apply Permutation_app; assumption. }
  split; [apply Forall2_app; assumption|]. split; [|split; [|split; [|split]]].
  - split; [|assumption]. apply Forall_forall. intros c Hc. split; [|split].
    + apply in_app_iff in Hc as [Hc|Hc]; [rewrite Forall_forall in Go|rewrite Forall_forall in Gi]; auto.
    + eapply (nodup_part visits); eassumption.
    + rewrite Forall_forall in A. specialize (A c Hc). cbv beta in A. lia.
  - intros c Hc. rewrite Forall_forall in A. apply A. assumption.
  - intros e He. rewrite concat_app in He. apply in_app_iff in He as [He|He].
    + apply (Permutation_in e Po) in He. destruct (outline_in t _ _ e He) as (Ru & r & Hr & H). split; [assumption|]. exists r. split; [apply in_app_iff; auto|assumption].
    + apply (Permutation_in e Pi) in He. destruct (outline_in t _ _ e He) as (Ru & r & Hr & H). split; [assumption|]. exists r. split; [apply in_app_iff; auto|assumption].
  - intros r e Hr He Ru. rewrite concat_app, !in_app_iff. apply in_app_iff in Hr as [Hr|Hr].
    + destruct (in_outline t Clockwise _ r e Hr He Ru) as [H|H]; apply (Permutation_in _ (Permutation_sym Po)) in H; auto.
    + destruct (in_outline t CounterClockwise _ r e Hr He Ru) as [H|H]; apply (Permutation_in _ (Permutation_sym Pi)) in H; auto.
  - unfold region_rings. apply Forall2_app; apply map_eq_Forall2; assumption.
Qed.

(** ** Whole topologies *)

Definition small_areas {D} (t : topology D) : Prop := forall rg r, In rg (tp_regions t) -> In r (region_rings rg) ->
  Z.abs (shoelaces (map ne_points (seen_ring t r))) < 2 ^ 63.

Lemma merged_setup {D} m (t t' : topology D) : valid t -> separate t -> normalize m t = Ok t' ->
  (forall rg, In rg (tp_regions t) -> simple_outline t rg /\ measured_outline t rg) -> small_areas t ->
  exists gs, mmap (normalize_region m t) (tp_regions t) = Ok gs /\ build_topology m gs = Ok t' /\
    Forall2 (merged_norm t) (tp_regions t) gs /\ Forall2 (norm_shape (tp_edges t')) gs (tp_regions t') /\
    (forall rg', In rg' (tp_regions t') -> NoDup (map de_edge (region_des rg'))) /\
    (forall i rg', nth_error (tp_regions t') i = Some rg' -> exists rg cs xs, nth_error (tp_regions t) i = Some rg /\ outlined t t' rg rg' cs xs) /\
    (forall i rg, nth_error (tp_regions t) i = Some rg -> exists rg' cs xs, nth_error (tp_regions t') i = Some rg' /\ outlined t t' rg rg' cs xs).
Proof.
  intros V Sep H P A. assert (Once : forall rg', In rg' (tp_regions t') -> NoDup (map de_edge (region_des rg'))).
  { intros rg' Hg. apply uses_once_distinct. intros k. eapply normal_uses_once; eassumption. }
  apply normalize_Ok in H as (gs & E & B). exists gs. split; [assumption|]. split; [assumption|].
  pose proof (merged_norms m t gs V E P A) as F. pose proof (merged_shapes m t t' gs F B) as F'.
  split; [assumption|]. split; [assumption|]. split; [assumption|]. split.
  - intros i rg' Hi'. destruct (Forall2_nth_r _ _ _ _ _ F' Hi') as (g & Hg & Sh). destruct (Forall2_nth_r _ _ _ _ _ F Hg) as (rg & Hi & (outs & ins & co & ci & Eg & _ & _ & _ & Co & Ci & Ar & _)).
    exists rg, (co ++ ci), (outs ++ ins). split; [assumption|]. eapply merged_outlined; try eassumption. apply P. eapply nth_error_In. exact Hi.
  - intros i rg Hi. destruct (Forall2_nth_l _ _ _ _ _ F Hi) as (g & Hg & (outs & ins & co & ci & Eg & _ & _ & _ & Co & Ci & Ar & _)). destruct (Forall2_nth_l _ _ _ _ _ F' Hg) as (rg' & Hi' & Sh).
    exists rg', (co ++ ci), (outs ++ ins). split; [assumption|]. eapply merged_outlined; try eassumption. apply P. eapply nth_error_In. exact Hi.
Qed.

Lemma merged_data {D} m (t t' : topology D) : valid t -> separate t -> normalize m t = Ok t' ->
  (forall rg, In rg (tp_regions t) -> simple_outline t rg /\ measured_outline t rg) -> small_areas t ->
  map tg_data (tp_regions t') = map tg_data (tp_regions t).
Proof.
  intros V Sep H P A. destruct (merged_setup m t t' V Sep H P A) as (gs & _ & _ & F & F' & _).
  transitivity (map rg_data gs).
  - clear F. induction F' as [|g rg' gs rgs (Dd & _) F' IH]; [reflexivity|]. cbn [map]. congruence.
  - clear F' P A. induction F as [|rg g rgs gs (outs & ins & co & ci & -> & _) F IH]; [reflexivity|]. cbn [map rg_data]. f_equal. exact IH.
Qed.

Lemma merged_neighbours {D} m (t t' : topology D) : valid t -> separate t -> normalize m t = Ok t' ->
  (forall rg, In rg (tp_regions t) -> simple_outline t rg /\ measured_outline t rg) -> small_areas t ->
  forall i j, i <> j -> adjacent t i j <-> adjacent t' i j.
Proof.
  intros V Sep H P A. destruct (merged_setup m t t' V Sep H P A) as (gs & _ & B & _ & _ & O & R & R').
  intros i j. apply (merged_adjacent m t t' gs); assumption.
Qed.

Lemma merged_alternates {D} m (t t' : topology D) : valid t -> separate t -> normalize m t = Ok t' ->
  (forall rg, In rg (tp_regions t) -> simple_outline t rg /\ measured_outline t rg) -> small_areas t ->
  forall rg r, In rg (tp_regions t') -> In r (tg_outer rg ++ tg_inner rg) -> ring_alternates t' r.
Proof.
  intros V Sep H P A. destruct (merged_setup m t t' V Sep H P A) as (gs & _ & B & _ & _ & O & R & R').
  intros rg r. apply (merged_fewest m t t' gs); assumption.
Qed.

Lemma redundantb_true e : redundant e -> redundantb e = true.
Proof. unfold redundant, redundantb. intros ->. destruct (ne_reg1 e); [apply Nat.eqb_refl|reflexivity]. Qed.

(** A side of the result is left alone. *)
Lemma cycled_again {D} m (t t' : topology D) (K : Prop) o rs0 rg' rs outs cs : exact_references t' -> In rg' (tp_regions t') ->
  incl rs (region_rings rg') -> map (seen_ring t') rs = outs -> side_cycles t o rs0 outs cs ->
  Forall (fun c => 0 < Z.abs (shoelaces (map ne_points c)) < 2 ^ 63) cs -> Forall (fun c => winds o (map ne_points c)) cs ->
  (K -> Forall small_ring (map into_ring outs)) ->
  normalize_region_rings m t' rs o = Ok (map into_ring outs) \/
  (m = Debug /\ ~ K /\ normalize_region_rings m t' rs o = Panic POverflow).
Proof.
  intros X Hg Hi Es (C & F & Gc & L & Go & Or) A W HK. unfold normalize_region_rings.
  pose proof (cycles_areas cs outs Gc F) as Ea.
  assert (Q : forall out, In out outs -> good out /\ fewest out /\ starts_smallest (map ne_points out) /\ winds o (map ne_points out) /\
    Z.abs (shoelaces (map ne_points out)) < 2 ^ 63 /\ Forall (fun e => ~ redundant e) out).
  { intros out Ho. rewrite Forall_forall in Go. split; [auto|]. destruct (Forall2_in_r _ _ _ _ F Ho) as (c & Hc & (T & Fw & S)).
    split; [assumption|]. split; [assumption|].
    rewrite Forall_forall in Gc, A, W. destruct (good_tidied c out (Gc c Hc) T) as (_ & _ & E). specialize (W c Hc). specialize (A c Hc). cbv beta in A.
    split; [destruct o; cbn [winds] in *; lia|]. split; [lia|].
    apply Forall_forall. intros e He Re. destruct (proj2 (tidied_labels c out T) e He) as (f & Hf & Lf).
    assert (Hu : In f (outline t o rs0)) by (apply (Permutation_in f (proj1 C)), in_concat; eauto).
    destruct (outline_in t o rs0 f Hu) as (Ru & _). rewrite <- (label_redundantb _ _ Lf) in Ru. apply redundantb_true in Re. congruence. }
  assert (M : mmap (normalize_ring m t' o) rs = Ok outs \/ (m = Debug /\ ~ K /\ mmap (normalize_ring m t' o) rs = Panic POverflow)).
  { assert (Q' : forall out, In out outs -> tidy_ring m o out = Ok out \/ (m = Debug /\ ~ K /\ tidy_ring m o out = Panic POverflow)).
    { intros out Ho. destruct (Q out Ho) as (Q1 & Q2 & Q3 & Q4 & Q5 & _). apply tidy_fixed; try assumption. intros k.
      specialize (HK k). rewrite Forall_forall in HK. apply (HK (into_ring out)). apply in_map. assumption. }
    clear Q F L Go Or Ea HK. subst outs. induction rs as [|r rs IH]; [left; reflexivity|]. cbn [mmap map].
    rewrite (normalize_ring_eq m t' o rg' r X Hg) by (apply Hi; left; reflexivity).
    destruct (Q' (seen_ring t' r)) as [->|(-> & NK & ->)]; [left; reflexivity| |cbn [bind]; auto]. cbn [bind].
    destruct IH as [->|(-> & NK & ->)]; [intros x Hx; apply Hi; right; assumption|intros x Hx; apply Q'; right; assumption| |]; cbn [bind]; auto. }
  destruct M as [->|(-> & NK & ->)]; cbn [bind]; [left|auto].
  rewrite join_adjacent_plain; cbn [bind].
  - rewrite sort_fixed; [reflexivity| |exact Or]. apply Forall_forall. intros out Ho. apply good_keys. apply Q. assumption.
  - apply Forall_forall. intros out Ho. apply Q. assumption.
Qed.

Lemma merged_twice {D} m (t t' : topology D) (K : Prop) : valid t -> separate t -> normalize m t = Ok t' ->
  (forall rg, In rg (tp_regions t) -> simple_outline t rg /\ wound_outline t rg) -> small_areas t ->
  (K -> forall rg, In rg (tp_regions t) -> computable_side t (tg_outer rg) /\ computable_side t (tg_inner rg)) ->
  normalize m t' = Ok t' \/ (m = Debug /\ ~ K /\ normalize m t' = Panic POverflow).
Proof.
  intros V Sep H P A HK.
  assert (P' : forall rg, In rg (tp_regions t) -> simple_outline t rg /\ measured_outline t rg).
  { intros rg Hg. destruct (P rg Hg) as (Sm & (o & i & No & Co & Ci & Ar & Wo & Wi)). split; [assumption|].
    exists o, i. split; [assumption|]. split; [assumption|]. split; [assumption|]. rewrite Forall_forall in *. intros c Hc. specialize (Ar c Hc). cbv beta in Ar.
    apply in_app_iff in Hc as [Hc|Hc]; [specialize (Wo c Hc)|specialize (Wi c Hc)]; cbn [winds] in *; lia. }
  destruct (merged_setup m t t' V Sep H P' A) as (gs & E & B & F & F' & Once & R & R').
  assert (X : exact_references t') by (destruct (build_topology_ok m gs t' B) as (b & _ & _ & X & _); exact X).
  assert (L : Forall2 (fun rg g => normalize_region m t' rg = Ok g \/ (m = Debug /\ ~ K /\ normalize_region m t' rg = Panic POverflow)) (tp_regions t') gs).
  { apply Forall2_by_nth; [symmetry; eapply Forall2_length'; exact F'|]. intros i rg' g Hi' Hg.
    destruct (Forall2_nth_l _ _ _ _ _ F' Hg) as (rg2 & Hi2 & Sh). assert (rg2 = rg') by congruence. subst rg2.
    destruct (Forall2_nth_r _ _ _ _ _ F Hg) as (rg & Hi & (outs & ins & co & ci & Eg & No & So & Si & Co & Ci & Ar & W)).
    apply nth_error_In in Hi' as In'. apply nth_error_In in Hi as In0. destruct (P rg In0) as (Sm & Wd). destruct (W Wd) as (Wo & Wi).
    pose proof (merged_outlined t t' rg rg' g outs ins co ci Sm Eg Co Ci Ar Sh) as O.
    pose proof (merged_seen m t t' gs V B Sep Once R R' i rg rg' _ _ Hi Hi' O) as Sa.
    unfold region_rings in Sa. rewrite map_app in Sa.
    assert (Lo : length (map (seen_ring t') (tg_outer rg')) = length outs).
    { destruct Sh as (_ & S1 & _). subst g. cbn [rg_outer] in S1. apply (f_equal (@length _)) in S1. rewrite !map_length in S1. rewrite map_length. assumption. }
    apply app_inj_len in Sa as (Sa1 & Sa2); [|assumption]. apply Forall_app in Ar as (Ao & Ai).
    assert (G : forall r, In r (region_rings rg) -> good (seen_ring t r)) by (intros; eapply seen_ring_good; eassumption).
    unfold normalize_region.
    destruct (cycled_again m t t' K Clockwise (tg_outer rg) rg' (tg_outer rg') outs co) as [->|(-> & NK & ->)]; try assumption;
      [intros r Hr; apply in_app_iff; auto| | |cbn [bind]; auto].
    { intros k. apply (side_small t Clockwise (tg_outer rg)); [|apply (HK k rg In0)|assumption]. intros r Hr. apply G. apply in_app_iff. auto. }
    cbn [bind].
    destruct (cycled_again m t t' K CounterClockwise (tg_inner rg) rg' (tg_inner rg') ins ci) as [->|(-> & NK & ->)]; try assumption;
      [intros r Hr; apply in_app_iff; auto| | |cbn [bind]; auto].
    { intros k. apply (side_small t CounterClockwise (tg_inner rg)); [|apply (HK k rg In0)|assumption]. intros r Hr. apply G. apply in_app_iff. auto. }
    cbn [bind]. left. f_equal. subst g. f_equal. apply Sh. }
  unfold build_topology in B. destruct (add_regions m builder_new gs) as [b|] eqn:Eb; [|discriminate]. cbn [bind] in B.
  unfold normalize. destruct (normalize_again_loop m t' K _ _ L builder_new b Eb) as [->|(-> & NK & ->)]; cbn [bind]; auto.
Qed.

(** ** Deciding the conditions *)

Fixpoint nodup_pointsb (l : list point) : bool :=
  match l with [] => true | p :: l' => negb (existsb (pt_eqb p) l') && nodup_pointsb l' end.

Lemma nodup_pointsb_spec l : nodup_pointsb l = true -> NoDup l.
Proof.
  induction l as [|p l IH]; cbn [nodup_pointsb]; intros H; [constructor|]. apply andb_true_iff in H as (H1 & H2). constructor; [|auto].
  intros Hp. apply negb_true_iff in H1. rewrite <- not_true_iff_false, existsb_exists in H1. apply H1. exists p. split; [assumption|apply pt_eqb_refl].
Qed.

Definition simple_outlineb {D} (t : topology D) (rg : topo_region D) : bool :=
  nodup_pointsb (flat_map (@removelast point) (map ne_points (outline t Clockwise (tg_outer rg) ++ outline t CounterClockwise (tg_inner rg)))).

Lemma simple_outlineb_spec {D} (t : topology D) rg : simple_outlineb t rg = true -> simple_outline t rg.
Proof. apply nodup_pointsb_spec. Qed.

(** The edges met from [p] on, and the others. *)
Fixpoint follow (fuel : nat) (p : option point) (es : list norm_edge) : list norm_edge * list norm_edge :=
  match fuel with
  | O => ([], es)
  | S fuel' =>
    match partition (fun e => opt_eqb (first (ne_points e)) p) es with
    | (e :: more, others) => let '(c, rest) := follow fuel' (final (ne_points e)) (more ++ others) in (e :: c, rest)
    | ([], _) => ([], es)
    end
  end.
Fixpoint take_apart (fuel : nat) (es : list norm_edge) : list (list norm_edge) :=
  match fuel, es with
  | S fuel', e :: es' => let '(c, rest) := follow (length es) (final (ne_points e)) es' in (e :: c) :: take_apart fuel' rest
  | _, _ => []
  end.
Definition found_cycles {D} (t : topology D) (o : winding) (rs : list topo_ring) : list (list norm_edge) :=
  take_apart (length (outline t o rs)) (outline t o rs).

Definition nat_opt_eqb (a b : option nat) : bool :=
  match a, b with Some x, Some y => Nat.eqb x y | None, None => true | _, _ => false end.
Definition edge_eqb (a b : norm_edge) : bool :=
  path_eqb (ne_points a) (ne_points b) && nat_opt_eqb (ne_reg0 a) (ne_reg0 b) && nat_opt_eqb (ne_reg1 a) (ne_reg1 b).
Lemma edge_eqb_eq a b : edge_eqb a b = true -> a = b.
Proof.
  assert (N : forall x y, nat_opt_eqb x y = true -> x = y).
  { intros [x|] [y|]; cbn; try discriminate; [|reflexivity]. intros H. apply Nat.eqb_eq in H. congruence. }
  unfold edge_eqb. intros H. apply andb_true_iff in H as (H & H3). apply andb_true_iff in H as (H1 & H2). apply N in H2, H3.
  destruct (path_eqb_spec (ne_points a) (ne_points b)); [|discriminate]. destruct a, b; cbn in *; congruence.
Qed.

Fixpoint chainb (p : option point) (es : list (list point)) (q : option point) : bool :=
  match es with [] => opt_eqb p q | e :: es' => opt_eqb (first e) p && chainb (final e) es' q end.
Definition loopb (c : list norm_edge) : bool :=
  match c with
  | [] => false
  | e :: _ => match first (ne_points e) with Some p => chainb (Some p) (map ne_points c) (Some p) | None => false end
  end.

Lemma chainb_spec es : forall p q, Forall (fun e => e <> []) es -> chainb (Some p) es (Some q) = true -> chain p es q.
Proof.
  induction es as [|e es IH]; intros p q N H; cbn [chainb chain] in *.
  - apply opt_eqb_eq in H. congruence.
  - apply andb_true_iff in H as (H1 & H2). apply opt_eqb_eq in H1. split; [assumption|]. inversion N as [|? ? Ne N']; subst.
    destruct (final e) as [r|] eqn:E; [exists r; auto|]. exfalso. apply Ne. unfold final in E.
    destruct (rev e) eqn:Er; [|discriminate]. apply (f_equal (@rev _)) in Er. rewrite rev_involutive in Er. exact Er.
Qed.

Lemma loopb_spec c : loopb c = true -> forallb (fun e => match ne_points e with [] => false | _ => true end) c = true ->
  c <> [] /\ closed_chain (map ne_points c).
Proof.
  intros H N. split; [intros ->; discriminate|]. unfold loopb in H. destruct c as [|e c]; [discriminate|].
  destruct (first (ne_points e)) as [p|]; [|discriminate]. exists p. apply chainb_spec; [|assumption].
  apply Forall_forall. intros ps Hps. apply in_map_iff in Hps as (x & <- & Hx). rewrite forallb_forall in N. specialize (N x Hx). destruct (ne_points x); [discriminate|congruence].
Qed.

Definition cycles_ofb (es : list norm_edge) (cs : list (list norm_edge)) : bool :=
  permb edge_eqb (concat cs) es && forallb loopb cs &&
  forallb (forallb (fun e => match ne_points e with [] => false | _ => true end)) cs.

Lemma cycles_ofb_spec es cs : cycles_ofb es cs = true -> cycles_of es cs.
Proof.
  unfold cycles_ofb. intros H. apply andb_true_iff in H as (H & H3). apply andb_true_iff in H as (H1 & H2). split.
  - eapply permb_spec; [exact edge_eqb_eq|exact H1].
  - apply Forall_forall. intros c Hc. rewrite forallb_forall in H2, H3. apply loopb_spec; [apply H2|apply H3]; assumption.
Qed.

Definition outline_cyclesb {D} (t : topology D) (rg : topo_region D) : bool :=
  match found_cycles t Clockwise (tg_outer rg) with [] => false | _ => true end &&
  cycles_ofb (outline t Clockwise (tg_outer rg)) (found_cycles t Clockwise (tg_outer rg)) &&
  cycles_ofb (outline t CounterClockwise (tg_inner rg)) (found_cycles t CounterClockwise (tg_inner rg)).

Definition measured_outlineb {D} (t : topology D) (rg : topo_region D) : bool :=
  outline_cyclesb t rg &&
  forallb (fun c => (0 <? Z.abs (shoelaces (map ne_points c))) && (Z.abs (shoelaces (map ne_points c)) <? 2 ^ 63))
    (found_cycles t Clockwise (tg_outer rg) ++ found_cycles t CounterClockwise (tg_inner rg)).

Lemma outline_cyclesb_spec {D} (t : topology D) rg : outline_cyclesb t rg = true ->
  found_cycles t Clockwise (tg_outer rg) <> [] /\
  cycles_of (outline t Clockwise (tg_outer rg)) (found_cycles t Clockwise (tg_outer rg)) /\
  cycles_of (outline t CounterClockwise (tg_inner rg)) (found_cycles t CounterClockwise (tg_inner rg)).
Proof.
  unfold outline_cyclesb. intros H. apply andb_true_iff in H as (H & H3). apply andb_true_iff in H as (H1 & H2).
  split; [intros E; rewrite E in H1; discriminate|]. split; apply cycles_ofb_spec; assumption.
Qed.

Lemma measured_outlineb_spec {D} (t : topology D) rg : measured_outlineb t rg = true -> measured_outline t rg.
Proof.
  unfold measured_outlineb. intros H. apply andb_true_iff in H as (H & H4). destruct (outline_cyclesb_spec t rg H) as (H1 & H2 & H3).
  eexists. eexists. split; [exact H1|]. split; [exact H2|]. split; [exact H3|].
  apply Forall_forall. intros c Hc. rewrite forallb_forall in H4. specialize (H4 c Hc). apply andb_true_iff in H4 as (A & B).
  apply Z.ltb_lt in A, B. auto.
Qed.

Definition wound_outlineb {D} (t : topology D) (rg : topo_region D) : bool :=
  measured_outlineb t rg &&
  forallb (fun c => 0 <? shoelaces (map ne_points c)) (found_cycles t Clockwise (tg_outer rg)) &&
  forallb (fun c => shoelaces (map ne_points c) <? 0) (found_cycles t CounterClockwise (tg_inner rg)).

Lemma wound_outlineb_spec {D} (t : topology D) rg : wound_outlineb t rg = true -> wound_outline t rg.
Proof.
  unfold wound_outlineb. intros H. apply andb_true_iff in H as (H & Hi). apply andb_true_iff in H as (H & Ho).
  unfold measured_outlineb in H. apply andb_true_iff in H as (H & H4). destruct (outline_cyclesb_spec t rg H) as (H1 & H2 & H3).
  eexists. eexists. split; [exact H1|]. split; [exact H2|]. split; [exact H3|]. rewrite forallb_forall in H4, Ho, Hi.
  split; [|split]; apply Forall_forall; intros c Hc; [specialize (H4 c Hc)|apply Z.ltb_lt; apply Ho; assumption|apply Z.ltb_lt; apply Hi; assumption].
  apply andb_true_iff in H4 as (_ & B). apply Z.ltb_lt. assumption.
Qed.
