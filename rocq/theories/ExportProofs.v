(** * ExportProofs: the rings of a normalized topology are rings of the input *)
From Verif Require Import ExportSpec BuildProofs NormReturn NormTopo NormCanon NormProps FormSpec FormProofs OrderProofs ComposeProofs TurnProofs.

Lemma segments_two ps p : In p (segments ps) -> exists a b, p = [a; b].
Proof.
  intros H. induction ps as [|x [|y t] IH]; [destruct H|destruct H|]. rewrite segments_cons2 in H. destruct H as [<-|H]; [eauto|apply IH, H].
Qed.

Lemma segments_of_twos us : Forall (fun p : list point => exists a b, p = [a; b]) us -> flat_map segments us = us.
Proof. induction 1 as [|p us (a & b & ->) F IH]; [reflexivity|]. cbn [flat_map segments app]. rewrite IH. reflexivity. Qed.

Lemma read_some es : read (map Some es) = es.
Proof. unfold read. induction es as [|p es IH]; [reflexivity|]. cbn [map flat_map]. cbn in *. rewrite IH. reflexivity. Qed.

(** All rings of the built topology are made of segments. *)
Lemma built_segments {D} m (rs : list (region D)) t g r : outlines_only rs -> build_topology m rs = Ok t ->
  In g (tp_regions t) -> In r (tg_outer g ++ tg_inner g) ->
  exists us, read_ring (tp_edges t) r = map Some us /\ Forall (fun p : list point => exists a b, p = [a; b]) us /\
    Forall (fun p => has_length p = true) us /\ Forall turnable us.
Proof.
  intros A E G R. pose proof (build_read m rs t E) as Rd.
  assert (In (read_region (tp_edges t) g) (read_topology t)) as I by (apply in_map, G). rewrite Rd in I. unfold expected in I. apply in_flat_map in I as (x & Hx & I).
  unfold expected_region in I. destruct (filter has_area (rg_outer x)) as [|o os] eqn:Eo; [destruct I|]. destruct I as [I|[]]. injection I as _ Io Ii.
  assert (exists r', In r' (rg_outer x ++ rg_inner x) /\ read_ring (tp_edges t) r = expected_ring r') as (r' & Hr' & Er).
  { change (expected_ring o :: map expected_ring os) with (map expected_ring (o :: os)) in Io. rewrite <- Eo in Io.
    apply in_app_or in R as [R|R]; apply (in_map (read_ring (tp_edges t))) in R; [rewrite <- Io in R|rewrite <- Ii in R];
      apply in_map_iff in R as (r' & Er & Hr'); apply filter_In in Hr' as (Hr' & _); exists r'; (split; [apply in_or_app; auto|congruence]). }
  destruct (A x r' Hx Hr') as (ps & -> & _). exists (filter has_length (segments ps)). split; [exact Er|].
  split; [|split]; apply Forall_forall; intros p Hp; [|apply filter_In in Hp; apply Hp|eapply segment_turnable; eassumption].
  apply filter_In in Hp as (Hp & _). eapply segments_two, Hp.
Qed.

Lemma filter_id {A} (f : A -> bool) l : Forall (fun x => f x = true) l -> filter f l = l.
Proof. induction 1 as [|x l H F IH]; [reflexivity|]. cbn. rewrite H, IH. reflexivity. Qed.

Lemma ring_exported {D} m (rs : list (region D)) t g r es : outlines_only rs -> build_topology m rs = Ok t -> valid t ->
  In g (tp_regions t) -> In r (tg_outer g ++ tg_inner g) -> same_cycle (walk (seen_ring t r)) (glue es) ->
  has_area (outline (map Some es)) = true /\ ring_like (read_ring (tp_edges t) r) (expected_ring (outline (map Some es))) /\ closed_ring (outline (map Some es)).
Proof.
  intros A E V G R C. destruct (built_segments m rs t g r A E G R) as (us & Er & T & L & Tn).
  pose proof (build_built_form m rs t E) as B. pose proof (seen_built t g r B G R us Er) as Sn.
  pose proof V as (_ & _ & V'). destruct (V' g r G R) as (Nd & p & Ch). rewrite Sn, map_map in Ch. cbn [lab ne_points] in Ch. rewrite map_id in Ch.
  unfold walk in C. rewrite Sn, map_map in C. cbn [lab ne_points] in C. rewrite map_id in C.
  assert (N : glue us <> []).
  { destruct us as [|u us]; [|inversion T as [|? ? (a & b & ->) ?]; subst; discriminate].
    destruct (tr_des r) eqn:Ed; [contradiction|]. unfold read_ring in Er. rewrite Ed in Er. discriminate Er. }
  assert (CR : closed_ring (outline (map Some es))).
  { unfold outline. rewrite read_some. assert (SO : same_outline (RPoints (glue us)) (RPoints (glue es))) by (exists (glue us), (glue es); auto). apply (outline_closed _ _ SO). }
  apply segments_like in C. rewrite (segments_glue p us p Ch), (segments_of_twos us T) in C. apply filter_like in C. rewrite (filter_id _ us L) in C.
  destruct (like_area _ _ C) as (_ & A2). split; [|split; [|exact CR]].
  - unfold has_area, outline. rewrite read_some, ring_area_paths. cbn [paths]. rewrite <- A2.
    destruct B as (_ & W & _). destruct (W g G) as (_ & W'). destruct (W' r R) as (_ & W''). rewrite Er, read_some in W''.
    apply Z.eqb_neq in W''. rewrite W''. reflexivity.
  - unfold outline, expected_ring. rewrite read_some. cbn [paths]. exists us, (filter has_length (segments (glue es))). auto.
Qed.

Lemma side_exported {D} m (rs : list (region D)) t g l outs : outlines_only rs -> build_topology m rs = Ok t -> valid t ->
  In g (tp_regions t) -> incl l (tg_outer g ++ tg_inner g) -> rings_kept t l outs ->
  Forall (fun r => has_area r = true) (map outline outs) /\ side_like (map (read_ring (tp_edges t)) l) (map expected_ring (map outline outs)) /\
  Forall closed_ring (map outline outs).
Proof.
  intros A E V G I (outs' & P & F).
  assert (X : Forall2 (fun r out => has_area (outline out) = true /\ ring_like (read_ring (tp_edges t) r) (expected_ring (outline out)) /\ closed_ring (outline out)) l outs').
  { clear P. induction F as [|r out l outs' (es & -> & _ & C) F IH]; [constructor|]. constructor; [|apply IH; intros x Hx; apply I; right; exact Hx].
    eapply ring_exported; [eassumption..| |exact C]. apply I. left. reflexivity. }
  assert (Y : Forall (fun r => has_area r = true /\ closed_ring r) (map outline outs)).
  { apply Forall_forall. intros x Hx. apply in_map_iff in Hx as (o & <- & Ho). apply (Permutation_in _ P) in Ho. clear P F.
    induction X as [|r out l outs' H X IH]; [destruct Ho|]. destruct Ho as [<-|Ho]; [tauto|apply IH; [intros z Hz; apply I; right; exact Hz|exact Ho]]. }
  split; [eapply Forall_impl; [|exact Y]; cbv beta; tauto|]. split; [|eapply Forall_impl; [|exact Y]; cbv beta; tauto].
  exists (map expected_ring (map outline outs')). split; [apply Permutation_map, Permutation_map, P|]. clear -X.
  induction X as [|r out l outs' H X IH]; [constructor|]. cbn [map]. constructor; [tauto|exact IH].
Qed.

Section Export.
  Context {D : Type} (m : mode) (rs : list (region D)) (t u : topology D).
  Hypothesis A : outlines_only rs.
  Hypothesis E : build_topology m rs = Ok t.
  Hypothesis NR : forall rg, In rg (tp_regions t) -> nothing_redundant t rg.
  Hypothesis HU : normalize m t = Ok u.

  Lemma export_valid : valid t.
  Proof. apply (built_valid m rs); [|exact E]. intros x r Hx Hr. destruct (A x r Hx Hr) as (ps & -> & C). exact C. Qed.

  Lemma export_like : Forall2 shape_like (read_topology t) (expected (exported u)) /\
    (forall x r, In x (exported u) -> In r (rg_outer x ++ rg_inner x) -> closed_ring r).
  Proof.
    pose proof export_valid as V. destruct (C30_rings_kept D m t u V HU) as (parts & Ru & F).
    unfold exported. rewrite Ru. unfold read_topology, expected.
    pose proof (build_built_form m rs t E) as (_ & W & _).
    assert (X : forall rgs, incl rgs (tp_regions t) -> forall parts, Forall2 (fun rg part => (length part <= 1)%nat /\ (forall s, In s part -> s_data s = tg_data rg) /\
      (nothing_redundant t rg -> tg_outer rg <> [] -> exists outs ins, part = [Shape (tg_data rg) outs ins] /\ rings_kept t (tg_outer rg) outs /\ rings_kept t (tg_inner rg) ins)) rgs parts ->
      Forall2 shape_like (map (read_region (tp_edges t)) rgs)
        (flat_map expected_region (map (fun s => Region (s_data s) (map outline (s_outer s)) (map outline (s_inner s))) (concat parts))) /\
      (forall x r, In x (map (fun s => Region (s_data s) (map outline (s_outer s)) (map outline (s_inner s))) (concat parts)) -> In r (rg_outer x ++ rg_inner x) -> closed_ring r)).
    2:{ apply X; [apply incl_refl|exact F]. }
    clear F Ru parts. induction rgs as [|g rgs IH]; intros I parts F; inversion F as [|? part ? parts' (_ & _ & K) F']; subst; [split; [constructor|intros x r []]|].
    assert (G : In g (tp_regions t)) by (apply I; left; reflexivity).
    destruct (K (NR g G) (proj1 (W g G))) as (outs & ins & -> & Ko & Ki). cbn [concat app map s_data s_outer s_inner].
    destruct (IH (fun x Hx => I x (or_intror Hx)) parts' F') as (IH1 & IH2).
    destruct (side_exported m rs t g (tg_outer g) outs A E V G (fun x Hx => in_or_app _ _ _ (or_introl Hx)) Ko) as (Ho & So & Co).
    destruct (side_exported m rs t g (tg_inner g) ins A E V G (fun x Hx => in_or_app _ _ _ (or_intror Hx)) Ki) as (Hi & Si & Ci).
    split.
    - cbn [flat_map]. unfold expected_region at 1. cbn [rg_outer rg_inner rg_data]. rewrite (filter_id _ _ Ho), (filter_id _ _ Hi).
      destruct (map outline outs) as [|o os] eqn:Eo.
      + exfalso. apply side_like_nil in So. apply (proj1 (W g G)). destruct (tg_outer g); [reflexivity|]. destruct So as [_ So]. discriminate (So eq_refl).
      + constructor; [|exact IH1]. split; [reflexivity|]. split; assumption.
    - intros x r [<-|Hx] Hr; [|eapply IH2; eassumption]. cbn [rg_outer rg_inner] in Hr. rewrite Forall_forall in Co, Ci. apply in_app_or in Hr as [Hr|Hr]; auto.
  Qed.

  Lemma export_builds : exists t', build_topology Release (exported u) = Ok t'.
  Proof.
    destruct export_like as (L & _). pose proof (build_read m rs t E) as Rd. pose proof E as E'. unfold build_topology in *.
    destruct (add_regions m builder_new rs) as [b1|p] eqn:E1; [|discriminate].
    destruct (add_regions Release builder_new (exported u)) as [b2|p] eqn:E2; [|apply add_regions_panic in E2 as [E2 _]; discriminate]. cbn [bind] in *.
    apply (into_topology_iff Release (exported u) b2 E2). intros k. rewrite <- (all_paths_like k _ _ L).
    rewrite Rd. revert k. apply (into_topology_iff m rs b1 E1). eauto.
  Qed.

  Lemma export_map m' t' : build_topology m' (exported u) = Ok t' -> same_map t t' /\ valid t'.
  Proof.
    intros E'. destruct export_like as (L & C). split.
    - apply built_same_map; [eapply build_built_form; eassumption..|]. rewrite (build_read m' _ t' E'). exact L.
    - exact (built_valid m' _ t' C E').
  Qed.
End Export.

(** ** Topologies that were not normalized *)

Lemma ring_again {D} m (rs : list (region D)) t g r : outlines_only rs -> build_topology m rs = Ok t -> valid t ->
  In g (tp_regions t) -> In r (tg_outer g ++ tg_inner g) ->
  has_area (outline (read_ring (tp_edges t) r)) = true /\ expected_ring (outline (read_ring (tp_edges t) r)) = read_ring (tp_edges t) r.
Proof.
  intros A E V G R. destruct (built_segments m rs t g r A E G R) as (us & Er & T & L & Tn).
  pose proof (build_built_form m rs t E) as B. pose proof (seen_built t g r B G R us Er) as Sn.
  pose proof V as (_ & _ & V'). destruct (V' g r G R) as (Nd & p & Ch). rewrite Sn, map_map in Ch. cbn [lab ne_points] in Ch. rewrite map_id in Ch.
  destruct B as (_ & W & _). destruct (W g G) as (_ & W'). destruct (W' r R) as (_ & W''). rewrite Er, read_some in W''.
  unfold has_area, expected_ring, outline. rewrite ring_area_paths. cbn [paths]. rewrite Er, read_some, (segments_glue p us p Ch), (segments_of_twos us T), (filter_id _ us L).
  split; [|reflexivity]. apply Z.eqb_neq in W''. rewrite W''. reflexivity.
Qed.

Lemma export_again {D} m (rs : list (region D)) t : outlines_only rs -> build_topology m rs = Ok t -> expected (exported t) = read_topology t.
Proof.
  intros A E. pose proof (export_valid m rs t A E) as V. pose proof (build_built_form m rs t E) as (_ & W & _).
  unfold expected, exported, read_topology. assert (I : incl (tp_regions t) (tp_regions t)) by apply incl_refl. revert I.
  generalize (tp_regions t) at 1 3 4 as gs. induction gs as [|g gs IH]; intros I; [reflexivity|]. cbn [map flat_map]. rewrite IH by (intros x Hx; apply I; right; exact Hx).
  assert (G : In g (tp_regions t)) by (apply I; left; reflexivity). change (read_region (tp_edges t) g :: ?l) with ([read_region (tp_edges t) g] ++ l). f_equal.
  assert (X : forall l, incl l (tg_outer g ++ tg_inner g) -> filter has_area (map outline (map (read_ring (tp_edges t)) l)) = map outline (map (read_ring (tp_edges t)) l) /\
    map expected_ring (map outline (map (read_ring (tp_edges t)) l)) = map (read_ring (tp_edges t)) l).
  { induction l as [|r l IHl]; intros Il; [auto|]. cbn [map filter]. destruct (IHl (fun x Hx => Il x (or_intror Hx))) as (X1 & X2).
    destruct (ring_again m rs t g r A E V G (Il r (or_introl eq_refl))) as (Y1 & Y2). rewrite Y1, Y2, X1, X2. auto. }
  destruct (X (tg_outer g) (fun x Hx => in_or_app _ _ _ (or_introl Hx))) as (O1 & O2). destruct (X (tg_inner g) (fun x Hx => in_or_app _ _ _ (or_intror Hx))) as (I1 & I2).
  unfold expected_region, read_region. cbn [s_data s_outer s_inner rg_data rg_outer rg_inner]. rewrite O1, I1, I2.
  destruct (W g G) as (Ne & _). destruct (tg_outer g) as [|r l]; [congruence|]. cbn [map] in *. rewrite O2. reflexivity.
Qed.

Lemma export_built {D} m (rs : list (region D)) t : outlines_only rs -> build_topology m rs = Ok t ->
  build_topology Release (exported t) = Ok t /\ forall m' t', build_topology m' (exported t) = Ok t' -> t' = t.
Proof.
  intros A E. pose proof (export_again m rs t A E) as X. pose proof (build_read m rs t E) as Rd.
  assert (U : forall m' t', build_topology m' (exported t) = Ok t' -> t' = t).
  { intros m' t' E'. eapply same_build; [exact E'|exact E|]. rewrite (build_read m' _ t' E'). exact X. }
  split; [|exact U].
  assert (exists t', build_topology Release (exported t) = Ok t') as (t' & E').
  { pose proof E as E1. unfold build_topology in *.
    destruct (add_regions m builder_new rs) as [b1|p] eqn:B1; [|discriminate].
    destruct (add_regions Release builder_new (exported t)) as [b2|p] eqn:B2; [|apply add_regions_panic in B2 as [B2 _]; discriminate]. cbn [bind] in *.
    apply (into_topology_iff Release (exported t) b2 B2). intros k. rewrite X, Rd. revert k. apply (into_topology_iff m rs b1 B1). eauto. }
  rewrite <- (U Release t' E') at 2. exact E'.
Qed.
