(** * NormMerge: merged rings as cycles of the topology's own edges *)
From Verif Require Import GeoProofs TopoProofs BuildProofs.
From Verif Require Export NormTwice MergeSpec.

(** ** Joining joined edges *)

Lemma Forall2_concat_inv {A B} (P : A -> B -> Prop) gr : forall xs, Forall2 P xs (concat gr) ->
  exists xss, concat xss = xs /\ Forall2 (Forall2 P) xss gr.
Proof.
  induction gr as [|g gr IH]; intros xs F; cbn [concat] in F.
  - inversion F; subst. exists []. split; [reflexivity|constructor].
  - apply Forall2_app_inv_r in F as (a & b & Fa & Fb & ->). destruct (IH b Fb) as (xss & <- & F). exists (a :: xss).
    split; [reflexivity|constructor; assumption].
Qed.

Lemma Forall2_swap {A B} (P : A -> B -> Prop) l l' : Forall2 P l l' -> Forall2 (fun b a => P a b) l' l.
Proof. induction 1; constructor; assumption. Qed.

Lemma concat_map_concat {A} (xss : list (list (list A))) : concat (map (@concat A) xss) = concat (concat xss).
Proof. induction xss as [|x xss IH]; [reflexivity|]. cbn [map concat]. rewrite concat_app, IH. reflexivity. Qed.

Lemma nonempty_incl a b : incl b a -> nonempty_pts a -> nonempty_pts b.
Proof. unfold nonempty_pts. rewrite !Forall_forall. auto. Qed.

Lemma joins_joins runs g e : nonempty_pts (concat runs) -> Forall2 joins runs g -> joins g e -> joins (concat runs) e.
Proof.
  intros N F (Ne & L & E). split; [|split].
  - intros H. destruct F as [|run x runs g (Nr & _) F]; [congruence|]. cbn [concat] in H. apply app_eq_nil in H as (-> & _). congruence.
  - apply Forall_forall. intros x Hx. apply in_concat in Hx as (run & Hr & Hx). destruct (Forall2_in_l _ _ _ _ F Hr) as (y & Hy & (_ & Ly & _)).
    rewrite Forall_forall in L, Ly. rewrite (Ly x Hx). auto.
  - rewrite E. apply walk_runs; assumption.
Qed.

Lemma joined_joined runs c out : nonempty_pts (concat runs) -> Forall2 joins runs c -> joined c out -> joined (concat runs) out.
Proof.
  intros N F (gr & (l & r & -> & E) & G). apply Forall2_app_inv_r in F as (rl & rr & Fl & Fr & ->).
  pose proof (Forall2_app Fr Fl) as F. rewrite <- E in F. apply Forall2_concat_inv in F as (xss & Ex & F).
  exists (map (@concat _) xss). split.
  - rewrite concat_map_concat, Ex, !concat_app. exists (concat rl), (concat rr). auto.
  - assert (N' : nonempty_pts (concat (concat xss))).
    { rewrite Ex. eapply nonempty_incl; [|exact N]. rewrite !concat_app. intros x Hx. apply in_app_iff in Hx. apply in_app_iff. tauto. }
    clear -F G N'. revert out G. induction F as [|xs g xss gr Hx F IH]; intros out G; inversion G as [|? e ? out' Hj G']; subst; [constructor|].
    cbn [map concat] in *. rewrite concat_app in N'. apply Forall_app in N' as (N1 & N2). constructor; [|apply IH; assumption].
    eapply joins_joins; eassumption.
Qed.

Lemma from_cycle_joined runs c out : nonempty_pts (concat runs) -> Forall2 joins runs c -> from_cycle c out -> from_cycle (concat runs) out.
Proof.
  intros N F (T & Fw & S). split; [|auto]. destruct T as [J|(e & e' & J & E)].
  - left. eapply joined_joined; eassumption.
  - right. exists e, e'. split; [|assumption]. eapply joined_joined; eassumption.
Qed.

Definition linked (run : list norm_edge) : Prop := exists p q, chain p (map ne_points run) q.

Lemma chain_runs runs c : Forall2 joins runs c -> Forall linked runs -> forall p q, chain p (map ne_points c) q ->
  chain p (map ne_points (concat runs)) q.
Proof.
  induction 1 as [|run e runs c Hj F IH]; intros L p q; [auto|]. inversion L as [|? ? (a & b & Ch) L']; subst.
  cbn [map chain concat]. intros (Fe & r & El & C). rewrite map_app. apply chain_app.
  destruct (joins_chain run e a b Hj Ch) as (E1 & E2). exists r. assert (a = p) by congruence. assert (b = r) by congruence. subst.
  split; [assumption|]. apply IH; assumption.
Qed.

(** ** The useful edges of a ring *)

Lemma useful_app a b : useful (a ++ b) = useful a ++ useful b.
Proof. apply filter_app. Qed.

Lemma useful_perm a b : Permutation a b -> Permutation (useful a) (useful b).
Proof. apply Permutation_filter. Qed.

Lemma useful_runs runs out : Forall2 joins runs out ->
  exists ru, Forall2 joins ru (useful out) /\ concat ru = useful (concat runs) /\ incl ru runs.
Proof.
  induction 1 as [|run e runs out Hj F (ru & H1 & H2 & H3)]; [exists []; repeat split; [constructor|intros x []]|].
  pose proof (run_kind run e Hj) as K. cbn [concat]. rewrite useful_app.
  assert (E : useful run = if redundantb e then [] else run).
  { unfold useful. rewrite (filter_kind _ run (negb (redundantb e))); [destruct (redundantb e); reflexivity|].
    eapply Forall_impl; [|exact K]. intros x ->. reflexivity. }
  rewrite E. unfold useful in *. cbn [filter]. destruct (redundantb e); cbn [negb].
  - exists ru. split; [assumption|]. split; [assumption|]. intros x Hx. right. auto.
  - exists (run :: ru). split; [constructor; assumption|]. split; [cbn [concat]; rewrite H2; reflexivity|].
    intros x [<-|Hx]; [left; reflexivity|right; auto].
Qed.

Lemma mixed_runs base out : good base -> from_cycle base out -> existsb redundantb out && negb (forallb redundantb out) = true ->
  exists ru, Forall2 joins ru (useful out) /\ Permutation (concat ru) (useful base) /\ Forall linked ru.
Proof.
  intros G (T & _) M. destruct T as [J|(e & e' & _ & -> & _)]; [|rewrite single_not_mixed in M; discriminate].
  destruct J as (runs & R & F). destruct (useful_runs runs out F) as (ru & H1 & H2 & H3). exists ru. split; [assumption|]. split.
  - rewrite H2. apply useful_perm. symmetry. apply rotation_perm. assumption.
  - pose proof (good_rotation _ _ R G) as (_ & _ & p & C). destruct (joins_chains runs out p p F C) as (_ & L).
    rewrite Forall_forall in L. apply Forall_forall. intros x Hx. apply L. auto.
Qed.

Lemma useful_none base out : tidied base out -> forallb redundantb out = true -> useful base = [].
Proof.
  intros T H. unfold useful. apply filter_forallb. rewrite <- H. rewrite !forallb_existsb. f_equal. symmetry.
  apply existsb_labels; [|apply tidied_labels; assumption|apply tidied_labels; assumption].
  intros a b E. rewrite (label_redundantb a b E). reflexivity.
Qed.

Lemma useful_all base out : tidied base out -> existsb redundantb out = false -> useful base = base.
Proof.
  intros T H. unfold useful. apply filter_existsb. rewrite <- H. symmetry.
  apply existsb_labels; [apply label_redundantb|apply tidied_labels; assumption|apply tidied_labels; assumption].
Qed.

(** ** Sides as cycles of edges of the topology *)

Definition directions {D} (t : topology D) (rs : list topo_ring) (bases : list (list norm_edge)) : Prop :=
  Forall2 (fun r b => b = seen_ring t r \/ b = flipped (seen_ring t r)) rs bases.

(** The expanded edges of the rings that are merged. *)
Lemma pool_expands bases nrs : Forall good bases -> Forall2 from_cycle bases nrs ->
  exists ru, Forall2 joins ru (pool nrs) /\ Permutation (concat ru ++ concat (filter (fun b => negb (existsb redundantb b)) bases)) (useful (concat bases)) /\
    Forall linked ru.
Proof.
  intros G F. induction F as [|b out bases nrs Fc F IHF].
  { exists []. repeat split; constructor. }
  inversion G as [|? ? Gb Gs]; subst. specialize (IHF Gs). clear G. destruct IHF as (ru & H1 & H2 & H3).
  rewrite pool_cons. cbn [concat filter]. rewrite useful_app.
  assert (Ex : existsb redundantb b = existsb redundantb out).
  { destruct Fc as (T & _). symmetry. apply existsb_labels; [apply label_redundantb|apply tidied_labels; assumption|apply tidied_labels; assumption]. }
  rewrite Ex. unfold pool at 1, mixed. cbn [filter].
  destruct (existsb redundantb out && negb (forallb redundantb out)) eqn:M.
  - apply andb_true_iff in M as (M1 & M2). destruct (mixed_runs b out Gb Fc) as (rb & R1 & R2 & R3); [rewrite M1, M2; reflexivity|].
    rewrite M1. cbn [negb map concat]. rewrite app_nil_r. exists (rb ++ ru). split; [apply Forall2_app; assumption|]. split.
    + rewrite concat_app, <- app_assoc, R2, H2. reflexivity.
    + apply Forall_app. auto.
  - cbn [map concat app]. destruct (existsb redundantb out) eqn:E; cbn [negb].
    + cbn [andb] in M. apply negb_false_iff in M. rewrite (useful_none b out (proj1 Fc) M). exists ru. auto.
    + rewrite (useful_all b out (proj1 Fc) E). exists ru. split; [assumption|]. split; [|assumption]. cbn [concat].
      rewrite <- H2. rewrite !app_assoc. apply Permutation_app_tail, Permutation_app_comm.
Qed.

Lemma nonempty_good bs : Forall good bs -> nonempty_pts (concat bs).
Proof.
  induction 1 as [|b bs H HF IH]; [constructor|]. cbn [concat]. apply Forall_app. split; [|assumption]. apply long_nonempty, H.
Qed.

Lemma useful_incl es : incl (useful es) es.
Proof. intros x H. apply filter_In in H. tauto. Qed.

Lemma directions_good {D} (t : topology D) rs bases : (forall r, In r rs -> good (seen_ring t r)) -> directions t rs bases -> Forall good bases.
Proof.
  intros G F. induction F as [|r b rs bases H F IH]; constructor.
  - destruct H as [->| ->]; [|apply flipped_good]; apply G; left; reflexivity.
  - apply IH. intros x Hx. apply G. right. assumption.
Qed.

(** The rings of a normalized side are the cycles of the useful edges of its rings. *)
Lemma side_outline {D} (t : topology D) o rs outs : (forall r, In r rs -> good (seen_ring t r)) -> side_fact t o rs outs ->
  exists bases cs outs', directions t rs bases /\ cycles_of (useful (concat bases)) cs /\ Permutation outs outs' /\
    Forall2 from_cycle cs outs' /\ Forall good cs /\
    ((forall r, In r rs -> Z.abs (shoelaces (map ne_points (seen_ring t r))) < 2 ^ 63) -> bases = headed_rings t o rs).
Proof.
  intros Gs (nrs & cycles & ms & F1 & C & F2 & P & _ & _ & _ & _).
  assert (Y : exists bases, directions t rs bases /\ Forall2 from_cycle bases nrs /\
     ((forall r, In r rs -> Z.abs (shoelaces (map ne_points (seen_ring t r))) < 2 ^ 63) -> bases = headed_rings t o rs)).
  { clear C F2 P. induction F1 as [|r out rs nrs H F IH].
    - exists []. repeat split; constructor.
    - destruct IH as (bs & H1 & H2 & H3); [intros x Hx; apply Gs; right; assumption|].
      pose proof H as ((b & HB & Fc) & _ & _ & _ & _ & W). exists (b :: bs). split; [constructor; assumption|]. split; [constructor; assumption|].
      intros A. unfold headed_rings in *. cbn [map]. f_equal; [|apply H3; intros x Hx; apply A; right; assumption].
      specialize (W (A r (or_introl eq_refl))). specialize (Gs r (or_introl eq_refl)). set (s := seen_ring t r) in *.
      assert (Gb : good b) by (destruct HB as [->| ->]; [assumption|apply flipped_good; assumption]).
      destruct (good_tidied b out Gb (proj1 Fc)) as (_ & _ & Ar).
      destruct HB as [->| ->]; unfold headed; [|rewrite flipped_area in Ar]; destruct o; cbn [winds] in W;
        try destruct (Z.ltb_spec 0 (shoelaces (map ne_points s))); try destruct (Z.ltb_spec (shoelaces (map ne_points s)) 0); try lia; reflexivity. }
  destruct Y as (bases & HD & HF & HH). pose proof (directions_good t rs bases Gs HD) as Gb.
  destruct (pool_expands bases nrs Gb HF) as (ru & R1 & R2 & R3). destruct C as (PC & FC).
  apply Forall2_swap in R1. destruct (Permutation_Forall2 (Permutation_sym PC) R1) as (ru' & Pr & R1'). apply Forall2_swap in R1'.
  apply Forall2_concat_inv in R1' as (rss & Er & Fr). rewrite <- Er in Pr. clear R1.
  assert (Lr : Forall linked (concat rss)) by (apply (Permutation_Forall Pr); assumption).
  assert (Nr : nonempty_pts (concat (concat rss))).
  { pose proof (nonempty_good _ Gb) as N. apply (nonempty_incl _ (useful (concat bases))) in N; [|apply useful_incl].
    eapply nonempty_incl; [|exact N]. intros x Hx. apply (Permutation_in x R2). apply in_app_iff. left.
    apply in_concat in Hx as (l & Hl & Hx). apply in_concat. exists l. split; [|assumption]. apply (Permutation_in l (Permutation_sym Pr)). assumption. }
  pose (un := filter (fun b => negb (existsb redundantb b)) bases).
  assert (Fu : Forall2 from_cycle un (untouched nrs)).
  { unfold un, untouched. clear -HF. induction HF as [|b out bases nrs Fc F IH]; [constructor|]. cbn [filter].
    assert (Ex : existsb redundantb b = existsb redundantb out).
    { destruct Fc as (T & _). symmetry. apply existsb_labels; [apply label_redundantb|apply tidied_labels; assumption|apply tidied_labels; assumption]. }
    rewrite Ex. destruct (negb (existsb redundantb out)); [constructor; assumption|assumption]. }
  assert (Lc : nonempty_pts (concat (concat rss)) -> Forall2 from_cycle (map (@concat _) rss) ms /\
     Forall (fun c => c <> [] /\ closed_chain (map ne_points c)) (map (@concat _) rss)).
  { clear -F2 FC Fr Lr. revert ms F2. induction Fr as [|rs c rss cycles Hr Fr IH]; intros ms F2 N; inversion F2 as [|? out ? ms' Hc F2']; subst; [split; constructor|].
    cbn [concat map] in *. rewrite concat_app in N. apply Forall_app in N as (N1 & N2). apply Forall_app in Lr as (L1 & L2).
    inversion FC as [|? ? (Nc & p & Ch) FC']; subst. destruct (IH FC' L2 ms' F2' N2) as (I1 & I2). split; constructor; try assumption.
    - eapply from_cycle_joined; eassumption.
    - split; [|exists p; eapply chain_runs; eassumption]. intros E. destruct Hr as [|run x rs c (Nr & _) Hr]; [congruence|].
      cbn [concat] in E. apply app_eq_nil in E as (-> & _). congruence. }
  destruct (Lc Nr) as (L1 & L2).
  exists bases, (map (@concat _) rss ++ un), (ms ++ untouched nrs).
  assert (CY : cycles_of (useful (concat bases)) (map (concat (A:=norm_edge)) rss ++ un)).
  { split.
    - rewrite concat_app, concat_map_concat, <- R2. apply Permutation_app_tail.
      clear -Pr. induction Pr; cbn [concat]; [constructor|apply Permutation_app_head; assumption| |etransitivity; eassumption].
      rewrite !app_assoc. apply Permutation_app_tail, Permutation_app_comm.
    - apply Forall_app. split; [assumption|]. apply Forall_forall. intros c Hc. apply filter_In in Hc as (Hc & _).
      rewrite Forall_forall in Gb. destruct (Gb c Hc) as (X & _ & Z). auto. }
  split; [assumption|]. split; [exact CY|]. split; [rewrite P; apply Permutation_app_comm|].
  split; [apply Forall2_app; assumption|]. split; [|assumption].
  destruct CY as (PX & FX). apply Forall_forall. intros c Hc. rewrite Forall_forall in FX. destruct (FX c Hc) as (X1 & X2). split; [assumption|]. split; [|assumption].
  apply Forall_forall. intros ps Hps. apply in_map_iff in Hps as (e & <- & He). assert (Hu : In e (useful (concat bases))).
  { apply (Permutation_in e PX). apply in_concat. eauto. }
  apply useful_incl, in_concat in Hu as (b & Hb & Hu). rewrite Forall_forall in Gb. apply (good_long b e (Gb b Hb) Hu).
Qed.

(** ** How many edges pass along a segment *)

Definition bearsb (s : list point) (e : norm_edge) : bool := existsb (path_eqb s) (sides [ne_points e]).
Definition bears (s : list point) (es : list norm_edge) : nat := length (filter (bearsb s) es).

Lemma bearsb_spec s e : bearsb s e = true <-> In s (sides [ne_points e]).
Proof.
  unfold bearsb. rewrite existsb_exists. split.
  - intros (x & Hx & E). destruct (path_eqb_spec s x); [subst; assumption|discriminate].
  - intros H. exists s. split; [assumption|]. destruct (path_eqb_spec s s); congruence.
Qed.

Lemma bears_app s a b : bears s (a ++ b) = (bears s a + bears s b)%nat.
Proof. unfold bears. rewrite filter_app, app_length. reflexivity. Qed.

Lemma bears_perm s a b : Permutation a b -> bears s a = bears s b.
Proof. intros P. unfold bears. apply Permutation_length, Permutation_filter. assumption. Qed.

Lemma bears_in s e es : In e es -> In s (sides [ne_points e]) -> (1 <= bears s es)%nat.
Proof.
  intros He Hs. unfold bears. destruct (filter (bearsb s) es) as [|x l] eqn:E; [|cbn; lia]. exfalso.
  assert (In e []) by (rewrite <- E; apply filter_In; split; [assumption|apply bearsb_spec; assumption]). contradiction.
Qed.

Lemma bears_one s e : (bears s [e] <= 1)%nat.
Proof. unfold bears. cbn [filter]. destruct (bearsb s e); cbn; lia. Qed.

Lemma bears_sub s es f : (bears s (filter f es) <= bears s es)%nat.
Proof.
  induction es as [|e es IH]; [reflexivity|]. change (e :: es) with ([e] ++ es). rewrite filter_app, !bears_app.
  cbn [filter]. destruct (f e); cbn [app]; [lia|]. change (bears s []) with 0%nat. lia.
Qed.

Lemma bears_walk s run e : linked run -> joins run e -> (bears s [e] <= bears s run)%nat.
Proof.
  intros (p & q & C) (_ & _ & E). unfold bears at 1. cbn [filter]. destruct (bearsb s e) eqn:H; cbn [length]; [|lia].
  apply bearsb_spec in H. rewrite E in H. unfold walk in H. rewrite (sides_glue _ _ _ C) in H. unfold sides in H.
  apply in_map_iff in H as (g & <- & Hg). apply in_flat_map in Hg as (ps & Hps & Hg). apply in_map_iff in Hps as (x & <- & Hx).
  apply (bears_in _ x); [assumption|]. unfold sides. cbn [flat_map]. rewrite app_nil_r. apply in_map. assumption.
Qed.

Lemma bears_joined s base out : good base -> joined base out -> (bears s out <= bears s base)%nat.
Proof.
  intros G (runs & R & F). pose proof (good_rotation _ _ R G) as (_ & _ & p & C). destruct (joins_chains runs out p p F C) as (_ & L).
  rewrite (bears_perm s _ _ (rotation_perm _ _ R)). clear -F L. induction F as [|run e runs out Hj F IH]; [reflexivity|].
  inversion L as [|? ? L1 L2]; subst. cbn [concat]. rewrite bears_app. change (e :: out) with ([e] ++ out). rewrite bears_app.
  pose proof (bears_walk s run e L1 Hj). specialize (IH L2). lia.
Qed.

Lemma bears_tidied s base out : good base -> tidied base out -> (bears s out <= bears s base)%nat.
Proof.
  intros G [J|(e & e' & J & -> & _ & T)]; [apply bears_joined; assumption|].
  transitivity (bears s [e]); [|apply bears_joined; assumption]. unfold bears. cbn [filter].
  destruct (bearsb s e') eqn:H; [|cbn; lia]. apply bearsb_spec in H. apply (Permutation_in s (Permutation_sym (sides_turned _ _ T))) in H.
  apply bearsb_spec in H. rewrite H. reflexivity.
Qed.

Lemma bearsb_flip s e : bearsb s (flip e) = bearsb s e.
Proof.
  apply eq_true_iff_eq. rewrite !bearsb_spec. split; [apply sides_flip|]. intros H. apply sides_flip. rewrite flip_flip. assumption.
Qed.

Lemma bears_map_flip s es : bears s (map flip es) = bears s es.
Proof. unfold bears. induction es as [|e es IH]; [reflexivity|]. cbn [map filter]. rewrite bearsb_flip. destruct (bearsb s e); cbn [length]; lia. Qed.

Lemma flipped_map es : flipped es = map flip (rev es).
Proof. reflexivity. Qed.

Lemma useful_flip es : useful (map flip es) = map flip (useful es).
Proof.
  unfold useful. induction es as [|e es IH]; [reflexivity|]. cbn [map filter]. rewrite IH.
  replace (redundantb (flip e)) with (redundantb e) by (apply label_redundantb; reflexivity). destruct (redundantb e); reflexivity.
Qed.

Lemma bears_flipped s es : bears s (useful (flipped es)) = bears s (useful es).
Proof. rewrite flipped_map, useful_flip, bears_map_flip. apply bears_perm, useful_perm. symmetry. apply Permutation_rev. Qed.

Lemma bears_directions {D} (t : topology D) s rs bases : directions t rs bases ->
  bears s (useful (concat bases)) = bears s (useful (flat_map (seen_ring t) rs)).
Proof.
  induction 1 as [|r b rs bases H F IH]; [reflexivity|]. cbn [concat flat_map]. rewrite !useful_app, !bears_app, IH. f_equal.
  destruct H as [->| ->]; [reflexivity|apply bears_flipped].
Qed.

Lemma bears_cycles s cs outs : Forall good cs -> Forall2 from_cycle cs outs -> (bears s (concat outs) <= bears s (concat cs))%nat.
Proof.
  intros G F. induction F as [|c out cs outs Fc F IH]; [reflexivity|]. inversion G as [|? ? G1 G2]; subst. cbn [concat].
  rewrite !bears_app. pose proof (bears_tidied s c out G1 (proj1 Fc)). specialize (IH G2). lia.
Qed.

Lemma concat_perm {A} (a b : list (list A)) : Permutation a b -> Permutation (concat a) (concat b).
Proof.
  induction 1; cbn [concat]; [constructor|apply Permutation_app_head; assumption| |etransitivity; eassumption].
  rewrite !app_assoc. apply Permutation_app_tail, Permutation_app_comm.
Qed.

Lemma bears_side {D} (t : topology D) s o rs outs : (forall r, In r rs -> good (seen_ring t r)) -> side_fact t o rs outs ->
  (bears s (concat (sized outs)) <= bears s (useful (flat_map (seen_ring t) rs)))%nat.
Proof.
  intros G S. destruct (side_outline t o rs outs G S) as (bases & cs & outs' & Dr & (PC & _) & P & F & Gc & _).
  rewrite <- (bears_directions t s rs bases Dr), <- (bears_perm s _ _ PC).
  etransitivity; [|apply (bears_cycles s cs outs'); assumption]. rewrite <- (bears_perm s _ _ (concat_perm _ _ P)).
  unfold sized. clear. induction outs as [|o outs IH]; [reflexivity|]. cbn [filter concat]. rewrite bears_app.
  destruct (negb _); cbn [concat]; [rewrite bears_app|]; lia.
Qed.

(** ** No region of the result uses an edge twice *)

Lemma normal_region_of {D} m (t t' : topology D) rg' : valid t -> normalize m t = Ok t' -> In rg' (tp_regions t') ->
  exists rg outs ins, In rg (tp_regions t) /\ side_fact t Clockwise (tg_outer rg) outs /\ side_fact t CounterClockwise (tg_inner rg) ins /\
    map (read_ring (tp_edges t')) (tg_outer rg') = map as_read (sized outs) /\
    map (read_ring (tp_edges t')) (tg_inner rg') = map as_read (sized ins).
Proof.
  intros V N Hg. destruct (normalize_by_region m t t' V N) as (parts & E & F).
  assert (I : In (read_region (tp_edges t') rg') (read_topology t')) by (apply in_map; assumption).
  rewrite E in I. apply in_concat in I as (part & Hp & I). destruct (Forall2_in_r _ _ _ _ F Hp) as (rg & Hr & (_ & _ & (outs & ins & So & Si & Ep))).
  exists rg, outs, ins. split; [assumption|]. split; [assumption|]. split; [assumption|]. subst part. unfold read_back in I.
  destruct (sized outs); [destruct I|]. destruct I as [I|[]]. unfold read_region in I. injection I as _ I1 I2. auto.
Qed.

Lemma read_des {D} (t' : topology D) rs xs : map (read_ring (tp_edges t')) rs = map as_read xs ->
  Forall2 (fun d x => read_de (tp_edges t') d = Some (ne_points x)) (flat_map tr_des rs) (concat xs).
Proof.
  intros E. apply map_eq_Forall2 in E. rewrite flat_map_concat_map. apply Forall2_concat.
  induction E as [|r out rs xs E F IH]; cbn [map]; constructor; [|assumption].
  unfold read_ring, as_read in E. rewrite map_map in E. apply (map_eq_Forall2 _ (fun x => Some (ne_points x))). assumption.
Qed.

Lemma uses_bear es k te s ds xs : nth_error es k = Some te -> In s (sides [te_points te]) ->
  Forall2 (fun d x => read_de es d = Some (ne_points x)) ds xs ->
  (count_occ Nat.eq_dec (map de_edge ds) k <= bears s xs)%nat.
Proof.
  intros Hk Hs F. induction F as [|d x ds xs E F IH]; [cbn; lia|]. change (x :: xs) with ([x] ++ xs). rewrite bears_app. cbn [map count_occ].
  destruct (Nat.eq_dec (de_edge d) k) as [Ed|_]; [|lia]. enough (1 <= bears s [x])%nat by lia. apply (bears_in s x); [left; reflexivity|].
  apply read_de_some in E as (te' & H1 & H2). rewrite Ed in H1. assert (te' = te) by congruence. subst te'.
  rewrite H2. apply (sides_oriented _ (de_dir d)). destruct (de_dir d); cbn [oriented]; rewrite ?rev_involutive; assumption.
Qed.

Lemma region_uses_regions {D} (t : topology D) i rg k : nth_error (tp_regions t) i = Some rg ->
  count_occ Nat.eq_dec (edge_regions t k) i = region_uses k rg.
Proof.
  rewrite edge_regions_eq. unfold enumerate. intros H.
  assert (Q : forall s l j, nth_error l j = Some rg ->
    count_occ Nat.eq_dec (flat_map (fun ir => repeat (fst ir) (region_uses k (snd ir))) (combine (seq s (length l)) l)) (s + j)%nat = region_uses k rg).
  { clear. intros s l. revert s. induction l as [|g l IH]; intros s [|j]; cbn [nth_error]; try discriminate; intros H;
      cbn [length seq combine flat_map fst snd]; rewrite count_occ_app.
    - injection H as ->. rewrite Nat.add_0_r, count_occ_repeat_eq by reflexivity.
      rewrite (proj1 (count_occ_not_In _ _ _)); [lia|]. intros Hi. apply in_flat_map in Hi as ((n & g) & Hn & Hr). cbn [fst snd] in Hr.
      apply repeat_spec in Hr. subst n. apply in_combine_l, in_seq in Hn. lia.
    - rewrite count_occ_repeat_neq by lia. rewrite <- (IH (S s) j H). cbn [Nat.add]. f_equal. lia. }
  apply (Q 0%nat _ i H).
Qed.

(** Along a segment, a region of the given topology has at most one useful edge. *)
Lemma bears_useful {D} (t : topology D) rg s : valid t -> separate t -> In rg (tp_regions t) ->
  (bears s (useful (flat_map (seen_ring t) (region_rings rg))) <= 1)%nat.
Proof.
  intros V Sep Hg. destruct (Nat.le_gt_cases (bears s (useful (flat_map (seen_ring t) (region_rings rg)))) 1) as [L|L]; [assumption|]. exfalso.
  assert (Y : exists k te, nth_error (tp_edges t) k = Some te /\ In s (sides [te_points te]) /\
     (exists d, In d (region_des rg) /\ de_edge d = k /\ existsb redundantb (seen t d) = false) ).
  { unfold bears in L. destruct (filter (bearsb s) (useful (flat_map (seen_ring t) (region_rings rg)))) as [|e l] eqn:E; [cbn in L; lia|].
    assert (I : In e (filter (bearsb s) (useful (flat_map (seen_ring t) (region_rings rg))))) by (rewrite E; left; reflexivity).
    apply filter_In in I as (I & Be). apply filter_In in I as (I & Ru). apply in_flat_map in I as (r & Hr & I). apply in_flat_map in I as (d & Hd & I).
    pose proof I as I'. unfold seen in I. destruct (nth_error (tp_edges t) (de_edge d)) as [te|] eqn:Ek; [|destruct I]. destruct I as [<-|[]].
    exists (de_edge d), te. split; [assumption|]. split; [apply bearsb_spec in Be; apply (sides_oriented _ (de_dir d)); exact Be|].
    exists d. split; [apply in_flat_map; eauto|]. split; [reflexivity|]. unfold seen. rewrite Ek. cbn [existsb]. rewrite orb_false_r. apply negb_true_iff. exact Ru. }
  destruct Y as (k & te & Hk & Hs & (d0 & Hd0 & Ed0 & Rd0)).
  assert (C : (bears s (useful (flat_map (seen_ring t) (region_rings rg))) <= region_uses k rg)%nat).
  { unfold region_uses, region_des. unfold seen_ring. clear -Sep Hk Hs. induction (region_rings rg) as [|r rs IH]; [reflexivity|]. cbn [flat_map].
    rewrite useful_app, bears_app, map_app, count_occ_app. enough (bears s (useful (flat_map (seen t) (tr_des r))) <= count_occ Nat.eq_dec (map de_edge (tr_des r)) k)%nat by lia.
    clear IH rs. induction (tr_des r) as [|d ds IH]; [reflexivity|]. cbn [flat_map map count_occ]. rewrite useful_app, bears_app.
    assert (X : (bears s (useful (seen t d)) <= if Nat.eq_dec (de_edge d) k then 1 else 0)%nat).
    { unfold useful. etransitivity; [apply bears_sub|]. unfold seen. destruct (nth_error (tp_edges t) (de_edge d)) as [te'|] eqn:E; [|cbn; lia].
      unfold bears. cbn [filter]. destruct (bearsb s _) eqn:Bs; [|cbn; lia]. apply bearsb_spec in Bs. apply sides_oriented in Bs.
      destruct (Nat.eq_dec (de_edge d) k) as [_|Ne]; [cbn; lia|]. exfalso. apply Ne. eapply Sep; eassumption. }
    destruct (Nat.eq_dec (de_edge d) k); lia. }
  apply In_nth_error in Hg as (i & Hi). rewrite <- (region_uses_regions t i rg k Hi) in C.
  assert (L2 : (length (edge_regions t k) <= 2)%nat).
  { destruct V as ((_ & _ & V3) & _). destruct (V3 k te Hk) as (L' & _). unfold edge_regions. rewrite map_length. assumption. }
  assert (E2 : edge_regions t k = [i; i]).
  { destruct (edge_regions t k) as [|a [|b [|c l]]]; cbn [length count_occ] in *; try lia; repeat destruct Nat.eq_dec; subst; try lia; reflexivity. }
  unfold seen in Rd0. rewrite Ed0, Hk, E2 in Rd0. cbn in Rd0. rewrite Nat.eqb_refl in Rd0. discriminate.
Qed.

Lemma normal_uses_once {D} m (t t' : topology D) rg' k : valid t -> separate t -> normalize m t = Ok t' -> In rg' (tp_regions t') ->
  (region_uses k rg' <= 1)%nat.
Proof.
  intros V Sep N Hg. destruct (normal_region_of m t t' rg' V N Hg) as (rg & outs & ins & Hr & So & Si & E1 & E2).
  destruct (nth_error (tp_edges t') k) as [te|] eqn:Hk.
  2:{ unfold region_uses. rewrite (proj1 (count_occ_not_In _ _ _)); [lia|]. intros Hi. apply in_map_iff in Hi as (d & <- & Hd).
      pose proof (read_des t' (region_rings rg') (sized outs ++ sized ins)) as F. unfold region_rings in F. rewrite map_app, E1, E2, <- map_app in F.
      destruct (Forall2_in_l _ _ _ _ (F eq_refl) Hd) as (x & _ & Ex). cbv beta in Ex. apply read_de_some in Ex as (te & Ex & _). congruence. }
  assert (G : forall r, In r (tg_outer rg ++ tg_inner rg) -> good (seen_ring t r)) by (intros; eapply seen_ring_good; eassumption).
  destruct (side_exists (te_points te)) as (s & Hs).
  { apply normalize_Ok in N as (gs & _ & B). destruct (build_edges_stored m gs t' B) as (_ & St). apply nth_error_In in Hk.
    rewrite Forall_forall in St. apply stored_length, St, in_map. assumption. }
  pose proof (read_des t' (region_rings rg') (sized outs ++ sized ins)) as F. unfold region_rings in F. rewrite map_app, E1, E2, <- map_app in F. specialize (F eq_refl).
  pose proof (uses_bear _ k te s _ _ Hk Hs F) as C. unfold region_uses, region_des, region_rings.
  pose proof (bears_useful t rg s V Sep Hr) as U. unfold region_rings in U. rewrite flat_map_app, useful_app, bears_app in U.
  rewrite concat_app, bears_app in C.
  pose proof (bears_side t s _ _ _ (fun r Hr => G r (in_or_app _ _ _ (or_introl Hr))) So).
  pose proof (bears_side t s _ _ _ (fun r Hr => G r (in_or_app _ _ _ (or_intror Hr))) Si). lia.
Qed.

Lemma normal_not_redundant {D} m (t t' : topology D) rg' : valid t -> separate t -> normalize m t = Ok t' -> In rg' (tp_regions t') ->
  nothing_redundant t' rg'.
Proof.
  intros V Sep N Hg r e Hr He Re. apply seen_edge in He as (d & te & Hd & Ek & ->). unfold redundant in Re. cbn [ne_reg0 ne_reg1] in Re.
  apply In_nth_error in Hg as (i & Hi). pose proof (region_used t' i rg' r d Hi Hr Hd) as Hu.
  assert (Y : exists a, (2 <= count_occ Nat.eq_dec (edge_regions t' (de_edge d)) a)%nat /\ In a (edge_regions t' (de_edge d))).
  { destruct (edge_regions t' (de_edge d)) as [|a [|b l]]; [destruct Hu|discriminate|]. cbn [nth_error] in Re. injection Re as ->.
    exists b. split; [|left; reflexivity]. cbn [count_occ]. destruct (Nat.eq_dec b b); [lia|congruence]. }
  destruct Y as (a & C & Ha). destruct (used_region t' a _ Ha) as (ga & _ & _ & Hga & _).
  rewrite (region_uses_regions t' a ga _ Hga) in C. pose proof (normal_uses_once m t t' ga (de_edge d) V Sep N (nth_error_In _ _ Hga)). lia.
Qed.

Lemma uses_once_distinct {D} (rg : topo_region D) : (forall k, (region_uses k rg <= 1)%nat) -> NoDup (map de_edge (region_des rg)).
Proof. intros H. apply (NoDup_count_occ Nat.eq_dec). exact H. Qed.
