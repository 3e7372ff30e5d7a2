(** * NormAdjacent: neighbours stay neighbours when boundaries are simple *)
From Verif Require Import GeoProofs TopoProofs BuildProofs.
From Verif Require Export NormLaws.

(** ** Cycles that pass each point once *)

Definition flip (e : norm_edge) : norm_edge := NE (rev (ne_points e)) (ne_reg0 e) (ne_reg1 e).

Definition visits (c : list norm_edge) : list point := flat_map (@removelast point) (map ne_points c).

Lemma flip_flip e : flip (flip e) = e.
Proof. destruct e as [ps a b]. unfold flip. cbn. rewrite rev_involutive. reflexivity. Qed.

Lemma in_flip e c : In (flip e) (flipped c) <-> In e c.
Proof.
  unfold flipped. rewrite in_map_iff. split.
  - intros (f & E & Hf). apply in_rev in Hf. fold (flip f) in E. apply (f_equal flip) in E. rewrite !flip_flip in E. congruence.
  - intros H. exists e. split; [reflexivity|]. apply -> in_rev. assumption.
Qed.

Lemma in_flip' e c : In e (flipped c) <-> In (flip e) c.
Proof. rewrite <- (in_flip (flip e) c), flip_flip. reflexivity. Qed.

Lemma flip_label e : label (flip e) = label e.
Proof. reflexivity. Qed.

Lemma flip_first e : first (ne_points (flip e)) = final (ne_points e).
Proof. apply first_rev. Qed.
Lemma flip_final e : final (ne_points (flip e)) = first (ne_points e).
Proof. apply final_rev. Qed.

Lemma nodup_app3 {A} (a b : list A) : NoDup (a ++ b) -> NoDup a /\ NoDup b /\ forall x, In x a -> In x b -> False.
Proof.
  induction a as [|x a IH]; cbn [app]; intros N; [split; [constructor|split; [assumption|intros x []]]|].
  inversion N as [|? ? Ni N']; subst. destruct (IH N') as (N1 & N2 & N3). split; [|split; [assumption|]].
  - constructor; [|assumption]. intros H. apply Ni. apply in_app_iff. auto.
  - intros y [<-|Hy] Hb; [apply Ni; apply in_app_iff; auto|eauto].
Qed.

Lemma nodup_flat_map {A B} (f : A -> list B) L u v x : NoDup (flat_map f L) -> In u L -> In v L ->
  In x (f u) -> In x (f v) -> u = v.
Proof.
  induction L as [|a L IH]; [intros _ []|]. cbn [flat_map]. intros N. apply nodup_app3 in N as (N1 & N2 & N3).
  intros [<-|Hu] [<-|Hv] Xu Xv; [reflexivity| | |auto]; exfalso; apply (N3 x); try assumption; apply in_flat_map; eauto.
Qed.

Lemma nodup_map_inj {A B} (f : A -> B) l x y : NoDup (map f l) -> In x l -> In y l -> f x = f y -> x = y.
Proof.
  induction l as [|a l IH]; [intros _ []|]. cbn [map]. intros N. inversion N as [|? ? Nin N']; subst.
  intros [<-|Hx] [<-|Hy] E; [reflexivity| | |auto]; exfalso; apply Nin; [rewrite E|rewrite <- E]; apply in_map; assumption.
Qed.

Definition circuit (c : list norm_edge) : Prop :=
  good c /\ NoDup (visits c) /\ shoelaces (map ne_points c) <> 0.

Lemma good_long c e : good c -> In e c -> (2 <= length (ne_points e))%nat.
Proof. intros (_ & L & _) H. rewrite Forall_forall in L. apply L. apply in_map. assumption. Qed.

Lemma removelast_first ps p : (2 <= length ps)%nat -> first ps = Some p -> In p (removelast ps).
Proof. destruct ps as [|a [|b l]]; cbn; try lia. intros _ [= ->]. left. reflexivity. Qed.

Lemma in_visits c e p : In e c -> In p (removelast (ne_points e)) -> In p (visits c).
Proof. intros He Hp. apply in_flat_map. exists (ne_points e). split; [apply in_map; assumption|assumption]. Qed.

Lemma nodup_starts c : Forall (fun e => (2 <= length e)%nat) (map ne_points c) -> NoDup (visits c) -> NoDup (starts c).
Proof.
  induction c as [|e c IH]; intros L N; [constructor|]. inversion L as [|? ? Le Lc]; subst.
  unfold visits in N. cbn [map flat_map] in N. apply nodup_app3 in N as (N1 & N2 & N3).
  change (starts (e :: c)) with (first (ne_points e) :: starts c). constructor; [|apply IH; assumption].
  intros H. unfold starts in H. rewrite map_map in H. apply in_map_iff in H as (f & E & Hf).
  rewrite Forall_forall in Lc. assert (Lf : (2 <= length (ne_points f))%nat) by (apply Lc, in_map; assumption).
  destruct (ne_points e) as [|p l] eqn:Ep; [cbn in Le; lia|]. cbn [first hd_error] in E.
  apply (N3 p); [apply removelast_first; [assumption|reflexivity]|].
  apply (in_visits c f p Hf). apply removelast_first; assumption.
Qed.

Lemma circuit_starts c : circuit c -> NoDup (starts c).
Proof. intros ((_ & L & _) & N & _). apply nodup_starts; assumption. Qed.

Lemma good_walk c : good c -> walk c = close (visits c).
Proof.
  intros (Ne & L & (p & C)). unfold walk. rewrite (glue_closed p); [|destruct c; [congruence|discriminate]|assumption|assumption].
  unfold visits. rewrite flat_map_concat_map. reflexivity.
Qed.

Lemma visits_flipped c : good c -> Permutation (visits (flipped c)) (visits c).
Proof.
  intros G. pose proof (good_walk c G) as E. pose proof (good_walk _ (flipped_good c G)) as E'.
  rewrite (flipped_walk c G), E in E'. destruct (rev_close (visits c)) as (c' & Ec & R). rewrite Ec in E'.
  apply close_inj in E'. rewrite <- E'. rewrite <- (rotation_perm _ _ R). symmetry. apply Permutation_rev.
Qed.

Lemma circuit_flipped c : circuit c -> circuit (flipped c).
Proof.
  intros (G & N & A). split; [apply flipped_good; assumption|]. split.
  - eapply Permutation_NoDup; [symmetry; apply visits_flipped; assumption|assumption].
  - rewrite flipped_area. lia.
Qed.

Lemma visits_perm a b : Permutation a b -> Permutation (visits a) (visits b).
Proof. intros P. unfold visits. apply Permutation_flat_map, Permutation_map. assumption. Qed.

Lemma circuit_rotation a b : rotation a b -> circuit a -> circuit b.
Proof.
  intros R (G & N & A). split; [eapply good_rotation; eassumption|]. split.
  - eapply Permutation_NoDup; [apply visits_perm, rotation_perm, R|assumption].
  - erewrite <- shoelaces_perm; [eassumption|]. apply Permutation_map, rotation_perm. assumption.
Qed.

(** ** Following edges *)

Definition leads (f g : norm_edge) : Prop := final (ne_points f) = first (ne_points g).

Lemma starts_inj c e f : NoDup (starts c) -> In e c -> In f c -> first (ne_points e) = first (ne_points f) -> e = f.
Proof. unfold starts. rewrite map_map. intros N. apply (nodup_map_inj (fun e => first (ne_points e)) c); assumption. Qed.

Lemma good_starts_ends c : good c -> Permutation (starts c) (ends c).
Proof.
  intros (_ & _ & (p & C)). apply chain_ends in C. apply (Permutation_cons_inv (a := Some p)).
  rewrite <- C. apply Permutation_cons_append.
Qed.

Lemma ends_inj c e f : circuit c -> In e c -> In f c -> final (ne_points e) = final (ne_points f) -> e = f.
Proof.
  intros C. pose proof (circuit_starts c C) as N. apply (Permutation_NoDup (good_starts_ends c (proj1 C))) in N.
  unfold ends in N. rewrite map_map in N. apply (nodup_map_inj (fun e => final (ne_points e)) c); assumption.
Qed.

Lemma next_exists c f : good c -> In f c -> exists g, In g c /\ leads f g.
Proof.
  intros G Hf. assert (H : In (final (ne_points f)) (ends c)) by (unfold ends; rewrite map_map; apply (in_map (fun e => final (ne_points e))); assumption).
  apply (Permutation_in _ (Permutation_sym (good_starts_ends c G))) in H. unfold starts in H. rewrite map_map in H.
  apply in_map_iff in H as (g & E & Hg). exists g. split; [assumption|]. symmetry. exact E.
Qed.

Lemma final_visited c f p : good c -> In f c -> final (ne_points f) = Some p -> In p (visits c).
Proof.
  intros G Hf E. destruct (next_exists c f G Hf) as (g & Hg & L). apply (in_visits c g p Hg).
  apply removelast_first; [eapply good_long; eassumption|]. rewrite <- L. assumption.
Qed.

Lemma first_visited c f p : good c -> In f c -> first (ne_points f) = Some p -> In p (visits c).
Proof. intros G Hf E. apply (in_visits c f p Hf). apply removelast_first; [eapply good_long; eassumption|assumption]. Qed.

(** A circuit does not turn back on an edge: it would have no area. *)
Lemma in_rotation {A} (x : A) l : In x l -> exists w, rotation l (x :: w).
Proof. intros H. apply in_split in H as (a & b & ->). exists (b ++ a). exists a, (x :: b). auto. Qed.

Lemma no_return a f : circuit a -> In f a -> In (flip f) a -> False.
Proof.
  intros C Hf Hg. destruct (in_rotation f a Hf) as (w & R). pose proof (circuit_rotation _ _ R C) as Cw.
  pose proof (circuit_starts _ Cw) as N. destruct Cw as ((_ & L & (p & H)) & NV & A). clear NV.
  apply (Permutation_in _ (rotation_perm _ _ R)) in Hg. cbn [map chain] in H. destruct H as (F & q & E & H).
  assert (S0 : shoelace (rev (ne_points f)) = - shoelace (ne_points f)) by apply shoelace_rev.
  destruct w as [|g w].
  - destruct Hg as [Eg|[]]. apply A. cbn [map shoelaces]. apply (f_equal ne_points) in Eg. cbn [flip ne_points] in Eg.
    rewrite <- Eg in S0. lia.
  - cbn [map chain] in H. destruct H as (Fg & r & Er & H).
    assert (g = flip f).
    { apply (starts_inj (f :: g :: w)); [assumption|right; left; reflexivity|assumption|]. rewrite flip_first. congruence. }
    subst g. destruct w as [|h w].
    + apply A. cbn [map shoelaces flip ne_points]. lia.
    + cbn [map chain] in H. destruct H as (Fh & _). rewrite flip_final in Er.
      assert (X : h = f).
      { apply (starts_inj (f :: flip f :: h :: w)); [assumption|right; right; left; reflexivity|left; reflexivity|]. congruence. }
      subst h. unfold starts in N. cbn [map] in N. inversion N as [|? ? Ni _]; subst. apply Ni. right. left. reflexivity.
Qed.

(** The circuits of a region, which do not meet. *)
Definition boundary (R : list (list norm_edge)) : Prop :=
  Forall circuit R /\ NoDup (flat_map visits R).

Definition directed (c b : list norm_edge) : Prop := b = c \/ b = flipped c.

Lemma directed_circuit c b : circuit c -> directed c b -> circuit b.
Proof. intros C [->| ->]; [assumption|apply circuit_flipped; assumption]. Qed.

Lemma directed_flipped c b : directed c b -> directed c (flipped b).
Proof. intros [->| ->]; [right; reflexivity|left; apply flipped_involutive]. Qed.

Lemma directed_in c b e : directed c b -> In e b -> In e c \/ In (flip e) c.
Proof. intros [->| ->] H; [auto|right; apply in_flip'; assumption]. Qed.

Lemma directed_visits c b x : circuit c -> directed c b -> In x (visits b) -> In x (visits c).
Proof. intros C [->| ->]; [auto|]. apply Permutation_in, visits_flipped, C. Qed.

(** If the edge after [f] also lies on the other boundary, it comes after [f] there. *)
Lemma agree R c b a f g : boundary R -> In c R -> directed c b -> circuit a ->
  In f a -> In g a -> leads f g -> In f b ->
  (exists c', In c' R /\ (In g c' \/ In (flip g) c')) -> In g b.
Proof.
  intros (HF & N) Hc Hb Ca Hf Hg L Hfb (c' & Hc' & Hgc). rewrite Forall_forall in HF.
  pose proof (HF c Hc) as Cc. pose proof (HF c' Hc') as Cc'. pose proof (directed_circuit c b Cc Hb) as Cb.
  assert (Lg : (2 <= length (ne_points g))%nat) by (eapply good_long; [apply Ca|assumption]).
  destruct (first (ne_points g)) as [p|] eqn:Ep; [|destruct (ne_points g); [cbn in Lg; lia|discriminate]].
  unfold leads in L. rewrite Ep in L.
  assert (P1 : In p (visits c)).
  { eapply directed_visits; [exact Cc|exact Hb|]. eapply final_visited; [apply Cb|exact Hfb|assumption]. }
  assert (P2 : In p (visits c')).
  { destruct Hgc as [Hgc|Hgc]; [eapply first_visited; [apply Cc'|exact Hgc|assumption]|].
    eapply final_visited; [apply Cc'|exact Hgc|]. rewrite flip_final. assumption. }
  assert (c' = c) by (eapply nodup_flat_map; eassumption). subst c'.
  assert (Hgb : In g b \/ In (flip g) b).
  { destruct Hb as [->| ->]; [assumption|]. rewrite in_flip', in_flip. tauto. }
  destruct Hgb as [Hgb|Hgb]; [assumption|]. exfalso.
  assert (f = flip g).
  { apply (ends_inj b); [assumption|assumption|assumption|]. rewrite flip_final. congruence. }
  subst f. apply (no_return a g Ca Hg Hf).
Qed.

(** ** Runs of edges between the same two regions *)

(** Each of the two circuits follows the other along edges labelled [l]. *)
Definition follows (l : option nat * option nat) (a b : list norm_edge) : Prop :=
  forall f g, In f a -> In g a -> leads f g -> label g = l -> In f b -> In g b.

(** No edge labelled [l] leaves [q]. *)
Definition stops (l : option nat * option nat) (a : list norm_edge) (q : point) : Prop :=
  forall g, In g a -> first (ne_points g) = Some q -> label g <> l.

Lemma tails_equal l a b : NoDup (starts a) -> NoDup (starts b) -> follows l a b -> follows l b a ->
  forall v v' e p q q', chain p (map ne_points (e :: v)) q -> chain p (map ne_points (e :: v')) q' ->
    incl (e :: v) a -> incl (e :: v') b -> Forall (fun x => label x = l) v -> Forall (fun x => label x = l) v' ->
    stops l a q -> stops l b q' -> v = v'.
Proof.
  intros Na Nb Fab Fba. induction v as [|g v IH]; intros v' e p q q' C C' I I' L L' S S'.
  - destruct v' as [|g' v']; [reflexivity|]. exfalso. cbn [map chain] in C, C'.
    destruct C as (_ & r & E & <-). destruct C' as (_ & r' & E' & Fg & _). assert (r' = r) by congruence. subst r'.
    inversion L'; subst. apply (S g'); [|assumption|reflexivity].
    apply (Fba e g'); [apply I'; left; reflexivity|apply I'; right; left; reflexivity|unfold leads; congruence|reflexivity|].
    apply I. left. reflexivity.
  - cbn [map chain] in C. destruct C as (_ & r & E & C). inversion L as [|? ? Lg Lv]; subst.
    assert (Gb : In g b).
    { apply (Fab e g); [apply I; left; reflexivity|apply I; right; left; reflexivity| |reflexivity|apply I'; left; reflexivity].
      unfold leads. rewrite E. symmetry. apply C. }
    destruct v' as [|g' v']; cbn [map chain] in C'.
    + exfalso. destruct C' as (_ & r' & E' & <-). assert (r' = r) by congruence. subst r'. apply (S' g Gb); [apply C|reflexivity].
    + destruct C' as (_ & r' & E' & C'). assert (r' = r) by congruence. subst r'.
      assert (g' = g).
      { apply (starts_inj b); [assumption|apply I'; right; left; reflexivity|assumption|].
        destruct C as (C & _), C' as (C' & _). congruence. }
      subst g'. f_equal. inversion L'; subst.
      apply (IH v' g r q q'); try assumption; intros x Hx; [apply I|apply I']; right; assumption.
Qed.

Lemma chain_follow l a b : follows l a b ->
  forall v e p q, chain p (map ne_points (e :: v)) q -> incl (e :: v) a -> Forall (fun x => label x = l) v ->
    In e b -> incl (e :: v) b.
Proof.
  intros F. induction v as [|g v IH]; intros e p q C I L He x Hx.
  - destruct Hx as [<-|[]]. assumption.
  - destruct Hx as [<-|Hx]; [assumption|]. cbn [map chain] in C. destruct C as (_ & r & E & C). inversion L; subst.
    apply (IH g r q); [assumption|intros y Hy; apply I; right; assumption|assumption| |assumption].
    apply (F e g); [apply I; left; reflexivity|apply I; right; left; reflexivity| |reflexivity|assumption].
    unfold leads. rewrite E. symmetry. apply C.
Qed.

Lemma chain_last e v : forall p q, chain p (map ne_points (e :: v)) q ->
  exists f, In f (e :: v) /\ final (ne_points f) = Some q.
Proof.
  revert e. induction v as [|g v IH]; intros e p q C; cbn [map chain] in C; destruct C as (_ & r & E & C).
  - subst r. exists e. split; [left; reflexivity|assumption].
  - destruct (IH g r q C) as (f & Hf & Ef). exists f. split; [right; assumption|assumption].
Qed.

(** A circuit all of whose edges are labelled [l] cannot meet a run that ends. *)
Lemma whole_no_stop l a b v e p q : circuit a -> Forall (fun x => label x = l) a -> follows l a b -> follows l b a ->
  In e a -> chain p (map ne_points (e :: v)) q -> incl (e :: v) b -> Forall (fun x => label x = l) v -> stops l b q -> False.
Proof.
  intros Ca La Fab Fba He C I L S. destruct (chain_last e v p q C) as (f & Hf & Ef).
  assert (Fa : In f a) by (eapply (chain_follow l b a); eassumption).
  destruct (next_exists a f (proj1 Ca) Fa) as (g & Hg & Lg). rewrite Forall_forall in La.
  apply (S g); [|unfold leads in Lg; congruence|apply La; assumption].
  apply (Fab f g); auto.
Qed.

Lemma whole_tails l a b : NoDup (starts b) -> follows l a b ->
  forall w w' e p r, chain r (map ne_points w) p -> chain r (map ne_points w') p ->
    In e a -> In e b -> final (ne_points e) = Some r -> incl w a -> incl w' b -> Forall (fun x => label x = l) w ->
    ~ In (Some p) (starts w) -> ~ In (Some p) (starts w') -> w = w'.
Proof.
  intros Nb Fab. induction w as [|g w IH]; intros w' e p r C C' Ha Hb E I I' L N N'.
  - destruct w' as [|g' w']; [reflexivity|]. exfalso. cbn [map chain] in C, C'. subst r. apply N'. left. apply C'.
  - destruct w' as [|g' w']; cbn [map chain] in C, C'.
    + exfalso. subst r. apply N. left. apply C.
    + destruct C as (F & x & X & C), C' as (F' & x' & X' & C'). inversion L; subst.
      assert (Gb : In g b).
      { apply (Fab e g); [assumption|apply I; left; reflexivity|unfold leads; congruence|reflexivity|assumption]. }
      assert (g' = g) by (apply (starts_inj b); [assumption|apply I'; left; reflexivity|assumption|congruence]).
      subst g'. assert (x' = x) by congruence. subst x'. f_equal.
      apply (IH w' g p x); try assumption.
      * apply I. left. reflexivity.
      * intros y Hy. apply I. right. assumption.
      * intros y Hy. apply I'. right. assumption.
      * intros Hp. apply N. right. assumption.
      * intros Hp. apply N'. right. assumption.
Qed.

(** ** The joined edge that contains a given edge *)

(** [x] is a maximal run of [base] around [e], or the whole of it. *)
Definition piece (base : list norm_edge) (e x : norm_edge) : Prop :=
  (exists u v rest, rotation base (u ++ e :: v ++ rest) /\ Forall (fun y => label y = label e) (u ++ v) /\
     ne_points x = walk (u ++ e :: v) /\
     (exists g rest', rest = g :: rest' /\ label g <> label e) /\
     (exists g rest', rest = rest' ++ [g] /\ label g <> label e)) \/
  (Forall (fun y => label y = label e) base /\ turned (walk base) (ne_points x) /\
   exists p, first (ne_points x) = Some p /\ forall q, In q (ne_points x) -> le_point p q).

Lemma Forall2_nil_r {A B} (P : A -> B -> Prop) l : Forall2 P l [] -> l = [].
Proof. intros H. inversion H. reflexivity. Qed.

Lemma joins_labels run x : joins run x -> run <> [] /\ Forall (fun y => label y = label x) run.
Proof. intros (H1 & H2 & _). auto. Qed.

Lemma joined_piece base out e : good base -> joined base out -> fewest out -> starts_smallest (map ne_points out) ->
  In e base -> exists x, In x out /\ label x = label e /\ piece base e x.
Proof.
  intros G (runs & R & HF) Fw S He.
  apply (Permutation_in e (rotation_perm _ _ R)) in He. apply in_concat in He as (run & Hr & He).
  apply in_split in Hr as (r1 & r2 & ->). apply Forall2_app_inv_l in HF as (o1 & o2' & H1 & H2 & ->).
  inversion H2 as [|? x ? o2 Hj H2']; subst. exists x. split; [apply in_app_iff; right; left; reflexivity|].
  destruct (joins_labels _ _ Hj) as (Nr & Lr). rewrite Forall_forall in Lr. pose proof (Lr e He) as Le.
  split; [congruence|].
  assert (R' : rotation base (run ++ concat (r2 ++ r1))).
  { eapply rotation_trans; [exact R|]. rewrite !concat_app. cbn [concat].
    exists (concat r1), (run ++ concat r2). rewrite <- !app_assoc. auto. }
  pose proof (Forall2_app H2' H1) as Hrest.
  assert (Ro : rotation (o1 ++ x :: o2) (x :: o2 ++ o1)) by (exists o1, (x :: o2); auto).
  destruct (o2 ++ o1) as [|z zs] eqn:Ez.
  - right. apply Forall2_nil_r in Hrest. rewrite Hrest in R'.
    cbn [concat] in R'. rewrite app_nil_r in R'.
    apply app_eq_nil in Ez as (-> & ->). cbn [app] in *. split; [|split].
    + apply Forall_forall. intros y Hy. apply (Permutation_in y (rotation_perm _ _ R')) in Hy. rewrite (Lr y Hy). congruence.
    + destruct Hj as (_ & _ & ->). unfold walk. apply glue_turned; [apply G|apply G|]. apply rotation_map. assumption.
    + cbn [map] in S. destruct S as (e0 & rest & p & E & F & _ & Sm). injection E as <- <-. exists p. split; [assumption|].
      apply Sm. reflexivity.
  - left. apply in_split in He as (u & v & ->). exists u, v, (concat (r2 ++ r1)).
    split; [rewrite <- app_assoc in R'; exact R'|]. split.
    { apply Forall_forall. intros y Hy. rewrite Le. apply Lr. apply in_app_iff in Hy as [Hy|Hy]; apply in_app_iff; [left|right; right]; assumption. }
    split; [apply Hj|]. split.
    + inversion Hrest as [|rz ? rs ? Hz Hzs E1 E2]; subst. rewrite <- E1 in *. destruct (joins_labels _ _ Hz) as (Nz & Lz).
      destruct rz as [|g rz]; [congruence|]. cbn [concat app]. exists g, (rz ++ concat rs). split; [reflexivity|].
      inversion Lz as [|? ? Lg _]; subst. rewrite Lg, Le. intros E. apply (Fw x z zs); [assumption|congruence].
    + destruct (exists_last (l := z :: zs)) as (zs' & z' & Ez'); [discriminate|]. rewrite Ez' in *.
      apply Forall2_app_inv_r in Hrest as (rs & rz & Hrs & Hz & Er). inversion Hz as [|rz' ? ? ? Hz' Hn]; subst.
      inversion Hn; subst. destruct (joins_labels _ _ Hz') as (Nz & Lz).
      destruct (exists_last Nz) as (rz & g & ->). exists g, (concat rs ++ rz). rewrite Er, concat_app. cbn [concat]. rewrite app_nil_r, app_assoc.
      split; [reflexivity|]. rewrite Forall_forall in Lz. rewrite (Lz g), Le by (apply in_app_iff; right; left; reflexivity).
      apply (Fw z' x zs'). eapply rotation_trans; [exact Ro|]. exists (x :: zs'), [z']. auto.
Qed.

Lemma tidied_piece base out e : good base -> from_cycle base out -> In e base ->
  exists x, In x out /\ label x = label e /\ piece base e x.
Proof.
  intros G (T & Fw & S) He. destruct T as [J|(x & x' & J & -> & L & T)]; [apply joined_piece; assumption|].
  destruct (joined_labels _ _ J) as (_ & _). exists x'. split; [left; reflexivity|].
  assert (La : Forall (fun y => label y = label x) base).
  { destruct J as (runs & R & HF). inversion HF as [|run ? runs' ? Hj Hn]; subst. inversion Hn; subst. cbn [concat] in R. rewrite app_nil_r in R.
    destruct Hj as (_ & Lr & _). eapply Permutation_Forall; [symmetry; apply rotation_perm; exact R|assumption]. }
  rewrite Forall_forall in La. pose proof (La e He) as Le. split; [congruence|]. right. split; [|split].
  - apply Forall_forall. intros y Hy. rewrite (La y Hy). congruence.
  - destruct (joined_facts _ _ G J) as (_ & T' & _). unfold walk in T' at 2. cbn [map glue concat] in T'. rewrite app_nil_r in T'.
    eapply turned_trans; eassumption.
  - cbn [map] in S. destruct S as (e0 & rest & p & E & F & _ & Sm). injection E as <- <-. exists p. split; [assumption|].
    apply Sm. reflexivity.
Qed.

(** ** The same run seen from both sides *)

Lemma flipped_cons e c : flipped (e :: c) = flipped c ++ [flip e].
Proof. unfold flipped. cbn [rev]. rewrite map_app. reflexivity. Qed.

Lemma partial_chains a u e v rest : circuit a -> rotation a (u ++ e :: v ++ rest) ->
  (exists g rest', rest = g :: rest' /\ label g <> label e) ->
  (exists g rest', rest = rest' ++ [g] /\ label g <> label e) ->
  exists p r1 r2 q, chain r1 (map ne_points (e :: v)) q /\ stops (label e) a q /\ incl (e :: v) a /\
    chain r2 (map ne_points (flip e :: flipped u)) p /\ stops (label e) (flipped a) p /\ incl (flip e :: flipped u) (flipped a) /\
    first (walk (u ++ e :: v)) = Some p /\ final (walk (u ++ e :: v)) = Some q /\ p <> q.
Proof.
  intros Ca R (h & t & Eh & Lh) (h' & t' & Eh' & Lh').
  pose proof (circuit_rotation _ _ R Ca) as C1. pose proof (circuit_starts _ C1) as N1.
  destruct C1 as ((_ & L1 & (p & C)) & _ & _).
  rewrite map_app in C. apply chain_app in C as (r1 & Cu & C).
  change (e :: v ++ rest) with ((e :: v) ++ rest) in C. rewrite map_app in C. apply chain_app in C as (q & Ce & Cr).
  assert (Inc : incl (u ++ e :: v ++ rest) a).
  { intros x Hx. apply (Permutation_in x (Permutation_sym (rotation_perm _ _ R))). assumption. }
  assert (Cue : chain p (map ne_points (u ++ [e])) (match final (ne_points e) with Some r => r | None => q end)).
  { rewrite map_app. apply chain_app. exists r1. split; [assumption|]. cbn [map chain] in Ce |- *. destruct Ce as (F & r2 & E2 & _).
    rewrite E2. split; [assumption|]. exists r2. auto. }
  set (r2 := match final (ne_points e) with Some r => r | None => q end) in *.
  assert (Cw : chain p (map ne_points (u ++ e :: v)) q) by (rewrite map_app; apply chain_app; eauto).
  exists p, r1, r2, q. split; [assumption|]. split; [|split; [|split; [|split; [|split; [|split; [|split]]]]]].
  - intros g Hg Fg E. apply Lh. rewrite <- E. f_equal. apply (starts_inj a); [apply circuit_starts; assumption|apply Inc|assumption|].
    + rewrite Eh. apply in_app_iff. right. right. apply in_app_iff. right. left. reflexivity.
    + rewrite Eh in Cr. destruct Cr as (Fh & _). congruence.
  - intros x Hx. apply Inc. apply in_app_iff. right. change (e :: v ++ rest) with ((e :: v) ++ rest). apply in_app_iff. left. assumption.
  - apply chain_rev in Cue. rewrite <- flipped_points in Cue. rewrite flipped_app in Cue. exact Cue.
  - intros g Hg Fg E. apply Lh'. rewrite <- E. change (label g) with (label (flip g)). f_equal.
    apply (ends_inj a); [assumption|apply Inc|apply in_flip'; assumption|].
    + rewrite Eh'. apply in_app_iff. right. right. apply in_app_iff. right. apply in_app_iff. right. left. reflexivity.
    + rewrite flip_final, Fg. rewrite Eh', map_app in Cr. apply chain_app in Cr as (x & _ & Cr). cbn [map chain] in Cr.
      destruct Cr as (_ & y & Ey & ->). assumption.
  - intros x Hx. apply in_flip'. apply Inc. destruct Hx as [<-|Hx]; [rewrite flip_flip; apply in_app_iff; right; left; reflexivity|].
    apply in_flip' in Hx. apply in_app_iff. left. assumption.
  - unfold walk. eapply glue_first; [|exact Cw]. destruct u; discriminate.
  - unfold walk. eapply glue_final; [|exact Cw]. destruct u; discriminate.
  - intros <-. assert (X : In (Some p) (starts (u ++ e :: v)) /\ In (Some p) (starts rest)).
    { split.
      - destruct u as [|y u]; cbn [app map chain] in Cw; destruct Cw as (F & _); left; assumption.
      - rewrite Eh in Cr |- *. destruct Cr as (F & _). left. assumption. }
    replace (u ++ e :: v ++ rest) with ((u ++ e :: v) ++ rest) in N1 by (rewrite <- app_assoc; reflexivity).
    unfold starts in N1. rewrite !map_app in N1. unfold starts in X. rewrite !map_app in X.
    apply nodup_app3 in N1 as (_ & _ & N1). apply (N1 (Some p)); apply X.
Qed.

Lemma rotation_head {A} (p : A) t t' : NoDup (p :: t) -> rotation (p :: t) (p :: t') -> t = t'.
Proof.
  intros N (l & r & E & E'). destruct l as [|x l]; cbn [app] in E, E'.
  - rewrite app_nil_r in E'. congruence.
  - injection E as -> ->. destruct r as [|y r]; cbn [app] in E'; [rewrite app_nil_r; congruence|].
    injection E' as -> _. exfalso. inversion N as [|? ? Ni _]; subst. apply Ni. apply in_app_iff. right. left. reflexivity.
Qed.

(** Turned to its smallest point, a path without repeated points is unique. *)
Lemma smallest_unique c a b p q : NoDup c -> turned (close c) a -> turned (close c) b ->
  first a = Some p -> (forall x, In x a -> le_point p x) -> first b = Some q -> (forall x, In x b -> le_point q x) -> a = b.
Proof.
  intros N Ta Tb Fa Sa Fb Sb. apply turned_inv in Ta as (c1 & d1 & R1 & E1 & ->). apply turned_inv in Tb as (c2 & d2 & R2 & E2 & ->).
  apply close_inj in E1, E2. subst c1 c2. destruct d1 as [|x1 t1]; [discriminate|]. destruct d2 as [|x2 t2]; [discriminate|].
  cbn [close first hd_error app] in Fa, Fb. injection Fa as ->. injection Fb as ->.
  assert (R : rotation (p :: t1) (q :: t2)) by (eapply rotation_trans; [apply rotation_sym|]; eassumption).
  assert (p = q).
  { apply le_point_antisym.
    - apply Sa. cbn [close]. apply in_app_iff. left. apply (Permutation_in q (Permutation_sym (rotation_perm _ _ R))). left. reflexivity.
    - apply Sb. cbn [close]. apply in_app_iff. left. apply (Permutation_in p (rotation_perm _ _ R)). left. reflexivity. }
  subst q. f_equal. f_equal. apply (rotation_head p); [|assumption].
  eapply Permutation_NoDup; [apply rotation_perm; exact R1|assumption].
Qed.

Definition shared (l : option nat * option nat) (a : list norm_edge) (R : list (list norm_edge)) : Prop :=
  forall g, In g a -> label g = l -> exists c', In c' R /\ (In g c' \/ In (flip g) c').

Lemma shared_flipped l a R : shared l a R -> shared l (flipped a) R.
Proof. intros H g Hg L. apply in_flip' in Hg. destruct (H _ Hg L) as (c' & Hc & X). exists c'. rewrite flip_flip in X. tauto. Qed.

Lemma shared_follows l R c b a : boundary R -> In c R -> directed c b -> circuit a -> shared l a R -> follows l a b.
Proof. intros B Hc Hd Ca S f g Hf Hg L Lg Hfb. eapply agree; [exact B|exact Hc|exact Hd|exact Ca|exact Hf|exact Hg|assumption|assumption|]. apply S; assumption. Qed.

Lemma labels_flipped l u : Forall (fun y => label y = l) u -> Forall (fun y => label y = l) (flipped u).
Proof.
  rewrite !Forall_forall. intros H y Hy. apply in_flip' in Hy. apply (H _ Hy).
Qed.

Lemma flipped_inj a b : flipped a = flipped b -> a = b.
Proof. intros E. apply (f_equal flipped) in E. rewrite !flipped_involutive in E. assumption. Qed.

Lemma chain_same_start e v v' p p' q q' : chain p (map ne_points (e :: v)) q -> chain p' (map ne_points (e :: v')) q' -> p = p'.
Proof. cbn [map chain]. intros (F & _) (F' & _). congruence. Qed.

Lemma twin_same Ri Rj ci cj a b e x y : boundary Ri -> boundary Rj -> In ci Ri -> In cj Rj -> directed ci a -> directed cj b ->
  shared (label e) a Rj -> shared (label e) b Ri -> In e a -> In e b -> piece a e x -> piece b e y ->
  ne_points x = ne_points y /\ (first (ne_points x) <> final (ne_points x) \/ turned (walk a) (ne_points x)).
Proof.
  intros Bi Bj Hi Hj Da Db Sa Sb Ea Eb Px Py.
  assert (Ca : circuit a). { eapply directed_circuit; [|exact Da]. destruct Bi as (F & _). rewrite Forall_forall in F. auto. }
  assert (Cb : circuit b). { eapply directed_circuit; [|exact Db]. destruct Bj as (F & _). rewrite Forall_forall in F. auto. }
  set (l := label e) in *.
  assert (Fab : follows l a b) by (apply (shared_follows l Rj cj); assumption).
  assert (Fba : follows l b a) by (apply (shared_follows l Ri ci); assumption).
  assert (Fab' : follows l (flipped a) (flipped b)).
  { eapply (shared_follows l Rj cj); [assumption|assumption|apply directed_flipped; assumption|apply circuit_flipped; assumption|apply shared_flipped; assumption]. }
  assert (Fba' : follows l (flipped b) (flipped a)).
  { eapply (shared_follows l Ri ci); [assumption|assumption|apply directed_flipped; assumption|apply circuit_flipped; assumption|apply shared_flipped; assumption]. }
  destruct Px as [(u & v & rest & R & L & E & H1 & H2)|(La & Ta & p & Fp & Sp)];
    destruct Py as [(u' & v' & rest' & R' & L' & E' & H1' & H2')|(Lb & Tb & p' & Fp' & Sp')].
  - destruct (partial_chains a u e v rest Ca R H1 H2) as (p & r1 & r2 & q & X1 & X2 & X3 & X4 & X5 & X6 & X7 & X8 & X9).
    destruct (partial_chains b u' e v' rest' Cb R' H1' H2') as (p' & r1' & r2' & q' & Y1 & Y2 & Y3 & Y4 & Y5 & Y6 & _).
    apply Forall_app in L as (Lu & Lv). apply Forall_app in L' as (Lu' & Lv').
    assert (v = v').
    { pose proof (chain_same_start _ _ _ _ _ _ _ X1 Y1). subst r1'.
      apply (tails_equal l a b (circuit_starts a Ca) (circuit_starts b Cb) Fab Fba v v' e r1 q q'); assumption. }
    assert (u = u').
    { apply flipped_inj. pose proof (chain_same_start _ _ _ _ _ _ _ X4 Y4). subst r2'.
      apply (tails_equal l (flipped a) (flipped b) (circuit_starts _ (circuit_flipped a Ca)) (circuit_starts _ (circuit_flipped b Cb)) Fab' Fba'
               (flipped u) (flipped u') (flip e) r2 p p'); try assumption; apply labels_flipped; assumption. }
    subst u' v'. split; [congruence|]. left. rewrite E, X7, X8. congruence.
  - exfalso. destruct (partial_chains a u e v rest Ca R H1 H2) as (p & r1 & r2 & q & X1 & X2 & X3 & _).
    apply Forall_app in L as (Lu & Lv). eapply (whole_no_stop l b a v e); eassumption.
  - exfalso. destruct (partial_chains b u' e v' rest' Cb R' H1' H2') as (p1 & r1' & r2' & q' & Y1 & Y2 & Y3 & _).
    apply Forall_app in L' as (Lu & Lv). eapply (whole_no_stop l a b v' e); eassumption.
  - split; [|right; assumption].
    destruct (in_rotation e a Ea) as (w & Rw). destruct (in_rotation e b Eb) as (w' & Rw').
    assert (w = w').
    { pose proof (circuit_rotation _ _ Rw Ca) as C1. pose proof (circuit_rotation _ _ Rw' Cb) as C2.
      pose proof (circuit_starts _ C1) as N1. pose proof (circuit_starts _ C2) as N2.
      destruct C1 as ((_ & _ & (s & C1)) & _). destruct C2 as ((_ & _ & (s' & C2)) & _).
      pose proof (chain_same_start _ _ _ _ _ _ _ C1 C2). subst s'. cbn [map chain] in C1, C2.
      destruct C1 as (F1 & r & E1 & C1). destruct C2 as (F2 & r' & E2 & C2). assert (r' = r) by congruence. subst r'.
      unfold starts in N1, N2. cbn [map] in N1, N2. rewrite F1 in N1, N2. inversion N1 as [|? ? Ni1 _]; subst. inversion N2 as [|? ? Ni2 _]; subst.
      apply (whole_tails l a b (circuit_starts b Cb) Fab w w' e s r); try assumption.
      - intros z Hz. apply (Permutation_in z (Permutation_sym (rotation_perm _ _ Rw))). right. assumption.
      - intros z Hz. apply (Permutation_in z (Permutation_sym (rotation_perm _ _ Rw'))). right. assumption.
      - apply (Permutation_Forall (rotation_perm _ _ Rw)) in La. inversion La; subst. assumption. }
    subst w'. assert (Rab : rotation a b) by (eapply rotation_trans; [exact Rw|]; apply rotation_sym; exact Rw').
    assert (Tab : turned (walk a) (walk b)) by (apply glue_turned; [apply Ca|apply Ca|apply rotation_map; exact Rab]).
    rewrite (good_walk a (proj1 Ca)) in Ta, Tab. eapply smallest_unique; [apply Ca|exact Ta| |exact Fp|exact Sp|exact Fp'|exact Sp'].
    eapply turned_trans; eassumption.
Qed.

Lemma piece_flipped base e x : good base -> piece base e x -> piece (flipped base) (flip e) (flip x).
Proof.
  intros G [(u & v & rest & R & L & E & (g & t & Eg & Lg) & (g' & t' & Eg' & Lg'))|(L & T & p & F & S)].
  - left. exists (flipped v), (flipped u), (flipped rest). split; [|split; [|split; [|split]]].
    + apply flipped_rotation in R. eapply rotation_trans; [exact R|].
      change (e :: v ++ rest) with ((e :: v) ++ rest). rewrite app_assoc, flipped_app. exists (flipped rest), (flipped (u ++ e :: v)).
      split; [reflexivity|]. rewrite flipped_app, flipped_cons, <- !app_assoc. reflexivity.
    + rewrite flip_label. rewrite <- flipped_app. apply labels_flipped. apply Forall_app. apply Forall_app in L. tauto.
    + cbn [flip ne_points]. rewrite E. pose proof (good_rotation _ _ R G) as (_ & _ & (p & C)).
      change (e :: v ++ rest) with ((e :: v) ++ rest) in C. rewrite app_assoc, map_app in C. apply chain_app in C as (r & C & _).
      rewrite <- (flipped_walk_chain _ _ _ C) by (destruct u; discriminate). rewrite flipped_app, flipped_cons, <- app_assoc. reflexivity.
    + exists (flip g'), (flipped t'). split; [rewrite Eg', flipped_app; reflexivity|assumption].
    + exists (flip g), (flipped t). split; [rewrite Eg; apply flipped_cons|assumption].
  - right. split; [apply labels_flipped; assumption|]. split.
    + rewrite flipped_walk by assumption. apply turned_rev. assumption.
    + exists p. rewrite flip_first. split.
      * apply turned_inv in T as (c & d & _ & _ & E). rewrite E in F |- *. destruct d as [|z d]; [discriminate|]. injection F as ->.
        cbn [close]. apply final_app.
      * intros q Hq. apply S. apply in_rev. assumption.
Qed.

(** Two regions that share an edge have an edge in common after normalizing. *)
Lemma twin Ri Rj ci cj a b outa outb e : boundary Ri -> boundary Rj -> In ci Ri -> In cj Rj -> directed ci a -> directed cj b ->
  shared (label e) a Rj -> shared (label e) b Ri -> In e a -> In e b \/ In (flip e) b ->
  from_cycle a outa -> from_cycle b outb ->
  exists x y, In x outa /\ In y outb /\ label x = label e /\ label y = label e /\
    (ne_points x = ne_points y \/ ne_points x = rev (ne_points y)) /\
    (first (ne_points x) <> final (ne_points x) \/ turned (walk a) (ne_points x)).
Proof.
  intros Bi Bj Hi Hj Da Db Sa Sb Ea Eb Fa Fb.
  assert (Ca : circuit a). { eapply directed_circuit; [|exact Da]. destruct Bi as (F & _). rewrite Forall_forall in F. auto. }
  assert (Cb : circuit b). { eapply directed_circuit; [|exact Db]. destruct Bj as (F & _). rewrite Forall_forall in F. auto. }
  destruct (tidied_piece a outa e (proj1 Ca) Fa Ea) as (x & Hx & Lx & Px). exists x.
  destruct Eb as [Eb|Eb].
  - destruct (tidied_piece b outb e (proj1 Cb) Fb Eb) as (y & Hy & Ly & Py). exists y.
    destruct (twin_same Ri Rj ci cj a b e x y) as (E & O); try assumption. auto 10.
  - destruct (tidied_piece b outb (flip e) (proj1 Cb) Fb Eb) as (y & Hy & Ly & Py). exists y.
    apply (piece_flipped b _ _ (proj1 Cb)) in Py. rewrite flip_flip in Py.
    destruct (twin_same Ri Rj ci cj a (flipped b) e x (flip y)) as (E & O); try assumption.
    + apply directed_flipped. assumption.
    + apply shared_flipped. assumption.
    + apply in_flip'. assumption.
    + auto 10.
Qed.

(** ** Regions of a topology *)

Definition region_rings {D} (rg : topo_region D) : list topo_ring := tg_outer rg ++ tg_inner rg.
Definition mentions (j : nat) (l : option nat * option nat) : Prop := fst l = Some j \/ snd l = Some j.

Lemma flat_map_flat_map {A B C} (g : B -> list C) (f : A -> list B) l :
  flat_map g (flat_map f l) = flat_map (fun x => flat_map g (f x)) l.
Proof. induction l as [|a l IH]; [reflexivity|]. cbn [flat_map]. rewrite flat_map_app, IH. reflexivity. Qed.

Lemma simple_visits {D} (t : topology D) rg :
  flat_map (@removelast point) (region_paths t rg) = flat_map visits (map (seen_ring t) (region_rings rg)).
Proof.
  unfold region_paths, region_rings. rewrite flat_map_flat_map. generalize (tg_outer rg ++ tg_inner rg). intros l.
  induction l as [|r l IH]; [reflexivity|]. cbn [flat_map map]. rewrite IH. reflexivity.
Qed.

Lemma nodup_part {A B} (f : A -> list B) l x : NoDup (flat_map f l) -> In x l -> NoDup (f x).
Proof.
  induction l as [|a l IH]; [intros _ []|]. cbn [flat_map]. intros N. apply nodup_app3 in N as (N1 & N2 & _).
  intros [<-|H]; auto.
Qed.

Lemma region_boundary {D} (t : topology D) rg : valid t -> In rg (tp_regions t) -> simple_boundary t rg ->
  (forall r, In r (region_rings rg) -> shoelaces (map ne_points (seen_ring t r)) <> 0) ->
  boundary (map (seen_ring t) (region_rings rg)).
Proof.
  intros V Hg S A. unfold simple_boundary in S. rewrite simple_visits in S. split; [|assumption].
  apply Forall_forall. intros c Hc. pose proof (nodup_part _ _ c S Hc) as N. apply in_map_iff in Hc as (r & <- & Hr).
  split; [eapply seen_ring_good; eassumption|]. split; [assumption|]. apply A. assumption.
Qed.

Lemma seen_edge {D} (t : topology D) r g : In g (seen_ring t r) -> exists d te, In d (tr_des r) /\
  nth_error (tp_edges t) (de_edge d) = Some te /\
  g = NE (oriented (te_points te) (de_dir d)) (nth_error (edge_regions t (de_edge d)) 0) (nth_error (edge_regions t (de_edge d)) 1).
Proof.
  intros H. apply in_flat_map in H as (d & Hd & H). unfold seen in H.
  destruct (nth_error (tp_edges t) (de_edge d)) as [te|] eqn:E; [|destruct H]. destruct H as [<-|[]]. exists d, te. auto.
Qed.

Lemma seen_used {D} (t : topology D) j k te : nth_error (tp_edges t) k = Some te -> In j (edge_regions t k) ->
  exists rg r d, nth_error (tp_regions t) j = Some rg /\ In r (region_rings rg) /\ In d (tr_des r) /\ de_edge d = k /\
    In (NE (oriented (te_points te) (de_dir d)) (nth_error (edge_regions t k) 0) (nth_error (edge_regions t k) 1)) (seen_ring t r).
Proof.
  intros E H. apply edge_regions_in in H as (rr & H & <-). apply in_uses_region in H as (rg & r & Hg & Hr & Hk).
  apply in_map_iff in Hk as (d & <- & Hd). exists rg, r, d. split; [assumption|]. split; [|split; [assumption|split; [reflexivity|]]].
  - apply nth_error_In in Hr. apply in_app_iff. destruct (rr_side rr); auto.
  - apply in_flat_map. exists d. split; [assumption|]. unfold seen. rewrite E. left. reflexivity.
Qed.

Lemma oriented_flip ps d d' : oriented ps d = oriented ps d' \/ oriented ps d' = rev (oriented ps d).
Proof. destruct d, d'; cbn; rewrite ?rev_involutive; auto. Qed.

Lemma seen_mentions {D} (t : topology D) r g j : In g (seen_ring t r) -> mentions j (label g) ->
  exists rg r', nth_error (tp_regions t) j = Some rg /\ In r' (region_rings rg) /\ (In g (seen_ring t r') \/ In (flip g) (seen_ring t r')).
Proof.
  intros H M. apply seen_edge in H as (d & te & Hd & E & ->).
  assert (Hj : In j (edge_regions t (de_edge d))) by (destruct M as [M|M]; cbn [label fst snd ne_reg0 ne_reg1] in M; eapply nth_error_In; exact M).
  destruct (seen_used t j _ te E Hj) as (rg & r' & d' & Hg & Hr & _ & _ & Hs). exists rg, r'. split; [assumption|]. split; [assumption|].
  destruct (oriented_flip (te_points te) (de_dir d) (de_dir d')) as [X|X]; [left; rewrite X; assumption|right].
  unfold flip. cbn [ne_points ne_reg0 ne_reg1]. rewrite <- X. assumption.
Qed.

Lemma region_shared {D} (t : topology D) rgj j r l a : nth_error (tp_regions t) j = Some rgj -> mentions j l ->
  directed (seen_ring t r) a -> shared l a (map (seen_ring t) (region_rings rgj)).
Proof.
  intros Hj M Da. assert (X : shared l (seen_ring t r) (map (seen_ring t) (region_rings rgj))).
  { intros g Hg <-. destruct (seen_mentions t r g j Hg M) as (rg & r' & Hg' & Hr & H).
    assert (rg = rgj) by congruence. subst rg. exists (seen_ring t r'). split; [apply in_map; assumption|assumption]. }
  destruct Da as [->| ->]; [assumption|apply shared_flipped; assumption].
Qed.

(** The edges of normalized rings between two regions are the same on both sides. *)
Lemma ring_twin {D} (t : topology D) i j rgi rgj r r' e out out' :
  boundary (map (seen_ring t) (region_rings rgi)) -> boundary (map (seen_ring t) (region_rings rgj)) ->
  nth_error (tp_regions t) i = Some rgi -> nth_error (tp_regions t) j = Some rgj ->
  In r (region_rings rgi) -> In r' (region_rings rgj) -> mentions i (label e) -> mentions j (label e) ->
  In e (seen_ring t r) \/ In (flip e) (seen_ring t r) -> In e (seen_ring t r') \/ In (flip e) (seen_ring t r') ->
  normal_ring t r out -> normal_ring t r' out' ->
  exists x y, In x out /\ In y out' /\ label x = label e /\ label y = label e /\
    (ne_points x = ne_points y \/ ne_points x = rev (ne_points y)) /\
    (first (ne_points x) <> final (ne_points x) \/
     Z.abs (shoelace (ne_points x)) = Z.abs (shoelaces (map ne_points (seen_ring t r)))).
Proof.
  intros Bi Bj Hi Hj Hr Hr' Mi Mj E E' (base & HB & F) (base' & HB' & F').
  assert (Ca : circuit (seen_ring t r)). { destruct Bi as (X & _). rewrite Forall_forall in X. apply X. apply in_map. assumption. }
  assert (Y : forall e, mentions i (label e) -> mentions j (label e) -> In e base -> In e (seen_ring t r') \/ In (flip e) (seen_ring t r') ->
    exists x y, In x out /\ In y out' /\ label x = label e /\ label y = label e /\
    (ne_points x = ne_points y \/ ne_points x = rev (ne_points y)) /\
    (first (ne_points x) <> final (ne_points x) \/ turned (walk base) (ne_points x))).
  { clear e Mi Mj E E'. intros e Mi Mj E E'.
    apply (twin (map (seen_ring t) (region_rings rgi)) (map (seen_ring t) (region_rings rgj)) (seen_ring t r) (seen_ring t r') base base');
      try assumption; try (apply in_map; assumption).
    - eapply region_shared; eassumption.
    - eapply region_shared; eassumption.
    - destruct HB' as [->| ->]; [assumption|]. rewrite in_flip', in_flip. tauto. }
  assert (Z : exists x y, In x out /\ In y out' /\ label x = label e /\ label y = label e /\
    (ne_points x = ne_points y \/ ne_points x = rev (ne_points y)) /\
    (first (ne_points x) <> final (ne_points x) \/ turned (walk base) (ne_points x))).
  { assert (Eb : In e base \/ In (flip e) base) by (destruct HB as [->| ->]; [assumption|rewrite in_flip', in_flip; tauto]).
    destruct Eb as [Eb|Eb]; [apply (Y e); assumption|].
    apply (Y (flip e)); try assumption. rewrite flip_flip. tauto. }
  destruct Z as (x & y & Hx & Hy & Lx & Ly & Pxy & O). exists x, y. do 5 (split; [assumption|]).
  destruct O as [O|O]; [left; assumption|right]. apply shoelace_turned in O. rewrite <- O.
  assert (W : shoelace (walk base) = shoelaces (map ne_points base)).
  { assert (Gb : good base) by (destruct HB as [->| ->]; [apply Ca|apply flipped_good, Ca]). destruct Gb as (_ & _ & (p & C)).
    eapply shoelace_walk. exact C. }
  rewrite W. destruct HB as [->| ->]; [reflexivity|]. rewrite flipped_area. apply Z.abs_opp.
Qed.

(** ** Whole topologies *)

(** What normalizing makes of each region, when there is nothing to merge. *)
Definition plain_region {D} (t : topology D) (rg : topo_region D) (s : shape D) : Prop :=
  exists outs ins nos nis, s = Shape (tg_data rg) (map as_read outs) (map as_read ins) /\
    Forall2 (ring_fact t Clockwise) (tg_outer rg) nos /\ Forall2 (ring_fact t CounterClockwise) (tg_inner rg) nis /\
    Permutation outs nos /\ Permutation ins nis /\
    in_order (map (map ne_points) outs) /\ in_order (map (map ne_points) ins).

Lemma side_in_order {D} (t : topology D) o rs outs : side_fact t o rs outs -> in_order (map (map ne_points) outs).
Proof. intros (nrs & cycles & ms & _ & _ & _ & _ & O & _). assumption. Qed.

Lemma plain_regions {D} m (t t' : topology D) : valid t -> normalize m t = Ok t' ->
  (forall rg, In rg (tp_regions t) -> tg_outer rg <> [] /\ nothing_redundant t rg) ->
  Forall2 (plain_region t) (tp_regions t) (read_topology t').
Proof.
  intros V H P. destruct (normalize_by_region m t t' V H) as (parts & E & F). rewrite E. clear E H.
  assert (X : forall rgs parts, incl rgs (tp_regions t) ->
    Forall2 (fun rg part => (length part <= 1)%nat /\ (forall s, In s part -> s_data s = tg_data rg) /\
      exists outs ins, side_fact t Clockwise (tg_outer rg) outs /\ side_fact t CounterClockwise (tg_inner rg) ins /\
         part = read_back (tg_data rg) (sized outs) (sized ins)) rgs parts ->
    Forall2 (plain_region t) rgs (concat parts)).
  { clear parts F. intros rgs parts I F. induction F as [|rg part rgs parts (_ & _ & outs & ins & So & Si & ->) F IH]; [constructor|].
    destruct (P rg) as (Ne & N); [apply I; left; reflexivity|].
    destruct (plain_sized t Clockwise (tg_outer rg) outs) as (no & F1 & P1 & ->); [intros r e Hr; apply N; apply in_app_iff; auto|assumption|].
    destruct (plain_sized t CounterClockwise (tg_inner rg) ins) as (ni & F2 & P2 & ->); [intros r e Hr; apply N; apply in_app_iff; auto|assumption|].
    cbn [concat]. unfold read_back. destruct outs as [|o outs].
    { exfalso. apply Permutation_nil in P1. subst. inversion F1. congruence. }
    cbn [app]. constructor; [|apply IH; intros x Hx; apply I; right; assumption].
    exists (o :: outs), ins, no, ni. split; [reflexivity|]. split; [assumption|]. split; [assumption|]. split; [assumption|].
    split; [assumption|]. split; eapply side_in_order; eassumption. }
  apply (X (tp_regions t)); [apply incl_refl|exact F].
Qed.

Lemma Forall2_nth_l {A B} (P : A -> B -> Prop) l l' i a : Forall2 P l l' -> nth_error l i = Some a ->
  exists b, nth_error l' i = Some b /\ P a b.
Proof.
  intros H. revert i. induction H; intros [|i]; cbn; try discriminate.
  - intros [= <-]. eauto.
  - apply IHForall2.
Qed.

Lemma plain_ring {D} (t : topology D) rg s r : plain_region t rg s -> In r (region_rings rg) ->
  exists out o, ring_fact t o r out /\ (In (as_read out) (s_outer s) \/ In (as_read out) (s_inner s)).
Proof.
  intros (outs & ins & nos & nis & -> & F1 & F2 & P1 & P2 & _) Hr. cbn [s_outer s_inner]. apply in_app_iff in Hr as [Hr|Hr].
  - destruct (Forall2_in_l _ _ _ _ F1 Hr) as (out & Ho & Hf). exists out, Clockwise. split; [assumption|]. left. apply in_map.
    apply (Permutation_in out (Permutation_sym P1)). assumption.
  - destruct (Forall2_in_l _ _ _ _ F2 Hr) as (out & Ho & Hf). exists out, CounterClockwise. split; [assumption|]. right. apply in_map.
    apply (Permutation_in out (Permutation_sym P2)). assumption.
Qed.

(** An edge read in a region of a topology is used by that region. *)
Lemma read_used {D} (t : topology D) i s out x : exact_references t -> nth_error (read_topology t) i = Some s ->
  In (as_read out) (s_outer s) \/ In (as_read out) (s_inner s) -> In x out ->
  exists d, read_de (tp_edges t) d = Some (ne_points x) /\ In i (edge_regions t (de_edge d)).
Proof.
  intros X Hs Ho Hx. unfold read_topology in Hs. rewrite nth_error_map in Hs.
  destruct (nth_error (tp_regions t) i) as [rg|] eqn:Eg; [|discriminate]. injection Hs as <-.
  unfold read_region in Ho. cbn [s_outer s_inner] in Ho.
  assert (Y : exists sd k r, nth_error (match sd with Outer => tg_outer rg | Inner => tg_inner rg end) k = Some r /\ read_ring (tp_edges t) r = as_read out).
  { destruct Ho as [Ho|Ho]; apply in_map_iff in Ho as (r & E & Hr); apply In_nth_error in Hr as (k & Hk); [exists Outer, k, r|exists Inner, k, r]; auto. }
  destruct Y as (sd & k & r & Hk & E).
  assert (Hin : In (Some (ne_points x)) (read_ring (tp_edges t) r)).
  { rewrite E. unfold as_read. apply in_map, in_map. assumption. }
  unfold read_ring in Hin. apply in_map_iff in Hin as (d & Ed & Hd). exists d. split; [assumption|].
  apply edge_regions_in. exists (RR i sd k). split; [|reflexivity]. apply in_uses_region. exists rg, r.
  split; [assumption|]. split; [assumption|]. apply in_map. assumption.
Qed.

Lemma adjacent_kept {D} m (t t' : topology D) : valid t -> normalize m t = Ok t' ->
  (forall rg, In rg (tp_regions t) -> tg_outer rg <> [] /\ nothing_redundant t rg /\ simple_boundary t rg) ->
  (forall rg r, In rg (tp_regions t) -> In r (region_rings rg) -> Z.abs (shoelaces (map ne_points (seen_ring t r))) < 2 ^ 63) ->
  forall i j, i <> j -> adjacent t i j -> adjacent t' i j.
Proof.
  intros V H P A i j Nij (k & Hi & Hj).
  pose proof (plain_regions m t t' V H (fun rg Hg => conj (proj1 (P rg Hg)) (proj1 (proj2 (P rg Hg))))) as F.
  assert (Eb : exists gs, build_topology m gs = Ok t') by (apply normalize_Ok in H as (gs & _ & B); eauto). destruct Eb as (gs & B).
  assert (X : exact_references t'). { destruct (build_topology_ok m gs t' B) as (b & _ & _ & X & _). exact X. }
  assert (NZ : forall rg r, In rg (tp_regions t) -> In r (region_rings rg) ->
     shoelaces (map ne_points (seen_ring t r)) <> 0 /\ Z.abs (shoelaces (map ne_points (seen_ring t r))) < 2 ^ 63).
  { intros rg r Hg Hr. split; [|apply (A rg r Hg Hr)]. apply In_nth_error in Hg as (n & Hn).
    destruct (Forall2_nth_l _ _ _ _ _ F Hn) as (s & _ & Hs). destruct (plain_ring t rg s r Hs Hr) as (out & o & Rf & _).
    destruct Rf as (_ & _ & _ & W & _). intros Z. apply W. rewrite Z. reflexivity. }
  assert (Bd : forall rg, In rg (tp_regions t) -> boundary (map (seen_ring t) (region_rings rg))).
  { intros rg Hg. apply region_boundary; [assumption|assumption|apply P; assumption|]. intros r Hr. apply (NZ rg r Hg Hr). }
  assert (Ek : exists te, nth_error (tp_edges t) k = Some te).
  { apply edge_regions_in in Hi as (rr & Hi & _). destruct V as ((_ & V2 & _) & _). specialize (V2 _ Hi). cbn [fst] in V2.
    destruct (nth_error (tp_edges t) k) eqn:E; [eauto|]. apply nth_error_None in E. lia. }
  destruct Ek as (te & Ek).
  destruct (seen_used t i k te Ek Hi) as (rgi & r & d & Hgi & Hr & Hd & Hdk & Hs).
  destruct (seen_used t j k te Ek Hj) as (rgj & r' & d' & Hgj & Hr' & Hd' & Hdk' & Hs').
  set (e := NE (oriented (te_points te) (de_dir d)) (nth_error (edge_regions t k) 0) (nth_error (edge_regions t k) 1)) in *.
  assert (Len : (length (edge_regions t k) <= 2)%nat).
  { destruct V as ((_ & _ & V3) & _). destruct (V3 k te Ek) as (V3' & _). unfold edge_regions. rewrite map_length. assumption. }
  assert (Mt : forall n, In n (edge_regions t k) -> mentions n (label e)).
  { intros n Hn. unfold mentions, label, e. cbn [ne_reg0 ne_reg1 fst snd].
    destruct (edge_regions t k) as [|a [|b [|c l]]]; cbn [length nth_error In] in *; [destruct Hn| | |lia].
    - destruct Hn as [->|[]]. auto.
    - destruct Hn as [->|[->|[]]]; auto. }
  assert (Hs2 : In e (seen_ring t r') \/ In (flip e) (seen_ring t r')).
  { unfold e, flip. cbn [ne_points ne_reg0 ne_reg1].
    destruct (oriented_flip (te_points te) (de_dir d) (de_dir d')) as [Y|Y]; [left; rewrite Y|right; rewrite <- Y]; assumption. }
  destruct (Forall2_nth_l _ _ _ _ _ F Hgi) as (si & Si & Pi). destruct (Forall2_nth_l _ _ _ _ _ F Hgj) as (sj & Sj & Pj).
  destruct (plain_ring t rgi si r Pi Hr) as (out & o & Ro & Io). destruct (plain_ring t rgj sj r' Pj Hr') as (out' & o' & Ro' & Io').
  apply nth_error_In in Hgi as Ini. apply nth_error_In in Hgj as Inj.
  destruct (ring_twin t i j rgi rgj r r' e out out') as (x & y & Hx & Hy & _ & _ & Pxy & O); auto; try apply Ro; try apply Ro'.
  destruct (read_used t' i si out x X Si Io Hx) as (dx & Dx & Ux). destruct (read_used t' j sj out' y X Sj Io' Hy) as (dy & Dy & Uy).
  assert (O' : first (ne_points x) <> final (ne_points x) \/
     (shoelace (ne_points x) mod 2 ^ 64 <> 0 /\ shoelace (ne_points x) mod 2 ^ 64 <> 2 ^ 63)).
  { destruct O as [O|O]; [left; assumption|right]. destruct (NZ rgi r Ini Hr) as (N1 & N2).
    rewrite <- O in N2. assert (N0 : shoelace (ne_points x) <> 0) by lia.
    pose proof (Z.div_mod (shoelace (ne_points x)) (2 ^ 64)) as DM. split; intros M; rewrite M in DM; lia. }
  assert (Edge : de_edge dx = de_edge dy).
  { destruct Pxy as [E|E].
    - rewrite <- E in Dy. f_equal. apply (shared_same m gs t' dx dy (ne_points x)); assumption.
    - assert (ne_points y = rev (ne_points x)) as E2 by (rewrite E, rev_involutive; reflexivity). rewrite E2 in Dy.
      apply (shared_reverse m gs t' dx dy (ne_points x)); assumption. }
  exists (de_edge dx). split; [assumption|]. rewrite Edge. assumption.
Qed.

(** ** Deciding [simple_boundary] *)

Definition simple_boundaryb {D} (t : topology D) (rg : topo_region D) : bool :=
  (fix go l := match l with
   | [] => true
   | p :: l' => negb (existsb (pt_eqb p) l') && go l'
   end) (flat_map (@removelast point) (region_paths t rg)).

Lemma simple_boundaryb_spec {D} (t : topology D) rg : simple_boundaryb t rg = true -> simple_boundary t rg.
Proof.
  unfold simple_boundaryb, simple_boundary. generalize (flat_map (@removelast point) (region_paths t rg)). intros l.
  induction l as [|p l IH]; intros H; [constructor|]. apply andb_true_iff in H as (H1 & H2). constructor; [|apply IH; assumption].
  intros Hin. apply negb_true_iff in H1. assert (X : existsb (pt_eqb p) l = true); [|congruence].
  apply existsb_exists. exists p. split; [assumption|]. apply pt_eqb_refl.
Qed.
