(** * NormFrame: normalizing in another frame of reference *)
From Verif Require Import GeoProofs TopoProofs BuildProofs FrameProofs FrameTopo BuildFrame NormFrameSpec NormProofs NormRing NormReturn NormTopo NormLaws NormAdjacent OrderProofs SimplifyFrame NormShift NormCanon.

(** ** Moved edges *)
Section Moved.
Context (f : frame).
Let mvd := at_f (moved f).

Lemma points_mvd es : map ne_points (map mvd es) = map (moved_points f) (map ne_points es).
Proof. rewrite !map_map. reflexivity. Qed.

Lemma glue_moved es : glue (map (moved_points f) es) = moved_points f (glue es).
Proof.
  destruct es as [|e es]; [reflexivity|]. cbn [map glue]. unfold moved_points. rewrite map_app. f_equal.
  induction es as [|x es IH]; [reflexivity|]. cbn [map concat]. rewrite map_app, <- IH. f_equal. destruct x; reflexivity.
Qed.

Lemma first_moved l : first (moved_points f l) = option_map (moved f) (first l).
Proof. destruct l; reflexivity. Qed.
Lemma final_moved l : final (moved_points f l) = option_map (moved f) (final l).
Proof. unfold final, moved_points. rewrite <- map_rev. destruct (rev l); reflexivity. Qed.

Lemma chain_mvd es : forall p q, chain p es q -> chain (moved f p) (map (moved_points f) es) (moved f q).
Proof.
  induction es as [|e es IH]; intros p q; cbn [map chain]; [congruence|]. intros (Hf & r & Hr & H). rewrite first_moved, final_moved, Hf, Hr.
  split; [reflexivity|]. exists (moved f r). split; [reflexivity|]. apply IH. exact H.
Qed.

Lemma closed_mvd es : closed_chain (map ne_points es) -> closed_chain (map ne_points (map mvd es)).
Proof. intros (p & C). exists (moved f p). rewrite points_mvd. apply chain_mvd. exact C. Qed.

Lemma good_mvd es : good es -> good (map mvd es).
Proof.
  intros (Ne & L & C). split; [destruct es; [congruence|discriminate]|]. split; [|apply closed_mvd; exact C].
  rewrite points_mvd. apply Forall_map. revert L. apply Forall_impl. intros e H. unfold moved_points. rewrite map_length. exact H.
Qed.

Lemma flipped_mvd es : flipped (map mvd es) = map mvd (flipped es).
Proof. unfold flipped. rewrite <- map_rev, !map_map. apply map_ext. intros e. unfold mvd, at_f. cbn [ne_points ne_reg0 ne_reg1]. rewrite map_rev. reflexivity. Qed.

Lemma close_moved c : close (map (moved f) c) = map (moved f) (close c).
Proof. destruct c as [|p c]; [reflexivity|]. cbn [close map]. rewrite map_app. reflexivity. Qed.

Lemma turned_mvd a b : turned a b -> turned (moved_points f a) (moved_points f b).
Proof. intros (l & r & -> & ->). exists (map (moved f) l), (map (moved f) r). unfold moved_points. rewrite <- !map_app, !close_moved. auto. Qed.

Lemma joins_mvd run e : joins run e -> joins (map mvd run) (mvd e).
Proof.
  intros (Ne & L & E). split; [destruct run; [congruence|discriminate]|]. split; [apply Forall_map; revert L; apply Forall_impl; intros x H; exact H|].
  unfold walk. rewrite points_mvd, glue_moved. change (ne_points (mvd e)) with (moved_points f (ne_points e)). rewrite E. reflexivity.
Qed.

Lemma Forall2_both {A B C E} (P : A -> B -> Prop) (Q : C -> E -> Prop) (g : A -> C) (h : B -> E) l l' :
  (forall a b, In a l -> P a b -> Q (g a) (h b)) -> Forall2 P l l' -> Forall2 Q (map g l) (map h l').
Proof.
  intros H F. induction F as [|a b l l' Hp F IH]; [constructor|]. cbn [map]. constructor; [apply H; [left; reflexivity|exact Hp]|]. apply IH. intros; apply H; [right|]; assumption.
Qed.

Lemma joined_mvd es out : joined es out -> joined (map mvd es) (map mvd out).
Proof.
  intros (runs & R & F). exists (map (map mvd) runs). split; [rewrite <- concat_map; apply rotation_map, R|].
  revert F. apply Forall2_both. intros run e _. apply joins_mvd.
Qed.

Lemma tidied_mvd b out : tidied b out -> tidied (map mvd b) (map mvd out).
Proof.
  intros [J|(e & e' & J & -> & L & T)]; [left; apply joined_mvd, J|]. right. exists (mvd e), (mvd e'). split; [exact (joined_mvd _ _ J)|]. split; [reflexivity|]. split; [exact L|]. apply turned_mvd, T.
Qed.

Lemma fewest_mvd es : fewest es -> fewest (map mvd es).
Proof.
  intros H x y rest (l & r & E & E'). apply map_eq_app in E as (l0 & r0 & -> & <- & <-). rewrite <- map_app in E'.
  destruct (r0 ++ l0) as [|x0 [|y0 rest0]] eqn:E0; try discriminate. injection E' as -> -> ->. apply (H x0 y0 rest0). exists l0, r0. auto.
Qed.

Lemma tidy_mvd b out : tidy b out -> tidy (map mvd b) (map mvd out).
Proof. intros [T F]. split; [apply tidied_mvd, T|apply fewest_mvd, F]. Qed.

Lemma filter_mvd (P : norm_edge -> bool) l : (forall e, P (mvd e) = P e) -> filter P (map mvd l) = map mvd (filter P l).
Proof. intros H. induction l as [|e l IH]; [reflexivity|]. cbn [map filter]. rewrite H, IH. destruct (P e); reflexivity. Qed.

Lemma exists_mvd r : existsb redundantb (map mvd r) = existsb redundantb r.
Proof. induction r as [|e r IH]; [reflexivity|]. cbn [map existsb]. rewrite IH. reflexivity. Qed.
Lemma forall_mvd r : forallb redundantb (map mvd r) = forallb redundantb r.
Proof. induction r as [|e r IH]; [reflexivity|]. cbn [map forallb]. rewrite IH. reflexivity. Qed.

Lemma untouched_mvd rs : untouched (map (map mvd) rs) = map (map mvd) (untouched rs).
Proof. unfold untouched. induction rs as [|r rs IH]; [reflexivity|]. cbn [map filter]. rewrite exists_mvd, IH. destruct (negb _); reflexivity. Qed.

Lemma pool_mvd rs : pool (map (map mvd) rs) = map mvd (pool rs).
Proof.
  unfold pool, mixed. induction rs as [|r rs IH]; [reflexivity|]. cbn [map filter]. rewrite exists_mvd, forall_mvd. destruct (existsb redundantb r && negb (forallb redundantb r)); [|exact IH].
  cbn [map concat]. rewrite map_app, IH. f_equal. apply filter_mvd. reflexivity.
Qed.

Lemma starts_mvd P : starts (map mvd P) = map (option_map (moved f)) (starts P).
Proof. unfold starts. rewrite !map_map. apply map_ext. intros e. apply first_moved. Qed.
Lemma ends_mvd P : ends (map mvd P) = map (option_map (moved f)) (ends P).
Proof. unfold ends. rewrite !map_map. apply map_ext. intros e. apply final_moved. Qed.

Lemma traversable_mvd P : traversable P -> traversable (map mvd P).
Proof.
  intros [N E]. split; [|rewrite starts_mvd, ends_mvd; apply Permutation_map, E].
  rewrite starts_mvd. apply FinFun.Injective_map_NoDup; [|exact N]. intros [x|] [y|] H; cbn [option_map] in H; try congruence. assert (H' : moved f x = moved f y) by congruence. apply moved_inj in H'. congruence.
Qed.

Lemma loose_mvd b outs : loose_side b outs -> loose_side (map (map mvd) b) (map (map mvd) outs).
Proof.
  intros (nrs & cy & ms & G & F & (C1 & C2) & F2 & Gc & P & T). exists (map (map mvd) nrs), (map (map mvd) cy), (map (map mvd) ms).
  split; [apply Forall_map; revert G; apply Forall_impl; exact good_mvd|]. split; [revert F; apply Forall2_both; intros; apply tidy_mvd; assumption|].
  split; [split; [rewrite pool_mvd, <- concat_map; apply Permutation_map, C1|apply Forall_map; revert C2; apply Forall_impl; intros c [Ne C]; split; [destruct c; [congruence|discriminate]|apply closed_mvd, C]]|].
  split; [revert F2; apply Forall2_both; intros; apply tidy_mvd; assumption|]. split; [apply Forall_map; revert Gc; apply Forall_impl; exact good_mvd|].
  split; [rewrite untouched_mvd, <- map_app; apply Permutation_map, P|]. rewrite pool_mvd. apply traversable_mvd, T.
Qed.
End Moved.

(** ** Flipped edges *)

Lemma flipped_perm es : Permutation (flipped es) (map flip es).
Proof. unfold flipped. apply Permutation_map. symmetry. apply Permutation_rev. Qed.

Lemma tidied_flipped b out : good b -> tidied b out -> tidied (flipped b) (flipped out).
Proof.
  intros G [J|(e & e' & J & -> & L & T)]; [left; apply joined_flipped; assumption|]. right. exists (flip e), (flip e'). split; [exact (joined_flipped _ _ G J)|]. split; [reflexivity|]. split; [exact L|]. apply turned_rev, T.
Qed.
Lemma tidy_flipped b out : good b -> tidy b out -> tidy (flipped b) (flipped out).
Proof. intros G [T F]. split; [apply tidied_flipped; assumption|apply flipped_fewest, F]. Qed.

Lemma labels_perm r : Permutation (map label (flipped r)) (map label r).
Proof. rewrite flipped_perm, map_map. reflexivity. Qed.
Lemma exists_flipped r : existsb redundantb (flipped r) = existsb redundantb r.
Proof. rewrite !NormCanon.existsb_labels. apply existsb_perm, labels_perm. Qed.
Lemma forall_flipped r : forallb redundantb (flipped r) = forallb redundantb r.
Proof. rewrite !forallb_labels. apply forallb_perm, labels_perm. Qed.

Lemma untouched_flipped rs : untouched (map flipped rs) = map flipped (untouched rs).
Proof. unfold untouched. induction rs as [|r rs IH]; [reflexivity|]. cbn [map filter]. rewrite exists_flipped, IH. destruct (negb _); reflexivity. Qed.

Lemma filter_flip (P : norm_edge -> bool) l : (forall e, P (flip e) = P e) -> filter P (map flip l) = map flip (filter P l).
Proof. intros H. induction l as [|e l IH]; [reflexivity|]. cbn [map filter]. rewrite H, IH. destruct (P e); reflexivity. Qed.

Lemma pool_flipped rs : Permutation (pool (map flipped rs)) (map flip (pool rs)).
Proof.
  unfold pool, mixed. induction rs as [|r rs IH]; [reflexivity|]. cbn [map filter]. rewrite exists_flipped, forall_flipped. destruct (existsb redundantb r && negb (forallb redundantb r)); [|exact IH].
  cbn [map concat]. rewrite map_app. apply Permutation_app; [|exact IH]. unfold useful. rewrite <- filter_flip by reflexivity. apply filter_perm, flipped_perm.
Qed.

Lemma concat_flipped cs : Permutation (concat (map flipped cs)) (map flip (concat cs)).
Proof. induction cs as [|c cs IH]; [reflexivity|]. cbn [map concat]. rewrite map_app. apply Permutation_app; [apply flipped_perm|exact IH]. Qed.

Lemma starts_flip P : starts (map flip P) = ends P.
Proof. unfold starts, ends. rewrite !map_map. apply map_ext. intros e. apply flip_first. Qed.
Lemma ends_flip P : ends (map flip P) = starts P.
Proof. unfold starts, ends. rewrite !map_map. apply map_ext. intros e. apply flip_final. Qed.
Lemma ends_perm P Q : Permutation P Q -> Permutation (ends P) (ends Q).
Proof. intros H. unfold ends. apply Permutation_map, Permutation_map, H. Qed.

Lemma traversable_flip P : traversable P -> traversable (map flip P).
Proof. intros [N E]. split; [rewrite starts_flip; eapply Permutation_NoDup; eassumption|]. rewrite starts_flip, ends_flip. symmetry. exact E. Qed.
Lemma traversable_perm P Q : Permutation P Q -> traversable P -> traversable Q.
Proof. intros H [N E]. split; [eapply Permutation_NoDup; [apply starts_perm, H|exact N]|]. rewrite <- (starts_perm _ _ H), <- (ends_perm _ _ H). exact E. Qed.

Lemma loose_flipped b outs : loose_side b outs -> loose_side (map flipped b) (map flipped outs).
Proof.
  intros (nrs & cy & ms & G & F & (C1 & C2) & F2 & Gc & P & T). exists (map flipped nrs), (map flipped cy), (map flipped ms). rewrite Forall_forall in Gc.
  split; [apply Forall_map; revert G; apply Forall_impl; exact flipped_good|]. split; [revert F; apply Forall2_both; rewrite Forall_forall in G; intros a o Ha; apply tidy_flipped, G, Ha|].
  split; [split|].
  - rewrite concat_flipped, pool_flipped. apply Permutation_map, C1.
  - apply Forall_map. apply Forall_forall. intros c Hc. destruct (flipped_good c (Gc c Hc)) as (N & _ & C). auto.
  - split; [revert F2; apply Forall2_both; intros a o Ha; apply tidy_flipped, Gc, Ha|]. split; [apply Forall_map, Forall_forall; intros c Hc; apply flipped_good, Gc, Hc|].
    split; [rewrite untouched_flipped, <- map_app; apply Permutation_map, P|]. eapply traversable_perm; [symmetry; apply pool_flipped|]. apply traversable_flip, T.
Qed.

(** ** Images of rings *)

Definition image (f : frame) (es : list norm_edge) : list norm_edge := if mirrors f then flipped (map (at_f (moved f)) es) else map (at_f (moved f)) es.

Lemma mirrors_turn f : turn f = if mirrors f then -1 else 1.
Proof. unfold turn, mirrors, sign_of. destruct f as [[] [] [] ? ?]; reflexivity. Qed.

Lemma image_area f es : closed_chain (map ne_points es) -> shoelaces (map ne_points (image f es)) = shoelaces (map ne_points es).
Proof.
  intros C. pose proof (mirrors_turn f) as E. unfold image. destruct (mirrors f); rewrite ?flipped_area, points_mvd, (shoelaces_closed f _ C), E; lia.
Qed.

Lemma loose_image f b outs : loose_side b outs -> loose_side (map (image f) b) (map (image f) outs).
Proof.
  intros H. apply (loose_mvd f) in H. unfold image. destruct (mirrors f); [|exact H]. apply loose_flipped in H. rewrite !map_map in H. exact H.
Qed.

Lemma image_read f es : facing_ring f (as_read es) = as_read (image f es).
Proof.
  assert (E : map (moved_path f) (as_read es) = as_read (map (at_f (moved f)) es)) by (unfold as_read; rewrite !map_map; reflexivity).
  unfold facing_ring, image. rewrite E. destruct (mirrors f); [|reflexivity]. unfold as_read. rewrite flipped_points, !map_map, <- !map_rev, !map_map. reflexivity.
Qed.

Lemma image_sized f outs : Forall good outs -> sized (map (image f) outs) = map (image f) (sized outs).
Proof.
  unfold sized. induction 1 as [|r outs G F IH]; [reflexivity|]. cbn [map filter]. rewrite image_area by apply G. rewrite IH. destruct (negb _); reflexivity.
Qed.

(** ** Topologies *)

(** The rings of [u] are the moved rings of [t]. *)
Definition moved_rings {D} (f : frame) (t u : topology D) (rs rs' : list topo_ring) : Prop :=
  Forall2 (fun r r' => seen_ring u r' = map (at_f (moved f)) (seen_ring t r)) rs rs'.
Definition moved_map {D} (f : frame) (t u : topology D) : Prop :=
  Forall2 (fun g g' => tg_data g = tg_data g' /\ moved_rings f t u (tg_outer g) (tg_outer g') /\ moved_rings f t u (tg_inner g) (tg_inner g'))
    (tp_regions t) (tp_regions u).

Section Two.
Context {D : Type} (f : frame) (t u : topology D) (Vt : valid t) (Vu : valid u) (M : moved_map f t u) (A : small_rings t).

Lemma sides_moved o g rs rs' outs outs' : In g (tp_regions t) -> incl rs (tg_outer g ++ tg_inner g) ->
  side_fact t o rs outs -> side_fact u o rs' outs' -> moved_rings f t u rs rs' ->
  exists ox, Permutation outs' ox /\ Forall2 same_ring_edges (map (image f) outs) ox.
Proof.
  intros Hg I S S' F.
  assert (G1 : forall r, In r rs -> good (seen_ring t r)) by (intros r Hr; apply (seen_ring_good t g r Vt Hg), I, Hr).
  assert (A1 : forall r, In r rs -> Z.abs (shoelaces (map ne_points (seen_ring t r))) < 2 ^ 63) by (intros r Hr; apply (A g r Hg), I, Hr).
  assert (G2 : forall r, In r rs' -> good (seen_ring u r)).
  { intros r Hr. destruct (Forall2_in_r _ _ _ _ F Hr) as (r0 & H0 & ->). apply good_mvd, G1, H0. }
  assert (A2 : forall r, In r rs' -> Z.abs (shoelaces (map ne_points (seen_ring u r))) < 2 ^ 63).
  { intros r Hr. destruct (Forall2_in_r _ _ _ _ F Hr) as (r0 & H0 & ->). rewrite points_mvd, (shoelaces_closed f) by apply G1, H0. specialize (A1 r0 H0). destruct (turn_cases f) as [-> | ->]; lia. }
  destruct (side_loose t o rs outs S G1 A1) as (b & B & L), (side_loose u o rs' outs' S' G2 A2) as (b' & B' & L').
  apply (loose_unique (map (image f) b) b' _ _ (loose_image f _ _ L) L').
  assert (X : Forall2 (fun x y => same_way (image f x) y) b b').
  { eapply Forall2_rel; [|exact B|exact B'|exact F]. cbv beta. intros r x r' y Hr _ (Hx & Wx) (Hy & Wy) E.
    assert (Cx : closed_chain (map ne_points x)) by (destruct Hx as [-> | ->]; [apply G1, Hr|apply flipped_good, G1, Hr]).
    apply (winds_same o (image f x) y (seen_ring u r') (seen_ring u r')); [|exact Hy|left; apply rotation_refl| |exact Wy].
    - rewrite E. unfold image. destruct Hx as [-> | ->], (mirrors f); rewrite <- ?flipped_mvd, ?flipped_involutive; auto.
    - unfold winds in *. rewrite image_area by exact Cx. exact Wx. }
  clear -X. induction X; constructor; assumption.
Qed.

Lemma normalize_moved m m' t' u' : normalize m t = Ok t' -> normalize m' u = Ok u' ->
  Forall2 same_shape (map (facing_shape f) (read_topology t')) (read_topology u').
Proof.
  intros H H'. destruct (normalize_by_region m t t' Vt H) as (parts & -> & F), (normalize_by_region m' u u' Vu H') as (parts' & -> & F').
  rewrite concat_map.
  assert (X : Forall2 (fun part part' => Forall2 same_shape (map (facing_shape f) part) part') parts parts').
  { eapply Forall2_rel; [|exact F|exact F'|exact M]. cbv beta.
    intros g p g' p' Hg Hg' (_ & _ & o1 & i1 & So1 & Si1 & ->) (_ & _ & o2 & i2 & So2 & Si2 & ->) (Ed & Ro & Ri).
    destruct (sides_moved Clockwise g _ _ o1 o2 Hg (incl_appl _ (incl_refl _)) So1 So2 Ro) as (ox & Po & Fo).
    destruct (sides_moved CounterClockwise g _ _ i1 i2 Hg (incl_appr _ (incl_refl _)) Si1 Si2 Ri) as (ix & Pi & Fi).
    assert (HR : forall l, map (facing_ring f) (map as_read l) = map as_read (map (image f) l)) by (intros l; rewrite !map_map; apply map_ext, image_read).
    pose proof (image_sized f o1 (proj2 (side_lengthy _ _ _ _ So1))) as Eo. pose proof (image_sized f i1 (proj2 (side_lengthy _ _ _ _ Si1))) as Ei.
    pose proof (read_same _ _ _ Po Fo) as Qo. pose proof (read_same _ _ _ Pi Fi) as Qi. rewrite Eo, <- HR in Qo. rewrite Ei, <- HR in Qi.
    pose proof (sized_nil _ o2 ox Po Fo) as Z. rewrite Eo in Z. unfold read_back.
    destruct (sized o1) as [|x a] eqn:E1, (sized o2) as [|y b] eqn:E2; [constructor|exfalso; destruct Z as [Z _]; specialize (Z eq_refl); discriminate|exfalso; destruct Z as [_ Z]; specialize (Z eq_refl); discriminate|].
    constructor; [|constructor]. split; [exact Ed|]. split; assumption. }
  clear -X. induction X as [|p p' l l' H X IH]; [constructor|]. cbn [map concat]. apply Forall2_app; assumption.
Qed.
End Two.

(** ** Moved topologies *)

Lemma edge_regions_moved {D} f (t : topology D) i : edge_regions (moved_topology f t) i = edge_regions t i.
Proof. reflexivity. Qed.

Lemma seen_moved {D} f (t : topology D) r : seen_ring (moved_topology f t) r = map (at_f (moved f)) (seen_ring t r).
Proof.
  unfold seen_ring. induction (tr_des r) as [|d ds IH]; [reflexivity|]. cbn [flat_map]. rewrite map_app, IH. f_equal. unfold seen. cbn [moved_topology tp_edges]. rewrite nth_error_map.
  destruct (nth_error (tp_edges t) (de_edge d)) as [e|]; [|reflexivity]. cbn [option_map map]. rewrite edge_regions_moved. unfold at_f. cbn [ne_points ne_reg0 ne_reg1 moved_edge te_points]. f_equal. f_equal.
  unfold oriented. destruct (de_dir d); [reflexivity|]. unfold moved_points. rewrite map_rev. reflexivity.
Qed.

Lemma moved_moved_map {D} f (t : topology D) : moved_map f t (moved_topology f t).
Proof.
  unfold moved_map. cbn [moved_topology tp_regions]. induction (tp_regions t) as [|g gs IH]; constructor; [|exact IH]. split; [reflexivity|].
  split; unfold moved_rings; [induction (tg_outer g)|induction (tg_inner g)]; constructor; try apply seen_moved; assumption.
Qed.

Lemma moved_valid {D} f (t : topology D) : valid t -> valid (moved_topology f t).
Proof.
  intros ((R1 & R2 & R3) & L & C). split; [|split].
  - split; [exact R1|]. split; [intros x Hx; cbn [moved_topology tp_edges]; rewrite map_length; apply R2, Hx|].
    intros i e He. cbn [moved_topology tp_edges] in He. rewrite nth_error_map in He. destruct (nth_error (tp_edges t) i) as [e0|] eqn:E; [|discriminate]. injection He as <-. exact (R3 i e0 E).
  - intros e He. cbn [moved_topology tp_edges] in He. apply in_map_iff in He as (e0 & <- & He). cbn [moved_edge te_points]. rewrite has_length_moved. apply L, He.
  - intros g r Hg Hr. destruct (C g r Hg Hr) as [N K]. split; [exact N|]. rewrite seen_moved. apply closed_mvd, K.
Qed.

(** ** Topologies built from moved regions *)

Lemma erase_eq r r' : BuildFrameSpec.same_rings r r' -> erase_ring r' = erase_ring r.
Proof.
  intros [H1 H2]. unfold erase_ring. rewrite H2. f_equal. rewrite <- !(map_map de_edge (fun i => DE i Forward)), H1. reflexivity.
Qed.
Lemma erases_eq rs rs' : Forall2 BuildFrameSpec.same_rings rs rs' -> map erase_ring rs' = map erase_ring rs.
Proof. induction 1 as [|r r' rs rs' H F IH]; [reflexivity|]. cbn [map]. rewrite IH, (erase_eq r r' H). reflexivity. Qed.

Lemma parts_uses {D} f (t s : topology D) : same_parts f t s -> uses (tp_regions s) = uses (tp_regions t).
Proof.
  intros [_ H]. rewrite <- (uses_erase (tp_regions s)), <- (uses_erase (tp_regions t)). f_equal.
  induction H as [|g g' gs gs' (E1 & E2 & E3) F IH]; [reflexivity|]. cbn [map]. rewrite IH. f_equal. unfold erase. rewrite E1, (erases_eq _ _ E2), (erases_eq _ _ E3). reflexivity.
Qed.

Lemma built_moved_map {D} m m' f (rs : list (region D)) t s : Forall closed_region rs ->
  build_topology m rs = Ok t -> build_topology m' (map (moved_region f) rs) = Ok s -> moved_map f t s.
Proof.
  intros Hc H H'. pose proof (build_moved_parts m m' f rs t s Hc H H') as P. pose proof (build_moved_read m m' f rs t s Hc H H') as R. pose proof (parts_uses f t s P) as U.
  destruct P as [_ P]. unfold read_topology in R.
  assert (K : forall r r', BuildFrameSpec.same_rings r r' -> read_ring (tp_edges s) r' = map (moved_path f) (read_ring (tp_edges t) r) -> seen_ring s r' = map (at_f (moved f)) (seen_ring t r)).
  { intros r r' [E _] Q. unfold read_ring in Q. unfold seen_ring. revert E Q. generalize (tr_des r'). induction (tr_des r) as [|d ds IH]; intros [|d' ds'] E Q; try discriminate; [reflexivity|].
    cbn [map] in E, Q. injection E as E1 E2. injection Q as Q1 Q2. cbn [flat_map]. rewrite map_app, (IH ds' E2 Q2). f_equal.
    unfold read_de in Q1. unfold seen. rewrite E1 in *. unfold edge_regions. rewrite U. destruct (nth_error (tp_edges s) (de_edge d)), (nth_error (tp_edges t) (de_edge d)); try discriminate; [|reflexivity].
    cbn [moved_path option_map] in Q1. injection Q1 as Q1. cbn [map]. unfold at_f. cbn [ne_points ne_reg0 ne_reg1]. rewrite Q1. reflexivity. }
  assert (KS : forall x y, Forall2 BuildFrameSpec.same_rings x y -> map (read_ring (tp_edges s)) y = map (map (moved_path f)) (map (read_ring (tp_edges t)) x) -> moved_rings f t s x y).
  { intros x y F. induction F as [|r r' x y Hr F IH]; intros Q; [constructor|]. cbn [map] in Q. injection Q as Q1 Q2. constructor; [apply K; assumption|apply IH, Q2]. }
  clear U. unfold moved_map. induction P as [|g g' gs gs' (E1 & E2 & E3) P IH]; [constructor|]. cbn [map] in R. injection R as Rd Ro Ri R2. constructor; [|apply IH, R2].
  split; [congruence|]. split; apply KS; assumption.
Qed.
