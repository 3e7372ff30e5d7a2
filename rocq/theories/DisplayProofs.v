(** * DisplayProofs: what is printed can be read back *)
From Verif Require Import DisplaySpec TopoProofs BytesProofs DbfProofs DbfLaws.

(** ** Numbers *)
Lemma decimal_ok n : is_usize n -> is_numeral n (decimal n).
Proof.
  intros [H1 H2]. unfold decimal. destruct (dec_digits_ok 20 n []) as (s & -> & H); [lia| |rewrite app_nil_r; exact H].
  change (10 ^ Z.of_nat 20) with 100000000000000000000. lia.
Qed.

(** The text does not go on with a digit. *)
Definition stops (s : text) : Prop := match s with [] => True | c :: _ => ~ 48 <= c <= 57 end.

Lemma digits_split s t u v : Forall (fun b => 48 <= b <= 57) s -> Forall (fun b => 48 <= b <= 57) t -> stops u -> stops v ->
  s ++ u = t ++ v -> s = t /\ u = v.
Proof.
  intros Hs. revert t. induction Hs as [|x s Hx Hs IH]; intros t Ht Hu Hv E.
  - destruct Ht as [|y t Hy Ht]; [auto|]. cbn in E. subst u. contradiction.
  - destruct Ht as [|y t Hy Ht]; cbn in E; [subst v; contradiction|]. injection E as -> E.
    destruct (IH t Ht Hu Hv E) as [-> ->]. auto.
Qed.

Lemma decimal_split a b u v : is_usize a -> is_usize b -> stops u -> stops v -> decimal a ++ u = decimal b ++ v -> a = b /\ u = v.
Proof.
  intros Ha Hb Hu Hv E. destruct (decimal_ok a Ha) as ([_ Da] & Va & _). destruct (decimal_ok b Hb) as ([_ Db] & Vb & _).
  destruct (digits_split _ _ u v Da Db Hu Hv E) as [E1 ->]. split; [|reflexivity]. congruence.
Qed.

Lemma u32_usize z : is_u32 z -> is_usize z.
Proof. unfold is_u32, is_usize. lia. Qed.

(** ** Separated lists *)
Section Separated.
  Context {A : Type} (R : A -> A -> Prop) (P : A -> Prop) (show : A -> text) (c : Z) (sep : text) (stop : Z).
  Hypothesis show_split : forall a b s t, P a -> P b -> show a ++ s = show b ++ t -> R a b /\ s = t.
  Hypothesis show_head : forall a, exists s, show a = c :: s.
  Hypothesis c_stop : c <> stop.
  Variable (d : Z) (sep' : text).
  Hypothesis sep_head : sep = d :: sep'.
  Hypothesis d_stop : d <> stop.

  Lemma separated_split xs : forall ys i s t, Forall P xs -> Forall P ys ->
    separated sep i (map show xs) ++ stop :: s = separated sep i (map show ys) ++ stop :: t -> Forall2 R xs ys /\ s = t.
  Proof.
    assert (N : forall y ys i s t, stop :: s <> separated sep i (map show (y :: ys)) ++ t).
    { intros y ys i s t E. cbn [map separated] in E. destruct (show_head y) as (s' & Hy). rewrite Hy, sep_head in E.
      destruct (Nat.ltb 0 i); cbn in E; injection E as E _; congruence. }
    induction xs as [|x xs IH]; intros ys i s t Hx Hy E.
    - destruct ys as [|y ys]; [|destruct (N _ _ _ _ _ E)]. cbn in E. injection E as ->. split; [constructor|reflexivity].
    - destruct ys as [|y ys]; [symmetry in E; destruct (N _ _ _ _ _ E)|]. inversion Hx as [|? ? Px Pxs]; inversion Hy as [|? ? Py Pys]; subst.
      cbn [map separated] in E. rewrite <- !app_assoc in E. apply app_inv_head in E.
      destruct (show_split x y _ _ Px Py E) as [Hxy E']. destruct (IH ys (i + 1)%nat s t Pxs Pys E') as [H ->].
      split; [constructor; assumption|reflexivity].
  Qed.
End Separated.

Lemma Forall2_eq {A} (xs ys : list A) : Forall2 eq xs ys -> xs = ys.
Proof. induction 1; congruence. Qed.

(** ** Points, edges, rings, regions *)
Lemma point_split p q s t : wf_point p -> wf_point q -> show_point p ++ s = show_point q ++ t -> p = q /\ s = t.
Proof.
  intros [Px Py] [Qx Qy] E. unfold show_point in E. rewrite <- !app_assoc in E. apply app_inv_head in E.
  apply decimal_split in E as [Ex E]; [|auto using u32_usize|auto using u32_usize|cbn; lia|cbn; lia]. apply app_inv_head in E.
  apply decimal_split in E as [Ey E]; [|auto using u32_usize|auto using u32_usize|cbn; lia|cbn; lia]. apply app_inv_head in E.
  destruct p, q; cbn in *. split; congruence.
Qed.

Lemma points_split ps qs i stop s t : stop <> 40 -> stop <> 44 -> wf_points ps -> wf_points qs ->
  separated (str ",") i (map show_point ps) ++ stop :: s = separated (str ",") i (map show_point qs) ++ stop :: t -> ps = qs /\ s = t.
Proof.
  intros H1 H2 Hp Hq E. apply (separated_split eq wf_point show_point 40 (str ",") stop) with (d := 44) (sep' := []) in E; try assumption; try congruence.
  - destruct E as [E ->]. split; [apply Forall2_eq, E|reflexivity].
  - apply point_split.
  - intros a. eexists. reflexivity.
  - reflexivity.
Qed.

Lemma edge_split a b s t : wf_points a -> wf_points b -> show_edge a ++ s = show_edge b ++ t -> a = b /\ s = t.
Proof.
  intros Ha Hb E. unfold show_edge in E. rewrite <- !app_assoc in E. apply app_inv_head in E.
  apply points_split in E; [assumption|discriminate|discriminate|assumption|assumption].
Qed.

Lemma edges_split es fs i stop s t : stop <> 69 -> stop <> 44 -> Forall wf_points es -> Forall wf_points fs ->
  separated (str ",") i (map show_edge es) ++ stop :: s = separated (str ",") i (map show_edge fs) ++ stop :: t -> es = fs /\ s = t.
Proof.
  intros H1 H2 Hp Hq E. apply (separated_split eq wf_points show_edge 69 (str ",") stop) with (d := 44) (sep' := []) in E; try assumption; try congruence.
  - destruct E as [E ->]. split; [apply Forall2_eq, E|reflexivity].
  - apply edge_split.
  - intros a. eexists. reflexivity.
  - reflexivity.
Qed.

Lemma points_not_edges ps es i s t : separated (str ",") 0 (map show_point ps) ++ 93 :: s = separated (str ",") i (map show_edge es) ++ 93 :: t -> i = 0%nat ->
  ps = [] /\ es = [] /\ s = t.
Proof.
  intros E ->. destruct ps as [|p ps], es as [|e es]; cbn in E; try discriminate. injection E as ->. auto.
Qed.

Lemma ring_split a b s t : wf_ring a -> wf_ring b -> show_ring a ++ s = show_ring b ++ t -> looks_alike a b /\ s = t.
Proof.
  intros Ha Hb E. unfold show_ring in E. rewrite <- !app_assoc in E. apply app_inv_head in E. unfold looks_alike.
  destruct a as [ps|es], b as [qs|fs]; cbn [wf_ring] in *.
  - apply points_split in E as [-> ->]; [auto|discriminate|discriminate|assumption|assumption].
  - apply points_not_edges in E as (-> & -> & ->); auto.
  - symmetry in E. apply points_not_edges in E as (-> & -> & ->); auto 6.
  - apply edges_split in E as [-> ->]; [auto|discriminate|discriminate|assumption|assumption].
Qed.

Lemma alike_show a b : looks_alike a b -> show_ring a = show_ring b.
Proof. intros [->|[[-> ->]|[-> ->]]]; reflexivity. Qed.

Lemma rings_split rs rs' s t : Forall wf_ring rs -> Forall wf_ring rs' -> show_rings rs ++ s = show_rings rs' ++ t -> Forall2 looks_alike rs rs' /\ s = t.
Proof.
  intros Ha Hb E. unfold show_rings in E. rewrite <- !app_assoc in E. apply app_inv_head in E.
  apply (separated_split looks_alike wf_ring show_ring 91 (str ", ") 93) with (d := 44) (sep' := [32]) in E; try assumption; try congruence.
  - apply ring_split.
  - intros a. eexists. reflexivity.
  - reflexivity.
Qed.

Lemma alike_rings rs rs' : Forall2 looks_alike rs rs' -> show_rings rs = show_rings rs'.
Proof.
  intros H. unfold show_rings. f_equal. f_equal. f_equal. induction H as [|a b rs rs' H _ IH]; [reflexivity|].
  cbn [map]. rewrite (alike_show a b H), IH. reflexivity.
Qed.

Lemma region_split {D D'} (a : region D) (b : region D') :
  Forall wf_ring (rg_outer a ++ rg_inner a) -> Forall wf_ring (rg_outer b ++ rg_inner b) ->
  show_region a = show_region b -> Forall2 looks_alike (rg_outer a) (rg_outer b) /\ Forall2 looks_alike (rg_inner a) (rg_inner b).
Proof.
  intros Ha Hb E. apply Forall_app in Ha as [Ha1 Ha2], Hb as [Hb1 Hb2]. unfold show_region in E.
  apply app_inv_head in E. apply rings_split in E as [H1 E]; [|assumption|assumption]. apply app_inv_head in E.
  apply rings_split in E as [H2 _]; auto.
Qed.

(** ** Messages *)
Lemma name_split a b : shape_type_name a ++ str ", expected Polygon" = shape_type_name b ++ str ", expected Polygon" -> a = b.
Proof. intros E. apply app_inv_tail in E. destruct a, b; vm_compute in E; congruence. Qed.

Lemma decimal_end a b : is_usize a -> is_usize b -> decimal a = decimal b -> a = b.
Proof. intros Ha Hb E. apply (decimal_split a b [] []); [assumption|assumption|exact I|exact I|rewrite !app_nil_r; exact E]. Qed.

Ltac step E :=
  first
  [ apply app_inv_head in E
  | apply decimal_split in E as [? E]; [|assumption|assumption|cbn; lia|cbn; lia]
  | apply decimal_end in E; [|assumption|assumption]
  | apply name_split in E ].
Ltac differ E :=
  exfalso; clear -E; revert E; repeat match goal with |- context [decimal ?x] => generalize (decimal x); intro end;
  intro E; vm_compute in E; discriminate E.

Lemma shp_message_inj e e' : e <> SEIo -> e' <> SEIo -> Forall is_usize (shp_values e) -> Forall is_usize (shp_values e') ->
  shp_message e = shp_message e' -> e = e'.
Proof.
  intros N N' V V' E.
  destruct e, e'; try congruence; cbn [shp_values shp_message] in *; repeat match goal with H : Forall is_usize _ |- _ => inversion H; subst; clear H end;
  try (differ E);
  repeat step E; subst; try reflexivity; try (differ E).
Qed.

Lemma sf_message_inj v e e' : own_message e -> own_message e' -> Forall is_usize (error_values e) -> Forall is_usize (error_values e') ->
  show_sf_error v e = show_sf_error v e' -> e = e'.
Proof.
  assert (S : forall e, e <> SEIo -> show_shp_error v e = str "Parse error: " ++ shp_message e) by (intros [] N; first [reflexivity | congruence]).
  assert (D : forall e, e <> DEIo -> show_dbf_error v e = str "Parse error: " ++ dbf_message v e) by (intros [] N; first [reflexivity | congruence]).
  assert (X : forall e e', e <> SEIo -> e' <> DEIo -> e' <> DEDecode -> show_shp_error v e <> show_dbf_error v e').
  { intros a b A B C E. rewrite S, D in E by assumption. apply app_inv_head in E.
    destruct a, b; try congruence; cbn [shp_message dbf_message str app] in E; discriminate E. }
  intros O O' V V' E. destruct e as [e|e| |], e' as [e'|e'| |]; cbn [own_message error_values show_sf_error] in *;
    try reflexivity.
  - assert (e <> SEIo) by (intros ->; contradiction). assert (e' <> SEIo) by (intros ->; contradiction).
    rewrite !S in E by assumption. apply app_inv_head in E. f_equal. apply shp_message_inj; assumption.
  - exfalso. apply (X e e'); [intros ->; contradiction|intros ->; contradiction|intros ->; contradiction|exact E].
  - exfalso. rewrite S in E by (intros ->; contradiction). apply app_inv_head in E. destruct e; try contradiction; cbn [shp_message str app] in E; discriminate E.
  - exfalso. rewrite S in E by (intros ->; contradiction). apply app_inv_head in E. destruct e; try contradiction; cbn [shp_message str app] in E; discriminate E.
  - exfalso. apply (X e' e); [intros ->; contradiction|intros ->; contradiction|intros ->; contradiction|symmetry; exact E].
  - rewrite !D in E by (intros ->; contradiction). apply app_inv_head in E. f_equal.
    destruct e, e'; try contradiction; try reflexivity; cbn [dbf_message str app] in E; discriminate E.
  - exfalso. rewrite D in E by (intros ->; contradiction). apply app_inv_head in E. destruct e; try contradiction; cbn [dbf_message str app] in E; discriminate E.
  - exfalso. rewrite D in E by (intros ->; contradiction). apply app_inv_head in E. destruct e; try contradiction; cbn [dbf_message str app] in E; discriminate E.
  - exfalso. rewrite S in E by (intros ->; contradiction). apply app_inv_head in E. destruct e'; try contradiction; cbn [shp_message str app] in E; discriminate E.
  - exfalso. rewrite D in E by (intros ->; contradiction). apply app_inv_head in E. destruct e'; try contradiction; cbn [dbf_message str app] in E; discriminate E.
  - exfalso. apply app_inv_head in E. discriminate E.
  - exfalso. rewrite S in E by (intros ->; contradiction). apply app_inv_head in E. destruct e'; try contradiction; cbn [shp_message str app] in E; discriminate E.
  - exfalso. rewrite D in E by (intros ->; contradiction). apply app_inv_head in E. destruct e'; try contradiction; cbn [dbf_message str app] in E; discriminate E.
  - exfalso. apply app_inv_head in E. discriminate E.
Qed.
