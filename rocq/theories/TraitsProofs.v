(** * TraitsProofs: lemmas for C133 *)
From Coq Require Import Sorted.
From Verif Require Import TraitsSpec GeoProofs TopoProofs BytesProofs NormSpec NormProofs NormJoin BuildProofs.
From Flocq Require Import IEEE754.Binary IEEE754.Bits.
Open Scope Z_scope.

Ltac cmps := repeat match goal with
  | H : context [?a ?= ?b] |- _ => destruct (Z.compare_spec a b)
  | |- context [?a ?= ?b] => destruct (Z.compare_spec a b) end.

Lemma point_laws : ordering_laws point_cmp.
Proof.
  unfold ordering_laws, point_cmp, then_cmp. split; [|split; [|split]]; intros.
  - rewrite !Z.compare_refl. reflexivity.
  - rewrite (Z.compare_antisym (px a) (px b)), (Z.compare_antisym (py a) (py b)). destruct (px a ?= px b), (py a ?= py b); reflexivity.
  - cmps; try discriminate; try reflexivity; lia.
  - destruct (Z.compare_spec (px a) (px b)); try discriminate. apply Z.compare_eq_iff in H. rewrite H, H0. reflexivity.
Qed.
Lemma point_agrees : agrees pt_eqb point_cmp.
Proof.
  intros a b. rewrite pt_eqb_eq. unfold point_cmp, then_cmp. split.
  - intros ->. rewrite !Z.compare_refl. reflexivity.
  - destruct a as [x y], b as [x' y']. cbn [px py]. cmps; try discriminate. intros _. congruence.
Qed.
Lemma point_ops a b : point_partial_cmp a b = Some (point_cmp a b) /\ op_lt (point_partial_cmp a b) = pt_ltb a b /\ (point_cmp a b = Lt <-> lt_point a b).
Proof.
  split; [unfold point_partial_cmp, then_partial, point_cmp, then_cmp; destruct (px a ?= px b); reflexivity|]. split.
  - unfold point_partial_cmp, then_partial, op_lt, pt_ltb, Z.ltb. destruct (Z.compare_spec (px a) (px b)) as [E|E|E].
    + rewrite E, Z.eqb_refl. cbn [orb andb]. destruct (py a ?= py b); reflexivity.
    + reflexivity.
    + destruct (Z.eqb_spec (px a) (px b)); [lia|reflexivity].
  - unfold lt_point, point_cmp, then_cmp. cmps; split; intros; try discriminate; try reflexivity; lia.
Qed.

Lemma path_fed a : forall b x y, flat_map point_hash a ++ x = flat_map point_hash b ++ y -> length a = length b -> a = b /\ x = y.
Proof.
  induction a as [|[u v] a IH]; intros [|[u' v'] b] x y H L; try discriminate; [auto|]. cbn [flat_map point_hash px py app] in H. injection H as -> -> H.
  destruct (IH b x y H) as (-> & ->); [injection L; auto|]. auto.
Qed.
Lemma path_prefix_free a b x y : path_hash a ++ x = path_hash b ++ y -> a = b /\ x = y.
Proof. unfold path_hash. cbn [app]. intros H. injection H as L H. apply path_fed; assumption. Qed.
Lemma pts_eqb_eq a b : pts_eqb a b = true <-> a = b.
Proof.
  revert b. induction a as [|p a IH]; intros [|q b]; cbn [pts_eqb]; try (split; [discriminate|discriminate]); [tauto|].
  rewrite andb_true_iff, pt_eqb_eq, IH. split; [intros (-> & ->); reflexivity|intros H; injection H as -> ->; auto].
Qed.
Lemma gap_fed a b : gap_hash a = gap_hash b <-> a = b.
Proof. split; [|intros ->; reflexivity]. destruct a as [[u v] [u' v']], b as [[x y] [x' y']]. unfold gap_hash, point_hash. cbn. intros H. injection H as -> -> -> ->. reflexivity. Qed.
Lemma gap_eq_eq a b : gap_eq a b = true <-> a = b.
Proof. unfold gap_eq. rewrite andb_true_iff, !pt_eqb_eq. destruct a, b. cbn. split; [intros (-> & ->); reflexivity|intros H; injection H as -> ->; auto]. Qed.

Lemma weight_laws : ordering_laws weight_cmp.
Proof.
  unfold ordering_laws, weight_cmp. split; [|split; [|split]]; intros.
  - apply Z.compare_refl.
  - apply Z.compare_antisym.
  - cmps; try discriminate; try reflexivity; lia.
  - apply Z.compare_eq_iff in H. rewrite H. reflexivity.
Qed.
Lemma weight_agrees : agrees weight_eq weight_cmp.
Proof. intros a b. unfold weight_eq, weight_cmp. rewrite Z.eqb_eq, Z.compare_eq_iff. tauto. Qed.

Lemma norm_edge_eq_eq a b : norm_edge_eq a b = true <-> ne_points a = ne_points b.
Proof. apply pts_eqb_eq. Qed.
Lemma norm_ring_eq_eq a b : norm_ring_eq a b = true <-> map ne_points a = map ne_points b.
Proof.
  revert b. induction a as [|x a IH]; intros [|y b]; cbn [norm_ring_eq map]; try (split; discriminate); [tauto|].
  rewrite andb_true_iff, norm_edge_eq_eq, IH. split; [intros (-> & ->); reflexivity|intros H; injection H as -> ->; auto].
Qed.
Lemma by_image {A B} (f : A -> B) (eq : A -> A -> bool) : (forall a b, eq a b = true <-> f a = f b) -> equivalence_laws eq.
Proof.
  intros H. split; [|split].
  - intros a. apply H. reflexivity.
  - intros a b. destruct (eq a b) eqn:E1, (eq b a) eqn:E2; try reflexivity; exfalso.
    + apply H in E1. symmetry in E1. apply H in E1. congruence.
    + apply H in E2. symmetry in E2. apply H in E2. congruence.
  - intros a b c H1 H2. apply H in H1, H2. apply H. congruence.
Qed.
Lemma cmp_start a b : norm_ring_cmp a b = match ring_start (map ne_points a), ring_start (map ne_points b) with Some p, Some q => Ok (point_cmp p q) | _, _ => Panic PIndex end.
Proof.
  unfold norm_ring_cmp, get, get_or. destruct a as [|[[|p e] u v] a]; cbn; try reflexivity. all: destruct b as [|[[|q f] u' v'] b]; reflexivity.
Qed.

Lemma f64_cmp_swap a b : f64_cmp b a = option_map CompOpp (f64_cmp a b).
Proof. unfold f64_cmp. rewrite Bcompare_swap. destruct (Bcompare 53 1024 (b64_of_bits a) (b64_of_bits b)) as [[]|]; reflexivity. Qed.
Lemma f64_cmp_number a b : f64_cmp a b <> None <-> is_number a /\ is_number b.
Proof.
  unfold f64_cmp, is_number, Bcompare, BinarySingleNaN.Bcompare. destruct (b64_of_bits a) as [[]|[]|[] ?|[]], (b64_of_bits b) as [[]|[]|[] ?|[]]; cbn; split; intros H; try (split; reflexivity); try discriminate; try (destruct H; discriminate); try (exfalso; apply H; reflexivity); intros X; discriminate.
Qed.

Lemma shp_eq_cmp a b : shp_point_eq a b = true <-> shp_point_cmp a b = Some Eq.
Proof.
  unfold shp_point_eq, shp_point_cmp, f64_eq, then_partial. rewrite andb_true_iff.
  destruct (f64_cmp (sp_x a) (sp_x b)) as [[]|], (f64_cmp (sp_y a) (sp_y b)) as [[]|]; split; intros H; try discriminate; try (split; reflexivity); try reflexivity; destruct H; discriminate.
Qed.
Lemma shp_cmp_swap a b : shp_point_cmp b a = option_map CompOpp (shp_point_cmp a b).
Proof. unfold shp_point_cmp. rewrite (f64_cmp_swap (sp_x a)), (f64_cmp_swap (sp_y a)). destruct (f64_cmp (sp_x a) (sp_x b)) as [[]|]; reflexivity. Qed.
Lemma f64_cmp_refl a : is_number a -> f64_cmp a a = Some Eq.
Proof.
  intros N. assert (H : f64_cmp a a <> None) by (apply f64_cmp_number; auto). pose proof (f64_cmp_swap a a) as S.
  destruct (f64_cmp a a) as [[]|]; try discriminate; [reflexivity|congruence].
Qed.
Lemma shp_refl a : shp_point_eq a a = true <-> is_number (sp_x a) /\ is_number (sp_y a).
Proof.
  unfold shp_point_eq, f64_eq. rewrite andb_true_iff. split.
  - intros (H1 & H2). assert (f64_cmp (sp_x a) (sp_x a) <> None) as X by (intros E; rewrite E in H1; discriminate).
    assert (f64_cmp (sp_y a) (sp_y a) <> None) as Y by (intros E; rewrite E in H2; discriminate). apply f64_cmp_number in X, Y. tauto.
  - intros (H1 & H2). rewrite !f64_cmp_refl by assumption. auto.
Qed.

(** ** Sorting keeps rings with the same start in their order *)
Definition keyed (p : point) (kr : point * norm_ring) : bool := pt_eqb (fst kr) p.
Lemma insert_stable p k r l : StronglySorted key_le l -> filter (keyed p) (insert_by_key k r l) = filter (keyed p) l ++ filter (keyed p) [(k, r)].
Proof.
  induction 1 as [|(k' & r') l H IH HA]; cbn [insert_by_key]; [reflexivity|]. destruct (pt_ltb k' k || pt_eqb k' k) eqn:E.
  - cbn [filter] in *. rewrite IH. destruct (keyed p (k', r')); reflexivity.
  - assert (Q : keyed p (k, r) = true -> filter (keyed p) ((k', r') :: l) = []).
    { unfold keyed at 1. cbn [fst]. intros Ek. apply pt_eqb_eq in Ek. subst p.
      assert (F : Forall (fun x => keyed k x = false) ((k', r') :: l)).
      { apply orb_false_iff in E as (E1 & E2). constructor; [exact E2|]. eapply Forall_impl; [|exact HA]. intros (k2 & r2) HL. unfold key_le in HL. cbn [fst] in HL.
        unfold keyed. cbn [fst]. destruct (pt_eqb k2 k) eqn:E3; [|reflexivity]. apply pt_eqb_eq in E3. subst k2. exfalso. destruct HL as [HL|HL].
        - apply pt_ltb_lt in HL. congruence.
        - subst k'. rewrite (proj2 (pt_eqb_eq k k) eq_refl) in E2. discriminate. }
      clear -F. induction F as [|x l0 Hx F IH]; [reflexivity|]. cbn [filter]. rewrite Hx. exact IH. }
    cbn [filter] in *. destruct (keyed p (k, r)); [rewrite Q by reflexivity; reflexivity|rewrite app_nil_r; reflexivity].
Qed.
Lemma insert_all_stable p l : forall acc, StronglySorted key_le acc ->
  filter (keyed p) (fold_left (fun acc kr => insert_by_key (fst kr) (snd kr) acc) l acc) = filter (keyed p) acc ++ filter (keyed p) l.
Proof.
  induction l as [|(k & r) l IH]; intros acc S; cbn [fold_left]; [rewrite app_nil_r; reflexivity|]. rewrite IH by (apply insert_sorted, S). cbn [fst snd].
  rewrite insert_stable by exact S. rewrite <- app_assoc, <- filter_app. reflexivity.
Qed.
Lemma key_starts r k p : ring_key r = Ok k -> starts_at p (into_ring r) = pt_eqb k p.
Proof.
  unfold ring_key, get, get_or, into_ring, starts_at. destruct r as [|[[|q e] u v] r]; cbn; try discriminate. intros [= <-]. reflexivity.
Qed.
Lemma sort_stable rs out p : sort_rings rs = Ok out -> filter (starts_at p) (map into_ring out) = filter (starts_at p) (map into_ring rs).
Proof.
  unfold sort_rings. destruct (Nat.leb _ _); [intros [= <-]; reflexivity|]. intros H. apply bind_Ok in H as (ks & K & H). injection H as <-.
  assert (KF : forall x, In x (combine ks rs) -> starts_at p (into_ring (snd x)) = keyed p x).
  { assert (F : Forall2 (fun r k => ring_key r = Ok k) rs ks).
    { clear -K. revert ks K. induction rs as [|r rs IH]; intros ks K; cbn [mmap] in K; [injection K as <-; constructor|].
      apply bind_Ok in K as (k & K1 & K). apply bind_Ok in K as (ks' & K2 & K). injection K as <-. constructor; auto. }
    apply combine_in in F. rewrite Forall_forall in F. intros x Hx. apply key_starts. exact (F x Hx). }
  assert (L : map snd (combine ks rs) = rs).
  { clear KF. revert ks K. induction rs as [|r rs IH]; intros ks K; cbn [mmap] in K; [injection K as <-; reflexivity|].
    apply bind_Ok in K as (k & K1 & K). apply bind_Ok in K as (ks' & K2 & K). injection K as <-. cbn [combine map snd]. f_equal. auto. }
  pose proof (insert_all_stable p (combine ks rs) [] (SSorted_nil _)) as S. destruct (insert_all (combine ks rs) [] (SSorted_nil _)) as (_ & P). cbn [app filter] in S, P.
  assert (Q : forall l, (forall x, In x l -> In x (combine ks rs)) -> filter (starts_at p) (map into_ring (map snd l)) = map into_ring (map snd (filter (keyed p) l))).
  { induction l as [|x l IH]; intros I; [reflexivity|]. cbn [map filter]. rewrite (KF x) by (apply I; left; reflexivity).
    rewrite IH by (intros y Hy; apply I; right; exact Hy). destruct (keyed p x); reflexivity. }
  rewrite Q by (intros x Hx; apply (Permutation_in _ P Hx)). rewrite S, <- (Q (combine ks rs)) by auto. rewrite L. reflexivity.
Qed.

Definition lone (r : norm_ring) : Prop := Forall (fun e => ne_reg0 e <> ne_reg1 e) r.
Lemma lone_filters r : lone r -> filter is_redundant r = [] /\ filter (fun e => negb (is_redundant e)) r = r.
Proof.
  induction 1 as [|e r H F (I1 & I2)]; [auto|]. cbn [filter]. assert (E : is_redundant e = false).
  { unfold is_redundant. destruct (ne_reg0 e) as [i|] eqn:A, (ne_reg1 e) as [j|] eqn:B; try reflexivity; try congruence. cbn. apply Nat.eqb_neq. congruence. }
  rewrite E. cbn [negb]. rewrite I1, I2. auto.
Qed.
Lemma lone_classify rs : forall ret, Forall lone rs -> mfold classify_ring rs (ret, []) = Ok (ret ++ rs, []).
Proof.
  induction rs as [|r rs IH]; intros ret F; cbn [mfold]; [rewrite app_nil_r; reflexivity|]. inversion F as [|? ? F1 F2]; subst.
  unfold classify_ring at 1. destruct (lone_filters r F1) as (-> & ->). cbn [length fst snd bind]. rewrite IH by exact F2. rewrite <- app_assoc. reflexivity.
Qed.
Lemma normalize_stable {D} m (t : topology D) rs o nrs out p : mmap (normalize_ring m t o) rs = Ok nrs -> Forall lone nrs ->
  normalize_region_rings m t rs o = Ok out -> filter (starts_at p) out = filter (starts_at p) (map into_ring nrs).
Proof.
  intros N L H. unfold normalize_region_rings in H. rewrite N in H. cbn [bind] in H. unfold join_adjacent_rings in H. rewrite lone_classify in H by exact L. cbn [bind app] in H.
  apply bind_Ok in H as (s & S & H). injection H as <-. exact (sort_stable nrs s p S).
Qed.
