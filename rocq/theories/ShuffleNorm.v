(** * ShuffleNorm: normalizing with other region numbers *)
From Coq Require Import Permutation.
From Verif Require Import ShuffleSpec ShuffleBuild FormSpec FormProofs RebuildProofs OrderProofs TopoProofs BuildProofs GeoProofs NormProofs NormTopo NormTwice NormMerge.
From Verif Require Export Normalize.

Lemma both_eq {A} (x y : res A) : both eq x y -> x = y.
Proof. destruct x, y; cbn; intros H; try contradiction; congruence. Qed.
Lemma Forall2_rev {A B} (R : A -> B -> Prop) l l' : Forall2 R l l' -> Forall2 R (rev l) (rev l').
Proof. induction 1; [constructor|]. cbn [rev]. apply Forall2_app; [assumption|]. constructor; [assumption|constructor]. Qed.
Lemma Forall2_firstn {A B} (R : A -> B -> Prop) n l l' : Forall2 R l l' -> Forall2 R (firstn n l) (firstn n l').
Proof. intros F. revert n. induction F; intros [|n]; cbn; constructor; auto. Qed.
Lemma Forall2_skipn {A B} (R : A -> B -> Prop) n l l' : Forall2 R l l' -> Forall2 R (skipn n l) (skipn n l').
Proof. intros F. revert n. induction F; intros [|n]; cbn [skipn]; [constructor|constructor|constructor; assumption|auto]. Qed.
Lemma Forall2_removelast {A B} (R : A -> B -> Prop) l l' : Forall2 R l l' -> Forall2 R (removelast l) (removelast l').
Proof.
  induction 1 as [|a b l l' H F IH]; [constructor|]. destruct F; [constructor|]. change (Forall2 R (a :: removelast (x :: l)) (b :: removelast (y :: l'))).
  constructor; assumption.
Qed.
Lemma Forall2_filter {A B} (R : A -> B -> Prop) f g l l' : Forall2 R l l' -> (forall a b, R a b -> f a = g b) -> Forall2 R (filter f l) (filter g l').
Proof. intros F K. induction F as [|a b l l' H F IH]; [constructor|]. cbn [filter]. rewrite (K a b H). destruct (g b); [constructor|]; assumption. Qed.
Lemma Forall2_map2 {A B A' B'} (R : A -> B -> Prop) (R' : A' -> B' -> Prop) f g l l' : Forall2 R l l' -> (forall a b, R a b -> R' (f a) (g b)) -> Forall2 R' (map f l) (map g l').
Proof. intros F K. induction F; constructor; auto. Qed.
Lemma Forall2_same {A B C} (R : A -> B -> Prop) (f : A -> C) (g : B -> C) l l' : Forall2 R l l' -> (forall a b, R a b -> f a = g b) -> map f l = map g l'.
Proof. intros F K. induction F; cbn; f_equal; auto. Qed.

Lemma Forall2_len {A B} (R : A -> B -> Prop) l l' : Forall2 R l l' -> length l = length l'.
Proof. induction 1; cbn; congruence. Qed.

Section Alike.
Variable Q : option nat * option nat -> option nat * option nat -> Prop.
Hypothesis Q1 : forall a b a' b', Q a b -> Q a' b' -> (a = a' <-> b = b').
Hypothesis Q2 : forall a b, Q a b -> (fst a = snd a <-> fst b = snd b).

Definition sides_of (e : norm_edge) : option nat * option nat := (ne_reg0 e, ne_reg1 e).
Definition alike (e1 e2 : norm_edge) : Prop := ne_points e1 = ne_points e2 /\ Q (sides_of e1) (sides_of e2).
Definition ring_alike : norm_ring -> norm_ring -> Prop := Forall2 alike.

Lemma opt_nat_eqb_iff a b : opt_nat_eqb a b = true <-> a = b.
Proof. destruct a, b; cbn; rewrite ?Nat.eqb_eq; split; intros H; congruence. Qed.
Lemma same_regions_iff a b : same_regions a b = true <-> sides_of a = sides_of b.
Proof.
  unfold same_regions, sides_of. rewrite andb_true_iff, !opt_nat_eqb_iff. split; [intros (-> & ->); reflexivity|intros H; injection H; auto].
Qed.
Lemma same_alike a a' b b' : alike a a' -> alike b b' -> same_regions a b = same_regions a' b'.
Proof. intros (_ & H) (_ & K). apply eq_true_iff_eq. rewrite !same_regions_iff. apply (Q1 _ _ _ _ H K). Qed.
Lemma redundant_alike a a' : alike a a' -> is_redundant a = is_redundant a'.
Proof. intros (_ & H). apply eq_true_iff_eq. unfold is_redundant. rewrite !opt_nat_eqb_iff. apply (Q2 _ _ H). Qed.
Lemma tail_alike a a' : alike a a' -> both eq (tail_points a) (tail_points a').
Proof. intros (E & _). unfold tail_points. rewrite E. apply both_refl. Qed.

Lemma join_step_alike l l' e e' : ring_alike l l' -> alike e e' -> both ring_alike (join_step l e) (join_step l' e').
Proof.
  intros F A. destruct F as [|x y l l' H F]; [cbn; constructor; [exact A|constructor]|]. cbn [join_step]. rewrite (same_alike x y e e' H A).
  destruct (same_regions y e'); [|cbn; constructor; [exact A|constructor; assumption]].
  apply (both_bind eq); [apply tail_alike, A|]. intros tl b <-. cbn. constructor; [|exact F]. destruct H as (P & L). split; [cbn; rewrite P; reflexivity|exact L].
Qed.
Lemma join_wrap_alike l l' : ring_alike l l' -> both ring_alike (join_wrap l) (join_wrap l').
Proof.
  intros F. pose proof (Forall2_rev _ _ _ F) as V. unfold join_wrap. destruct F as [|x y l l' H F]; [constructor|].
  destruct V as [|u v k k' U V]; [cbn; constructor; assumption|]. destruct V; [cbn; constructor; assumption|].
  rewrite (same_alike x y u v H U). destruct (same_regions y v); [|cbn; constructor; assumption].
  apply (both_bind eq); [apply tail_alike, H|]. intros tl b <-. cbn. constructor; [|apply Forall2_removelast, F].
  destruct H as (P & L), U as (P' & _). split; [cbn; rewrite P'; reflexivity|exact L].
Qed.
Lemma join_alike l l' : ring_alike l l' -> both ring_alike (join_related_edges l) (join_related_edges l').
Proof.
  intros F. unfold join_related_edges. apply (both_bind ring_alike).
  - apply (both_fold ring_alike alike); [exact F| |constructor]. intros a b c e. apply join_step_alike.
  - intros a b H. apply join_wrap_alike, Forall2_rev, H.
Qed.
Lemma island_alike a a' : alike a a' -> both alike (rotate_island_edge a) (rotate_island_edge a').
Proof.
  intros A. pose proof A as (P & L). unfold rotate_island_edge. cbv zeta. rewrite P. destruct (min_index (ne_points a')) as [[|i]|]; [exact A| |exact A].
  apply (both_bind eq); [apply both_refl|]. intros x ? <-. apply (both_bind eq); [apply both_refl|]. intros y ? <-. apply (both_bind eq); [apply both_refl|]. intros ? ? _.
  split; [reflexivity|exact L].
Qed.
Lemma firsts_alike l l' : ring_alike l l' -> both eq (mmap (fun e => get (ne_points e) 0) l) (mmap (fun e => get (ne_points e) 0) l').
Proof.
  intros F. eapply both_impl; [|apply (both_map eq alike); [exact F|]].
  - intros a b H. induction H; congruence.
  - intros a b (P & _). rewrite P. apply both_refl.
Qed.
Lemma rotate_alike l l' : ring_alike l l' -> both ring_alike (rotate_edges l) (rotate_edges l').
Proof.
  intros F. assert (G : both ring_alike
    (firsts <- mmap (fun e => get (ne_points e) 0) l ;; match min_index firsts with None | Some O => Ok l | Some i => Ok (skipn i l ++ firstn i l) end)
    (firsts <- mmap (fun e => get (ne_points e) 0) l' ;; match min_index firsts with None | Some O => Ok l' | Some i => Ok (skipn i l' ++ firstn i l') end)).
  { apply (both_bind eq); [apply firsts_alike, F|]. intros a b <-. destruct (min_index a) as [[|i]|]; [exact F| |exact F]. apply Forall2_app; [apply Forall2_skipn, F|apply Forall2_firstn, F]. }
  destruct F as [|x y l l' H F]; [exact G|]. destruct F; [|exact G]. unfold rotate_edges. apply (both_bind alike); [apply island_alike, H|].
  intros a b A. constructor; [exact A|constructor].
Qed.
Lemma winding_alike m l l' : ring_alike l l' -> both eq (norm_winding m l) (norm_winding m l').
Proof.
  intros F. unfold norm_winding. apply (both_bind eq); [|intros a b <-; apply both_refl]. unfold norm_area.
  apply (both_fold eq alike); [exact F| |reflexivity]. intros a b c e <- (P & _). rewrite P. apply both_refl.
Qed.
Lemma reverse_alike a a' : alike a a' -> alike (reverse_norm_edge a) (reverse_norm_edge a').
Proof. intros (P & L). split; [cbn; rewrite P; reflexivity|exact L]. Qed.
Lemma wind_alike m l l' o : ring_alike l l' -> both ring_alike (wind_edges m l o) (wind_edges m l' o).
Proof.
  intros F. unfold wind_edges. apply (both_bind eq); [apply winding_alike, F|]. intros w ? <-. destruct (winding_eqb o w); [exact F|].
  apply Forall2_rev. apply (Forall2_map2 alike); [exact F|]. apply reverse_alike.
Qed.

Definition entry_alike (x y : point * norm_edge) : Prop := fst x = fst y /\ alike (snd x) (snd y).
Definition map_alike : bmap -> bmap -> Prop := Forall2 entry_alike.
Definition maybe {A B} (P : A -> B -> Prop) (x : option A) (y : option B) : Prop :=
  match x, y with Some a, Some b => P a b | None, None => True | _, _ => False end.
Lemma insert_alike k v v' m m' : map_alike m m' -> alike v v' -> maybe map_alike (bm_insert k v m) (bm_insert k v' m').
Proof.
  intros F A. induction F as [|(k1 & x) (k2 & y) m m' (E & H) F IH]; [constructor; [split; [reflexivity|exact A]|constructor]|]. cbn [fst snd] in *. subst k2. cbn [bm_insert].
  destruct (pt_eqb k k1); [exact I|]. destruct (pt_ltb k k1).
  - constructor; [split; [reflexivity|exact A]|]. constructor; [split; [reflexivity|exact H]|exact F].
  - destruct (bm_insert k v m), (bm_insert k v' m'); try contradiction; [|exact I]. constructor; [split; [reflexivity|exact H]|exact IH].
Qed.
Lemma remove_alike k m m' : map_alike m m' -> maybe (fun x y => alike (fst x) (fst y) /\ map_alike (snd x) (snd y)) (bm_remove k m) (bm_remove k m').
Proof.
  intros F. induction F as [|(k1 & x) (k2 & y) m m' (E & H) F IH]; [exact I|]. cbn [fst snd] in *. subst k2. cbn [bm_remove].
  destruct (pt_eqb k k1); [split; [exact H|exact F]|].
  destruct (bm_remove k m) as [(v & m1)|], (bm_remove k m') as [(v' & m1')|]; try contradiction; [|exact I]. destruct IH as (IH1 & IH2). split; [exact IH1|].
  constructor; [split; [reflexivity|exact H]|exact IH2].
Qed.
Lemma index_alike m m' l l' : map_alike m m' -> ring_alike l l' -> both map_alike (index_edges m l) (index_edges m' l').
Proof.
  intros M F. unfold index_edges. apply (both_fold map_alike alike); [exact F| |exact M]. intros a b c e H A. pose proof A as (P & _). rewrite P.
  apply (both_bind eq); [apply both_refl|]. intros k ? <-. pose proof (insert_alike k c e a b H A) as I.
  destruct (bm_insert k c a), (bm_insert k e b); try contradiction; [exact I|reflexivity].
Qed.
Definition state_alike (x y : list norm_ring * bmap) : Prop := Forall2 ring_alike (fst x) (fst y) /\ map_alike (snd x) (snd y).
Lemma classify_alike s s' r r' : state_alike s s' -> ring_alike r r' -> both state_alike (classify_ring s r) (classify_ring s' r').
Proof.
  intros (S1 & S2) F. unfold classify_ring. cbv zeta.
  assert (R : ring_alike (filter is_redundant r) (filter is_redundant r')) by (apply Forall2_filter; [exact F|apply redundant_alike]).
  assert (U : ring_alike (filter (fun e => negb (is_redundant e)) r) (filter (fun e => negb (is_redundant e)) r')).
  { apply Forall2_filter; [exact F|]. intros a b A. rewrite (redundant_alike a b A). reflexivity. }
  rewrite (Forall2_len _ _ _ R), (Forall2_len _ _ _ U). destruct (length (filter is_redundant r')).
  - cbn. split; [|exact S2]. cbn. apply Forall2_app; [exact S1|]. constructor; [exact U|constructor].
  - destruct (length (filter (fun e => negb (is_redundant e)) r')); [split; assumption|].
    apply (both_bind map_alike); [apply index_alike; assumption|]. intros a b M. split; [exact S1|exact M].
Qed.
Definition walk_alike (x y : list norm_edge * bmap) : Prop := ring_alike (fst x) (fst y) /\ map_alike (snd x) (snd y).
Lemma follow_alike n start : forall endp m m' acc acc', map_alike m m' -> ring_alike acc acc' ->
  both walk_alike (follow n start endp m acc) (follow n start endp m' acc').
Proof.
  induction n as [|n IH]; intros endp m m' acc acc' M A; [reflexivity|]. cbn [follow]. pose proof (remove_alike endp m m' M) as R.
  destruct (bm_remove endp m) as [(v & m1)|], (bm_remove endp m') as [(v' & m1')|]; try contradiction; [|reflexivity]. destruct R as (R1 & R2). cbn [fst snd] in *.
  pose proof R1 as (P & _). rewrite P. apply (both_bind eq); [apply both_refl|]. intros q ? <-.
  assert (AA : ring_alike (acc ++ [v]) (acc' ++ [v'])) by (apply Forall2_app; [exact A|constructor; [exact R1|constructor]]).
  destruct (pt_eqb q start); [split; assumption|]. apply IH; assumption.
Qed.
Lemma rebuild_alike n : forall m m' ret ret', map_alike m m' -> Forall2 ring_alike ret ret' -> both (Forall2 ring_alike) (rebuild n m ret) (rebuild n m' ret').
Proof.
  induction n as [|n IH]; intros m m' ret ret' M R; destruct M as [|(k1 & x) (k2 & y) m m' (E & H) M]; try exact R; cbn [fst snd] in *; subst k2; [reflexivity|]. cbn [rebuild].
  assert (MM : map_alike ((k1, x) :: m) ((k1, y) :: m')) by (constructor; [split; [reflexivity|exact H]|exact M]).
  rewrite (Forall2_len _ _ _ MM). apply (both_bind walk_alike); [apply follow_alike; [exact MM|constructor]|]. intros (es & m1) (es' & m1') (W1 & W2). cbn [fst snd] in *.
  apply (both_bind ring_alike); [apply join_alike, W1|]. intros e1 e1' J. apply (both_bind ring_alike); [apply rotate_alike, J|]. intros e2 e2' O.
  apply IH; [exact W2|]. apply Forall2_app; [exact R|]. constructor; [exact O|constructor].
Qed.
Lemma key_alike r r' : ring_alike r r' -> both eq (ring_key r) (ring_key r').
Proof.
  intros F. unfold ring_key. destruct F as [|x y l l' (P & _) F]; [reflexivity|]. change (both eq (get (ne_points x) 0) (get (ne_points y) 0)). rewrite P. apply both_refl.
Qed.
Lemma insert_key_alike k r r' l l' : ring_alike r r' -> Forall2 (fun x y => fst x = fst y /\ ring_alike (snd x) (snd y)) l l' ->
  Forall2 (fun x y => fst x = fst y /\ ring_alike (snd x) (snd y)) (insert_by_key k r l) (insert_by_key k r' l').
Proof.
  intros A F. induction F as [|(k1 & x) (k2 & y) l l' (E & H) F IH]; [constructor; [split; [reflexivity|exact A]|constructor]|]. cbn [fst snd] in *. subst k2. cbn [insert_by_key].
  destruct (_ || _); [constructor; [split; [reflexivity|exact H]|exact IH]|]. constructor; [split; [reflexivity|exact A]|]. constructor; [split; [reflexivity|exact H]|exact F].
Qed.
Lemma sort_alike l l' : Forall2 ring_alike l l' -> both (Forall2 ring_alike) (sort_rings l) (sort_rings l').
Proof.
  intros F. unfold sort_rings. rewrite (Forall2_len _ _ _ F). destruct (_ <=? _)%nat; [exact F|].
  apply (both_bind eq).
  - eapply both_impl; [|apply (both_map eq ring_alike); [exact F|apply key_alike]]. intros a b H. induction H; congruence.
  - intros ks ? <-. cbn. apply (Forall2_map2 (fun x y => fst x = fst y /\ ring_alike (snd x) (snd y))); [|tauto].
    assert (G : forall acc acc', Forall2 (fun x y => fst x = fst y /\ ring_alike (snd x) (snd y)) acc acc' ->
      Forall2 (fun x y => fst x = fst y /\ ring_alike (snd x) (snd y))
        (fold_left (fun acc kr => insert_by_key (fst kr) (snd kr) acc) (combine ks l) acc)
        (fold_left (fun acc kr => insert_by_key (fst kr) (snd kr) acc) (combine ks l') acc')); [|apply G; constructor].
    revert ks. induction F as [|x y l l' H F IH]; intros [|k ks] acc acc' A; try exact A. cbn [combine fold_left fst snd]. apply IH, insert_key_alike; assumption.
Qed.
Lemma adjacent_alike l l' : Forall2 ring_alike l l' -> both (Forall2 ring_alike) (join_adjacent_rings l) (join_adjacent_rings l').
Proof.
  intros F. unfold join_adjacent_rings. apply (both_bind state_alike).
  - apply (both_fold state_alike ring_alike); [exact F|apply classify_alike|split; constructor].
  - intros (ret & m) (ret' & m') (S1 & S2). cbn [fst snd] in *. destruct S2 as [|x y m m' E S2]; [exact S1|].
    assert (MM : map_alike (x :: m) (y :: m')) by (constructor; assumption). rewrite (Forall2_len _ _ _ MM).
    apply (both_bind (Forall2 ring_alike)); [apply rebuild_alike; assumption|]. apply sort_alike.
Qed.
Lemma rings_alike {D} m (t1 t2 : topology D) o rs1 rs2 :
  Forall2 (fun r1 r2 => both ring_alike (mmap (with_directed_edge t1) (tr_des r1)) (mmap (with_directed_edge t2) (tr_des r2))) rs1 rs2 ->
  normalize_region_rings m t1 rs1 o = normalize_region_rings m t2 rs2 o.
Proof.
  intros F. apply both_eq. unfold normalize_region_rings. apply (both_bind (Forall2 ring_alike)).
  - eapply both_map; [exact F|]. intros r1 r2 H. unfold normalize_ring. apply (both_bind ring_alike); [exact H|]. intros a b A.
    apply (both_bind ring_alike); [apply join_alike, A|]. clear. intros a b A. apply (both_bind ring_alike); [apply wind_alike, A|]. apply rotate_alike.
  - intros a b A. apply (both_bind (Forall2 ring_alike)); [apply adjacent_alike, A|]. clear a b A. intros a b A.
    apply (both_bind (Forall2 ring_alike)); [apply sort_alike, A|]. clear a b A. intros a b A. cbn. apply (Forall2_same ring_alike); [exact A|].
    intros r r' R. unfold into_ring. f_equal. apply (Forall2_same alike); [exact R|]. intros x y (P & _). exact P.
Qed.
End Alike.
