(** * SimplifyPlace: simplification and places *)
From Verif Require Import GeoProofs NormProofs PlaceProofs PlaceLaws Simplify SimplifyHeap SimplifyPlaceSpec.

Section Measure.
  (** A number for each path that changes its sign if the path is reversed. *)
  Variable mu : list point -> Z.
  Hypothesis mu_rev : forall ps, mu (rev ps) = - mu ps.
  Hypothesis mu_nil : mu [] = 0.

  Definition total (ps : list (list point)) : Z := sum (map mu ps).
  Lemma total_app a b : total (a ++ b) = total a + total b.
  Proof. unfold total. rewrite map_app. apply sum_app. Qed.

  Definition sign (d : direction) : Z := match d with Forward => 1 | Backward => -1 end.
  Definition at_edge (es : list topo_edge) (i : nat) : list point := match nth_error es i with Some e => te_points e | None => [] end.
  Lemma total_des es ds : total (present (map (read_de es) ds)) = sum (map (fun d => sign (de_dir d) * mu (at_edge es (de_edge d))) ds).
  Proof.
    induction ds as [|d ds IH]; [reflexivity|]. cbn [map]. change (present (?o :: ?l)) with (match o with Some p => [p] | None => [] end ++ present l).
    rewrite total_app, IH. change (sum (?a :: ?l)) with (a + sum l). f_equal. unfold read_de, at_edge. destruct (nth_error es (de_edge d)) as [e|]; cbn [option_map].
    - cbn [total map sum fold_right]. destruct (de_dir d); cbn [oriented sign]; [|rewrite mu_rev]; lia.
    - cbn [total map sum fold_right]. rewrite mu_nil. lia.
  Qed.

  Definition net (i : nat) (ds : list directed_edge) : Z := sum (map (fun d => if Nat.eqb (de_edge d) i then sign (de_dir d) else 0) ds).

  Lemma sum_zero {A} (f : A -> Z) l : (forall x, In x l -> f x = 0) -> sum (map f l) = 0.
  Proof. induction l as [|x l IH]; intros H; [reflexivity|]. cbn [map]. change (sum (?a :: ?b)) with (a + sum b). rewrite IH by (intros; apply H; right; assumption). rewrite (H x) by (left; reflexivity). reflexivity. Qed.
  Lemma sum_add {A} (f g : A -> Z) l : sum (map (fun x => f x + g x) l) = sum (map f l) + sum (map g l).
  Proof. induction l as [|x l IH]; [reflexivity|]. cbn [map]. change (sum (?a :: ?b)) with (a + sum b) in *. lia. Qed.
  Lemma sum_point (g : nat -> Z) (s : Z) k n : (k < n)%nat -> sum (map (fun i => (if Nat.eqb k i then s else 0) * g i) (seq 0 n)) = s * g k.
  Proof.
    intros H. replace n with (k + S (n - k - 1))%nat by lia. rewrite seq_app. cbn [seq Nat.add]. rewrite map_app, sum_app. cbn [map].
    change (sum (?a :: ?b)) with (a + sum b). rewrite Nat.eqb_refl.
    rewrite !sum_zero; [lia| |]; intros x Hx; apply in_seq in Hx; replace (Nat.eqb k x) with false by (symmetry; apply Nat.eqb_neq; lia); reflexivity.
  Qed.
  (** Adding up by edges instead of by passes. *)
  Lemma by_edges (g : nat -> Z) n ds : (forall i, (n <= i)%nat -> g i = 0) ->
    sum (map (fun d => sign (de_dir d) * g (de_edge d)) ds) = sum (map (fun i => net i ds * g i) (seq 0 n)).
  Proof.
    intros G. induction ds as [|d ds IH].
    - symmetry. apply sum_zero. intros. reflexivity.
    - cbn [map]. change (sum (?a :: ?b)) with (a + sum b). rewrite IH.
      rewrite (map_ext (fun i => net i (d :: ds) * g i) (fun i => (if Nat.eqb (de_edge d) i then sign (de_dir d) else 0) * g i + net i ds * g i))
        by (intros i; unfold net; cbn [map]; change (sum (?a :: ?b)) with (a + sum b); ring).
      rewrite sum_add. f_equal. destruct (Nat.lt_ge_cases (de_edge d) n) as [H|H]; [symmetry; apply sum_point; exact H|].
      rewrite G by exact H. rewrite sum_zero; [lia|]. intros x Hx. apply in_seq in Hx. replace (Nat.eqb (de_edge d) x) with false by (symmetry; apply Nat.eqb_neq; lia). reflexivity.
  Qed.
End Measure.

Lemma net_passed {D} i (rgs : list (topo_region D)) :
  net i (flat_map (fun rg => flat_map tr_des (tg_outer rg ++ tg_inner rg)) rgs) = passed Forward i rgs - passed Backward i rgs.
Proof.
  unfold passed. generalize (flat_map (fun rg => flat_map tr_des (tg_outer rg ++ tg_inner rg)) rgs). intros ds.
  induction ds as [|d ds IH]; [reflexivity|]. unfold net in *. cbn [map filter]. change (sum (?a :: ?b)) with (a + sum b). rewrite IH.
  destruct (Nat.eqb (de_edge d) i); cbn [andb]; [|lia]. destruct (de_dir d); cbn [sign length]; lia.
Qed.

Lemma region_paths_des {D} (t : topology D) rg : region_paths t rg = present (map (read_de (tp_edges t)) (flat_map tr_des (tg_outer rg ++ tg_inner rg))).
Proof.
  unfold region_paths. f_equal. induction (tg_outer rg ++ tg_inner rg) as [|r rs IH]; [reflexivity|].
  cbn [flat_map]. rewrite map_app, <- IH. reflexivity.
Qed.

Lemma total_regions {D} mu (Hr : forall ps, mu (rev ps) = - mu ps) (Hn : mu [] = 0) (t : topology D) rgs :
  sum (map (fun rg => total mu (region_paths t rg)) rgs) =
  sum (map (fun i => (passed Forward i rgs - passed Backward i rgs) * mu (edge_points t i)) (seq 0 (length (tp_edges t)))).
Proof.
  transitivity (sum (map (fun d => sign (de_dir d) * mu (at_edge (tp_edges t) (de_edge d))) (flat_map (fun rg => flat_map tr_des (tg_outer rg ++ tg_inner rg)) rgs))).
  - induction rgs as [|rg rgs IH]; [reflexivity|]. cbn [map flat_map]. change (sum (?a :: ?b)) with (a + sum b). rewrite IH, map_app, sum_app. f_equal.
    rewrite region_paths_des. apply total_des; assumption.
  - rewrite (by_edges (fun i => mu (at_edge (tp_edges t) i)) (length (tp_edges t))).
    + f_equal. apply map_ext. intros i. rewrite net_passed. reflexivity.
    + intros i Hi. unfold at_edge. rewrite (proj2 (nth_error_None _ _) Hi). exact Hn.
Qed.

Lemma tally_total f es : tally f es = total (fun e => tally f [e]) es.
Proof. induction es as [|e es IH]; [reflexivity|]. rewrite tally_cons, IH. reflexivity. Qed.
Lemma shoelaces_total es : shoelaces es = total shoelace es.
Proof. induction es as [|e es IH]; [reflexivity|]. cbn [shoelaces]. rewrite IH. reflexivity. Qed.

Section Simplified.
  Context {D : Type} (m : mode) (t t' : topology D) (thr : Z) (S : simplify m t thr = Ok t').
  Lemma same_count : length (tp_edges t') = length (tp_edges t).
  Proof. apply simplify_parts in S as (_ & F). symmetry. induction F as [|a b l l' _ _ IH]; [reflexivity|cbn [length]; rewrite IH; reflexivity]. Qed.

  Lemma total_change mu (Hr : forall ps, mu (rev ps) = - mu ps) (Hn : mu [] = 0) rgs :
    sum (map (fun rg => total mu (region_paths t' rg)) rgs) - sum (map (fun rg => total mu (region_paths t rg)) rgs) =
    sum (map (fun i => (passed Forward i rgs - passed Backward i rgs) * (mu (edge_points t' i) - mu (edge_points t i))) (seq 0 (length (tp_edges t)))).
  Proof.
    rewrite !total_regions, same_count by assumption. induction (seq 0 (length (tp_edges t))) as [|i l IH]; [reflexivity|].
    cbn [map]. change (sum (?a :: ?b)) with (a + sum b). lia.
  Qed.

  Lemma land_change rgs : land t' rgs - land t rgs =
    sum (map (fun i => (passed Forward i rgs - passed Backward i rgs) * (shoelace (edge_points t' i) - shoelace (edge_points t i))) (seq 0 (length (tp_edges t)))).
  Proof.
    rewrite <- (total_change shoelace shoelace_rev eq_refl). unfold land.
    f_equal; apply (f_equal sum), map_ext; intros; apply shoelaces_total.
  Qed.
  Lemma surrounded_change rgs z : surrounded t' rgs z - surrounded t rgs z =
    sum (map (fun i => (passed Forward i rgs - passed Backward i rgs) * (winding_number z [edge_points t' i] - winding_number z [edge_points t i])) (seq 0 (length (tp_edges t)))).
  Proof.
    rewrite <- (total_change (fun e => winding_number z [e]) (fun ps => tally_rev1 _ ps (crossing_odd East z)) eq_refl). unfold surrounded.
    f_equal; apply (f_equal sum), map_ext; intros; apply tally_total.
  Qed.

  Lemma inland_change rgs : (forall i, (i < length (tp_edges t))%nat -> edge_points t' i = edge_points t i \/ inland i rgs) ->
    land t' rgs = land t rgs /\ forall z, surrounded t' rgs z = surrounded t rgs z.
  Proof.
    intros H. split.
    - cut (land t' rgs - land t rgs = 0); [lia|]. rewrite land_change. apply sum_zero. intros i Hi. apply in_seq in Hi.
      destruct (H i) as [-> |E]; [lia|lia|]. unfold inland in E. rewrite E. lia.
    - intros z. cut (surrounded t' rgs z - surrounded t rgs z = 0); [lia|]. rewrite surrounded_change. apply sum_zero. intros i Hi. apply in_seq in Hi.
      destruct (H i) as [-> |E]; [lia|lia|]. unfold inland in E. rewrite E. lia.
  Qed.
End Simplified.

Lemma covered_oddly_surrounded {D} (t : topology D) rgs z : covered_oddly t rgs z = Z.odd (surrounded t rgs z).
Proof.
  unfold covered_oddly, surrounded. induction rgs as [|rg rgs IH]; [reflexivity|]. cbn [map fold_right]. change (sum (?a :: ?b)) with (a + sum b).
  rewrite Z.odd_add, <- IH. reflexivity.
Qed.
Lemma odd_sum l : (forall x, In x l -> Z.even x = true) -> Z.odd (sum l) = false.
Proof.
  induction l as [|x l IH]; intros H; [reflexivity|]. change (sum (x :: l)) with (x + sum l). rewrite Z.odd_add, IH by (intros; apply H; right; assumption).
  rewrite <- Z.negb_even, (H x) by (left; reflexivity). reflexivity.
Qed.
Lemma parity_change {D} m (t t' : topology D) thr rgs z : simplify m t thr = Ok t' ->
  (forall i, (i < length (tp_edges t))%nat -> edge_points t' i = edge_points t i \/ Z.even (passed Forward i rgs + passed Backward i rgs) = true) ->
  covered_oddly t' rgs z = covered_oddly t rgs z.
Proof.
  intros S H. rewrite !covered_oddly_surrounded. replace (surrounded t' rgs z) with (surrounded t' rgs z - surrounded t rgs z + surrounded t rgs z) by lia.
  rewrite Z.odd_add, (surrounded_change m t t' thr S), odd_sum; [apply xorb_false_l|]. intros x Hx. apply in_map_iff in Hx as (i & <- & Hi). apply in_seq in Hi.
  destruct (H i) as [-> |E]; [lia|rewrite Z.sub_diag, Z.mul_0_r; reflexivity|]. rewrite Z.even_mul, Z.even_sub. rewrite Z.even_add in E. rewrite E. reflexivity.
Qed.
