(** * PrintProps: C139, what the program prints for files with the same map *)
From Verif Require Import BuildProofs OrderProofs BytesProofs ShuffleSpec PipelineSpec PipelineProofs ShuffleBuild ShuffleLaws ShuffleClip ClipTopoSpec ClipTopoLaws
  ShpProps DbfProps SfProps PipelineProps ProgramProps ShuffleProps ShuffleFileProps UnitSpec UnitProofs UnitProps
  FormSpec FormProofs OrderSpec OnceSpec NormCanonSpec TurnSpec TurnProofs TurnProps DisplaySpec DisplayProps PrintSpec.

(** ** Descriptions *)
Lemma sum_perm l l' : Permutation l l' -> list_sum l = list_sum l'.
Proof. induction 1 as [|x l l' P IH|x y l|l l' l'' P IH P' IH']; [reflexivity|rewrite !list_sum_cons; lia|rewrite !list_sum_cons; lia|lia]. Qed.

Lemma filter_perm (l l' : list bool) (b : bool) : Permutation l l' -> length (filter (Bool.eqb b) l) = length (filter (Bool.eqb b) l').
Proof.
  induction 1 as [|x l l' P IH|x y l|l l' l'' P IH P' IH']; [reflexivity| | |congruence]; cbn [filter].
  - destruct (Bool.eqb b x); cbn [length]; congruence.
  - destruct (Bool.eqb b x), (Bool.eqb b y); reflexivity.
Qed.

Lemma filter_flag {A} (f : A -> bool) l b : length (filter (fun x => Bool.eqb b (f x)) l) = length (filter (Bool.eqb b) (map f l)).
Proof. induction l as [|x l IH]; [reflexivity|]. cbn [map filter]. destruct (Bool.eqb b (f x)); cbn [length]; congruence. Qed.

Lemma users_length i us : length (users i us) = length (filter (Nat.eqb i) (map fst us)).
Proof.
  unfold users. rewrite map_length. induction us as [|u us IH]; [reflexivity|]. cbn [map filter]. rewrite (Nat.eqb_sym i (fst u)).
  destruct (Nat.eqb (fst u) i); cbn [length]; congruence.
Qed.

Lemma filter_map_inj (s : nat -> nat) i l : Injective s -> length (filter (Nat.eqb (s i)) (map s l)) = length (filter (Nat.eqb i) l).
Proof.
  intros I. induction l as [|x l IH]; [reflexivity|]. cbn [map filter].
  destruct (Nat.eqb_spec (s i) (s x)) as [E|E], (Nat.eqb_spec i x) as [F|F]; cbn [length]; try congruence. apply I in E. contradiction.
Qed.

Lemma filter_nat_perm i (l l' : list nat) : Permutation l l' -> length (filter (Nat.eqb i) l) = length (filter (Nat.eqb i) l').
Proof.
  induction 1 as [|x l l' P IH|x y l|l l' l'' P IH P' IH']; [reflexivity| | |congruence]; cbn [filter].
  - destruct (Nat.eqb i x); cbn [length]; congruence.
  - destruct (Nat.eqb i x), (Nat.eqb i y); reflexivity.
Qed.

Definition region_des {D} (rg : topo_region D) : list directed_edge := concat (map tr_des (tg_outer rg)) ++ concat (map tr_des (tg_inner rg)).

Lemma same_uses_des s l1 l2 : Forall2 (same_uses s) l1 l2 -> map de_edge (concat (map tr_des l1)) = map s (map de_edge (concat (map tr_des l2))).
Proof.
  induction 1 as [|a b l1 l2 A F IH]; [reflexivity|]. cbn [map concat]. rewrite !map_app, IH. f_equal.
  unfold same_uses in A. induction A as [|x y xs ys (X & _) _ IHx]; [reflexivity|]. cbn [map]. congruence.
Qed.

Lemma renumbered_uses {D} p s (t1 t2 : topology D) : renumbered p s t1 t2 ->
  Permutation (map fst (uses (tp_regions t1))) (map s (map fst (uses (tp_regions t2)))).
Proof.
  intros (Ip & _ & L & _ & R & _). rewrite !uses_all_des. unfold all_des.
  assert (X : Permutation (flat_map (fun rg : topo_region D => map de_edge (region_des rg)) (tp_regions t1))
                          (flat_map (fun rg => map s (map de_edge (region_des rg))) (tp_regions t2))).
  { apply perm_flat. apply (perm_by2 _ _ p); [exact Ip|exact L|]. intros i b Hb. destruct (R i b Hb) as (a & Ha & _ & O & I). exists a. split; [exact Ha|].
    unfold region_des. rewrite !map_app. f_equal; apply same_uses_des; assumption. }
  rewrite (map_flat s (fun rg => map de_edge (region_des rg))), !(map_flat de_edge region_des) in X. exact X.
Qed.

Lemma shared_users {D} (t : topology D) i e : exact_references t -> nth_error (tp_edges t) i = Some e ->
  is_shared e = (2 <=? length (users i (uses (tp_regions t))))%nat.
Proof.
  intros (_ & _ & X) H. destruct (X i e H) as (_ & _ & E). unfold is_shared. rewrite E.
  destruct (users i (uses (tp_regions t))) as [|a [|b l]]; reflexivity.
Qed.

Lemma describe_shuffled {D} (t1 t2 : topology D) : shuffled t1 t2 -> describe t1 = describe t2.
Proof.
  intros (X1 & X2 & p & s & R). pose proof (renumbered_uses p s t1 t2 R) as U. destruct R as (Ip & Is & L & LE & R & E). rewrite !describe_eq.
  assert (O : Permutation (map (fun rg => length (tg_outer rg)) (tp_regions t1)) (map (fun rg => length (tg_outer rg)) (tp_regions t2))).
  { apply (perm_by2 _ _ p); [exact Ip|exact L|]. intros i b Hb. destruct (R i b Hb) as (a & Ha & _ & O & _). exists a. split; [exact Ha|]. eapply Forall2_length', O. }
  assert (I : Permutation (map (fun rg => length (tg_inner rg)) (tp_regions t1)) (map (fun rg => length (tg_inner rg)) (tp_regions t2))).
  { apply (perm_by2 _ _ p); [exact Ip|exact L|]. intros i b Hb. destruct (R i b Hb) as (a & Ha & _ & _ & I). exists a. split; [exact Ha|]. eapply Forall2_length', I. }
  assert (P : Permutation (map (fun e => length (te_points e)) (tp_edges t1)) (map (fun e => length (te_points e)) (tp_edges t2))).
  { apply (perm_by2 _ _ s); [exact Is|exact LE|]. intros i b Hb. destruct (E i b Hb) as (a & Ha & Q). exists a. split; [exact Ha|]. congruence. }
  assert (S : Permutation (map is_shared (tp_edges t1)) (map is_shared (tp_edges t2))).
  { apply (perm_by2 _ _ s); [exact Is|exact LE|]. intros i b Hb. destruct (E i b Hb) as (a & Ha & _). exists a. split; [exact Ha|].
    rewrite (shared_users t1 (s i) a X1 Ha), (shared_users t2 i b X2 Hb), !users_length, (filter_nat_perm _ _ _ U), (filter_map_inj s i _ Is). reflexivity. }
  assert (T : forall es : list topo_edge, length (filter is_shared es) = length (filter (Bool.eqb true) (map is_shared es)) /\
                       length (filter (fun e => negb (is_shared e)) es) = length (filter (Bool.eqb false) (map is_shared es))).
  { intros es. rewrite <- !filter_flag. split; f_equal; apply filter_ext; intros e; destruct (is_shared e); reflexivity. }
  destruct (T (tp_edges t1)) as (-> & ->), (T (tp_edges t2)) as (-> & ->).
  rewrite L, LE, (sum_perm _ _ O), (sum_perm _ _ I), (sum_perm _ _ P), (filter_perm _ _ true S), (filter_perm _ _ false S). reflexivity.
Qed.

(** Rings written down differently. *)
Lemma ring_like_length a b : ring_like a b -> length a = length b.
Proof.
  intros (u & v & -> & -> & [(l & r & -> & ->)|(l & r & E & ->)] & _); rewrite !map_length, ?app_length; [lia|].
  apply (f_equal (@length _)) in E. rewrite map_length, rev_length, app_length in E. lia.
Qed.
Lemma side_like_length x y : side_like x y -> length x = length y /\ length (concat x) = length (concat y).
Proof.
  intros (z & P & F). rewrite (Permutation_length P), (Permutation_length (concat_perm _ _ P)). clear P y.
  induction F as [|a b x z H F (IH1 & IH2)]; [split; reflexivity|]. cbn [concat length]. rewrite !app_length, (ring_like_length a b H), IH2, IH1. split; reflexivity.
Qed.
Lemma shapes_like_length {D} (ss1 ss2 : list (shape D)) : Forall2 shape_like ss1 ss2 ->
  map (fun s => length (s_outer s)) ss1 = map (fun s => length (s_outer s)) ss2 /\ map (fun s => length (s_inner s)) ss1 = map (fun s => length (s_inner s)) ss2 /\ length (all_paths ss1) = length (all_paths ss2).
Proof.
  unfold all_paths. induction 1 as [|a b x y (_ & O & I) F (IH1 & IH2 & IH3)]; [repeat split|]. cbn [map flat_map]. unfold shape_paths at 1 3. rewrite !app_length, IH1, IH2, IH3.
  destruct (side_like_length _ _ O) as (-> & ->), (side_like_length _ _ I) as (-> & ->). repeat split.
Qed.
Lemma read_uses {D} (t : topology D) : length (all_paths (read_topology t)) = total_uses t.
Proof.
  rewrite <- uses_length, <- (map_length fst), uses_all_des, map_length. unfold all_paths, read_topology, ClipTopoSpec.all_des. generalize (tp_edges t) as es. intros es.
  induction (tp_regions t) as [|g gs IH]; [reflexivity|]. cbn [map flat_map]. rewrite !app_length, IH. f_equal. unfold shape_paths. cbn [read_region s_outer s_inner].
  assert (X : forall rs, length (concat (map (read_ring es) rs)) = length (concat (map tr_des rs))).
  { induction rs as [|r rs IHr]; [reflexivity|]. cbn [map concat]. rewrite !app_length, IHr. unfold read_ring. rewrite map_length. reflexivity. }
  rewrite !app_length, !X. reflexivity.
Qed.
Lemma stored_count {D} k (ss : list (shape D)) : In k (stored_forms ss) <-> (0 < count_path k (all_paths ss))%nat.
Proof.
  unfold stored_forms, count_path. induction (all_paths ss) as [|o l IH]; [cbn; split; [contradiction|lia]|]. cbn [flat_map filter]. destruct o as [p|]; [|exact IH].
  cbn [app In]. destruct (path_eqb_spec (stored_form p) k) as [E|E]; cbn [length]; [split; [lia|auto]|]. rewrite <- IH. split; [intros [X|X]; [contradiction|exact X]|auto].
Qed.

Lemma describe_like {D} m1 m2 (rs1 rs2 : list (region D)) t1 t2 : Forall2 same_input rs1 rs2 ->
  build_topology m1 rs1 = Ok t1 -> build_topology m2 rs2 = Ok t2 -> describe t1 = describe t2.
Proof.
  intros F E1 E2. assert (L : Forall2 shape_like (read_topology t1) (read_topology t2)) by (rewrite (build_read m1 rs1 t1 E1), (build_read m2 rs2 t2 E2); apply expected_like, F).
  destruct (C76_built D m1 rs1 t1 E1) as (X1 & A1), (C76_built D m2 rs2 t2 E2) as (X2 & A2).
  pose proof (C76_uses D t1 X1 A1) as U1. pose proof (C76_uses D t2 X2 A2) as U2. rewrite <- read_uses in U1, U2.
  destruct (shapes_like_length _ _ L) as (O & I & P). rewrite P in U1. pose proof (C76_counts D t1) as N1. pose proof (C76_counts D t2) as N2. cbv zeta in N1, N2.
  pose proof (build_built_form m1 rs1 t1 E1) as (_ & _ & K1 & _). pose proof (build_built_form m2 rs2 t2 E2) as (_ & _ & K2 & _).
  assert (Q : Permutation (map te_points (tp_edges t1)) (map te_points (tp_edges t2))).
  { rewrite K1, K2. apply NoDup_Permutation; [apply distinct_nodup..|]. intros k. rewrite !distinct_in, !stored_count, (all_paths_like k _ _ L). reflexivity. }
  assert (R : length (tp_regions t1) = length (tp_regions t2)) by (apply Forall2_length' in L; unfold read_topology in L; rewrite !map_length in L; exact L).
  assert (EQ : length (tp_edges t1) = length (tp_edges t2)) by (apply Permutation_length in Q; rewrite !map_length in Q; exact Q).
  apply (Permutation_map (@length point)) in Q. rewrite !map_map in Q. apply sum_perm in Q.
  unfold read_topology in O, I. rewrite !map_map in O, I. cbn [read_region s_outer s_inner] in O, I.
  assert (Z : forall t : topology D, map (fun g => length (map (read_ring (tp_edges t)) (tg_outer g))) (tp_regions t) = map (fun g => length (tg_outer g)) (tp_regions t) /\
                        map (fun g => length (map (read_ring (tp_edges t)) (tg_inner g))) (tp_regions t) = map (fun g => length (tg_inner g)) (tp_regions t)).
  { intros t. split; apply map_ext; intros g; apply map_length. }
  destruct (Z t1) as (Z1 & Z2), (Z t2) as (Z3 & Z4). rewrite Z1, Z3 in O. rewrite Z2, Z4 in I.
  destruct (describe t1) as [v1 v2 v3 v4 v5 v6 v7], (describe t2) as [w1 w2 w3 w4 w5 w6 w7]. cbn [d_regions d_outer d_inner d_edges d_shared d_lone d_points] in *.
  destruct N1 as (-> & -> & -> & -> & _ & N1 & ->), N2 as (-> & -> & -> & -> & _ & N2 & ->). f_equal; try congruence; lia.
Qed.

(** ** C139: what shp-to-geo-data prints *)

(** Topologies that differ in the order of regions and edges have the same description. *)
Theorem C139_describe : forall D (t1 t2 : topology D), shuffled t1 t2 -> describe t1 = describe t2.
Proof. intros D. exact describe_shuffled. Qed.
Print Assumptions C139_describe.

(** If the program succeeds, it prints the same for the records in any other order. *)
Theorem C139_order : forall v m afs afd enc b shapes shapes' fs datas datas' (s s' d d' : stream) lines err,
  leaves_suffix afd -> bytes_ok s -> bytes_ok s' -> is_shp b shapes s -> is_shp b shapes' s' -> is_dbf enc fs datas d -> is_dbf enc fs datas' d' ->
  length shapes' = length datas' -> Permutation (paired shapes datas) (paired shapes' datas') ->
  Forall (fun rec => item_fits (quantize (quantizer_new b)) (Some (ROk rec))) (paired shapes datas) ->
  shp_to_geo_data v m afs afd enc (Some s) (Some d) = (lines, Exited 0 err) ->
  shp_to_geo_data v m afs afd enc (Some s') (Some d') = (lines, Exited 0 err).
Proof.
  intros v m afs afd enc b shapes shapes' fs datas datas' s s' d d' lines err Ha B B' S S' Hd Hd' L P F H.
  apply C88_zero in H as (n & t1 & t2 & t3 & E1 & E2 & E3 & -> & ->). apply C88_zero.
  destruct (C131_import m afs afd enc b shapes shapes' fs datas datas' s s' d d' t1 n Ha B B' S S' Hd Hd' L P F E1) as (t1' & E1' & S1).
  destruct (C131_normalize _ m t1 t1' t2 S1 E2) as (t2' & E2' & S2).
  destruct (C131_clip _ m (MinX (2 ^ 31)) t2 t2' t3 S2 E3) as (t3' & E3' & S3).
  exists n, t1', t2', t3'. repeat (split; [assumption|]). split; [|reflexivity].
  unfold report. cbn [combine map]. rewrite (describe_shuffled _ _ S1), (describe_shuffled _ _ S2), (describe_shuffled _ _ S3). reflexivity.
Qed.
Print Assumptions C139_order.

(** It also prints the same for a map in another unit, moved to another origin. *)
Theorem C139_units : forall v m afs afd enc e cx cy b b' shapes shapes' fs datas (s s' d : stream) lines err,
  leaves_suffix afd -> bytes_ok s -> bytes_ok s' -> is_shp b shapes s -> is_shp b' shapes' s' -> is_dbf enc fs datas d ->
  box_ok b -> box_ok b' -> converted_box e cx cy b b' -> Forall2 (converted_shape e cx cy b) shapes shapes' ->
  Forall (fun rec => item_fits (quantize (quantizer_new b)) (Some (ROk rec))) (paired shapes datas) ->
  shp_to_geo_data v m afs afd enc (Some s) (Some d) = (lines, Exited 0 err) <->
  shp_to_geo_data v m afs afd enc (Some s') (Some d) = (lines, Exited 0 err).
Proof.
  intros v m afs afd enc e cx cy b b' shapes shapes' fs datas s s' d lines err Ha B B' S S' Hd Hb Hb' C C' F.
  rewrite !C88_zero, (import_converted m afs afd enc e cx cy b b' shapes shapes' fs datas s s' d Ha B B' S S' Hd Hb Hb' C C' F). reflexivity.
Qed.
Print Assumptions C139_units.

(** And it prints the same for rings that start at other points and come in other orders, unless normalized
    rings come back to their starts or start at the same point. *)
Theorem C139_rings : forall v m afs afd enc b shapes shapes' fs datas (s s' d : stream) lines lines' err err',
  leaves_suffix afd -> bytes_ok s -> bytes_ok s' -> is_shp b shapes s -> is_shp b shapes' s' -> is_dbf enc fs datas d ->
  Forall2 same_record shapes shapes' ->
  Forall (fun rec => item_fits (quantize (quantizer_new b)) (Some (ROk rec))) (paired shapes datas) ->
  Forall (fun rec => item_fits (quantize (quantizer_new b)) (Some (ROk rec))) (paired shapes' datas) ->
  shp_to_geo_data v m afs afd enc (Some s) (Some d) = (lines, Exited 0 err) ->
  shp_to_geo_data v m afs afd enc (Some s') (Some d) = (lines', Exited 0 err') ->
  firstn 9 lines = firstn 9 lines' /\
  ((forall t n u, import m afs afd enc (Some s) (Some d) = Ok (ROk (t, n)) -> normalize m t = Ok u -> Forall clear_shape (read_topology u)) -> lines = lines').
Proof.
  intros v m afs afd enc b shapes shapes' fs datas s s' d lines lines' err err' Ha B B' S S' Hd F H H' R R'.
  apply C88_zero in R as (n & t1 & t2 & t3 & E1 & E2 & E3 & -> & _). apply C88_zero in R' as (n' & t1' & t2' & t3' & E1' & E2' & E3' & -> & _).
  destruct (import_same_input m m afs afd enc b shapes shapes' fs datas s s' d t1 t1' n n' Ha B B' S S' Hd F H H' E1 E1') as (regs & regs' & Q & Bt & Bt' & _).
  destruct (C136_import m m afs afd enc b shapes shapes' fs datas s s' d t1 t1' n n' Ha B B' S S' Hd F H H' E1 E1') as (_ & N).
  assert (En : n = n').
  { pose proof (Forall2_length' _ _ _ F) as L. clear - E1 E1' Ha B B' S S' Hd H H' L.
    destruct (import_file m afs afd enc b shapes fs datas s d Ha B S Hd H) as (r & _ & I). destruct (import_file m afs afd enc b shapes' fs datas s' d Ha B' S' Hd H') as (r' & _ & I').
    rewrite I in E1. rewrite I' in E1'. destruct (length_check shapes datas); [discriminate|]. destruct (length_check shapes' datas); [discriminate|].
    destruct (build_topology m r); [|discriminate]. destruct (build_topology m r'); [|discriminate]. congruence. }
  subst n'. pose proof (describe_like m m regs regs' t1 t1' Q Bt Bt') as D1. split.
  - unfold report. cbn [combine map concat]. rewrite D1. reflexivity.
  - intros C. destruct (N t2 t2' E2 E2') as (_ & X). specialize (X (C t1 n t2 E1 E2)). subst t2'. rewrite E3 in E3'. injection E3' as <-.
    unfold report. cbn [combine map]. rewrite D1. reflexivity.
Qed.
Print Assumptions C139_rings.

(** The triangles of [C131_import_case]: their numbers differ, what is printed does not. *)
Example C139_case : exists lines, shp_to_geo_data plain Debug forget forget ascii (Some triangles_shp) (Some (dbf_of 2)) = (lines, Exited 0 []) /\
  shp_to_geo_data plain Debug forget forget ascii (Some swapped_shp) (Some (dbf_of 2)) = (lines, Exited 0 []) /\ shp_to_geo_data plain Debug forget forget ascii (Some turned_shp) (Some (dbf_of 2)) = (lines, Exited 0 []) /\ length lines = 25%nat.
Proof. eexists. split; [vm_compute; reflexivity|]. split; [vm_compute; reflexivity|]. split; [vm_compute; reflexivity|]. vm_compute. reflexivity. Qed.

(** ** C86: the lines of cat-shp *)

(** The same as [C86_list_partial] with what the lines say: the fields and rings of the records, in
    the format of C65. *)
Theorem C86_text_partial : forall v m afs afd enc b shapes fs datas (s d : stream), leaves_suffix afd -> bytes_ok s ->
  is_shp b shapes s -> is_dbf enc fs datas d -> Forall (fun data => Forall (fun f => printable f data) fs) datas ->
  exists lines, Forall2 (fun sd line => record_text v fs (SfRecord (fr_rings (fst sd)) (snd sd)) line) (combine shapes datas) lines /\
    cat_shp v m afs afd enc (Some s) (Some d) =
      match length_check shapes datas with
      | None => (lines ++ [str "Read " ++ decimal (Z.of_nat (length shapes)) ++ str " records"], Exited 0 [])
      | Some e => (lines, Exited 1 [str "Error during read: " ++ show_sf_error v e])
      end.
Proof.
  intros v m afs afd enc b shapes fs datas s d Ha Hb Hs Hd HP.
  destruct (C86_list_partial v m afs afd enc b shapes fs datas s d Ha Hb Hs Hd HP) as (lines & L & E). exists lines. split; [|exact E].
  clear E. unfold shown, paired in L. revert lines L. induction (combine shapes datas) as [|(x & y) l IH]; intros lines L; inversion L; subst; constructor; [|apply IH; assumption].
  apply C65_printed. assumption.
Qed.
Print Assumptions C86_text_partial.

Example C86_text_case : exists line, cat_shp plain Debug forget forget ascii (Some triangles_shp) (Some (dbf_of 1)) =
    ([line], Exited 1 [str "Error during read: Parse error: '.shp' file has more records than '.dbf' record"]) /\
  length_check two_triangles [sample_rec] <> None.
Proof. eexists. split; [vm_compute; reflexivity|discriminate]. Qed.

(** ** C88: the lines of shp-to-geo-data *)

(** What is printed if the program exits with code 0, without the functions that print it. *)
Lemma number_shown before n after : number_line before n after (before ++ decimal (Z.of_nat n) ++ after).
Proof. exists (decimal (Z.of_nat n)). split; [apply C84_number|reflexivity]. Qed.

Lemma topology_shown {D} (t : topology D) : topology_text t (description_lines (describe t)).
Proof.
  rewrite describe_eq. unfold topology_text, description_lines. cbn [d_regions d_outer d_inner d_edges d_shared d_lone d_points].
  repeat constructor; cbn [fst snd]; rewrite <- (app_nil_r (decimal _)); apply number_shown.
Qed.

Theorem C88_text : forall v m afs afd enc shp dbf lines err, shp_to_geo_data v m afs afd enc shp dbf = (lines, Exited 0 err) ->
  exists n t1 t2 t3, import m afs afd enc shp dbf = Ok (ROk (t1, n)) /\ normalize m t1 = Ok t2 /\ clip_topology m t2 (MinX (2 ^ 31)) = Ok t3 /\
    exists l ls1 ls2 ls3, number_line (str "Read ") n (str " regions") l /\ topology_text t1 ls1 /\ topology_text t2 ls2 /\ topology_text t3 ls3 /\
      lines = l :: str "Formed initial topology:" :: ls1 ++ str "Normalized topology:" :: ls2 ++ str "Clipped topology:" :: ls3 /\ err = [].
Proof.
  intros v m afs afd enc shp dbf lines err H. apply C88_zero in H as (n & t1 & t2 & t3 & E1 & E2 & E3 & -> & ->).
  exists n, t1, t2, t3. repeat (split; [assumption|]).
  exists (str "Read " ++ decimal (Z.of_nat n) ++ str " regions"), (description_lines (describe t1)), (description_lines (describe t2)), (description_lines (describe t3)).
  split; [apply number_shown|]. repeat (split; [apply topology_shown|]). split; reflexivity.
Qed.
Print Assumptions C88_text.

Example C88_text_case : fst (shp_to_geo_data plain Debug forget forget ascii (Some triangles_shp) (Some (dbf_of 2))) =
  [ str "Read 2 regions"; str "Formed initial topology:"; str "  Regions:      2"; str "  Outer rings:  2"; str "  Inner rings:  0"; str "  Edges:        5";
    str "  Shared edges: 1"; str "  Lone edges:   4"; str "  Points:       10";
    str "Normalized topology:"; str "  Regions:      2"; str "  Outer rings:  2"; str "  Inner rings:  0"; str "  Edges:        3";
    str "  Shared edges: 1"; str "  Lone edges:   2"; str "  Points:       8";
    str "Clipped topology:"; str "  Regions:      0"; str "  Outer rings:  0"; str "  Inner rings:  0"; str "  Edges:        0";
    str "  Shared edges: 0"; str "  Lone edges:   0"; str "  Points:       0" ].
Proof. vm_compute. reflexivity. Qed.
