(** * PipelineProofs: lemmas on the example programs *)
From Coq Require Import Permutation.
From Verif Require Import GeoProofs TopoProofs BuildProofs BytesProofs ShpProofs ShpLaws DbfProofs DbfLaws SfProofs.
From Verif Require Export PipelineSpec.

(** ** Building from point rings *)

Definition point_ring_fits (r : ring) : Prop := (exists ps, r = RPoints ps) /\ Forall fits (ring_values r).

Lemma segment_returns m em p q : exists x, build_directed_edge m em [p; q] = Ok x.
Proof.
  unfold build_directed_edge, zero_length. cbn [length Nat.ltb Nat.leb orb]. destruct (pt_eqb_spec p q) as [E|E]; [eauto|].
  assert (exists x, canonical m [p; q] = Ok x) as ((k & d) & ->).
  { unfold canonical, get, get_or. cbn [nth_error length Nat.sub bind]. destruct (pt_ltb p q); [cbn; eauto|].
    destruct (pt_eqb_spec p q); [contradiction|cbn; eauto]. }
  cbn [bind]. destruct (em_find em k); eauto.
Qed.

Lemma segments_return m ps : forall st, exists x, mfold (fun st e => '(o, em') <- build_directed_edge m (snd st) e ;;
  Ok (match o with Some d => fst st ++ [d] | None => fst st end, em')) (segments ps) st = Ok x.
Proof.
  induction ps as [|p [|q t] IH]; intros st; [cbn; eauto|cbn; eauto|].
  change (segments (p :: q :: t)) with ([p; q] :: segments (q :: t)). cbn [mfold].
  destruct (segment_returns m (snd st) p q) as ((o & em) & ->). cbn [bind]. apply IH.
Qed.

Lemma point_ring_returns m em r : point_ring_fits r -> exists x, build_ring_of m em r = Ok x.
Proof.
  intros ((ps & ->) & F). unfold build_ring_of, ring_area2. rewrite (ring_aw_fits m _ F). cbn [bind fst].
  destruct (_ =? 0); [eauto|]. rewrite ring_edges_paths. cbn [paths]. unfold build_des.
  destruct (segments_return m ps ([], em)) as ((ds & em1) & ->). cbn [bind]. eauto.
Qed.

Lemma point_rings_return m rs : forall em, Forall point_ring_fits rs -> exists x, build_rings m em rs = Ok x.
Proof.
  intros em. unfold build_rings. generalize ([] : list build_ring, em). clear em.
  induction rs as [|r rs IH]; intros st H; cbn [mfold]; [eauto|]. inversion H; subst.
  destruct (point_ring_returns m (snd st) r) as ((o & em1) & ->); [assumption|]. cbn [bind]. apply IH. assumption.
Qed.

Lemma point_regions_return {D} m (rs : list (region D)) : forall b,
  Forall (fun rg => Forall point_ring_fits (rg_outer rg ++ rg_inner rg)) rs -> exists b', add_regions m b rs = Ok b'.
Proof.
  unfold add_regions. induction rs as [|rg rs IH]; intros b H; cbn [mfold]; [eauto|]. inversion H as [|? ? H1 H2]; subst.
  apply Forall_app in H1 as (Ho & Hi).
  assert (exists b1, add_region m b rg = Ok b1) as (b1 & ->).
  { unfold add_region. destruct (point_rings_return m (rg_outer rg) (bl_edges b) Ho) as ((o & em1) & ->).
    cbn [bind]. destruct (_ <? _)%nat; [|eauto].
    destruct (point_rings_return m (rg_inner rg) em1 Hi) as ((i & em2) & ->). cbn [bind]. eauto. }
  cbn [bind]. apply IH. assumption.
Qed.

(** ** The import loop *)

Lemma shp_next_uses afs r rec r' : bytes_ok (shr_file r) -> shp_next afs r = Ok (Some (ROk rec), r') ->
  bytes_ok (shr_file r') /\ (length (shr_file r') < length (shr_file r))%nat.
Proof.
  intros Hb. unfold shp_next. destruct (sh_bytes (shr_header r) <=? shr_read r); [discriminate|].
  destruct (read_cases afs (shr_file r) Hb) as [[_ E']|(rn & words & s1 & Hrn & Hw & Es & H1 & [[_ E']|(buf & s2 & -> & Ob & O2 & Lb & E')])];
    rewrite E'; cbn [bind]; try discriminate.
  destruct (parse_polygon_record buf rn) as [[x|e]|p]; cbn [bind]; try discriminate. intros [= _ <-]. cbn [shr_file].
  split; [assumption|]. rewrite Es. lens. lia.
Qed.

Lemma sf_next_uses afs afd r rec r' : bytes_ok (shr_file (sf_shp r)) -> sf_next afs afd r = Ok (Some (ROk rec), r') ->
  bytes_ok (shr_file (sf_shp r')) /\ (length (shr_file (sf_shp r')) < length (shr_file (sf_shp r)))%nat.
Proof.
  intros Hb. unfold sf_next. destruct (shp_next afs (sf_shp r)) as [[a rs]|] eqn:E; [|discriminate]. cbn [bind].
  destruct (dbf_next afd (sf_dbf r)) as [b rd]. destruct a as [[shape|e]|], b as [[data|e']|]; try discriminate.
  intros [= _ <-]. cbn [sf_shp]. eapply shp_next_uses; eassumption.
Qed.

Definition file_of (g : geo_iterator) : list Z := shr_file (sf_shp (gi_reader g)).

Lemma geo_next_uses m afs afd g reg g' : bytes_ok (file_of g) -> geo_next m afs afd g = Ok (Some (ROk reg), g') ->
  bytes_ok (file_of g') /\ (length (file_of g') < length (file_of g))%nat.
Proof.
  intros Hb E. apply geo_next_region in E as (rec & E & _). eapply sf_next_uses; eassumption.
Qed.

Definition regions_then (regs : list (region dbf_record)) (x : option (result (region dbf_record) sf_error)) :=
  map (fun r => Some (ROk r)) regs ++ [x].

(** How the loop ends. *)
Lemma import_loop_cases m afs afd fuel : forall g b n, bytes_ok (file_of g) -> (length (file_of g) < fuel)%nat ->
  match import_loop fuel m afs afd g b n with
  | Ok (ROk (b', n')) => exists regs, calls (geo_next m afs afd) (S (length regs)) g = Ok (regions_then regs None) /\
      add_regions m b regs = Ok b' /\ n' = (n + length regs)%nat
  | Ok (RErr e) => exists regs b', calls (geo_next m afs afd) (S (length regs)) g = Ok (regions_then regs (Some (RErr e))) /\
      add_regions m b regs = Ok b'
  | Panic p => exists k g', geo_next m afs afd g' = Panic p /\ bytes_ok (file_of g') \/ exists regs, add_regions m b regs = Panic p /\ calls (geo_next m afs afd) k g = Ok (map (fun r => Some (ROk r)) regs)
  end.
Proof.
  induction fuel as [|fuel IH]; intros g b n Hb HL; [lia|]. cbn [import_loop].
  destruct (geo_next m afs afd g) as [[x g']|p] eqn:E; cbn [bind].
  2:{ exists 0%nat, g. left. auto. }
  destruct x as [[reg|e]|].
  - destruct (geo_next_uses m afs afd g reg g' Hb E) as (Hb' & HL').
    destruct (add_region m b reg) as [b1|p] eqn:E1; cbn [bind].
    2:{ exists 1%nat, g. right. exists [reg]. unfold add_regions. cbn [mfold calls map]. rewrite E1, E. auto. }
    specialize (IH g' b1 (n + 1)%nat Hb' ltac:(lia)).
    destruct (import_loop fuel m afs afd g' b1 (n + 1)) as [[[b' n']|e]|p].
    + destruct IH as (regs & C & A & ->). exists (reg :: regs). cbn [length]. rewrite (calls_app _ g _ g') by exact E. rewrite C.
      split; [reflexivity|]. unfold add_regions in *. cbn [mfold]. rewrite E1. split; [exact A|lia].
    + destruct IH as (regs & b' & C & A). exists (reg :: regs), b'. cbn [length]. rewrite (calls_app _ g _ g') by exact E. rewrite C.
      split; [reflexivity|]. unfold add_regions in *. cbn [mfold]. rewrite E1. exact A.
    + destruct IH as (k & g2 & [IH|(regs & A & C)]); [exists k, g2; left; exact IH|]. exists (S k), g2. right. exists (reg :: regs).
      rewrite (calls_app _ g _ g') by exact E. rewrite C. unfold add_regions in *. cbn [mfold]. rewrite E1. auto.
  - exists [], b. cbn [length]. rewrite (calls_app _ g _ g') by exact E. auto.
  - exists []. cbn [length]. rewrite (calls_app _ g _ g') by exact E. split; [reflexivity|]. split; [reflexivity|lia].
Qed.

Lemma import_loop_run m afs afd x b' regs : forall fuel g b n, bytes_ok (file_of g) -> (length (file_of g) < fuel)%nat ->
  calls (geo_next m afs afd) (S (length regs)) g = Ok (regions_then regs x) -> add_regions m b regs = Ok b' ->
  (forall reg, x <> Some (ROk reg)) ->
  import_loop fuel m afs afd g b n =
    Ok (match x with Some (RErr e) => RErr e | _ => ROk (b', (n + length regs)%nat) end).
Proof.
  induction regs as [|reg regs IH]; intros [|fuel] g b n Hb HL; try lia; intros C A HX; cbn [import_loop length].
  - cbn [length calls] in C. destruct (geo_next m afs afd g) as [[y g']|]; [|discriminate]. injection C as ->. cbn [bind].
    unfold add_regions in A. cbn [mfold] in A. injection A as <-. rewrite Nat.add_0_r.
    destruct x as [[reg|e]|]; [destruct (HX reg eq_refl)|reflexivity|reflexivity].
  - change (length (reg :: regs)) with (S (length regs)) in C. remember (S (length regs)) as k eqn:Ek. cbn [calls] in C.
    destruct (geo_next m afs afd g) as [[y g']|] eqn:E; [|discriminate].
    destruct (calls (geo_next m afs afd) k g') as [l|] eqn:El; [|discriminate]. injection C as -> ->. cbn [bind].
    destruct (geo_next_uses m afs afd g reg g' Hb E) as (Hb' & HL').
    unfold add_regions in A. cbn [mfold] in A. destruct (add_region m b reg) as [b1|] eqn:E1; [|discriminate]. cbn [bind] in *.
    subst k. rewrite (IH fuel g' b1 (n + 1)%nat Hb' ltac:(lia) El A HX). replace (n + 1 + length regs)%nat with (n + S (length regs))%nat by lia. reflexivity.
Qed.

(** What the reader keeps of the file. *)
Lemma shp_new_file m af s r : bytes_ok s -> shp_reader_new m af s = Ok (ROk r) -> bytes_ok (shr_file r).
Proof.
  intros Hb H. apply new_accept in H as (u1 & len & x0 & y0 & x1 & y1 & u2 & rest & HF & -> & _ & ->); [|assumption].
  apply Forall_app in Hb. apply Hb.
Qed.

Lemma open_ok m afs afd enc shp dbf r : sf_open m afs afd enc shp dbf = Ok (ROk r) ->
  exists s d, shp = Some s /\ dbf = Some d /\ sf_reader_new m afs afd enc s d = Ok (ROk r).
Proof.
  unfold sf_open, sf_reader_new. destruct shp as [s|]; [|discriminate]. destruct (shp_reader_new m afs s) as [[x|e]|] eqn:E; cbn [bind]; try discriminate.
  destruct dbf as [d|]; [|discriminate]. destruct (dbf_reader_new m afd enc d) as [[y|e]|] eqn:E'; cbn [bind]; try discriminate.
  intros [= <-]. exists s, d. rewrite E, E'. auto.
Qed.

Lemma open_new m afs afd enc s d r : sf_reader_new m afs afd enc s d = Ok (ROk r) -> sf_open m afs afd enc (Some s) (Some d) = Ok (ROk r).
Proof.
  unfold sf_open, sf_reader_new. destruct (shp_reader_new m afs s) as [[x|e]|]; cbn [bind]; try discriminate;
    destruct (dbf_reader_new m afd enc d) as [[y|e']|]; cbn [bind]; try discriminate. auto.
Qed.

Lemma open_bytes m afs afd enc shp dbf r : bytes_opt shp -> sf_open m afs afd enc shp dbf = Ok (ROk r) -> bytes_ok (shr_file (sf_shp r)).
Proof.
  intros Hb H. apply open_ok in H as (s & d & -> & -> & H). unfold sf_reader_new in H.
  destruct (shp_reader_new m afs s) as [[x|e]|] eqn:E; cbn [bind] in H; try discriminate;
    destruct (dbf_reader_new m afd enc d) as [[y|e']|]; cbn [bind] in H; try discriminate. injection H as <-.
  eapply shp_new_file; eassumption.
Qed.

Lemma open_file m afs afd enc shp dbf r : bytes_opt shp -> sf_open m afs afd enc shp dbf = Ok (ROk r) -> bytes_ok (file_of (geo_iterator_new r)).
Proof. exact (open_bytes m afs afd enc shp dbf r). Qed.

(** ** Import *)

Lemma import_ok_iff m afs afd enc shp dbf t n : bytes_opt shp ->
  import m afs afd enc shp dbf = Ok (ROk (t, n)) <->
  exists r regs, sf_open m afs afd enc shp dbf = Ok (ROk r) /\
    calls (geo_next m afs afd) (S n) (geo_iterator_new r) = Ok (map (fun reg => Some (ROk reg)) regs ++ [None]) /\
    build_topology m regs = Ok t /\ n = length regs.
Proof.
  intros Hb. unfold import. destruct (sf_open m afs afd enc shp dbf) as [[r|e]|p] eqn:EO; cbn [bind].
  2:{ split; [discriminate|]. intros (r & regs & [= ] & _). }
  2:{ split; [discriminate|]. intros (r & regs & [= ] & _). }
  pose proof (open_file _ _ _ _ _ _ _ Hb EO) as HF.
  pose proof (import_loop_cases m afs afd (import_fuel (geo_iterator_new r)) (geo_iterator_new r) builder_new 0 HF (Nat.lt_succ_diag_r _)) as HC.
  split.
  - destruct (import_loop _ m afs afd _ builder_new 0) as [[[b n']|e]|p]; cbn [bind]; try discriminate.
    destruct HC as (regs & C & A & ->). destruct (into_topology b) as [t'|] eqn:Et; [|discriminate]. cbn [bind]. intros [= <- <-].
    exists r, regs. split; [reflexivity|]. split; [exact C|]. split; [|reflexivity]. unfold build_topology. rewrite A. exact Et.
  - intros (r' & regs & [= <-] & C & B & ->). unfold build_topology in B. destruct (add_regions m builder_new regs) as [b|] eqn:A; [|discriminate].
    cbn [bind] in B. rewrite (import_loop_run m afs afd None b regs) by (try assumption; try apply Nat.lt_succ_diag_r; discriminate).
    cbn [bind]. rewrite B. reflexivity.
Qed.

Lemma import_err_iff m afs afd enc shp dbf e : bytes_opt shp ->
  import m afs afd enc shp dbf = Ok (RErr e) <->
  sf_open m afs afd enc shp dbf = Ok (RErr e) \/
  exists r regs b, sf_open m afs afd enc shp dbf = Ok (ROk r) /\
    calls (geo_next m afs afd) (S (length regs)) (geo_iterator_new r) = Ok (map (fun reg => Some (ROk reg)) regs ++ [Some (RErr e)]) /\
    add_regions m builder_new regs = Ok b.
Proof.
  intros Hb. unfold import. destruct (sf_open m afs afd enc shp dbf) as [[r|e']|p] eqn:EO; cbn [bind].
  2:{ split; [intros [= ->]; auto|]. intros [[= ->]|(r & regs & b & [= ] & _)]. reflexivity. }
  2:{ split; [discriminate|]. intros [[= ]|(r & regs & b & [= ] & _)]. }
  pose proof (open_file _ _ _ _ _ _ _ Hb EO) as HF.
  pose proof (import_loop_cases m afs afd (import_fuel (geo_iterator_new r)) (geo_iterator_new r) builder_new 0 HF (Nat.lt_succ_diag_r _)) as HC.
  split.
  - destruct (import_loop _ m afs afd _ builder_new 0) as [[[b n']|e']|p]; cbn [bind]; try discriminate.
    + destruct (into_topology b); discriminate.
    + intros [= ->]. destruct HC as (regs & b & C & A). right. exists r, regs, b. auto.
  - intros [[= ]|(r' & regs & b & [= <-] & C & A)].
    rewrite (import_loop_run m afs afd (Some (RErr e)) b regs) by (try assumption; try apply Nat.lt_succ_diag_r; discriminate). reflexivity.
Qed.

Lemma partition_panic m rs : forall outer inner p, partition_rings m rs outer inner = Panic p -> m = Debug /\ p = POverflow.
Proof.
  induction rs as [|r rs IH]; intros outer inner p; cbn [partition_rings]; [discriminate|]. unfold ring_winding_order.
  destruct m.
  - destruct (ring_aw_debug r) as [[_ ->]|[_ ->]]; cbn [bind]; [|intros [= <-]; auto]. cbn [snd]. destruct (winding_of _); apply IH.
  - rewrite ring_aw_release. cbn [bind snd]. destruct (winding_of _); apply IH.
Qed.

Lemma geo_next_panic m afs afd g p : bytes_ok (file_of g) -> geo_next m afs afd g = Panic p -> p = PIndex \/ (m = Debug /\ p = POverflow).
Proof.
  intros Hb. destruct (sf_next afs afd (gi_reader g)) as [[x r']|p'] eqn:E.
  - rewrite (geo_next_eq m afs afd g x r' E). destruct (geo_item m (gi_quantizer g) x) as [y|p'] eqn:Ey; [discriminate|]. cbn [bind]. intros [= <-].
    right. destruct x as [[rec|e]|]; try discriminate. cbn [geo_item] in Ey.
    destruct (partition_rings m _ [] []) as [[o i]|p''] eqn:Ep; [discriminate|]. cbn [bind] in Ey. injection Ey as <-. eapply partition_panic, Ep.
  - unfold geo_next. rewrite E. cbn [bind]. intros [= <-]. left. unfold sf_next in E.
    destruct (shp_next afs (sf_shp (gi_reader g))) as [[a rs]|q] eqn:Es; [destruct (dbf_next afd _); discriminate|]. cbn [bind] in E. injection E as <-.
    apply next_panic in Es; [|assumption]. apply Es.
Qed.

Lemma import_panic m afs afd enc shp dbf p : bytes_opt shp -> bytes_opt dbf ->
  import m afs afd enc shp dbf = Panic p -> p = PIndex \/ p = PAssert \/ (m = Debug /\ p = POverflow) \/ (m = Release /\ p = PCapacity).
Proof.
  intros Hs Hd. unfold import. destruct (sf_open m afs afd enc shp dbf) as [[r|e']|q] eqn:EO; cbn [bind]; [|discriminate|].
  - pose proof (open_file _ _ _ _ _ _ _ Hs EO) as HF.
    pose proof (import_loop_cases m afs afd (import_fuel (geo_iterator_new r)) (geo_iterator_new r) builder_new 0 HF (Nat.lt_succ_diag_r _)) as HC.
    destruct (import_loop _ m afs afd _ builder_new 0) as [[[b n']|e']|q]; cbn [bind]; [|discriminate|].
    + destruct HC as (regs & _ & A & _). destruct (into_topology b) as [|q] eqn:E; [discriminate|]. cbn [bind]. intros [= <-].
      apply (into_topology_iff m regs b A) in E. auto.
    + intros [= <-]. destruct HC as (k & g & [(H & Hg)|(regs & A & _)]).
      * apply geo_next_panic in H; [|assumption]. tauto.
      * apply add_regions_panic in A. tauto.
  - intros [= <-]. unfold sf_open in EO. destruct shp as [s|]; [|discriminate].
    destruct (shp_reader_new m afs s) as [[x|e]|q'] eqn:E; cbn [bind] in EO; try discriminate.
    + destruct dbf as [d|]; [|discriminate]. destruct (dbf_reader_new m afd enc d) as [[y|e]|q'] eqn:E'; cbn [bind] in EO; try discriminate.
      injection EO as <-. apply dbf_new_panic in E' as (-> & _); [|assumption]. destruct m; tauto.
    + injection EO as <-. apply new_panic in E as (-> & -> & _); [|assumption]. tauto.
Qed.

(** Well-formed files. *)
Lemma filter_incl {A} (f : A -> bool) l : incl (filter f l) l.
Proof. intros x Hx. apply filter_In in Hx. apply Hx. Qed.

Lemma imported_fits f rec reg : imported f rec reg -> item_fits f (Some (ROk rec)) ->
  Forall point_ring_fits (rg_outer reg ++ rg_inner reg).
Proof.
  intros (_ & Ho & Hi) H. cbn [item_fits] in H. apply Forall_forall. intros r Hr.
  assert (In r (quantized f (sfr_rings rec))) as Hq by (rewrite Ho, Hi in Hr; apply in_app_iff in Hr as [Hr|Hr]; apply filter_In in Hr; apply Hr).
  rewrite Forall_forall in H. split; [|apply H, Hq]. unfold quantized in Hq. apply in_map_iff in Hq as (ps & <- & _). eauto.
Qed.

Lemma items_regions f recs : forall outs, Forall2 (item_imported f) (map (fun r => Some (ROk r)) recs) outs ->
  exists regs, outs = map (fun r => Some (ROk r)) regs /\ Forall2 (imported f) recs regs.
Proof.
  induction recs as [|r recs IH]; intros outs H; inversion H as [|? y ? l Hy Hl]; subst; [exists []; auto|].
  destruct y as [[reg|e]|]; cbn in Hy; try contradiction. destruct (IH _ Hl) as (regs & -> & F). exists (reg :: regs). auto.
Qed.

Lemma paired_calls afs afd shapes datas r :
  (forall k, calls (sf_next afs afd) (Nat.max (length shapes) (length datas) + k) r =
      Ok (map (fun '(f, d) => Some (ROk (SfRecord (fr_rings f) d))) (combine shapes datas) ++
          repeat (Some (RErr SFMoreShp)) (length shapes - length datas) ++
          repeat (Some (RErr SFMoreDbf)) (length datas - length shapes) ++ repeat None k)) ->
  calls (sf_next afs afd) (S (length (paired shapes datas))) r =
    Ok (good_items (paired shapes datas) ++ [match length_check shapes datas with Some e => Some (RErr e) | None => None end]).
Proof.
  intros HC.
  assert (N : (length (paired shapes datas) = Nat.min (length shapes) (length datas))%nat) by (unfold paired; rewrite map_length, combine_length; reflexivity).
  assert (EJ : map (fun '(f, d) => Some (ROk (SfRecord (fr_rings f) d))) (combine shapes datas) = map (fun r => Some (ROk (E := sf_error) r)) (paired shapes datas)).
  { unfold paired. rewrite map_map. apply map_ext. intros (x & y). reflexivity. }
  set (x := match length_check shapes datas with Some e => Some (RErr (A := sf_record) e) | None => None end).
  assert (CS : calls (sf_next afs afd) (S (length (paired shapes datas))) r = Ok (map (fun r => Some (ROk r)) (paired shapes datas) ++ [x])).
  { specialize (HC 1%nat). rewrite EJ in HC.
    assert (exists j, Nat.max (length shapes) (length datas) + 1 = S (length (paired shapes datas)) + j)%nat as (j & Ej)
      by (exists (Nat.max (length shapes) (length datas) - length (paired shapes datas))%nat; lia).
    rewrite Ej in HC. destruct (calls_prefix _ _ _ _ _ HC) as (a & c & E & L & ->). f_equal.
    assert (Ea : a = firstn (S (length (paired shapes datas))) (a ++ c)) by (symmetry; apply firstn_exact, L).
    rewrite Ea, <- E. clear. change (repeat None 1) with [@None (result sf_record sf_error)].
    set (ys := map _ _). assert (Ly : length ys = length (paired shapes datas)) by apply map_length.
    rewrite <- Ly. rewrite firstn_app, Nat.sub_succ_l, Nat.sub_diag by lia. rewrite firstn_all2 by lia. f_equal.
    unfold x, length_check. destruct (Nat.eqb_spec (length shapes) (length datas)) as [->|H].
    - rewrite Nat.sub_diag. reflexivity.
    - destruct (Nat.ltb_spec (length datas) (length shapes)) as [H'|H'].
      + destruct (length shapes - length datas)%nat eqn:E'; [lia|]. reflexivity.
      + replace (length shapes - length datas)%nat with 0%nat by lia. destruct (length datas - length shapes)%nat eqn:E'; [lia|]. reflexivity. }
  exact CS.
Qed.

Lemma import_file m afs afd enc b shapes fs datas (s d : stream) : leaves_suffix afd -> bytes_ok s -> is_shp b shapes s -> is_dbf enc fs datas d ->
  let f := quantize (quantizer_new b) in
  Forall (fun rec => item_fits f (Some (ROk rec))) (paired shapes datas) ->
  exists regs, Forall2 (imported f) (paired shapes datas) regs /\
    import m afs afd enc (Some s) (Some d) =
      match length_check shapes datas with
      | Some e => Ok (RErr e)
      | None => match build_topology m regs with Ok t => Ok (ROk (t, length shapes)) | Panic p => Panic p end
      end.
Proof.
  intros Ha Hb Hs Hd f HF. destruct (shapefile_read m afs afd enc b shapes fs datas s d Ha Hs Hd) as (r & EN & EB & _ & HC).
  assert (N : (length (paired shapes datas) = Nat.min (length shapes) (length datas))%nat) by (unfold paired; rewrite map_length, combine_length; reflexivity).
  set (x := match length_check shapes datas with Some e => Some (RErr (A := sf_record) e) | None => None end).
  pose proof (paired_calls afs afd shapes datas r HC) as CS. fold x in CS. unfold good_items in CS.
  destruct (geo_calls_fits m afs afd _ (geo_iterator_new r) _ CS) as (outs & EC & HI).
  { cbn [geo_iterator_new gi_quantizer]. rewrite EB. fold f. apply Forall_app. split; [apply Forall_map; exact HF|].
    constructor; [|constructor]. unfold x. destruct (length_check shapes datas); exact I. }
  cbn [geo_iterator_new gi_quantizer] in HI. rewrite EB in HI. fold f in HI.
  apply Forall2_app_inv_l in HI as (o1 & o2 & H1 & H2 & ->). apply items_regions in H1 as (regs & -> & HR).
  inversion H2 as [|? y ? l Hy Hl]; subst. inversion Hl; subst. exists regs. split; [exact HR|].
  assert (Lr : length (paired shapes datas) = length regs) by (eapply Forall2_length'; exact HR). rewrite Lr in EC.
  assert (exists bb, add_regions m builder_new regs = Ok bb) as (bb & A).
  { apply point_regions_return. clear -HR HF. induction HR as [|rec reg l l' H HR IH]; constructor; inversion HF; subst; [|auto].
    eapply imported_fits; eassumption. }
  pose proof (open_new m afs afd enc s d r EN) as EO. unfold import. rewrite EO. cbn [bind].
  pose proof (open_file m afs afd enc (Some s) (Some d) r Hb EO) as HB.
  assert (HY : y = match length_check shapes datas with Some e => Some (RErr e) | None => None end).
  { unfold x in Hy. destruct (length_check shapes datas), y as [[?|?]|]; cbn in Hy; try contradiction; congruence. }
  rewrite (import_loop_run m afs afd y bb regs) by (try assumption; try apply Nat.lt_succ_diag_r; rewrite HY; destruct (length_check shapes datas); discriminate).
  rewrite HY. unfold length_check. destruct (Nat.eqb_spec (length shapes) (length datas)) as [EL|EL].
  - cbn [bind]. unfold build_topology. rewrite A. cbn [bind]. destruct (into_topology bb); cbn [bind]; [|reflexivity].
    rewrite <- Lr, N, <- EL, Nat.min_id. reflexivity.
  - destruct (length datas <? length shapes)%nat; reflexivity.
Qed.

(** ** cat-shp *)

Lemma sf_next_panic afs afd r p : bytes_ok (shr_file (sf_shp r)) -> sf_next afs afd r = Panic p -> p = PIndex.
Proof.
  intros Hb E. unfold sf_next in E. destruct (shp_next afs (sf_shp r)) as [[a rs]|q] eqn:Es; [destruct (dbf_next afd _); discriminate|].
  cbn [bind] in E. injection E as <-. apply next_panic in Es; [|assumption]. apply Es.
Qed.

(** The cases of [listing], with the lines and the count so far. *)
Definition listing_from v afs afd fs r n (out : list text) (x : list text * program_end) : Prop :=
  exists recs lines tail, fst x = out ++ lines ++ tail /\ shown v fs recs lines /\
  ((snd x = Exited 0 [] /\ tail = [str "Read " ++ decimal (n + Z.of_nat (length recs)) ++ str " records"] /\
      calls (sf_next afs afd) (S (length recs)) r = Ok (good_items recs ++ [None])) \/
   (exists e, snd x = Exited 1 [str "Error during read: " ++ show_sf_error v e] /\ tail = [] /\
      calls (sf_next afs afd) (S (length recs)) r = Ok (good_items recs ++ [Some (RErr e)])) \/
   (snd x = Crashed PIndex /\ tail = [] /\ calls (sf_next afs afd) (length recs) r = Ok (good_items recs) /\
      calls (sf_next afs afd) (S (length recs)) r = Panic PIndex) \/
   (exists rec p, snd x = Crashed p /\ tail = [] /\ calls (sf_next afs afd) (S (length recs)) r = Ok (good_items (recs ++ [rec])) /\
      show_sf_record v fs rec = Panic p)).

Lemma cat_loop_ok v afs afd fs fuel : forall r n out, bytes_ok (shr_file (sf_shp r)) -> (length (shr_file (sf_shp r)) < fuel)%nat ->
  listing_from v afs afd fs r n out (cat_loop fuel v afs afd fs r n out).
Proof.
  induction fuel as [|fuel IH]; intros r n out Hb HL; [lia|]. cbn [cat_loop].
  destruct (sf_next afs afd r) as [[x r']|p] eqn:E.
  - destruct x as [[rec|e]|].
    + destruct (show_sf_record v fs rec) as [line|p] eqn:ES.
      * destruct (sf_next_uses afs afd r rec r' Hb E) as (Hb' & HL').
        destruct (IH r' (n + 1) (out ++ [line]) Hb' ltac:(lia)) as (recs & lines & tail & H1 & H2 & H3).
        exists (rec :: recs), (line :: lines), tail. split; [rewrite H1, <- app_assoc; reflexivity|]. split; [constructor; assumption|].
        assert (C : forall k, calls (sf_next afs afd) (S k) r = match calls (sf_next afs afd) k r' with Ok l => Ok (Some (ROk rec) :: l) | Panic p => Panic p end).
        { intros k. cbn [calls]. rewrite E. reflexivity. }
        cbn [length].
        destruct H3 as [(H & T & H3)|[(e & H & T & H3)|[(H & T & H3 & H4)|(x & p & H & T & H3 & H4)]]].
        -- left. rewrite C, H3. split; [exact H|]. split; [|reflexivity]. rewrite T. f_equal. f_equal. f_equal. f_equal. lia.
        -- right. left. exists e. rewrite C, H3. auto.
        -- right. right. left. rewrite !C, H3, H4. auto.
        -- right. right. right. exists x, p. rewrite C, H3. auto.
      * exists [], [], []. rewrite !app_nil_r. split; [reflexivity|]. split; [constructor|]. right. right. right. exists rec, p.
        split; [reflexivity|]. split; [reflexivity|]. split; [|exact ES]. cbn [length calls]. rewrite E. reflexivity.
    + exists [], [], []. rewrite !app_nil_r. split; [reflexivity|]. split; [constructor|]. right. left. exists e.
      split; [reflexivity|]. split; [reflexivity|]. cbn [length calls]. rewrite E. reflexivity.
    + exists [], [], [str "Read " ++ decimal n ++ str " records"]. split; [reflexivity|]. split; [constructor|]. left.
      split; [reflexivity|]. cbn [length]. rewrite Z.add_0_r. split; [reflexivity|]. cbn [length calls]. rewrite E. reflexivity.
  - assert (p = PIndex) as -> by (apply (sf_next_panic afs afd r p Hb E)). exists [], [], []. rewrite !app_nil_r. split; [reflexivity|]. split; [constructor|]. right. right. left.
    split; [reflexivity|]. split; [reflexivity|]. split; [reflexivity|]. cbn [length calls]. rewrite E. reflexivity.
Qed.

Lemma cat_loop_listing v afs afd fs r : bytes_ok (shr_file (sf_shp r)) ->
  let x := cat_loop (S (length (shr_file (sf_shp r)))) v afs afd fs r 0 [] in
  listing v fs (sf_next afs afd) r (fst x) (snd x).
Proof.
  intros Hb x. destruct (cat_loop_ok v afs afd fs _ r 0 [] Hb (Nat.lt_succ_diag_r _)) as (recs & lines & tail & H1 & H2 & H3). fold x in H1, H3.
  rewrite H1. cbn [app].
  destruct H3 as [(-> & -> & H3)|[(e & -> & -> & H3)|[(-> & -> & H3 & H4)|(rec & p & -> & -> & H3 & H4)]]]; rewrite ?app_nil_r.
  - rewrite Z.add_0_l. constructor; assumption.
  - econstructor; eassumption.
  - eapply ListedReadPanic; eassumption.
  - eapply ListedShowPanic; eassumption.
Qed.

(** Reading the records and then [x]. *)
Lemma cat_loop_run v afs afd fs x recs : forall lines fuel r n out, bytes_ok (shr_file (sf_shp r)) -> (length (shr_file (sf_shp r)) < fuel)%nat ->
  calls (sf_next afs afd) (S (length recs)) r = Ok (good_items recs ++ [x]) -> shown v fs recs lines -> (forall rec, x <> Some (ROk rec)) ->
  cat_loop fuel v afs afd fs r n out =
    match x with
    | Some (RErr e) => (out ++ lines, Exited 1 [str "Error during read: " ++ show_sf_error v e])
    | _ => (out ++ lines ++ [str "Read " ++ decimal (n + Z.of_nat (length recs)) ++ str " records"], Exited 0 [])
    end.
Proof.
  induction recs as [|rec recs IH]; intros lines [|fuel] r n out Hb HL; try lia; intros C H HX; inversion H; subst; cbn [cat_loop length].
  - cbn [length calls] in C. destruct (sf_next afs afd r) as [[y r']|]; [|discriminate]. injection C as ->. rewrite Z.add_0_r, app_nil_r.
    destruct x as [[rec|e]|]; [destruct (HX rec eq_refl)|reflexivity|reflexivity].
  - change (length (rec :: recs)) with (S (length recs)) in C. remember (S (length recs)) as k eqn:Ek. cbn [calls] in C.
    destruct (sf_next afs afd r) as [[z r']|] eqn:E; [|discriminate].
    destruct (calls (sf_next afs afd) k r') as [l|] eqn:El; [|discriminate]. injection C as -> ->.
    destruct (sf_next_uses afs afd r rec r' Hb E) as (Hb' & HL').
    match goal with HS : show_sf_record v fs rec = Ok _ |- _ => rewrite HS end.
    subst k. rewrite (IH l' fuel r' (n + 1) _ Hb' ltac:(lia) El) by assumption.
    replace (n + Z.of_nat (S (length recs))) with (n + 1 + Z.of_nat (length recs)) by lia.
    destruct x as [[?|?]|]; rewrite <- !app_assoc; reflexivity.
Qed.

Lemma cat_file v m afs afd enc b shapes fs datas (s d : stream) lines : leaves_suffix afd -> bytes_ok s -> is_shp b shapes s -> is_dbf enc fs datas d ->
  shown v fs (paired shapes datas) lines ->
  cat_shp v m afs afd enc (Some s) (Some d) =
    match length_check shapes datas with
    | None => (lines ++ [str "Read " ++ decimal (Z.of_nat (length shapes)) ++ str " records"], Exited 0 [])
    | Some e => (lines, Exited 1 [str "Error during read: " ++ show_sf_error v e])
    end.
Proof.
  intros Ha Hb Hs Hd H. destruct (shapefile_read m afs afd enc b shapes fs datas s d Ha Hs Hd) as (r & EN & EB & EF & HC).
  pose proof (paired_calls afs afd shapes datas r HC) as CS. pose proof (open_new m afs afd enc s d r EN) as EO.
  pose proof (open_bytes m afs afd enc (Some s) (Some d) r Hb EO) as HB. unfold cat_shp. rewrite EO, EF.
  rewrite (cat_loop_run v afs afd fs _ (paired shapes datas) lines _ r 0 [] HB (Nat.lt_succ_diag_r _) CS H) by (destruct (length_check shapes datas); discriminate).
  cbn [app]. rewrite Z.add_0_l. unfold length_check, paired. rewrite map_length, combine_length.
  destruct (Nat.eqb_spec (length shapes) (length datas)) as [EL|EL]; [rewrite <- EL, Nat.min_id; reflexivity|].
  destruct (length datas <? length shapes)%nat; reflexivity.
Qed.

(** Which records cannot be shown. *)
Lemma display_panic fs r p : forall i s, display_fields i fs r s = Panic p ->
  exists before f after vs, fs = before ++ f :: after /\ Forall2 (fun f v => read_string f r = Ok (ROk v)) before vs /\ read_string f r = Panic p.
Proof.
  induction fs as [|f fs IH]; intros i s E; [discriminate|]. cbn [display_fields] in E.
  destruct (read_string f r) as [[v|e]|q] eqn:ER; cbn [bind] in E; [|discriminate|].
  - destruct (IH _ _ E) as (before & g & after & vs & -> & H1 & H2). exists (f :: before), g, after, (v :: vs). auto.
  - injection E as <-. exists [], f, fs, []. auto.
Qed.

Lemma show_panic v fs rec p : show_sf_record v fs rec = Panic p ->
  exists before f after vs, fs = before ++ f :: after /\ Forall2 (fun f v => read_string f (sfr_data rec) = Ok (ROk v)) before vs /\
    read_string f (sfr_data rec) = Panic p.
Proof.
  unfold show_sf_record, show_dbf_record. destruct (display_record fs (sfr_data rec)) as [x|q] eqn:E; cbn [bind]; [discriminate|].
  intros [= <-]. exact (display_panic _ _ _ _ _ E).
Qed.

Lemma display_panics f after r p before vs : Forall2 (fun f v => read_string f r = Ok (ROk v)) before vs -> read_string f r = Panic p ->
  forall i s, display_fields i (before ++ f :: after) r s = Panic p.
Proof.
  intros H E. induction H as [|g w before vs Hg H IH]; intros i s; cbn [app display_fields].
  - rewrite E. reflexivity.
  - rewrite Hg. cbn [bind]. apply IH.
Qed.

Lemma show_panic_iff v fs rec p : show_sf_record v fs rec = Panic p <->
  exists before f after vs, fs = before ++ f :: after /\ Forall2 (fun f v => read_string f (sfr_data rec) = Ok (ROk v)) before vs /\
    read_string f (sfr_data rec) = Panic p.
Proof.
  split; [apply show_panic|]. intros (before & f & after & vs & -> & H & E). unfold show_sf_record, show_dbf_record, display_record.
  rewrite (display_panics f after _ p before vs H E). reflexivity.
Qed.

Lemma show_panic_kind v fs rec p : show_sf_record v fs rec = Panic p -> p = PIndex \/ p = PUnimplemented.
Proof.
  intros E. apply show_panic in E as (before & f & after & vs & _ & _ & E). apply read_panic in E.
  destruct E as [[-> _]|[(-> & _)|(-> & _)]]; auto.
Qed.

Lemma open_panic m afs afd enc shp dbf p : bytes_opt shp -> bytes_opt dbf -> sf_open m afs afd enc shp dbf = Panic p ->
  (m = Debug /\ p = POverflow) \/ (m = Release /\ p = PCapacity).
Proof.
  intros Hs Hd. unfold sf_open. destruct shp as [s|]; [|discriminate].
  destruct (shp_reader_new m afs s) as [[x|e]|q] eqn:E; cbn [bind]; [|discriminate|].
  - destruct dbf as [d|]; [|discriminate]. destruct (dbf_reader_new m afd enc d) as [[y|e]|q] eqn:E'; cbn [bind]; try discriminate.
    intros [= <-]. apply dbf_new_panic in E' as (-> & _); [|assumption]. destruct m; auto.
  - intros [= <-]. apply new_panic in E as (-> & -> & _); [auto|assumption].
Qed.

Lemma cat_panic v m afs afd enc shp dbf lines p : bytes_opt shp -> bytes_opt dbf ->
  cat_shp v m afs afd enc shp dbf = (lines, Crashed p) ->
  p = PIndex \/ p = PUnimplemented \/ (m = Debug /\ p = POverflow) \/ (m = Release /\ p = PCapacity).
Proof.
  intros Hs Hd. unfold cat_shp. destruct (sf_open m afs afd enc shp dbf) as [[r|e]|q] eqn:EO; [|discriminate|].
  - pose proof (open_bytes m afs afd enc shp dbf r Hs EO) as HB.
    destruct (cat_loop_ok v afs afd (sf_dbf_fields r) _ r 0 [] HB (Nat.lt_succ_diag_r _)) as (recs & ls & tail & H1 & H2 & H3).
    intros E. rewrite E in H3. cbn [snd] in H3.
    destruct H3 as [(H & _)|[(e & H & _)|[(H & _)|(rec & q & H & _ & _ & H3)]]]; try discriminate; injection H as ->; [auto|].
    apply show_panic_kind in H3 as [->| ->]; auto.
  - intros [= <- <-]. apply open_panic in EO; auto.
Qed.

Lemma show_returns v fs rec : (forall f, In f fs -> exists x, read_string f (sfr_data rec) = Ok x) -> exists line, show_sf_record v fs rec = Ok line.
Proof.
  intros H. destruct (show_sf_record v fs rec) as [line|p] eqn:E; [eauto|]. exfalso.
  apply show_panic in E as (before & f & after & vs & -> & _ & E). destruct (H f) as (x & Hx); [apply in_app_iff; right; left; reflexivity|]. congruence.
Qed.

Lemma printable_read f r : printable f r -> exists x, read_string f r = Ok x.
Proof.
  intros (H1 & H2 & H3). destruct (read_string f r) as [x|p] eqn:E; [eauto|]. exfalso. apply read_panic in E.
  destruct E as [[_ E]|[(_ & _ & E & E')|(_ & _ & E)]]; [lia| |exact (E H1)]. specialize (H3 E). lia.
Qed.

Lemma shown_all v fs recs : Forall (fun rec => Forall (fun f => printable f (sfr_data rec)) fs) recs -> exists lines, shown v fs recs lines.
Proof.
  induction 1 as [|rec recs H _ (lines & IH)]; [exists []; constructor|].
  destruct (show_returns v fs rec) as (line & E).
  - intros f Hf. rewrite Forall_forall in H. apply printable_read, H, Hf.
  - exists (line :: lines). constructor; assumption.
Qed.

(** ** Counting *)

Lemma describe_rings {D} (rgs : list (topo_region D)) : forall o i,
  fold_left (fun '(o, i) rg => ((o + length (tg_outer rg))%nat, (i + length (tg_inner rg))%nat)) rgs (o, i) =
  ((o + list_sum (map (fun rg => length (tg_outer rg)) rgs))%nat, (i + list_sum (map (fun rg => length (tg_inner rg)) rgs))%nat).
Proof.
  induction rgs as [|rg rgs IH]; intros o i; cbn [fold_left map]; [rewrite !Nat.add_0_r; reflexivity|].
  rewrite IH. change (list_sum (?a :: ?l)) with (a + list_sum l)%nat. f_equal; lia.
Qed.

Lemma describe_edges (es : list topo_edge) : forall s l p,
  fold_left (fun '(s, l, p) e =>
     let '(s', l') := if is_none (te_ring1 e) then (s, (l + 1)%nat) else ((s + 1)%nat, l) in
     (s', l', (p + length (te_points e))%nat)) es (s, l, p) =
  ((s + length (filter is_shared es))%nat, (l + length (filter (fun e => negb (is_shared e)) es))%nat,
   (p + list_sum (map (fun e => length (te_points e)) es))%nat).
Proof.
  induction es as [|e es IH]; intros s l p; cbn [fold_left map filter]; [rewrite !Nat.add_0_r; reflexivity|].
  change (list_sum (?a :: ?l)) with (a + list_sum l)%nat.
  unfold is_none, is_shared in *. destruct (te_ring1 e); cbn [negb]; rewrite IH; cbn [length]; (apply f_equal2; [apply f_equal2|]; lia).
Qed.

Lemma describe_eq {D} (t : topology D) : describe t =
  Description (length (tp_regions t)) (list_sum (map (fun rg => length (tg_outer rg)) (tp_regions t)))
    (list_sum (map (fun rg => length (tg_inner rg)) (tp_regions t))) (length (tp_edges t))
    (length (filter is_shared (tp_edges t))) (length (filter (fun e => negb (is_shared e)) (tp_edges t)))
    (list_sum (map (fun e => length (te_points e)) (tp_edges t))).
Proof. unfold describe. rewrite describe_rings, describe_edges. reflexivity. Qed.

Lemma list_sum_cons a l : list_sum (a :: l) = (a + list_sum l)%nat.
Proof. reflexivity. Qed.

Lemma users_sum us : forall n, (forall u, In u us -> (fst u < n)%nat) ->
  list_sum (map (fun i => length (users i us)) (seq 0 n)) = length us.
Proof.
  induction us as [|u us IH]; intros n H.
  - cbn [length]. generalize (seq 0 n). induction l as [|x l IHl]; [reflexivity|]. cbn [map]. rewrite list_sum_cons, IHl. reflexivity.
  - cbn [length]. rewrite <- (IH n) by (intros v Hv; apply H; right; assumption).
    assert (Hu : (fst u < n)%nat) by (apply H; left; reflexivity). clear H IH.
    assert (X : forall s k, list_sum (map (fun i => length (users i (u :: us))) (seq s k)) =
       ((if (s <=? fst u)%nat && (fst u <? s + k)%nat then 1 else 0) + list_sum (map (fun i => length (users i us)) (seq s k)))%nat).
    { intros s k. revert s. induction k as [|k IHk]; intros s.
      - cbn [seq map]. destruct (Nat.leb_spec s (fst u)), (Nat.ltb_spec (fst u) (s + 0)); cbn [andb]; lia.
      - cbn [seq map]. rewrite !list_sum_cons, IHk. unfold users at 1. cbn [filter].
        destruct (Nat.eqb_spec (fst u) s) as [E|E]; cbn [map length]; fold (users s us);
          destruct (Nat.leb_spec (S s) (fst u)), (Nat.ltb_spec (fst u) (S s + k)), (Nat.leb_spec s (fst u)), (Nat.ltb_spec (fst u) (s + S k)); cbn [andb];
          unfold users; lia. }
    rewrite X. destruct (Nat.leb_spec 0 (fst u)), (Nat.ltb_spec (fst u) (0 + n)); cbn [andb]; lia.
Qed.

Lemma flat_map_length {A B} (f : A -> list B) l : length (flat_map f l) = list_sum (map (fun x => length (f x)) l).
Proof. induction l as [|a l IH]; [reflexivity|]. cbn [flat_map map]. rewrite app_length, IH. reflexivity. Qed.

Lemma map_snd_enumerate {A B} (f : A -> B) l : map (fun x => f (snd x)) (enumerate l) = map f l.
Proof.
  unfold enumerate. generalize 0%nat as n. induction l as [|a l IH]; intros n; [reflexivity|]. cbn [length seq combine map snd]. rewrite IH. reflexivity.
Qed.

Lemma uses_length {D} (t : topology D) : length (uses (tp_regions t)) = total_uses t.
Proof.
  unfold uses, total_uses. rewrite flat_map_length.
  assert (X : forall ri s rs, length (flat_map (uses_ring ri s) (enumerate rs)) = list_sum (map (fun r => length (tr_des r)) rs)).
  { intros ri s rs. rewrite flat_map_length. rewrite <- (map_snd_enumerate (fun r => length (tr_des r)) rs). f_equal. apply map_ext.
    intros kr. unfold uses_ring. apply map_length. }
  rewrite <- (map_snd_enumerate _ (tp_regions t)). f_equal. apply map_ext. intros ir. unfold uses_region.
  rewrite app_length, !X, map_app, list_sum_app. reflexivity.
Qed.

Lemma count_uses {D} (t : topology D) : exact_references t ->
  (length (filter (fun e => negb (is_shared e)) (tp_edges t)) + 2 * length (filter is_shared (tp_edges t)) =
   total_uses t + length (filter is_unused (tp_edges t)))%nat.
Proof.
  intros (_ & B & X). rewrite <- uses_length, <- (users_sum (uses (tp_regions t)) (length (tp_edges t)) B). clear B.
  set (us := uses (tp_regions t)) in *. clearbody us. revert X. generalize (tp_edges t) as es. clear t.
  assert (G : forall es s, (forall i e, nth_error es i = Some e -> (length (users (s + i) us) <= 2)%nat /\
      te_ring0 e = nth_error (users (s + i) us) 0 /\ te_ring1 e = nth_error (users (s + i) us) 1) ->
    (length (filter (fun e => negb (is_shared e)) es) + 2 * length (filter is_shared es) =
     list_sum (map (fun i => length (users i us)) (seq s (length es))) + length (filter is_unused es))%nat).
  { induction es as [|e es IH]; intros s X; [reflexivity|].
    destruct (X 0%nat e eq_refl) as (L & R0 & R1). rewrite Nat.add_0_r in *.
    cbn [length seq map filter]. rewrite list_sum_cons. specialize (IH (S s)).
    assert (IH' := IH ltac:(intros i e' Hi; replace (S s + i)%nat with (s + S i)%nat by lia; apply X, Hi)). clear IH.
    unfold is_shared, is_unused in *. rewrite R0, R1. destruct (users s us) as [|u0 [|u1 [|u2 l]]]; cbn [nth_error negb length] in *; lia. }
  intros es X. apply (G es 0%nat X).
Qed.
