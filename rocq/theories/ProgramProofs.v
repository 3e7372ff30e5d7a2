(** * ProgramProofs: lemmas on the whole shp-to-geo-data program *)
From Verif Require Import GeoProofs TopoProofs BuildProofs ShpProofs SfProofs NormTopo ClipTopoProofs ClipTopoLaws ComposeLaws NormSafe PipelineProofs.

(** ** Quantized points fit *)

Lemma clamp_range z : 0 <= clamp_u32 z <= u32_max.
Proof. unfold clamp_u32. change u32_max with 4294967295. lia. Qed.

Lemma as_u32_range x : 0 <= f64_as_u32 x <= u32_max.
Proof. destruct x as [s|s|s pl|s m e]; cbn [f64_as_u32]; try apply clamp_range; try (destruct s; change u32_max with 4294967295; lia); change u32_max with 4294967295; lia. Qed.

Lemma as_u32_u32 x : is_u32 (f64_as_u32 x).
Proof. pose proof (as_u32_range x) as H. change u32_max with 4294967295 in H. unfold is_u32. change (2 ^ 32) with 4294967296. lia. Qed.

Lemma quantize_wf q p : wf_point (quantize q p).
Proof. split; cbn [quantize px py]; unfold quantize1; apply as_u32_u32. Qed.

Definition wf_region {D} (reg : region D) : Prop :=
  forall r ps z, In r (rg_outer reg ++ rg_inner reg) -> In ps (paths r) -> In z ps -> wf_point z.

Lemma in_segments ps : forall e z, In e (segments ps) -> In z e -> In z ps.
Proof.
  induction ps as [|p [|q t] IH]; intros e z He Hz; try (destruct He; fail).
  change (segments (p :: q :: t)) with ([p; q] :: segments (q :: t)) in He. destruct He as [<-|He].
  - cbn in *. tauto.
  - right. eapply IH; eassumption.
Qed.

Lemma geo_next_wf m afs afd g reg g' : geo_next m afs afd g = Ok (Some (ROk reg), g') -> wf_region reg.
Proof.
  intros H. apply geo_next_region in H as (rec & _ & _ & _ & H). apply partition_lossless in H as (c & Ho & Hi).
  intros r ps z Hr Hp Hz. assert (In r (quantized (quantize (gi_quantizer g)) (sfr_rings rec))) as HQ.
  { apply in_app_iff in Hr as [Hr|Hr]; [rewrite Ho in Hr|rewrite Hi in Hr]; apply filter_In in Hr; tauto. }
  unfold quantized in HQ. apply in_map_iff in HQ as (x & <- & _). cbn [paths] in Hp. pose proof (in_segments _ _ _ Hp Hz) as HI.
  apply in_map_iff in HI as (y & <- & _). apply quantize_wf.
Qed.

Lemma calls_wf m afs afd regs x : forall g, calls (geo_next m afs afd) (S (length regs)) g = Ok (regions_then regs x) -> Forall wf_region regs.
Proof.
  induction regs as [|reg regs IH]; intros g H; [constructor|]. cbn [length] in H.
  destruct (geo_next m afs afd g) as [[y g']|p] eqn:E; [|cbn [calls] in H; rewrite E in H; discriminate].
  rewrite (calls_app _ g y g') in H by exact E. destruct (calls (geo_next m afs afd) (S (length regs)) g') as [l|p] eqn:El; [|discriminate].
  cbn [bind] in H. unfold regions_then in H. cbn [map app] in H. injection H as -> ->.
  constructor; [eapply geo_next_wf, E|]. apply (IH g'). exact El.
Qed.

(** ** The number of regions *)

Lemma read_length {D} (t : topology D) : length (read_topology t) = length (tp_regions t).
Proof. apply map_length. Qed.

Lemma expected_length {D} (rs : list (region D)) : (length (expected rs) <= length rs)%nat.
Proof.
  induction rs as [|r rs IH]; [cbn; lia|]. unfold expected in *. cbn [flat_map length]. rewrite app_length.
  unfold expected_region at 1. destruct (filter has_area (rg_outer r)); cbn [length]; lia.
Qed.

Lemma build_count {D} m (rs : list (region D)) t : build_topology m rs = Ok t -> (length (tp_regions t) <= length rs)%nat.
Proof. intros B. rewrite <- read_length, (build_read m rs t B). apply expected_length. Qed.

Lemma normalize_count {D} m (t t' : topology D) : normalize m t = Ok t' -> (length (tp_regions t') <= length (tp_regions t))%nat.
Proof.
  intros H. apply normalize_Ok in H as (gs & Eg & B). apply build_count in B.
  assert (F : Forall2 (fun _ _ => True) (tp_regions t) gs) by (eapply Forall2_mmap; [eassumption|auto]).
  apply Forall2_length' in F. rewrite F. exact B.
Qed.

Lemma clip_count {D} m k (t t' : topology D) : clip_topology m t k = Ok t' -> (length (tp_regions t') <= length (tp_regions t))%nat.
Proof.
  intros H. apply clip_topology_ok in H as (C & b & HC & Hb & _ & HR & HE).
  assert (E : read_topology t' = clipped_topology C t) by (eapply clip_read; eassumption).
  rewrite <- read_length, E. unfold clipped_topology. rewrite map_length. generalize (tp_regions t). clear.
  intros l. induction l as [|x l IH]; cbn [filter length]; [lia|]. destruct (region_kept C x); cbn [length]; lia.
Qed.

(** ** The stages *)

Lemma built_traversable {D} m (rs : list (region D)) t : build_topology m rs = Ok t -> traversable t.
Proof.
  intros B. split; [apply build_topology_ok in B as (b & _ & _ & Hx & _); exact Hx|]. intros e He.
  destruct (built_edge m rs t e B He) as (g & r & ps & _ & _ & _ & HL & [->| ->]); [exact HL|]. rewrite has_length_rev. exact HL.
Qed.

Lemma built_wf {D} m (rs : list (region D)) t : Forall wf_region rs -> build_topology m rs = Ok t -> all_points wf_point t.
Proof.
  intros F B e z He Hz. destruct (built_edge m rs t e B He) as (g & r & ps & Hg & Hr & Hp & _ & Ee).
  rewrite Forall_forall in F. apply (F g Hg r ps z Hr Hp). destruct Ee as [Ee|Ee]; rewrite Ee in Hz; [assumption|apply in_rev; assumption].
Qed.

Lemma traversable_valid {D} (t : topology D) : exact_references t -> references_valid t.
Proof.
  intros (_ & H & _) d Hd.
  assert (In (de_edge d) (map fst (uses (tp_regions t)))) as HI.
  { rewrite uses_all_des. apply in_map, Hd. }
  apply in_map_iff in HI as (u & <- & Hu). auto.
Qed.

Lemma imported_ok m afs afd enc shp dbf t n : bytes_opt shp -> import m afs afd enc shp dbf = Ok (ROk (t, n)) ->
  traversable t /\ all_points wf_point t /\ (length (tp_regions t) <= n)%nat.
Proof.
  intros Hb H. apply import_ok_iff in H as (r & regs & _ & C & B & ->); [|exact Hb]. split; [eapply built_traversable, B|].
  split; [|eapply build_count, B]. eapply built_wf; [|exact B]. eapply calls_wf, C.
Qed.

Definition program_panics (m : mode) (p : panic) : Prop :=
  p = PIndex \/ p = PAssert \/ p = PExplicit \/ (m = Debug /\ p = POverflow) \/ (m = Release /\ p = PCapacity).

Lemma clip_panics {D} m k (t : topology D) p : wf_mask k -> traversable t -> all_points wf_point t -> clip_topology m t k = Panic p -> program_panics m p.
Proof.
  intros Hk [X _] W H. unfold program_panics.
  destruct (clip_topology_cases m t k Hk) as [(-> & E)|(C & _ & [((t' & E) & _)|(E & _)])].
  - apply Forall_forall. intros e He. apply Forall_forall. intros z Hz. apply (W e z He Hz).
  - apply traversable_valid, X.
  - assert (p = POverflow) by congruence. tauto.
  - congruence.
  - assert (p = PAssert) by congruence. tauto.
Qed.

(** ** The whole program *)

Lemma program_run v m afs afd enc shp dbf :
  let x := shp_to_geo_data v m afs afd enc shp dbf in
  match import m afs afd enc shp dbf with
  | Panic p => snd x = Crashed p /\ (fst x = [] \/ exists n, fst x = report n (@nil (topology dbf_record)))
  | Ok (RErr e) => fst x = [] /\
      snd x = Exited 1 [match sf_open m afs afd enc shp dbf with Ok (RErr _) => show_sf_error v e | _ => str "Error during read: " ++ show_sf_error v e end]
  | Ok (ROk (t1, n)) =>
      match normalize m t1 with
      | Panic p => x = (report n [t1], Crashed p)
      | Ok t2 =>
          match clip_topology m t2 (MinX (2 ^ 31)) with
          | Panic p => x = (report n [t1; t2], Crashed p)
          | Ok t3 => x = (report n [t1; t2; t3], Exited 0 [])
          end
      end
  end.
Proof.
  cbv zeta. unfold import, shp_to_geo_data. destruct (sf_open m afs afd enc shp dbf) as [[r|e]|p]; cbn [bind fst snd]; [|auto|auto].
  destruct (import_loop _ m afs afd (geo_iterator_new r) builder_new 0) as [[[b n]|e]|p]; cbn [bind fst snd]; [|auto|auto].
  destruct (into_topology b) as [t1|p]; cbn [bind fst snd]; [|split; [reflexivity|right; exists n; reflexivity]].
  destruct (normalize m t1) as [t2|p]; [|unfold report; cbn [combine map concat app]; rewrite app_nil_r; reflexivity].
  destruct (clip_topology m t2 (MinX (2 ^ 31))) as [t3|p];
    unfold report; cbn [combine map concat app]; rewrite app_nil_r, <- ?app_assoc; reflexivity.
Qed.

Lemma program_panic v m afs afd enc shp dbf lines p : bytes_opt shp -> bytes_opt dbf ->
  shp_to_geo_data v m afs afd enc shp dbf = (lines, Crashed p) -> program_panics m p.
Proof.
  intros Hs Hd E. pose proof (program_run v m afs afd enc shp dbf) as H. cbv zeta in H. rewrite E in H. cbn [fst snd] in H.
  destruct (import m afs afd enc shp dbf) as [[[t1 n]|e]|q] eqn:EI.
  - destruct (imported_ok _ _ _ _ _ _ _ _ Hs EI) as (T1 & W1 & _). pose proof (normalize_sane wf_point m t1 T1 W1) as HN.
    destruct (normalize m t1) as [t2|q]; [|injection H as _ ->; unfold norm_panics, program_panics in *; tauto].
    destruct HN as (T2 & W2). destruct (clip_topology m t2 (MinX (2 ^ 31))) as [t3|q] eqn:EC; [discriminate|]. injection H as _ ->.
    eapply clip_panics; [|exact T2|exact W2|exact EC]. vm_compute. split; congruence.
  - destruct H as (_ & H). discriminate.
  - destruct H as ([= ->] & _). apply import_panic in EI; [unfold program_panics; tauto|assumption|assumption].
Qed.
