(** * SfProofs: lemmas about the region iterator *)
From Verif Require Import SfSpec GeoProofs TopoProofs BytesProofs ShpProofs ShpLaws DbfProofs DbfLaws.

(** ** Whole shapefiles *)
Lemma calls_prefix {R A} (next : R -> res (A * R)) k j r l : calls next (k + j) r = Ok l -> exists a b, l = a ++ b /\ length a = k /\ calls next k r = Ok a.
Proof.
  revert r l. induction k as [|k IH]; intros r l E.
  - exists [], l. auto.
  - cbn [Nat.add calls] in *. destruct (next r) as [[x r']|]; [|discriminate]. destruct (calls next (k + j) r') as [l'|] eqn:E'; [|discriminate]. injection E as <-.
    destruct (IH r' l' E') as (a & b & -> & Ha & Ec). exists (x :: a), b. rewrite Ec. cbn. auto.
Qed.

Lemma sf_file afs afd r shapes datas k :
  (forall j, calls (shp_next afs) (length shapes + j) (sf_shp r) = Ok (map (fun x => Some (ROk x)) shapes ++ repeat None j)) ->
  (forall j, calls (dbf_step afd) (length datas + j) (sf_dbf r) = Ok (map (fun x => Some (ROk x)) datas ++ repeat None j)) ->
  calls (sf_next afs afd) (Nat.max (length shapes) (length datas) + k) r =
  Ok (map (fun '(s, d) => Some (ROk (SfRecord (sr_rings s) d))) (combine shapes datas) ++
      repeat (Some (RErr SFMoreShp)) (length shapes - length datas) ++
      repeat (Some (RErr SFMoreDbf)) (length datas - length shapes) ++ repeat None k).
Proof.
  intros Hs Hd. specialize (Hs (length datas - length shapes + k)%nat). specialize (Hd (length shapes - length datas + k)%nat).
  replace (length shapes + (length datas - length shapes + k))%nat with (Nat.max (length shapes) (length datas) + k)%nat in Hs by lia.
  replace (length datas + (length shapes - length datas + k))%nat with (Nat.max (length shapes) (length datas) + k)%nat in Hd by lia.
  rewrite (sf_calls afs afd _ r _ _ Hs Hd). rewrite join_lists. reflexivity.
Qed.

(** ** Partition by winding order *)
Lemma partition_ok m rs outer inner o i : partition_rings m rs outer inner = Ok (o, i) ->
  exists c : ring -> bool, (forall r, In r rs -> ring_winding_order m r = Ok (if c r then Clockwise else CounterClockwise)) /\
    o = outer ++ filter c rs /\ i = inner ++ filter (fun r => negb (c r)) rs.
Proof.
  intros E. exists (fun r => match ring_winding_order m r with Ok Clockwise => true | _ => false end).
  revert outer inner E. induction rs as [|r rs IH]; intros outer inner E; cbn [partition_rings filter] in *.
  - injection E as <- <-. rewrite !app_nil_r. split; [intros r []|auto].
  - destruct (ring_winding_order m r) as [w|] eqn:Ew; [|discriminate]. cbn [bind] in E. destruct w.
    + destruct (IH _ _ E) as (H1 & -> & ->). cbn [negb]. rewrite <- app_assoc. split; [|auto].
      intros x [<-|Hx]; [rewrite Ew; reflexivity|apply H1, Hx].
    + destruct (IH _ _ E) as (H1 & -> & ->). cbn [negb]. rewrite <- app_assoc. split; [|auto].
      intros x [<-|Hx]; [rewrite Ew; reflexivity|apply H1, Hx].
Qed.

Lemma winding_fits m r w : (m = Debug \/ fits (ring_area r)) -> ring_winding_order m r = Ok w ->
  w = if 0 <=? ring_area r then Clockwise else CounterClockwise.
Proof.
  unfold ring_winding_order. intros H E. destruct (ring_area2_and_winding m r) as [x|] eqn:Ex; [|discriminate]. cbn [bind] in E. injection E as <-.
  destruct m.
  - destruct (ring_aw_debug r) as [[_ E']|[_ E']]; rewrite Ex in E'; [|discriminate]. injection E' as ->. reflexivity.
  - destruct H as [H|H]; [discriminate|]. rewrite ring_aw_release, wrap_id in Ex by exact H. injection Ex as <-. reflexivity.
Qed.

Lemma filter_ext_in' {A} (f g : A -> bool) l : (forall a, In a l -> f a = g a) -> filter f l = filter g l.
Proof. induction l as [|a l IH]; intros H; cbn; [reflexivity|]. rewrite (H a) by (left; reflexivity). rewrite IH; [reflexivity|]. intros; apply H; right; assumption. Qed.

Lemma partition_split m rs o i : (m = Debug \/ Forall (fun r => fits (ring_area r)) rs) -> partition_rings m rs [] [] = Ok (o, i) ->
  o = filter (fun r => 0 <=? ring_area r) rs /\ i = filter (fun r => ring_area r <? 0) rs.
Proof.
  intros Hm E. destruct (partition_ok m rs [] [] o i E) as (c & Hc & -> & ->). cbn [app].
  assert (H : forall r, In r rs -> c r = (0 <=? ring_area r)).
  { intros r Hr. specialize (Hc r Hr). apply winding_fits in Hc.
    - destruct (c r), (0 <=? ring_area r); congruence.
    - destruct Hm as [->|Hm]; [auto|right]. rewrite Forall_forall in Hm. apply Hm, Hr. }
  split; apply filter_ext_in'; [exact H|]. intros r Hr. rewrite (H r Hr). destruct (Z.leb_spec 0 (ring_area r)), (Z.ltb_spec (ring_area r) 0); lia || reflexivity.
Qed.

Lemma partition_returns m rs outer inner : Forall (fun r => Forall fits (ring_values r)) rs -> exists x, partition_rings m rs outer inner = Ok x.
Proof.
  intros H. revert outer inner. induction H as [|r rs Hr H IH]; intros outer inner; cbn [partition_rings]; [eexists; reflexivity|].
  unfold ring_winding_order. rewrite (ring_aw_fits m r Hr). cbn [bind snd]. destruct (winding_of (ring_area r)); apply IH.
Qed.

Lemma partition_release rs outer inner : exists x, partition_rings Release rs outer inner = Ok x.
Proof.
  revert outer inner. induction rs as [|r rs IH]; intros outer inner; cbn [partition_rings]; [eexists; reflexivity|].
  unfold ring_winding_order. rewrite ring_aw_release. cbn [bind snd]. destruct (winding_of _); apply IH.
Qed.

Lemma partition_lossless m rs o i : partition_rings m rs [] [] = Ok (o, i) -> exists c : ring -> bool, o = filter c rs /\ i = filter (fun r => negb (c r)) rs.
Proof. intros E. destruct (partition_ok m rs [] [] o i E) as (c & _ & -> & ->). exists c. auto. Qed.

(** ** The region iterator *)
Lemma geo_next_region m afs afd g reg g' : geo_next m afs afd g = Ok (Some (ROk reg), g') ->
  exists rec, sf_next afs afd (gi_reader g) = Ok (Some (ROk rec), gi_reader g') /\ gi_quantizer g' = gi_quantizer g /\
    rg_data reg = sfr_data rec /\
    partition_rings m (quantized (quantize (gi_quantizer g)) (sfr_rings rec)) [] [] = Ok (rg_outer reg, rg_inner reg).
Proof.
  unfold geo_next. destruct (sf_next afs afd (gi_reader g)) as [[x r']|] eqn:E; [|discriminate]. cbn [bind].
  destruct x as [[rec|e]|]; [|discriminate|discriminate].
  change (map (shp_ring_to_ring (gi_quantizer g)) (sfr_rings rec)) with (quantized (quantize (gi_quantizer g)) (sfr_rings rec)).
  destruct (partition_rings m (quantized (quantize (gi_quantizer g)) (sfr_rings rec)) [] []) as [[o i]|] eqn:Ep; [|discriminate]. cbn [bind].
  intros [= <- <-]. exists rec. cbn. auto.
Qed.

(** What one call returns, given what the shapefile reader returns. *)
Definition geo_item (m : mode) (q : quantizer) (x : option (result sf_record sf_error)) : res (option (result (region dbf_record) sf_error)) :=
  match x with
  | None => Ok None
  | Some (RErr e) => Ok (Some (RErr e))
  | Some (ROk rec) =>
      '(o, i) <- partition_rings m (quantized (quantize q) (sfr_rings rec)) [] [] ;;
      Ok (Some (ROk (Region (sfr_data rec) o i)))
  end.

Lemma geo_next_eq m afs afd g x r' : sf_next afs afd (gi_reader g) = Ok (x, r') ->
  geo_next m afs afd g = (y <- geo_item m (gi_quantizer g) x ;; Ok (y, GeoIterator r' (gi_quantizer g))).
Proof.
  intros E. unfold geo_next. rewrite E. cbn [bind]. destruct x as [[rec|e]|]; cbn [geo_item bind]; try reflexivity.
  change (map (shp_ring_to_ring (gi_quantizer g)) (sfr_rings rec)) with (quantized (quantize (gi_quantizer g)) (sfr_rings rec)).
  destruct (partition_rings m (quantized (quantize (gi_quantizer g)) (sfr_rings rec)) [] []) as [[o i]|]; reflexivity.
Qed.

Lemma geo_item_fits m q x : item_fits (quantize q) x -> exists y, geo_item m q x = Ok y /\ item_imported (quantize q) x y.
Proof.
  destruct x as [[rec|e]|]; cbn [item_fits geo_item]; intros H; [|eexists; split; [reflexivity|reflexivity]|eexists; split; [reflexivity|exact I]].
  destruct (partition_returns m _ [] [] H) as [[o i] E]. rewrite E. cbn [bind]. eexists. split; [reflexivity|].
  destruct (partition_split m (quantized (quantize q) (sfr_rings rec)) o i) as [-> ->]; [|exact E|split; [reflexivity|split; reflexivity]].
  right. eapply Forall_impl; [|exact H]. intros r Hr. cbv beta in Hr. apply ring_loop_fits. rewrite ring_values_eq, Forall_app_iff in Hr. apply Hr.
Qed.

Lemma geo_item_debug q x y : geo_item Debug q x = Ok y -> item_imported (quantize q) x y.
Proof.
  destruct x as [[rec|e]|]; cbn.
  - destruct (partition_rings Debug (quantized (quantize q) (sfr_rings rec)) [] []) as [[o i]|] eqn:E; [|discriminate]. cbn [bind]. intros [= <-].
    destruct (partition_split Debug _ o i (or_introl eq_refl) E) as [-> ->]. split; [reflexivity|split; reflexivity].
  - intros [= <-]. reflexivity.
  - intros [= <-]. exact I.
Qed.

Lemma geo_calls_fits m afs afd k : forall g items, calls (sf_next afs afd) k (gi_reader g) = Ok items ->
  Forall (item_fits (quantize (gi_quantizer g))) items ->
  exists outs, calls (geo_next m afs afd) k g = Ok outs /\ Forall2 (item_imported (quantize (gi_quantizer g))) items outs.
Proof.
  induction k as [|k IH]; intros g items; cbn [calls].
  - intros [= <-] _. exists []. auto.
  - destruct (sf_next afs afd (gi_reader g)) as [[x r']|] eqn:E; [|discriminate]. destruct (calls (sf_next afs afd) k r') as [l|] eqn:El; [|discriminate].
    intros [= <-] HF. inversion HF as [|? ? Hx HF']; subst. rewrite (geo_next_eq m afs afd g x r' E).
    destruct (geo_item_fits m _ x Hx) as (y & Ey & Hy). rewrite Ey. cbn [bind].
    destruct (IH (GeoIterator r' (gi_quantizer g)) l El HF') as (outs & Eo & Ho). cbn [gi_quantizer] in Ho. rewrite Eo. exists (y :: outs). auto.
Qed.

Lemma geo_calls_debug afs afd k : forall g outs, calls (geo_next Debug afs afd) k g = Ok outs ->
  exists items, calls (sf_next afs afd) k (gi_reader g) = Ok items /\ Forall2 (item_imported (quantize (gi_quantizer g))) items outs.
Proof.
  induction k as [|k IH]; intros g outs; cbn [calls].
  - intros [= <-]. exists []. auto.
  - destruct (sf_next afs afd (gi_reader g)) as [[x r']|] eqn:E.
    + rewrite (geo_next_eq Debug afs afd g x r' E). destruct (geo_item Debug (gi_quantizer g) x) as [y|] eqn:Ey; [|discriminate]. cbn [bind].
      destruct (calls (geo_next Debug afs afd) k _) as [l|] eqn:El; [|discriminate]. intros [= <-].
      destruct (IH _ _ El) as (items & Ei & Hi). cbn [gi_reader gi_quantizer] in *. rewrite Ei. exists (x :: items). split; [reflexivity|].
      constructor; [apply geo_item_debug, Ey|exact Hi].
    + unfold geo_next at 1. rewrite E. discriminate.
Qed.

(** ** Reading whole files *)
Lemma shp_read m af b shapes s : is_shp b shapes s ->
  exists r, shp_reader_new m af s = Ok (ROk r) /\ sh_bbox (shr_header r) = b /\
    forall k, calls (shp_next af) (length shapes + k) r = Ok (map (fun x => Some (ROk x)) (map fr_record shapes) ++ repeat None k).
Proof.
  intros (unused & zm & junk & HF & HR & HS & ->).
  assert (X : forall k, exists r, shp_reader_new m af (header_bytes 9994 unused (file_size shapes / 2) 1000 5 (bb_xmin b) (bb_ymin b) (bb_xmax b) (bb_ymax b) zm ++ concat (map fr_bytes shapes) ++ junk) = Ok (ROk r) /\
    sh_bytes (shr_header r) = file_size shapes /\ sh_bbox (shr_header r) = SBBox (bb_xmin b) (bb_ymin b) (bb_xmax b) (bb_ymax b) /\
    calls (shp_next af) (length shapes + k) r = Ok (map (fun f => Some (ROk (fr_record f))) shapes ++ repeat None k)).
  { intros k. apply file_read; assumption. }
  destruct (X 0%nat) as (r & E & _ & B & _). exists r. split; [exact E|]. split; [rewrite B; destruct b; reflexivity|].
  intros k. destruct (X k) as (r' & E' & _ & _ & C). rewrite E in E'. injection E' as <-. rewrite C, map_map. reflexivity.
Qed.

Lemma dbf_read m af enc fs datas s : leaves_suffix af -> is_dbf enc fs datas s ->
  exists r, dbf_reader_new m af enc s = Ok (ROk r) /\ dm_fields (dbr_meta r) = fs /\
    forall k, calls (dbf_step af) (length datas + k) r = Ok (map (fun x => Some (ROk x)) datas ++ repeat None k).
Proof.
  intros Ha (v & y & mo & d & rlen & res & ds & tail & junk & HF & HD & HT & Hm & Hd & Hfs & HR & ->).
  destruct (prefix_read m af enc v y mo d _ rlen res ds tail fs (concat datas ++ junk) HF HD HT Hm Hd Hfs) as (fs' & H' & E).
  rewrite (described_fun _ _ _ _ _ H' Hfs) in E. eexists. split; [exact E|]. split; [reflexivity|].
  intros k. apply dbf_file; auto. apply HF.
Qed.

Lemma shapefile_read m afs afd enc b shapes fs datas s d : leaves_suffix afd -> is_shp b shapes s -> is_dbf enc fs datas d ->
  exists r, sf_reader_new m afs afd enc s d = Ok (ROk r) /\ sf_bounding_box r = b /\ sf_dbf_fields r = fs /\
    forall k, calls (sf_next afs afd) (Nat.max (length shapes) (length datas) + k) r =
      Ok (map (fun '(f, d) => Some (ROk (SfRecord (fr_rings f) d))) (combine shapes datas) ++
          repeat (Some (RErr SFMoreShp)) (length shapes - length datas) ++
          repeat (Some (RErr SFMoreDbf)) (length datas - length shapes) ++ repeat None k).
Proof.
  intros Ha Hs Hd. destruct (shp_read m afs b shapes s Hs) as (rs & Es & Bs & Cs). destruct (dbf_read m afd enc fs datas d Ha Hd) as (rd & Ed & Fd & Cd).
  exists (SfReader rs rd). split; [unfold sf_reader_new; rewrite Es, Ed; reflexivity|]. split; [exact Bs|]. split; [exact Fd|].
  intros k. pose proof (sf_file afs afd (SfReader rs rd) (map fr_record shapes) datas k) as F. cbn [sf_shp sf_dbf] in F. rewrite map_length in F.
  rewrite F by (assumption || exact Cs || exact Cd). f_equal. f_equal. clear.
  revert datas. induction shapes as [|x shapes IH]; intros [|y datas]; try reflexivity. cbn [map combine]. rewrite IH. reflexivity.
Qed.
