(** * Truncate: lemmas for C108 *)
From Verif Require Import ShpSpec DbfSpec Shapefile TopoProofs Pipeline.

(** Either the shorter stream is too short, or both give the same and leave the same off. *)
Lemma read_more af af' n s more :
  (exists s', read_exact af n s = (None, s')) \/
  (exists b s', read_exact af n s = (Some b, s') /\ read_exact af' n (s ++ more) = (Some b, s' ++ more)).
Proof.
  unfold read_exact. destruct (n <=? Z.of_nat (length s)) eqn:E; [|left; eexists; reflexivity]. right. apply Z.leb_le in E.
  eexists _, _. split; [reflexivity|]. rewrite app_length. destruct (n <=? Z.of_nat (length s + length more)) eqn:E'; [|apply Z.leb_gt in E'; lia].
  rewrite firstn_app, skipn_app. replace (Z.to_nat n - length s)%nat with 0%nat by lia. cbn [firstn skipn]. rewrite app_nil_r. reflexivity.
Qed.

Definition shp_more (more : stream) (r : shp_reader) := ShpReader (shr_file r ++ more) (shr_read r) (shr_header r).
Definition dbf_more (more : stream) (r : dbf_reader) := DbfReader (dbr_file r ++ more) (dbr_iterated r) (dbr_meta r).

Section More.
Context (af af' : after_fail) (more : stream).

Lemma shp_new_more m s : shp_reader_new m af s = Ok (RErr SEIo) \/
  match shp_reader_new m af s with
  | Ok (ROk r) => shp_reader_new m af' (s ++ more) = Ok (ROk (shp_more more r))
  | x => shp_reader_new m af' (s ++ more) = x
  end.
Proof.
  unfold shp_reader_new, read_shp_header. destruct (read_more af af' shp_header_length s more) as [(s' & ->)|(b & s' & -> & ->)]; [left; reflexivity|right].
  cbn [bind]. destruct (parse_shp_header m b) as [[h|e]|p]; reflexivity.
Qed.

Lemma record_more s : (exists s', read_polygon_record af s = Ok (RErr SEIo, s')) \/
  match read_polygon_record af s with
  | Ok (x, s') => read_polygon_record af' (s ++ more) = Ok (x, s' ++ more)
  | Panic p => read_polygon_record af' (s ++ more) = Panic p
  end.
Proof.
  unfold read_polygon_record. destruct (read_more af af' 8 s more) as [(s' & ->)|(b & s' & -> & ->)]; [left; eexists; reflexivity|].
  destruct (be_at b 0 4) as [rn|p]; cbn [bind]; [|right; reflexivity].
  destruct (be_at b 4 4) as [words|p]; cbn [bind]; [|right; reflexivity].
  destruct (read_more af af' (words * 2) s' more) as [(s2 & ->)|(b2 & s2 & -> & ->)]; [left; eexists; reflexivity|right].
  destruct (parse_polygon_record b2 rn) as [[x|e]|p]; reflexivity.
Qed.

Lemma shp_next_more r : (exists r', shp_next af r = Ok (Some (RErr SEIo), r')) \/
  match shp_next af r with
  | Ok (x, r') => shp_next af' (shp_more more r) = Ok (x, shp_more more r')
  | Panic p => shp_next af' (shp_more more r) = Panic p
  end.
Proof.
  unfold shp_next. cbn [shp_more shr_header shr_read shr_file]. destruct (sh_bytes (shr_header r) <=? shr_read r); [right; reflexivity|].
  destruct (record_more (shr_file r)) as [(s' & ->)|H]; [left; eexists; reflexivity|right].
  destruct (read_polygon_record af (shr_file r)) as [[[[x n]|e] s']|p]; rewrite H; reflexivity.
Qed.

Lemma dbf_new_more m enc s : dbf_reader_new m af enc s = Ok (RErr DEIo) \/
  match dbf_reader_new m af enc s with
  | Ok (ROk r) => dbf_reader_new m af' enc (s ++ more) = Ok (ROk (dbf_more more r))
  | x => dbf_reader_new m af' enc (s ++ more) = x
  end.
Proof.
  unfold dbf_reader_new, read_dbf_meta, read_dbf_header. destruct (read_more af af' 32 s more) as [(s' & ->)|(b & s' & -> & ->)]; [left; reflexivity|].
  destruct (get b 2) as [b2|p]; cbn [bind]; [|right; reflexivity]. destruct (get b 3) as [b3|p]; cbn [bind]; [|right; reflexivity].
  destruct ((12 <? b2) || (31 <? b3)); cbn [bind]; [right; reflexivity|].
  destruct (le_at b 4 4) as [n|p]; cbn [bind]; [|right; reflexivity]. destruct (le_at b 8 2) as [h|p]; cbn [bind]; [|right; reflexivity].
  destruct (le_at b 10 2) as [l|p]; cbn [bind]; [|right; reflexivity]. unfold read_dbf_fields.
  destruct (header_rest m (DHeader n h l)) as [k|p]; cbn [bind]; [|right; reflexivity].
  destruct (read_more af af' k s' more) as [(s2 & ->)|(b4 & s2 & -> & ->)]; [left; reflexivity|right].
  destruct (parse_fields enc (chunks 32 b4) 1 []) as [[fs|e]|p]; reflexivity.
Qed.

Lemma dbf_next_more r : (exists r', dbf_next af r = (Some (RErr DEIo), r')) \/
  exists x r', dbf_next af r = (x, r') /\ dbf_next af' (dbf_more more r) = (x, dbf_more more r').
Proof.
  unfold dbf_next, read_dbf_record. cbn [dbf_more dbr_iterated dbr_meta dbr_file]. destruct (dbr_iterated r =? dm_records (dbr_meta r)); [right; eexists _, _; split; reflexivity|].
  destruct (read_more af af' (dm_record_bytes (dbr_meta r)) (dbr_file r) more) as [(s' & ->)|(b & s' & -> & ->)]; [left; eexists; reflexivity|right; eexists _, _; split; reflexivity].
Qed.
End More.

(** Iterators that go along until the first one stops short. *)
Lemma along {R S A} (next : R -> res (A * R)) (next' : S -> res (A * S)) (F : R -> S) (bad : A -> Prop) :
  (forall r, (exists x r', next r = Ok (x, r') /\ bad x) \/
     match next r with Ok (x, r') => next' (F r) = Ok (x, F r') | Panic p => next' (F r) = Panic p end) ->
  forall k r, calls next k r = calls next' k (F r) \/
    exists j items x, (j < k)%nat /\ calls next' j (F r) = Ok items /\ calls next (Datatypes.S j) r = Ok (items ++ [x]) /\ bad x.
Proof.
  intros H k. induction k as [|k IH]; intros r; [left; reflexivity|].
  destruct (H r) as [(x & r' & E & B)|E].
  - right. exists 0%nat, [], x. split; [lia|]. split; [reflexivity|]. split; [cbn; rewrite E; reflexivity|exact B].
  - destruct (next r) as [[x r']|p] eqn:En; [|left; cbn; rewrite En, E; reflexivity].
    destruct (IH r') as [E'|(j & items & y & Hj & E1 & E2 & B)]; [left; cbn; rewrite En, E, E'; reflexivity|].
    right. exists (Datatypes.S j), (x :: items), y. split; [lia|]. split; [cbn; rewrite E, E1; reflexivity|]. split; [|exact B].
    change (calls next (Datatypes.S (Datatypes.S j)) r) with (match next r with Panic p => Panic p | Ok (a, r') => match calls next (Datatypes.S j) r' with Panic p => Panic p | Ok l => Ok (a :: l) end end).
    rewrite En, E2. reflexivity.
Qed.

Definition sf_more (ms md : stream) (r : sf_reader) := SfReader (shp_more ms (sf_shp r)) (dbf_more md (sf_dbf r)).

(** What a truncated file may give instead of a record. *)
Lemma sf_next_more afs afd afs' afd' ms md r :
  (exists x r', sf_next afs afd r = Ok (x, r') /\ exists e, x = Some (RErr e)) \/
  match sf_next afs afd r with Ok (x, r') => sf_next afs' afd' (sf_more ms md r) = Ok (x, sf_more ms md r') | Panic p => sf_next afs' afd' (sf_more ms md r) = Panic p end.
Proof.
  unfold sf_next. cbn [sf_more sf_shp sf_dbf]. destruct (shp_next_more afs afs' ms (sf_shp r)) as [(rs & ->)|H].
  - left. cbn [bind]. destruct (dbf_next afd (sf_dbf r)) as [[[b|e]|] rd]; (eexists _, _; split; [reflexivity|eexists; reflexivity]).
  - destruct (shp_next afs (sf_shp r)) as [[a rs]|p]; rewrite H; cbn [bind]; [|right; reflexivity].
    destruct (dbf_next_more afd afd' md (sf_dbf r)) as [(rd & ->)|(x & rd & -> & ->)].
    + left. destruct a as [[a|e]|]; (eexists _, _; split; [reflexivity|eexists; reflexivity]).
    + right. reflexivity.
Qed.

(** ** Regions and programs *)


Definition geo_more (ms md : stream) (g : geo_iterator) := GeoIterator (sf_more ms md (gi_reader g)) (gi_quantizer g).

Lemma geo_next_more m afs afd afs' afd' ms md g :
  (exists x g', geo_next m afs afd g = Ok (x, g') /\ exists e, x = Some (RErr e)) \/
  match geo_next m afs afd g with Ok (x, g') => geo_next m afs' afd' (geo_more ms md g) = Ok (x, geo_more ms md g') | Panic p => geo_next m afs' afd' (geo_more ms md g) = Panic p end.
Proof.
  unfold geo_next. cbn [geo_more gi_reader gi_quantizer]. destruct (sf_next_more afs afd afs' afd' ms md (gi_reader g)) as [(x & r' & -> & e & ->)|H].
  - left. cbn [bind]. eexists _, _. split; [reflexivity|eexists; reflexivity].
  - right. destruct (sf_next afs afd (gi_reader g)) as [[[[x|e]|] r']|p]; rewrite H; cbn [bind]; [|reflexivity..].
    destruct (partition_rings m (map (shp_ring_to_ring (gi_quantizer g)) (sfr_rings x)) [] []) as [[o i]|p]; reflexivity.
Qed.

Lemma cat_extends v afs afd fs : forall fuel r n out, exists more, fst (cat_loop fuel v afs afd fs r n out) = out ++ more.
Proof.
  intros fuel. induction fuel as [|fuel IH]; intros r n out; [exists []; symmetry; apply app_nil_r|]. cbn [cat_loop].
  destruct (sf_next afs afd r) as [[[[x|e]|] r']|p]; [|exists []; symmetry; apply app_nil_r|eexists; reflexivity|exists []; symmetry; apply app_nil_r].
  destruct (show_sf_record v fs x) as [line|p]; [|exists []; symmetry; apply app_nil_r].
  destruct (IH r' (n + 1) (out ++ [line])) as (more & ->). exists (line :: more). rewrite <- app_assoc. reflexivity.
Qed.

Lemma cat_more v afs afd afs' afd' fs ms md : forall fuel fuel' r n out l e l' e',
  cat_loop fuel v afs afd fs r n out = (l, e) -> cat_loop fuel' v afs' afd' fs (sf_more ms md r) n out = (l', e') ->
  e <> Crashed PFuel -> e' <> Crashed PFuel ->
  (l, e) = (l', e') \/ exists err more, e = Exited 1 [str "Error during read: " ++ show_sf_error v err] /\ l' = l ++ more.
Proof.
  intros fuel. induction fuel as [|fuel IH]; intros fuel' r n out l e l' e' H H' N N'; [cbn in H; congruence|].
  destruct fuel' as [|fuel']; [cbn in H'; congruence|].
  destruct (sf_next_more afs afd afs' afd' ms md r) as [(x & r' & E & er & ->)|E].
  - right. cbn [cat_loop] in H. rewrite E in H. injection H as <- <-. exists er.
    destruct (cat_extends v afs' afd' fs (S fuel') (sf_more ms md r) n out) as (more & X). rewrite H' in X. cbn [fst] in X. exists more. split; [reflexivity|exact X].
  - cbn [cat_loop] in H, H'. destruct (sf_next afs afd r) as [[[[x|er]|] r']|p]; rewrite E in H'; [|left; congruence..].
    destruct (show_sf_record v fs x) as [line|p]; [|left; congruence]. exact (IH _ _ _ _ _ _ _ _ H H' N N').
Qed.

Lemma import_more m afs afd afs' afd' ms md : forall fuel fuel' g b n,
  import_loop fuel m afs afd g b n <> Panic PFuel -> import_loop fuel' m afs' afd' (geo_more ms md g) b n <> Panic PFuel ->
  import_loop fuel m afs afd g b n = import_loop fuel' m afs' afd' (geo_more ms md g) b n \/
  exists e, import_loop fuel m afs afd g b n = Ok (RErr e).
Proof.
  intros fuel. induction fuel as [|fuel IH]; intros fuel' g b n H H'; [cbn in H; congruence|].
  destruct fuel' as [|fuel']; [cbn in H'; congruence|].
  destruct (geo_next_more m afs afd afs' afd' ms md g) as [(x & g' & E & er & ->)|E].
  - right. cbn [import_loop]. rewrite E. exists er. reflexivity.
  - cbn [import_loop] in *. destruct (geo_next m afs afd g) as [[[[x|er]|] g']|p]; rewrite E in *; cbn [bind] in *; [|left; reflexivity..].
    destruct (add_region m b x) as [b'|p]; cbn [bind] in *; [|left; reflexivity]. exact (IH _ _ _ _ H H').
Qed.

Section Programs.
Context (m : mode) (afs afs' afd afd' : after_fail) (enc : decoder) (shp ms dbf md : stream).

Lemma open_more : sf_open m afs afd enc (Some shp) (Some dbf) = Ok (RErr (SFShp SEIo)) \/
  sf_open m afs afd enc (Some shp) (Some dbf) = Ok (RErr (SFDbf DEIo)) \/
  match sf_open m afs afd enc (Some shp) (Some dbf) with
  | Ok (ROk r) => sf_open m afs' afd' enc (Some (shp ++ ms)) (Some (dbf ++ md)) = Ok (ROk (sf_more ms md r))
  | x => sf_open m afs' afd' enc (Some (shp ++ ms)) (Some (dbf ++ md)) = x
  end.
Proof.
  unfold sf_open. destruct (shp_new_more afs afs' ms m shp) as [-> |H]; [left; reflexivity|right].
  destruct (shp_reader_new m afs shp) as [[rs|e]|p]; rewrite H; cbn [bind]; [|right; reflexivity..].
  destruct (dbf_new_more afd afd' md m enc dbf) as [-> |H2]; [left; reflexivity|right].
  destruct (dbf_reader_new m afd enc dbf) as [[rd|e]|p]; rewrite H2; reflexivity.
Qed.

Lemma import_cut : import m afs afd enc (Some shp) (Some dbf) <> Panic PFuel ->
  import m afs' afd' enc (Some (shp ++ ms)) (Some (dbf ++ md)) <> Panic PFuel ->
  import m afs afd enc (Some shp) (Some dbf) = import m afs' afd' enc (Some (shp ++ ms)) (Some (dbf ++ md)) \/
  exists e, import m afs afd enc (Some shp) (Some dbf) = Ok (RErr e).
Proof.
  unfold import. destruct open_more as [-> |[-> |H]]; [right; eexists; reflexivity..|].
  destruct (sf_open m afs afd enc (Some shp) (Some dbf)) as [[r|e]|p]; rewrite H; cbn [bind]; [|left; reflexivity..].
  change (geo_iterator_new (sf_more ms md r)) with (geo_more ms md (geo_iterator_new r)).
  set (f := import_fuel _). set (f' := import_fuel _). intros N N'.
  destruct (import_more m afs afd afs' afd' ms md f f' (geo_iterator_new r) builder_new 0) as [E|(e & E)].
  - intros X. rewrite X in N. apply N. reflexivity.
  - intros X. rewrite X in N'. apply N'. reflexivity.
  - left. rewrite E. reflexivity.
  - right. exists e. rewrite E. reflexivity.
Qed.

Lemma cat_cut v l e l' e' : cat_shp v m afs afd enc (Some shp) (Some dbf) = (l, e) ->
  cat_shp v m afs' afd' enc (Some (shp ++ ms)) (Some (dbf ++ md)) = (l', e') -> e <> Crashed PFuel -> e' <> Crashed PFuel ->
  (l, e) = (l', e') \/ exists msg more, e = Exited 1 [msg] /\ l' = l ++ more.
Proof.
  unfold cat_shp. destruct open_more as [-> |[-> |H]]; [intros [= <- <-] _ _ _; right; eexists _, _; split; reflexivity..|].
  destruct (sf_open m afs afd enc (Some shp) (Some dbf)) as [[r|er]|p]; rewrite H; [|left; congruence..].
  change (sf_dbf_fields (sf_more ms md r)) with (sf_dbf_fields r). intros A A' N N'.
  destruct (cat_more v afs afd afs' afd' (sf_dbf_fields r) ms md _ _ r 0 [] l e l' e' A A' N N') as [X|(err & more & -> & ->)]; [left; exact X|right].
  eexists _, _. split; reflexivity.
Qed.

Lemma program_cut v : import m afs afd enc (Some shp) (Some dbf) <> Panic PFuel ->
  import m afs' afd' enc (Some (shp ++ ms)) (Some (dbf ++ md)) <> Panic PFuel ->
  shp_to_geo_data v m afs afd enc (Some shp) (Some dbf) = shp_to_geo_data v m afs' afd' enc (Some (shp ++ ms)) (Some (dbf ++ md)) \/
  exists msg, shp_to_geo_data v m afs afd enc (Some shp) (Some dbf) = ([], Exited 1 [msg]).
Proof.
  unfold import, shp_to_geo_data. destruct open_more as [-> |[-> |H]]; [right; eexists; reflexivity..|].
  destruct (sf_open m afs afd enc (Some shp) (Some dbf)) as [[r|e]|p]; rewrite H; cbn [bind]; [|left; reflexivity..].
  change (geo_iterator_new (sf_more ms md r)) with (geo_more ms md (geo_iterator_new r)).
  set (f := import_fuel _). set (f' := import_fuel _). intros N N'.
  destruct (import_more m afs afd afs' afd' ms md f f' (geo_iterator_new r) builder_new 0) as [E|(e & E)].
  - intros X. rewrite X in N. apply N. reflexivity.
  - intros X. rewrite X in N'. apply N'. reflexivity.
  - left. rewrite E. reflexivity.
  - right. rewrite E. eexists. reflexivity.
Qed.
End Programs.
