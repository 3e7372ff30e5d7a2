(** * TruncateProps: property theorem C108 (statements only)

    A file is compared with the same file cut off somewhere: [s] and [s ++ more].  [af] and [af']
    say what a failing read leaves; they need not be the same. *)
From Verif Require Import ShpSpec DbfSpec Shapefile ShpProps DbfProps SfProps Pipeline PipelineSpec PipelineProps Truncate.

(** The first [k] answers of the reader [r] of the cut file are those of [r'], or there is a first
    answer [x] that differs, and it is [bad]. *)
Definition same_until {R A} (next next' : R -> res (A * R)) (bad : A -> Prop) (r r' : R) : Prop :=
  forall k, calls next k r = calls next' k r' \/
    exists j items x, (j < k)%nat /\ calls next' j r' = Ok items /\ calls next (S j) r = Ok (items ++ [x]) /\ bad x.

(** Opening the cut file gives an I/O error or what opening the whole file gives; a reader of the cut
    file gives the records of the whole file until it gives an I/O error. *)
Theorem C108_shp : forall m af af' s more,
  shp_reader_new m af s = Ok (RErr SEIo) \/
  (exists r r', shp_reader_new m af s = Ok (ROk r) /\ shp_reader_new m af' (s ++ more) = Ok (ROk r') /\
    shr_header r = shr_header r' /\ same_until (shp_next af) (shp_next af') (fun x => x = Some (RErr SEIo)) r r') \/
  ((forall r, shp_reader_new m af s <> Ok (ROk r)) /\ shp_reader_new m af' (s ++ more) = shp_reader_new m af s).
Proof.
  intros m af af' s more. destruct (shp_new_more af af' more m s) as [H|H]; [left; exact H|right].
  destruct (shp_reader_new m af s) as [[r|e]|p]; [left|right; split; [discriminate|exact H]..].
  exists r, (shp_more more r). split; [reflexivity|]. split; [exact H|]. split; [reflexivity|].
  intros k. apply (along (shp_next af) (shp_next af') (shp_more more) (fun x => x = Some (RErr SEIo))). intros q. destruct (shp_next_more af af' more q) as [(q' & E)|E]; [left|right; exact E].
  exists (Some (RErr SEIo)), q'. split; [exact E|reflexivity].
Qed.
Print Assumptions C108_shp.

Theorem C108_dbf : forall m af af' enc s more,
  dbf_reader_new m af enc s = Ok (RErr DEIo) \/
  (exists r r', dbf_reader_new m af enc s = Ok (ROk r) /\ dbf_reader_new m af' enc (s ++ more) = Ok (ROk r') /\
    dbr_meta r = dbr_meta r' /\ same_until (dbf_step af) (dbf_step af') (fun x => x = Some (RErr DEIo)) r r') \/
  ((forall r, dbf_reader_new m af enc s <> Ok (ROk r)) /\ dbf_reader_new m af' enc (s ++ more) = dbf_reader_new m af enc s).
Proof.
  intros m af af' enc s more. destruct (dbf_new_more af af' more m enc s) as [H|H]; [left; exact H|right].
  destruct (dbf_reader_new m af enc s) as [[r|e]|p]; [left|right; split; [discriminate|exact H]..].
  exists r, (dbf_more more r). split; [reflexivity|]. split; [exact H|]. split; [reflexivity|].
  intros k. apply (along (dbf_step af) (dbf_step af') (dbf_more more) (fun x => x = Some (RErr DEIo))). intros q. unfold dbf_step. destruct (dbf_next_more af af' more q) as [(q' & ->)|(x & q' & -> & ->)]; [left|right; reflexivity].
  exists (Some (RErr DEIo)), q'. split; reflexivity.
Qed.
Print Assumptions C108_dbf.

(** Both files cut off. *)
Theorem C108_shapefile : forall m afs afs' afd afd' enc shp shp_more dbf dbf_more,
  sf_open m afs afd enc (Some shp) (Some dbf) = Ok (RErr (SFShp SEIo)) \/
  sf_open m afs afd enc (Some shp) (Some dbf) = Ok (RErr (SFDbf DEIo)) \/
  (exists r r', sf_open m afs afd enc (Some shp) (Some dbf) = Ok (ROk r) /\
    sf_open m afs' afd' enc (Some (shp ++ shp_more)) (Some (dbf ++ dbf_more)) = Ok (ROk r') /\
    sf_dbf_fields r = sf_dbf_fields r' /\ sf_bounding_box r = sf_bounding_box r' /\
    same_until (sf_next afs afd) (sf_next afs' afd') (fun x => exists e, x = Some (RErr e)) r r') \/
  ((forall r, sf_open m afs afd enc (Some shp) (Some dbf) <> Ok (ROk r)) /\
   sf_open m afs' afd' enc (Some (shp ++ shp_more)) (Some (dbf ++ dbf_more)) = sf_open m afs afd enc (Some shp) (Some dbf)).
Proof.
  intros m afs afs' afd afd' enc shp ms dbf md. unfold sf_open.
  destruct (shp_new_more afs afs' ms m shp) as [-> |H]; [left; reflexivity|].
  destruct (shp_reader_new m afs shp) as [[rs|e]|p]; rewrite H; cbn [bind]; [|right; right; right; split; [discriminate|reflexivity]..].
  destruct (dbf_new_more afd afd' md m enc dbf) as [-> |H2]; [right; left; reflexivity|right; right].
  destruct (dbf_reader_new m afd enc dbf) as [[rd|e]|p]; rewrite H2; cbn [bind]; [left|right; split; [discriminate|reflexivity]..].
  exists (SfReader rs rd), (sf_more ms md (SfReader rs rd)). repeat (split; [reflexivity|]).
  intros k. apply (along (sf_next afs afd) (sf_next afs' afd') (sf_more ms md) (fun x => exists e, x = Some (RErr e))). intros q. apply sf_next_more.
Qed.
Print Assumptions C108_shapefile.

(** The regions made from the records. *)
Theorem C108_regions : forall m afs afs' afd afd' enc shp shp_more dbf dbf_more r,
  sf_open m afs afd enc (Some shp) (Some dbf) = Ok (ROk r) ->
  exists r', sf_open m afs' afd' enc (Some (shp ++ shp_more)) (Some (dbf ++ dbf_more)) = Ok (ROk r') /\ same_until (geo_next m afs afd) (geo_next m afs' afd') (fun x => exists e, x = Some (RErr e)) (geo_iterator_new r) (geo_iterator_new r').
Proof.
  intros m afs afs' afd afd' enc shp ms dbf md r H. destruct (open_more m afs afs' afd afd' enc shp ms dbf md) as [E|[E|E]]; rewrite H in E; try discriminate.
  exists (sf_more ms md r). split; [exact E|].
  intros k. apply (along (geo_next m afs afd) (geo_next m afs' afd') (geo_more ms md) (fun x => exists e, x = Some (RErr e))). intros q. apply geo_next_more.
Qed.
Print Assumptions C108_regions.

(** [cat-shp] prints the lines it prints for the whole files and ends like there, or it prints the
    first of these lines and reports an error. *)
Theorem C108_cat : forall v m afs afs' afd afd' enc shp shp_more dbf dbf_more,
  bytes_ok (shp ++ shp_more) -> bytes_ok (dbf ++ dbf_more) ->
  let cut := cat_shp v m afs afd enc (Some shp) (Some dbf) in
  let whole := cat_shp v m afs' afd' enc (Some (shp ++ shp_more)) (Some (dbf ++ dbf_more)) in
  cut = whole \/ exists msg more, snd cut = Exited 1 [msg] /\ fst whole = fst cut ++ more.
Proof.
  intros v m afs afs' afd afd' enc shp ms dbf md Hs Hd cut whole. destruct (cat_shp v m afs afd enc (Some shp) (Some dbf)) as [l e] eqn:E.
  destruct (cat_shp v m afs' afd' enc (Some (shp ++ ms)) (Some (dbf ++ md))) as [l' e'] eqn:E'. subst cut whole. cbn [fst snd].
  apply (cat_cut m afs afs' afd afd' enc shp ms dbf md v l e l' e' E E').
  - intros ->. apply Forall_app in Hs as [Hs _]. apply Forall_app in Hd as [Hd _].
    destruct (C77_cat_panic v m afs afd enc (Some shp) (Some dbf) l PFuel Hs Hd E) as [X|[X|[[_ X]|[_ X]]]]; discriminate.
  - intros ->. destruct (C77_cat_panic v m afs' afd' enc (Some (shp ++ ms)) (Some (dbf ++ md)) l' PFuel Hs Hd E') as [X|[X|[[_ X]|[_ X]]]]; discriminate.
Qed.
Print Assumptions C108_cat.

(** [shp-to-geo-data] does the same as for the whole files or reports an error and prints nothing. *)
Theorem C108_program : forall v m afs afs' afd afd' enc shp shp_more dbf dbf_more,
  bytes_ok (shp ++ shp_more) -> bytes_ok (dbf ++ dbf_more) ->
  let cut := shp_to_geo_data v m afs afd enc (Some shp) (Some dbf) in
  let whole := shp_to_geo_data v m afs' afd' enc (Some (shp ++ shp_more)) (Some (dbf ++ dbf_more)) in
  cut = whole \/ exists msg, cut = ([], Exited 1 [msg]).
Proof.
  intros v m afs afs' afd afd' enc shp ms dbf md Hs Hd cut whole. apply program_cut; intros X.
  - apply Forall_app in Hs as [Hs _]. apply Forall_app in Hd as [Hd _].
    destruct (C77_import m afs afd enc (Some shp) (Some dbf) PFuel Hs Hd X) as [Y|[Y|[[_ Y]|[_ Y]]]]; discriminate.
  - destruct (C77_import m afs' afd' enc (Some (shp ++ ms)) (Some (dbf ++ md)) PFuel Hs Hd X) as [Y|[Y|[[_ Y]|[_ Y]]]]; discriminate.
Qed.
Print Assumptions C108_program.

(** A file of two records cut in the second one: the first record is still read. *)
Example C108_case : let s := sample_header 9994 212 1000 5 ++ concat (map fr_bytes sample_file) in
  (exists r, shp_reader_new Debug drop_all s = Ok (ROk r) /\
    calls (shp_next drop_all) 3 r = Ok [Some (ROk (SRecord 1 sample_rings)); Some (ROk (SRecord 2 [[SP 0 0; SP 0 1; SP 1 1; SP 0 0]])); None]) /\
  (exists r, shp_reader_new Debug drop_all (firstn 400 s) = Ok (ROk r) /\
    calls (shp_next drop_all) 3 r = Ok [Some (ROk (SRecord 1 sample_rings)); Some (RErr SEIo); Some (RErr SEIo)]).
Proof. split; (eexists; split; [vm_compute; reflexivity|]; vm_compute; reflexivity). Qed.

(** Two triangles, the second one cut off. *)
Example C108_cut_case :
  snd (cat_shp plain Debug forget forget ascii (Some triangles_shp) (Some (dbf_of 2))) = Exited 0 [] /\ length (fst (cat_shp plain Debug forget forget ascii (Some triangles_shp) (Some (dbf_of 2)))) = 3%nat /\ (exists msg, cat_shp plain Debug forget forget ascii (Some (firstn 300 triangles_shp)) (Some (dbf_of 2)) =
    (firstn 1 (fst (cat_shp plain Debug forget forget ascii (Some triangles_shp) (Some (dbf_of 2)))), Exited 1 [msg])).
Proof. split; [vm_compute; reflexivity|]. split; [vm_compute; reflexivity|]. eexists. vm_compute. reflexivity. Qed.
