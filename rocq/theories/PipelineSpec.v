(** * PipelineSpec: vocabulary for the example programs *)
From Verif Require Export SfSpec TopoSpec ComposeSpec Pipeline.

(** Every edge belongs to a ring. *)
Definition all_used {D} (t : topology D) : Prop := forall e, In e (tp_edges t) -> te_ring0 e <> None.

(** The number of edges, with repetitions, of all rings of a topology. *)
Definition total_uses {D} (t : topology D) : nat :=
  list_sum (map (fun rg => list_sum (map (fun r => length (tr_des r)) (tg_outer rg ++ tg_inner rg))) (tp_regions t)).

(** Edges of two rings, and edges of none. *)
Definition is_shared (e : topo_edge) : bool := match te_ring1 e with Some _ => true | None => false end.
Definition is_unused (e : topo_edge) : bool := match te_ring0 e with Some _ => false | None => true end.

(** A file that is absent, or a list of bytes. *)
Definition bytes_opt (o : option stream) : Prop := match o with Some s => bytes_ok s | None => True end.

(** The records of a shapefile: the k-th shape with the k-th data record. *)
Definition paired (shapes : list file_record) (datas : list dbf_record) : list sf_record :=
  map (fun '(x, d) => SfRecord (fr_rings x) d) (combine shapes datas).

(** The error of a shapefile whose two files differ in length. *)
Definition length_check (shapes : list file_record) (datas : list dbf_record) : option sf_error :=
  if (length shapes =? length datas)%nat then None
  else if (length datas <? length shapes)%nat then Some SFMoreShp else Some SFMoreDbf.

(** What listing the items of an iterator prints, and how it ends: a line for every record and
    the number of records; or the lines before the first error, reading panic or record that
    cannot be shown. *)
Definition shown (v : texts) (fs : list dbf_field) (recs : list sf_record) (lines : list text) : Prop :=
  Forall2 (fun rec line => show_sf_record v fs rec = Ok line) recs lines.
Definition good_items (recs : list sf_record) : list (option (result sf_record sf_error)) := map (fun rec => Some (ROk rec)) recs.

Inductive listing (v : texts) (fs : list dbf_field) (next : sf_reader -> res (option (result sf_record sf_error) * sf_reader)) (r : sf_reader)
  : list text -> program_end -> Prop :=
| ListedAll recs lines :
    calls next (S (length recs)) r = Ok (good_items recs ++ [None]) -> shown v fs recs lines ->
    listing v fs next r (lines ++ [str "Read " ++ decimal (Z.of_nat (length recs)) ++ str " records"]) (Exited 0 [])
| ListedError recs lines e :
    calls next (S (length recs)) r = Ok (good_items recs ++ [Some (RErr e)]) -> shown v fs recs lines ->
    listing v fs next r lines (Exited 1 [str "Error during read: " ++ show_sf_error v e])
| ListedReadPanic recs lines p :
    calls next (length recs) r = Ok (good_items recs) -> calls next (S (length recs)) r = Panic p -> shown v fs recs lines ->
    listing v fs next r lines (Crashed p)
| ListedShowPanic recs lines rec p :
    calls next (S (length recs)) r = Ok (good_items (recs ++ [rec])) -> shown v fs recs lines -> show_sf_record v fs rec = Panic p ->
    listing v fs next r lines (Crashed p).

(** Fields of a record that can be shown: characters, numbers and four-byte integers inside the
    record. *)
Definition printable (f : dbf_field) (r : dbf_record) : Prop :=
  readable (df_type f) /\ (df_offset f + df_len f <= length r)%nat /\ (df_type f = DTLong -> (4 <= df_len f)%nat).

(** What [shp-to-geo-data] prints: the number of regions, then a title and a description for
    every topology it has computed. *)
Definition report {D} (n : nat) (ts : list (topology D)) : list text :=
  (str "Read " ++ decimal (Z.of_nat n) ++ str " regions") ::
  concat (map (fun '(title, t) => title :: description_lines (describe t))
    (combine [str "Formed initial topology:"; str "Normalized topology:"; str "Clipped topology:"] ts)).
