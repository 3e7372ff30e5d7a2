(** * ErrorTrait: model of [std::error::Error] for the reader's errors

    src/read/shapefile/shp.rs, dbf.rs and shapefile.rs. *)
From Verif Require Export Display.

(** What a [&error::Error] can point to.  The [io::Error]s of [read_exact] and [File::open] have
    no cause themselves. *)
Inductive any_error := AIo | AShp (e : shp_error) | ADbf (e : dbf_error) | ASf (e : sf_error).

(** src/read/shapefile/shp.rs:24-29 [description for ShpError]; [io] is the description of the
    [io::Error], which need not be what is displayed. *)
Definition shp_description (io : text) (e : shp_error) : text :=
  match e with SEIo => io | _ => shp_message e end.

(** src/read/shapefile/dbf.rs:163-168 [description for DbfError]. *)
Definition dbf_description (v : texts) (io : text) (e : dbf_error) : text :=
  match e with DEIo => io | _ => dbf_message v e end.

(** src/read/shapefile/shapefile.rs:83-89 [description for ShapefileError]. *)
Definition sf_description (v : texts) (io : text) (e : sf_error) : text :=
  match e with
  | SFShp e => shp_description io e
  | SFDbf e => dbf_description v io e
  | SFMoreShp => str "'.shp' file has more records than '.dbf' record"
  | SFMoreDbf => str "'.dbf' file has more records than '.shp' record"
  end.

(** src/read/shapefile/shp.rs:31-36 [cause for ShpError]. *)
Definition shp_cause (e : shp_error) : option any_error :=
  match e with SEIo => Some AIo | _ => None end.

(** src/read/shapefile/dbf.rs:170-175 [cause for DbfError]. *)
Definition dbf_cause (e : dbf_error) : option any_error :=
  match e with DEIo => Some AIo | _ => None end.

(** src/read/shapefile/shapefile.rs:91-97 [cause for ShapefileError]. *)
Definition sf_cause (e : sf_error) : option any_error :=
  match e with SFShp e => Some (AShp e) | SFDbf e => Some (ADbf e) | SFMoreShp | SFMoreDbf => None end.

(** Calls through [&error::Error]. *)
Definition cause (e : any_error) : option any_error :=
  match e with AIo => None | AShp e => shp_cause e | ADbf e => dbf_cause e | ASf e => sf_cause e end.
Definition description (v : texts) (io : text) (e : any_error) : text :=
  match e with AIo => io | AShp e => shp_description io e | ADbf e => dbf_description v io e | ASf e => sf_description v io e end.
Definition display (v : texts) (e : any_error) : text :=
  match e with AIo => tx_io v | AShp e => show_shp_error v e | ADbf e => show_dbf_error v e | ASf e => show_sf_error v e end.
