(** * Shapefile: model of src/read/shapefile/shapefile.rs *)
From Verif Require Export Dbf.

(** src/read/shapefile/shapefile.rs:69-73 [struct ShapefileReader]. *)
Record sf_reader := SfReader { sf_shp : shp_reader; sf_dbf : dbf_reader }.

(** src/read/shapefile/shapefile.rs:75-80 [enum ShapefileError]; the two [JoinError]
    messages (lines 168-169) are two constructors. *)
Inductive sf_error :=
| SFShp (e : shp_error)
| SFDbf (e : dbf_error)
| SFMoreShp
| SFMoreDbf.

(** src/read/shapefile/shapefile.rs:110-114 [struct ShapefileRecord]. *)
Record sf_record := SfRecord { sfr_rings : list (list shp_point); sfr_data : dbf_record }.

(** src/read/shapefile/shapefile.rs:133-146 [ShapefileReader::new]: both readers are
    constructed before either result is looked at. *)
Definition sf_reader_new (m : mode) (afs afd : after_fail) (enc : decoder) (r s : stream)
  : res (result sf_reader sf_error) :=
  a <- shp_reader_new m afs r ;;
  b <- dbf_reader_new m afd enc s ;;
  Ok (match a, b with
      | RErr e, _ => RErr (SFShp e)
      | _, RErr e => RErr (SFDbf e)
      | ROk x, ROk y => ROk (SfReader x y)
      end).

(** src/read/shapefile/shapefile.rs:148-150 [dbf_fields]. *)
Definition sf_dbf_fields (r : sf_reader) : list dbf_field := dm_fields (dbr_meta (sf_dbf r)).

(** src/read/shapefile/shapefile.rs:152-154 [bounding_box]. *)
Definition sf_bounding_box (r : sf_reader) : shp_bbox := sh_bbox (shr_header (sf_shp r)).

(** src/read/shapefile/shapefile.rs:156-158 [get_field]. *)
Definition sf_get_field (r : sf_reader) (name : text) : option dbf_field :=
  get_field (sf_dbf r) name.

(** src/read/shapefile/shapefile.rs:164-183 [Iterator::next]. *)
Definition sf_next (afs afd : after_fail) (r : sf_reader)
  : res (option (result sf_record sf_error) * sf_reader) :=
  '(a, rs) <- shp_next afs (sf_shp r) ;;
  let '(b, rd) := dbf_next afd (sf_dbf r) in
  Ok (match a, b with
      | None, None => None
      | Some _, None => Some (RErr SFMoreShp)
      | None, Some _ => Some (RErr SFMoreDbf)
      | Some (RErr e), _ => Some (RErr (SFShp e))
      | _, Some (RErr e) => Some (RErr (SFDbf e))
      | Some (ROk shape), Some (ROk data) => Some (ROk (SfRecord (sr_rings shape) data))
      end, SfReader rs rd).

(** src/read/shapefile/shapefile.rs:211-229 [open], src/read/shapefile/shp.rs:362-370 and
    dbf.rs:372-380, given what [fs::File::open] produced for the ".shp" and the ".dbf"
    path: [None] is an open error.  Unlike [new], the ".dbf" is not touched when the ".shp"
    header fails. *)
Definition sf_open (m : mode) (afs afd : after_fail) (enc : decoder) (shp dbf : option stream)
  : res (result sf_reader sf_error) :=
  a <- (match shp with None => Ok (RErr SEIo) | Some s => shp_reader_new m afs s end) ;;
  match a with
  | RErr e => Ok (RErr (SFShp e))
  | ROk x =>
      b <- (match dbf with None => Ok (RErr DEIo) | Some s => dbf_reader_new m afd enc s end) ;;
      Ok (match b with RErr e => RErr (SFDbf e) | ROk y => ROk (SfReader x y) end)
  end.
