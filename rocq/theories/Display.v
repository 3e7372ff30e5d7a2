(** * Display: model of the [Display] implementations and error messages

    src/geo/mod.rs, src/read/shapefile/shp.rs, dbf.rs and shapefile.rs.  A [text] is a list of
    Unicode code points.  Writing to the formatter is assumed to succeed. *)
From Coq Require Ascii String.
From Verif Require Export Geo Shapefile.
Export (notations) String.

(** A string literal. *)
Fixpoint str (s : String.string) : text :=
  match s with String.EmptyString => [] | String.String c t => Z.of_nat (Ascii.nat_of_ascii c) :: str t end.
Arguments str s%string.

(** [{}] of a [u32] or [usize]: at most 20 digits. *)
Definition decimal (n : Z) : text := dec_digits 20 n [].

(** The loops [for (i, x) in xs.iter().enumerate() { if i > 0 { write!(sep) } write!("{}", x) }]
    of src/geo/mod.rs:23-28, 55-58, 62-65, 222-227, src/read/shapefile/shp.rs:110-115 and
    src/read/shapefile/shapefile.rs:120-126. *)
Fixpoint separated (sep : text) (i : nat) (items : list text) : text :=
  match items with
  | [] => []
  | x :: t => (if Nat.ltb 0 i then sep else []) ++ x ++ separated sep (i + 1) t
  end.

(** src/geo/mod.rs:10-14 [Display for Point]. *)
Definition show_point (p : point) : text := str "(" ++ decimal (px p) ++ str "," ++ decimal (py p) ++ str ")".

(** src/geo/mod.rs:20-31 [Display for Edge]. *)
Definition show_edge (e : list point) : text := str "Edge(" ++ separated (str ",") 0 (map show_point e) ++ str ")".

(** src/geo/mod.rs:50-72 [Display for Ring]. *)
Definition show_ring (r : ring) : text :=
  str "[" ++
  match r with
  | RPoints ps => separated (str ",") 0 (map show_point ps)
  | REdges es => separated (str ",") 0 (map show_edge es)
  end ++ str "]".

(** src/geo/mod.rs:218-230 [Display for DisplayRings]. *)
Definition show_rings (rs : list ring) : text := str "[" ++ separated (str ", ") 0 (map show_ring rs) ++ str "]".

(** src/geo/mod.rs:232-238 [Display for Region]; the data are not shown. *)
Definition show_region {D} (rg : region D) : text :=
  str "Region([data], outer:" ++ show_rings (rg_outer rg) ++ str ", inner:" ++ show_rings (rg_inner rg) ++ str ")".

(** Texts that come from other crates: the message of the [io::Error], the message of the
    decoder, the name of the encoding, and [{}] of an [f64], given its bits. *)
Record texts := Texts { tx_io : text; tx_decode : text; tx_encoding : text; tx_f64 : Z -> text }.

(** [{:?}] of a [ShpShapeType] (derived), src/read/shapefile/shp.rs:48-64. *)
Definition shape_type_name (t : shape_type) : text :=
  match t with
  | STNull => str "Null"
  | STPoint => str "Point"
  | STPolyLine => str "PolyLine"
  | STPolygon => str "Polygon"
  | STMultiPoint => str "MultiPoint"
  | STPointZ => str "PointZ"
  | STPolyLineZ => str "PolyLineZ"
  | STPolygonZ => str "PolygonZ"
  | STMultiPointZ => str "MultiPointZ"
  | STPointM => str "PointM"
  | STPolyLineM => str "PolyLineM"
  | STPolygonM => str "PolygonM"
  | STMultiPointM => str "MultiPointM"
  | STMultiPatch => str "MultiPatch"
  end.

(** The strings of [ShpError::ParseError]: src/read/shapefile/shp.rs:154, 158, 170, 173, 190,
    195, 202, 220, 224, 234 and 328. *)
Definition shp_message (e : shp_error) : text :=
  match e with
  | SEIo => []
  | SEMagic found => str "File has wrong magic number: found " ++ decimal found ++ str ", expected 9994"
  | SEVersion found => str "File has wrong version: found " ++ decimal found ++ str ", expected 1000"
  | SEUnsupported t => str "File has unsupported type: found " ++ shape_type_name t ++ str ", expected Polygon"
  | SENoType found => str "File has nonexistent data type " ++ decimal found
  | SERecordType rn found =>
      str "Record number " ++ decimal rn ++ str " has unsupported shape type: found " ++ decimal found ++ str ", expected 5"
  | SENoParts rn => str "Record number " ++ decimal rn ++ str " has no parts"
  | SELength rn needed nparts npoints actual =>
      str "Record number " ++ decimal rn ++ str " needs " ++ decimal needed ++ str " bytes (it has " ++ decimal nparts ++
      str " parts and " ++ decimal npoints ++ str " points), but the record header says it has " ++ decimal actual ++ str " bytes"
  | SERingBounds rn s e n =>
      str "Record number " ++ decimal rn ++ str " has a ring with points " ++ decimal s ++ str "-" ++ decimal e ++
      str ", but there are only " ++ decimal n ++ str " points in the record"
  | SERingRange rn s e =>
      str "Record number " ++ decimal rn ++ str " has a ring with points " ++ decimal s ++ str "-" ++ decimal e ++
      str ", but that's an invalid range"
  | SELastRing rn s n =>
      str "Record number " ++ decimal rn ++ str " has a ring starting at point " ++ decimal s ++
      str ", but there are only " ++ decimal n ++ str " points in the record"
  | SETooLong n => str "The Shapefile header suggests the file is " ++ decimal n ++ str " bytes long, but it's longer than that."
  end.

(** src/read/shapefile/shp.rs:39-46 [Display for ShpError]. *)
Definition show_shp_error (v : texts) (e : shp_error) : text :=
  match e with SEIo => tx_io v | _ => str "Parse error: " ++ shp_message e end.

(** The strings of [DbfError::ParseError]: src/read/shapefile/dbf.rs:82, 97, 203 and 218. *)
Definition dbf_message (v : texts) (e : dbf_error) : text :=
  match e with
  | DEIo => []
  | DEDate => str "The first four bytes of the file mention an invalid creation date. This is not a valid .dbf file."
  | DEName => str "Field name is not valid " ++ tx_encoding v
  | DENumber => str "Bytes in numeric record do not represent a number"
  | DEDecode => tx_decode v
  end.

(** src/read/shapefile/dbf.rs:178-185 [Display for DbfError]. *)
Definition show_dbf_error (v : texts) (e : dbf_error) : text :=
  match e with DEIo => tx_io v | _ => str "Parse error: " ++ dbf_message v e end.

(** src/read/shapefile/shapefile.rs:100-108 [Display for ShapefileError]; the messages of lines
    168-169. *)
Definition show_sf_error (v : texts) (e : sf_error) : text :=
  match e with
  | SFShp e => show_shp_error v e
  | SFDbf e => show_dbf_error v e
  | SFMoreShp => str "Parse error: " ++ str "'.shp' file has more records than '.dbf' record"
  | SFMoreDbf => str "Parse error: " ++ str "'.dbf' file has more records than '.shp' record"
  end.

(** src/read/shapefile/shp.rs:123-127 [Display for ShpPoint]. *)
Definition show_shp_point (v : texts) (p : shp_point) : text :=
  str "(" ++ tx_f64 v (sp_x p) ++ str "," ++ tx_f64 v (sp_y p) ++ str ")".

(** src/read/shapefile/shp.rs:107-118 [Display for ShpPolygonRing]. *)
Definition show_shp_ring (v : texts) (r : list shp_point) : text :=
  str "[" ++ separated (str ",") 0 (map (show_shp_point v) r) ++ str "]".

(** [{:?}] of a [DbfError] (derived); strings are assumed to need no escapes. *)
Definition debug_dbf_error (v : texts) (e : dbf_error) : text :=
  match e with
  | DEIo => str "IOError(" ++ tx_io v ++ str ")"
  | _ => str "ParseError(" ++ [34] ++ dbf_message v e ++ [34] ++ str ")"
  end.

(** src/read/shapefile/dbf.rs:131-154 [Display for DbfRecord], with the fields of its meta. *)
Definition show_dbf_record (v : texts) (fs : list dbf_field) (r : dbf_record) : res text :=
  x <- display_record fs r ;;
  Ok (match x with
      | ROk s => str "{" ++ s ++ str "}"
      | RErr e => str "{Invalid DBF record: " ++ debug_dbf_error v e ++ str "}"
      end).

(** src/read/shapefile/shapefile.rs:116-130 [Display for ShapefileRecord]. *)
Definition show_sf_record (v : texts) (fs : list dbf_field) (r : sf_record) : res text :=
  data <- show_dbf_record v fs (sfr_data r) ;;
  Ok (str "ShapefileRecord(" ++ data ++ str "; rings: " ++
      separated (str "; ") 0 (map (show_shp_ring v) (sfr_rings r)) ++ str ")").
