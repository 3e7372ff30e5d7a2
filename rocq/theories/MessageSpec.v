(** * MessageSpec: the texts of error messages, and the table of windows-1252 *)
From Verif Require Export DisplaySpec Encoding.

(** A format string with its "{}" replaced by numbers. *)
Inductive filled : text -> list Z -> text -> Prop :=
| filled_end : filled [] [] []
| filled_number n num t ns s : is_numeral n num -> filled t ns s -> filled (str "{}" ++ t) (n :: ns) (num ++ s)
| filled_char c t ns s : c <> 123 -> filled t ns s -> filled (c :: t) ns (c :: s).

(** The names of the shape types by their codes in the file. *)
Definition type_names : list (Z * text) :=
  [ (0, str "Null"); (1, str "Point"); (3, str "PolyLine"); (5, str "Polygon"); (8, str "MultiPoint");
    (11, str "PointZ"); (13, str "PolyLineZ"); (15, str "PolygonZ"); (18, str "MultiPointZ");
    (21, str "PointM"); (23, str "PolyLineM"); (25, str "PolygonM"); (28, str "MultiPointM"); (31, str "MultiPatch") ].

Definition message_text (v : texts) (e : sf_error) (s : text) : Prop :=
  match e with
  | SFShp SEIo | SFDbf DEIo => s = tx_io v
  | SFShp (SEMagic found) => filled (str "Parse error: File has wrong magic number: found {}, expected 9994") [found] s
  | SFShp (SEVersion found) => filled (str "Parse error: File has wrong version: found {}, expected 1000") [found] s
  | SFShp (SEUnsupported t) => exists code name, In (code, name) type_names /\ shape_type_with_u32 code = Some t /\
      s = str "Parse error: File has unsupported type: found " ++ name ++ str ", expected Polygon"
  | SFShp (SENoType found) => filled (str "Parse error: File has nonexistent data type {}") [found] s
  | SFShp (SERecordType record found) =>
      filled (str "Parse error: Record number {} has unsupported shape type: found {}, expected 5") [record; found] s
  | SFShp (SENoParts record) => filled (str "Parse error: Record number {} has no parts") [record] s
  | SFShp (SELength record needed parts points actual) =>
      filled (str "Parse error: Record number {} needs {} bytes (it has {} parts and {} points), but the record header says it has {} bytes")
        [record; needed; parts; points; actual] s
  | SFShp (SERingBounds record first last points) =>
      filled (str "Parse error: Record number {} has a ring with points {}-{}, but there are only {} points in the record") [record; first; last; points] s
  | SFShp (SERingRange record first last) =>
      filled (str "Parse error: Record number {} has a ring with points {}-{}, but that's an invalid range") [record; first; last] s
  | SFShp (SELastRing record first points) =>
      filled (str "Parse error: Record number {} has a ring starting at point {}, but there are only {} points in the record") [record; first; points] s
  | SFShp (SETooLong bytes) =>
      filled (str "Parse error: The Shapefile header suggests the file is {} bytes long, but it's longer than that.") [bytes] s
  | SFDbf DEDate =>
      s = str "Parse error: The first four bytes of the file mention an invalid creation date. This is not a valid .dbf file."
  | SFDbf DEName => s = str "Parse error: Field name is not valid " ++ tx_encoding v
  | SFDbf DENumber => s = str "Parse error: Bytes in numeric record do not represent a number"
  | SFDbf DEDecode => s = str "Parse error: " ++ tx_decode v
  | SFMoreShp => s = str "Parse error: '.shp' file has more records than '.dbf' record"
  | SFMoreDbf => s = str "Parse error: '.dbf' file has more records than '.shp' record"
  end.

(** The bytes 128-159 that stand for other characters, and these characters in UTF-8. *)
Definition special_bytes : list Z :=
  [128; 130; 131; 132; 133; 134; 135; 136; 137; 138; 139; 140; 142; 145; 146; 147; 148; 149; 150; 151; 152; 153; 154; 155; 156; 158; 159].
Definition special_characters : list Z := str "€‚ƒ„…†‡ˆ‰Š‹ŒŽ‘’“”•–—˜™š›œžŸ".
