(** * Shp: model of src/read/shapefile/shp.rs *)
From Verif Require Export Bytes.

(** src/read/shapefile/shp.rs:48-64 [enum ShpShapeType]. *)
Inductive shape_type :=
| STNull | STPoint | STPolyLine | STPolygon | STMultiPoint | STPointZ | STPolyLineZ
| STPolygonZ | STMultiPointZ | STPointM | STPolyLineM | STPolygonM | STMultiPointM
| STMultiPatch.

(** src/read/shapefile/shp.rs:66-86 [ShpShapeType::with_u32]. *)
Definition shape_type_with_u32 (u : Z) : option shape_type :=
  match u with
  | 0 => Some STNull
  | 1 => Some STPoint
  | 3 => Some STPolyLine
  | 5 => Some STPolygon
  | 8 => Some STMultiPoint
  | 11 => Some STPointZ
  | 13 => Some STPolyLineZ
  | 15 => Some STPolygonZ
  | 18 => Some STMultiPointZ
  | 21 => Some STPointM
  | 23 => Some STPolyLineM
  | 25 => Some STPolygonM
  | 28 => Some STMultiPointM
  | 31 => Some STMultiPatch
  | _ => None
  end.

(** src/read/shapefile/shp.rs:17-21 [enum ShpError]: [IOError] and the different
    [ParseError] messages, with the values they mention. *)
Inductive shp_error :=
| SEIo
| SEMagic (found : Z)
| SEVersion (found : Z)
| SEUnsupported (t : shape_type)
| SENoType (found : Z)
| SERecordType (rn found : Z)
| SENoParts (rn : Z)
| SELength (rn needed nparts npoints actual : Z)
| SERingBounds (rn s e npoints : Z)
| SERingRange (rn s e : Z)
| SELastRing (rn s npoints : Z)
| SETooLong (file_n_bytes : Z).

(** A Rust [Result]. *)
Inductive result (A E : Type) := ROk (a : A) | RErr (e : E).
Arguments ROk {A E} a.
Arguments RErr {A E} e.

(** src/read/shapefile/shp.rs:120-121 [ShpPoint]: the two f64 as 64-bit patterns. *)
Record shp_point := SP { sp_x : Z; sp_y : Z }.

(** src/read/shapefile/shp.rs:88-89 [ShpBoundingBox]: xmin, ymin, xmax, ymax. *)
Record shp_bbox := SBBox { bb_xmin : Z; bb_ymin : Z; bb_xmax : Z; bb_ymax : Z }.

(** src/read/shapefile/shp.rs:91-96 [ShpHeader]; [shape_type] is always [Polygon]. *)
Record shp_header := SHeader { sh_bytes : Z; sh_type : shape_type; sh_bbox : shp_bbox }.

(** src/read/shapefile/shp.rs:98-105 [ShpPolygonRecord], [ShpPolygonRing]. *)
Record shp_record := SRecord { sr_number : Z; sr_rings : list (list shp_point) }.

(** src/read/shapefile/shp.rs:11-15. *)
Definition shp_header_length : Z := 100.
Definition shp_magic : Z := 9994.
Definition shp_version : Z := 1000.

(** [file_len * 2] in u32 (src/read/shapefile/shp.rs:164). *)
Definition u32_mul2 (m : mode) (z : Z) : res Z :=
  if z * 2 <? two32 then Ok (z * 2)
  else match m with Debug => Panic POverflow | Release => Ok (as_u32 (z * 2)) end.

(** src/read/shapefile/shp.rs:142-175: decode a 100-byte header. *)
Definition parse_shp_header (m : mode) (buf : list Z) : res (result shp_header shp_error) :=
  magic <- be_at buf 0 4 ;;
  file_len <- be_at buf 24 4 ;;
  version <- le_at buf 28 4 ;;
  ty <- le_at buf 32 4 ;;
  b0 <- le_at buf 36 8 ;;
  b1 <- le_at buf 44 8 ;;
  b2 <- le_at buf 52 8 ;;
  b3 <- le_at buf 60 8 ;;
  if negb (magic =? shp_magic) then Ok (RErr (SEMagic magic))
  else if negb (version =? shp_version) then Ok (RErr (SEVersion version))
  else match shape_type_with_u32 ty with
       | Some STPolygon =>
           n <- u32_mul2 m file_len ;;
           Ok (ROk (SHeader n STPolygon (SBBox b0 b1 b2 b3)))
       | Some t => Ok (RErr (SEUnsupported t))
       | None => Ok (RErr (SENoType ty))
       end.

(** src/read/shapefile/shp.rs:136-178 [read_shp_header]. *)
Definition read_shp_header (m : mode) (af : after_fail) (s : stream)
  : res (result shp_header shp_error * stream) :=
  match read_exact af shp_header_length s with
  | (None, s') => Ok (RErr SEIo, s')
  | (Some buf, s') => r <- parse_shp_header m buf ;; Ok (r, s')
  end.

(** src/read/shapefile/shp.rs:180-185 [parse_point]. *)
Definition parse_point (buf : list Z) : res shp_point :=
  x <- le_at buf 0 8 ;; y <- le_at buf 8 8 ;; Ok (SP x y).

(** src/read/shapefile/shp.rs:217-230: all rings but the last. *)
Fixpoint parse_rings (rn npoints : Z) (points : list shp_point) (w : list (Z * Z))
    (rings : list (list shp_point)) : result (list (list shp_point)) shp_error :=
  match w with
  | [] => ROk rings
  | (s, e) :: t =>
      let len := Z.of_nat (length points) in
      if (len <? s) || (len <? e) then RErr (SERingBounds rn s e npoints)
      else if e <? s + 3 then RErr (SERingRange rn s e)
      else parse_rings rn npoints points t
             (rings ++ [firstn (Z.to_nat (e - s)) (skipn (Z.to_nat s) points)])
  end.

(** src/read/shapefile/shp.rs:187-244 [parse_polygon_record]. *)
Definition parse_polygon_record (buf : list Z) (rn : Z) : res (result shp_record shp_error) :=
  ty <- le_at buf 0 4 ;;
  if negb (ty =? 5) then Ok (RErr (SERecordType rn ty))
  else
    nparts <- le_at buf 36 4 ;;
    if nparts =? 0 then Ok (RErr (SENoParts rn))
    else
      npoints <- le_at buf 40 4 ;;
      let needed := 44 + 4 * nparts + 16 * npoints in
      let len := Z.of_nat (length buf) in
      if negb (needed =? len) then Ok (RErr (SELength rn needed nparts npoints len))
      else
        let hdr := Z.to_nat (44 + 4 * nparts) in
        pbuf <- sub_bytes buf hdr (length buf) ;;
        points <- mmap parse_point (chunks 16 pbuf) ;;
        abuf <- sub_bytes buf 44 hdr ;;
        parts <- mmap (read_le 4) (chunks 4 abuf) ;;
        match parse_rings rn npoints points (pairs parts) [] with
        | RErr e => Ok (RErr e)
        | ROk rings =>
            last <- (match rev parts with [] => Panic PUnwrap | l :: _ => Ok l end) ;;
            if Z.of_nat (length points) <=? last + 3
            then Ok (RErr (SELastRing rn last npoints))
            else Ok (ROk (SRecord rn
                   (rings ++ [firstn (Z.to_nat (npoints - last)) (skipn (Z.to_nat last) points)])))
        end.

(** src/read/shapefile/shp.rs:250-266 [read_polygon_record]; on success also the number
    of bytes consumed. *)
Definition read_polygon_record (af : after_fail) (s : stream)
  : res (result (shp_record * Z) shp_error * stream) :=
  match read_exact af 8 s with
  | (None, s') => Ok (RErr SEIo, s')
  | (Some hdr, s1) =>
      rn <- be_at hdr 0 4 ;;
      words <- be_at hdr 4 4 ;;
      match read_exact af (words * 2) s1 with
      | (None, s') => Ok (RErr SEIo, s')
      | (Some buf, s2) =>
          r <- parse_polygon_record buf rn ;;
          Ok (match r with
              | ROk rec => ROk (rec, 8 + Z.of_nat (length buf))
              | RErr e => RErr e
              end, s2)
      end
  end.

(** src/read/shapefile/shp.rs:268-273 [struct ShpReader]. *)
Record shp_reader := ShpReader { shr_file : stream; shr_read : Z; shr_header : shp_header }.

(** src/read/shapefile/shp.rs:305-313 [ShpReader::new]. *)
Definition shp_reader_new (m : mode) (af : after_fail) (s : stream)
  : res (result shp_reader shp_error) :=
  '(r, s') <- read_shp_header m af s ;;
  Ok (match r with
      | ROk h => ROk (ShpReader s' shp_header_length h)
      | RErr e => RErr e
      end).

(** src/read/shapefile/shp.rs:319-335 [Iterator::next]. *)
Definition shp_next (af : after_fail) (r : shp_reader)
  : res (option (result shp_record shp_error) * shp_reader) :=
  if sh_bytes (shr_header r) <=? shr_read r then Ok (None, r)
  else
    '(x, s') <- read_polygon_record af (shr_file r) ;;
    match x with
    | RErr e => Ok (Some (RErr e), ShpReader s' (shr_read r) (shr_header r))
    | ROk (rec, n) =>
        let n' := shr_read r + n in
        let r' := ShpReader s' n' (shr_header r) in
        Ok (Some (if sh_bytes (shr_header r) <? n'
                  then RErr (SETooLong (sh_bytes (shr_header r)))
                  else ROk rec), r')
    end.
