(** * Reader: the shapefile readers over any io::Read

    Finer than Bytes: data arrives in pieces, calls can be interrupted, and devices can fail. *)
From Verif Require Export Shapefile.

(** One call of [io::Read::read]: some bytes (none: the end of the data), [ErrorKind::Interrupted],
    or some other error. *)
Inductive outcome := Got (bs : list Z) | Interrupted | Failed (e : Z).

(** A source of bytes.  [sc_wait] bounds how often it can still be interrupted; it is only used to
    make [read_all] a total function. *)
Record source (S : Type) := Source {
  sc_read : nat -> S -> outcome * S;
  sc_wait : S -> nat
}.
Arguments Source {S} _ _.
Arguments sc_read {S} _ _ _.
Arguments sc_wait {S} _ _.

(** The [io::Error] of a failing [read_exact]. *)
Inductive io_error := UnexpectedEof | Device (e : Z) | Endless.

(** The loop of [io::Read::read_exact] (Rust's std::io::default_read_exact): [n] bytes of the
    buffer are still to be filled.  ([Endless] stands for a loop that does not end.) *)
Fixpoint read_all {S} (src : source S) (fuel n : nat) (s : S) : result (list Z) io_error * S :=
  match n with
  | O => (ROk [], s)
  | _ =>
      match fuel with
      | O => (RErr Endless, s)
      | Datatypes.S fuel' =>
          match sc_read src n s with
          | (Got [], s') => (RErr UnexpectedEof, s')
          | (Got bs, s') =>
              let '(r, s'') := read_all src fuel' (n - length bs) s' in
              (match r with ROk l => ROk (bs ++ l) | RErr e => RErr e end, s'')
          | (Interrupted, s') => read_all src fuel' n s'
          | (Failed e, s') => (RErr (Device e), s')
          end
      end
  end.
Definition source_exact {S} (src : source S) (n : Z) (s : S) : result (list Z) io_error * S :=
  read_all src (Z.to_nat n + sc_wait src s) (Z.to_nat n) s.

(** Rust's [io::BufReader] with a buffer of [cap] bytes: [BufReader::read] and [fill_buf].  The
    state is the part of the buffer that was not consumed yet, and the state of the inner source. *)
Definition buffered_read {S} (cap : nat) (src : source S) (n : nat) (st : list Z * S) : outcome * (list Z * S) :=
  let '(b, s) := st in
  match b with
  | [] =>
      if Nat.leb cap n then let '(o, s') := sc_read src n s in (o, ([], s'))
      else match sc_read src cap s with
           | (Got bs, s') => (Got (firstn n bs), (skipn n bs, s'))
           | (o, s') => (o, ([], s'))
           end
  | _ => (Got (firstn n b), (skipn n b, s))
  end.
Definition buffered {S} (cap : nat) (src : source S) : source (list Z * S) :=
  Source (buffered_read cap src) (fun st => sc_wait src (snd st)).

(** ** .shp *)

(** Errors that keep the [io::Error] they contain. *)
Definition other {E A X} (r : result A X) : result A (E + X) :=
  match r with ROk a => ROk a | RErr e => RErr (inr e) end.

Section Shp.
  (** A reader with its [read_exact]. *)
  Context {R E : Type} (rd : Z -> R -> result (list Z) E * R).

  (** src/read/shapefile/shp.rs:136-178 [read_shp_header]. *)
  Definition read_shp_header_from (m : mode) (s : R) : res (result shp_header (E + shp_error) * R) :=
    match rd shp_header_length s with
    | (RErr e, s') => Ok (RErr (inl e), s')
    | (ROk buf, s') => r <- parse_shp_header m buf ;; Ok (other r, s')
    end.

  (** src/read/shapefile/shp.rs:250-266 [read_polygon_record]. *)
  Definition read_polygon_record_from (s : R) : res (result (shp_record * Z) (E + shp_error) * R) :=
    match rd 8 s with
    | (RErr e, s') => Ok (RErr (inl e), s')
    | (ROk hdr, s1) =>
        rn <- be_at hdr 0 4 ;;
        words <- be_at hdr 4 4 ;;
        match rd (words * 2) s1 with
        | (RErr e, s') => Ok (RErr (inl e), s')
        | (ROk buf, s2) =>
            r <- parse_polygon_record buf rn ;;
            Ok (match r with
                | ROk rec => ROk (rec, 8 + Z.of_nat (length buf))
                | RErr e => RErr (inr e)
                end, s2)
        end
    end.

  (** src/read/shapefile/shp.rs:268-273 [struct ShpReader]. *)
  Record shp_reader_of := ShpReaderOf { sho_file : R; sho_read : Z; sho_header : shp_header }.

  (** src/read/shapefile/shp.rs:305-313 [ShpReader::new]. *)
  Definition shp_new_from (m : mode) (s : R) : res (result shp_reader_of (E + shp_error)) :=
    '(r, s') <- read_shp_header_from m s ;;
    Ok (match r with
        | ROk h => ROk (ShpReaderOf s' shp_header_length h)
        | RErr e => RErr e
        end).

  (** src/read/shapefile/shp.rs:319-335 [Iterator::next]. *)
  Definition shp_next_from (r : shp_reader_of) : res (option (result shp_record (E + shp_error)) * shp_reader_of) :=
    if sh_bytes (sho_header r) <=? sho_read r then Ok (None, r)
    else
      '(x, s') <- read_polygon_record_from (sho_file r) ;;
      match x with
      | RErr e => Ok (Some (RErr e), ShpReaderOf s' (sho_read r) (sho_header r))
      | ROk (rec, n) =>
          let n' := sho_read r + n in
          let r' := ShpReaderOf s' n' (sho_header r) in
          Ok (Some (if sh_bytes (sho_header r) <? n'
                    then RErr (inr (SETooLong (sh_bytes (sho_header r))))
                    else ROk rec), r')
      end.
End Shp.
Arguments shp_reader_of : clear implicits.
Arguments ShpReaderOf {R} _ _ _.
Arguments sho_file {R} _.
Arguments sho_read {R} _.
Arguments sho_header {R} _.

(** ** .dbf *)

Section Dbf.
  Context {R E : Type} (rd : Z -> R -> result (list Z) E * R).

  (** src/read/shapefile/dbf.rs:190-213 [read_dbf_header]. *)
  Definition read_dbf_header_from (s : R) : res (result dbf_header (E + dbf_error) * R) :=
    match rd 32 s with
    | (RErr e, s') => Ok (RErr (inl e), s')
    | (ROk buf, s') =>
        b2 <- get buf 2 ;;
        b3 <- get buf 3 ;;
        if (12 <? b2) || (31 <? b3) then Ok (RErr (inr DEDate), s')
        else
          n <- le_at buf 4 4 ;;
          h <- le_at buf 8 2 ;;
          r <- le_at buf 10 2 ;;
          Ok (ROk (DHeader n h r), s')
    end.

  (** src/read/shapefile/dbf.rs:236-262 [read_dbf_fields]. *)
  Definition read_dbf_fields_from (m : mode) (enc : decoder) (h : dbf_header) (s : R)
    : res (result (list dbf_field) (E + dbf_error) * R) :=
    n <- header_rest m h ;;
    match rd n s with
    | (RErr e, s') => Ok (RErr (inl e), s')
    | (ROk buf, s') => r <- parse_fields enc (chunks 32 buf) 1 [] ;; Ok (other r, s')
    end.

  (** src/read/shapefile/dbf.rs:269-279 [read_dbf_meta]. *)
  Definition read_dbf_meta_from (m : mode) (enc : decoder) (s : R) : res (result dbf_meta (E + dbf_error) * R) :=
    '(rh, s1) <- read_dbf_header_from s ;;
    match rh with
    | RErr e => Ok (RErr e, s1)
    | ROk h =>
        '(rf, s2) <- read_dbf_fields_from m enc h s1 ;;
        Ok (match rf with
            | RErr e => RErr e
            | ROk fs => ROk (DMeta (dh_records h) (dh_record_bytes h) fs)
            end, s2)
    end.

  (** src/read/shapefile/dbf.rs:344-349 [struct DbfReader]. *)
  Record dbf_reader_of := DbfReaderOf { dbo_file : R; dbo_iterated : Z; dbo_meta : dbf_meta }.

  (** src/read/shapefile/dbf.rs:403-411 [DbfReader::new]. *)
  Definition dbf_new_from (m : mode) (enc : decoder) (s : R) : res (result dbf_reader_of (E + dbf_error)) :=
    '(r, s') <- read_dbf_meta_from m enc s ;;
    Ok (match r with
        | ROk meta => ROk (DbfReaderOf s' 0 meta)
        | RErr e => RErr e
        end).

  (** src/read/shapefile/dbf.rs:288-300 [read_dbf_record] and 427-435 [Iterator::next]. *)
  Definition dbf_next_from (r : dbf_reader_of) : option (result dbf_record (E + dbf_error)) * dbf_reader_of :=
    if dbo_iterated r =? dm_records (dbo_meta r) then (None, r)
    else
      let '(x, s') := rd (dm_record_bytes (dbo_meta r)) (dbo_file r) in
      (Some (match x with ROk buf => ROk buf | RErr e => RErr (inl e) end), DbfReaderOf s' (dbo_iterated r + 1) (dbo_meta r)).
End Dbf.
Arguments dbf_reader_of : clear implicits.
Arguments DbfReaderOf {R} _ _ _.
Arguments dbo_file {R} _.
Arguments dbo_iterated {R} _.
Arguments dbo_meta {R} _.

(** ** Both *)

(** src/read/shapefile/shapefile.rs:75-80 [enum ShapefileError]. *)
Inductive sf_error_of (E1 E2 : Type) :=
| SFShpOf (e : E1 + shp_error)
| SFDbfOf (e : E2 + dbf_error)
| SFMoreShpOf
| SFMoreDbfOf.
Arguments SFShpOf {E1 E2} e.
Arguments SFDbfOf {E1 E2} e.
Arguments SFMoreShpOf {E1 E2}.
Arguments SFMoreDbfOf {E1 E2}.

Section Both.
  Context {R1 E1 R2 E2 : Type} (rd1 : Z -> R1 -> result (list Z) E1 * R1) (rd2 : Z -> R2 -> result (list Z) E2 * R2).

  (** src/read/shapefile/shapefile.rs:69-73 [struct ShapefileReader]. *)
  Definition sf_reader_of : Type := shp_reader_of R1 * dbf_reader_of R2.

  (** src/read/shapefile/shapefile.rs:133-146 [ShapefileReader::new]. *)
  Definition sf_new_from (m : mode) (enc : decoder) (s1 : R1) (s2 : R2) : res (result sf_reader_of (sf_error_of E1 E2)) :=
    a <- shp_new_from rd1 m s1 ;;
    b <- dbf_new_from rd2 m enc s2 ;;
    Ok (match a, b with
        | RErr e, _ => RErr (SFShpOf e)
        | _, RErr e => RErr (SFDbfOf e)
        | ROk x, ROk y => ROk (x, y)
        end).

  (** src/read/shapefile/shapefile.rs:164-183 [Iterator::next]. *)
  Definition sf_next_from (r : sf_reader_of) : res (option (result sf_record (sf_error_of E1 E2)) * sf_reader_of) :=
    '(a, rs) <- shp_next_from rd1 (fst r) ;;
    let '(b, rd) := dbf_next_from rd2 (snd r) in
    Ok (match a, b with
        | None, None => None
        | Some _, None => Some (RErr SFMoreShpOf)
        | None, Some _ => Some (RErr SFMoreDbfOf)
        | Some (RErr e), _ => Some (RErr (SFShpOf e))
        | _, Some (RErr e) => Some (RErr (SFDbfOf e))
        | Some (ROk shape), Some (ROk data) => Some (ROk (SfRecord (sr_rings shape) data))
        end, (rs, rd)).

  (** src/read/shapefile/shapefile.rs:211-229 [open], src/read/shapefile/shp.rs:362-370 and
      dbf.rs:372-380, given what [fs::File::open] produced. *)
  Definition sf_open_from (m : mode) (enc : decoder) (shp : E1 + R1) (dbf : E2 + R2) : res (result sf_reader_of (sf_error_of E1 E2)) :=
    a <- (match shp with inl e => Ok (RErr (inl e)) | inr s => shp_new_from rd1 m s end) ;;
    match a with
    | RErr e => Ok (RErr (SFShpOf e))
    | ROk x =>
        b <- (match dbf with inl e => Ok (RErr (inl e)) | inr s => dbf_new_from rd2 m enc s end) ;;
        Ok (match b with RErr e => RErr (SFDbfOf e) | ROk y => ROk (x, y) end)
    end.
End Both.
