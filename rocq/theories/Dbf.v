(** * Dbf: model of src/read/shapefile/dbf.rs *)
From Verif Require Export Bytes Shp.

(** A decoder of the [encoding] crate with [DecoderTrap::Strict]: bytes to text
    (Unicode code points), or [None] on invalid input. *)
Definition text := list Z.
Definition decoder := list Z -> option text.

(** src/read/shapefile/dbf.rs:14-25 [enum DbfType]. *)
Inductive dbf_type :=
| DTCharacter (enc : decoder)
| DTNumeric | DTLogical | DTDate | DTFloatingPoint | DTTimestamp | DTDouble | DTLong
| DTUnsupported.

(** src/read/shapefile/dbf.rs:48-62 [DbfType::with_code]; codes are 'C' 'N' 'L' 'D' 'F'
    '@' 'O' '+' '|'. *)
Definition dbf_type_with_code (u : Z) (enc : decoder) : dbf_type :=
  match u with
  | 67 => DTCharacter enc
  | 78 => DTNumeric
  | 76 => DTLogical
  | 68 => DTDate
  | 70 => DTFloatingPoint
  | 64 => DTTimestamp
  | 79 => DTDouble
  | 43 | 124 => DTLong
  | _ => DTUnsupported
  end.

(** src/read/shapefile/dbf.rs:64-70 [struct DbfField]. *)
Record dbf_field := DField { df_name : text; df_type : dbf_type; df_offset : nat; df_len : nat }.

(** src/read/shapefile/dbf.rs:156-160 [enum DbfError]. *)
Inductive dbf_error := DEIo | DEDate | DEName | DENumber | DEDecode.

(** src/read/shapefile/dbf.rs:72-75 [trim_end_spaces]: drop the longest suffix of 0x20. *)
Fixpoint drop_spaces (l : list Z) : list Z :=
  match l with
  | b :: t => if b =? 32 then drop_spaces t else l
  | [] => []
  end.
Definition trim_end_spaces (l : list Z) : list Z := rev (drop_spaces (rev l)).

Definition is_digit (b : Z) : bool := (48 <=? b) && (b <=? 57).

(** Longest prefix of digits, and the rest. *)
Fixpoint span_digits (l : list Z) : list Z * list Z :=
  match l with
  | b :: t => if is_digit b then let '(d, r) := span_digits t in (b :: d, r) else ([], l)
  | [] => ([], [])
  end.

(** src/read/shapefile/dbf.rs:77-88 [dbf_numeric_to_valid_string]: the regular expression
    [^ *(-?[0-9]+(?:\.[0-9]+)?)$], as a deterministic matcher returning group 1. *)
Definition match_number (l : list Z) : option text :=
  let l1 := drop_spaces l in
  let '(sign, l2) := match l1 with 45 :: t => ([45], t) | _ => ([], l1) end in
  let '(ip, l3) := span_digits l2 in
  match ip with
  | [] => None
  | _ =>
      match l3 with
      | [] => Some (sign ++ ip)
      | 46 :: l4 =>
          let '(fp, l5) := span_digits l4 in
          match fp, l5 with
          | _ :: _, [] => Some (sign ++ ip ++ 46 :: fp)
          | _, _ => None
          end
      | _ => None
      end
  end.

(** [u32::to_string]: decimal digits without leading zeros. *)
Fixpoint dec_digits (fuel : nat) (n : Z) (acc : text) : text :=
  match fuel with
  | O => acc
  | S f => let acc' := (48 + n mod 10) :: acc in
           if n <? 10 then acc' else dec_digits f (n / 10) acc'
  end.
Definition u32_to_string (n : Z) : text := dec_digits 10 n [].

(** src/read/shapefile/dbf.rs:111-116 [DbfHeader] and 118-123 [DbfMeta]. *)
Record dbf_header := DHeader { dh_records : Z; dh_header_bytes : Z; dh_record_bytes : Z }.
Record dbf_meta := DMeta { dm_records : Z; dm_record_bytes : Z; dm_fields : list dbf_field }.

(** src/read/shapefile/dbf.rs:125-129 [DbfRecord] (its reference to the shared meta is
    dropped: only [Display] uses it). *)
Definition dbf_record := list Z.

(** src/read/shapefile/dbf.rs:91-105 [DbfField::read_string]. *)
Definition read_string (f : dbf_field) (r : dbf_record) : res (result text dbf_error) :=
  bytes <- sub_bytes r (df_offset f) (df_offset f + df_len f) ;;
  match df_type f with
  | DTCharacter enc =>
      Ok (match enc (trim_end_spaces bytes) with Some s => ROk s | None => RErr DEDecode end)
  | DTLong => n <- read_le 4 bytes ;; Ok (ROk (u32_to_string n))
  | DTNumeric =>
      Ok (match match_number bytes with Some s => ROk s | None => RErr DENumber end)
  | _ => Panic PUnimplemented
  end.

(** src/read/shapefile/dbf.rs:131-154 [Display for DbfRecord], given the fields of the
    record's meta: the text between the outer braces, or the error that is printed
    instead ("Invalid DBF record").  59 32 is "; " and 58 is ":". *)
Fixpoint display_fields (i : nat) (fs : list dbf_field) (r : dbf_record) (s : text)
  : res (result text dbf_error) :=
  match fs with
  | [] => Ok (ROk s)
  | f :: t =>
      let s1 := if Nat.eqb i 0 then s else s ++ [59; 32] in
      v <- read_string f r ;;
      match v with
      | RErr e => Ok (RErr e)
      | ROk value => display_fields (i + 1) t r (s1 ++ df_name f ++ [58] ++ value)
      end
  end.
Definition display_record (fs : list dbf_field) (r : dbf_record) : res (result text dbf_error) :=
  display_fields 0 fs r [].

(** src/read/shapefile/dbf.rs:190-213 [read_dbf_header]. *)
Definition read_dbf_header (af : after_fail) (s : stream)
  : res (result dbf_header dbf_error * stream) :=
  match read_exact af 32 s with
  | (None, s') => Ok (RErr DEIo, s')
  | (Some buf, s') =>
      b2 <- get buf 2 ;;
      b3 <- get buf 3 ;;
      if (12 <? b2) || (31 <? b3) then Ok (RErr DEDate, s')
      else
        n <- le_at buf 4 4 ;;
        h <- le_at buf 8 2 ;;
        r <- le_at buf 10 2 ;;
        Ok (ROk (DHeader n h r), s')
  end.

(** [position(|&x| x == 0).unwrap_or(len)]. *)
Fixpoint until_zero (l : list Z) : list Z :=
  match l with
  | [] => []
  | b :: t => if b =? 0 then [] else b :: until_zero t
  end.

(** src/read/shapefile/dbf.rs:215-228 [parse_dbf_field]. *)
Definition parse_dbf_field (bytes : list Z) (enc : decoder) (offset : nat)
  : res (result dbf_field dbf_error) :=
  name_bytes <- sub_bytes bytes 0 11 ;;
  match enc (until_zero name_bytes) with
  | None => Ok (RErr DEName)
  | Some name =>
      code <- get bytes 11 ;;
      len <- get bytes 16 ;;
      Ok (ROk (DField name (dbf_type_with_code code enc) offset (Z.to_nat len)))
  end.

(** src/read/shapefile/dbf.rs:245-257: the loop over 32-byte chunks. *)
Fixpoint parse_fields (enc : decoder) (cs : list (list Z)) (offset : nat) (v : list dbf_field)
  : res (result (list dbf_field) dbf_error) :=
  match cs with
  | [] => Ok (ROk v)
  | c :: t =>
      if negb (Nat.eqb (length c) 32) then Ok (ROk v)
      else
        r <- parse_dbf_field c enc offset ;;
        match r with
        | RErr e => Ok (RErr e)
        | ROk f => parse_fields enc t (offset + df_len f) (v ++ [f])
        end
  end.

(** src/read/shapefile/dbf.rs:237: [vec![0u8; n_header_bytes - 32]].  On underflow the
    subtraction panics (debug) or wraps to a size no allocation can satisfy (release:
    "capacity overflow" panic). *)
Definition header_rest (m : mode) (h : dbf_header) : res Z :=
  if dh_header_bytes h <? 32
  then match m with Debug => Panic POverflow | Release => Panic PCapacity end
  else Ok (dh_header_bytes h - 32).

(** src/read/shapefile/dbf.rs:236-262 [read_dbf_fields]. *)
Definition read_dbf_fields (m : mode) (af : after_fail) (enc : decoder) (h : dbf_header) (s : stream)
  : res (result (list dbf_field) dbf_error * stream) :=
  n <- header_rest m h ;;
  match read_exact af n s with
  | (None, s') => Ok (RErr DEIo, s')
  | (Some buf, s') => r <- parse_fields enc (chunks 32 buf) 1 [] ;; Ok (r, s')
  end.

(** src/read/shapefile/dbf.rs:269-279 [read_dbf_meta]. *)
Definition read_dbf_meta (m : mode) (af : after_fail) (enc : decoder) (s : stream)
  : res (result dbf_meta dbf_error * stream) :=
  '(rh, s1) <- read_dbf_header af s ;;
  match rh with
  | RErr e => Ok (RErr e, s1)
  | ROk h =>
      '(rf, s2) <- read_dbf_fields m af enc h s1 ;;
      Ok (match rf with
          | RErr e => RErr e
          | ROk fs => ROk (DMeta (dh_records h) (dh_record_bytes h) fs)
          end, s2)
  end.

(** src/read/shapefile/dbf.rs:288-300 [read_dbf_record]. *)
Definition read_dbf_record (af : after_fail) (meta : dbf_meta) (s : stream)
  : result dbf_record dbf_error * stream :=
  match read_exact af (dm_record_bytes meta) s with
  | (None, s') => (RErr DEIo, s')
  | (Some buf, s') => (ROk buf, s')
  end.

(** src/read/shapefile/dbf.rs:344-349 [struct DbfReader]. *)
Record dbf_reader := DbfReader { dbr_file : stream; dbr_iterated : Z; dbr_meta : dbf_meta }.

(** src/read/shapefile/dbf.rs:403-411 [DbfReader::new]. *)
Definition dbf_reader_new (m : mode) (af : after_fail) (enc : decoder) (s : stream)
  : res (result dbf_reader dbf_error) :=
  '(r, s') <- read_dbf_meta m af enc s ;;
  Ok (match r with
      | ROk meta => ROk (DbfReader s' 0 meta)
      | RErr e => RErr e
      end).

Fixpoint text_eqb (a b : text) : bool :=
  match a, b with
  | [], [] => true
  | x :: a', y :: b' => (x =? y) && text_eqb a' b'
  | _, _ => false
  end.

(** src/read/shapefile/dbf.rs:413-421 [DbfReader::get_field]. *)
Definition get_field (r : dbf_reader) (name : text) : option dbf_field :=
  find (fun f => text_eqb (df_name f) name) (dm_fields (dbr_meta r)).

(** src/read/shapefile/dbf.rs:427-435 [Iterator::next]. *)
Definition dbf_next (af : after_fail) (r : dbf_reader)
  : option (result dbf_record dbf_error) * dbf_reader :=
  if dbr_iterated r =? dm_records (dbr_meta r) then (None, r)
  else
    let '(x, s') := read_dbf_record af (dbr_meta r) (dbr_file r) in
    (Some x, DbfReader s' (dbr_iterated r + 1) (dbr_meta r)).
