(** * DbfSpec: the .dbf format *)
From Verif Require Export BytesSpec Dbf Shapefile ShpSpec.

(** ** Headers *)
Definition dbf_header_bytes (version year month day n hlen rlen : Z) (reserved : list Z) : list Z :=
  [version; year; month; day] ++ le_bytes 4 n ++ le_bytes 2 hlen ++ le_bytes 2 rlen ++ reserved.
Definition dbf_header_fields (version year month day n hlen rlen : Z) (reserved : list Z) : Prop :=
  in_bytes 4 n /\ in_bytes 2 hlen /\ in_bytes 2 rlen /\ length reserved = 20%nat.

(** ** Field descriptors: 11 bytes of name, ended by a zero byte if shorter; type code;
    4 bytes; length; 15 bytes *)
Record descriptor := Desc {
  de_name : list Z; de_fill : list Z; de_code : Z; de_a : list Z; de_len : Z; de_b : list Z }.
Definition descriptor_bytes (d : descriptor) : list Z :=
  de_name d ++ de_fill d ++ [de_code d] ++ de_a d ++ [de_len d] ++ de_b d.
Definition descriptor_ok (d : descriptor) : Prop :=
  length (de_name d ++ de_fill d) = 11%nat /\ ~ In 0 (de_name d) /\
  (de_fill d = [] \/ exists t, de_fill d = 0 :: t) /\
  length (de_a d) = 4%nat /\ is_byte (de_len d) /\ length (de_b d) = 15%nat.

(** Type codes. *)
Definition type_of_code (enc : decoder) (c : Z) (t : dbf_type) : Prop :=
  (c = 67 /\ t = DTCharacter enc) \/ (c = 78 /\ t = DTNumeric) \/ (c = 76 /\ t = DTLogical) \/
  (c = 68 /\ t = DTDate) \/ (c = 70 /\ t = DTFloatingPoint) \/ (c = 64 /\ t = DTTimestamp) \/
  (c = 79 /\ t = DTDouble) \/ ((c = 43 \/ c = 124) /\ t = DTLong) \/
  (~ In c [67; 78; 76; 68; 70; 64; 79; 43; 124] /\ t = DTUnsupported).

(** The fields described: names decoded, offsets running from [o]. *)
Fixpoint described (enc : decoder) (o : nat) (ds : list descriptor) (fs : list dbf_field) : Prop :=
  match ds, fs with
  | [], [] => True
  | d :: ds', f :: fs' =>
      enc (de_name d) = Some (df_name f) /\ type_of_code enc (de_code d) (df_type f) /\
      df_offset f = o /\ df_len f = Z.to_nat (de_len d) /\ described enc (o + df_len f) ds' fs'
  | _, _ => False
  end.

(** The bytes of a file before its records; [tail] is the terminator. *)
Definition dbf_prefix (version year month day n rlen : Z) (reserved : list Z) (ds : list descriptor) (tail : list Z) : list Z :=
  dbf_header_bytes version year month day n (32 + 32 * Z.of_nat (length ds) + Z.of_nat (length tail)) rlen reserved ++
  concat (map descriptor_bytes ds) ++ tail.

(** ** Values *)
Definition digits (s : list Z) : Prop := s <> [] /\ Forall (fun b => 48 <= b <= 57) s.
(** Decimal numbers: optional minus sign (45), digits, optionally a point (46) and digits. *)
Definition is_number (s : list Z) : Prop :=
  exists sign ip frac, s = sign ++ ip ++ frac /\ (sign = [] \/ sign = [45]) /\ digits ip /\
    (frac = [] \/ exists fp, frac = 46 :: fp /\ digits fp).
(** [core] does not end with a space. *)
Definition no_trailing_space (core : list Z) : Prop := forall l, core <> l ++ [32].

(** Field [f] of record [r] holds the bytes [v]. *)
Definition holds (f : dbf_field) (r : dbf_record) (v : list Z) : Prop :=
  exists pre post, r = pre ++ v ++ post /\ df_offset f = length pre /\ df_len f = length v.

(** Numerals: decimal digits without leading zeros, and their value. *)
Fixpoint numeral_value (acc : Z) (s : list Z) : Z :=
  match s with [] => acc | d :: t => numeral_value (10 * acc + (d - 48)) t end.
Definition is_numeral (n : Z) (s : list Z) : Prop :=
  digits s /\ numeral_value 0 s = n /\ (s = [48] \/ hd 0 s <> 48).

(** Texts joined by "; ". *)
Fixpoint joined (l : list text) : text :=
  match l with
  | [] => []
  | [a] => a
  | a :: t => a ++ [59; 32] ++ joined t
  end.

(** ** Iterating *)
Definition dbf_step (af : after_fail) (r : dbf_reader) : res (option (result dbf_record dbf_error) * dbf_reader) := Ok (dbf_next af r).

(** The [i]-th record of [rb] bytes, if there is one. *)
Definition item_at (rb : nat) (s : list Z) (i : nat) : result dbf_record dbf_error :=
  if Nat.leb ((i + 1) * rb) (length s) then ROk (firstn rb (skipn (i * rb) s)) else RErr DEIo.

(** Field types that can be read. *)
Definition readable (t : dbf_type) : Prop := (exists enc, t = DTCharacter enc) \/ t = DTNumeric \/ t = DTLong.

(** ** Shapes and data *)

(** The item made of the k-th shape and the k-th data record. *)
Definition join_items (a : option (result shp_record shp_error)) (b : option (result dbf_record dbf_error)) : option (result sf_record sf_error) :=
  match a, b with
  | None, None => None
  | Some _, None => Some (RErr SFMoreShp)
  | None, Some _ => Some (RErr SFMoreDbf)
  | Some (RErr e), Some _ => Some (RErr (SFShp e))
  | Some (ROk _), Some (RErr e) => Some (RErr (SFDbf e))
  | Some (ROk shape), Some (ROk data) => Some (ROk (SfRecord (sr_rings shape) data))
  end.
