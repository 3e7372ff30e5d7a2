(** * EncodingSpec: vocabulary for encodings, paths and the command line *)
From Verif Require Export DbfSpec PipelineSpec Encoding.

(** ** Encodings *)

(** Unicode scalar values. *)
Definition scalar (c : Z) : Prop := 0 <= c <= 0x10FFFF /\ ~ 0xD800 <= c <= 0xDFFF.

(** UTF-8: one to four bytes, the shortest form. *)
Definition utf8_of (c : Z) : list Z :=
  if c <? 0x80 then [c]
  else if c <? 0x800 then [0xC0 + c / 64; 0x80 + c mod 64]
  else if c <? 0x10000 then [0xE0 + c / 4096; 0x80 + c / 64 mod 64; 0x80 + c mod 64]
  else [0xF0 + c / 262144; 0x80 + c / 4096 mod 64; 0x80 + c / 64 mod 64; 0x80 + c mod 64].
Definition utf8_bytes (s : text) : list Z := concat (map utf8_of s).

(** ASCII bytes. *)
Definition is_ascii (b : Z) : Prop := 0 <= b < 128.

(** [d'] decodes to the same text whatever [d] decodes. *)
Definition extends (d d' : decoder) : Prop := forall bs s, d bs = Some s -> d' bs = Some s.
(** A reader whose records can be decoded. *)
Definition decodable (afs afd : after_fail) (r : sf_reader) : Prop :=
  forall k items rec f, calls (sf_next afs afd) k r = Ok items -> In (Some (ROk rec)) items -> In f (sf_dbf_fields r) ->
    read_string f (sfr_data rec) <> Ok (RErr DEDecode).

(** Fields that differ in the decoder of their characters only. *)
Definition same_type (d d' : decoder) (t t' : dbf_type) : Prop := t = t' /\ (forall e, t <> DTCharacter e) \/ t = DTCharacter d /\ t' = DTCharacter d'.
Definition same_field (d d' : decoder) (f f' : dbf_field) : Prop :=
  df_name f = df_name f' /\ same_type d d' (df_type f) (df_type f') /\ df_offset f = df_offset f' /\ df_len f = df_len f'.
Definition same_dbf (d d' : decoder) (r r' : dbf_reader) : Prop :=
  dbr_file r = dbr_file r' /\ dbr_iterated r = dbr_iterated r' /\ dm_records (dbr_meta r) = dm_records (dbr_meta r') /\
  dm_record_bytes (dbr_meta r) = dm_record_bytes (dbr_meta r') /\ Forall2 (same_field d d') (dm_fields (dbr_meta r)) (dm_fields (dbr_meta r')).
Definition same_sf (d d' : decoder) (r r' : sf_reader) : Prop := sf_shp r = sf_shp r' /\ same_dbf d d' (sf_dbf r) (sf_dbf r').

(** ** Paths *)

(** Byte strings without slashes; the slash is 47 and the dot is 46. *)
Definition no_slash (l : list Z) : Prop := ~ In 47 l.
Definition no_dot (l : list Z) : Prop := ~ In 46 l.
(** A directory, as it stands in front of a file name. *)
Definition directory (d : list Z) : Prop := d = [] \/ exists d', d = d' ++ [47].
(** A file name: not empty, "." or "..". *)
Definition file_name (n : list Z) : Prop := no_slash n /\ n <> [] /\ n <> [46] /\ n <> [46; 46].

(** ** The command line *)
Definition usage (program : text) : text := str "Usage: " ++ program ++ str " <SHP_PATH>".
