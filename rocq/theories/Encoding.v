(** * Encoding: decoders, opening shapefiles by path, and the command line

    The decoders are those of the [encoding] crate with [DecoderTrap::Strict], re-implemented from
    the WHATWG Encoding Standard; paths are those of [std::path] on Unix: byte strings. *)
From Verif Require Export Pipeline.

(** [encoding::all::ASCII], used in src/read/shapefile/mod.rs:94: bytes below 128. *)
Definition decode_ascii : decoder :=
  fun bs => if forallb (fun b => (0 <=? b) && (b <=? 127)) bs then Some bs else None.

(** [encoding::all::WINDOWS_1252], used in src/read/shapefile/mod.rs:102: the index of the bytes
    128-159; all other bytes are their own code points. *)
Definition windows_1252_index : list Z :=
  [ 0x20AC; 0x81; 0x201A; 0x0192; 0x201E; 0x2026; 0x2020; 0x2021; 0x02C6; 0x2030; 0x0160; 0x2039; 0x0152; 0x8D; 0x017D; 0x8F;
    0x90; 0x2018; 0x2019; 0x201C; 0x201D; 0x2022; 0x2013; 0x2014; 0x02DC; 0x2122; 0x0161; 0x203A; 0x0153; 0x9D; 0x017E; 0x0178 ].
Definition windows_1252_char (b : Z) : Z :=
  if (128 <=? b) && (b <=? 159) then nth (Z.to_nat (b - 128)) windows_1252_index b else b.
Definition decode_windows1252 : decoder := fun bs => Some (map windows_1252_char bs).

(** [encoding::all::UTF_8], used in src/read/shapefile/mod.rs:98: the decoder of the Encoding
    Standard; [need] continuation bytes are missing, the next one must be between [lo] and [hi]. *)
Fixpoint utf8_run (need : nat) (lo hi cp : Z) (bs : list Z) : option text :=
  match bs with
  | [] => match need with O => Some [] | S _ => None end
  | b :: t =>
      match need with
      | O =>
          if (0 <=? b) && (b <=? 0x7F) then option_map (cons b) (utf8_run 0 0 0 0 t)
          else if (0xC2 <=? b) && (b <=? 0xDF) then utf8_run 1 0x80 0xBF (b - 0xC0) t
          else if (0xE0 <=? b) && (b <=? 0xEF) then
            utf8_run 2 (if b =? 0xE0 then 0xA0 else 0x80) (if b =? 0xED then 0x9F else 0xBF) (b - 0xE0) t
          else if (0xF0 <=? b) && (b <=? 0xF4) then
            utf8_run 3 (if b =? 0xF0 then 0x90 else 0x80) (if b =? 0xF4 then 0x8F else 0xBF) (b - 0xF0) t
          else None
      | S n =>
          if (lo <=? b) && (b <=? hi) then
            let cp' := cp * 64 + (b - 0x80) in
            match n with
            | O => option_map (cons cp') (utf8_run 0 0 0 0 t)
            | _ => utf8_run n 0x80 0xBF cp' t
            end
          else None
      end
  end.
Definition decode_utf8 : decoder := utf8_run 0 0 0 0.

(** ** Paths *)

(** [Path::file_name] ignores slashes and "/." at the end; on the reversed path. *)
Fixpoint strip_end (r : list Z) : list Z :=
  match r with
  | 47 :: t => strip_end t
  | 46 :: 47 :: t => strip_end t
  | _ => r
  end.

(** The part of a list before the first occurrence of [c], and the part from there on. *)
Fixpoint span_until (c : Z) (l : list Z) : list Z * list Z :=
  match l with
  | [] => ([], [])
  | b :: t => if b =? c then ([], l) else let '(x, y) := span_until c t in (b :: x, y)
  end.

(** [Path::file_name]: the directory part and the name; [None] if there is no name (the root, ".",
    ".." or nothing at the end). *)
Definition split_file_name (p : list Z) : option (list Z * list Z) :=
  let '(n, d) := span_until 47 (strip_end (rev p)) in
  match n with
  | [] | [46] | [46; 46] => None
  | _ => Some (rev d, rev n)
  end.

(** [Path::file_stem]: the name without its extension; a dot at the start does not count. *)
Definition file_stem (name : list Z) : list Z :=
  match span_until 46 (rev name) with
  | (_, []) | (_, [_]) => name
  | (_, _ :: before) => rev before
  end.

(** [PathBuf::set_extension], used in src/read/shapefile/shapefile.rs:215-216, for a non-empty extension. *)
Definition set_extension (p ext : list Z) : list Z :=
  match split_file_name p with
  | None => p
  | Some (dir, name) => dir ++ file_stem name ++ [46] ++ ext
  end.

(** What [fs::File::open] and reading to the end give for a path; [None] is an error. *)
Definition file_system := list Z -> option stream.

(** src/read/shapefile/shapefile.rs:211-229 [open]. *)
Definition open_path (m : mode) (afs afd : after_fail) (fs : file_system) (path : list Z) (enc : decoder)
  : res (result sf_reader sf_error) :=
  sf_open m afs afd enc (fs path) (fs (set_extension path (str "dbf"))).

(** src/read/shapefile/mod.rs:93-103 [open_ascii], [open_utf8] and [open_windows1252]. *)
Definition open_ascii (m : mode) (afs afd : after_fail) (fs : file_system) (path : list Z) := open_path m afs afd fs path decode_ascii.
Definition open_utf8 (m : mode) (afs afd : after_fail) (fs : file_system) (path : list Z) := open_path m afs afd fs path decode_utf8.
Definition open_windows1252 (m : mode) (afs afd : after_fail) (fs : file_system) (path : list Z) := open_path m afs afd fs path decode_windows1252.

(** src/read/shapefile/dbf.rs:372-380 [open]. *)
Definition dbf_open (m : mode) (af : after_fail) (fs : file_system) (path : list Z) (enc : decoder) : res (result dbf_reader dbf_error) :=
  match fs path with
  | None => Ok (RErr DEIo)
  | Some s => dbf_reader_new m af enc s
  end.

(** src/read/shapefile/dbf.rs:397-400 [open_ascii]: the label "ascii" of the Encoding Standard
    means windows-1252. *)
Definition dbf_open_ascii (m : mode) (af : after_fail) (fs : file_system) (path : list Z) := dbf_open m af fs path decode_windows1252.

(** ** The command line *)

(** examples/shp-to-geo-data.rs:46-54 and examples/cat-shp.rs:11-19: [env::args] panics on
    arguments that are not valid UTF-8. *)
Definition with_args (run : list Z -> list text * program_end) (args : list (list Z)) : list text * program_end :=
  match args with
  | [program; path] =>
      match decode_utf8 program, decode_utf8 path with
      | Some _, Some _ => run path
      | _, _ => ([], Crashed PUnwrap)
      end
  | [] => ([], Crashed PUnwrap)
  | program :: _ =>
      match decode_utf8 program with
      | None => ([], Crashed PUnwrap)
      | Some name => ([], Exited 1 [str "Usage: " ++ name ++ str " <SHP_PATH>"])
      end
  end.

(** examples/shp-to-geo-data.rs:45-94 [main], with line 57: the files of the path, in windows-1252. *)
Definition main_shp_to_geo_data (v : texts) (m : mode) (afs afd : after_fail) (fs : file_system) : list (list Z) -> list text * program_end :=
  with_args (fun path => shp_to_geo_data v m afs afd decode_windows1252 (fs path) (fs (set_extension path (str "dbf")))).

(** examples/cat-shp.rs:10-45 [main], with line 21. *)
Definition main_cat_shp (v : texts) (m : mode) (afs afd : after_fail) (fs : file_system) : list (list Z) -> list text * program_end :=
  with_args (fun path => cat_shp v m afs afd decode_windows1252 (fs path) (fs (set_extension path (str "dbf")))).
