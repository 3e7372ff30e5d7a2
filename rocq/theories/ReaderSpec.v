(** * ReaderSpec: what a source of bytes has to deliver *)
From Verif Require Export ShpSpec Reader.

(** What is left in a source, however it is cut into pieces: bytes, places where a read returns
    no byte although others follow, and device errors.  After all of them, only the end of the
    data. *)
Inductive item := Byte (b : Z) | Pause | Fault (e : Z).

(** The source [src] in state [s] has [items s] to deliver: reading [n > 0] bytes gives at least
    one and at most [n] of the next bytes; or it is interrupted, but not for ever; or it gives an
    error or the end of the data when that is next. *)
Definition delivers {S} (src : source S) (items : S -> list item) : Prop :=
  forall n s, (0 < n)%nat ->
    match sc_read src n s with
    | (Got [], s') => (items s = Pause :: items s' \/ (items s = [] /\ items s' = [])) /\ (sc_wait src s' <= sc_wait src s)%nat
    | (Got bs, s') => (length bs <= n)%nat /\ items s = map Byte bs ++ items s' /\ (sc_wait src s' <= sc_wait src s)%nat
    | (Interrupted, s') => items s' = items s /\ (sc_wait src s' < sc_wait src s)%nat
    | (Failed e, s') => items s = Fault e :: items s' /\ (sc_wait src s' <= sc_wait src s)%nat
    end.

(** What can be observed of a reader: how opening it ends, and what the first [k] calls of [next]
    return. *)
Definition watch {A R E X} (about : R -> X) (next : R -> res (A * R)) (k : nat) (o : res (result R E)) : res (result (X * list A) E) :=
  r <- o ;;
  match r with
  | RErr e => Ok (RErr e)
  | ROk r => l <- calls next k r ;; Ok (ROk (about r, l))
  end.

Definition shp_seen {S} (src : source S) (m : mode) (k : nat) (s : S) :=
  watch sho_header (shp_next_from (source_exact src)) k (shp_new_from (source_exact src) m s).
Definition dbf_seen {S} (src : source S) (m : mode) (enc : decoder) (k : nat) (s : S) :=
  watch dbo_meta (fun r => Ok (dbf_next_from (source_exact src) r)) k (dbf_new_from (source_exact src) m enc s).
Definition sf_about {R1 R2} (r : sf_reader_of (R1 := R1) (R2 := R2)) := (sho_header (fst r), dbo_meta (snd r)).
Definition sf_seen {S1 S2} (src1 : source S1) (src2 : source S2) (m : mode) (enc : decoder) (k : nat) (s1 : S1) (s2 : S2) :=
  watch sf_about (sf_next_from (source_exact src1) (source_exact src2)) k (sf_new_from (source_exact src1) (source_exact src2) m enc s1 s2).
Definition sf_open_seen {S1 S2} (src1 : source S1) (src2 : source S2) (m : mode) (enc : decoder) (k : nat) (s1 : io_error + S1) (s2 : io_error + S2) :=
  watch sf_about (sf_next_from (source_exact src1) (source_exact src2)) k (sf_open_from (source_exact src1) (source_exact src2) m enc s1 s2).

(** Two sources (or errors on opening them) with the same contents. *)
Definition same_items {S1 S2} (items1 : S1 -> list item) (items2 : S2 -> list item) (a : io_error + S1) (b : io_error + S2) : Prop :=
  match a, b with inl e, inl e' => e = e' | inr s, inr s' => items1 s = items2 s' | _, _ => False end.

(** ** Compared with byte lists *)

(** The same observations of the readers of byte lists (Bytes), of which a failing read consumes
    everything. *)
Definition consumed : after_fail := fun _ _ => [].
Definition shp_bytes_seen (m : mode) (k : nat) (s : stream) := watch shr_header (shp_next consumed) k (shp_reader_new m consumed s).
Definition dbf_bytes_seen (m : mode) (enc : decoder) (k : nat) (s : stream) :=
  watch dbr_meta (fun r => Ok (dbf_next consumed r)) k (dbf_reader_new m consumed enc s).
Definition sf_bytes_about (r : sf_reader) := (shr_header (sf_shp r), dbr_meta (sf_dbf r)).
Definition sf_bytes_seen (m : mode) (enc : decoder) (k : nat) (s1 s2 : stream) :=
  watch sf_bytes_about (sf_next consumed consumed) k (sf_reader_new m consumed consumed enc s1 s2).

(** Forgetting which [io::Error] it was. *)
Definition shp_plain {E} (e : E + shp_error) : shp_error := match e with inl _ => SEIo | inr e => e end.
Definition dbf_plain {E} (e : E + dbf_error) : dbf_error := match e with inl _ => DEIo | inr e => e end.
Definition sf_plain {E1 E2} (e : sf_error_of E1 E2) : sf_error :=
  match e with SFShpOf e => SFShp (shp_plain e) | SFDbfOf e => SFDbf (dbf_plain e) | SFMoreShpOf => SFMoreShp | SFMoreDbfOf => SFMoreDbf end.
Definition error_map {A E F} (f : E -> F) (r : result A E) : result A F := match r with ROk a => ROk a | RErr e => RErr (f e) end.
Definition seen_map {A X E F} (f : E -> F) (o : res (result (X * list (option (result A E))) E)) : res (result (X * list (option (result A F))) F) :=
  match o with
  | Panic p => Panic p
  | Ok (RErr e) => Ok (RErr (f e))
  | Ok (ROk (x, l)) => Ok (ROk (x, map (option_map (error_map f)) l))
  end.

(** The [io::Error]s that an observation shows. *)
Definition io_errors {A X E F} (o : res (result (X * list (option (result A (E + F)))) (E + F))) : list E :=
  match o with
  | Ok (RErr (inl e)) => [e]
  | Ok (ROk (_, l)) => flat_map (fun a => match a with Some (RErr (inl e)) => [e] | _ => [] end) l
  | _ => []
  end.
Definition sf_io_errors {A X E1 E2} (o : res (result (X * list (option (result A (sf_error_of E1 E2)))) (sf_error_of E1 E2))) : list E1 * list E2 :=
  let es := match o with
            | Ok (RErr e) => [e]
            | Ok (ROk (_, l)) => flat_map (fun a => match a with Some (RErr e) => [e] | _ => [] end) l
            | _ => []
            end in
  (flat_map (fun e => match e with SFShpOf (inl e) => [e] | _ => [] end) es,
   flat_map (fun e => match e with SFDbfOf (inl e) => [e] | _ => [] end) es).

(** ** Up to the first error, which is where programs stop *)

Fixpoint calls_to_error {R A E} (next : R -> res (option (result A E) * R)) (k : nat) (r : R) : res (list (option (result A E))) :=
  match k with
  | O => Ok []
  | S k' => '(a, r') <- next r ;;
            match a with
            | Some (RErr e) => Ok [Some (RErr e)]
            | _ => l <- calls_to_error next k' r' ;; Ok (a :: l)
            end
  end.
Definition watch_to_error {A R E F X} (about : R -> X) (next : R -> res (option (result A F) * R)) (k : nat) (o : res (result R E))
  : res (result (X * list (option (result A F))) E) :=
  r <- o ;;
  match r with
  | RErr e => Ok (RErr e)
  | ROk r => l <- calls_to_error next k r ;; Ok (ROk (about r, l))
  end.

(** The error that a reader meets after the last byte, and that it is the last one. *)
Definition stopped_by (rest : list item) : io_error := match rest with Fault e :: _ => Device e | _ => UnexpectedEof end.
Definition no_byte_next (rest : list item) : Prop := match rest with Byte _ :: _ => False | _ => True end.
