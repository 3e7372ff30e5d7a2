(** * Bytes: io::Read and the byteorder crate, as used by the readers *)
From Verif Require Export Base.

(** A byte stream: the bytes not read yet. *)
Definition stream := list Z.

(** What a failing [read_exact] leaves unread.  Rust: "If this function returns an
    error, it is unspecified how many bytes it has read"; theorems quantify over it. *)
Definition after_fail := stream -> Z -> stream.

(** [io::Read::read_exact] into a buffer of [n] bytes: [None] is
    [ErrorKind::UnexpectedEof].  (For device errors and data that arrives in pieces, see Reader.) *)
Definition read_exact (af : after_fail) (n : Z) (s : stream) : option (list Z) * stream :=
  if n <=? Z.of_nat (length s)
  then (Some (firstn (Z.to_nat n) s), skipn (Z.to_nat n) s)
  else (None, af s n).

(** Unsigned integers from bytes. *)
Fixpoint le_value (bs : list Z) : Z :=
  match bs with [] => 0 | b :: t => b + 256 * le_value t end.
Definition be_value (bs : list Z) : Z := le_value (rev bs).

(** [&buf[a..b]]. *)
Definition sub_bytes (bs : list Z) (a b : nat) : res (list Z) :=
  if Nat.leb a b && Nat.leb b (length bs) then Ok (firstn (b - a) (skipn a bs)) else Panic PIndex.

(** [LittleEndian::read_u32(&buf[a..b])] etc.: the integer in the first [n] bytes. *)
Definition read_le (n : nat) (bs : list Z) : res Z :=
  s <- sub_bytes bs 0 n ;; Ok (le_value s).
Definition read_be (n : nat) (bs : list Z) : res Z :=
  s <- sub_bytes bs 0 n ;; Ok (be_value s).

Definition le_at (bs : list Z) (a n : nat) : res Z :=
  s <- sub_bytes bs a (a + n) ;; read_le n s.
Definition be_at (bs : list Z) (a n : nat) : res Z :=
  s <- sub_bytes bs a (a + n) ;; read_be n s.

(** [slice.chunks(n)]. *)
Fixpoint chunks_fuel {A} (fuel n : nat) (l : list A) : list (list A) :=
  match fuel with
  | O => []
  | S fuel' => match l with
               | [] => []
               | _ => firstn n l :: chunks_fuel fuel' n (skipn n l)
               end
  end.
Definition chunks {A} (n : nat) (l : list A) : list (list A) := chunks_fuel (length l) n l.
