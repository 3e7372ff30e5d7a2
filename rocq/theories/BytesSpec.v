(** * BytesSpec: byte strings and integers in them *)
From Verif Require Export Bytes Spec.

Definition is_byte (b : Z) : Prop := 0 <= b < 256.
Definition bytes_ok (bs : list Z) : Prop := Forall is_byte bs.

(** The [n] low bytes of [z], least significant first. *)
Fixpoint le_bytes (n : nat) (z : Z) : list Z :=
  match n with O => [] | S k => z mod 256 :: le_bytes k (z / 256) end.
Definition be_bytes (n : nat) (z : Z) : list Z := rev (le_bytes n z).

(** [z] fits in [n] bytes. *)
Definition in_bytes (n : nat) (z : Z) : Prop := 0 <= z < 256 ^ Z.of_nat n.

(** After a failing read, some suffix of the stream is left. *)
Definition leaves_suffix (af : after_fail) : Prop := forall s n, exists p, s = p ++ af s n.
