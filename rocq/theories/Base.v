(** * Base: panics, overflow modes, machine integers, list access

    Shared vocabulary of the model.  Nothing here models a particular Rust
    function of the repository; it models the Rust primitives the code uses. *)
From Coq Require Export ZArith List Bool Lia Arith.
Export ListNotations.
Open Scope Z_scope.

(** Arithmetic overflow behaviour of the build: [Debug] is Rust's default for
    [cargo build]/[cargo test] (overflow checks on), [Release] is
    [cargo build --release] (two's complement wrap-around). *)
Inductive mode := Debug | Release.

(** Why a Rust program stops.  [PNull] stands for dereferencing a null or
    dangling pointer (undefined behaviour in Rust); [PFuel] is not a Rust
    behaviour: it is the model running out of recursion fuel, and theorems show
    that it does not happen. *)
Inductive panic :=
| POverflow | PDivZero | PIndex | PAssert | PUnwrap | PExplicit
| PUnimplemented | PCapacity | PNull | PFuel.

Inductive res (A : Type) : Type :=
| Ok (a : A)
| Panic (p : panic).
Arguments Ok {A} a.
Arguments Panic {A} p.

Definition bind {A B} (x : res A) (k : A -> res B) : res B :=
  match x with Ok a => k a | Panic p => Panic p end.

Notation "x <- e ;; k" := (bind e (fun x => k))
  (at level 61, e at next level, right associativity).
Notation "' pat <- e ;; k" := (bind e (fun x => match x with pat => k end))
  (at level 61, pat pattern, e at next level, right associativity).

(** [assert!(b)]. *)
Definition rassert (b : bool) : res unit := if b then Ok tt else Panic PAssert.

(** Left-to-right loop over a list with a mutable state. *)
Fixpoint mfold {S A} (f : S -> A -> res S) (l : list A) (s : S) : res S :=
  match l with
  | [] => Ok s
  | a :: t => s' <- f s a ;; mfold f t s'
  end.

(** [iter().map(f).collect()] for an [f] that may panic. *)
Fixpoint mmap {A B} (f : A -> res B) (l : list A) : res (list B) :=
  match l with
  | [] => Ok []
  | a :: t => b <- f a ;; bs <- mmap f t ;; Ok (b :: bs)
  end.

(** Slice indexing [v[i]] with bounds check; [p] is the reason used when it fails. *)
Definition get_or {A} (p : panic) (l : list A) (i : nat) : res A :=
  match nth_error l i with Some a => Ok a | None => Panic p end.
Definition get {A} := @get_or A PIndex.

(** Replace the element at an index (no effect out of bounds). *)
Fixpoint set_nth {A} (l : list A) (i : nat) (a : A) : list A :=
  match l, i with
  | [], _ => []
  | _ :: t, O => a :: t
  | x :: t, S j => x :: set_nth t j a
  end.

(** ** Machine integers *)
Definition two32 : Z := 2 ^ 32.
Definition two63 : Z := 2 ^ 63.
Definition two64 : Z := 2 ^ 64.

Definition u32_max : Z := two32 - 1.
Definition u64_max : Z := two64 - 1.

Definition in_i64 (z : Z) : bool := (- two63 <=? z) && (z <? two63).
Definition wrap_i64 (z : Z) : Z := (z + two63) mod two64 - two63.

(** The result of an [i64] operation whose mathematical value is [z]. *)
Definition i64_ret (m : mode) (z : Z) : res Z :=
  if in_i64 z then Ok z
  else match m with Debug => Panic POverflow | Release => Ok (wrap_i64 z) end.

Definition i64_add (m : mode) (a b : Z) : res Z := i64_ret m (a + b).
Definition i64_sub (m : mode) (a b : Z) : res Z := i64_ret m (a - b).
Definition i64_mul (m : mode) (a b : Z) : res Z := i64_ret m (a * b).
Definition i64_neg (m : mode) (a : Z) : res Z := i64_ret m (- a).
(** [i64::abs]. *)
Definition i64_abs (m : mode) (a : Z) : res Z := i64_ret m (Z.abs a).
(** [/] truncates towards zero; division by zero and [MIN / -1] panic in both modes. *)
Definition i64_div (a b : Z) : res Z :=
  if b =? 0 then Panic PDivZero
  else if in_i64 (Z.quot a b) then Ok (Z.quot a b) else Panic POverflow.

(** [as u64] and [as u32] casts from a signed or wider integer. *)
Definition as_u64 (z : Z) : Z := z mod two64.
Definition as_u32 (z : Z) : Z := z mod two32.

(** ** List helpers used by the models *)

(** [itertools::tuple_windows] for pairs: the consecutive pairs of a sequence. *)
Fixpoint pairs {A} (l : list A) : list (A * A) :=
  match l with
  | a :: ((b :: _) as t) => (a, b) :: pairs t
  | _ => []
  end.

Definition is_none {A} (o : option A) : bool :=
  match o with None => true | Some _ => false end.

(** [enumerate()]. *)
Definition enumerate {A} (l : list A) : list (nat * A) := combine (seq 0 (length l)) l.
