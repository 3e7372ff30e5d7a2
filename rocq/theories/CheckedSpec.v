(** * CheckedSpec: what overflow checks may change *)
From Verif Require Export Pipeline Encoding Simplify.

(** The build with overflow checks gives what the build without them gives, or reports an overflow. *)
Definition agrees {A} (debug release : res A) : Prop := debug = release \/ debug = Panic POverflow.

(** The same for programs: up to the overflow they print the same lines. *)
Definition runs_alike (debug release : list text * program_end) : Prop :=
  debug = release \/ (snd debug = Crashed POverflow /\ exists more, fst release = fst debug ++ more).
