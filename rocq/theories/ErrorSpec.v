(** * ErrorSpec: chains of causes *)
From Verif Require Export ErrorTrait.

(** An error, its cause, the cause of its cause and so on to the end. *)
Inductive chain : any_error -> list any_error -> Prop :=
| chain_end e : cause e = None -> chain e [e]
| chain_more e c l : cause e = Some c -> chain c l -> chain e (e :: l).
