(** * ErrorProps: C96, the errors as [std::error::Error]s *)
From Verif Require Import DisplaySpec DisplayProofs ErrorSpec ErrorProofs.

(** ** C96: causes and descriptions *)

(** Every chain of causes has at most three errors; all of them are displayed alike and have the
    same description; the last one is the error of the operating system or one whose text is
    "Parse error: " and its description. *)
Theorem C96_chain : forall e, exists l last, chain e (l ++ [last]) /\ (length l <= 2)%nat /\
  (forall v io x, In x (l ++ [last]) -> display v x = display v e /\ description v io x = description v io e) /\
  (last = AIo \/ forall v io, display v last = str "Parse error: " ++ description v io last).
Proof.
  intros e. exact (told_all e).
Qed.
Print Assumptions C96_chain.

(** The chain ends with the error of the operating system exactly for failed reads and missing files. *)
Theorem C96_root : forall e l last, chain (ASf e) (l ++ [last]) -> last = AIo <-> e = SFShp SEIo \/ e = SFDbf DEIo.
Proof.
  exact root_io.
Qed.
Print Assumptions C96_root.

(** Descriptions tell this crate's own errors apart. *)
Theorem C96_description : forall v io e e', own_message e -> own_message e' ->
  Forall is_usize (error_values e) -> Forall is_usize (error_values e') ->
  description v io (ASf e) = description v io (ASf e') -> e = e'.
Proof.
  intros v io e e' O O' V V' E. apply (sf_message_inj v e e' O O' V V').
  assert (H : forall x, own_message x -> show_sf_error v x = str "Parse error: " ++ description v io (ASf x)).
  { intros [[]|[]| |] Hx; try destruct Hx; reflexivity. }
  rewrite (H e O), (H e' O'), E. reflexivity.
Qed.
Print Assumptions C96_description.

Example C96_case : let e := ASf (SFShp SEIo) in chain e [e; AShp SEIo; AIo] /\
  forall v io, description v io (ASf (SFShp (SENoParts 3))) = str "Record number 3 has no parts" /\
    display v (AShp (SENoParts 3)) = str "Parse error: Record number 3 has no parts".
Proof.
  split; [apply (chain_more _ (AShp SEIo)); [reflexivity|]; apply (chain_more _ AIo); [reflexivity|]; constructor; reflexivity|].
  intros v io. vm_compute. auto.
Qed.
