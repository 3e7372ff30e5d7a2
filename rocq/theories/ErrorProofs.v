(** * ErrorProofs: lemmas on chains of causes *)
From Verif Require Import ErrorSpec.

Definition told (n : nat) (e : any_error) : Prop := exists l last, chain e (l ++ [last]) /\ (length l <= n)%nat /\
  (forall v io x, In x (l ++ [last]) -> display v x = display v e /\ description v io x = description v io e) /\
  (last = AIo \/ forall v io, display v last = str "Parse error: " ++ description v io last).

Lemma told_end n e : cause e = None -> (e = AIo \/ forall v io, display v e = str "Parse error: " ++ description v io e) -> told n e.
Proof. intros Hc Hp. exists [], e. split; [constructor; exact Hc|]. split; [cbn; lia|]. split; [|exact Hp]. intros v io x [<-|[]]. auto. Qed.

Lemma told_more n e c : cause e = Some c -> (forall v io, display v c = display v e /\ description v io c = description v io e) -> told n c -> told (S n) e.
Proof.
  intros Hc Hd (l & last & HC & HL & HA & HP). exists (e :: l), last. split; [apply (chain_more e c); assumption|]. split; [cbn; lia|]. split; [|exact HP].
  intros v io x [<-|Hx]; [auto|]. destruct (HA v io x Hx) as [-> ->]. apply Hd.
Qed.

Lemma told_shp e : told 1 (AShp e).
Proof.
  destruct e; try (apply told_end; [reflexivity|right; reflexivity]).
  apply (told_more 0 _ AIo); [reflexivity|split; reflexivity|]. apply told_end; [reflexivity|left; reflexivity].
Qed.
Lemma told_dbf e : told 1 (ADbf e).
Proof.
  destruct e; try (apply told_end; [reflexivity|right; reflexivity]).
  apply (told_more 0 _ AIo); [reflexivity|split; reflexivity|]. apply told_end; [reflexivity|left; reflexivity].
Qed.
Lemma told_le n n' e : (n <= n')%nat -> told n e -> told n' e.
Proof. intros H (l & last & HC & HL & HR). exists l, last. split; [exact HC|]. split; [lia|exact HR]. Qed.
Lemma told_all e : told 2 e.
Proof.
  destruct e as [|e|e|[e|e| |]].
  - apply told_end; [reflexivity|left; reflexivity].
  - apply (told_le 1); [lia|apply told_shp].
  - apply (told_le 1); [lia|apply told_dbf].
  - apply (told_more 1 _ (AShp e)); [reflexivity|split; reflexivity|apply told_shp].
  - apply (told_more 1 _ (ADbf e)); [reflexivity|split; reflexivity|apply told_dbf].
  - apply told_end; [reflexivity|right; reflexivity].
  - apply told_end; [reflexivity|right; reflexivity].
Qed.

Lemma root_io : forall e l last, chain (ASf e) (l ++ [last]) -> last = AIo <-> e = SFShp SEIo \/ e = SFDbf DEIo.
Proof.
  assert (HN : forall e l x, cause e = None -> chain e (l ++ [x]) -> x = e).
  { intros e l x Hc H. remember (l ++ [x]) as k eqn:E. destruct H as [e Hc'|e c k' Hc' H]; [|congruence].
    destruct l as [|a [|b l]]; cbn in E; [congruence|discriminate|discriminate]. }
  assert (HC : forall e c l x, cause e = Some c -> chain e (l ++ [x]) -> exists l', chain c (l' ++ [x])).
  { intros e c l x Hc H. remember (l ++ [x]) as k eqn:E. destruct H as [e Hc'|e c' k' Hc' H]; [congruence|]. assert (c' = c) as -> by congruence.
    destruct l as [|a l]; [|injection E as _ ->; eauto]. injection E as _ ->. inversion H. }
  intros e l x H. destruct e as [e|e| |].
  - apply (HC _ (AShp e)) in H as [l' H]; [|reflexivity]. destruct e; try (apply HN in H; [|reflexivity]; subst x; split; [discriminate|intros [E|E]; discriminate E]).
    apply (HC _ AIo) in H as [l'' H]; [|reflexivity]. apply HN in H; [|reflexivity]. tauto.
  - apply (HC _ (ADbf e)) in H as [l' H]; [|reflexivity]. destruct e; try (apply HN in H; [|reflexivity]; subst x; split; [discriminate|intros [E|E]; discriminate E]).
    apply (HC _ AIo) in H as [l'' H]; [|reflexivity]. apply HN in H; [|reflexivity]. tauto.
  - apply HN in H; [|reflexivity]. subst x. split; [discriminate|intros [E|E]; discriminate E].
  - apply HN in H; [|reflexivity]. subst x. split; [discriminate|intros [E|E]; discriminate E].
Qed.
