(** * BytesProofs: lemmas about reading integers and slices from bytes *)
From Verif Require Import BytesSpec TopoProofs.

Lemma le_bytes_length n z : length (le_bytes n z) = n.
Proof. revert z. induction n as [|n IH]; intros z; cbn; [reflexivity|]. rewrite IH. reflexivity. Qed.
Lemma be_bytes_length n z : length (be_bytes n z) = n.
Proof. unfold be_bytes. rewrite rev_length. apply le_bytes_length. Qed.
Lemma le_bytes_ok n z : bytes_ok (le_bytes n z).
Proof.
  revert z. induction n as [|n IH]; intros z; cbn; constructor; [|apply IH]. unfold is_byte. apply Z.mod_pos_bound. lia.
Qed.
Lemma be_bytes_ok n z : bytes_ok (be_bytes n z).
Proof. apply Forall_rev, le_bytes_ok. Qed.

Lemma in_bytes_S n z : in_bytes (S n) z <-> 0 <= z / 256 < 256 ^ Z.of_nat n.
Proof.
  unfold in_bytes. rewrite Nat2Z.inj_succ, Z.pow_succ_r by lia. split; intros [H1 H2].
  - split; [apply Z.div_pos; lia|apply Z.div_lt_upper_bound; lia].
  - pose proof (Z.div_mod z 256 ltac:(lia)). pose proof (Z.mod_pos_bound z 256 ltac:(lia)). nia.
Qed.

Lemma le_value_bytes n z : in_bytes n z -> le_value (le_bytes n z) = z.
Proof.
  revert z. induction n as [|n IH]; intros z H; cbn [le_bytes le_value].
  - unfold in_bytes in H. cbn in H. lia.
  - rewrite IH by (apply in_bytes_S in H; exact H). pose proof (Z.div_mod z 256 ltac:(lia)). lia.
Qed.
Lemma be_value_bytes n z : in_bytes n z -> be_value (be_bytes n z) = z.
Proof. intros H. unfold be_value, be_bytes. rewrite rev_involutive. apply le_value_bytes, H. Qed.

Lemma le_bytes_value bs : bytes_ok bs -> le_bytes (length bs) (le_value bs) = bs /\ in_bytes (length bs) (le_value bs).
Proof.
  induction 1 as [|b bs Hb H [IH1 IH2]]; [split; [reflexivity|unfold in_bytes; cbn; lia]|]. cbn [length le_value le_bytes].
  assert (E : (b + 256 * le_value bs) / 256 = le_value bs).
  { rewrite Z.mul_comm, Z.div_add by lia. rewrite Z.div_small by exact Hb. lia. }
  assert (E' : (b + 256 * le_value bs) mod 256 = b).
  { rewrite Z.mul_comm, Z.mod_add by lia. apply Z.mod_small, Hb. }
  rewrite E, E', IH1. split; [reflexivity|]. apply in_bytes_S. rewrite E. exact IH2.
Qed.
Lemma be_bytes_value bs : bytes_ok bs -> be_bytes (length bs) (be_value bs) = bs /\ in_bytes (length bs) (be_value bs).
Proof.
  intros H. unfold be_bytes, be_value. destruct (le_bytes_value (rev bs)) as [H1 H2]; [apply Forall_rev, H|].
  rewrite rev_length in *. rewrite H1, rev_involutive. auto.
Qed.

(** Every short byte string is an integer. *)
Lemma le_form n bs : bytes_ok bs -> length bs = n -> exists z, in_bytes n z /\ bs = le_bytes n z.
Proof. intros H <-. exists (le_value bs). destruct (le_bytes_value bs H). auto. Qed.
Lemma be_form n bs : bytes_ok bs -> length bs = n -> exists z, in_bytes n z /\ bs = be_bytes n z.
Proof. intros H <-. exists (be_value bs). destruct (be_bytes_value bs H). auto. Qed.

(** ** Cutting *)
Lemma cut (n : nat) (bs : list Z) : bytes_ok bs -> (n <= length bs)%nat ->
  exists a b, bs = a ++ b /\ length a = n /\ bytes_ok a /\ bytes_ok b.
Proof.
  intros H Hn. exists (firstn n bs), (skipn n bs). rewrite <- (firstn_skipn n bs) in H. apply Forall_app in H as [H1 H2].
  rewrite firstn_skipn, firstn_length. split; [reflexivity|]. split; [lia|]. auto.
Qed.

Lemma read_exact_app af n (a b : list Z) : Z.of_nat (length a) = n -> read_exact af n (a ++ b) = (Some a, b).
Proof.
  intros <-. unfold read_exact. rewrite app_length, Nat2Z.inj_add. destruct (Z.leb_spec (Z.of_nat (length a)) (Z.of_nat (length a) + Z.of_nat (length b))); [|lia].
  rewrite Nat2Z.id, firstn_app, skipn_app, Nat.sub_diag, firstn_all, skipn_all. cbn. rewrite app_nil_r. reflexivity.
Qed.
Lemma read_exact_short af n (s : list Z) : Z.of_nat (length s) < n -> read_exact af n s = (None, af s n).
Proof. intros H. unfold read_exact. destruct (Z.leb_spec n (Z.of_nat (length s))); [lia|reflexivity]. Qed.

Lemma sub_bytes_app (a b c : list Z) i j : length a = i -> (i + length b)%nat = j -> sub_bytes (a ++ b ++ c) i j = Ok b.
Proof.
  intros <- <-. unfold sub_bytes. rewrite !app_length.
  destruct (Nat.leb_spec (length a) (length a + length b)); [|lia].
  destruct (Nat.leb_spec (length a + length b) (length a + (length b + length c))); [|lia]. cbn [andb].
  rewrite skipn_app, skipn_all, Nat.sub_diag. cbn [skipn app]. replace (length a + length b - length a)%nat with (length b) by lia.
  rewrite firstn_app, firstn_all, Nat.sub_diag. cbn [firstn]. rewrite app_nil_r. reflexivity.
Qed.
Lemma sub_bytes_all (a b : list Z) i j : length a = i -> length (a ++ b) = j -> sub_bytes (a ++ b) i j = Ok b.
Proof.
  intros Hi Hj. pose proof (sub_bytes_app a b [] i j Hi) as H. rewrite app_nil_r in H. apply H. rewrite app_length in Hj. lia.
Qed.

Lemma read_le_bytes n z : in_bytes n z -> read_le n (le_bytes n z) = Ok z.
Proof.
  intros H. unfold read_le. pose proof (sub_bytes_app [] (le_bytes n z) [] 0 n eq_refl) as E. rewrite app_nil_r in E. cbn [app] in E.
  rewrite E by (rewrite le_bytes_length; reflexivity). cbn [bind]. rewrite le_value_bytes by exact H. reflexivity.
Qed.
Lemma read_be_bytes n z : in_bytes n z -> read_be n (be_bytes n z) = Ok z.
Proof.
  intros H. unfold read_be. pose proof (sub_bytes_app [] (be_bytes n z) [] 0 n eq_refl) as E. rewrite app_nil_r in E. cbn [app] in E.
  rewrite E by (rewrite be_bytes_length; reflexivity). cbn [bind]. rewrite be_value_bytes by exact H. reflexivity.
Qed.

Lemma le_at_app (a c : list Z) i n z : length a = i -> in_bytes n z -> le_at (a ++ le_bytes n z ++ c) i n = Ok z.
Proof.
  intros Hi Hz. unfold le_at. rewrite sub_bytes_app by (rewrite ?le_bytes_length; auto). cbn [bind]. apply read_le_bytes, Hz.
Qed.
Lemma be_at_app (a c : list Z) i n z : length a = i -> in_bytes n z -> be_at (a ++ be_bytes n z ++ c) i n = Ok z.
Proof.
  intros Hi Hz. unfold be_at. rewrite sub_bytes_app by (rewrite ?be_bytes_length; auto). cbn [bind]. apply read_be_bytes, Hz.
Qed.
(** The same at the end. *)
Lemma be_at_end (a : list Z) i n z : length a = i -> in_bytes n z -> be_at (a ++ be_bytes n z) i n = Ok z.
Proof. intros. pose proof (be_at_app a [] i n z) as E. rewrite app_nil_r in E. auto. Qed.

Lemma sub_bytes_panic bs i j : (length bs < j)%nat -> sub_bytes bs i j = Panic PIndex.
Proof. intros H. unfold sub_bytes. destruct (Nat.leb_spec j (length bs)); [lia|]. rewrite andb_false_r. reflexivity. Qed.
Lemma le_at_panic bs i n : (length bs < i + n)%nat -> le_at bs i n = Panic PIndex.
Proof. intros H. unfold le_at. rewrite sub_bytes_panic by exact H. reflexivity. Qed.
Lemma be_at_panic bs i n : (length bs < i + n)%nat -> be_at bs i n = Panic PIndex.
Proof. intros H. unfold be_at. rewrite sub_bytes_panic by exact H. reflexivity. Qed.

(** ** Chunks *)
Lemma chunks_fuel_concat {A} n (l : list (list A)) r fuel : (0 < n)%nat -> Forall (fun c => length c = n) l -> (length r < n)%nat ->
  (length (concat l ++ r) <= fuel)%nat -> chunks_fuel fuel n (concat l ++ r) = l ++ (match r with [] => [] | _ => [r] end).
Proof.
  intros Hn H. revert fuel. induction H as [|c l Hc H IH]; intros fuel Hr Hf; cbn [concat app] in *.
  - destruct r as [|x r]; [destruct fuel; reflexivity|]. destruct fuel as [|fuel]; [cbn in Hf; lia|]. cbn [chunks_fuel]. rewrite firstn_all2 by lia. f_equal.
    rewrite skipn_all2 by lia. destruct fuel; reflexivity.
  - rewrite <- app_assoc in *. rewrite app_length in Hf. destruct fuel as [|fuel]; [lia|]. cbn [chunks_fuel].
    destruct (c ++ concat l ++ r) as [|x t] eqn:E; [apply (f_equal (@length A)) in E; rewrite app_length in E; cbn in E; lia|]. rewrite <- E.
    rewrite <- Hc at 1. rewrite firstn_app, firstn_all, Nat.sub_diag. cbn [firstn]. rewrite app_nil_r. f_equal.
    rewrite <- Hc at 2. rewrite skipn_app, skipn_all, Nat.sub_diag. cbn [skipn app]. apply IH; [exact Hr|lia].
Qed.
Lemma chunks_concat {A} n (l : list (list A)) r : (0 < n)%nat -> Forall (fun c => length c = n) l -> (length r < n)%nat ->
  chunks n (concat l ++ r) = l ++ (match r with [] => [] | _ => [r] end).
Proof. intros. apply chunks_fuel_concat; auto. Qed.
Lemma chunks_exact {A} n (l : list (list A)) : (0 < n)%nat -> Forall (fun c => length c = n) l -> chunks n (concat l) = l.
Proof. intros Hn H. rewrite <- (app_nil_r (concat l)). rewrite chunks_concat by auto. apply app_nil_r. Qed.

(** Every byte string of the right length is a sequence of chunks. *)
Lemma chunks_form (n k : nat) (bs : list Z) : bytes_ok bs -> length bs = (n * k)%nat ->
  exists l, bs = concat l /\ length l = k /\ Forall (fun c => length c = n /\ bytes_ok c) l.
Proof.
  revert bs. induction k as [|k IH]; intros bs H HL.
  - exists []. assert (bs = []) as -> by (apply length_zero_iff_nil; lia). auto.
  - destruct (cut n bs H) as (a & b & -> & Ha & Hoa & Hob); [nia|]. rewrite app_length in HL.
    destruct (IH b Hob) as (l & -> & Hl & HF); [nia|]. exists (a :: l). cbn [concat length]. split; [reflexivity|]. split; [lia|]. constructor; auto.
Qed.

Lemma mmap_map {A B C} (f : A -> res B) (g : C -> A) l : mmap f (map g l) = mmap (fun c => f (g c)) l.
Proof. induction l as [|c l IH]; cbn; [reflexivity|]. rewrite IH. reflexivity. Qed.
Lemma mmap_id {A B} (f : A -> res B) (g : B -> A) l : (forall b, In b l -> f (g b) = Ok b) -> mmap f (map g l) = Ok l.
Proof.
  induction l as [|b l IH]; intros H; cbn; [reflexivity|]. rewrite H by (left; reflexivity). cbn [bind].
  rewrite IH by (intros; apply H; right; assumption). reflexivity.
Qed.
