(** * ShuffleClip: clipping topologies that are the same apart from numbers *)
From Coq Require Import Permutation.
From Verif Require Import ClipTopoSpec GeoProofs TopoProofs BuildProofs NormTopo ClipEdgeProofs ClipTopoProofs ClipTopoLaws ClipTrace ClipLocal CrossProofs.
From Verif Require Import ShuffleSpec ShuffleBuild ShuffleNorm.

(** ** The edges of a clipped topology by their origin *)
Fixpoint olds (n : nat) (C : list (list point)) : list nat :=
  match C with [] => [] | c :: t => if big c then n :: olds (S n) t else olds (S n) t end.
Definition gap_of (ab : point * point) : use_key := KGap (fst ab) (snd ab).
Definition origins (C : list (list point)) (K : list (point * point)) : list use_key := map KOld (olds 0 C) ++ map gap_of K.
Definition origin_points (C : list (list point)) (k : use_key) : list point :=
  match k with KOld i => nth i C [] | KGap a b => [a; b] end.

Lemma olds_in C : forall n i, In i (olds n C) <-> exists j c, i = (n + j)%nat /\ nth_error C j = Some c /\ big c = true.
Proof.
  induction C as [|a C IH]; intros n i; cbn [olds]; [split; [intros []|intros ([|j] & c & _ & H & _); discriminate]|].
  assert (S1 : In i (olds (S n) C) <-> exists j c, i = (n + S j)%nat /\ nth_error C j = Some c /\ big c = true).
  { rewrite IH. split; intros (j & c & E & H); exists j, c; (split; [lia|exact H]). }
  destruct (big a) eqn:B; cbn [In]; rewrite S1; split.
  - intros [<-|(j & c & E & H)]; [exists 0%nat, a; split; [lia|cbn; auto]|exists (S j), c; auto].
  - intros ([|j] & c & E & H); [left; lia|right; exists j, c; auto].
  - intros (j & c & E & H). exists (S j), c. auto.
  - intros ([|j] & c & E & H & Bc); [cbn in H; congruence|exists j, c; auto].
Qed.
Lemma olds_nodup C : forall n, NoDup (olds n C).
Proof.
  induction C as [|a C IH]; intros n; cbn [olds]; [constructor|]. destruct (big a); [|apply IH]. constructor; [|apply IH].
  intros H. apply olds_in in H as (j & _ & E & _). lia.
Qed.
Lemma olds_points C0 C n : (forall j, nth_error C j = nth_error C0 (n + j)%nat) -> old_of C = map (fun i => nth i C0 []) (olds n C).
Proof.
  revert n. induction C as [|a C IH]; intros n H; [reflexivity|]. cbn [olds old_of filter]. fold (old_of C).
  assert (E : old_of C = map (fun i => nth i C0 []) (olds (S n) C)) by (apply IH; intros j; specialize (H (S j)); cbn [nth_error] in H; rewrite H; f_equal; lia).
  destruct (big a); [|exact E]. cbn [map]. f_equal; [|exact E]. specialize (H 0%nat). cbn [nth_error] in H. rewrite Nat.add_0_r in H. symmetry. apply nth_error_nth. congruence.
Qed.
Lemma finder_olds C : forall a n i j, nth_error (finder_from a C) i = Some (Some j) -> exists q, j = (a + q)%nat /\ nth_error (olds n C) q = Some (n + i)%nat.
Proof.
  induction C as [|c C IH]; intros a n i j H; [destruct i; discriminate|]. cbn [finder_from olds] in *. destruct (big c).
  - destruct i as [|i]; cbn [nth_error] in H.
    + injection H as <-. exists 0%nat. split; [lia|]. cbn. f_equal. lia.
    + apply (IH _ (S n)) in H as (q & -> & Hq). exists (S q). split; [lia|]. cbn [nth_error]. rewrite Hq. f_equal. lia.
  - destruct i as [|i]; cbn [nth_error] in H; [discriminate|]. apply (IH _ (S n)) in H as (q & -> & Hq). exists q. split; [lia|]. rewrite Hq. f_equal. lia.
Qed.
Lemma origins_points C s : pts_of C s = map (origin_points C) (origins C (keys s)).
Proof.
  unfold pts_of, origins, keys. rewrite map_app, !map_map. f_equal. apply (olds_points C C 0). intros j. reflexivity.
Qed.
Lemma olds_length C : forall n, length (olds n C) = length (old_of C).
Proof. induction C as [|a C IH]; intros n; [reflexivity|]. cbn [olds old_of filter]. fold (old_of C). destruct (big a); cbn [length]; rewrite IH; reflexivity. Qed.
Lemma idx_origins C s k i : nes_ok C s -> idx C s k = Some i -> nth_error (origins C (keys s)) i = Some k.
Proof.
  intros N. unfold origins. destruct k as [j|a b]; cbn [idx].
  - destruct (nth_error (finder_from 0 C) j) as [[q|]|] eqn:E; try discriminate. intros [= ->]. apply (finder_olds C 0 0) in E as (q & -> & Hq). cbn [Nat.add] in *.
    rewrite nth_error_app1 by (rewrite map_length; apply nth_error_Some; congruence). rewrite nth_error_map, Hq. reflexivity.
  - intros H. apply sm_find_in in H. apply (nes_nth C) in H as (j & Hj & E); [|exact N]. cbn [snd] in E. subst i.
    rewrite nth_error_app2; rewrite map_length, olds_length; [|lia]. replace (length (old_of C) + j - length (old_of C))%nat with j by lia.
    unfold keys. rewrite !nth_error_map, Hj. reflexivity.
Qed.
Lemma NoDup_two {A} (a b : list A) : NoDup a -> NoDup b -> (forall x, In x a -> ~ In x b) -> NoDup (a ++ b).
Proof.
  intros HA HB H. induction HA as [|x l Hx HA IH]; [exact HB|]. cbn [app]. constructor.
  - intros K. apply in_app_iff in K as [K|K]; [contradiction|]. apply (H x (or_introl eq_refl) K).
  - apply IH. intros y Hy. apply H. right. exact Hy.
Qed.
Lemma origins_nodup C s : nes_ok C s -> NoDup (origins C (keys s)).
Proof.
  intros (_ & _ & N & _). unfold origins. apply NoDup_two.
  - apply Injective_map_NoDup; [intros a b H; congruence|apply olds_nodup].
  - apply Injective_map_NoDup; [intros (a & b) (a' & b') H; unfold gap_of in H; cbn in H; congruence|exact N].
  - intros x Hx Hy. apply in_map_iff in Hx as (i & <- & _). apply in_map_iff in Hy as (ab & E & _). discriminate.
Qed.
Lemma add_keys_iff x ps : forall K, In x (add_keys K ps) <-> In x K \/ In x (flat_map gap_key ps).
Proof.
  unfold add_keys. generalize (flat_map gap_key ps) as l. induction l as [|y l IH]; intros K; cbn [fold_left In]; [tauto|]. rewrite IH. unfold add_key.
  destruct (in_dec seg_eq_dec y K) as [H|H]; [|rewrite in_app_iff; cbn [In]; tauto].
  split; [tauto|]. intros [K1|[<-|K1]]; tauto.
Qed.

(** ** Pieces under other numbers *)
Definition other_key (s : nat -> nat) (k : use_key) : use_key := match k with KOld i => KOld (s i) | KGap a b => KGap a b end.
Definition other_piece (s : nat -> nat) (p : piece) : piece := Piece (other_key s (pc_key p)) (pc_dir p) (pc_path p).
Lemma other_key_inj s : Injective s -> Injective (other_key s).
Proof. intros I [i|a b] [j|c d] H; cbn in H; try discriminate; [injection H as H; apply I in H; congruence|congruence]. Qed.

Definition clips_alike (s : nat -> nat) (C1 C2 : list (list point)) : Prop :=
  length C1 = length C2 /\ forall j, (j < length C2)%nat -> nth_error C1 (s j) = nth_error C2 j.
Definition clips_among (s : nat -> nat) (C1 C2 : list (list point)) : Prop := forall j, (j < length C2)%nat -> nth_error C1 (s j) = nth_error C2 j.

Section Pieces.
Variables (s : nat -> nat) (C1 C2 : list (list point)).
Hypothesis A : clips_among s C1 C2.

Definition uses_below (r : topo_ring) : Prop := forall d, In d (tr_des r) -> (de_edge d < length C2)%nat.

Lemma visible_piece_other d1 d2 : same_use s d1 d2 -> (de_edge d2 < length C2)%nat -> visible_piece C1 d1 = map (other_piece s) (visible_piece C2 d2).
Proof.
  intros (E & F) L. unfold visible_piece. rewrite E, F, (A _ L). destruct (nth_error C2 (de_edge d2)) as [[|x [|y c]]|]; reflexivity.
Qed.
Lemma visible_other r1 r2 : same_uses s r1 r2 -> uses_below r2 -> visible C1 r1 = map (other_piece s) (visible C2 r2).
Proof.
  unfold same_uses, uses_below, visible. intros F B. induction F as [|d1 d2 l1 l2 U F IH]; [reflexivity|]. cbn [flat_map]. rewrite map_app. f_equal.
  - apply visible_piece_other; [exact U|apply B; left; reflexivity].
  - apply IH. intros d Hd. apply B. right. exact Hd.
Qed.
Lemma gap_other p q : gap p q = map (other_piece s) (gap p q).
Proof. unfold gap. destruct (_ && _); [reflexivity|]. destruct (_ || _); reflexivity. Qed.
Lemma gap_between_other a b : gap_between a b = map (other_piece s) (gap_between a b).
Proof. destruct a, b; try reflexivity. apply gap_other. Qed.
Lemma close_other st ps : forall p, close_gaps st (other_piece s p) (map (other_piece s) ps) = map (other_piece s) (close_gaps st p ps).
Proof.
  induction ps as [|q ps IH]; intros p; cbn [map close_gaps].
  - apply gap_between_other.
  - rewrite map_app. cbn [map]. rewrite <- IH. f_equal. apply gap_between_other.
Qed.
Lemma clipped_other r1 r2 : same_uses s r1 r2 -> uses_below r2 -> clipped_ring C1 r1 = map (other_piece s) (clipped_ring C2 r2).
Proof.
  intros U B. unfold clipped_ring. rewrite (visible_other r1 r2 U B). destruct (visible C2 r2) as [|p ps]; [reflexivity|]. cbn [map]. f_equal. apply (close_other (first (pc_path p)) ps p).
Qed.
Lemma kept_other r1 r2 : same_uses s r1 r2 -> uses_below r2 -> ring_kept C1 r1 = ring_kept C2 r2.
Proof. intros U B. unfold ring_kept, clipped_area. rewrite (clipped_other r1 r2 U B), map_map. reflexivity. Qed.
Lemma trace_other m ps : forall a, trace m (map (other_piece s) ps) a = trace m ps a.
Proof. unfold trace. induction ps as [|p ps IH]; intros a; [reflexivity|]. cbn [map mfold]. change (piece_area m a (other_piece s p)) with (piece_area m a p). destruct (piece_area m a p); [apply IH|reflexivity]. Qed.

Lemma rings_other l1 l2 : Forall2 (same_uses s) l1 l2 -> (forall r, In r l2 -> uses_below r) ->
  clipped_rings C1 l1 = map (map (other_piece s)) (clipped_rings C2 l2) /\ existsb (ring_kept C1) l1 = existsb (ring_kept C2) l2 /\
  map (clipped_ring C1) l1 = map (map (other_piece s)) (map (clipped_ring C2) l2).
Proof.
  intros F B. unfold clipped_rings. induction F as [|r1 r2 l1 l2 U F IH]; [auto|]. destruct IH as (I1 & I2 & I3); [intros r Hr; apply B; right; exact Hr|].
  assert (Br : uses_below r2) by (apply B; left; reflexivity).
  cbn [filter existsb map]. rewrite (kept_other r1 r2 U Br), I2, I3, (clipped_other r1 r2 U Br). destruct (ring_kept C2 r2); cbn [map]; rewrite I1, ?(clipped_other r1 r2 U Br); auto.
Qed.

Section Region.
Context {D : Type}.
Variables g1 g2 : topo_region D.
Hypothesis R : renumbered_region s g1 g2.
Hypothesis B : forall r, In r (tg_outer g2 ++ tg_inner g2) -> uses_below r.

Lemma region_kept_other : region_kept C1 g1 = region_kept C2 g2.
Proof. destruct R as (_ & O & _). apply (rings_other _ _ O). intros r Hr. apply B, in_or_app. auto. Qed.
Lemma outer_other : clipped_rings C1 (tg_outer g1) = map (map (other_piece s)) (clipped_rings C2 (tg_outer g2)).
Proof. destruct R as (_ & O & _). apply (rings_other _ _ O). intros r Hr. apply B, in_or_app. auto. Qed.
Lemma inner_other : clipped_rings C1 (tg_inner g1) = map (map (other_piece s)) (clipped_rings C2 (tg_inner g2)).
Proof. destruct R as (_ & _ & O). apply (rings_other _ _ O). intros r Hr. apply B, in_or_app. auto. Qed.
Lemma seen_rings_other : Forall2 (same_uses s) (seen_rings C1 g1) (seen_rings C2 g2).
Proof. unfold seen_rings. rewrite region_kept_other. destruct R as (_ & O & I). apply Forall2_app; [exact O|]. destruct (region_kept C2 g2); [exact I|constructor]. Qed.
Lemma seen_rings_below r : In r (seen_rings C2 g2) -> uses_below r.
Proof. unfold seen_rings. intros H. apply B. apply in_app_iff in H as [H|H]; apply in_or_app; [auto|]. destruct (region_kept C2 g2); [auto|destruct H]. Qed.
Lemma can_clip_other m : can_clip m C1 g1 -> can_clip m C2 g2.
Proof.
  intros H r2 Hr. split; [apply seen_rings_below, Hr|]. apply In_nth_error in Hr as (i & Hi). pose proof seen_rings_other as F.
  assert (exists r1, nth_error (seen_rings C1 g1) i = Some r1 /\ same_uses s r1 r2) as (r1 & H1 & U).
  { clear -F Hi. revert i Hi. induction F as [|a b l l' H F IH]; intros [|i] Hi; try discriminate; cbn in *; [injection Hi as <-; eauto|apply IH, Hi]. }
  apply nth_error_In in H1, Hi. destruct (H r1 H1) as (_ & a & E). exists a. rewrite (clipped_other r1 r2 U (seen_rings_below r2 Hi)), trace_other in E. exact E.
Qed.
Definition region_pieces (C : list (list point)) (rg : topo_region D) : list piece :=
  if region_kept C rg then concat (clipped_rings C (tg_outer rg)) ++ concat (clipped_rings C (tg_inner rg)) else [].
Lemma region_pieces_other : region_pieces C1 g1 = map (other_piece s) (region_pieces C2 g2).
Proof.
  unfold region_pieces. rewrite region_kept_other, outer_other, inner_other. destruct (region_kept C2 g2); [|reflexivity]. rewrite map_app, !concat_map. reflexivity.
Qed.
Lemma ring_pieces_other : ring_pieces C1 (seen_rings C1 g1) = map (other_piece s) (ring_pieces C2 (seen_rings C2 g2)).
Proof. unfold ring_pieces. rewrite concat_map. f_equal. apply (rings_other _ _ seen_rings_other), seen_rings_below. Qed.
End Region.
End Pieces.

Lemma surviving_flat {D} C (rgs : list (topo_region D)) : surviving_pieces C rgs = flat_map (region_pieces C) rgs.
Proof.
  unfold surviving_pieces, region_pieces. induction rgs as [|g l IH]; [reflexivity|]. cbn [filter flat_map]. destruct (region_kept C g); cbn [flat_map]; rewrite IH; reflexivity.
Qed.
Lemma seen_flat {D} C (rgs : list (topo_region D)) : seen_pieces C rgs = flat_map (fun g => ring_pieces C (seen_rings C g)) rgs.
Proof. unfold seen_pieces. induction rgs as [|g l IH]; [reflexivity|]. cbn [flat_map]. rewrite ring_pieces_app, IH. reflexivity. Qed.
Lemma perm_flat {A B} (f g : A -> list B) l1 l2 : Permutation (map f l1) (map g l2) -> Permutation (flat_map f l1) (flat_map g l2).
Proof.
  intros P. rewrite !flat_map_concat_map. apply (Permutation_flat_map (fun x : list B => x)) in P. rewrite !flat_map_concat_map, !map_id in P. exact P.
Qed.
Lemma map_flat {A B C} (h : B -> C) (f : A -> list B) l : flat_map (fun x => map h (f x)) l = map h (flat_map f l).
Proof. induction l as [|a l IH]; [reflexivity|]. cbn [flat_map]. rewrite map_app, IH. reflexivity. Qed.
