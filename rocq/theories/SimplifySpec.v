(** * SimplifySpec: which points simplification is to keep *)
From Verif Require Import ClipTopoSpec Simplify.

(** The weight [ws] finally gives point [i]: that of the triangle it forms with some
    [j] before and [k] after it, all other points between those two being removed.  The
    weight of a removed point may have been raised since, the weight of a kept one not. *)
Definition final_weight (m : mode) (ps : list point) (thr : Z) (ws : list Z) (i : nat) : Prop :=
  exists w j k w0, nth_error ws i = Some w /\ (j < i < k)%nat /\ (k < length ps)%nat /\
    weight2 m (nth j ps (Pt 0 0)) (nth i ps (Pt 0 0)) (nth k ps (Pt 0 0)) = Ok w0 /\
    w0 <= w /\ (thr <= w -> w0 = w) /\
    forall x wx, (j < x < k)%nat -> x <> i -> nth_error ws x = Some wx -> wx < thr.

(** The points whose weight reaches the threshold. *)
Definition kept_by (ps : list point) (ws : list Z) (thr : Z) : list point :=
  map fst (filter (fun q => thr <=? snd q) (combine ps ws)).

(** The end points and two interior points none of the others outweighs. *)
Definition best_two (ps : list point) (ws : list Z) (r : list point) : Prop :=
  exists i1 i2 w1 w2, (0 < i1 < i2)%nat /\ (i2 < length ps - 1)%nat /\
    nth_error ws i1 = Some w1 /\ nth_error ws i2 = Some w2 /\
    r = [nth 0 ps (Pt 0 0); nth i1 ps (Pt 0 0); nth i2 ps (Pt 0 0); nth (length ps - 1) ps (Pt 0 0)] /\
    forall x wx, (0 < x < length ps - 1)%nat -> x <> i1 -> x <> i2 -> nth_error ws x = Some wx -> wx <= w1 /\ wx <= w2.

(** Nothing left to remove: each interior point reaches the threshold with its neighbours. *)
Definition settled (m : mode) (thr : Z) (r : list point) : Prop :=
  forall a b c l l', r = l ++ a :: b :: c :: l' -> exists w, weight2 m a b c = Ok w /\ thr <= w.

(** The indices below [n] that are not gone. *)
Definition remaining (n : nat) (gone : list nat) : list nat := filter (fun i => negb (existsb (Nat.eqb i) gone)) (seq 0 n).

(** After the points [gone] have been taken out, keep the end points and the points whose
    triangle with their remaining neighbours reaches the threshold. *)
Definition left_by (m : mode) (ps : list point) (gone : list nat) (thr : Z) (r : list point) : Prop :=
  exists keep : nat -> bool,
    r = map (fun i => nth i ps (Pt 0 0)) (filter keep (remaining (length ps) gone)) /\
    keep 0%nat = true /\ keep (length ps - 1)%nat = true /\
    forall A j i k B, remaining (length ps) gone = A ++ j :: i :: k :: B ->
      exists w, weight2 m (nth j ps (Pt 0 0)) (nth i ps (Pt 0 0)) (nth k ps (Pt 0 0)) = Ok w /\ keep i = (thr <=? w).
