(** * HeapSpec: what the heap of points is for *)
From Coq Require Import Permutation.
From Verif Require Export ClipTopoSpec Simplify.

(** The weight of the point at a position of the heap, and the position above another. *)
Definition weight_at (h : pheap) (k : nat) : option Z :=
  match nth_error (ph_heap h) k with Some i => option_map vp_weight (nth_error (ph_points h) i) | None => None end.
Definition above (k : nat) : nat := ((k - 1) / 2)%nat.

Definition in_order (h : pheap) (k : nat) : Prop :=
  forall w v, weight_at h (above k) = Some w -> weight_at h k = Some v -> w <= v.
Definition heap_ordered (h : pheap) : Prop := forall k, (0 < k)%nat -> in_order h k.

(** The order may be disturbed between position [c] and the one above, or between position [c] and
    the ones below; without [c], everything is in order. *)
Definition over (h : pheap) (c : nat) : Prop :=
  forall k w v, (0 < c)%nat -> (0 < k)%nat -> above k = c -> weight_at h (above c) = Some w -> weight_at h k = Some v -> w <= v.
Definition ordered_but_above (h : pheap) (c : nat) : Prop := (forall k, (0 < k)%nat -> k <> c -> in_order h k) /\ over h c.
Definition ordered_but_below (h : pheap) (c : nat) : Prop := (forall k, (0 < k)%nat -> above k <> c -> in_order h k) /\ over h c.

(** Distinct points; each knows its position in the heap, or has not been moved yet and says 0. *)
Definition knows (h : pheap) (k i : nat) : Prop := exists p, nth_error (ph_points h) i = Some p /\ vp_heap p = k.
Definition traced (h : pheap) : Prop :=
  NoDup (ph_heap h) /\ forall k i, nth_error (ph_heap h) k = Some i -> knows h k i \/ knows h 0 i.
Definition recorded (h : pheap) : Prop := forall k i, nth_error (ph_heap h) k = Some i -> knows h k i.

(** The same points, at other positions of the heap. *)
Definition rearranged (h h' : pheap) : Prop :=
  Permutation (ph_heap h) (ph_heap h') /\ map (set_heap 0) (ph_points h') = map (set_heap 0) (ph_points h).
