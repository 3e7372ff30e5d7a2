(** * ClipTwiceProps: C97, clipping a clipped topology *)
From Verif Require Import ClipTwiceSpec Simplify ClipTwice ClipTopoProps.

(** ** C97: a second clip by the same mask changes no shape, and a third changes nothing *)
Theorem C97_twice : forall D m k (t t' : topology D), clip_topology m t k = Ok t' ->
  exists t2, clip_topology m t' k = Ok t2 /\
    map without_repeats (read_topology t2) = map without_repeats (read_topology t') /\
    clip_topology m t2 k = Ok t2.
Proof. exact @clip_twice. Qed.
Print Assumptions C97_twice.

Theorem C97_exact : forall D m k (t t' t2 : topology D), clip_topology m t k = Ok t' -> no_repeats t' ->
  clip_topology m t' k = Ok t2 -> read_topology t2 = read_topology t'.
Proof. exact @clip_twice_exact. Qed.
Print Assumptions C97_exact.

(** The shared squares of [land]: the second clip returns the first one's result. *)
Example C97_case : clip_topology Debug land_topology (MinY 5) = Ok clipped_land /\ no_repeats clipped_land /\
  clip_topology Debug clipped_land (MinY 5) = Ok clipped_land.
Proof.
  split; [apply land_ok|]. split; [|vm_compute; reflexivity].
  intros e He. vm_compute in He. repeat (destruct He as [<-|He]; [vm_compute; reflexivity|]). destruct He.
Qed.

(** A line that leaves the mask at (3, 5) and comes back at the same point: the first clip writes
    the point twice, the second once, so the two results differ although the shapes do not. *)
Definition returning : topology Z :=
  Topology [TRegion 1 [TRing [DE 0 Forward; DE 1 Forward] (Some 0%nat)] []]
    [TEdge [Pt 5 5; Pt 3 5; Pt 0 8; Pt 0 2; Pt 6 8; Pt 9 9] (Some (RR 0 Outer 0)) None;
     TEdge [Pt 9 9; Pt 9 5; Pt 5 5] (Some (RR 0 Outer 0)) None].
Definition returned (first : list point) : topology Z :=
  Topology [TRegion 1 [TRing [DE 0 Forward; DE 1 Forward] (Some 0%nat)] []]
    [TEdge first (Some (RR 0 Outer 0)) None; TEdge [Pt 9 9; Pt 9 5; Pt 5 5] (Some (RR 0 Outer 0)) None].
Example C97_repeat_case :
  clip_topology Release returning (MinX 3) = Ok (returned [Pt 5 5; Pt 3 5; Pt 3 5; Pt 6 8; Pt 9 9]) /\
  clip_topology Release (returned [Pt 5 5; Pt 3 5; Pt 3 5; Pt 6 8; Pt 9 9]) (MinX 3)
    = Ok (returned [Pt 5 5; Pt 3 5; Pt 6 8; Pt 9 9]) /\
  clip_topology Release (returned [Pt 5 5; Pt 3 5; Pt 6 8; Pt 9 9]) (MinX 3)
    = Ok (returned [Pt 5 5; Pt 3 5; Pt 6 8; Pt 9 9]).
Proof. vm_compute. auto. Qed.

(** A ring that becomes a bow tie: the first clip closes it with a line on x = 3, finds no area,
    and drops the ring but not its lines; the second clip drops the line on x = 3. *)
Definition triangle_and (lines : list topo_edge) : topology Z :=
  Topology [TRegion 1 [TRing [DE 0 Forward] (Some 0%nat)] []]
    (TEdge [Pt 9 9; Pt 9 5; Pt 5 5; Pt 9 9] (Some (RR 0 Outer 0)) None :: lines).
Definition bow_tie : topology Z :=
  Topology [TRegion 1 [TRing [DE 0 Forward] (Some 0%nat); TRing [DE 1 Forward] (Some 0%nat)] []]
    [TEdge [Pt 9 9; Pt 9 5; Pt 5 5; Pt 9 9] (Some (RR 0 Outer 0)) None;
     TEdge [Pt 0 20; Pt 3 20; Pt 8 30; Pt 8 20; Pt 3 30; Pt 0 30; Pt 0 20] (Some (RR 0 Outer 1)) None].
Definition crossing : topo_edge := TEdge [Pt 3 20; Pt 8 30; Pt 8 20; Pt 3 30] None None.
Definition left_over : topo_edge := TEdge [Pt 3 20; Pt 3 30] None None.
Example C97_orphan_case :
  clip_topology Debug bow_tie (MinX 3) = Ok (triangle_and [crossing; left_over]) /\
  clip_topology Debug (triangle_and [crossing; left_over]) (MinX 3) = Ok (triangle_and [crossing]) /\
  clip_topology Debug (triangle_and [crossing]) (MinX 3) = Ok (triangle_and [crossing]).
Proof. vm_compute. auto. Qed.
