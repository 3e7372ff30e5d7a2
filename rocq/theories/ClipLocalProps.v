(** * ClipLocalProps: C100, regions are clipped independently of each other *)
From Coq Require Import Permutation.
From Verif Require Import ClipTopoSpec ClipTwiceSpec Simplify ClipLocal ClipTopoProps.

(** ** C100: what a region is clipped to does not depend on the other regions *)
Theorem C100_local : forall D m k (t t' : topology D), clip_topology m t k = Ok t' ->
  exists f : topo_region D -> list (shape D), forall rgs others, Permutation (rgs ++ others) (tp_regions t) ->
    exists s, clip_topology m (Topology rgs (tp_edges t)) k = Ok s /\ read_topology s = flat_map f rgs.
Proof. exact @clip_local. Qed.
Print Assumptions C100_local.

(** If each region can be clipped, all can, unless a line would then belong to three rings. *)
Theorem C100_together : forall D m k (t : topology D), tp_regions t <> [] ->
  (forall rg, In rg (tp_regions t) -> exists s, clip_topology m (Topology [rg] (tp_edges t)) k = Ok s) ->
  (exists t', clip_topology m t k = Ok t') \/ clip_topology m t k = Panic PAssert.
Proof. exact @clip_together. Qed.
Print Assumptions C100_together.

(** The second square of [land] alone: the edges are numbered otherwise, the shape is that of [C25_case]. *)
Example C100_case : forall a b c, tp_regions land_topology = [a; b; c] ->
  (exists s, clip_topology Debug (Topology [b] (tp_edges land_topology)) (MinY 5) = Ok s /\
     read_topology s = skipn 1 (read_topology clipped_land) /\ tp_regions s <> skipn 1 (tp_regions clipped_land)) /\
  exists s, clip_topology Debug (Topology [c; b; a] (tp_edges land_topology)) (MinY 5) = Ok s /\
     read_topology s = rev (read_topology clipped_land).
Proof.
  intros a b c H. vm_compute in H. injection H as <- <- <-.
  split; eexists; (split; [vm_compute; reflexivity|]); [split|]; vm_compute; [reflexivity|discriminate|reflexivity].
Qed.

(** Three regions with the same edge: each can be clipped, the three together cannot. *)
Definition triple : topology Z :=
  Topology (map (fun n => TRegion n [TRing [DE 0 Forward] (Some 0%nat)] []) [1; 2; 3])
    [TEdge [Pt 0 0; Pt 9 0; Pt 9 9; Pt 0 0] (Some (RR 0 Outer 0)) None].
Example C100_triple_case :
  (forall rg, In rg (tp_regions triple) -> exists s, clip_topology Debug (Topology [rg] (tp_edges triple)) (MinX 3) = Ok s) /\
  clip_topology Debug triple (MinX 3) = Panic PAssert.
Proof.
  split; [|vm_compute; reflexivity]. intros rg [<-|[<-|[<-|[]]]]; eexists; vm_compute; reflexivity.
Qed.
