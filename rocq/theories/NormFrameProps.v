(** * NormFrameProps: C111, normalizing in another frame of reference *)
From Verif Require Import BuildFrame NormTopo NormFrameSpec NormFrame NormProps NormCanonProps.

(** ** C111: turned and mirrored maps have the same normal form up to the starts and the order of rings *)

(** The rings of the normalized moved topology are the moved rings of the normalized topology, cut
    into the same edges. Where the frame is mirrored they are reversed, so they wind as before. *)
Theorem C111_frame : forall D m m' f (t t' s : topology D), valid t -> small_rings t ->
  normalize m t = Ok t' -> normalize m' (moved_topology f t) = Ok s ->
  Forall2 same_shape (map (facing_shape f) (read_topology t')) (read_topology s).
Proof.
  intros D m m' f t t' s V A H H'. exact (normalize_moved f t _ V (moved_valid f t V) (moved_moved_map f t) A m m' t' s H H').
Qed.
Print Assumptions C111_frame.

(** The same from regions to normalized topologies. *)
Theorem C111_regions : forall D m m' f (rs : list (region D)) t t' u s, Forall closed_region rs ->
  build_topology m rs = Ok t -> small_rings t -> normalize m t = Ok t' ->
  build_topology m' (map (moved_region f) rs) = Ok u -> normalize m' u = Ok s ->
  Forall2 same_shape (map (facing_shape f) (read_topology t')) (read_topology s).
Proof.
  intros D m m' f rs t t' u s Hc B A N B' N'.
  assert (V : valid t) by (apply (built_valid m rs t); [intros x r Hx; exact (proj1 (Forall_forall _ _) (proj1 (Forall_forall _ _) Hc x Hx) r)|exact B]).
  assert (Hc' : Forall closed_region (map (moved_region f) rs)).
  { apply Forall_map. revert Hc. apply Forall_impl. intros g H. unfold closed_region in *. cbn [moved_region rg_outer rg_inner]. rewrite <- map_app. apply Forall_map. revert H. apply Forall_impl. intros r. apply NormShift.closed_ring_moved. }
  assert (V' : valid u) by (apply (built_valid m' (map (moved_region f) rs) u); [intros x r Hx; exact (proj1 (Forall_forall _ _) (proj1 (Forall_forall _ _) Hc' x Hx) r)|exact B']).
  exact (normalize_moved f t u V V' (built_moved_map m m' f rs t u Hc B B') A m m' t' s N N').
Qed.
Print Assumptions C111_regions.

(** The quilt mirrored and turned: the rings start elsewhere, and in the mirrored map they are
    reversed. *)
Definition mirror : frame := Frame false true false 100 0.
Definition quarter : frame := Frame true true false 100 0.
Definition spun (f : frame) : topology Z := normalized (moved_topology f (built quilt)).

Example C111_case : forall f, f = mirror \/ f = quarter ->
  valid (built quilt) /\ small_rings (built quilt) /\ normalize Debug (built quilt) = Ok (normalized (built quilt)) /\
  normalize Debug (moved_topology f (built quilt)) = Ok (spun f) /\
  read_topology (spun f) <> map (facing_shape f) (read_topology (normalized (built quilt))) /\
  mirrors mirror = true /\ mirrors quarter = false.
Proof.
  intros f Hf. split; [exact quilt_valid|]. split; [apply smallb_ok; vm_compute; reflexivity|]. split; [vm_compute; reflexivity|].
  split; [destruct Hf as [-> | ->]; vm_compute; reflexivity|]. split; [destruct Hf as [-> | ->]; intros E; vm_compute in E; discriminate E|]. split; reflexivity.
Qed.
