(** * RebuildProps: C115, a topology given back to the builder *)
From Verif Require Import RebuildSpec RebuildProofs BuildProps NormTopo NormProps ClipTopoProps.

(** ** C115: building the regions of a built topology gives the same topology *)
Theorem C115_rebuild : forall D m (rs : list (region D)) t,
  build_topology m rs = Ok t -> build_topology m (as_input t) = Ok t.
Proof. exact @build_again. Qed.
Print Assumptions C115_rebuild.

(** Also together with other regions, before or after: a built topology can take the place of what
    it was built from.  In a debug build the topology may stay clear of an overflow at a path
    without length, so there it is only said what is returned. *)
Theorem C115_more : forall D m (rs more : list (region D)) t,
  build_topology m rs = Ok t ->
  build_topology Release (as_input t ++ more) = build_topology Release (rs ++ more) /\
  build_topology Release (more ++ as_input t) = build_topology Release (more ++ rs) /\
  forall t', (build_topology m (rs ++ more) = Ok t' -> build_topology m (as_input t ++ more) = Ok t') /\
             (build_topology m (more ++ rs) = Ok t' -> build_topology m (more ++ as_input t) = Ok t').
Proof. exact @rebuild_more. Qed.
Print Assumptions C115_more.

(** The topologies that [normalize] returns are built ones. *)
Theorem C115_normalized : forall D m (t t' : topology D),
  normalize m t = Ok t' -> build_topology m (as_input t') = Ok t'.
Proof. intros D m t t' H. apply normalize_Ok in H as (gs & _ & H). exact (build_again m gs t' H). Qed.
Print Assumptions C115_normalized.

(** A topology from elsewhere, with nothing that the builder drops, keeps its shapes. *)
Theorem C115_any : forall D m (t t' : topology D), whole t ->
  build_topology m (as_input t) = Ok t' -> read_topology t' = read_topology t.
Proof. exact @rebuild_any. Qed.
Print Assumptions C115_any.

Theorem C115_returns : forall D (t : topology D), whole t ->
  ((exists t', build_topology Release (as_input t) = Ok t') <->
   forall k, (count_path k (all_paths (read_topology t)) <= 2)%nat).
Proof. exact @again_returns. Qed.
Print Assumptions C115_returns.

Theorem C115_whole : forall D m (rs : list (region D)) t, build_topology m rs = Ok t -> whole t.
Proof. exact @built_whole. Qed.
Print Assumptions C115_whole.

(** The sample loses a flat ring, a region without area and a repeated point, and is then stable; a
    third square beside it finds the same edge.  The clipped squares are no built topology any more:
    rebuilt they keep their shapes, but the edges are numbered differently. *)
Definition third : region Z := Region 7 [sq 0 10] [].
Example C115_case : exists t t', build_topology Debug sample = Ok t /\ as_input t <> sample /\
  length (as_input t) = 2%nat /\
  build_topology Debug (sample ++ [third]) = Ok t' /\ build_topology Debug (as_input t ++ [third]) = Ok t' /\
  (length (tp_edges t') = length (tp_edges t) + 3)%nat.
Proof.
  eexists. eexists. split; [vm_compute; reflexivity|]. split; [discriminate|]. split; [reflexivity|].
  split; [vm_compute; reflexivity|]. split; vm_compute; reflexivity.
Qed.

Example C115_any_case : whole clipped_land /\
  exists t', build_topology Debug (as_input clipped_land) = Ok t' /\ t' <> clipped_land.
Proof.
  split.
  - intros rg I. vm_compute in I. repeat (destruct I as [<-|I]; [split; [discriminate|];
      intros r J; cbn [tg_outer tg_inner app] in J; repeat (destruct J as [<-|J]; [split; [|vm_compute; discriminate];
        intros d K; cbn [tr_des] in K; repeat (destruct K as [<-|K]; [eexists; split; vm_compute; reflexivity|]); destruct K|]); destruct J|]). destruct I.
  - eexists. split; [vm_compute; reflexivity|]. vm_compute. discriminate.
Qed.

Example C115_normalized_case : exists t', normalize Debug (built quilt) = Ok t' /\ length (as_input t') = length quilt /\ t' <> built quilt.
Proof. exists (normalized (built quilt)). split; [vm_compute; reflexivity|]. split; [reflexivity|]. vm_compute. discriminate. Qed.
