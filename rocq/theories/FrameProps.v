(** * FrameProps: C101, clipping does not depend on the frame *)
From Verif Require Import FrameSpec Simplify FrameProofs FrameTopo ClipTopoProps.

(** ** C101: clipping the moved map is moving the clipped map *)
Theorem C101_edge : forall m f k ps, wf_mask k -> wf_mask (moved_mask f k) -> wf_points ps -> wf_points (moved_points f ps) ->
  clip_edge m (moved_mask f k) (moved_points f ps) =
    match clip_edge m k ps with Ok r => Ok (moved_points f r) | Panic p => Panic p end.
Proof. exact clip_edge_moved. Qed.
Print Assumptions C101_edge.

Theorem C101_shapes : forall D m m' f k (t t' s : topology D),
  wf_mask k -> wf_mask (moved_mask f k) -> wf_topology t -> stays f t ->
  clip_topology m t k = Ok t' -> clip_topology m' (moved_topology f t) (moved_mask f k) = Ok s ->
  read_topology s = map (moved_shape f) (read_topology t').
Proof. exact @clip_moved_read. Qed.
Print Assumptions C101_shapes.

(** Release builds return for both or for none. *)
Theorem C101_returns : forall D m f k (t t' : topology D),
  wf_mask k -> wf_mask (moved_mask f k) -> wf_topology t -> stays f t ->
  clip_topology m t k = Ok t' -> exists s, clip_topology Release (moved_topology f t) (moved_mask f k) = Ok s.
Proof. exact @clip_moved_returns. Qed.
Print Assumptions C101_returns.

(** The shared squares of [land], turned, reflected and shifted: the mask [MinY 5] becomes
    [MaxX 95].  The rings are the moved ones, but the closing lines are stored the other way round. *)
Definition turned : frame := Frame true true true 100 50.
Example C101_case :
  moved_mask turned (MinY 5) = MaxX 95 /\ wf_topology land_topology /\ stays turned land_topology /\
    exists s, clip_topology Debug (moved_topology turned land_topology) (MaxX 95) = Ok s /\
    read_topology s = map (moved_shape turned) (read_topology clipped_land) /\
    s <> moved_topology turned clipped_land.
Proof.
  split; [reflexivity|].
  assert (HF : Forall (fun e => Forall (fun p => 0 <= px p <= 20 /\ 0 <= py p <= 20) (te_points e)) (tp_edges land_topology)).
  { rewrite Forall_forall. intros e He. rewrite Forall_forall. intros p Hp. vm_compute in He.
    repeat (destruct He as [<-|He]; [cbn in Hp; repeat (destruct Hp as [<-|Hp]; [cbn; lia|]); destruct Hp|]). destruct He. }
  split; [|split].
  { unfold wf_topology. eapply Forall_impl; [|exact HF]. intros e. apply Forall_impl. intros p. unfold wf_point, is_u32. lia. }
  { unfold stays, moved_points. eapply Forall_impl; [|exact HF]. intros e He. unfold wf_points. rewrite Forall_map. revert He. apply Forall_impl.
    intros p. unfold wf_point, is_u32. cbn [moved turned place fr_swap fr_flip_x fr_flip_y fr_x fr_y px py]. lia. }
  eexists. split; [vm_compute; reflexivity|]. split; [vm_compute; reflexivity|]. intros E. vm_compute in E. discriminate E.
Qed.

(** An edge so long that a product overflows: the release build computes a wrong crossing point
    (its exact place is y = 4000000000), the same for the edge and the moved edge. *)
Example C101_overflow_case : let ps := [Pt 0 0; Pt 4294967000 4294967000] in
  let f := Frame false false true 0 4294967200 in
  clip_edge Debug (MinX 4000000000) ps = Panic POverflow /\
  wf_points (moved_points f ps) /\
  clip_edge Release (MinX 4000000000) ps = Ok [Pt 4000000000 3999999704; Pt 4294967000 4294967000] /\
  clip_edge Release (MinX 4000000000) (moved_points f ps) = Ok [Pt 4000000000 294967496; Pt 4294967000 200].
Proof.
  cbn zeta. split; [vm_compute; reflexivity|]. split; [repeat (apply Forall_cons || apply Forall_nil); split; unfold is_u32; cbn; lia|]. split; vm_compute; reflexivity.
Qed.

(** ** C18: even when a product overflows, the crossing point lies in the box of the segment *)
Theorem C18_between_partial : forall k p q, wf_mask k -> wf_point p -> wf_point q -> opposite k p q ->
  exists r, mask_intersect Release k p q = Ok r /\ on_line k r /\
    Z.min (along k p) (along k q) <= along k r <= Z.max (along k p) (along k q).
Proof.
  intros k p q Hk Hp Hq Ho. exists (rel_crossing k p q). split; [apply release_crossing; assumption|].
  split; [apply rel_on_line|]. destruct (rel_crossing_between k p q Hk Hp Hq Ho) as (j & _ & H). exact H.
Qed.
Print Assumptions C18_between_partial.

Example C18_between_case : opposite (MinX 4000000000) (Pt 0 0) (Pt 4294967000 4294967000) /\
  mask_intersect Release (MinX 4000000000) (Pt 0 0) (Pt 4294967000 4294967000) = Ok (Pt 4000000000 3999999704).
Proof. split; [right; unfold inside, outside; cbn; lia|vm_compute; reflexivity]. Qed.
