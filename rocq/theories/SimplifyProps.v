(** * SimplifyProps: C38-C44 and C63, simplification *)
From Coq Require Import Permutation.
From Verif Require Import ClipTopoSpec Simplify GeoProofs TopoProofs BuildProofs ClipEdgeProofs SimplifyProofs SimplifyLaws SimplifyHeap.

(** An open edge, and a ring that would be reduced to its end points. *)
Definition zigzag : list point := [Pt 0 0; Pt 1 5; Pt 2 0; Pt 3 1; Pt 4 0; Pt 5 5; Pt 6 0].
Definition small_ring : list point := [Pt 3 3; Pt 4 3; Pt 5 3; Pt 5 4; Pt 4 5; Pt 3 4; Pt 3 3].

(** ** C38: end points are kept and points only removed *)
Theorem C38_subsequence : forall m ps thr r,
  thr <= 2 ^ 64 - 1 -> simplify_edge m ps thr = Ok r ->
  subseq r ps /\ first r = first ps /\ final r = final ps /\ (2 <= length r)%nat.
Proof.
  intros m ps thr r Ht E. destruct (edge_ok_dec ps) as [HE|HE]; [|rewrite simplify_edge_rejects in E by exact HE; discriminate].
  destruct (simplify_edge_ok m ps thr HE Ht) as [[_ E']|(r' & E' & H)]; rewrite E in E'; [discriminate|]. injection E' as <-. tauto.
Qed.
Print Assumptions C38_subsequence.

Example C38_case : simplify_edge Debug zigzag 5 = Ok [Pt 0 0; Pt 1 5; Pt 4 0; Pt 5 5; Pt 6 0] /\
  simplify_edge Release zigzag 18446744073709551615 = Ok [Pt 0 0; Pt 6 0].
Proof. vm_compute. auto. Qed.

(** ** C39: a ring stays a ring *)
Theorem C39_ring : forall m ps thr r,
  thr <= 2 ^ 64 - 1 -> is_closed ps -> simplify_edge m ps thr = Ok r ->
  is_closed r /\ (4 <= length r)%nat.
Proof.
  intros m ps thr r Ht Hc E. destruct (edge_ok_dec ps) as [HE|HE]; [|rewrite simplify_edge_rejects in E by exact HE; discriminate].
  destruct (simplify_edge_ok m ps thr HE Ht) as [[_ E']|(r' & E' & H)]; rewrite E in E'; [discriminate|]. injection E' as <-.
  destruct H as (_ & Hf & Hl & H2 & H4 & _). split; [|apply H4, Hc]. destruct Hc as [_ Hc]. split; [intros ->; cbn in H2; lia|congruence].
Qed.
Print Assumptions C39_ring.

Example C39_case : is_closed small_ring /\
  simplify_edge Debug small_ring 1000 = Ok [Pt 3 3; Pt 5 3; Pt 5 4; Pt 3 3].
Proof. split; [split; [discriminate|reflexivity]|vm_compute; reflexivity]. Qed.

(** ** C40: simplify changes nothing but edge points *)
Theorem C40_only_points : forall D m (t t' : topology D) thr,
  simplify m t thr = Ok t' ->
  tp_regions t' = tp_regions t /\
  Forall2 (fun e e' => simplify_edge m (te_points e) thr = Ok (te_points e') /\
                       te_ring0 e' = te_ring0 e /\ te_ring1 e' = te_ring1 e) (tp_edges t) (tp_edges t').
Proof. intros D. exact simplify_parts. Qed.
Print Assumptions C40_only_points.

(** Rings stay connected and closed; the pointers stay exact. *)
Theorem C40_rings : forall D m (t t' : topology D) thr r ps,
  thr <= 2 ^ 64 - 1 -> simplify m t thr = Ok t' ->
  read_ring (tp_edges t) r = map Some ps -> closed_chain ps ->
  exists ps', read_ring (tp_edges t') r = map Some ps' /\ closed_chain ps' /\ Forall2 subseq ps' ps.
Proof. intros D. exact simplify_rings. Qed.
Print Assumptions C40_rings.

Theorem C40_references : forall D m (t t' : topology D) thr,
  simplify m t thr = Ok t' -> exact_references t -> exact_references t'.
Proof. intros D. exact simplify_references. Qed.
Print Assumptions C40_references.

(** Two regions sharing the zigzag. *)
Definition zig_topology : topology Z :=
  Topology [TRegion 1 [TRing [DE 0 Forward; DE 1 Forward] (Some 0%nat)] [];
            TRegion 2 [TRing [DE 0 Backward; DE 2 Forward] (Some 1%nat)] []]
           [TEdge zigzag (Some (RR 0 Outer 0)) (Some (RR 1 Outer 0));
            TEdge [Pt 6 0; Pt 3 9; Pt 0 0] (Some (RR 0 Outer 0)) None;
            TEdge [Pt 0 0; Pt 3 9; Pt 6 0] (Some (RR 1 Outer 0)) None].
Example C40_case : simplify Debug zig_topology 5 =
    Ok (Topology (tp_regions zig_topology)
          [TEdge [Pt 0 0; Pt 1 5; Pt 4 0; Pt 5 5; Pt 6 0] (Some (RR 0 Outer 0)) (Some (RR 1 Outer 0));
           TEdge [Pt 6 0; Pt 3 9; Pt 0 0] (Some (RR 0 Outer 0)) None;
           TEdge [Pt 0 0; Pt 3 9; Pt 6 0] (Some (RR 1 Outer 0)) None]) /\
  closed_chain [zigzag; [Pt 6 0; Pt 3 9; Pt 0 0]] /\
  read_ring (tp_edges zig_topology) (TRing [DE 0 Forward; DE 1 Forward] (Some 0%nat)) =
    map Some [zigzag; [Pt 6 0; Pt 3 9; Pt 0 0]].
Proof.
  split; [vm_compute; reflexivity|]. split; [|reflexivity]. exists (Pt 0 0). cbn [chain]. split; [reflexivity|]. exists (Pt 6 0). split; [reflexivity|].
  split; [reflexivity|]. exists (Pt 0 0). split; reflexivity.
Qed.

(** ** C41: no crash in release mode *)
Theorem C41_release : forall ps thr,
  thr <= 2 ^ 64 - 1 -> (2 <= length ps)%nat -> (is_closed ps -> (4 <= length ps)%nat) ->
  exists r, simplify_edge Release ps thr = Ok r.
Proof.
  intros ps thr Ht H2 H4. destruct (simplify_edge_ok Release ps thr (conj H2 H4) Ht) as [[E _]|(r & E & _)]; [discriminate|eauto].
Qed.
Print Assumptions C41_release.

(** In debug mode the only other outcome is an arithmetic overflow panic. *)
Theorem C41_debug : forall ps thr,
  thr <= 2 ^ 64 - 1 -> (2 <= length ps)%nat -> (is_closed ps -> (4 <= length ps)%nat) ->
  simplify_edge Debug ps thr = Panic POverflow \/ exists r, simplify_edge Debug ps thr = Ok r.
Proof.
  intros ps thr Ht H2 H4. destruct (simplify_edge_ok Debug ps thr (conj H2 H4) Ht) as [[_ E]|(r & E & _)]; eauto.
Qed.
Print Assumptions C41_debug.

(** The assertions reject exactly the other edges. *)
Theorem C41_rejects : forall m ps thr,
  (length ps < 2)%nat \/ (is_closed ps /\ (length ps < 4)%nat) -> simplify_edge m ps thr = Panic PAssert.
Proof. intros m ps thr H. apply simplify_edge_rejects. intros [H2 H4]. destruct H as [H|[Hc H]]; [lia|]. specialize (H4 Hc). lia. Qed.
Print Assumptions C41_rejects.

(** simplify returns for every topology whose edges are acceptable. *)
Theorem C41_topology : forall D (t : topology D) thr,
  thr <= 2 ^ 64 - 1 ->
  Forall (fun e => (2 <= length (te_points e))%nat /\ (is_closed (te_points e) -> (4 <= length (te_points e))%nat)) (tp_edges t) ->
  exists t', simplify Release t thr = Ok t'.
Proof. intros D. exact simplify_returns. Qed.
Print Assumptions C41_topology.

Example C41_case :
  simplify_edge Debug [Pt 4294967295 0; Pt 4294967295 1; Pt 0 0] 7 = Panic POverflow /\
  simplify_edge Release [Pt 4294967295 0; Pt 4294967295 1; Pt 0 0] 7 = Ok [Pt 4294967295 0; Pt 4294967295 1; Pt 0 0] /\
  simplify_edge Release [Pt 0 0; Pt 1 1; Pt 0 0] 7 = Panic PAssert.
Proof. vm_compute. auto. Qed.

(** ** C42: threshold zero *)
Theorem C42_identity : forall m ps r, simplify_edge m ps 0 = Ok r -> r = ps.
Proof.
  intros m ps r E. destruct (edge_ok_dec ps) as [HE|HE]; [|rewrite simplify_edge_rejects in E by exact HE; discriminate].
  destruct (simplify_edge_ok m ps 0 HE ltac:(discriminate)) as [[_ E']|(r' & E' & H)]; rewrite E in E'; [discriminate|]. injection E' as <-.
  apply H. lia.
Qed.
Print Assumptions C42_identity.

Theorem C42_topology : forall D m (t t' : topology D), simplify m t 0 = Ok t' -> t' = t.
Proof. intros D m t t' H. eapply simplify_zero; [intros ps r; apply C42_identity|exact H]. Qed.
Print Assumptions C42_topology.

Example C42_case : simplify_edge Debug zigzag 0 = Ok zigzag /\
  simplify_edge Debug [Pt 0 0; Pt 0 1; Pt 0 2; Pt 0 0] 0 = Ok [Pt 0 0; Pt 0 1; Pt 0 2; Pt 0 0].
Proof. vm_compute. auto. Qed.

(** ** C43: point weights *)

(** Twice the area of a triangle. *)
Definition triangle2 (a b c : point) : Z := Z.abs (shoelace [a; b; c; a]).

(** A point on the line between its neighbours has positive weight and survives threshold 1. *)
Theorem C43_weight_refuted : exists a b c,
  wf_points [a; b; c] /\ triangle2 a b c = 0 /\ weight2 Debug a b c = Ok 2 /\
  simplify_edge Debug [a; b; c] 1 = Ok [a; b; c].
Proof.
  exists (Pt 1 1), (Pt 2 2), (Pt 3 3). split; [|vm_compute; auto].
  repeat (apply Forall_cons; [unfold wf_point, is_u32; cbn; lia|]). apply Forall_nil.
Qed.
Print Assumptions C43_weight_refuted.

(** A proper triangle can have weight 0. *)
Theorem C43_lost_refuted : exists a b c,
  wf_points [a; b; c] /\ triangle2 a b c = 100 /\ weight2 Debug a b c = Ok 0 /\
  simplify_edge Debug [a; b; c] 1 = Ok [a; c].
Proof.
  exists (Pt 0 0), (Pt 10 0), (Pt 0 10). split; [|vm_compute; auto].
  repeat (apply Forall_cons; [unfold wf_point, is_u32; cbn; lia|]). apply Forall_nil.
Qed.
Print Assumptions C43_lost_refuted.

(** The weight is the doubled area with the first factor [b.x - a.x] replaced by [b.x * a.x]:
    in the exact range it is the doubled area if these are equal, or the edge [a]-[c] is
    horizontal. *)
Theorem C43_weight_partial : forall m a b c,
  fits (px b * px a) -> fits (py c - py a) -> fits (px b * px a * (py c - py a)) ->
  fits (px c - px a) -> fits (py b - py a) -> fits ((px c - px a) * (py b - py a)) ->
  fits (px b * px a * (py c - py a) - (px c - px a) * (py b - py a)) ->
  - 2 ^ 63 < px b * px a * (py c - py a) - (px c - px a) * (py b - py a) ->
  weight2 m a b c = Ok (Z.abs (px b * px a * (py c - py a) - (px c - px a) * (py b - py a))) /\
  (px b * px a = px b - px a \/ py c = py a -> weight2 m a b c = Ok (triangle2 a b c)).
Proof. exact weight2_exact. Qed.
Print Assumptions C43_weight_partial.

Example C43_case : weight2 Debug (Pt 0 7) (Pt 5 9) (Pt 8 7) = Ok 16 /\ triangle2 (Pt 0 7) (Pt 5 9) (Pt 8 7) = 16.
Proof. vm_compute. auto. Qed.

(** ** C44: order of elimination *)

(** A larger threshold keeps a point that a smaller threshold removes. *)
Theorem C44_monotone_refuted : exists ps thr thr' p,
  wf_points ps /\ thr < thr' /\
  (exists r, simplify_edge Debug ps thr = Ok r /\ ~ In p r) /\
  (exists r', simplify_edge Debug ps thr' = Ok r' /\ In p r').
Proof.
  exists [Pt 2 3; Pt 2 0; Pt 3 0; Pt 3 2; Pt 4 0], 9, 10, (Pt 3 0). split.
  { repeat (apply Forall_cons; [unfold wf_point, is_u32; cbn; lia|]). apply Forall_nil. }
  split; [lia|]. split.
  - exists [Pt 2 3; Pt 2 0; Pt 4 0]. split; [vm_compute; reflexivity|]. intros [H|[H|[H|[]]]]; discriminate.
  - exists [Pt 2 3; Pt 3 0; Pt 4 0]. split; [vm_compute; reflexivity|]. right; left; reflexivity.
Qed.
Print Assumptions C44_monotone_refuted.

(** After the first elimination (pop and two recalculations) the next point popped is not one of
    smallest weight. *)
Theorem C44_smallest_refuted : exists ps h0 top h1 h2 h3 next h4 other p q,
  heap_from Debug ps = Ok h0 /\ hpop h0 = Ok (top, h1) /\
  recalc Debug h1 (top - 1) = Ok h2 /\ recalc Debug h2 (top + 1) = Ok h3 /\
  hpop h3 = Ok (next, h4) /\ In other (ph_heap h4) /\
  nth_error (ph_points h4) next = Some p /\ nth_error (ph_points h4) other = Some q /\
  vp_weight q < vp_weight p.
Proof.
  exists [Pt 2 3; Pt 2 0; Pt 3 0; Pt 3 2; Pt 4 0].
  do 10 eexists. split; [vm_compute; reflexivity|]. split; [vm_compute; reflexivity|]. split; [vm_compute; reflexivity|]. split; [vm_compute; reflexivity|].
  split; [vm_compute; reflexivity|]. split; [vm_compute; left; reflexivity|]. split; [vm_compute; reflexivity|]. split; [vm_compute; reflexivity|]. vm_compute. reflexivity.
Qed.
Print Assumptions C44_smallest_refuted.

(** The first point popped has the smallest weight. *)
Theorem C44_first_partial : forall m ps h top h1,
  heap_from m ps = Ok h -> hpop h = Ok (top, h1) ->
  (0 < top < length ps - 1)%nat /\
  exists a b c w, nth_error ps (top - 1) = Some a /\ nth_error ps top = Some b /\ nth_error ps (top + 1) = Some c /\
    weight2 m a b c = Ok w /\
    forall i a' b' c' w', (0 < i < length ps - 1)%nat ->
      nth_error ps (i - 1) = Some a' -> nth_error ps i = Some b' -> nth_error ps (i + 1) = Some c' ->
      weight2 m a' b' c' = Ok w' -> w <= w'.
Proof. exact first_pop_spec. Qed.
Print Assumptions C44_first_partial.

Example C44_case : exists h h1, heap_from Debug zigzag = Ok h /\ hpop h = Ok (2%nat, h1).
Proof. do 2 eexists. split; [vm_compute; reflexivity|vm_compute; reflexivity]. Qed.

(** ** C63: when an edge is left alone *)
Theorem C63_unchanged : forall m ps thr r,
  0 <= thr <= 2 ^ 64 - 1 -> simplify_edge m ps thr = Ok r ->
  (forall i a b c w, (0 < i)%nat -> nth_error ps (i - 1) = Some a -> nth_error ps i = Some b -> nth_error ps (i + 1) = Some c ->
     weight2 m a b c = Ok w -> thr <= w) -> r = ps.
Proof. exact unchanged_if. Qed.
Print Assumptions C63_unchanged.

Theorem C63_changed : forall m ps thr r i a b c w,
  0 <= thr <= 2 ^ 64 - 1 -> ~ is_closed ps -> simplify_edge m ps thr = Ok r ->
  (0 < i)%nat -> nth_error ps (i - 1) = Some a -> nth_error ps i = Some b -> nth_error ps (i + 1) = Some c ->
  weight2 m a b c = Ok w -> w < thr -> (length r < length ps)%nat.
Proof. exact changed_if. Qed.
Print Assumptions C63_changed.

Example C63_case : simplify_edge Debug [Pt 5 5; Pt 6 8; Pt 7 5; Pt 9 1] 6 = Ok [Pt 5 5; Pt 6 8; Pt 7 5; Pt 9 1] /\
  simplify_edge Debug [Pt 5 5; Pt 6 8; Pt 7 5; Pt 9 1] 7 = Ok [Pt 5 5; Pt 7 5; Pt 9 1].
Proof. vm_compute. auto. Qed.
