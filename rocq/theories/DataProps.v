(** * DataProps: C117, the data of regions *)
From Verif Require Import DataSpec DataProofs Normalize Clip Simplify NormProps.
Open Scope Z_scope.

(** ** C117: the data of the regions is only carried along *)

(** With other data the outcome is the same (the same panic, or the same topology) but for the data. *)
Theorem C117_build : forall D E (f : D -> E) m (rs : list (region D)),
  build_topology m (map (region_with f) rs) = outcome_with (topology_with f) (build_topology m rs).
Proof. intros D E f. exact (build_with f). Qed.
Print Assumptions C117_build.

Theorem C117_normalize : forall D E (f : D -> E) m (t : topology D),
  normalize m (topology_with f t) = outcome_with (topology_with f) (normalize m t).
Proof. intros D E f. exact (normalize_with f). Qed.
Print Assumptions C117_normalize.

Theorem C117_clip : forall D E (f : D -> E) m (t : topology D) k,
  clip_topology m (topology_with f t) k = outcome_with (topology_with f) (clip_topology m t k).
Proof. intros D E f. exact (clip_with f). Qed.
Print Assumptions C117_clip.

Theorem C117_simplify : forall D E (f : D -> E) m (t : topology D) threshold,
  simplify m (topology_with f t) threshold = outcome_with (topology_with f) (simplify m t threshold).
Proof. intros D E f. exact (simplify_with f). Qed.
Print Assumptions C117_simplify.

(** So regions that differ in their data only are treated alike, also when their data has different types:
    here all four operations, one after the other. *)
Definition chain_of {D} (m : mode) (k : clip_mask) (threshold : Z) (rs : list (region D)) : res (topology D) :=
  t <- build_topology m rs ;; t1 <- clip_topology m t k ;; t2 <- normalize m t1 ;; simplify m t2 threshold.

Theorem C117_alike : forall D E m k threshold (rs : list (region D)) (rs' : list (region E)),
  map (region_with (fun _ => tt)) rs = map (region_with (fun _ => tt)) rs' ->
  outcome_with (topology_with (fun _ => tt)) (chain_of m k threshold rs) =
  outcome_with (topology_with (fun _ => tt)) (chain_of m k threshold rs').
Proof.
  assert (X : forall D m k threshold (rs : list (region D)),
    outcome_with (topology_with (fun _ => tt)) (chain_of m k threshold rs) = chain_of m k threshold (map (region_with (fun _ => tt)) rs)).
  { intros D m k threshold rs. unfold chain_of. rewrite (build_with (fun _ => tt)). destruct (build_topology m rs) as [t|]; [|reflexivity]. cbn [bind outcome_with].
    rewrite (clip_with (fun _ => tt)). destruct (clip_topology m t k) as [t1|]; [|reflexivity]. cbn [bind outcome_with].
    rewrite (normalize_with (fun _ => tt)). destruct (normalize m t1) as [t2|]; [|reflexivity]. cbn [bind outcome_with].
    rewrite (simplify_with (fun _ => tt)). reflexivity. }
  intros D E m k threshold rs rs' H. rewrite !X, H. reflexivity.
Qed.
Print Assumptions C117_alike.

(** Two squares, named by numbers or by truth values. *)
Definition squares {D} (a b : D) : list (region D) :=
  [Region a [RPoints [Pt 0 0; Pt 10 0; Pt 10 10; Pt 0 10; Pt 0 0]] [];
   Region b [RPoints [Pt 10 0; Pt 20 0; Pt 20 10; Pt 10 10; Pt 10 0]] []].
Example C117_case :
  map (region_with (fun _ => tt)) (squares 1 2) = map (region_with (fun _ => tt)) (squares true false) /\
  (exists t, chain_of Debug (MinX 5) 3 (squares 1 2) = Ok t /\ map tg_data (tp_regions t) = [1; 2] /\ length (tp_edges t) = 3%nat) /\
  (exists t, chain_of Debug (MinX 5) 3 (squares true false) = Ok t /\ map tg_data (tp_regions t) = [true; false] /\ length (tp_edges t) = 3%nat).
Proof. split; [reflexivity|]. split; eexists; (split; [vm_compute; reflexivity|]); split; reflexivity. Qed.
