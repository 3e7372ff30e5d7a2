(** * ComposeSpec: vocabulary for applying the operations one after the other *)
From Verif Require Export NormSpec ClipTopoSpec.

(** The closed rectangle between two corners. *)
Definition in_box (lo hi p : point) : Prop := px lo <= px p <= px hi /\ py lo <= py p <= py hi.

(** Every point of every edge of a topology satisfies [P]. *)
Definition all_points {D} (P : point -> Prop) (t : topology D) : Prop :=
  forall e p, In e (tp_edges t) -> In p (te_points e) -> P p.

(** Clip by one mask after the other. *)
Fixpoint clip_all {D} (m : mode) (ks : list clip_mask) (t : topology D) : res (topology D) :=
  match ks with
  | [] => Ok t
  | k :: ks' => t' <- clip_topology m t k ;; clip_all m ks' t'
  end.

(** Every edge is a single segment, stored from its smaller to its larger end point, and no segment
    is stored twice; so are topologies built from rings of points. *)
Definition segmented {D} (t : topology D) : Prop :=
  NoDup (map te_points (tp_edges t)) /\
  forall e, In e (tp_edges t) -> exists p q, te_points e = [p; q] /\ lt_point p q.

(** A topology with correct references and edges that go somewhere; its rings need not be closed. *)
Definition traversable {D} (t : topology D) : Prop :=
  exact_references t /\ forall e, In e (tp_edges t) -> has_length (te_points e) = true.
