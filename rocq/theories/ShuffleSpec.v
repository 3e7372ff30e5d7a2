(** * ShuffleSpec: the same topology with other numbers *)
From Coq Require Export FinFun.
From Verif Require Export TopoSpec.

(** Region [i] of the second topology is region [p i] of the first one, edge [j] is edge [s j]. *)
Definition same_use (s : nat -> nat) (d1 d2 : directed_edge) : Prop := de_edge d1 = s (de_edge d2) /\ de_dir d1 = de_dir d2.
Definition same_uses (s : nat -> nat) (r1 r2 : topo_ring) : Prop := Forall2 (same_use s) (tr_des r1) (tr_des r2).
Definition renumbered_region {D} (s : nat -> nat) (g1 g2 : topo_region D) : Prop :=
  tg_data g1 = tg_data g2 /\ Forall2 (same_uses s) (tg_outer g1) (tg_outer g2) /\ Forall2 (same_uses s) (tg_inner g1) (tg_inner g2).
Definition renumbered {D} (p s : nat -> nat) (t1 t2 : topology D) : Prop :=
  Injective p /\ Injective s /\ length (tp_regions t1) = length (tp_regions t2) /\ length (tp_edges t1) = length (tp_edges t2) /\
  (forall i g2, nth_error (tp_regions t2) i = Some g2 -> exists g1, nth_error (tp_regions t1) (p i) = Some g1 /\ renumbered_region s g1 g2) /\
  (forall j e2, nth_error (tp_edges t2) j = Some e2 -> exists e1, nth_error (tp_edges t1) (s j) = Some e1 /\ te_points e1 = te_points e2).

(** The second topology has the regions and edges of the first one in another order, and exact references. *)
Definition shuffled {D} (t1 t2 : topology D) : Prop :=
  exact_references t1 /\ exact_references t2 /\ exists p s, renumbered p s t1 t2.
