(** * TraitsSpec: the laws of comparisons *)
From Verif Require Export Traits.
From Flocq Require Import IEEE754.Binary IEEE754.Bits.

(** The laws of [Ord]: exactly one of the three answers each way, and [Less] is transitive. *)
Definition ordering_laws {A} (cmp : A -> A -> comparison) : Prop :=
  (forall a, cmp a a = Eq) /\ (forall a b, cmp b a = CompOpp (cmp a b)) /\
  (forall a b c, cmp a b = Lt -> cmp b c = Lt -> cmp a c = Lt) /\
  (forall a b c, cmp a b = Eq -> cmp a c = cmp b c).
(** [==] agrees with it. *)
Definition agrees {A} (eq : A -> A -> bool) (cmp : A -> A -> comparison) : Prop := forall a b, eq a b = true <-> cmp a b = Eq.

(** An equivalence, as [Eq] demands. *)
Definition equivalence_laws {A} (eq : A -> A -> bool) : Prop :=
  (forall a, eq a a = true) /\ (forall a b, eq a b = eq b a) /\ (forall a b c, eq a b = true -> eq b c = true -> eq a c = true).

(** A ring that starts at a point. *)
Definition starts_at (p : point) (r : ring) : bool := match r with REdges ((q :: _) :: _) => pt_eqb q p | _ => false end.

(** An f64 that is not NaN. *)
Definition is_number (bits : Z) : Prop := is_nan 53 1024 (b64_of_bits bits) = false.
