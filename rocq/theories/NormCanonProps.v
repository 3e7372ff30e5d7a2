(** * NormCanonProps: C110, normal forms are unique *)
From Verif Require Import NormTopo NormCanonSpec NormCanon NormProps.

(** ** C110: the normal form depends on the rings only *)

(** Two topologies with the same rings, started elsewhere, in other directions, in another order or
    cut into other edges, have normalized topologies with the same rings, cut into the same edges. *)
Theorem C110_rings : forall D m1 m2 (t1 t2 s1 s2 : topology D), valid t1 -> valid t2 -> same_map t1 t2 -> small_rings t1 ->
  normalize m1 t1 = Ok s1 -> normalize m2 t2 = Ok s2 -> Forall2 same_shape (read_topology s1) (read_topology s2).
Proof. intros D m1 m2 t1 t2 s1 s2 V1 V2 M A. exact (normalize_same t1 t2 V1 V2 M A m1 m2 s1 s2). Qed.
Print Assumptions C110_rings.

(** They are the same topologies unless rings come back to their starts or start at the same point. *)
Theorem C110_unique_partial : forall D m1 m2 (t1 t2 s1 s2 : topology D), valid t1 -> valid t2 -> same_map t1 t2 -> small_rings t1 ->
  normalize m1 t1 = Ok s1 -> normalize m2 t2 = Ok s2 -> Forall clear_shape (read_topology s1) -> s1 = s2.
Proof. intros D m1 m2 t1 t2 s1 s2 V1 V2 M A. exact (normalize_canonical t1 t2 V1 V2 M A m1 m2 s1 s2). Qed.
Print Assumptions C110_unique_partial.

(** A check for examples: [swap] reverses the order of the rings of a side; for each ring, whether to
    reverse it and how far to turn it. *)
Definition course_eq_dec (a b : list (option nat * option nat * list point)) : {a = b} + {a <> b}.
Proof. repeat decide equality. Defined.
Definition alikeb (how : bool * nat) (a b : list norm_edge) : bool :=
  let c := course (if fst how then flipped a else a) in
  if course_eq_dec (skipn (snd how) c ++ firstn (snd how) c) (course b) then true else false.
Definition sideb {D} (t1 t2 : topology D) (how : bool * list (bool * nat)) (rs1 rs2 : list topo_ring) : bool :=
  (length rs1 =? length rs2)%nat && (length rs1 =? length (snd how))%nat &&
  forallb (fun x => alikeb (fst x) (seen_ring t1 (fst (snd x))) (seen_ring t2 (snd (snd x))))
    (combine (snd how) (combine rs1 (if fst how then rev rs2 else rs2))).
Definition mapb {D} (how : list ((bool * list (bool * nat)) * (bool * list (bool * nat)))) (t1 t2 : topology D) : bool :=
  (length (tp_regions t1) =? length (tp_regions t2))%nat && (length (tp_regions t1) =? length how)%nat &&
  forallb (fun x => sideb t1 t2 (fst (fst x)) (tg_outer (fst (snd x))) (tg_outer (snd (snd x))) &&
                    sideb t1 t2 (snd (fst x)) (tg_inner (fst (snd x))) (tg_inner (snd (snd x))))
    (combine how (combine (tp_regions t1) (tp_regions t2))).

Lemma alikeb_ok how a b : alikeb how a b = true -> alike a b.
Proof.
  unfold alikeb. destruct how as [[] n]; cbn [fst snd]; destruct (course_eq_dec _ _) as [E|]; try discriminate; intros _; [right|left];
    (eexists (firstn n _), (skipn n _); split; [symmetry; apply firstn_skipn|symmetry; exact E]).
Qed.

Lemma sideb_ok {D} (t1 t2 : topology D) how rs1 rs2 : sideb t1 t2 how rs1 rs2 = true -> same_rings t1 t2 rs1 rs2.
Proof.
  unfold sideb. rewrite !andb_true_iff, !Nat.eqb_eq. intros [[L1 L2] H]. exists (if fst how then rev rs2 else rs2). split; [destruct (fst how); [apply Permutation_rev|reflexivity]|].
  assert (L : length rs1 = length (if fst how then rev rs2 else rs2)) by (destruct (fst how); rewrite ?rev_length; exact L1).
  revert L H. generalize (if fst how then rev rs2 else rs2). clear L1. revert L2. generalize (snd how). clear. intros hs. revert rs1.
  induction hs as [|h hs IH]; intros [|r rs1] L2 [|r' rs] L H; try discriminate; [constructor|]. cbn [combine forallb fst snd] in H. apply andb_true_iff in H as [H1 H2]. cbn in L2, L. constructor; [exact (alikeb_ok _ _ _ H1)|apply IH; [lia|lia|exact H2]].
Qed.

Lemma mapb_ok (how : list ((bool * list (bool * nat)) * (bool * list (bool * nat)))) (t1 t2 : topology Z) :
  mapb how t1 t2 = true -> map tg_data (tp_regions t1) = map tg_data (tp_regions t2) -> same_map t1 t2.
Proof.
  unfold mapb, same_map. rewrite !andb_true_iff, !Nat.eqb_eq. intros [[L1 L2] H]. revert L1 L2 H. generalize (tp_regions t1) as gs1, (tp_regions t2) as gs2.
  induction how as [|h how IH]; intros [|g gs1] [|g' gs2] L1 L2 H E; try discriminate; [constructor|]. cbn [combine forallb fst snd map] in H, E. apply andb_true_iff in H as [H1 H2]. apply andb_true_iff in H1 as [Ho Hi].
  injection E as E1 E2. cbn in L1, L2. constructor; [|apply IH; [lia|lia|exact H2|exact E2]]. split; [exact E1|]. split; eapply sideb_ok; eassumption.
Qed.

Definition smallb {D} (t : topology D) : bool :=
  forallb (fun rg => forallb (fun r => Z.abs (shoelaces (map ne_points (seen_ring t r))) <? 2 ^ 63) (tg_outer rg ++ tg_inner rg)) (tp_regions t).
Lemma smallb_ok {D} (t : topology D) : smallb t = true -> small_rings t.
Proof. unfold smallb, small_rings. rewrite forallb_forall. intros H rg r Hg Hr. specialize (H rg Hg). rewrite forallb_forall in H. apply Z.ltb_lt, H, Hr. Qed.

(** Missing: that they are always the same.  Of two rings that start at the same point, the one that
    was first stays first. *)
Definition wings : list (region Z) :=
  [Region 1 [triangle (Pt 0 0) (Pt 9 0) (Pt 9 4); triangle (Pt 0 0) (Pt 0 9) (Pt 4 9)] []].
Definition swapped_wings : list (region Z) :=
  [Region 1 [triangle (Pt 0 0) (Pt 0 9) (Pt 4 9); triangle (Pt 0 0) (Pt 9 0) (Pt 9 4)] []].
(** A ring that comes back to its smallest point stays where it was. *)
Definition eight : list (region Z) := [Region 1 [RPoints [Pt 0 0; Pt 9 0; Pt 9 4; Pt 0 0; Pt 4 9; Pt 0 9; Pt 0 0]] []].
Definition turned_eight : list (region Z) := [Region 1 [RPoints [Pt 0 0; Pt 4 9; Pt 0 9; Pt 0 0; Pt 9 0; Pt 9 4; Pt 0 0]] []].

Definition turns (rs : list (region Z)) : list ((bool * list (bool * nat)) * (bool * list (bool * nat))) := if (length (flat_map rg_outer rs) =? 2)%nat then [((true, [(false, 0%nat); (false, 0%nat)]), (false, []))] else [((false, [(false, 3%nat)]), (false, []))].

Lemma wings_ok rs : rs = wings \/ rs = swapped_wings \/ rs = eight \/ rs = turned_eight -> build_topology Debug rs = Ok (built rs) /\ valid (built rs).
Proof.
  intros Hr. assert (B : build_topology Debug rs = Ok (built rs)) by (destruct Hr as [-> |[-> |[-> | ->]]]; vm_compute; reflexivity). split; [exact B|].
  apply (built_valid Debug rs); [|exact B]. destruct Hr as [-> |[-> |[-> | ->]]]; (intros x r [<-|[]]; cbn; intuition (subst; proper)).
Qed.

Theorem C110_refuted : forall rs1 rs2, (rs1, rs2) = (wings, swapped_wings) \/ (rs1, rs2) = (eight, turned_eight) ->
  exists t1 t2 s1 s2, build_topology Debug rs1 = Ok t1 /\ build_topology Debug rs2 = Ok t2 /\ valid t1 /\ valid t2 /\
    same_map t1 t2 /\ small_rings t1 /\ normalize Debug t1 = Ok s1 /\ normalize Debug t2 = Ok s2 /\ read_topology s1 <> read_topology s2.
Proof.
  intros rs1 rs2 H. exists (built rs1), (built rs2), (normalized (built rs1)), (normalized (built rs2)).
  destruct (wings_ok rs1) as [B1 V1]; [destruct H as [[= -> ->]|[= -> ->]]; auto|]. destruct (wings_ok rs2) as [B2 V2]; [destruct H as [[= -> ->]|[= -> ->]]; auto|].
  split; [exact B1|]. split; [exact B2|]. split; [exact V1|]. split; [exact V2|]. clear V1 V2 B1 B2.
  split; [apply (mapb_ok (turns rs1)); destruct H as [[= -> ->]|[= -> ->]]; vm_compute; reflexivity|].
  split; [apply smallb_ok; destruct H as [[= -> ->]|[= -> ->]]; vm_compute; reflexivity|].
  split; [destruct H as [[= -> ->]|[= -> ->]]; vm_compute; reflexivity|]. split; [destruct H as [[= -> ->]|[= -> ->]]; vm_compute; reflexivity|].
  destruct H as [[= -> ->]|[= -> ->]]; vm_compute; discriminate.
Qed.
Print Assumptions C110_refuted.

(** The quilt with other starts, directions, orders and edges. *)
Definition other_quilt : list (region Z) :=
  [ Region 1 [RPoints [Pt 20 10; Pt 20 0; Pt 10 0; Pt 10 10; Pt 20 10];
              REdges [[Pt 10 10; Pt 0 10; Pt 0 0; Pt 10 0]; [Pt 10 0; Pt 10 10]]] [];
    Region 2 [REdges [[Pt 20 10; Pt 20 20; Pt 10 20; Pt 10 10]; [Pt 10 10; Pt 20 10]]]
             [RPoints [Pt 16 16; Pt 16 12; Pt 12 12; Pt 12 16; Pt 16 16]];
    Region 3 [RPoints [Pt 16 12; Pt 12 12; Pt 12 16; Pt 16 16; Pt 16 12]] [] ].

Example C110_case : built quilt <> built other_quilt /\ valid (built quilt) /\ valid (built other_quilt) /\
  same_map (built quilt) (built other_quilt) /\ small_rings (built quilt) /\
  Forall clear_shape (read_topology (normalized (built quilt))) /\
  normalize Debug (built other_quilt) = Ok (normalized (built quilt)).
Proof.
  split; [vm_compute; discriminate|]. split; [exact quilt_valid|]. split; [|split; [|split; [|split; [|vm_compute; reflexivity]]]].
  - apply (built_valid Debug other_quilt); [|vm_compute; reflexivity].
    intros x r [<-|[<-|[<-|[]]]]; cbn [rg_outer rg_inner app In]; intros Hr; repeat (destruct Hr as [<-|Hr]; [first [proper | cbn; eexists; repeat (split; [reflexivity|]; eexists; split; [reflexivity|]); reflexivity]|]); destruct Hr.
  - apply (mapb_ok [((true, [(false, 2%nat); (true, 2%nat)]), (false, [])); ((false, [(false, 1%nat)]), (false, [(true, 2%nat)])); ((false, [(true, 3%nat)]), (false, []))]); vm_compute; reflexivity.
  - apply smallb_ok. vm_compute. reflexivity.
  - rewrite (proj2 (proj2 quilt_ok)).
    assert (HS : forall es p, ring_start es = Some p -> match es with [e] => ~ In p (removelast (tl e)) | _ => ~ In (Some p) (map first (tl es)) end -> starts_once (map Some es)) by (intros es p H1 H2; exists es, p; auto).
    repeat constructor; try (cbn; intuition congruence).
    + apply (HS [[Pt 10 10; Pt 0 10; Pt 0 0; Pt 10 0; Pt 20 0; Pt 20 10]; [Pt 20 10; Pt 10 10]] (Pt 10 10)); [reflexivity|]. cbn. intuition congruence.
    + apply (HS [[Pt 10 10; Pt 20 10]; [Pt 20 10; Pt 20 20; Pt 10 20; Pt 10 10]] (Pt 10 10)); [reflexivity|]. cbn. intuition congruence.
    + apply (HS [[Pt 12 12; Pt 12 16; Pt 16 16; Pt 16 12; Pt 12 12]] (Pt 12 12)); [reflexivity|]. cbn. intuition congruence.
    + apply (HS [[Pt 12 12; Pt 16 12; Pt 16 16; Pt 12 16; Pt 12 12]] (Pt 12 12)); [reflexivity|]. cbn. intuition congruence.
Qed.
