(** * PartClip: clipping a part of a topology *)
From Coq Require Import Permutation.
From Verif Require Import ClipTopoSpec GeoProofs TopoProofs BuildProofs NormTopo ClipEdgeProofs ClipTopoProofs ClipTopoLaws ClipTrace ClipLocal NormProofs CrossProofs.
From Verif Require Import ShuffleSpec ShuffleBuild ShuffleNorm ShuffleClip ShuffleClipped PartSpec PartProofs.

Lemma Forall2_nth_intro {A B} (P : A -> B -> Prop) l l' : length l = length l' ->
  (forall i a b, nth_error l i = Some a -> nth_error l' i = Some b -> P a b) -> Forall2 P l l'.
Proof.
  revert l'. induction l as [|a l IH]; intros [|b l'] L H; try discriminate; constructor; [exact (H 0%nat a b eq_refl eq_refl)|].
  apply IH; [injection L as L; exact L|]. intros i. exact (H (S i)).
Qed.

Lemma clips_part {D} m k p s (t1 t2 : topology D) C1 : is_part p s t1 t2 -> clips m k t1 C1 -> exists C2, clips m k t2 C2 /\ clips_among s C1 C2.
Proof.
  intros (_ & _ & _ & E & _) HC. exists (map (fun j => nth (s j) C1 []) (seq 0 (length (tp_edges t2)))).
  assert (N : forall j e2, nth_error (tp_edges t2) j = Some e2 -> exists e1 c, nth_error (tp_edges t1) (s j) = Some e1 /\ te_points e1 = te_points e2 /\
    nth_error C1 (s j) = Some c /\ clip_edge m k (te_points e1) = Ok c /\ nth_error (map (fun j => nth (s j) C1 []) (seq 0 (length (tp_edges t2)))) j = Some c).
  { intros j e2 E2. assert (Hj : (j < length (tp_edges t2))%nat) by (apply nth_error_Some; congruence).
    destruct (E j e2 E2) as (e1 & E1 & P). destruct (Forall2_nth_l _ _ _ _ _ HC E1) as (c & Hc & K). exists e1, c. repeat (split; [assumption|]).
    rewrite nth_error_map, (nth_error_nth' _ 0%nat) by (rewrite seq_length; exact Hj). rewrite seq_nth by exact Hj. cbn [option_map Nat.add].
    f_equal. apply nth_error_nth. exact Hc. }
  split.
  - apply Forall2_nth_intro; [rewrite map_length, seq_length; reflexivity|]. intros j e2 c E2 Ec. destruct (N j e2 E2) as (e1 & c' & _ & P & _ & K & Ec'). congruence.
  - intros j Hj. rewrite map_length, seq_length in Hj. destruct (nth_error (tp_edges t2) j) as [e2|] eqn:E2; [|apply nth_error_None in E2; lia].
    destruct (N j e2 E2) as (e1 & c & _ & _ & H & _ & H'). congruence.
Qed.

Definition cut_region {D} (C : list (list point)) (rgs : list (topo_region D)) (i : nat) : list (shape D) :=
  match nth_error rgs i with Some g => if region_kept C g then [clipped_shape C g] else [] | None => [] end.
Lemma cut_all {D} C (rgs : list (topo_region D)) : map (clipped_shape C) (filter (region_kept C) rgs) = flat_map (cut_region C rgs) (seq 0 (length rgs)).
Proof.
  assert (Q : forall n l, (forall i, nth_error l i = nth_error rgs (n + i)%nat) -> map (clipped_shape C) (filter (region_kept C) l) = flat_map (cut_region C rgs) (seq n (length l))).
  { intros n l. revert n. induction l as [|a l IH]; intros n H; [reflexivity|]. cbn [length seq flat_map filter].
    assert (E : map (clipped_shape C) (filter (region_kept C) l) = flat_map (cut_region C rgs) (seq (S n) (length l))).
    { apply IH. intros i. specialize (H (S i)). cbn [nth_error] in H. rewrite H. f_equal. lia. }
    rewrite <- E. unfold cut_region. specialize (H 0%nat). rewrite Nat.add_0_r in H. rewrite <- H. cbn [nth_error]. destruct (region_kept C a); reflexivity. }
  apply Q. reflexivity.
Qed.
Lemma cut_length {D} C (rgs : list (topo_region D)) i : (length (cut_region C rgs i) <= 1)%nat.
Proof. unfold cut_region. destruct (nth_error rgs i) as [g|]; [destruct (region_kept C g)|]; cbn; lia. Qed.
Lemma read_other s l : map read_pieces (map (map (other_piece s)) l) = map read_pieces l.
Proof. rewrite map_map. apply map_ext. intros ps. unfold read_pieces. rewrite map_map. reflexivity. Qed.

Theorem clip_part {D} m k (t part t' : topology D) p s : exact_references part -> is_part p s t part -> clip_topology m t k = Ok t' ->
  exists part', clip_topology m part k = Ok part' /\ exists f f', becomes t t' f /\ becomes part part' f' /\ forall i, (i < length (tp_regions part))%nat -> f' i = f (p i).
Proof.
  intros X2 R H1. destruct (clip_topology_ok m t t' k H1) as (C1 & _ & HC1 & _). destruct (clips_part m k p s t part C1 R HC1) as (C2 & HC2 & A).
  assert (L : length C2 = length (tp_edges part)) by (symmetry; eapply Forall2_length'; exact HC2).
  destruct (proj1 (clip_returns_iff m t k C1 HC1) (ex_intro _ t' H1)) as (CC & CK). rewrite Forall_forall in CC. pose proof R as (Ip & Is & G & _).
  assert (B : forall g2 r, In g2 (tp_regions part) -> In r (tg_outer g2 ++ tg_inner g2) -> uses_below C2 r).
  { intros g2 r G2 Hr d Hd. rewrite L. exact (region_edge_bound part g2 r d X2 G2 Hr Hd). }
  assert (KK : forall i g2, nth_error (tp_regions part) i = Some g2 -> exists g1, nth_error (tp_regions t) (p i) = Some g1 /\ ShuffleSpec.renumbered_region s g1 g2 /\
    (forall r, In r (tg_outer g2 ++ tg_inner g2) -> uses_below C2 r)).
  { intros i g2 G2. destruct (G i g2 G2) as (g1 & G1 & RR). exists g1. split; [exact G1|]. split; [exact RR|]. intros r. apply B. apply nth_error_In in G2. exact G2. }
  destruct (proj2 (clip_returns_iff m part k C2 HC2)) as (part' & H2).
  { split.
    - apply Forall_forall. intros g2 G2. apply In_nth_error in G2 as (i & G2). destruct (KK i g2 G2) as (g1 & G1 & RR & Bg).
      apply (can_clip_other s C1 C2 A g1 g2 RR Bg). apply CC. apply nth_error_In in G1. exact G1.
    - intros key.
      destruct (picked p (length (tp_regions part)) (map (fun g => map (other_piece s) (region_pieces C2 g)) (tp_regions part)) (map (region_pieces C1) (tp_regions t)) Ip) as (rest & P);
        [apply map_length| |].
      { intros i a Ha. rewrite nth_error_map in Ha. destruct (nth_error (tp_regions part) i) as [g2|] eqn:G2; [|discriminate]. injection Ha as <-.
        destruct (KK i g2 G2) as (g1 & G1 & RR & Bg). rewrite nth_error_map, G1. cbn [option_map]. f_equal. apply (region_pieces_other s C1 C2 A g1 g2 RR Bg). }
      apply (Permutation_flat_map (fun x : list piece => x)) in P. rewrite flat_map_app in P. rewrite !flat_map_concat_map, !map_id, <- !flat_map_concat_map, <- surviving_flat, map_flat, <- surviving_flat in P.
      specialize (CK (other_key s key)). unfold count_key in *. apply (Permutation_map pc_key) in P. rewrite <- (proj1 (Permutation_count_occ use_key_eq_dec _ _) P) in CK.
      rewrite map_app, count_occ_app, map_map in CK. change (fun x => pc_key (other_piece s x)) with (fun x => other_key s (pc_key x)) in CK. rewrite <- (map_map pc_key (other_key s)) in CK.
      rewrite <- (count_occ_map (other_key s) use_key_eq_dec use_key_eq_dec (other_key_inj s Is)) in CK. lia. }
  exists part'. split; [exact H2|]. exists (cut_region C1 (tp_regions t)), (cut_region C2 (tp_regions part)).
  destruct (clip_topology_full m t t' k C1 HC1 H1) as (b1 & B1 & Y1 & G1 & E1 & K1).
  destruct (clip_topology_full m part part' k C2 HC2 H2) as (b2 & B2 & Y2 & G2 & E2 & K2).
  split; [|split].
  - split; [|apply cut_length]. rewrite <- cut_all. apply (clip_read C1 b1 (tp_regions t) t' B1 G1 E1).
  - split; [|apply cut_length]. rewrite <- cut_all. apply (clip_read C2 b2 (tp_regions part) part' B2 G2 E2).
  - intros i Hi. unfold cut_region. destruct (nth_error (tp_regions part) i) as [g2|] eqn:Eg; [|apply nth_error_None in Eg; lia].
    destruct (KK i g2 Eg) as (g1 & Eg1 & RR & Bg). rewrite Eg1, (region_kept_other s C1 C2 A g1 g2 RR Bg). destruct (region_kept C2 g2); [|reflexivity].
    unfold clipped_shape. rewrite (outer_other s C1 C2 A g1 g2 RR Bg), (inner_other s C1 C2 A g1 g2 RR Bg), !read_other, (proj1 RR). reflexivity.
Qed.
