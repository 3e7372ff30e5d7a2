(** * CutTopo: the two halves of a map *)
From Verif Require Import GeoProofs TopoProofs BuildProofs ClipEdgeProofs ClipTopoProofs ClipTopoLaws ComposeProofs NormProofs NormTopo NormLaws PlaceSpec PlaceProofs PlaceClip PlaceLaws ClipAreaSpec ClipArea CutSpec CutProofs.
Open Scope Z_scope.

(** ** The segments of a clipped path *)

Definition offb (k : clip_mask) (s : list point) : bool := existsb (fun p => negb (axis k p =? level k)) s.

Lemma offb_line k p q : on_line k p -> on_line k q -> offb k [p; q] = false.
Proof. unfold on_line, offb. intros H1 H2. cbn. rewrite (proj2 (Z.eqb_eq _ _) H1), (proj2 (Z.eqb_eq _ _) H2). reflexivity. Qed.

Lemma offb_inside k p q : inside k p \/ inside k q -> offb k [p; q] = true.
Proof.
  intros H. unfold offb. cbn. destruct (Z.eqb_spec (axis k p) (level k)) as [E1|E1]; [|reflexivity].
  destruct (Z.eqb_spec (axis k q) (level k)) as [E2|E2]; [|reflexivity]. exfalso. destruct k; cbn in *; lia.
Qed.

Definition sound_part (k : clip_mask) (s : point * point * bool) : Prop :=
  (inside k (fst (fst s)) \/ inside k (snd (fst s))) /\ (snd s = false -> on_line k (fst (fst s))).

Lemma kept_parts_sound k X ps : good_X k X ps -> Forall (sound_part k) (kept_parts k X ps).
Proof.
  intros HX. apply Forall_forall. intros s Hs. apply in_flat_map in Hs as ((p & q) & Hin & Hs). cbn [fst snd] in Hs.
  unfold kept_part in Hs. destruct (insideb_spec k p) as [Ip|Ip].
  - destruct Hs as [<-|[]]. split; [left; exact Ip|discriminate].
  - destruct (insideb_spec k q) as [Iq|Iq]; [|destruct Hs]. destruct (outsideb_spec k p) as [Op|Op].
    + destruct Hs as [<-|[]]. split; [right; exact Iq|]. intros _. apply HX; [exact Hin|]. right. auto.
    + destruct Hs as [<-|[]]. split; [right; exact Iq|discriminate].
Qed.

Lemma fold_segments k parts : forall o z, parts_joined k parts -> Forall (sound_part k) parts ->
  match parts with s :: _ => z = fst (fst s) \/ (on_line k z /\ on_line k (fst (fst s))) | [] => True end ->
  off_line k (segments (fold_left append_part parts (o ++ [z]))) = off_line k (segments (o ++ [z])) ++ ends_list parts.
Proof.
  induction parts as [|[[a b] v] parts IH]; intros o z HJ HS H0; [cbn; rewrite app_nil_r; reflexivity|].
  inversion HS as [|? ? (S1 & S2) HS']; subst. cbn [fst snd] in *.
  assert (HJ' : parts_joined k parts) by (destruct parts; [exact I|apply HJ]).
  assert (H1 : match parts with s :: _ => b = fst (fst s) \/ (on_line k b /\ on_line k (fst (fst s))) | [] => True end).
  { destruct parts; [exact I|apply HJ]. }
  assert (Hab : offb k [a; b] = true) by (apply offb_inside, S1).
  cbn [fold_left append_part]. rewrite final_app. change (ends_list ((a, b, v) :: parts)) with ([[a; b]] ++ ends_list parts).
  destruct (v && pt_eqb z a) eqn:Ev.
  - apply andb_true_iff in Ev as (_ & Ez). apply pt_eqb_eq in Ez. subst z.
    rewrite (IH (o ++ [a]) b HJ' HS' H1), segments_snoc. unfold off_line. rewrite filter_app. cbn [filter]. fold (offb k [a; b]). rewrite Hab, <- app_assoc. reflexivity.
  - replace ((o ++ [z]) ++ [a; b]) with (((o ++ [z]) ++ [a]) ++ [b]) by (rewrite <- !app_assoc; reflexivity).
    rewrite (IH ((o ++ [z]) ++ [a]) b HJ' HS' H1), segments_snoc, segments_snoc. unfold off_line. rewrite !filter_app. cbn [filter].
    fold (offb k [a; b]) (offb k [z; a]). rewrite Hab.
    assert (Hza : offb k [z; a] = false).
    { destruct H0 as [->|(L1 & L2)]; [|apply offb_line; assumption]. rewrite pt_eqb_refl, andb_true_r in Ev. apply offb_line; apply S2, Ev. }
    rewrite Hza, app_nil_r, <- app_assoc. reflexivity.
Qed.

Lemma clip_path_segments k X ps : good_X k X ps -> off_line k (segments (clip_path k X ps)) = ends_list (kept_parts k X ps).
Proof.
  intros HX. pose proof (kept_parts_joined k X ps HX) as HJ. pose proof (kept_parts_sound k X ps HX) as HS. unfold clip_path.
  destruct (kept_parts k X ps) as [|[[a b] v] parts]; [reflexivity|].
  cbn [fold_left append_part final rev hd_error]. rewrite andb_false_r. cbn [app]. inversion HS as [|? ? (S1 & _) HS']; subst. cbn [fst snd] in S1.
  change [a; b] with ([a] ++ [b]) at 1. rewrite fold_segments; [|destruct parts; [exact I|apply HJ]|assumption|destruct parts; [exact I|apply HJ]].
  unfold off_line. cbn [app segments filter]. fold (offb k [a; b]). rewrite (offb_inside k a b S1). reflexivity.
Qed.

Lemma plain_parts k Y w : (forall p q, In [p; q] (segments w) -> ~ opposite k p q) -> ends_list (kept_parts k Y w) = reaching k (segments w).
Proof.
  unfold ends_list, reaching. induction w as [|p w IH]; intros H; [reflexivity|]. destruct w as [|q t]; [reflexivity|].
  rewrite kept_parts_cons2, map_app, IH by (intros a b Hab; apply H; right; exact Hab).
  change (segments (p :: q :: t)) with ([p; q] :: segments (q :: t)). cbn [filter existsb].
  pose proof (H p q (or_introl eq_refl)) as Hn. unfold kept_part. destruct (insideb_spec k p) as [Ip|Ip]; cbn [orb].
  - destruct (outsideb_spec k q) as [Oq|Oq]; [exfalso; apply Hn; left; auto|reflexivity].
  - destruct (insideb_spec k q) as [Iq|Iq]; cbn [orb]; [|reflexivity].
    destruct (outsideb_spec k p) as [Op|Op]; [exfalso; apply Hn; right; auto|reflexivity].
Qed.

Lemma easy_good k X ps : easy k ps -> knows k X ps -> good_X k X ps.
Proof. intros HE HK p q Hin Ho. rewrite (HK p q Hin Ho). apply (HE p q Hin Ho). Qed.

Lemma crosses_other k p q : crosses (other_side k) p q = crosses k p q.
Proof. unfold crosses. destruct k; cbn [other_side insideb outsideb]; apply orb_comm. Qed.

Lemma add_points_other k ps : add_points (other_side k) ps = add_points k ps.
Proof.
  induction ps as [|p ps IH]; [reflexivity|]. destruct ps as [|q t]; [reflexivity|].
  change (add_points (other_side k) (p :: q :: t)) with (if crosses (other_side k) p q then p :: crossing (other_side k) p q :: add_points (other_side k) (q :: t) else p :: add_points (other_side k) (q :: t)).
  rewrite IH, crosses_other, crossing_other. reflexivity.
Qed.

Lemma clip_side m k ps c : wf_mask k -> wf_points ps -> (forall p q, In [p; q] (segments ps) -> small_step p q) ->
  clip_edge m k ps = Ok c -> off_line k (segments c) = reaching k (segments (add_points k ps)).
Proof.
  intros Hk HW HS H. destruct (small_easy k ps Hk HW HS) as (HE & HK & _). rewrite (clip_edge_path m k ps c H).
  rewrite (clip_path_segments _ _ _ (easy_good _ _ _ HE (HK m))), (cut_parts k _ (crossing k) ps HE (HK m)).
  apply plain_parts, (cut_plain_steps k ps), add_points_cut, HE.
Qed.

Lemma off_line_other k ss : off_line (other_side k) ss = off_line k ss.
Proof. destruct k; reflexivity. Qed.

(** ** Topologies *)

Definition cut_edges {D} (k : clip_mask) (t : topology D) : topology D :=
  Topology (tp_regions t) (map (fun e => TEdge (add_points k (te_points e)) (te_ring0 e) (te_ring1 e)) (tp_edges t)).

Section Cut.
Context {D : Type}.
Variables (k : clip_mask) (t : topology D).
Hypothesis Hk : wf_mask k.
Hypothesis Ht : wf_topology t.
Hypothesis HS : small_steps t.

Lemma edge_easy e : In e (tp_edges t) ->
  easy k (te_points e) /\ (forall m, knows k (isect m k) (te_points e)) /\ (forall m, exists c, clip_edge m k (te_points e) = Ok c).
Proof.
  intros He. apply small_easy; [exact Hk| |intros p q; apply HS, He]. unfold wf_topology in Ht. rewrite Forall_forall in Ht. apply Ht, He.
Qed.

Lemma cut_edges_map : cut_map k t (cut_edges k t).
Proof.
  split; [reflexivity|]. cbn [cut_edges tp_edges].
  assert (A : forall es, incl es (tp_edges t) -> Forall2 (fun e e' => cut k (te_points e) (te_points e') /\ te_ring0 e' = te_ring0 e /\ te_ring1 e' = te_ring1 e)
    es (map (fun e => TEdge (add_points k (te_points e)) (te_ring0 e) (te_ring1 e)) es)); [|apply A, incl_refl].
  induction es as [|e es IH]; intros HI; [constructor|]. constructor; [|apply IH; intros x Hx; apply HI; right; exact Hx].
  cbn [te_points te_ring0 te_ring1]. split; [|auto]. apply add_points_cut, edge_easy, HI. left. reflexivity.
Qed.

Let w := cut_edges k t.

Lemma cut_edge_in e' : In e' (tp_edges w) -> exists e, In e (tp_edges t) /\ te_points e' = add_points k (te_points e).
Proof. intros H. apply in_map_iff in H as (e & <- & He). exists e. auto. Qed.

Lemma cut_wf_topology : wf_topology w.
Proof.
  apply Forall_forall. intros e' He'. destruct (cut_edge_in e' He') as (e & He & ->). apply (cut_wf k (te_points e)); [exact Hk| |].
  - apply add_points_cut, edge_easy, He.
  - unfold wf_topology in Ht. rewrite Forall_forall in Ht. apply Ht, He.
Qed.

Lemma cut_small_steps : small_steps w.
Proof.
  intros e' p q He' Hin. destruct (cut_edge_in e' He') as (e & He & E). rewrite E in Hin.
  eapply cut_small; [apply add_points_cut, edge_easy, He| |exact Hin]. intros a b. apply HS, He.
Qed.

Lemma cut_no_crossing e' p q : In e' (tp_edges w) -> In [p; q] (segments (te_points e')) -> ~ opposite k p q.
Proof.
  intros He' Hin. destruct (cut_edge_in e' He') as (e & He & E). rewrite E in Hin.
  eapply cut_plain_steps; [|exact Hin]. apply add_points_cut, edge_easy, He.
Qed.

(** Clipping the cut map gives the same, up to repeated points. *)
Definition alike (c d : list point) : Prop := dedup c = dedup d /\ big c = big d.

Lemma big_parts X ps : big (clip_path k X ps) = match kept_parts k X ps with [] => false | _ => true end.
Proof.
  unfold clip_path. destruct (kept_parts k X ps) as [|[[a b] v] parts]; [reflexivity|].
  cbn [fold_left append_part final rev hd_error]. rewrite andb_false_r. cbn [app].
  assert (L : (2 <= length (fold_left append_part parts [a; b]))%nat).
  { assert (G : forall ps o, (length o <= length (fold_left append_part ps o))%nat).
    { induction ps0 as [|s l IH]; intros o; [cbn; lia|]. cbn [fold_left]. pose proof (append_part_length o s) as (_ & Q). specialize (IH (append_part o s)). lia. }
    apply (G parts [a; b]). }
  unfold big. destruct (Nat.leb_spec 2 (length (fold_left append_part parts [a; b]))); [reflexivity|lia].
Qed.

Lemma clips_cut m C : clips m k t C -> exists C', clips m k w C' /\ Forall2 alike C C'.
Proof.
  intros HC. unfold clips in *.
  assert (A : forall es, incl es (tp_edges t) -> forall C, Forall2 (fun e c => clip_edge m k (te_points e) = Ok c) es C ->
    exists C', Forall2 (fun e c => clip_edge m k (te_points e) = Ok c) (map (fun e => TEdge (add_points k (te_points e)) (te_ring0 e) (te_ring1 e)) es) C' /\ Forall2 alike C C').
  2: exact (A (tp_edges t) (incl_refl _) C HC).
  clear HC C. induction es as [|e es IH]; intros HI C HC; inversion HC as [|? c ? C0 Hc HC0]; subst; [exists []; split; constructor|].
  destruct (IH (fun x Hx => HI x (or_intror Hx)) C0 HC0) as (C' & F1 & F2).
  assert (He : In e (tp_edges t)) by (apply HI; left; reflexivity). destruct (edge_easy e He) as (HE & HK & _).
  assert (Hd : exists d, clip_edge m k (add_points k (te_points e)) = Ok d).
  { eexists. apply (clip_edge_returns m k (crossing k)). intros p q Hin Ho. exfalso. apply segments_combine in Hin.
    apply (cut_plain_steps k _ _ (add_points_cut k _ HE) p q Hin Ho). }
  destruct Hd as (d & Hd). exists (d :: C'). split; [constructor; [exact Hd|exact F1]|]. constructor; [|exact F2].
  rewrite (clip_edge_path m k _ _ Hc), (clip_edge_path m k _ _ Hd). split; [apply cut_dedup; auto|].
  rewrite !big_parts. pose proof (cut_parts k (isect m k) (isect m k) (te_points e) HE (HK m)) as E.
  destruct (kept_parts k (isect m k) (te_points e)), (kept_parts k (isect m k) (add_points k (te_points e))); try discriminate; reflexivity.
Qed.

(** The rings of the cut map. *)
Lemma seen_cut d0 : seen t d0 = [] /\ seen w d0 = [] \/
  exists e e', seen t d0 = [e] /\ seen w d0 = [e'] /\ first (ne_points e') = first (ne_points e) /\ final (ne_points e') = final (ne_points e).
Proof.
  unfold seen, w. cbn [cut_edges tp_edges]. rewrite nth_error_map. destruct (nth_error (tp_edges t) (de_edge d0)) as [e|] eqn:E; [|left; auto].
  right. cbn [option_map te_points]. do 2 eexists. split; [reflexivity|]. split; [reflexivity|]. cbn [ne_points].
  apply nth_error_In in E. pose proof (add_points_cut k _ (proj1 (edge_easy e E))) as HC.
  unfold oriented. destruct (de_dir d0); rewrite ?first_rev, ?final_rev, (cut_first _ _ _ HC), (cut_final _ _ _ HC); auto.
Qed.

Lemma chain_cut ds : forall a b, chain a (map ne_points (flat_map (seen t) ds)) b -> chain a (map ne_points (flat_map (seen w) ds)) b.
Proof.
  induction ds as [|d0 ds IH]; intros a b H; [exact H|]. cbn [flat_map] in *.
  destruct (seen_cut d0) as [(E1 & E2)|(e & e' & E1 & E2 & Ef & El)]; rewrite E1 in H; rewrite E2; [apply IH, H|].
  cbn [app map chain] in *. destruct H as (H1 & c & H2 & H3). split; [rewrite Ef; exact H1|]. exists c. split; [rewrite El; exact H2|]. apply IH, H3.
Qed.

Lemma closed_cut r : closed_chain (map ne_points (seen_ring t r)) -> closed_chain (map ne_points (seen_ring w r)).
Proof. intros (p & H). exists p. apply chain_cut, H. Qed.

End Cut.

(** ** Rings that differ in repeated points *)

Lemma forall2_nth {X} (R : X -> X -> Prop) l l' : Forall2 R l l' ->
  forall i, match nth_error l i, nth_error l' i with Some c, Some d => R c d | None, None => True | _, _ => False end.
Proof. induction 1 as [|c d cs ds H F IH]; intros [|i]; cbn [nth_error]; [exact I|exact I|exact H|apply IH]. Qed.

Section Alike.
Variables (C C' : list (list point)).
Hypothesis A : Forall2 alike C C'.

Definition piece_alike (p q : piece) : Prop := dedup (pc_path p) = dedup (pc_path q).

Lemma alike_nth i : match nth_error C i, nth_error C' i with Some c, Some d => alike c d | None, None => True | _, _ => False end.
Proof. apply forall2_nth, A. Qed.

Lemma visible_alike d0 : Forall2 piece_alike (visible_piece C d0) (visible_piece C' d0).
Proof.
  pose proof (alike_nth (de_edge d0)) as H. destruct (nth_error C (de_edge d0)) as [c|] eqn:E1, (nth_error C' (de_edge d0)) as [d|] eqn:E2; try contradiction.
  - destruct H as (H1 & H2). rewrite (visible_piece_big C d0 c E1), (visible_piece_big C' d0 d E2), H2. destruct (big d); [|constructor].
    constructor; [|constructor]. unfold piece_alike. cbn [pc_path]. unfold oriented. destruct (de_dir d0); [exact H1|]. rewrite !dedup_rev, H1. reflexivity.
  - unfold visible_piece. rewrite E1, E2. constructor.
Qed.

Lemma alike_ends p q : piece_alike p q -> first (pc_path p) = first (pc_path q) /\ final (pc_path p) = final (pc_path q).
Proof. intros H. unfold piece_alike in H. rewrite <- (first_dedup (pc_path p)), <- (final_dedup (pc_path p)), H, first_dedup, final_dedup. auto. Qed.

Lemma piece_alike_refl ps : Forall2 piece_alike ps ps.
Proof. induction ps; constructor; [reflexivity|assumption]. Qed.

Lemma close_alike s ps : forall qs p q, piece_alike p q -> Forall2 piece_alike ps qs -> Forall2 piece_alike (close_gaps s p ps) (close_gaps s q qs).
Proof.
  induction ps as [|p' ps IH]; intros qs p q Hpq F; inversion F as [|? q' ? qs' H F']; subst; cbn [close_gaps].
  - rewrite (proj2 (alike_ends p q Hpq)). apply piece_alike_refl.
  - rewrite (proj2 (alike_ends p q Hpq)), (proj1 (alike_ends p' q' H)). apply Forall2_app; [apply piece_alike_refl|].
    constructor; [assumption|]. apply IH; assumption.
Qed.

Lemma clipped_alike r : Forall2 piece_alike (clipped_ring C r) (clipped_ring C' r).
Proof.
  unfold clipped_ring. assert (V : Forall2 piece_alike (visible C r) (visible C' r)).
  { unfold visible. induction (tr_des r) as [|d0 ds IH]; [constructor|]. cbn [flat_map]. apply Forall2_app; [apply visible_alike|exact IH]. }
  inversion V as [|p q ps qs H F E1 E2]; [constructor|]. rewrite (proj1 (alike_ends p q H)). constructor; [assumption|]. apply close_alike; assumption.
Qed.

Lemma tally_alike f ps qs : (forall p, f [p; p] = 0) -> Forall2 piece_alike ps qs -> tally f (map pc_path ps) = tally f (map pc_path qs).
Proof.
  intros Hf. induction 1 as [|p q ps qs H _ IH]; [reflexivity|]. cbn [map].
  change (pc_path p :: map pc_path ps) with ([pc_path p] ++ map pc_path ps). change (pc_path q :: map pc_path qs) with ([pc_path q] ++ map pc_path qs).
  rewrite !tally_app, IH, <- (tally_dedup f (pc_path p)), <- (tally_dedup f (pc_path q)) by assumption. rewrite H. reflexivity.
Qed.

Lemma winding_alike z r : winding_number z (map pc_path (clipped_ring C r)) = winding_number z (map pc_path (clipped_ring C' r)).
Proof. unfold winding_number. rewrite !winds_tally. apply tally_alike; [apply crossing_self|apply clipped_alike]. Qed.

Lemma area_alike r : clipped_area C r = clipped_area C' r.
Proof.
  unfold clipped_area. pose proof (clipped_alike r) as F.
  assert (B : forall Q, clipped_ring Q r <> [] -> shoelaces (map pc_path (clipped_ring Q r)) = tally (band (MinX 0)) (map pc_path (clipped_ring Q r))).
  { intros Q HQ. symmetry. apply band_closed, clipped_ring_closed, HQ. }
  destruct (clipped_ring C r) as [|p ps] eqn:E1, (clipped_ring C' r) as [|q qs] eqn:E2; [reflexivity|inversion F|inversion F|].
  rewrite <- E1, <- E2 in *. rewrite (B C), (B C') by (rewrite ?E1, ?E2; discriminate). apply tally_alike; [apply band_self|exact F].
Qed.

End Alike.
