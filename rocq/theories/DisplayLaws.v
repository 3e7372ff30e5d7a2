(** * DisplayLaws: the values in the errors of the readers *)
From Verif Require Import ShpProofs ShpLaws DbfLaws SfProofs PipelineProofs DisplaySpec DisplayProofs.

Lemma bytes4 z : in_bytes 4 z -> 0 <= z < 2 ^ 32.
Proof. intros [H1 H2]. change (256 ^ Z.of_nat 4) with (2 ^ 32) in H2. lia. Qed.

Lemma usize4 z : in_bytes 4 z -> is_usize z.
Proof. intros H. apply bytes4 in H. unfold is_usize. lia. Qed.

Lemma new_error_values m af s e : bytes_ok s -> shp_reader_new m af s = Ok (RErr e) -> Forall is_usize (shp_values e).
Proof.
  intros Hs E. destruct (Nat.lt_ge_cases (length s) 100) as [HL|HL].
  { rewrite new_short in E by exact HL. injection E as <-. constructor. }
  destruct (header_form s Hs HL) as (magic & u1 & len & v & ty & x0 & y0 & x1 & y1 & u2 & rest & HF & ->).
  rewrite header_new in E by exact HF. destruct HF as (Hm & _ & _ & Hv & Ht & _). unfold header_result in E.
  destruct (Z.eqb_spec magic shp_magic); cbn [negb] in E; [|injection E as <-; constructor; [apply usize4; assumption|constructor]].
  destruct (Z.eqb_spec v shp_version); cbn [negb] in E; [|injection E as <-; constructor; [apply usize4; assumption|constructor]].
  destruct (shape_type_with_u32 ty) as [[]|]; try (injection E as <-; first [constructor; [apply usize4; assumption|constructor]|constructor]).
  destruct (u32_mul2 m len); discriminate.
Qed.

Lemma rings_error_values rn n points : in_bytes 4 rn -> in_bytes 4 n -> forall w acc e, Forall (fun p => in_bytes 4 (fst p) /\ in_bytes 4 (snd p)) w ->
  parse_rings rn n points w acc = RErr e -> Forall is_usize (shp_values e).
Proof.
  intros Hr Hn. induction w as [|(s & t) w IH]; intros acc e HW E; cbn [parse_rings] in E; [discriminate|].
  inversion HW as [|? ? [Hs Ht] HW']; subst. cbn [fst snd] in *.
  destruct (_ || _); [injection E as <-; repeat (constructor; [apply usize4; assumption|]); constructor|].
  destruct (_ <? _); [injection E as <-; repeat (constructor; [apply usize4; assumption|]); constructor|]. exact (IH _ _ HW' E).
Qed.

Lemma pairs_bytes starts : Forall (in_bytes 4) starts -> Forall (fun p => in_bytes 4 (fst p) /\ in_bytes 4 (snd p)) (pairs starts).
Proof.
  induction starts as [|s [|t starts] IH]; intros H; [constructor|constructor|].
  inversion H as [|? ? H1 H2]; subst. change (pairs (s :: t :: starts)) with ((s, t) :: pairs (t :: starts)).
  constructor; [|auto]. inversion H2; subst. auto.
Qed.

Lemma same_error {A E} (a b : E) : Ok (RErr (A := A) a) = Ok (RErr b) -> b = a.
Proof. congruence. Qed.

Lemma record_error_values buf rn e : bytes_ok buf -> in_bytes 4 rn -> Z.of_nat (length buf) < 2 ^ 64 ->
  parse_polygon_record buf rn = Ok (RErr e) -> Forall is_usize (shp_values e).
Proof.
  intros Hb Hr HL E. destruct (parsed_ok buf rn Hb); try discriminate.
  - injection E as <-. repeat (constructor; [apply usize4; assumption|]). constructor.
  - injection E as <-. repeat (constructor; [apply usize4; assumption|]). constructor.
  - rewrite content_length in HL by assumption. apply same_error in E. subst e.
    pose proof (bytes4 a ltac:(assumption)). pose proof (bytes4 b ltac:(assumption)).
    repeat (constructor; [first [apply usize4; assumption|unfold is_usize; lia]|]). constructor.
  - destruct H as (_ & _ & Hn & Hs & _). unfold polygon_result in E.
    destruct (parse_rings rn (Z.of_nat (length points)) points (pairs starts) []) as [rings|e'] eqn:EP.
    + destruct (_ <=? _); [|discriminate]. injection E as <-.
      assert (in_bytes 4 (last starts 0)).
      { clear -Hs. induction Hs as [|x l Hx Hs IH]; [unfold in_bytes; cbn; lia|]. destruct l; [exact Hx|exact IH]. }
      repeat (constructor; [apply usize4; assumption|]). constructor.
    + injection E as <-. apply (rings_error_values rn (Z.of_nat (length points)) points Hr Hn _ _ _ (pairs_bytes starts Hs) EP).
Qed.

(** What the readers keep. *)
Definition reads_bytes (r : shp_reader) : Prop := bytes_ok (shr_file r) /\ is_usize (sh_bytes (shr_header r)).

Lemma suffix_bytes af s n : leaves_suffix af -> bytes_ok s -> bytes_ok (af s n).
Proof. intros Ha Hs. destruct (Ha s n) as (p & E). rewrite E in Hs. apply Forall_app in Hs. apply Hs. Qed.

Lemma shp_next_values af r x r' : leaves_suffix af -> reads_bytes r -> shp_next af r = Ok (x, r') ->
  reads_bytes r' /\ forall e, x = Some (RErr e) -> Forall is_usize (shp_values e).
Proof.
  intros Ha [Hb Hu] E. unfold shp_next in E. destruct (sh_bytes (shr_header r) <=? shr_read r).
  { injection E as <- <-. split; [split; assumption|discriminate]. }
  destruct (read_cases af (shr_file r) Hb) as [[_ E']|(rn & words & s1 & Hrn & Hw & Es & H1 & [[_ E']|(buf & s2 & Es1 & Ob & O2 & Lb & E')])];
    rewrite E' in E; cbn [bind] in E.
  - injection E as <- <-. split; [split; [apply suffix_bytes; assumption|assumption]|]. intros e [= <-]. constructor.
  - injection E as <- <-. split; [split; [apply suffix_bytes; assumption|assumption]|]. intros e [= <-]. constructor.
  - destruct (parse_polygon_record buf rn) as [[x'|e]|p] eqn:EP; cbn [bind] in E; try discriminate.
    + injection E as <- <-. split; [split; assumption|]. intros e. destruct (_ <? _); [|discriminate]. intros [= <-]. constructor; [assumption|constructor].
    + injection E as <- <-. split; [split; assumption|]. intros e' [= <-]. apply (record_error_values buf rn e Ob Hrn); [|exact EP].
      apply bytes4 in Hw. lia.
Qed.

Lemma sf_calls_values afs afd e : leaves_suffix afs -> forall n r items, reads_bytes (sf_shp r) -> calls (sf_next afs afd) n r = Ok items ->
  In (Some (RErr e)) items -> Forall is_usize (error_values e).
Proof.
  intros Ha. induction n as [|n IH]; intros r items HR E HI; cbn [calls] in E; [injection E as <-; destruct HI|].
  destruct (sf_next afs afd r) as [[x r']|] eqn:EN; [|discriminate]. destruct (calls (sf_next afs afd) n r') as [l|] eqn:EC; [|discriminate].
  injection E as <-. unfold sf_next in EN. destruct (shp_next afs (sf_shp r)) as [[a rs]|] eqn:ES; [|discriminate]. cbn [bind] in EN.
  destruct (shp_next_values afs _ a rs Ha HR ES) as (HR' & HV). destruct (dbf_next afd (sf_dbf r)) as [b rd]. injection EN as Ex <-.
  destruct HI as [HI|HI]; [|exact (IH (SfReader rs rd) _ HR' EC HI)].
  destruct a as [[shape|e1]|], b as [[data|e2]|]; try congruence; rewrite HI in Ex; injection Ex as <-; try constructor; exact (HV e1 eq_refl).
Qed.

Lemma new_reads m af s r : bytes_ok s -> shp_reader_new m af s = Ok (ROk r) -> reads_bytes r.
Proof.
  intros Hb H. split; [eapply shp_new_file; eassumption|].
  apply new_accept in H as (u1 & len & x0 & y0 & x1 & y1 & u2 & rest & HF & -> & _ & ->); [|assumption]. cbn [shr_header sh_bytes].
  pose proof (Z.mod_pos_bound (2 * len) (2 ^ 32)). unfold is_usize. lia.
Qed.

Lemma open_values m afs afd enc shp dbf e : bytes_opt shp -> sf_open m afs afd enc shp dbf = Ok (RErr e) -> Forall is_usize (error_values e).
Proof.
  intros Hb. unfold sf_open. destruct shp as [s|].
  - destruct (shp_reader_new m afs s) as [[x|e']|] eqn:E; cbn [bind]; try discriminate.
    + destruct dbf as [d|]; cbn [bind]; [destruct (dbf_reader_new m afd enc d) as [[y|e']|]; cbn [bind]; try discriminate|]; intros [= <-]; constructor.
    + intros [= <-]. exact (new_error_values m afs s e' Hb E).
  - cbn [bind]. intros [= <-]. constructor.
Qed.

Lemma open_reads m afs afd enc shp dbf r : bytes_opt shp -> sf_open m afs afd enc shp dbf = Ok (ROk r) -> reads_bytes (sf_shp r).
Proof.
  intros Hb H. apply open_ok in H as (s & d & -> & -> & H). unfold sf_reader_new in H.
  destruct (shp_reader_new m afs s) as [[x|e]|] eqn:E; cbn [bind] in H; try discriminate;
    destruct (dbf_reader_new m afd enc d) as [[y|e']|]; cbn [bind] in H; try discriminate. injection H as <-.
  eapply new_reads; eassumption.
Qed.

(** ** The format *)
Lemma separated_from sep items : forall i, separated sep (S i) items = separated sep 1 items.
Proof. induction items as [|t ts IH]; intros i; cbn [separated]; [reflexivity|]. cbn [Nat.ltb Nat.leb Nat.add]. rewrite IH, (IH 1%nat). reflexivity. Qed.
Lemma separated_listing sep items : listing sep items (separated sep 0 items).
Proof.
  induction items as [|t ts IH]; [constructor|]. destruct ts as [|u ts]; [cbn; rewrite app_nil_r; constructor|].
  assert (E : separated sep 0 (t :: u :: ts) = t ++ sep ++ separated sep 0 (u :: ts)).
  { cbn [separated Nat.ltb Nat.leb app Nat.add]. rewrite (separated_from sep ts 1). reflexivity. }
  rewrite E. constructor; [discriminate|exact IH].
Qed.
Lemma list_shown {A} (item : A -> text -> Prop) (show : A -> text) o sep c l : Forall (fun a => item a (show a)) l ->
  list_text item o sep c l (o ++ separated sep 0 (map show l) ++ c).
Proof.
  intros H. exists (map show l), (separated sep 0 (map show l)). split; [|split; [apply separated_listing|reflexivity]].
  induction H; cbn [map]; constructor; assumption.
Qed.
Lemma point_shown p : wf_point p -> point_text p (show_point p).
Proof. intros [Hx Hy]. unfold is_u32 in Hx, Hy. exists (decimal (px p)), (decimal (py p)). split; [apply decimal_ok; unfold is_usize; lia|]. split; [apply decimal_ok; unfold is_usize; lia|reflexivity]. Qed.
Lemma edge_shown e : wf_points e -> edge_text e (show_edge e).
Proof. intros H. apply list_shown. eapply Forall_impl; [|exact H]. apply point_shown. Qed.
Lemma ring_shown r : wf_ring r -> ring_text r (show_ring r).
Proof.
  destruct r as [ps|es]; intros H; apply list_shown; (eapply Forall_impl; [|exact H]); [apply point_shown|apply edge_shown].
Qed.
Lemma region_shown {D} (rg : region D) : Forall wf_ring (rg_outer rg ++ rg_inner rg) -> region_text rg (show_region rg).
Proof.
  intros H. apply Forall_app in H as [Ho Hi]. exists (show_rings (rg_outer rg)), (show_rings (rg_inner rg)).
  split; [|split; [|reflexivity]]; apply list_shown; (eapply Forall_impl; [|eassumption]); apply ring_shown.
Qed.

(** ** Records *)
Lemma joined_listing ts : listing (str "; ") ts (joined ts).
Proof.
  induction ts as [|t ts IH]; [constructor|]. destruct ts as [|u ts]; [constructor|].
  change (joined (t :: u :: ts)) with (t ++ str "; " ++ joined (u :: ts)). constructor; [discriminate|exact IH].
Qed.

Lemma fields_read fs data x : display_record fs data = Ok x ->
  (exists vs, Forall2 (fun f v => read_string f data = Ok (ROk v)) fs vs) \/
  exists before f after vs e, fs = before ++ f :: after /\ Forall2 (fun f v => read_string f data = Ok (ROk v)) before vs /\ read_string f data = Ok (RErr e).
Proof.
  unfold display_record. generalize 0%nat at 1. generalize (@nil Z). induction fs as [|f fs IH]; intros s i; cbn [display_fields].
  - left. exists []. constructor.
  - destruct (read_string f data) as [[value|e]|p] eqn:E; cbn [bind]; try discriminate.
    + intros H. apply IH in H as [(vs & H)|(before & g & after & vs & e & -> & H & He)].
      * left. exists (value :: vs). constructor; assumption.
      * right. exists (f :: before), g, after, (value :: vs), e. split; [reflexivity|]. split; [constructor; assumption|exact He].
    + intros _. right. exists [], f, fs, [], e. split; [reflexivity|]. split; [constructor|exact E].
Qed.

Lemma field_texts data fs vs : Forall2 (fun f v => read_string f data = Ok (ROk v)) fs vs ->
  Forall2 (field_text data) fs (map (fun '(f, v) => df_name f ++ [58] ++ v) (combine fs vs)).
Proof. intros H. induction H as [|f v fs vs Hf H IH]; cbn [combine map]; constructor; [exists v; auto|exact IH]. Qed.

Lemma record_shown v fs rec s : show_sf_record v fs rec = Ok s -> record_text v fs rec s.
Proof.
  unfold show_sf_record, show_dbf_record. destruct (display_record fs (sfr_data rec)) as [x|p] eqn:E; cbn [bind]; [|discriminate].
  intros [= <-]. eexists _, _. split; [|split; [|reflexivity]].
  - destruct (fields_read _ _ _ E) as [(vs & H)|(before & f & after & vs & e & -> & H & He)].
    + unfold display_record in E. rewrite (display_from fs _ 0 [] vs H) in E. injection E as <-. apply data_read.
      exists (map (fun '(f, v) => df_name f ++ [58] ++ v) (combine fs vs)), (joined (map (fun '(f, v) => df_name f ++ [58] ++ v) (combine fs vs))).
      split; [apply field_texts, H|]. split; [apply joined_listing|reflexivity].
    + unfold display_record in E. rewrite (display_error before f after _ 0 [] vs e H He) in E. injection E as <-.
      eapply data_error; [reflexivity|apply field_texts, H|exact He|]. destruct e; reflexivity.
  - pose proof (list_shown (shp_ring_text v) (show_shp_ring v) [] (str "; ") [] (sfr_rings rec)) as HL. rewrite app_nil_r in HL. apply HL.
    apply Forall_forall. intros r _. apply list_shown. apply Forall_forall. intros p _. reflexivity.
Qed.
