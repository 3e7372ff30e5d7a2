(** * ReaderProofs: readers and how their bytes arrive *)
From Verif Require Import ReaderSpec.

(** ** [read_exact] depends on the items alone *)

Fixpoint take_items (n : nat) (l : list item) : result (list Z) io_error * list item :=
  match n with
  | O => (ROk [], l)
  | S n' =>
      match l with
      | [] => (RErr UnexpectedEof, [])
      | Byte b :: t => let '(r, t') := take_items n' t in (match r with ROk bs => ROk (b :: bs) | RErr e => RErr e end, t')
      | Pause :: t => (RErr UnexpectedEof, t)
      | Fault e :: t => (RErr (Device e), t)
      end
  end.

Lemma take_items_bytes bs : forall n l, (length bs <= n)%nat ->
  take_items n (map Byte bs ++ l) =
  let '(r, t) := take_items (n - length bs) l in (match r with ROk x => ROk (bs ++ x) | RErr e => RErr e end, t).
Proof.
  induction bs as [|b bs IH]; intros n l H.
  - cbn [map app length]. rewrite Nat.sub_0_r. destruct (take_items n l) as [[x|e] t]; reflexivity.
  - cbn [length] in H. destruct n as [|n]; [lia|]. cbn [map app take_items length Nat.sub]. rewrite IH by lia.
    destruct (take_items (n - length bs) l) as [[x|e] t]; reflexivity.
Qed.

Section Source.
  Context {S : Type} (src : source S) (items : S -> list item) (Hd : delivers src items).

  Lemma read_all_items fuel : forall n s, (n + sc_wait src s <= fuel)%nat ->
    fst (read_all src fuel n s) = fst (take_items n (items s)) /\ items (snd (read_all src fuel n s)) = snd (take_items n (items s)).
  Proof.
    induction fuel as [|fuel IH]; intros [|n] s H; cbn [read_all]; try (split; reflexivity); [lia|].
    pose proof (Hd (Datatypes.S n) s ltac:(lia)) as D. destruct (sc_read src (Datatypes.S n) s) as [[bs| |e] s'].
    - destruct bs as [|b bs].
      + destruct D as [[E|[E E']] _]; rewrite E; cbn [take_items fst snd]; auto.
      + destruct D as (L & E & W). rewrite E, take_items_bytes by exact L.
        specialize (IH (Datatypes.S n - length (b :: bs))%nat s' ltac:(cbn [length] in *; lia)).
        destruct (read_all src fuel (Datatypes.S n - length (b :: bs)) s') as [r s''], (take_items (Datatypes.S n - length (b :: bs)) (items s')) as [r' t'].
        cbn [fst snd] in *. destruct IH as [-> ->]. destruct r'; split; reflexivity.
    - destruct D as [E W]. rewrite <- E. apply IH. lia.
    - destruct D as [E _]. rewrite E. cbn [take_items fst snd]. auto.
  Qed.

  Definition items_exact (n : Z) (l : list item) := take_items (Z.to_nat n) l.
  Lemma exact_items n s : fst (source_exact src n s) = fst (items_exact n (items s)) /\ items (snd (source_exact src n s)) = snd (items_exact n (items s)).
  Proof. apply read_all_items. lia. Qed.
End Source.

(** ** Buffering *)

Lemma got_part (b : list Z) n : b <> [] -> (0 < n)%nat -> exists x l, firstn n b = x :: l /\ (length (x :: l) <= n)%nat.
Proof.
  intros Hb Hn. destruct b as [|x b]; [contradiction|]. destruct n as [|n]; [lia|]. exists x, (firstn n b). split; [reflexivity|].
  cbn [length]. rewrite firstn_length. lia.
Qed.

Lemma buffered_delivers {S} cap (src : source S) items : (0 < cap)%nat -> delivers src items ->
  delivers (buffered cap src) (fun st => map Byte (fst st) ++ items (snd st)).
Proof.
  intros Hc Hd n [b s] Hn. cbn [buffered sc_read sc_wait buffered_read]. destruct b as [|b0 b].
  - destruct (Nat.leb cap n) eqn:L.
    + specialize (Hd n s Hn). destruct (sc_read src n s) as [[bs| |e] s']; cbn [fst snd map app]; exact Hd.
    + apply Nat.leb_gt in L. specialize (Hd cap s Hc). destruct (sc_read src cap s) as [[bs| |e] s']; cbn [fst snd map app]; [|exact Hd|exact Hd].
      destruct bs as [|x bs].
      * rewrite firstn_nil, skipn_nil. exact Hd.
      * destruct (got_part (x :: bs) n ltac:(discriminate) Hn) as (y & l & E & Ln). rewrite E. cbn [fst snd].
        split; [exact Ln|]. split; [|exact (proj2 (proj2 Hd))].
        rewrite app_assoc, <- map_app, <- E, firstn_skipn. exact (proj1 (proj2 Hd)).
  - destruct (got_part (b0 :: b) n ltac:(discriminate) Hn) as (y & l & E & Ln). rewrite E. cbn [fst snd].
    split; [exact Ln|]. split; [|reflexivity]. rewrite app_assoc, <- map_app, <- E, firstn_skipn. reflexivity.
Qed.

(** ** Readers of related sources *)

Definition lift {E F X} (h : E -> F) (e : E + X) : F + X := match e with inl e => inl (h e) | inr x => inr x end.
Definition failed {A E} (r : result A E) : Prop := match r with ROk _ => False | RErr _ => True end.
Definition failing {A E} (r : option (result A E)) : Prop := match r with Some (RErr _) => True | _ => False end.

Definition opens {A1 A2 F1 F2} (RR : A1 -> A2 -> Prop) (f : F2 -> F1) (o1 : res (result A1 F1)) (o2 : res (result A2 F2)) : Prop :=
  match o1, o2 with
  | Panic p, Panic q => p = q
  | Ok (RErr e1), Ok (RErr e2) => e1 = f e2
  | Ok (ROk a), Ok (ROk b) => RR a b
  | _, _ => False
  end.
Definition steps {A A1 A2 F1 F2} (weak : Prop) (RR : A1 -> A2 -> Prop) (f : F2 -> F1)
    (o1 : res (option (result A F1) * A1)) (o2 : res (option (result A F2) * A2)) : Prop :=
  match o1, o2 with
  | Panic p, Panic q => p = q
  | Ok (x1, r1), Ok (x2, r2) => x1 = option_map (error_map f) x2 /\ (RR r1 r2 \/ (weak /\ failing x2))
  | _, _ => False
  end.

Section Watch.
  Context {A A1 A2 F1 F2 X : Type} (RR : A1 -> A2 -> Prop) (f : F2 -> F1) (about1 : A1 -> X) (about2 : A2 -> X)
    (next1 : A1 -> res (option (result A F1) * A1)) (next2 : A2 -> res (option (result A F2) * A2)).
  Hypothesis about_same : forall r1 r2, RR r1 r2 -> about1 r1 = about2 r2.

  Lemma calls_sim (N : forall r1 r2, RR r1 r2 -> steps False RR f (next1 r1) (next2 r2)) k : forall r1 r2, RR r1 r2 ->
    calls next1 k r1 = match calls next2 k r2 with Ok l => Ok (map (option_map (error_map f)) l) | Panic p => Panic p end.
  Proof.
    induction k as [|k IH]; intros r1 r2 H; [reflexivity|]. cbn [calls]. specialize (N r1 r2 H). unfold steps in N.
    destruct (next1 r1) as [[x1 y1]|p], (next2 r2) as [[x2 y2]|q]; try contradiction; [|subst; reflexivity].
    destruct N as [-> [N|[[] _]]]. rewrite (IH _ _ N). destruct (calls next2 k y2); reflexivity.
  Qed.
  Lemma watch_sim (N : forall r1 r2, RR r1 r2 -> steps False RR f (next1 r1) (next2 r2)) k o1 o2 : opens RR f o1 o2 ->
    watch about1 next1 k o1 = seen_map f (watch about2 next2 k o2).
  Proof.
    unfold opens, watch. destruct o1 as [[a|e]|p], o2 as [[b|e']|q]; try contradiction; intros H; cbn [bind]; [|subst; reflexivity|subst; reflexivity].
    rewrite (calls_sim N k a b H), (about_same a b H). destruct (calls next2 k b); reflexivity.
  Qed.

  Lemma calls_to_sim (N : forall r1 r2, RR r1 r2 -> steps True RR f (next1 r1) (next2 r2)) k : forall r1 r2, RR r1 r2 ->
    calls_to_error next1 k r1 = match calls_to_error next2 k r2 with Ok l => Ok (map (option_map (error_map f)) l) | Panic p => Panic p end.
  Proof.
    induction k as [|k IH]; intros r1 r2 H; [reflexivity|]. cbn [calls_to_error]. specialize (N r1 r2 H). unfold steps in N.
    destruct (next1 r1) as [[x1 y1]|p], (next2 r2) as [[x2 y2]|q]; try contradiction; [|subst; reflexivity]. cbn [bind].
    destruct N as [-> N]. destruct x2 as [[a|e]|]; cbn [option_map error_map]; [|reflexivity|];
      (destruct N as [N|[_ []]]; rewrite (IH _ _ N); destruct (calls_to_error next2 k y2); reflexivity).
  Qed.
  Lemma watch_to_sim (N : forall r1 r2, RR r1 r2 -> steps True RR f (next1 r1) (next2 r2)) k o1 o2 : opens RR f o1 o2 ->
    watch_to_error about1 next1 k o1 = seen_map f (watch_to_error about2 next2 k o2).
  Proof.
    unfold opens, watch_to_error. destruct o1 as [[a|e]|p], o2 as [[b|e']|q]; try contradiction; intros H; cbn [bind]; [|subst; reflexivity|subst; reflexivity].
    rewrite (calls_to_sim N k a b H), (about_same a b H). destruct (calls_to_error next2 k b); reflexivity.
  Qed.
End Watch.

Definition sim {R1 E1 R2 E2} (weak : Prop) (Rel : R1 -> R2 -> Prop) (h : E2 -> E1)
    (rd1 : Z -> R1 -> result (list Z) E1 * R1) (rd2 : Z -> R2 -> result (list Z) E2 * R2) : Prop :=
  forall n s1 s2, Rel s1 s2 -> fst (rd1 n s1) = error_map h (fst (rd2 n s2)) /\
    (Rel (snd (rd1 n s1)) (snd (rd2 n s2)) \/ (weak /\ failed (fst (rd2 n s2)))).

(** Look at the next read. *)
Ltac look Hsim n a b H :=
  let P := fresh "P" in let Q := fresh "Q" in
  pose proof (Hsim n a b H) as [P Q];
  match type of P with fst (?r1 _ _) = error_map _ (fst (?r2 _ _)) =>
    let x := fresh "x" in let y := fresh "y" in
    destruct (r1 n a) as [x ?s], (r2 n b) as [y ?s]; cbn [fst snd] in P, Q; subst x; destruct y as [?buf|?e]; cbn [error_map failed] in Q |- *
  end.

Section Shp.
  Context {R1 E1 R2 E2 : Type} (weak : Prop) (Rel : R1 -> R2 -> Prop) (h : E2 -> E1)
    (rd1 : Z -> R1 -> result (list Z) E1 * R1) (rd2 : Z -> R2 -> result (list Z) E2 * R2) (Hs : sim weak Rel h rd1 rd2).

  Definition shp_like (r1 : shp_reader_of R1) (r2 : shp_reader_of R2) : Prop :=
    Rel (sho_file r1) (sho_file r2) /\ sho_read r1 = sho_read r2 /\ sho_header r1 = sho_header r2.

  Lemma shp_new_sim m s1 s2 : Rel s1 s2 -> opens shp_like (lift h) (shp_new_from rd1 m s1) (shp_new_from rd2 m s2).
  Proof.
    intros H. unfold shp_new_from, read_shp_header_from. look Hs shp_header_length s1 s2 H.
    - destruct (parse_shp_header m buf) as [[a|e]|p]; cbn [bind other opens]; try reflexivity.
      destruct Q as [Q|[_ []]]. split; [exact Q|split; reflexivity].
    - cbn [bind opens lift]. reflexivity.
  Qed.

  Lemma shp_next_sim r1 r2 : shp_like r1 r2 -> steps weak shp_like (lift h) (shp_next_from rd1 r1) (shp_next_from rd2 r2).
  Proof.
    intros (H & En & Eh). destruct r1 as [s1 n1 h1], r2 as [s2 n2 h2]. cbn [sho_file sho_read sho_header] in *. subst.
    unfold shp_next_from, read_polygon_record_from. cbn [sho_file sho_read sho_header].
    destruct (sh_bytes h2 <=? n2); [split; [reflexivity|left; repeat split; exact H]|].
    look Hs 8 s1 s2 H.
    - destruct Q as [Q|[_ []]]. destruct (be_at buf 0 4) as [rn|p]; cbn [bind steps]; [|reflexivity].
      destruct (be_at buf 4 4) as [words|p]; cbn [bind steps]; [|reflexivity].
      look Hs (words * 2) s s0 Q.
      + destruct Q0 as [Q0|[_ []]]. destruct (parse_polygon_record buf0 rn) as [[rec|e]|p]; cbn [bind steps option_map error_map lift]; try reflexivity.
        * split; [destruct (sh_bytes h2 <? n2 + (8 + Z.of_nat (length buf0))); reflexivity|left; repeat split; exact Q0].
        * split; [reflexivity|left; repeat split; exact Q0].
      + cbn [bind steps option_map error_map lift failing]. split; [reflexivity|]. destruct Q0 as [Q0|[W _]]; [left; repeat split; exact Q0|right; auto].
    - cbn [bind steps option_map error_map lift failing]. split; [reflexivity|]. destruct Q as [Q|[W _]]; [left; repeat split; exact Q|right; auto].
  Qed.
End Shp.

Section Dbf.
  Context {R1 E1 R2 E2 : Type} (weak : Prop) (Rel : R1 -> R2 -> Prop) (h : E2 -> E1)
    (rd1 : Z -> R1 -> result (list Z) E1 * R1) (rd2 : Z -> R2 -> result (list Z) E2 * R2) (Hs : sim weak Rel h rd1 rd2).

  Definition dbf_like (r1 : dbf_reader_of R1) (r2 : dbf_reader_of R2) : Prop :=
    Rel (dbo_file r1) (dbo_file r2) /\ dbo_iterated r1 = dbo_iterated r2 /\ dbo_meta r1 = dbo_meta r2.

  Lemma dbf_new_sim m enc s1 s2 : Rel s1 s2 -> opens dbf_like (lift h) (dbf_new_from rd1 m enc s1) (dbf_new_from rd2 m enc s2).
  Proof.
    intros H. unfold dbf_new_from, read_dbf_meta_from, read_dbf_header_from, read_dbf_fields_from. look Hs 32 s1 s2 H; [|cbn [bind opens lift]; reflexivity].
    destruct Q as [Q|[_ []]].
    destruct (get buf 2) as [b2|p]; cbn [bind opens]; [|reflexivity]. destruct (get buf 3) as [b3|p]; cbn [bind opens]; [|reflexivity].
    destruct ((12 <? b2) || (31 <? b3)); cbn [bind opens lift]; [reflexivity|].
    destruct (le_at buf 4 4) as [n|p]; cbn [bind opens]; [|reflexivity]. destruct (le_at buf 8 2) as [hb|p]; cbn [bind opens]; [|reflexivity].
    destruct (le_at buf 10 2) as [rb|p]; cbn [bind opens]; [|reflexivity]. destruct (header_rest m (DHeader n hb rb)) as [k|p]; cbn [bind opens]; [|reflexivity].
    look Hs k s s0 Q; [|cbn [bind opens lift]; reflexivity]. destruct Q0 as [Q0|[_ []]].
    destruct (parse_fields enc (chunks 32 buf0) 1 []) as [[fs|e]|p]; cbn [bind other opens]; try reflexivity. split; [exact Q0|split; reflexivity].
  Qed.

  Lemma dbf_next_sim r1 r2 : dbf_like r1 r2 -> steps weak dbf_like (lift h) (Ok (dbf_next_from rd1 r1)) (Ok (dbf_next_from rd2 r2)).
  Proof.
    intros (H & En & Eh). destruct r1 as [s1 n1 h1], r2 as [s2 n2 h2]. cbn [dbo_file dbo_iterated dbo_meta] in *. subst.
    unfold dbf_next_from. cbn [dbo_file dbo_iterated dbo_meta].
    destruct (n2 =? dm_records h2); [split; [reflexivity|left; repeat split; exact H]|].
    look Hs (dm_record_bytes h2) s1 s2 H; (split; [reflexivity|]).
    - destruct Q as [Q|[_ []]]. left; repeat split; exact Q.
    - destruct Q as [Q|[W _]]; [left; repeat split; exact Q|right; split; [exact W|exact I]].
  Qed.
End Dbf.

Section Both.
  Context {R1 E1 R2 E2 S1 F1 S2 F2 : Type} (weak : Prop) (Rel : R1 -> R2 -> Prop) (h : E2 -> E1)
    (rd1 : Z -> R1 -> result (list Z) E1 * R1) (rd2 : Z -> R2 -> result (list Z) E2 * R2) (Hs : sim weak Rel h rd1 rd2)
    (Rel' : S1 -> S2 -> Prop) (h' : F2 -> F1)
    (rd1' : Z -> S1 -> result (list Z) F1 * S1) (rd2' : Z -> S2 -> result (list Z) F2 * S2) (Hs' : sim weak Rel' h' rd1' rd2').

  Definition sf_lift (e : sf_error_of E2 F2) : sf_error_of E1 F1 :=
    match e with SFShpOf e => SFShpOf (lift h e) | SFDbfOf e => SFDbfOf (lift h' e) | SFMoreShpOf => SFMoreShpOf | SFMoreDbfOf => SFMoreDbfOf end.
  Definition sf_like (r1 : sf_reader_of (R1 := R1) (R2 := S1)) (r2 : sf_reader_of (R1 := R2) (R2 := S2)) : Prop :=
    shp_like Rel (fst r1) (fst r2) /\ dbf_like Rel' (snd r1) (snd r2).

  Lemma sf_like_about r1 r2 : sf_like r1 r2 -> sf_about r1 = sf_about r2.
  Proof. intros ((_ & _ & A) & (_ & _ & B)). unfold sf_about. rewrite A, B. reflexivity. Qed.

  Lemma sf_new_sim m enc s1 s2 t1 t2 : Rel s1 s2 -> Rel' t1 t2 -> opens sf_like sf_lift (sf_new_from rd1 rd1' m enc s1 t1) (sf_new_from rd2 rd2' m enc s2 t2).
  Proof.
    intros H H'. unfold sf_new_from. pose proof (shp_new_sim weak Rel h rd1 rd2 Hs m s1 s2 H) as A. pose proof (dbf_new_sim weak Rel' h' rd1' rd2' Hs' m enc t1 t2 H') as B.
    unfold opens in A, B. destruct (shp_new_from rd1 m s1) as [[a1|a1]|a1], (shp_new_from rd2 m s2) as [[a2|a2]|a2]; try contradiction; cbn [bind]; try exact A;
      (destruct (dbf_new_from rd1' m enc t1) as [[b1|b1]|b1], (dbf_new_from rd2' m enc t2) as [[b2|b2]|b2]; try contradiction; cbn [bind opens sf_lift]; subst; try reflexivity).
    split; assumption.
  Qed.

  Lemma sf_open_sim m enc s1 s2 t1 t2 :
    match s1, s2 with inl e1, inl e2 => e1 = h e2 | inr s1, inr s2 => Rel s1 s2 | _, _ => False end ->
    match t1, t2 with inl e1, inl e2 => e1 = h' e2 | inr s1, inr s2 => Rel' s1 s2 | _, _ => False end ->
    opens sf_like sf_lift (sf_open_from rd1 rd1' m enc s1 t1) (sf_open_from rd2 rd2' m enc s2 t2).
  Proof.
    intros H H'. unfold sf_open_from.
    assert (A : opens (shp_like Rel) (lift h) (match s1 with inl e => Ok (RErr (inl e)) | inr s => shp_new_from rd1 m s end) (match s2 with inl e => Ok (RErr (inl e)) | inr s => shp_new_from rd2 m s end)).
    { destruct s1, s2; try contradiction; [cbn [opens lift]; congruence|apply shp_new_sim with weak; assumption]. }
    assert (B : opens (dbf_like Rel') (lift h') (match t1 with inl e => Ok (RErr (inl e)) | inr s => dbf_new_from rd1' m enc s end) (match t2 with inl e => Ok (RErr (inl e)) | inr s => dbf_new_from rd2' m enc s end)).
    { destruct t1, t2; try contradiction; [cbn [opens lift]; congruence|apply dbf_new_sim with weak; assumption]. }
    unfold opens in A, B.
    destruct (match s1 with inl e => Ok (RErr (inl e)) | inr s => shp_new_from rd1 m s end) as [[a1|a1]|a1], (match s2 with inl e => Ok (RErr (inl e)) | inr s => shp_new_from rd2 m s end) as [[a2|a2]|a2];
      try contradiction; cbn [bind]; try exact A; [|cbn [opens sf_lift]; subst; reflexivity].
    destruct (match t1 with inl e => Ok (RErr (inl e)) | inr s => dbf_new_from rd1' m enc s end) as [[b1|b1]|b1], (match t2 with inl e => Ok (RErr (inl e)) | inr s => dbf_new_from rd2' m enc s end) as [[b2|b2]|b2];
      try contradiction; cbn [bind opens sf_lift]; subst; try reflexivity. split; assumption.
  Qed.

  Lemma sf_next_sim r1 r2 : sf_like r1 r2 -> steps weak sf_like sf_lift (sf_next_from rd1 rd1' r1) (sf_next_from rd2 rd2' r2).
  Proof.
    intros [H H']. unfold sf_next_from. pose proof (shp_next_sim weak Rel h rd1 rd2 Hs _ _ H) as A. pose proof (dbf_next_sim weak Rel' h' rd1' rd2' Hs' _ _ H') as B.
    unfold steps in A, B. destruct (shp_next_from rd1 (fst r1)) as [[x1 a1]|p1], (shp_next_from rd2 (fst r2)) as [[x2 a2]|p2]; try contradiction; cbn [bind]; [|exact A].
    destruct (dbf_next_from rd1' (snd r1)) as [y1 b1], (dbf_next_from rd2' (snd r2)) as [y2 b2]. destruct A as [-> A], B as [-> B]. unfold steps.
    split.
    - destruct x2 as [[x2|x2]|], y2 as [[y2|y2]|]; reflexivity.
    - destruct A as [A|[W A]]; [destruct B as [B|[W B]]|].
      + left. split; assumption.
      + right. split; [exact W|]. destruct y2 as [[y2|y2]|]; try contradiction. destruct x2 as [[x2|x2]|]; exact I.
      + right. split; [exact W|]. destruct x2 as [[x2|x2]|]; try contradiction. destruct y2 as [[y2|y2]|]; exact I.
  Qed.
End Both.

(** ** Sources with the same items *)

Section Pieces.
  Context {S T : Type} (a : source S) (b : source T) (ia : S -> list item) (ib : T -> list item) (Ha : delivers a ia) (Hb : delivers b ib).
  Lemma same_sim : sim False (fun s t => ia s = ib t) (fun e => e) (source_exact a) (source_exact b).
  Proof.
    intros n s t E. destruct (exact_items a ia Ha n s) as [A A'], (exact_items b ib Hb n t) as [B B']. rewrite A, B, E. split.
    - destruct (fst (items_exact n (ib t))); reflexivity.
    - left. rewrite A', B', E. reflexivity.
  Qed.
End Pieces.

Lemma seen_map_id {A X E} (f : E -> E) (o : res (result (X * list (option (result A E))) E)) : (forall e, f e = e) -> seen_map f o = o.
Proof.
  intros H. destruct o as [[[x l]|e]|p]; cbn [seen_map]; [|rewrite H; reflexivity|reflexivity]. do 3 f_equal.
  rewrite <- (map_id l) at 2. apply map_ext. intros [[y|e]|]; cbn [option_map error_map]; [|rewrite H|]; reflexivity.
Qed.
Lemma lift_id {E X} (e : E + X) : lift (fun e => e) e = e.
Proof. destruct e; reflexivity. Qed.
Lemma sf_lift_id {E1 E2} (e : sf_error_of E1 E2) : sf_lift (fun e => e) (fun e => e) e = e.
Proof. destruct e; cbn [sf_lift]; rewrite ?lift_id; reflexivity. Qed.

Lemma shp_pieces {S T} (a : source S) (b : source T) ia ib m k s t : delivers a ia -> delivers b ib -> ia s = ib t -> shp_seen a m k s = shp_seen b m k t.
Proof.
  intros Ha Hb E. unfold shp_seen. pose proof (same_sim a b ia ib Ha Hb) as M.
  rewrite (watch_sim _ (lift (fun e => e)) _ sho_header _ (shp_next_from (source_exact b)) (fun r1 r2 H => proj2 (proj2 H)) (shp_next_sim _ _ _ _ _ M) k _ _ (shp_new_sim _ _ _ _ _ M m s t E)).
  apply seen_map_id, lift_id.
Qed.
Lemma dbf_pieces {S T} (a : source S) (b : source T) ia ib m enc k s t : delivers a ia -> delivers b ib -> ia s = ib t -> dbf_seen a m enc k s = dbf_seen b m enc k t.
Proof.
  intros Ha Hb E. unfold dbf_seen. pose proof (same_sim a b ia ib Ha Hb) as M.
  rewrite (watch_sim _ (lift (fun e => e)) _ dbo_meta _ (fun r => Ok (dbf_next_from (source_exact b) r)) (fun r1 r2 H => proj2 (proj2 H)) (dbf_next_sim _ _ _ _ _ M) k _ _ (dbf_new_sim _ _ _ _ _ M m enc s t E)).
  apply seen_map_id, lift_id.
Qed.
Section TwoPieces.
  Context {S T S' T' : Type} (a : source S) (b : source T) (a' : source S') (b' : source T') (ia : S -> list item) (ib : T -> list item)
    (ia' : S' -> list item) (ib' : T' -> list item) (Ha : delivers a ia) (Hb : delivers b ib) (Ha' : delivers a' ia') (Hb' : delivers b' ib').
  Let M := same_sim a b ia ib Ha Hb.
  Let M' := same_sim a' b' ia' ib' Ha' Hb'.
  Lemma sf_pieces m enc k s t s' t' : ia s = ib t -> ia' s' = ib' t' -> sf_seen a a' m enc k s s' = sf_seen b b' m enc k t t'.
  Proof.
    intros E E'. unfold sf_seen.
    rewrite (watch_sim _ (sf_lift (fun e => e) (fun e => e)) _ sf_about _ _ (sf_like_about _ _) (sf_next_sim _ _ _ _ _ M _ _ _ _ M') k _ _ (sf_new_sim _ _ _ _ _ M _ _ _ _ M' m enc s t s' t' E E')).
    apply seen_map_id, sf_lift_id.
  Qed.
  Lemma sf_open_pieces m enc k s t s' t' : same_items ia ib s t -> same_items ia' ib' s' t' -> sf_open_seen a a' m enc k s s' = sf_open_seen b b' m enc k t t'.
  Proof.
    intros E E'. unfold sf_open_seen.
    rewrite (watch_sim _ (sf_lift (fun e => e) (fun e => e)) _ sf_about _ _ (sf_like_about _ _) (sf_next_sim _ _ _ _ _ M _ _ _ _ M') k _ _ (sf_open_sim _ _ _ _ _ M _ _ _ _ M' m enc s t s' t' E E')).
    apply seen_map_id, sf_lift_id.
  Qed.
End TwoPieces.

(** ** The readers of byte lists *)

Definition bytes_exact (af : after_fail) (n : Z) (s : stream) : result (list Z) unit * stream :=
  match read_exact af n s with (Some b, s') => (ROk b, s') | (None, s') => (RErr tt, s') end.

Section Bytes.
  Context (af : after_fail).
  Definition shp_copy (r1 : shp_reader) (r2 : shp_reader_of stream) : Prop := r2 = ShpReaderOf (shr_file r1) (shr_read r1) (shr_header r1).
  Definition dbf_copy (r1 : dbf_reader) (r2 : dbf_reader_of stream) : Prop := r2 = DbfReaderOf (dbr_file r1) (dbr_iterated r1) (dbr_meta r1).

  Lemma shp_new_bytes m s : opens shp_copy shp_plain (shp_reader_new m af s) (shp_new_from (bytes_exact af) m s).
  Proof.
    unfold shp_reader_new, shp_new_from, read_shp_header, read_shp_header_from, bytes_exact.
    destruct (read_exact af shp_header_length s) as [[buf|] s']; [|reflexivity]. destruct (parse_shp_header m buf) as [[x|e]|p]; reflexivity.
  Qed.
  Lemma shp_next_bytes r1 r2 : shp_copy r1 r2 -> steps False shp_copy shp_plain (shp_next af r1) (shp_next_from (bytes_exact af) r2).
  Proof.
    intros ->. unfold shp_next, shp_next_from, read_polygon_record, read_polygon_record_from, bytes_exact. cbn [sho_file sho_read sho_header].
    destruct (sh_bytes (shr_header r1) <=? shr_read r1); [split; [reflexivity|left; reflexivity]|].
    destruct (read_exact af 8 (shr_file r1)) as [[buf|] s']; [|split; [reflexivity|left; reflexivity]].
    destruct (be_at buf 0 4) as [rn|p]; cbn [bind]; [|reflexivity]. destruct (be_at buf 4 4) as [w|p]; cbn [bind]; [|reflexivity].
    destruct (read_exact af (w * 2) s') as [[buf'|] s'']; [|split; [reflexivity|left; reflexivity]].
    destruct (parse_polygon_record buf' rn) as [[x|e]|p]; cbn [bind]; [|split; [reflexivity|left; reflexivity]|reflexivity].
    split; [|left; reflexivity]. destruct (_ <? _); reflexivity.
  Qed.
  Lemma dbf_new_bytes m enc s : opens dbf_copy dbf_plain (dbf_reader_new m af enc s) (dbf_new_from (bytes_exact af) m enc s).
  Proof.
    unfold dbf_reader_new, dbf_new_from, read_dbf_meta, read_dbf_meta_from, read_dbf_header, read_dbf_header_from, read_dbf_fields, read_dbf_fields_from, bytes_exact.
    destruct (read_exact af 32 s) as [[buf|] s']; [|reflexivity].
    destruct (get buf 2) as [b2|p]; cbn [bind]; [|reflexivity]. destruct (get buf 3) as [b3|p]; cbn [bind]; [|reflexivity].
    destruct ((12 <? b2) || (31 <? b3)); cbn [bind]; [reflexivity|].
    destruct (le_at buf 4 4) as [n|p]; cbn [bind]; [|reflexivity]. destruct (le_at buf 8 2) as [hb|p]; cbn [bind]; [|reflexivity].
    destruct (le_at buf 10 2) as [rb|p]; cbn [bind]; [|reflexivity]. destruct (header_rest m (DHeader n hb rb)) as [k|p]; cbn [bind]; [|reflexivity].
    destruct (read_exact af k s') as [[buf'|] s'']; [|reflexivity]. destruct (parse_fields enc (chunks 32 buf') 1 []) as [[fs|e]|p]; reflexivity.
  Qed.
  Lemma dbf_next_bytes r1 r2 : dbf_copy r1 r2 -> steps False dbf_copy dbf_plain (Ok (dbf_next af r1)) (Ok (dbf_next_from (bytes_exact af) r2)).
  Proof.
    intros ->. unfold dbf_next, dbf_next_from, read_dbf_record, bytes_exact. cbn [dbo_file dbo_iterated dbo_meta].
    destruct (dbr_iterated r1 =? dm_records (dbr_meta r1)); [split; [reflexivity|left; reflexivity]|].
    destruct (read_exact af (dm_record_bytes (dbr_meta r1)) (dbr_file r1)) as [[buf|] s']; (split; [reflexivity|left; reflexivity]).
  Qed.
End Bytes.

Definition sf_copy (r1 : sf_reader) (r2 : sf_reader_of (R1 := stream) (R2 := stream)) : Prop := shp_copy (sf_shp r1) (fst r2) /\ dbf_copy (sf_dbf r1) (snd r2).
Lemma sf_new_bytes afs afd m enc s t : opens sf_copy sf_plain (sf_reader_new m afs afd enc s t) (sf_new_from (bytes_exact afs) (bytes_exact afd) m enc s t).
Proof.
  unfold sf_reader_new, sf_new_from. pose proof (shp_new_bytes afs m s) as A. pose proof (dbf_new_bytes afd m enc t) as B. unfold opens in A, B.
  destruct (shp_reader_new m afs s) as [[a1|a1]|a1], (shp_new_from (bytes_exact afs) m s) as [[a2|a2]|a2]; try contradiction; cbn [bind]; try exact A;
    (destruct (dbf_reader_new m afd enc t) as [[b1|b1]|b1], (dbf_new_from (bytes_exact afd) m enc t) as [[b2|b2]|b2]; try contradiction; cbn [bind opens sf_plain]; subst; try reflexivity).
  split; assumption.
Qed.
Lemma sf_next_bytes afs afd r1 r2 : sf_copy r1 r2 -> steps False sf_copy sf_plain (sf_next afs afd r1) (sf_next_from (bytes_exact afs) (bytes_exact afd) r2).
Proof.
  intros [H H']. unfold sf_next, sf_next_from. pose proof (shp_next_bytes afs _ _ H) as A. pose proof (dbf_next_bytes afd _ _ H') as B. unfold steps in A, B.
  destruct (shp_next afs (sf_shp r1)) as [[x1 a1]|p1], (shp_next_from (bytes_exact afs) (fst r2)) as [[x2 a2]|p2]; try contradiction; cbn [bind]; [|exact A].
  destruct (dbf_next afd (sf_dbf r1)) as [y1 b1], (dbf_next_from (bytes_exact afd) (snd r2)) as [y2 b2]. destruct A as [-> [A|[[] _]]], B as [-> [B|[[] _]]].
  split; [|left; split; assumption]. destruct x2 as [[x2|x2]|], y2 as [[y2|y2]|]; reflexivity.
Qed.
Lemma shp_copy_about r1 r2 : shp_copy r1 r2 -> shr_header r1 = sho_header r2.
Proof. intros ->. reflexivity. Qed.
Lemma dbf_copy_about r1 r2 : dbf_copy r1 r2 -> dbr_meta r1 = dbo_meta r2.
Proof. intros ->. reflexivity. Qed.
Lemma sf_copy_about r1 r2 : sf_copy r1 r2 -> sf_bytes_about r1 = sf_about r2.
Proof. intros [A B]. unfold sf_bytes_about, sf_about. rewrite A, B. reflexivity. Qed.

Lemma take_bytes bs : forall n rest, no_byte_next rest ->
  (n <= length bs)%nat /\ take_items n (map Byte bs ++ rest) = (ROk (firstn n bs), map Byte (skipn n bs) ++ rest) \/
  (length bs < n)%nat /\ exists t, take_items n (map Byte bs ++ rest) = (RErr (stopped_by rest), t) /\ (rest = [] -> t = []).
Proof.
  induction bs as [|b bs IH]; intros [|n] rest H; try (left; split; [lia|reflexivity]).
  - right. split; [cbn; lia|]. destruct rest as [|[b| |e] rest]; cbn [no_byte_next] in H; try contradiction; cbn [map app take_items stopped_by]; eexists; (split; [reflexivity|]); try discriminate. reflexivity.
  - cbn [length map app take_items firstn skipn]. destruct (IH n rest H) as [[L E]|[L (t & E & Z)]]; rewrite E; [left|right]; (split; [lia|]); [reflexivity|]. exists t. auto.
Qed.

Section OneSource.
  Context {S : Type} (src : source S) (items : S -> list item) (Hd : delivers src items).
  Lemma bytes_sim : sim False (fun s bs => items s = map Byte bs) (fun _ : unit => UnexpectedEof) (source_exact src) (bytes_exact consumed).
  Proof.
    intros n s bs E. destruct (exact_items src items Hd n s) as [A B]. unfold items_exact in A, B. rewrite A, B, E. unfold bytes_exact, read_exact.
    destruct (take_bytes bs (Z.to_nat n) [] I) as [[L T]|[L (t & T & Z)]]; rewrite app_nil_r in T; rewrite T; cbn [fst snd].
    - replace (n <=? Z.of_nat (length bs)) with true by lia. cbn [fst snd]. rewrite app_nil_r. split; [reflexivity|left; reflexivity].
    - replace (n <=? Z.of_nat (length bs)) with false by lia. cbn [fst snd]. split; [reflexivity|left]. rewrite Z by reflexivity. reflexivity.
  Qed.
  Lemma stopped_sim rest af : no_byte_next rest ->
    sim True (fun s bs => items s = map Byte bs ++ rest) (fun _ : unit => stopped_by rest) (source_exact src) (bytes_exact af).
  Proof.
    intros H n s bs E. destruct (exact_items src items Hd n s) as [A B]. unfold items_exact in A, B. rewrite A, B, E. unfold bytes_exact, read_exact.
    destruct (take_bytes bs (Z.to_nat n) rest H) as [[L T]|[L (t & T & _)]]; rewrite T; cbn [fst snd].
    - replace (n <=? Z.of_nat (length bs)) with true by lia. cbn [fst snd]. split; [reflexivity|left; reflexivity].
    - replace (n <=? Z.of_nat (length bs)) with false by lia. cbn [fst snd]. split; [reflexivity|right; split; exact I].
  Qed.
End OneSource.

Lemma seen_map_map {A X E F G} (f : E -> F) (g : F -> G) (o : res (result (X * list (option (result A E))) E)) : seen_map g (seen_map f o) = seen_map (fun e => g (f e)) o.
Proof.
  destruct o as [[[x l]|e]|p]; cbn [seen_map]; try reflexivity. do 3 f_equal. rewrite map_map. apply map_ext. intros [[y|e]|]; reflexivity.
Qed.
Lemma seen_map_ext {A X E F} (f g : E -> F) (o : res (result (X * list (option (result A E))) E)) : (forall e, f e = g e) -> seen_map f o = seen_map g o.
Proof.
  intros H. destruct o as [[[x l]|e]|p]; cbn [seen_map]; [|rewrite H; reflexivity|reflexivity]. do 3 f_equal. apply map_ext. intros [[y|e]|]; cbn [option_map error_map]; [|rewrite H|]; reflexivity.
Qed.
Lemma io_errors_const {A X F} (e0 : io_error) (o : res (result (X * list (option (result A (unit + F)))) (unit + F))) :
  Forall (eq e0) (io_errors (seen_map (lift (fun _ => e0)) o)).
Proof.
  destruct o as [[[x l]|[e|e]]|p]; cbn [seen_map lift io_errors]; [|constructor; [reflexivity|constructor]|constructor|constructor].
  apply Forall_flat_map, Forall_map, Forall_forall. intros [[y|[e|e]]|] _; cbn [option_map error_map lift]; try (constructor; fail). constructor; [reflexivity|constructor].
Qed.
Lemma sf_io_errors_const {A X} (e1 e2 : io_error) (o : res (result (X * list (option (result A (sf_error_of unit unit)))) (sf_error_of unit unit))) :
  Forall (eq e1) (fst (sf_io_errors (seen_map (sf_lift (fun _ => e1) (fun _ => e2)) o))) /\ Forall (eq e2) (snd (sf_io_errors (seen_map (sf_lift (fun _ => e1) (fun _ => e2)) o))).
Proof.
  destruct o as [[[x l]|[[e|e]|[e|e]| |]]|p]; cbn [seen_map sf_lift lift sf_io_errors fst snd flat_map app]; try (split; repeat constructor; fail).
  split; apply Forall_flat_map, Forall_flat_map, Forall_map, Forall_forall; intros [[y|[[e|e]|[e|e]| |]]|] _; cbn [option_map error_map sf_lift lift]; repeat constructor.
Qed.

Lemma shp_as_bytes {S} (src : source S) items m k s bs : delivers src items -> items s = map Byte bs ->
  seen_map shp_plain (shp_seen src m k s) = shp_bytes_seen m k bs /\ Forall (eq UnexpectedEof) (io_errors (shp_seen src m k s)).
Proof.
  intros Hd E. pose proof (bytes_sim src items Hd) as M. unfold shp_seen, shp_bytes_seen.
  rewrite (watch_sim _ (lift (fun _ => UnexpectedEof)) _ sho_header _ (shp_next_from (bytes_exact consumed)) (fun r1 r2 H => proj2 (proj2 H)) (shp_next_sim _ _ _ _ _ M) k _ _ (shp_new_sim _ _ _ _ _ M m s bs E)).
  split; [|apply io_errors_const]. rewrite seen_map_map.
  rewrite (watch_sim _ shp_plain shr_header sho_header _ (shp_next_from (bytes_exact consumed)) shp_copy_about (shp_next_bytes consumed) k _ _ (shp_new_bytes consumed m bs)).
  apply seen_map_ext. intros [e|e]; reflexivity.
Qed.
Lemma dbf_as_bytes {S} (src : source S) items m enc k s bs : delivers src items -> items s = map Byte bs ->
  seen_map dbf_plain (dbf_seen src m enc k s) = dbf_bytes_seen m enc k bs /\ Forall (eq UnexpectedEof) (io_errors (dbf_seen src m enc k s)).
Proof.
  intros Hd E. pose proof (bytes_sim src items Hd) as M. unfold dbf_seen, dbf_bytes_seen.
  rewrite (watch_sim _ (lift (fun _ => UnexpectedEof)) _ dbo_meta _ (fun r => Ok (dbf_next_from (bytes_exact consumed) r)) (fun r1 r2 H => proj2 (proj2 H)) (dbf_next_sim _ _ _ _ _ M) k _ _ (dbf_new_sim _ _ _ _ _ M m enc s bs E)).
  split; [|apply io_errors_const]. rewrite seen_map_map.
  rewrite (watch_sim _ dbf_plain dbr_meta dbo_meta _ (fun r => Ok (dbf_next_from (bytes_exact consumed) r)) dbf_copy_about (dbf_next_bytes consumed) k _ _ (dbf_new_bytes consumed m enc bs)).
  apply seen_map_ext. intros [e|e]; reflexivity.
Qed.
Lemma sf_as_bytes {S T} (a : source S) (b : source T) ia ib m enc k s t bs cs : delivers a ia -> delivers b ib -> ia s = map Byte bs -> ib t = map Byte cs ->
  seen_map sf_plain (sf_seen a b m enc k s t) = sf_bytes_seen m enc k bs cs /\
  Forall (eq UnexpectedEof) (fst (sf_io_errors (sf_seen a b m enc k s t))) /\ Forall (eq UnexpectedEof) (snd (sf_io_errors (sf_seen a b m enc k s t))).
Proof.
  intros Ha Hb E E'. pose proof (bytes_sim a ia Ha) as M. pose proof (bytes_sim b ib Hb) as M'. unfold sf_seen, sf_bytes_seen.
  rewrite (watch_sim _ (sf_lift (fun _ => UnexpectedEof) (fun _ => UnexpectedEof)) _ sf_about _ _ (sf_like_about _ _) (sf_next_sim _ _ _ _ _ M _ _ _ _ M') k _ _ (sf_new_sim _ _ _ _ _ M _ _ _ _ M' m enc s bs t cs E E')).
  split; [|apply sf_io_errors_const]. rewrite seen_map_map.
  rewrite (watch_sim _ sf_plain sf_bytes_about sf_about _ _ sf_copy_about (sf_next_bytes consumed consumed) k _ _ (sf_new_bytes consumed consumed m enc bs cs)).
  apply seen_map_ext. intros [[e|e]|[e|e]| |]; reflexivity.
Qed.

Lemma weaken {A A1 A2 F1 F2} (RR : A1 -> A2 -> Prop) (f : F2 -> F1) (o1 : res (option (result A F1) * A1)) o2 : steps False RR f o1 o2 -> steps True RR f o1 o2.
Proof. destruct o1 as [[x1 r1]|p], o2 as [[x2 r2]|q]; cbn [steps]; auto. intros [E [H|[[] _]]]. auto. Qed.

Lemma shp_stopped {S} (src : source S) items m k s bs rest af : delivers src items -> items s = map Byte bs ++ rest -> no_byte_next rest ->
  let seen := watch_to_error sho_header (shp_next_from (source_exact src)) k (shp_new_from (source_exact src) m s) in
  seen_map shp_plain seen = watch_to_error shr_header (shp_next af) k (shp_reader_new m af bs) /\ Forall (eq (stopped_by rest)) (io_errors seen).
Proof.
  intros Hd E Hn. pose proof (stopped_sim src items Hd rest af Hn) as M. cbv zeta.
  rewrite (watch_to_sim _ (lift (fun _ => stopped_by rest)) _ sho_header _ (shp_next_from (bytes_exact af)) (fun r1 r2 H => proj2 (proj2 H)) (shp_next_sim _ _ _ _ _ M) k _ _ (shp_new_sim _ _ _ _ _ M m s bs E)).
  split; [|apply io_errors_const]. rewrite seen_map_map.
  rewrite (watch_to_sim _ shp_plain shr_header sho_header _ (shp_next_from (bytes_exact af)) shp_copy_about (fun r1 r2 H => weaken _ _ _ _ (shp_next_bytes af r1 r2 H)) k _ _ (shp_new_bytes af m bs)).
  apply seen_map_ext. intros [e|e]; reflexivity.
Qed.
Lemma dbf_stopped {S} (src : source S) items m enc k s bs rest af : delivers src items -> items s = map Byte bs ++ rest -> no_byte_next rest ->
  let seen := watch_to_error dbo_meta (fun r => Ok (dbf_next_from (source_exact src) r)) k (dbf_new_from (source_exact src) m enc s) in
  seen_map dbf_plain seen = watch_to_error dbr_meta (fun r => Ok (dbf_next af r)) k (dbf_reader_new m af enc bs) /\ Forall (eq (stopped_by rest)) (io_errors seen).
Proof.
  intros Hd E Hn. pose proof (stopped_sim src items Hd rest af Hn) as M. cbv zeta.
  rewrite (watch_to_sim _ (lift (fun _ => stopped_by rest)) _ dbo_meta _ (fun r => Ok (dbf_next_from (bytes_exact af) r)) (fun r1 r2 H => proj2 (proj2 H)) (dbf_next_sim _ _ _ _ _ M) k _ _ (dbf_new_sim _ _ _ _ _ M m enc s bs E)).
  split; [|apply io_errors_const]. rewrite seen_map_map.
  rewrite (watch_to_sim _ dbf_plain dbr_meta dbo_meta _ (fun r => Ok (dbf_next_from (bytes_exact af) r)) dbf_copy_about (fun r1 r2 H => weaken _ _ _ _ (dbf_next_bytes af r1 r2 H)) k _ _ (dbf_new_bytes af m enc bs)).
  apply seen_map_ext. intros [e|e]; reflexivity.
Qed.
Lemma sf_stopped {S T} (a : source S) (b : source T) ia ib m enc k s t bs cs rest rest' afs afd : delivers a ia -> delivers b ib ->
  ia s = map Byte bs ++ rest -> ib t = map Byte cs ++ rest' -> no_byte_next rest -> no_byte_next rest' ->
  let seen := watch_to_error sf_about (sf_next_from (source_exact a) (source_exact b)) k (sf_new_from (source_exact a) (source_exact b) m enc s t) in
  seen_map sf_plain seen = watch_to_error sf_bytes_about (sf_next afs afd) k (sf_reader_new m afs afd enc bs cs) /\
  Forall (eq (stopped_by rest)) (fst (sf_io_errors seen)) /\ Forall (eq (stopped_by rest')) (snd (sf_io_errors seen)).
Proof.
  intros Ha Hb E E' Hn Hn'. pose proof (stopped_sim a ia Ha rest afs Hn) as M. pose proof (stopped_sim b ib Hb rest' afd Hn') as M'. cbv zeta.
  rewrite (watch_to_sim _ (sf_lift (fun _ => stopped_by rest) (fun _ => stopped_by rest')) _ sf_about _ _ (sf_like_about _ _) (sf_next_sim _ _ _ _ _ M _ _ _ _ M') k _ _ (sf_new_sim _ _ _ _ _ M _ _ _ _ M' m enc s bs t cs E E')).
  split; [|apply sf_io_errors_const]. rewrite seen_map_map.
  rewrite (watch_to_sim _ sf_plain sf_bytes_about sf_about _ _ sf_copy_about (fun r1 r2 H => weaken _ _ _ _ (sf_next_bytes afs afd r1 r2 H)) k _ _ (sf_new_bytes afs afd m enc bs cs)).
  apply seen_map_ext. intros [[e|e]|[e|e]| |]; reflexivity.
Qed.
