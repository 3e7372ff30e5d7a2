(** * ShpProofs: lemmas about the .shp reader *)
From Verif Require Import ShpSpec GeoProofs TopoProofs BytesProofs.

Lemma le_at_app2 (a b c : list Z) i n z : length (a ++ b) = i -> in_bytes n z -> le_at (a ++ b ++ le_bytes n z ++ c) i n = Ok z.
Proof. intros. rewrite app_assoc. apply le_at_app; assumption. Qed.

Ltac lens := rewrite ?app_length, ?be_bytes_length, ?le_bytes_length.

(** ** The header *)
Definition header_result (m : mode) (magic len version ty x0 y0 x1 y1 : Z) : res (result shp_header shp_error) :=
  if negb (magic =? shp_magic) then Ok (RErr (SEMagic magic))
  else if negb (version =? shp_version) then Ok (RErr (SEVersion version))
  else match shape_type_with_u32 ty with
       | Some STPolygon => n <- u32_mul2 m len ;; Ok (ROk (SHeader n STPolygon (SBBox x0 y0 x1 y1)))
       | Some t => Ok (RErr (SEUnsupported t))
       | None => Ok (RErr (SENoType ty))
       end.

Lemma header_length magic u1 len v ty x0 y0 x1 y1 u2 : header_fields magic u1 len v ty x0 y0 x1 y1 u2 ->
  length (header_bytes magic u1 len v ty x0 y0 x1 y1 u2) = 100%nat.
Proof. intros (_ & H1 & _ & _ & _ & _ & _ & _ & _ & H2). unfold header_bytes. lens. lia. Qed.

Lemma header_parse m magic u1 len v ty x0 y0 x1 y1 u2 : header_fields magic u1 len v ty x0 y0 x1 y1 u2 ->
  parse_shp_header m (header_bytes magic u1 len v ty x0 y0 x1 y1 u2) = header_result m magic len v ty x0 y0 x1 y1.
Proof.
  intros (Hm & H1 & Hl & Hv & Ht & Hx0 & Hy0 & Hx1 & Hy1 & H2). unfold header_bytes, parse_shp_header.
  set (B := be_bytes 4 magic ++ _).
  assert (E : be_at B 0 4 = Ok magic) by (apply (be_at_app []); auto). rewrite E. clear E. cbn [bind].
  assert (E : be_at B 24 4 = Ok len).
  { unfold B. rewrite app_assoc. apply be_at_app; [lens; lia|auto]. }
  rewrite E. clear E. cbn [bind].
  assert (E : le_at B 28 4 = Ok v).
  { unfold B. rewrite 2 app_assoc. apply le_at_app; [lens; lia|auto]. }
  rewrite E. clear E. cbn [bind].
  assert (E : le_at B 32 4 = Ok ty).
  { unfold B. rewrite 3 app_assoc. apply le_at_app; [lens; lia|auto]. }
  rewrite E. clear E. cbn [bind].
  assert (E : le_at B 36 8 = Ok x0).
  { unfold B. rewrite 4 app_assoc. apply le_at_app; [lens; lia|auto]. }
  rewrite E. clear E. cbn [bind].
  assert (E : le_at B 44 8 = Ok y0).
  { unfold B. rewrite 5 app_assoc. apply le_at_app; [lens; lia|auto]. }
  rewrite E. clear E. cbn [bind].
  assert (E : le_at B 52 8 = Ok x1).
  { unfold B. rewrite 6 app_assoc. apply le_at_app; [lens; lia|auto]. }
  rewrite E. clear E. cbn [bind].
  assert (E : le_at B 60 8 = Ok y1).
  { unfold B. rewrite 7 app_assoc. apply le_at_app; [lens; lia|auto]. }
  rewrite E. clear E. cbn [bind]. reflexivity.
Qed.

Lemma header_new m af magic u1 len v ty x0 y0 x1 y1 u2 rest : header_fields magic u1 len v ty x0 y0 x1 y1 u2 ->
  shp_reader_new m af (header_bytes magic u1 len v ty x0 y0 x1 y1 u2 ++ rest) =
  match header_result m magic len v ty x0 y0 x1 y1 with
  | Ok (ROk h) => Ok (ROk (ShpReader rest 100 h))
  | Ok (RErr e) => Ok (RErr e)
  | Panic p => Panic p
  end.
Proof.
  intros H. unfold shp_reader_new, read_shp_header. rewrite read_exact_app by (rewrite header_length by exact H; reflexivity).
  rewrite header_parse by exact H. destruct (header_result m magic len v ty x0 y0 x1 y1) as [[h|e]|p]; reflexivity.
Qed.

(** Every 100 bytes are a header. *)
Lemma header_form s : bytes_ok s -> (100 <= length s)%nat ->
  exists magic u1 len v ty x0 y0 x1 y1 u2 rest,
    header_fields magic u1 len v ty x0 y0 x1 y1 u2 /\ s = header_bytes magic u1 len v ty x0 y0 x1 y1 u2 ++ rest.
Proof.
  intros H HL. unfold header_bytes, header_fields.
  destruct (cut 4 s H) as (a1 & s1 & -> & L1 & O1 & H1); [lia|]. rewrite app_length in HL.
  destruct (cut 20 s1 H1) as (a2 & s2 & -> & L2 & O2 & H2); [lia|]. rewrite app_length in HL.
  destruct (cut 4 s2 H2) as (a3 & s3 & -> & L3 & O3 & H3); [lia|]. rewrite app_length in HL.
  destruct (cut 4 s3 H3) as (a4 & s4 & -> & L4 & O4 & H4); [lia|]. rewrite app_length in HL.
  destruct (cut 4 s4 H4) as (a5 & s5 & -> & L5 & O5 & H5); [lia|]. rewrite app_length in HL.
  destruct (cut 8 s5 H5) as (a6 & s6 & -> & L6 & O6 & H6); [lia|]. rewrite app_length in HL.
  destruct (cut 8 s6 H6) as (a7 & s7 & -> & L7 & O7 & H7); [lia|]. rewrite app_length in HL.
  destruct (cut 8 s7 H7) as (a8 & s8 & -> & L8 & O8 & H8); [lia|]. rewrite app_length in HL.
  destruct (cut 8 s8 H8) as (a9 & s9 & -> & L9 & O9 & H9); [lia|]. rewrite app_length in HL.
  destruct (cut 32 s9 H9) as (a10 & s10 & -> & L10 & O10 & H10); [lia|].
  destruct (be_form 4 a1 O1 L1) as (z1 & I1 & ->). destruct (be_form 4 a3 O3 L3) as (z3 & I3 & ->).
  destruct (le_form 4 a4 O4 L4) as (z4 & I4 & ->). destruct (le_form 4 a5 O5 L5) as (z5 & I5 & ->).
  destruct (le_form 8 a6 O6 L6) as (z6 & I6 & ->). destruct (le_form 8 a7 O7 L7) as (z7 & I7 & ->).
  destruct (le_form 8 a8 O8 L8) as (z8 & I8 & ->). destruct (le_form 8 a9 O9 L9) as (z9 & I9 & ->).
  exists z1, a2, z3, z4, z5, z6, z7, z8, z9, a10, s10. rewrite <- !app_assoc. tauto.
Qed.

Lemma with_u32_codes u : match shape_type_with_u32 u with
  | Some t => In (u, t) type_codes
  | None => forall t, ~ In (u, t) type_codes
  end.
Proof.
  assert (D : (In u (map fst type_codes)) \/ ~ In u (map fst type_codes)) by (destruct (in_dec Z.eq_dec u (map fst type_codes)); auto).
  destruct D as [D|D].
  - cbn in D. decompose [or] D; subst; try contradiction; cbn; tauto.
  - destruct (shape_type_with_u32 u) as [t|] eqn:E.
    + exfalso. apply D. unfold shape_type_with_u32 in E.
      repeat match type of E with context [match ?x with _ => _ end] => is_var x; destruct x; try discriminate end; cbn; tauto.
    + intros t Ht. apply D. apply in_map_iff. exists (u, t). auto.
Qed.

(** ** Record contents *)
Definition polygon_result (rn : Z) (starts : list Z) (points : list shp_point) : result shp_record shp_error :=
  let n := Z.of_nat (length points) in
  match parse_rings rn n points (pairs starts) [] with
  | RErr e => RErr e
  | ROk rings => let l := last starts 0 in
                 if n <=? l + 3 then RErr (SELastRing rn l n) else ROk (SRecord rn (rings ++ [slice l n points]))
  end.

Lemma content_length ty box a b rest : length box = 32%nat -> length (content ty box a b rest) = (44 + length rest)%nat.
Proof. intros H. unfold content. lens. lia. Qed.

Lemma le_bytes_chunks n (l : list Z) : Forall (fun c => length c = n) (map (le_bytes n) l).
Proof. apply Forall_forall. intros c Hc. apply in_map_iff in Hc as (z & <- & _). apply le_bytes_length. Qed.
Lemma point_chunks (l : list shp_point) : Forall (fun c => length c = 16%nat) (map point_bytes l).
Proof. apply Forall_forall. intros c Hc. apply in_map_iff in Hc as (z & <- & _). unfold point_bytes. lens. reflexivity. Qed.
Lemma concat_length_const {A} n (l : list (list A)) : Forall (fun c => length c = n) l -> length (concat l) = (n * length l)%nat.
Proof. induction 1 as [|c l Hc H IH]; cbn; [lia|]. rewrite app_length, Hc, IH. lia. Qed.
Lemma parse_point_bytes p : point_ok p -> parse_point (point_bytes p) = Ok p.
Proof.
  intros [Hx Hy]. destruct p as [x y]. unfold parse_point, point_bytes. cbn [sp_x sp_y] in *.
  rewrite (le_at_app [] _ 0 8 x eq_refl Hx : le_at (le_bytes 8 x ++ le_bytes 8 y) 0 8 = _). cbn [bind].
  pose proof (le_at_app (le_bytes 8 x) [] 8 8 y (le_bytes_length 8 x) Hy) as E. rewrite app_nil_r in E. rewrite E. reflexivity.
Qed.
Lemma rev_last {A} (l : list A) d : l <> [] -> rev l = last l d :: rev (removelast l).
Proof.
  intros H. rewrite (app_removelast_last d H) at 1. rewrite rev_app_distr. reflexivity.
Qed.

(** The counts come out of the content as they went in. *)
Lemma content_type ty box a b rest : in_bytes 4 ty -> le_at (content ty box a b rest) 0 4 = Ok ty.
Proof. intros H. apply (le_at_app []); auto. Qed.
Lemma content_parts ty box a b rest : length box = 32%nat -> in_bytes 4 a -> le_at (content ty box a b rest) 36 4 = Ok a.
Proof. intros L H. unfold content. apply le_at_app2; [lens; lia|exact H]. Qed.
Lemma content_points ty box a b rest : length box = 32%nat -> in_bytes 4 b -> le_at (content ty box a b rest) 40 4 = Ok b.
Proof. intros L H. unfold content. rewrite 2 app_assoc. apply le_at_app; [lens; lia|exact H]. Qed.

Lemma polygon_length box starts points : polygon_fields box starts points ->
  length (polygon_bytes box starts points) = (44 + 4 * length starts + 16 * length points)%nat.
Proof.
  intros (Hb & _). unfold polygon_bytes. rewrite content_length by exact Hb. rewrite app_length.
  rewrite (concat_length_const 4) by apply le_bytes_chunks. rewrite (concat_length_const 16) by apply point_chunks. rewrite !map_length. lia.
Qed.

Lemma polygon_parse rn box starts points : polygon_fields box starts points -> starts <> [] ->
  parse_polygon_record (polygon_bytes box starts points) rn = Ok (polygon_result rn starts points).
Proof.
  intros HF Hne. pose proof (polygon_length box starts points HF) as HL. destruct HF as (Hb & Ha & Hn & Hs & Hp).
  unfold parse_polygon_record.
  assert (E : le_at (polygon_bytes box starts points) 0 4 = Ok 5) by (apply content_type; unfold in_bytes; cbn; lia). rewrite E. clear E. cbn [bind Z.eqb Pos.eqb negb].
  assert (E : le_at (polygon_bytes box starts points) 36 4 = Ok (Z.of_nat (length starts))) by (apply content_parts; auto). rewrite E. clear E. cbn [bind].
  destruct (Z.eqb_spec (Z.of_nat (length starts)) 0); [destruct starts; [congruence|cbn in *; lia]|].
  assert (E : le_at (polygon_bytes box starts points) 40 4 = Ok (Z.of_nat (length points))) by (apply content_points; auto). rewrite E. clear E. cbn [bind].
  rewrite HL. destruct (Z.eqb_spec (44 + 4 * Z.of_nat (length starts) + 16 * Z.of_nat (length points)) (Z.of_nat (44 + 4 * length starts + 16 * length points))); [|lia].
  cbn [negb]. replace (Z.to_nat (44 + 4 * Z.of_nat (length starts))) with (44 + 4 * length starts)%nat by lia.
  assert (E : sub_bytes (polygon_bytes box starts points) (44 + 4 * length starts) (44 + 4 * length starts + 16 * length points) = Ok (concat (map point_bytes points))).
  { unfold polygon_bytes, content. rewrite 4 app_assoc. apply sub_bytes_all.
    - lens. rewrite (concat_length_const 4) by apply le_bytes_chunks. rewrite !map_length. lia.
    - rewrite <- HL. unfold polygon_bytes, content. rewrite <- !app_assoc. reflexivity. }
  rewrite E. clear E. cbn [bind]. rewrite chunks_exact by (try apply point_chunks; lia).
  rewrite mmap_id. 2:{ intros p Hi. apply parse_point_bytes. rewrite Forall_forall in Hp. auto. }
  cbn [bind].
  assert (E : sub_bytes (polygon_bytes box starts points) 44 (44 + 4 * length starts) = Ok (concat (map (le_bytes 4) starts))).
  { unfold polygon_bytes, content. rewrite 3 app_assoc. apply sub_bytes_app.
    - lens. lia.
    - rewrite (concat_length_const 4) by apply le_bytes_chunks. rewrite !map_length. lia. }
  rewrite E. clear E. cbn [bind]. rewrite chunks_exact by (try apply le_bytes_chunks; lia).
  rewrite mmap_id. 2:{ intros z Hi. apply read_le_bytes. rewrite Forall_forall in Hs. auto. }
  cbn [bind]. unfold polygon_result. destruct (parse_rings rn (Z.of_nat (length points)) points (pairs starts) []) as [rings|err]; [|reflexivity].
  rewrite (rev_last starts 0) by exact Hne. cbn [bind]. destruct (Z.of_nat (length points) <=? last starts 0 + 3); reflexivity.
Qed.

(** ** Rings *)
Lemma parse_rings_ok rn points starts acc rings : Forall (fun z => 0 <= z) starts -> starts <> [] ->
  let n := Z.of_nat (length points) in
  (parse_rings rn n points (pairs starts) acc = ROk rings /\ last starts 0 + 4 <= n <->
   starts_ok n starts /\ rings ++ [slice (last starts 0) n points] = acc ++ slices starts n points).
Proof.
  intros Hpos Hne n. revert acc. induction starts as [|s t IH]; intros acc; [congruence|]. destruct t as [|e t].
  - cbn [pairs parse_rings last starts_ok slices]. split.
    + intros [[= <-] H]. auto.
    + intros [H E]. apply app_inj_tail in E as [-> _]. auto.
  - cbn [pairs parse_rings last starts_ok slices]. fold n. change (pairs (e :: t)) with (pairs (e :: t)).
    inversion Hpos as [|? ? Hs Hpos']; subst. pose proof (Forall_inv Hpos') as He. cbn beta in He.
    specialize (IH Hpos' ltac:(discriminate)).
    destruct (Z.ltb_spec n s); [cbn [orb]; split; [intros [? _]; discriminate|intros [[? _] _]; lia]|].
    destruct (Z.ltb_spec n e); [cbn [orb]; split; [intros [? _]; discriminate|intros [[? _] _]; lia]|]. cbn [orb].
    destruct (Z.ltb_spec e (s + 3)); [split; [intros [? _]; discriminate|intros [[? _] _]; lia]|].
    fold (slice s e points). change (match t with [] => e | _ => last t 0 end) with (last (e :: t) 0).
    rewrite IH. rewrite <- app_assoc. cbn [app]. split; intros [H' E]; split; tauto.
Qed.

Lemma polygon_result_ok rn starts points rec : Forall (fun z => 0 <= z) starts -> starts <> [] ->
  polygon_result rn starts points = ROk rec <->
  starts_ok (Z.of_nat (length points)) starts /\ rec = SRecord rn (slices starts (Z.of_nat (length points)) points).
Proof.
  intros Hpos Hne. unfold polygon_result. split.
  - destruct (parse_rings rn (Z.of_nat (length points)) points (pairs starts) []) as [rings|e] eqn:E; [|discriminate].
    destruct (Z.leb_spec (Z.of_nat (length points)) (last starts 0 + 3)); [discriminate|]. intros [= <-].
    destruct (parse_rings_ok rn points starts [] rings Hpos Hne) as [H' _]. destruct H' as [H1 H2]; [split; [exact E|lia]|]. cbn [app] in H2. rewrite H2. auto.
  - intros [Hok ->]. assert (Hsl : slices starts (Z.of_nat (length points)) points =
      removelast (slices starts (Z.of_nat (length points)) points) ++ [slice (last starts 0) (Z.of_nat (length points)) points]).
    { clear Hpos Hok. induction starts as [|s t IH]; [congruence|]. destruct t as [|e t]; [reflexivity|].
      cbn [slices]. change (last (s :: e :: t) 0) with (last (e :: t) 0). rewrite IH at 1 by discriminate.
      cbn [removelast]. change (match t with [] => [slice e (Z.of_nat (length points)) points]
        | e0 :: _ => slice e e0 points :: slices t (Z.of_nat (length points)) points end) with (slices (e :: t) (Z.of_nat (length points)) points).
      destruct (slices (e :: t) (Z.of_nat (length points)) points) as [|x y] eqn:E; [destruct t; discriminate|]. reflexivity. }
    destruct (parse_rings_ok rn points starts [] (removelast (slices starts (Z.of_nat (length points)) points)) Hpos Hne) as [_ H'].
    destruct H' as [-> H2]; [split; [exact Hok|symmetry; exact Hsl]|].
    destruct (Z.leb_spec (Z.of_nat (length points)) (last starts 0 + 3)); [lia|]. rewrite Hsl at 2. reflexivity.
Qed.

Lemma starts_pos starts : Forall (in_bytes 4) starts -> Forall (fun z => 0 <= z) starts.
Proof. apply Forall_impl. intros z [H _]. exact H. Qed.

(** Contents of 44 bytes or more. *)
Lemma content_form buf : bytes_ok buf -> (44 <= length buf)%nat ->
  exists ty box a b rest, buf = content ty box a b rest /\ in_bytes 4 ty /\ length box = 32%nat /\ in_bytes 4 a /\ in_bytes 4 b /\ bytes_ok rest.
Proof.
  intros H HL. unfold content.
  destruct (cut 4 buf H) as (a1 & s1 & -> & L1 & O1 & H1); [lia|]. rewrite app_length in HL.
  destruct (cut 32 s1 H1) as (a2 & s2 & -> & L2 & O2 & H2); [lia|]. rewrite app_length in HL.
  destruct (cut 4 s2 H2) as (a3 & s3 & -> & L3 & O3 & H3); [lia|]. rewrite app_length in HL.
  destruct (cut 4 s3 H3) as (a4 & s4 & -> & L4 & O4 & H4); [lia|].
  destruct (le_form 4 a1 O1 L1) as (z1 & I1 & ->). destruct (le_form 4 a3 O3 L3) as (z3 & I3 & ->).
  destruct (le_form 4 a4 O4 L4) as (z4 & I4 & ->).
  exists z1, a2, z3, z4, s4. tauto.
Qed.

Lemma point_form c : length c = 16%nat -> bytes_ok c -> exists p, c = point_bytes p /\ point_ok p.
Proof.
  intros HL H. destruct (cut 8 c H) as (a & b & -> & La & Oa & Ob); [lia|]. rewrite app_length in HL.
  destruct (le_form 8 a Oa La) as (x & Hx & ->). destruct (le_form 8 b Ob ltac:(lia)) as (y & Hy & ->). exists (SP x y). split; [reflexivity|split; assumption].
Qed.

Lemma points_form l : Forall (fun c => length c = 16%nat /\ bytes_ok c) l -> exists ps, l = map point_bytes ps /\ Forall point_ok ps.
Proof.
  induction 1 as [|c l [H1 H2] H (ps & -> & IH)]; [exists []; auto|]. destruct (point_form c H1 H2) as (p & -> & Hp). exists (p :: ps). cbn. auto.
Qed.
Lemma starts_form l : Forall (fun c => length c = 4%nat /\ bytes_ok c) l -> exists zs, l = map (le_bytes 4) zs /\ Forall (in_bytes 4) zs.
Proof.
  induction 1 as [|c l [H1 H2] H (ps & -> & IH)]; [exists []; auto|]. destruct (le_form 4 c H2 H1) as (p & Hp & ->). exists (p :: ps). cbn. auto.
Qed.

(** Contents whose length matches their counts. *)
Lemma polygon_form box a b rest : length box = 32%nat -> in_bytes 4 a -> in_bytes 4 b -> bytes_ok rest ->
  44 + 4 * a + 16 * b = Z.of_nat (44 + length rest) ->
  exists starts points, content 5 box a b rest = polygon_bytes box starts points /\ polygon_fields box starts points /\
    Z.of_nat (length starts) = a /\ Z.of_nat (length points) = b.
Proof.
  intros Hb Ha Hn Hr HL. pose proof Ha as [Ha0 _]. pose proof Hn as [Hn0 _].
  destruct (cut (4 * Z.to_nat a) rest Hr) as (r1 & r2 & -> & L1 & O1 & O2); [lia|]. rewrite app_length in HL.
  destruct (chunks_form 4 (Z.to_nat a) r1 O1 L1) as (l1 & -> & K1 & F1).
  destruct (chunks_form 16 (Z.to_nat b) r2 O2) as (l2 & -> & K2 & F2); [lia|].
  destruct (starts_form l1 F1) as (starts & -> & HS). destruct (points_form l2 F2) as (points & -> & HP). rewrite map_length in K1, K2.
  exists starts, points. assert (E1 : Z.of_nat (length starts) = a) by lia. assert (E2 : Z.of_nat (length points) = b) by lia.
  unfold polygon_bytes, polygon_fields. rewrite E1, E2. tauto.
Qed.

(** ** What [parse_polygon_record] does on every byte string *)
Inductive parsed (rn : Z) : list Z -> res (result shp_record shp_error) -> Prop :=
| PSmall buf : (length buf < 4)%nat -> parsed rn buf (Panic PIndex)
| PType ty rest : in_bytes 4 ty -> ty <> 5 -> parsed rn (le_bytes 4 ty ++ rest) (Ok (RErr (SERecordType rn ty)))
| PShort rest : (length rest < 36)%nat -> parsed rn (le_bytes 4 5 ++ rest) (Panic PIndex)
| PNoParts box rest : length box = 32%nat -> parsed rn (le_bytes 4 5 ++ box ++ le_bytes 4 0 ++ rest) (Ok (RErr (SENoParts rn)))
| PNoPoints box a rest : length box = 32%nat -> in_bytes 4 a -> a <> 0 -> (length rest < 4)%nat ->
    parsed rn (le_bytes 4 5 ++ box ++ le_bytes 4 a ++ rest) (Panic PIndex)
| PLength box a b rest : length box = 32%nat -> in_bytes 4 a -> in_bytes 4 b -> a <> 0 ->
    44 + 4 * a + 16 * b <> Z.of_nat (44 + length rest) ->
    parsed rn (content 5 box a b rest) (Ok (RErr (SELength rn (44 + 4 * a + 16 * b) a b (Z.of_nat (44 + length rest)))))
| PPolygon box starts points : polygon_fields box starts points -> starts <> [] ->
    parsed rn (polygon_bytes box starts points) (Ok (polygon_result rn starts points)).

Lemma parsed_ok buf rn : bytes_ok buf -> parsed rn buf (parse_polygon_record buf rn).
Proof.
  intros H. destruct (Nat.lt_ge_cases (length buf) 4) as [HL|HL].
  { unfold parse_polygon_record. rewrite le_at_panic by lia. constructor. exact HL. }
  destruct (cut 4 buf H) as (a1 & s1 & -> & L1 & O1 & H1); [lia|]. destruct (le_form 4 a1 O1 L1) as (ty & I1 & ->).
  assert (E0 : le_at (le_bytes 4 ty ++ s1) 0 4 = Ok ty) by (apply (le_at_app []); auto).
  destruct (Z.eq_dec ty 5) as [->|Hty].
  2:{ unfold parse_polygon_record. rewrite E0. cbn [bind]. destruct (Z.eqb_spec ty 5); [contradiction|]. apply PType; assumption. }
  destruct (Nat.lt_ge_cases (length s1) 36) as [HL1|HL1].
  { unfold parse_polygon_record. rewrite E0. cbn [bind Z.eqb Pos.eqb negb]. rewrite le_at_panic by (lens; lia). apply PShort. exact HL1. }
  destruct (cut 32 s1 H1) as (box & s2 & -> & Lb & O2 & H2); [lia|]. rewrite app_length in HL1.
  destruct (cut 4 s2 H2) as (a3 & s3 & -> & L3 & O3 & H3); [lia|]. destruct (le_form 4 a3 O3 L3) as (a & Ia & ->).
  assert (E1 : le_at (le_bytes 4 5 ++ box ++ le_bytes 4 a ++ s3) 36 4 = Ok a) by (apply le_at_app2; [lens; lia|exact Ia]).
  destruct (Z.eq_dec a 0) as [->|Hne].
  { unfold parse_polygon_record. rewrite E0. cbn [bind Z.eqb Pos.eqb negb]. rewrite E1. cbn [bind Z.eqb]. apply PNoParts. exact Lb. }
  destruct (Nat.lt_ge_cases (length s3) 4) as [HL2|HL2].
  { unfold parse_polygon_record. rewrite E0. cbn [bind Z.eqb Pos.eqb negb]. rewrite E1. cbn [bind]. destruct (Z.eqb_spec a 0); [contradiction|].
    rewrite le_at_panic by (lens; lia). apply PNoPoints; assumption. }
  destruct (cut 4 s3 H3) as (a4 & s4 & -> & L4 & O4 & H4); [lia|]. destruct (le_form 4 a4 O4 L4) as (b & Ib & ->).
  fold (content 5 box a b s4) in *.
  destruct (Z.eq_dec (44 + 4 * a + 16 * b) (Z.of_nat (44 + length s4))) as [HN|HN].
  - destruct (polygon_form box a b s4 Lb Ia Ib H4 HN) as (starts & points & -> & HF & HA & HB).
    assert (starts <> []) by (intros ->; cbn in HA; lia). rewrite polygon_parse by assumption. apply PPolygon; assumption.
  - unfold parse_polygon_record. rewrite E0. cbn [bind Z.eqb Pos.eqb negb]. rewrite E1. cbn [bind]. destruct (Z.eqb_spec a 0); [contradiction|].
    rewrite content_points by assumption. cbn [bind]. rewrite content_length by exact Lb.
    destruct (Z.eqb_spec (44 + 4 * a + 16 * b) (Z.of_nat (44 + length s4))); [contradiction|]. apply PLength; assumption.
Qed.

(** ** Consecutive rings *)
Lemma starts_from_length k rings : length (starts_from k rings) = length rings.
Proof. revert k. induction rings as [|r t IH]; intros k; cbn; [reflexivity|]. rewrite IH. reflexivity. Qed.

Lemma starts_from_ok rings k : 0 <= k -> rings <> [] -> Forall (fun r => 3 <= length r)%nat rings -> (4 <= length (last rings []))%nat ->
  starts_ok (k + Z.of_nat (length (concat rings))) (starts_from k rings).
Proof.
  revert k. induction rings as [|r t IH]; intros k Hk Hne HF Hl; [congruence|]. inversion HF as [|? ? Hr HF']; subst. destruct t as [|r' t].
  - cbn [starts_from starts_ok concat]. rewrite app_nil_r. cbn in Hl. lia.
  - cbn [starts_from starts_ok]. cbn [concat]. rewrite app_length.
    specialize (IH (k + Z.of_nat (length r)) ltac:(lia) ltac:(discriminate) HF' Hl). cbn [starts_from concat] in IH.
    rewrite Nat2Z.inj_add, Z.add_assoc. split; [|exact IH]. rewrite app_length. lia.
Qed.

Lemma slice_mid {A} (a b c : list A) s e : s = Z.of_nat (length a) -> e = s + Z.of_nat (length b) -> slice s e (a ++ b ++ c) = b.
Proof.
  intros -> ->. unfold slice. rewrite Nat2Z.id. rewrite skipn_app, skipn_all, Nat.sub_diag. cbn [skipn app].
  replace (Z.to_nat _) with (length b) by lia. rewrite firstn_app, firstn_all, Nat.sub_diag. cbn [firstn]. apply app_nil_r.
Qed.

Lemma slices_from (pre : list shp_point) rings : rings <> [] ->
  slices (starts_from (Z.of_nat (length pre)) rings) (Z.of_nat (length (pre ++ concat rings))) (pre ++ concat rings) = rings.
Proof.
  revert pre. induction rings as [|r t IH]; intros pre Hne; [congruence|]. destruct t as [|r' t].
  - cbn [starts_from slices concat]. rewrite slice_mid; [reflexivity|reflexivity|]. rewrite !app_length. cbn. lia.
  - specialize (IH (pre ++ r) ltac:(discriminate)). rewrite <- app_assoc in IH.
    change (r ++ concat (r' :: t)) with (concat (r :: r' :: t)) in IH. rewrite app_length in IH at 1. rewrite Nat2Z.inj_add in IH.
    change (starts_from (Z.of_nat (length pre)) (r :: r' :: t)) with (Z.of_nat (length pre) :: starts_from (Z.of_nat (length pre) + Z.of_nat (length r)) (r' :: t)).
    cbn [slices]. change (starts_from (Z.of_nat (length pre) + Z.of_nat (length r)) (r' :: t)) with
      ((Z.of_nat (length pre) + Z.of_nat (length r)) :: starts_from (Z.of_nat (length pre) + Z.of_nat (length r) + Z.of_nat (length r')) t) in *.
    rewrite IH. f_equal. cbn [concat]. apply slice_mid; reflexivity.
Qed.

Lemma starts_from_bounds k rings : Forall (fun r => 3 <= length r)%nat rings ->
  Forall (fun z => k <= z <= k + Z.of_nat (length (concat rings))) (starts_from k rings).
Proof.
  intros H. revert k. induction H as [|r t Hr H IH]; intros k; cbn [starts_from concat]; constructor; rewrite app_length; [lia|].
  eapply Forall_impl; [|apply IH]. cbn beta. intros z Hz. lia.
Qed.

Lemma record_ok_polygon rn box rings : record_ok rn box rings ->
  rings <> [] /\ polygon_fields box (starts_from 0 rings) (concat rings) /\
  length (record_content box rings) = (44 + 4 * length rings + 16 * length (concat rings))%nat.
Proof.
  intros (Hrn & Hb & Hp & H3 & H4 & HL). assert (Hne : rings <> []) by (intros ->; cbn in H4; lia). split; [exact Hne|].
  assert (HP : Forall point_ok (concat rings)).
  { apply Forall_concat. exact Hp. }
  assert (E : length (record_content box rings) = (44 + 4 * length rings + 16 * length (concat rings))%nat).
  { unfold record_content, polygon_bytes. rewrite content_length by exact Hb. rewrite app_length.
    rewrite (concat_length_const 4) by apply le_bytes_chunks. rewrite (concat_length_const 16) by apply point_chunks. rewrite !map_length, starts_from_length. lia. }
  split; [|exact E]. unfold in_bytes in HL. rewrite E in HL. destruct HL as [_ HL].
  apply (Z.mul_lt_mono_pos_l 2) in HL; [|lia].
  assert (HL' : Z.of_nat (44 + 4 * length rings + 16 * length (concat rings)) < 2 * 256 ^ 4).
  { replace (Z.of_nat (44 + 4 * length rings + 16 * length (concat rings))) with
      ((22 + 2 * Z.of_nat (length rings) + 8 * Z.of_nat (length (concat rings))) * 2) in * by lia.
    rewrite Z.div_mul in HL by lia. change (Z.of_nat 4) with 4 in HL. lia. }
  change (256 ^ 4) with 4294967296 in HL'.
  unfold polygon_fields, in_bytes. rewrite starts_from_length. change (256 ^ Z.of_nat 4) with 4294967296.
  repeat split; try lia; try assumption.
  eapply Forall_impl; [|apply (starts_from_bounds 0 rings H3)]. cbn beta. intros z Hz. unfold in_bytes. change (256 ^ Z.of_nat 4) with 4294967296. lia.
Qed.

Lemma record_read af rn box rings rest : record_ok rn box rings ->
  read_polygon_record af (record_bytes rn box rings ++ rest) =
  Ok (ROk (SRecord rn rings, Z.of_nat (length (record_bytes rn box rings))), rest).
Proof.
  intros H. destruct (record_ok_polygon rn box rings H) as (Hne & HF & HL). destruct H as (Hrn & Hb & Hp & H3 & H4 & HW).
  unfold read_polygon_record. unfold record_bytes at 1. rewrite <- !app_assoc. rewrite app_assoc.
  rewrite read_exact_app by (lens; reflexivity).
  rewrite (be_at_app [] _ 0 4 rn eq_refl Hrn : be_at (be_bytes 4 rn ++ _) 0 4 = _). cbn [bind].
  rewrite be_at_end by (lens; auto). cbn [bind].
  rewrite read_exact_app.
  2:{ rewrite HL. replace (Z.of_nat (44 + 4 * length rings + 16 * length (concat rings))) with
      ((22 + 2 * Z.of_nat (length rings) + 8 * Z.of_nat (length (concat rings))) * 2) by lia. rewrite Z.div_mul by lia. reflexivity. }
  unfold record_content at 1. rewrite polygon_parse; [|exact HF|destruct rings; [congruence|discriminate]]. cbn [bind].
  assert (E : polygon_result rn (starts_from 0 rings) (concat rings) = ROk (SRecord rn rings)).
  { apply polygon_result_ok; [apply starts_pos; apply HF|destruct rings; [congruence|discriminate]|]. split.
    - apply (starts_from_ok rings 0); auto. lia.
    - f_equal. symmetry. apply (slices_from [] rings Hne). }
  rewrite E. repeat f_equal. unfold record_bytes. rewrite !app_length. rewrite !be_bytes_length. lia.
Qed.

(** ** Iterating *)
Lemma calls_app {R A} (next : R -> res (A * R)) r a r' k : next r = Ok (a, r') ->
  calls next (S k) r = match calls next k r' with Ok l => Ok (a :: l) | Panic p => Panic p end.
Proof. intros E. cbn. rewrite E. destruct (calls next k r'); reflexivity. Qed.
Lemma calls_fixed {R A} (next : R -> res (A * R)) r a k : next r = Ok (a, r) -> calls next k r = Ok (repeat a k).
Proof. intros E. induction k as [|k IH]; [reflexivity|]. rewrite (calls_app next r a r) by exact E. rewrite IH. reflexivity. Qed.

Lemma fr_bytes_length r : fr_ok r -> (length (fr_bytes r) = 52 + 4 * length (fr_rings r) + 16 * length (concat (fr_rings r)))%nat.
Proof.
  intros H. destruct (record_ok_polygon _ _ _ H) as (_ & _ & HL). unfold fr_bytes, record_bytes. lens. rewrite HL. lia.
Qed.

Lemma file_iterate af h rs junk (pos : Z) k :
  Forall fr_ok rs -> sh_bytes h = pos + Z.of_nat (length (concat (map fr_bytes rs))) ->
  calls (shp_next af) (length rs + k) (ShpReader (concat (map fr_bytes rs) ++ junk) pos h) =
  Ok (map (fun r => Some (ROk (fr_record r))) rs ++ repeat None k).
Proof.
  intros H. revert pos. induction H as [|r rs Hr H IH]; intros pos Hb; cbn [map concat length app] in *.
  - apply calls_fixed. unfold shp_next. cbn [shr_read shr_header]. destruct (Z.leb_spec (sh_bytes h) pos); [reflexivity|lia].
  - rewrite app_length in Hb. pose proof (fr_bytes_length r Hr) as HL. cbn [Nat.add].
    rewrite (calls_app _ _ (Some (ROk (fr_record r))) (ShpReader (concat (map fr_bytes rs) ++ junk) (pos + Z.of_nat (length (fr_bytes r))) h)).
    + rewrite IH by lia. reflexivity.
    + unfold shp_next. cbn [shr_read shr_header shr_file]. destruct (Z.leb_spec (sh_bytes h) pos); [lia|].
      rewrite <- app_assoc. unfold fr_bytes at 1. rewrite record_read by exact Hr. cbn [bind]. fold (fr_bytes r).
      destruct (Z.ltb_spec (sh_bytes h) (pos + Z.of_nat (length (fr_bytes r)))); [lia|]. reflexivity.
Qed.
