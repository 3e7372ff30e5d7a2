(** * Tests: the unit tests and documentation examples of the repository, replayed on the
    model.  These validate the model against the behaviour the authors recorded; they are
    not proofs of any property. *)
From Verif Require Import Clip Normalize Simplify Quantize.

Definition pts (l : list (Z * Z)) : list point := map (fun p => Pt (fst p) (snd p)) l.
Definition poly (l : list (Z * Z)) : ring := RPoints (pts l).

Definition tri1 : list (Z * Z) := [(1,1);(2,1);(1,2);(1,1)].
Definition tri2 : list (Z * Z) := [(2,1);(2,2);(1,2);(2,1)].
Definition tri3 : list (Z * Z) := [(3,1);(4,1);(3,2);(3,1)].

Definition n_edges {D} (t : res (topology D)) : option nat :=
  match t with Ok t => Some (length (tp_edges t)) | _ => None end.
Definition n_regions {D} (t : res (topology D)) : option nat :=
  match t with Ok t => Some (length (tp_regions t)) | _ => None end.
Definition edge_points {D} (t : res (topology D)) : option (list (list point)) :=
  match t with Ok t => Some (map te_points (tp_edges t)) | _ => None end.
Definition outer_des {D} (t : res (topology D)) : option (list (list (list directed_edge))) :=
  match t with Ok t => Some (map (fun g => map tr_des (tg_outer g)) (tp_regions t)) | _ => None end.
Definition inner_des {D} (t : res (topology D)) : option (list (list (list directed_edge))) :=
  match t with Ok t => Some (map (fun g => map tr_des (tg_inner g)) (tp_regions t)) | _ => None end.

(** ** src/geo/mod.rs: documentation examples (lines 81-90, 102-139) *)
Example t_geo_area : ring_area2_and_winding Debug (poly [(1,1);(2,1);(1,2);(1,1)]) = Ok (1, Clockwise).
Proof. reflexivity. Qed.
Example t_geo_area_ccw : ring_area2_and_winding Debug (poly [(1,1);(1,2);(2,1);(1,1)]) = Ok (1, CounterClockwise).
Proof. reflexivity. Qed.
Example t_geo_edges : ring_edges (poly [(1,1);(1,2);(2,1);(1,1)])
  = [pts [(1,1);(1,2)]; pts [(1,2);(2,1)]; pts [(2,1);(1,1)]].
Proof. reflexivity. Qed.

(** ** src/topology/build.rs tests *)
Example t_build_region :
  n_edges (build_topology Debug [Region 42 [poly tri1; poly [(10,10);(20,10);(10,20);(10,10)]] []]) = Some 6%nat.
Proof. vm_compute. reflexivity. Qed.
Example t_share_point :
  n_edges (build_topology Debug [Region tt [poly tri1; poly [(2,1);(3,1);(3,2);(2,1)]] []]) = Some 6%nat.
Proof. vm_compute. reflexivity. Qed.
Example t_share_edge :
  let t := build_topology Debug [Region tt [poly tri1; poly tri2] []] in
  n_edges t = Some 5%nat /\
  match outer_des t with
  | Some [[[_; a; _]; [_; _; b]]] =>
      de_edge a = de_edge b /\ de_dir a = Backward /\ de_dir b = Forward
  | _ => False
  end.
Proof. vm_compute. repeat split; reflexivity. Qed.
Example t_share_edge_two_regions :
  let t := build_topology Debug [Region tt [poly tri1] []; Region tt [poly tri2] []] in
  n_edges t = Some 5%nat /\
  match outer_des t with
  | Some [[[_; a; _]]; [[_; _; b]]] => de_edge a = de_edge b
  | _ => False
  end.
Proof. vm_compute. repeat split; reflexivity. Qed.
Example t_inner_hole :
  n_edges (build_topology Debug [Region tt [poly [(0,0);(3,0);(0,3);(0,0)]] [poly tri1]]) = Some 6%nat.
Proof. vm_compute. reflexivity. Qed.
Example t_filter_zero_edge :
  n_edges (build_topology Debug [Region tt [poly [(0,0);(1,0);(1,0);(0,1);(0,0)]] []]) = Some 3%nat.
Proof. vm_compute. reflexivity. Qed.
Example t_filter_zero_ring :
  option_map (map (@length _)) (outer_des (build_topology Debug
     [Region tt [poly [(0,0);(1,0);(0,1);(0,0)]; poly [(1,1);(1,2);(1,3);(1,1)]] []])) = Some [1%nat].
Proof. vm_compute. reflexivity. Qed.
Example t_filter_zero_region :
  n_regions (build_topology Debug [Region tt [poly [(1,1);(1,2);(1,3);(1,1)]] []]) = Some 0%nat.
Proof. vm_compute. reflexivity. Qed.

(** ** src/clip/edge.rs tests and documentation example *)
Definition ce (l : list (Z * Z)) k := clip_edge Debug k (pts l).
Example t_clip_doc :
  ce [(10,10);(50,10);(10,50);(50,50);(10,100);(50,100)] (MinX 20)
  = Ok (pts [(20,10);(50,10);(20,40);(20,50);(50,50);(20,87);(20,100);(50,100)]).
Proof. reflexivity. Qed.
Example t_len_0 : ce [] (MaxX 2) = Ok []. Proof. reflexivity. Qed.
Example t_len_1 : ce [(1,1)] (MaxX 2) = Ok []. Proof. reflexivity. Qed.
Example t_unchanged : ce [(1,1);(2,2);(1,2)] (MaxX 2) = Ok (pts [(1,1);(2,2);(1,2)]). Proof. reflexivity. Qed.
Example t_cross_out_on_point : ce [(1,1);(2,2);(3,2)] (MaxX 2) = Ok (pts [(1,1);(2,2)]). Proof. reflexivity. Qed.
Example t_cross_out_interpolate : ce [(1,1);(3,3);(4,3)] (MaxX 2) = Ok (pts [(1,1);(2,2)]). Proof. reflexivity. Qed.
Example t_cross_in_on_point : ce [(0,1);(2,2);(3,3)] (MinX 2) = Ok (pts [(2,2);(3,3)]). Proof. reflexivity. Qed.
Example t_cross_in_interpolate : ce [(0,1);(1,1);(3,3)] (MinX 2) = Ok (pts [(2,2);(3,3)]). Proof. reflexivity. Qed.
Example t_flush_edge_out : ce [(1,1);(2,1);(2,2);(1,1)] (MinX 2) = Ok []. Proof. reflexivity. Qed.
Example t_flush_edge_in : ce [(1,1);(2,1);(2,2);(1,1)] (MaxX 2) = Ok (pts [(1,1);(2,1);(2,2);(1,1)]). Proof. reflexivity. Qed.

(** ** src/clip/types.rs tests *)
Example t_masks :
  map (mask_test (MinX 100)) (pts [(101,99);(100,101);(99,101)]) = [Inside; OnEdge; Outside] /\
  map (mask_test (MaxX 100)) (pts [(99,101);(100,1);(101,1)]) = [Inside; OnEdge; Outside] /\
  map (mask_test (MinY 100)) (pts [(99,101);(101,100);(101,99)]) = [Inside; OnEdge; Outside] /\
  map (mask_test (MaxY 100)) (pts [(101,99);(1,100);(1,101)]) = [Inside; OnEdge; Outside].
Proof. repeat split. Qed.

(** ** src/clip/topology.rs tests *)
Definition island (i : nat) (d : nat) : topo_region nat :=
  TRegion d [TRing [DE i Forward] None] [].
Definition isl_edge := TEdge (pts [(1,1);(10,10);(10,20);(1,1)]) None None.
Definition isl_edge2 := TEdge (pts [(100,100);(101,100);(100,101);(100,100)]) None None.
Example t_clip_island :
  clip_topology Debug (Topology [island 0 0] [isl_edge]) (MaxX 5)
  = Ok (Topology [TRegion 0%nat [TRing [DE 0 Forward] (Some 0%nat)] []]
          [TEdge (pts [(1,1);(5,5);(5,10);(1,1)]) (Some (RR 0 Outer 0)) None]).
Proof. vm_compute. reflexivity. Qed.
Example t_remove_region :
  let t := clip_topology Debug (Topology [island 0 0; island 1 1] [isl_edge; isl_edge2]) (MinX 30) in
  edge_points t = Some [pts [(100,100);(101,100);(100,101);(100,100)]] /\
  match t with Ok t => map tg_data (tp_regions t) = [1%nat] | _ => False end.
Proof. vm_compute. split; reflexivity. Qed.
Example t_remove_empty_line :
  n_regions (clip_topology Debug (Topology [island 0 0] [isl_edge]) (MinX 10)) = Some 0%nat.
Proof. vm_compute. reflexivity. Qed.

(** ** src/normalize.rs tests *)
Definition norm {D} (rs : list (region D)) := t <- build_topology Debug rs ;; normalize Debug t.
Example t_flatten_island :
  edge_points (norm [Region tt [poly tri1] []]) = Some [pts [(1,1);(2,1);(1,2);(1,1)]].
Proof. vm_compute. reflexivity. Qed.
Definition edges_of {D} (t : res (topology D)) (r0 r1 : option ring_ref) : option (list (list point)) :=
  match t with
  | Ok t => Some (map te_points (filter (fun e =>
      match te_ring0 e, r0 with
      | Some a, Some b => Nat.eqb (rr_region a) (rr_region b) && Nat.eqb (rr_index a) (rr_index b)
      | _, _ => false end &&
      match te_ring1 e, r1 with
      | None, None => true
      | Some a, Some b => Nat.eqb (rr_region a) (rr_region b) && Nat.eqb (rr_index a) (rr_index b)
      | _, _ => false end) (tp_edges t)))
  | _ => None
  end.
Example t_flatten_uncommon_edges :
  let t := norm [Region 1 [poly tri1] []; Region 2 [poly tri2] []] in
  n_edges t = Some 3%nat /\
  edges_of t (Some (RR 0 Outer 0)) None = Some [pts [(1,2);(1,1);(2,1)]] /\
  edges_of t (Some (RR 1 Outer 0)) None = Some [pts [(1,2);(2,2);(2,1)]] /\
  edges_of t (Some (RR 0 Outer 0)) (Some (RR 1 Outer 0)) = Some [pts [(1,2);(2,1)]].
Proof. vm_compute. repeat split. Qed.
Example t_flatten_common_edges :
  let t := norm [Region 1 [poly [(1,1);(3,1);(2,2);(1,1)]] [];
                 Region 2 [poly [(1,1);(2,2);(3,1);(3,3);(1,3);(1,1)]] []] in
  n_edges t = Some 3%nat /\
  edges_of t (Some (RR 0 Outer 0)) None = Some [pts [(1,1);(3,1)]] /\
  edges_of t (Some (RR 1 Outer 0)) None = Some [pts [(1,1);(1,3);(3,3);(3,1)]] /\
  edges_of t (Some (RR 0 Outer 0)) (Some (RR 1 Outer 0)) = Some [pts [(1,1);(2,2);(3,1)]].
Proof. vm_compute. repeat split. Qed.
Example t_rotate_island :
  edge_points (norm [Region tt [poly [(2,1);(1,2);(1,1);(2,1)]] []]) = Some [pts [(1,1);(2,1);(1,2);(1,1)]].
Proof. vm_compute. reflexivity. Qed.
Example t_rotate_rings :
  let t := norm [Region 1 [poly [(3,2);(2,1);(4,1);(3,2)]] [];
                 Region 2 [poly [(3,2);(4,1);(4,3);(1,3);(2,1);(3,2)]] []] in
  match outer_des t, edge_points t with
  | Some [[[d11; d12]]; [[d21; d22]]], Some es =>
      nth (de_edge d11) es [] = pts [(2,1);(4,1)] /\
      nth (de_edge d12) es [] = pts [(2,1);(3,2);(4,1)] /\
      de_edge d12 = de_edge d21 /\
      nth (de_edge d22) es [] = pts [(2,1);(1,3);(4,3);(4,1)]
  | _, _ => False
  end.
Proof. vm_compute. repeat split. Qed.
Example t_nix_redundant_edges :
  edge_points (norm [Region tt [poly tri1; poly tri2; poly tri3] []])
  = Some [pts [(1,1);(2,1);(2,2);(1,2);(1,1)]; pts tri3].
Proof. vm_compute. reflexivity. Qed.
Example t_order_rings :
  edge_points (norm [Region tt [poly tri3; poly tri1] []]) = Some [pts tri1; pts tri3].
Proof. vm_compute. reflexivity. Qed.
Example t_clockwise_outer_ring :
  let t := norm [Region tt [poly [(1,1);(1,2);(2,1);(1,1)]] []] in
  edge_points t = Some [pts tri1] /\ outer_des t = Some [[[DE 0 Forward]]].
Proof. vm_compute. split; reflexivity. Qed.
Example t_counter_clockwise_inner_ring :
  let t := norm [Region tt [poly [(1,1);(4,1);(1,4);(1,1)]] [poly [(2,2);(3,2);(2,3);(2,2)]]] in
  n_edges t = Some 2%nat /\ outer_des t = Some [[[DE 0 Forward]]] /\
  inner_des t = Some [[[DE 1 Backward]]] /\
  option_map (fun es => nth 1 es []) (edge_points t) = Some (pts [(2,2);(3,2);(2,3);(2,2)]).
Proof. vm_compute. repeat split. Qed.
Example t_nix_donut :
  let t := norm [Region tt [poly [(1,1);(4,1);(1,4);(1,1)]; poly [(2,2);(2,3);(3,2);(2,2)]]
                           [poly [(2,2);(3,2);(2,3);(2,2)]]] in
  edge_points t = Some [pts [(1,1);(4,1);(1,4);(1,1)]] /\ outer_des t = Some [[[DE 0 Forward]]].
Proof. vm_compute. split; reflexivity. Qed.

(** ** src/simplify/simplify_edge.rs tests *)
Definition se (l : list (Z * Z)) (a : Z) := simplify_edge Debug (pts l) a.
Example t_two_points_not_changed : se [(1,1);(2,2)] 1 = Ok (pts [(1,1);(2,2)]). Proof. vm_compute. reflexivity. Qed.
Example t_three_points_to_two : se [(1,1);(1,10);(2,2)] 9 = Ok (pts [(1,1);(2,2)]). Proof. vm_compute. reflexivity. Qed.
Example t_three_points_to_three : se [(1,1);(1,10);(2,2)] 8 = Ok (pts [(1,1);(1,10);(2,2)]). Proof. vm_compute. reflexivity. Qed.
Example t_four_points_to_three : se [(1,1);(1,10);(2,1);(2,2)] 8 = Ok (pts [(1,1);(1,10);(2,2)]). Proof. vm_compute. reflexivity. Qed.
Example t_ring_has_min_four_points : se tri1 10 = Ok (pts tri1). Proof. vm_compute. reflexivity. Qed.
Example t_ring_has_over_four_points :
  se [(1,1);(3,1);(3,3);(1,3);(1,1)] 3 = Ok (pts [(1,1);(3,1);(3,3);(1,3);(1,1)]). Proof. vm_compute. reflexivity. Qed.

(** ** Readers: fixtures of test/read/shapefile *)
Definition af0 : after_fail := fun _ _ => [].
Definition ascii : decoder := fun bs => if forallb (fun b => b <? 128) bs then Some bs else None.

(** test/read/shapefile/shp/simple.shp *)
Definition shp_simple : stream := [0;0;39;10;0;0;0;0;0;0;0;0;0;0;0;0;0;0;0;0;0;0;0;0;0;0;0;110;232;3;0;0;5;0;0;0;46;188;179;77;83;28;93;65;184;131;16;46;163;239;50;65;15;199;41;160;206;28;93;65;25;254;171;102;218;241;50;65;0;0;0;0;0;0;0;0;0;0;0;0;0;0;0;0;0;0;0;0;0;0;0;0;0;0;0;0;0;0;0;0;0;0;0;1;0;0;0;56;5;0;0;0;46;188;179;77;83;28;93;65;184;131;16;46;163;239;50;65;15;199;41;160;206;28;93;65;25;254;171;102;218;241;50;65;1;0;0;0;4;0;0;0;0;0;0;0;46;188;179;77;83;28;93;65;251;62;76;87;212;241;50;65;15;199;41;160;206;28;93;65;25;254;171;102;218;241;50;65;199;30;32;123;131;28;93;65;184;131;16;46;163;239;50;65;46;188;179;77;83;28;93;65;251;62;76;87;212;241;50;65].
(** test/read/shapefile/simple.shp and simple.dbf *)
Definition sf_shp_bytes : stream := [0;0;39;10;0;0;0;0;0;0;0;0;0;0;0;0;0;0;0;0;0;0;0;0;0;0;0;170;232;3;0;0;5;0;0;0;0;0;0;0;0;112;114;64;0;0;0;0;0;0;125;192;29;3;171;189;191;16;134;64;0;0;0;0;0;32;111;192;0;0;0;0;0;0;0;0;0;0;0;0;0;0;0;0;0;0;0;0;0;0;0;0;0;0;0;0;0;0;0;0;0;0;0;1;0;0;0;56;5;0;0;0;0;0;0;0;0;112;114;64;0;0;0;0;0;0;125;192;0;0;0;0;0;96;130;64;0;0;0;0;0;32;111;192;1;0;0;0;4;0;0;0;0;0;0;0;0;0;0;0;0;112;114;64;0;0;0;0;0;32;111;192;0;0;0;0;0;96;130;64;0;0;0;0;0;112;112;192;0;0;0;0;0;144;125;64;0;0;0;0;0;0;125;192;0;0;0;0;0;112;114;64;0;0;0;0;0;32;111;192;0;0;0;2;0;0;0;56;5;0;0;0;244;83;9;1;57;90;130;64;244;83;9;1;57;214;122;192;29;3;171;189;191;16;134;64;157;159;74;8;200;236;115;192;1;0;0;0;4;0;0;0;0;0;0;0;244;83;9;1;57;90;130;64;244;83;9;1;57;214;122;192;57;6;86;123;127;192;131;64;157;159;74;8;200;236;115;192;29;3;171;189;191;16;134;64;193;106;239;111;12;251;119;192;244;83;9;1;57;90;130;64;244;83;9;1;57;214;122;192].
Definition sf_dbf_bytes : stream := [3;117;4;24;2;0;0;0;97;0;31;0;0;0;0;0;0;0;0;0;0;0;0;0;0;0;0;0;0;0;0;0;105;100;0;0;0;0;0;0;0;0;0;78;0;0;0;0;10;0;0;0;0;0;0;0;0;0;0;0;0;0;0;0;102;111;111;0;0;0;0;0;0;0;0;67;0;0;0;0;20;0;0;0;0;0;0;0;0;0;0;0;0;0;0;0;13;32;32;32;32;32;32;32;32;32;32;49;98;97;114;32;32;32;32;32;32;32;32;32;32;32;32;32;32;32;32;32;32;32;32;32;32;32;32;32;32;32;50;98;97;122;32;32;32;32;32;32;32;32;32;32;32;32;32;32;32;32;32].
(** test/read/shapefile/dbf/string-test.dbf *)
Definition dbf_string_test : stream := [3;95;7;26;3;0;0;0;65;0;81;0;0;0;0;0;0;0;0;0;0;0;0;0;0;0;0;0;0;87;0;0;102;111;111;0;0;0;0;0;0;0;0;67;0;0;0;0;80;0;0;0;0;0;0;0;0;0;0;0;0;0;0;0;13;32;32;32;32;32;32;32;32;32;32;32;32;32;32;32;32;32;32;32;32;32;32;32;32;32;32;32;32;32;32;32;32;32;32;32;32;32;32;32;32;32;32;32;32;32;32;32;32;32;32;32;32;32;32;32;32;32;32;32;32;32;32;32;32;32;32;32;32;32;32;32;32;32;32;32;32;32;32;32;32;32;32;98;97;114;32;32;32;32;32;32;32;32;32;32;32;32;32;32;32;32;32;32;32;32;32;32;32;32;32;32;32;32;32;32;32;32;32;32;32;32;32;32;32;32;32;32;32;32;32;32;32;32;32;32;32;32;32;32;32;32;32;32;32;32;32;32;32;32;32;32;32;32;32;32;32;32;32;32;32;32;32;32;98;97;122;32;32;32;32;32;32;32;32;32;32;32;32;32;32;32;32;32;32;32;32;32;32;32;32;32;32;32;32;32;32;32;32;32;32;32;32;32;32;32;32;32;32;32;32;32;32;32;32;32;32;32;32;32;32;32;32;32;32;32;32;32;32;32;32;32;32;32;32;32;32;32;32;32;32;32;32;32].

(** src/read/shapefile/shp.rs:291-302 *)
Example t_shp_simple :
  match shp_reader_new Debug af0 shp_simple with
  | Ok (ROk r) =>
      sh_bytes (shr_header r) = 220 /\
      match shp_next af0 r with
      | Ok (Some (ROk rec), r') =>
          sr_number rec = 1 /\ map (@length _) (sr_rings rec) = [4%nat] /\
          hd_error (concat (sr_rings rec)) = Some (SP 4709951929410894894 4698083255600824059) /\
          shp_next af0 r' = Ok (None, r')
      | _ => False
      end
  | _ => False
  end.
Proof. vm_compute. repeat split. Qed.

(** src/read/shapefile/dbf.rs:325-341 *)
Example t_dbf_string :
  match dbf_reader_new Debug af0 ascii dbf_string_test with
  | Ok (ROk r0) =>
      match get_field r0 [102; 111; 111] with
      | Some foo =>
          let '(x1, r1) := dbf_next af0 r0 in
          let '(x2, r2) := dbf_next af0 r1 in
          let '(x3, r3) := dbf_next af0 r2 in
          let '(x4, _) := dbf_next af0 r3 in
          let rs x := match x with Some (ROk r) => read_string foo r | _ => Panic PUnwrap end in
          rs x1 = Ok (ROk []) /\ rs x2 = Ok (ROk [98; 97; 114]) /\ rs x3 = Ok (ROk [98; 97; 122]) /\
          x4 = None
      | None => False
      end
  | _ => False
  end.
Proof. vm_compute. repeat split. Qed.

(** src/read/shapefile/shapefile.rs:35-58 *)
Example t_shapefile :
  match sf_reader_new Debug af0 af0 ascii sf_shp_bytes sf_dbf_bytes with
  | Ok (ROk r0) =>
      match sf_get_field r0 [102; 111; 111], sf_get_field r0 [105; 100], sf_next af0 af0 r0 with
      | Some foo, Some id, Ok (Some (ROk rec), r1) =>
          read_string foo (sfr_data rec) = Ok (ROk [98; 97; 114]) /\
          read_string id (sfr_data rec) = Ok (ROk [49]) /\
          map (@length _) (sfr_rings rec) = [4%nat] /\
          hd_error (concat (sfr_rings rec)) = Some (SP 4643897311074713600 13866336962069135360) /\
          match sf_next af0 af0 r1 with
          | Ok (Some (ROk _), r2) => match sf_next af0 af0 r2 with Ok (None, _) => True | _ => False end
          | _ => False
          end
      | _, _, _ => False
      end
  | _ => False
  end.
Proof. vm_compute. repeat split. Qed.

(** The same file through ShapefileGeoIterator (the quantized points were computed
    independently with IEEE double arithmetic).  Note the outcome: the first record's ring
    is clockwise in the plane, but twice its area does not fit an i64, so a release build
    files it under the inner rings and a debug build panics. *)
Definition sf_geo_first (m : mode) :=
  match sf_reader_new m af0 af0 ascii sf_shp_bytes sf_dbf_bytes with
  | Ok (ROk r0) => '(x, _) <- geo_next m af0 af0 (geo_iterator_new r0) ;; Ok x
  | _ => Panic PUnwrap
  end.
Example t_geo_iterator :
  match sf_geo_first Release with
  | Ok (Some (ROk g)) => rg_outer g = [] /\ rg_inner g = [RPoints [Pt 0 0; Pt 3061165013 279672288; Pt 1859683864 4294967295; Pt 0 0]]
  | _ => False
  end /\ sf_geo_first Debug = Panic POverflow.
Proof. vm_compute. repeat split. Qed.
