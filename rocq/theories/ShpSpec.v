(** * ShpSpec: the .shp format (ESRI Shapefile Technical Description, 1998) *)
From Verif Require Export BytesSpec Shp.

(** ** Calling an iterator repeatedly *)
Fixpoint calls {R A} (next : R -> res (A * R)) (k : nat) (r : R) : res (list A) :=
  match k with
  | O => Ok []
  | S k' => match next r with
            | Panic p => Panic p
            | Ok (a, r') => match calls next k' r' with
                            | Panic p => Panic p
                            | Ok l => Ok (a :: l)
                            end
            end
  end.

(** ** Main file header *)
Definition header_bytes (magic : Z) (unused : list Z) (len version ty x0 y0 x1 y1 : Z) (zm : list Z) : list Z :=
  be_bytes 4 magic ++ unused ++ be_bytes 4 len ++ le_bytes 4 version ++ le_bytes 4 ty ++
  le_bytes 8 x0 ++ le_bytes 8 y0 ++ le_bytes 8 x1 ++ le_bytes 8 y1 ++ zm.

(** Field sizes: 20 unused bytes, 32 bytes of Z and M ranges. *)
Definition header_fields (magic : Z) (unused : list Z) (len version ty x0 y0 x1 y1 : Z) (zm : list Z) : Prop :=
  in_bytes 4 magic /\ length unused = 20%nat /\ in_bytes 4 len /\ in_bytes 4 version /\ in_bytes 4 ty /\
  in_bytes 8 x0 /\ in_bytes 8 y0 /\ in_bytes 8 x1 /\ in_bytes 8 y1 /\ length zm = 32%nat.

(** Shape type codes. *)
Definition type_codes : list (Z * shape_type) :=
  [(0, STNull); (1, STPoint); (3, STPolyLine); (5, STPolygon); (8, STMultiPoint); (11, STPointZ);
   (13, STPolyLineZ); (15, STPolygonZ); (18, STMultiPointZ); (21, STPointM); (23, STPolyLineM);
   (25, STPolygonM); (28, STMultiPointM); (31, STMultiPatch)].

(** ** Polygon records *)
Definition point_ok (p : shp_point) : Prop := in_bytes 8 (sp_x p) /\ in_bytes 8 (sp_y p).
Definition point_bytes (p : shp_point) : list Z := le_bytes 8 (sp_x p) ++ le_bytes 8 (sp_y p).

(** Record content: type, 32-byte box, number of parts, number of points, the rest. *)
Definition content (ty : Z) (box : list Z) (nparts npoints : Z) (rest : list Z) : list Z :=
  le_bytes 4 ty ++ box ++ le_bytes 4 nparts ++ le_bytes 4 npoints ++ rest.

(** A polygon: ring starts, then points. *)
Definition polygon_bytes (box : list Z) (starts : list Z) (points : list shp_point) : list Z :=
  content 5 box (Z.of_nat (length starts)) (Z.of_nat (length points))
    (concat (map (le_bytes 4) starts) ++ concat (map point_bytes points)).
Definition polygon_fields (box : list Z) (starts : list Z) (points : list shp_point) : Prop :=
  length box = 32%nat /\ in_bytes 4 (Z.of_nat (length starts)) /\ in_bytes 4 (Z.of_nat (length points)) /\
  Forall (in_bytes 4) starts /\ Forall point_ok points.

(** The points of the rings that start at [starts]; each ends where the next one starts,
    the last one at [n]. *)
Definition slice {A} (s e : Z) (l : list A) : list A := firstn (Z.to_nat (e - s)) (skipn (Z.to_nat s) l).
Fixpoint slices {A} (starts : list Z) (n : Z) (l : list A) : list (list A) :=
  match starts with
  | [] => []
  | [s] => [slice s n l]
  | s :: ((e :: _) as t) => slice s e l :: slices t n l
  end.
(** The ring starts the reader accepts. *)
Fixpoint starts_ok (n : Z) (starts : list Z) : Prop :=
  match starts with
  | [] => False
  | [s] => s + 4 <= n
  | s :: ((e :: _) as t) => s + 3 <= e <= n /\ starts_ok n t
  end.

(** The starts of consecutive rings. *)
Fixpoint starts_from (k : Z) (rings : list (list shp_point)) : list Z :=
  match rings with [] => [] | r :: t => k :: starts_from (k + Z.of_nat (length r)) t end.

(** A record: number, content length in 16-bit words, content. *)
Definition record_content (box : list Z) (rings : list (list shp_point)) : list Z :=
  polygon_bytes box (starts_from 0 rings) (concat rings).
Definition record_bytes (rn : Z) (box : list Z) (rings : list (list shp_point)) : list Z :=
  be_bytes 4 rn ++ be_bytes 4 (Z.of_nat (length (record_content box rings)) / 2) ++ record_content box rings.

(** Records that fit the format: at least three points per ring, four in the last one. *)
Definition record_ok (rn : Z) (box : list Z) (rings : list (list shp_point)) : Prop :=
  in_bytes 4 rn /\ length box = 32%nat /\ Forall (Forall point_ok) rings /\
  Forall (fun r => 3 <= length r)%nat rings /\ (4 <= length (last rings []))%nat /\
  in_bytes 4 (Z.of_nat (length (record_content box rings)) / 2).

(** ** Whole files *)
Record file_record := FR { fr_number : Z; fr_box : list Z; fr_rings : list (list shp_point) }.
Definition fr_ok (r : file_record) : Prop := record_ok (fr_number r) (fr_box r) (fr_rings r).
Definition fr_bytes (r : file_record) : list Z := record_bytes (fr_number r) (fr_box r) (fr_rings r).
Definition fr_record (r : file_record) : shp_record := SRecord (fr_number r) (fr_rings r).
Definition file_size (rs : list file_record) : Z := 100 + Z.of_nat (length (concat (map fr_bytes rs))).

(** Contents too short for the fields read from them: no type; or type 5 and no part
    count; or type 5, parts, and no point count. *)
Definition short_content (c : list Z) : Prop :=
  (length c < 4)%nat \/
  (firstn 4 c = le_bytes 4 5 /\ ((length c < 40)%nat \/ (length c < 44)%nat /\ firstn 4 (skipn 36 c) <> [0; 0; 0; 0])).

(** Items that are records. *)
Definition is_record (o : option (result shp_record shp_error)) : bool := match o with Some (ROk _) => true | _ => false end.
