(** * DisplaySpec: notions for what is printed *)
From Verif Require Export Spec Display DbfSpec.

(** Rings that are printed alike: equal ones, and the two rings without any points or edges. *)
Definition looks_alike (r r' : ring) : Prop :=
  r = r' \/ (r = RPoints [] /\ r' = REdges []) \/ (r = REdges [] /\ r' = RPoints []).

(** u32 coordinates. *)
Definition wf_ring (r : ring) : Prop :=
  match r with RPoints ps => wf_points ps | REdges es => Forall wf_points es end.

(** The values in an error fit a [usize]. *)
Definition is_usize (z : Z) : Prop := 0 <= z < 2 ^ 64.
Definition shp_values (e : shp_error) : list Z :=
  match e with
  | SEIo | SEUnsupported _ => []
  | SEMagic a | SEVersion a | SENoType a | SENoParts a | SETooLong a => [a]
  | SERecordType a b => [a; b]
  | SELength a b c d e => [a; b; c; d; e]
  | SERingBounds a b c d => [a; b; c; d]
  | SERingRange a b c | SELastRing a b c => [a; b; c]
  end.
Definition error_values (e : sf_error) : list Z := match e with SFShp e => shp_values e | _ => [] end.

(** Errors whose message is a string of this crate, not of the operating system or the decoder. *)
Definition own_message (e : sf_error) : Prop :=
  match e with SFShp SEIo | SFDbf DEIo | SFDbf DEDecode => False | _ => True end.

(** The format: points are "(x,y)", and lists are set apart by a separator. *)
Definition point_text (p : point) (s : text) : Prop :=
  exists x y, is_numeral (px p) x /\ is_numeral (py p) y /\ s = str "(" ++ x ++ str "," ++ y ++ str ")".
Inductive listing (sep : text) : list text -> text -> Prop :=
| listing_none : listing sep [] []
| listing_one t : listing sep [t] t
| listing_more t ts s : ts <> [] -> listing sep ts s -> listing sep (t :: ts) (t ++ sep ++ s).
Definition list_text {A} (item : A -> text -> Prop) (open sep close : text) (l : list A) (s : text) : Prop :=
  exists ts u, Forall2 item l ts /\ listing sep ts u /\ s = open ++ u ++ close.
Definition edge_text : list point -> text -> Prop := list_text point_text (str "Edge(") (str ",") (str ")").
Definition ring_text (r : ring) (s : text) : Prop :=
  match r with
  | RPoints ps => list_text point_text (str "[") (str ",") (str "]") ps s
  | REdges es => list_text edge_text (str "[") (str ",") (str "]") es s
  end.
Definition region_text {D} (rg : region D) (s : text) : Prop :=
  exists o i, list_text ring_text (str "[") (str ", ") (str "]") (rg_outer rg) o /\
    list_text ring_text (str "[") (str ", ") (str "]") (rg_inner rg) i /\
    s = str "Region([data], outer:" ++ o ++ str ", inner:" ++ i ++ str ")".

(** Printed records: the data in braces, "name:value" for each field or the error of the first field
    that cannot be read, and the rings; [v] is the text of numbers and of foreign messages. *)
Definition shp_point_text (v : texts) (p : shp_point) (s : text) : Prop :=
  s = str "(" ++ tx_f64 v (sp_x p) ++ str "," ++ tx_f64 v (sp_y p) ++ str ")".
Definition shp_ring_text (v : texts) : list shp_point -> text -> Prop := list_text (shp_point_text v) (str "[") (str ",") (str "]").
Definition field_text (data : dbf_record) (f : dbf_field) (s : text) : Prop :=
  exists value, read_string f data = Ok (ROk value) /\ s = df_name f ++ str ":" ++ value.
Definition error_text (v : texts) (e : dbf_error) (s : text) : Prop :=
  match e with
  | DEIo => s = str "IOError(" ++ tx_io v ++ str ")"
  | _ => s = str "ParseError(" ++ [34] ++ dbf_message v e ++ [34] ++ str ")"
  end.
Inductive data_text (v : texts) (fs : list dbf_field) (data : dbf_record) : text -> Prop :=
| data_read s : list_text (field_text data) (str "{") (str "; ") (str "}") fs s -> data_text v fs data s
| data_error before f after ts e s : fs = before ++ f :: after -> Forall2 (field_text data) before ts ->
    read_string f data = Ok (RErr e) -> error_text v e s -> data_text v fs data (str "{Invalid DBF record: " ++ s ++ str "}").
Definition record_text (v : texts) (fs : list dbf_field) (rec : sf_record) (s : text) : Prop :=
  exists d r, data_text v fs (sfr_data rec) d /\ list_text (shp_ring_text v) [] (str "; ") [] (sfr_rings rec) r /\
    s = str "ShapefileRecord(" ++ d ++ str "; rings: " ++ r ++ str ")".
