(** * SfSpec: what importing a shapefile should give *)
From Verif Require Export DbfSpec Quantize Spec.

(** The rings of a record, moved to the integer grid by [f]. *)
Definition quantized (f : shp_point -> point) (rings : list (list shp_point)) : list ring := map (fun r => RPoints (map f r)) rings.

(** The region of a record: its data, its clockwise rings, its counter-clockwise rings. *)
Definition imported (f : shp_point -> point) (rec : sf_record) (reg : region dbf_record) : Prop :=
  rg_data reg = sfr_data rec /\
  rg_outer reg = filter (fun r => 0 <=? ring_area r) (quantized f (sfr_rings rec)) /\
  rg_inner reg = filter (fun r => ring_area r <? 0) (quantized f (sfr_rings rec)).

(** The item of the region iterator for an item of the shapefile reader. *)
Definition item_imported (f : shp_point -> point) (x : option (result sf_record sf_error))
  (y : option (result (region dbf_record) sf_error)) : Prop :=
  match x, y with
  | None, None => True
  | Some (RErr e), Some (RErr e') => e = e'
  | Some (ROk rec), Some (ROk reg) => imported f rec reg
  | _, _ => False
  end.

(** No overflow when the areas of an item's rings are computed. *)
Definition item_fits (f : shp_point -> point) (x : option (result sf_record sf_error)) : Prop :=
  match x with
  | Some (ROk rec) => Forall (fun r => Forall fits (ring_values r)) (quantized f (sfr_rings rec))
  | _ => True
  end.

(** ** Well-formed files *)

(** The bytes of a .shp file with this bounding box and these shapes. *)
Definition is_shp (b : shp_bbox) (shapes : list file_record) (s : list Z) : Prop :=
  exists unused zm junk,
    header_fields 9994 unused (file_size shapes / 2) 1000 5 (bb_xmin b) (bb_ymin b) (bb_xmax b) (bb_ymax b) zm /\
    Forall fr_ok shapes /\ file_size shapes < 2 ^ 32 /\
    s = header_bytes 9994 unused (file_size shapes / 2) 1000 5 (bb_xmin b) (bb_ymin b) (bb_xmax b) (bb_ymax b) zm ++ concat (map fr_bytes shapes) ++ junk.

(** The bytes of a .dbf file with these fields and records. *)
Definition is_dbf (enc : decoder) (fs : list dbf_field) (datas : list dbf_record) (s : list Z) : Prop :=
  exists version year month day rlen reserved ds tail junk,
    dbf_header_fields version year month day (Z.of_nat (length datas)) (32 + 32 * Z.of_nat (length ds) + Z.of_nat (length tail)) rlen reserved /\
    Forall descriptor_ok ds /\ (length tail < 32)%nat /\ month <= 12 /\ day <= 31 /\ described enc 1 ds fs /\
    Forall (fun r => length r = Z.to_nat rlen) datas /\
    s = dbf_prefix version year month day (Z.of_nat (length datas)) rlen reserved ds tail ++ concat datas ++ junk.

(** The clockwise rectangle around a box, starting at any corner. *)
Definition rectangles (b : shp_bbox) : list (list shp_point) :=
  let sw := SP (bb_xmin b) (bb_ymin b) in
  let nw := SP (bb_xmin b) (bb_ymax b) in
  let ne := SP (bb_xmax b) (bb_ymax b) in
  let se := SP (bb_xmax b) (bb_ymin b) in
  [[sw; nw; ne; se; sw]; [nw; ne; se; sw; nw]; [ne; se; sw; nw; ne]; [se; sw; nw; ne; se]].
