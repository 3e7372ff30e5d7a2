(** * DamageSpec: .shp files with damaged records *)
From Verif Require Export ShpSpec.

(** A record as it lies in the file: its number and any content, of an even number of bytes. *)
Record frame := Frame { fm_number : Z; fm_content : list Z }.
Definition frame_bytes (f : frame) : list Z :=
  be_bytes 4 (fm_number f) ++ be_bytes 4 (Z.of_nat (length (fm_content f)) / 2) ++ fm_content f.
Definition frame_ok (f : frame) : Prop :=
  in_bytes 4 (fm_number f) /\ bytes_ok (fm_content f) /\ Nat.Even (length (fm_content f)) /\
  in_bytes 4 (Z.of_nat (length (fm_content f)) / 2) /\ ~ short_content (fm_content f).
Definition frames_size (fs : list frame) : Z := 100 + Z.of_nat (length (concat (map frame_bytes fs))).

(** The content is that of a polygon record. *)
Definition intact (f : frame) (rec : shp_record) : Prop :=
  exists box starts points, polygon_fields box starts points /\ fm_content f = polygon_bytes box starts points /\
    starts_ok (Z.of_nat (length points)) starts /\
    rec = SRecord (fm_number f) (slices starts (Z.of_nat (length points)) points).
Definition damaged (f : frame) : Prop := forall rec, ~ intact f rec.

(** The number of the record that an error is about. *)
Definition about (e : shp_error) : option Z :=
  match e with
  | SERecordType rn _ | SENoParts rn | SELength rn _ _ _ _ | SERingBounds rn _ _ _ | SERingRange rn _ _ | SELastRing rn _ _ => Some rn
  | _ => None
  end.

(** What the reader should return for a record. *)
Definition answers (f : frame) (x : option (result shp_record shp_error)) : Prop :=
  (exists rec, intact f rec /\ x = Some (ROk rec)) \/
  (damaged f /\ exists e, about e = Some (fm_number f) /\ x = Some (RErr e)).
