(** * Quantize: model of src/read/shapefile/geo.rs

    f64 is Flocq's binary64; every Rust float operation is the IEEE-754 operation rounding
    to nearest, ties to even. *)
From Verif Require Export Shapefile Geo.
From Flocq Require IEEE754.Binary IEEE754.BinarySingleNaN IEEE754.Bits.

Definition f64 := Bits.binary64.
Definition f64_of_bits (z : Z) : f64 := Bits.b64_of_bits z.
Definition f64_sub : f64 -> f64 -> f64 := Bits.b64_minus BinarySingleNaN.mode_NE.
Definition f64_div : f64 -> f64 -> f64 := Bits.b64_div BinarySingleNaN.mode_NE.
Definition f64_mul : f64 -> f64 -> f64 := Bits.b64_mult BinarySingleNaN.mode_NE.

(** [u32::max_value() as f64] = 4294967295.0, bit pattern 0x41EFFFFFFFE00000. *)
Definition f64_u32_max : f64 := f64_of_bits 4751297606873776128.

Definition clamp_u32 (z : Z) : Z := Z.max 0 (Z.min u32_max z).

(** [x as u32] for an f64: truncation, saturating, NaN to 0.  (That is the meaning since
    Rust 1.45; before, out-of-range values and NaN were undefined behaviour.) *)
Definition f64_as_u32 (x : f64) : Z :=
  match x with
  | Binary.B754_nan _ _ _ _ _ => 0
  | Binary.B754_infinity _ _ s => if s then 0 else u32_max
  | _ => clamp_u32 (Binary.Btrunc 53 1024 x)
  end.

(** src/read/shapefile/geo.rs:7-13 [struct ShapefileQuantizer]. *)
Record quantizer := Quantizer { q_x : f64; q_y : f64; q_w : f64; q_h : f64 }.

(** src/read/shapefile/geo.rs:16-23 [ShapefileQuantizer::new]. *)
Definition quantizer_new (b : shp_bbox) : quantizer :=
  Quantizer (f64_of_bits (bb_xmin b)) (f64_of_bits (bb_ymax b))
            (f64_sub (f64_of_bits (bb_xmax b)) (f64_of_bits (bb_xmin b)))
            (f64_sub (f64_of_bits (bb_ymin b)) (f64_of_bits (bb_ymax b))).

(** One coordinate of [quantize]. *)
Definition quantize1 (v origin size : f64) : Z :=
  f64_as_u32 (f64_mul (f64_div (f64_sub v origin) size) f64_u32_max).

(** src/read/shapefile/geo.rs:25-30 [ShapefileQuantizer::quantize]. *)
Definition quantize (q : quantizer) (p : shp_point) : point :=
  Pt (quantize1 (f64_of_bits (sp_x p)) (q_x q) (q_w q))
     (quantize1 (f64_of_bits (sp_y p)) (q_y q) (q_h q)).

(** src/read/shapefile/geo.rs:33-37 [struct ShapefileGeoIterator]. *)
Record geo_iterator := GeoIterator { gi_reader : sf_reader; gi_quantizer : quantizer }.

(** src/read/shapefile/geo.rs:40-46 [ShapefileGeoIterator::new]. *)
Definition geo_iterator_new (r : sf_reader) : geo_iterator :=
  GeoIterator r (quantizer_new (sf_bounding_box r)).

(** src/read/shapefile/geo.rs:48-51 [shp_polygon_ring_to_ring]. *)
Definition shp_ring_to_ring (q : quantizer) (r : list shp_point) : ring :=
  RPoints (map (quantize q) r).

(** src/read/shapefile/geo.rs:63-65: [partition] by winding order; clockwise rings first. *)
Fixpoint partition_rings (m : mode) (rs : list ring) (outer inner : list ring)
  : res (list ring * list ring) :=
  match rs with
  | [] => Ok (outer, inner)
  | r :: t =>
      w <- ring_winding_order m r ;;
      match w with
      | Clockwise => partition_rings m t (outer ++ [r]) inner
      | CounterClockwise => partition_rings m t outer (inner ++ [r])
      end
  end.

(** src/read/shapefile/geo.rs:57-73 [Iterator::next]. *)
Definition geo_next (m : mode) (afs afd : after_fail) (g : geo_iterator)
  : res (option (result (region dbf_record) sf_error) * geo_iterator) :=
  '(x, r') <- sf_next afs afd (gi_reader g) ;;
  let g' := GeoIterator r' (gi_quantizer g) in
  match x with
  | None => Ok (None, g')
  | Some (RErr e) => Ok (Some (RErr e), g')
  | Some (ROk rec) =>
      '(outer, inner) <- partition_rings m (map (shp_ring_to_ring (gi_quantizer g)) (sfr_rings rec)) [] [] ;;
      Ok (Some (ROk (Region (sfr_data rec) outer inner)), g')
  end.
