(** * Pipeline: model of examples/shp-to-geo-data.rs and examples/cat-shp.rs *)
From Verif Require Export Quantize Topology Normalize Clip Display.

(** examples/shp-to-geo-data.rs:65-76: add every region to the builder and count it; stop at
    the first error. *)
Fixpoint import_loop (fuel : nat) (m : mode) (afs afd : after_fail) (g : geo_iterator)
    (b : builder dbf_record) (n : nat) : res (result (builder dbf_record * nat) sf_error) :=
  match fuel with
  | O => Panic PFuel
  | S fuel' =>
      '(x, g') <- geo_next m afs afd g ;;
      match x with
      | None => Ok (ROk (b, n))
      | Some (RErr e) => Ok (RErr e)
      | Some (ROk reg) => b' <- add_region m b reg ;; import_loop fuel' m afs afd g' b' (n + 1)%nat
      end
  end.

(** Enough iterations: every region uses up bytes of the .shp file. *)
Definition import_fuel (g : geo_iterator) : nat := S (length (shr_file (sf_shp (gi_reader g)))).

(** examples/shp-to-geo-data.rs:55-79: import a shapefile; [RErr] is [process::exit(1)]. *)
Definition import (m : mode) (afs afd : after_fail) (enc : decoder) (shp dbf : option stream)
  : res (result (topology dbf_record * nat) sf_error) :=
  o <- sf_open m afs afd enc shp dbf ;;
  match o with
  | RErr e => Ok (RErr e)
  | ROk r =>
      let g := geo_iterator_new r in
      x <- import_loop (import_fuel g) m afs afd g builder_new 0 ;;
      match x with
      | RErr e => Ok (RErr e)
      | ROk (b, n) => t <- into_topology b ;; Ok (ROk (t, n))
      end
  end.

(** What examples/shp-to-geo-data.rs:33-40 print about a topology. *)
Record description := Description { d_regions : nat; d_outer : nat; d_inner : nat; d_edges : nat;
  d_shared : nat; d_lone : nat; d_points : nat }.

(** examples/shp-to-geo-data.rs:12-41 [print_topology_description]. *)
Definition describe {D} (t : topology D) : description :=
  let '(n_outer, n_inner) :=
    fold_left (fun '(o, i) rg => ((o + length (tg_outer rg))%nat, (i + length (tg_inner rg))%nat))
              (tp_regions t) (0%nat, 0%nat) in
  let '(n_shared, n_lone, n_points) :=
    fold_left (fun '(s, l, p) e =>
                 let '(s', l') := if is_none (te_ring1 e) then (s, (l + 1)%nat) else ((s + 1)%nat, l) in
                 (s', l', (p + length (te_points e))%nat))
              (tp_edges t) (0%nat, 0%nat, 0%nat) in
  Description (length (tp_regions t)) n_outer n_inner (length (tp_edges t)) n_shared n_lone n_points.

(** examples/shp-to-geo-data.rs:33-39: the lines printed for a topology. *)
Definition description_lines (d : description) : list text :=
  [ str "  Regions:      " ++ decimal (Z.of_nat (d_regions d));
    str "  Outer rings:  " ++ decimal (Z.of_nat (d_outer d));
    str "  Inner rings:  " ++ decimal (Z.of_nat (d_inner d));
    str "  Edges:        " ++ decimal (Z.of_nat (d_edges d));
    str "  Shared edges: " ++ decimal (Z.of_nat (d_shared d));
    str "  Lone edges:   " ++ decimal (Z.of_nat (d_lone d));
    str "  Points:       " ++ decimal (Z.of_nat (d_points d)) ].

(** How a program ends: [process::exit] or the end of [main], with the lines written to the
    standard error stream; or a panic. *)
Inductive program_end := Exited (code : Z) (err : list text) | Crashed (p : panic).

(** examples/shp-to-geo-data.rs:45-94 [main], after the command line: the lines printed and the
    end of the program.  The contents of the two files are given ([None]: it cannot be opened). *)
Definition shp_to_geo_data (v : texts) (m : mode) (afs afd : after_fail) (enc : decoder) (shp dbf : option stream)
  : list text * program_end :=
  match sf_open m afs afd enc shp dbf with
  | Panic p => ([], Crashed p)
  | Ok (RErr e) => ([], Exited 1 [show_sf_error v e])
  | Ok (ROk r) =>
      let g := geo_iterator_new r in
      match import_loop (import_fuel g) m afs afd g builder_new 0 with
      | Panic p => ([], Crashed p)
      | Ok (RErr e) => ([], Exited 1 [str "Error during read: " ++ show_sf_error v e])
      | Ok (ROk (b, n)) =>
          let out := [str "Read " ++ decimal (Z.of_nat n) ++ str " regions"] in
          match into_topology b with
          | Panic p => (out, Crashed p)
          | Ok t =>
              let out1 := out ++ str "Formed initial topology:" :: description_lines (describe t) in
              match normalize m t with
              | Panic p => (out1, Crashed p)
              | Ok t1 =>
                  let out2 := out1 ++ str "Normalized topology:" :: description_lines (describe t1) in
                  match clip_topology m t1 (MinX (2 ^ 31)) with
                  | Panic p => (out2, Crashed p)
                  | Ok t2 => (out2 ++ str "Clipped topology:" :: description_lines (describe t2), Exited 0 [])
                  end
              end
          end
      end
  end.

(** examples/cat-shp.rs:25-41: print every record and count it; stop at the first error. *)
Fixpoint cat_loop (fuel : nat) (v : texts) (afs afd : after_fail) (fs : list dbf_field) (r : sf_reader)
    (n : Z) (out : list text) : list text * program_end :=
  match fuel with
  | O => (out, Crashed PFuel)
  | S fuel' =>
      match sf_next afs afd r with
      | Panic p => (out, Crashed p)
      | Ok (None, _) => (out ++ [str "Read " ++ decimal n ++ str " records"], Exited 0 [])
      | Ok (Some (RErr e), _) => (out, Exited 1 [str "Error during read: " ++ show_sf_error v e])
      | Ok (Some (ROk rec), r') =>
          match show_sf_record v fs rec with
          | Panic p => (out, Crashed p)
          | Ok line => cat_loop fuel' v afs afd fs r' (n + 1) (out ++ [line])
          end
      end
  end.

(** examples/cat-shp.rs:10-45 [main], after the command line. *)
Definition cat_shp (v : texts) (m : mode) (afs afd : after_fail) (enc : decoder) (shp dbf : option stream)
  : list text * program_end :=
  match sf_open m afs afd enc shp dbf with
  | Panic p => ([], Crashed p)
  | Ok (RErr e) => ([], Exited 1 [show_sf_error v e])
  | Ok (ROk r) => cat_loop (S (length (shr_file (sf_shp r)))) v afs afd (sf_dbf_fields r) r 0 []
  end.
