(** * SimplifyPlaceSpec: which places some regions surround together

    Uses no function of the model. *)
From Verif Require Export PlaceSpec.

(** All paths of a region, in the directions in which its rings pass them. *)
Definition region_paths {D} (t : topology D) (rg : topo_region D) : list (list point) :=
  present (flat_map (read_ring (tp_edges t)) (tg_outer rg ++ tg_inner rg)).

(** How often some regions together go around a place, twice their area, and whether an odd number
    of them cover a place. *)
Definition surrounded {D} (t : topology D) (rgs : list (topo_region D)) (z : place) : Z :=
  sum (map (fun rg => winding_number z (region_paths t rg)) rgs).
Definition land {D} (t : topology D) (rgs : list (topo_region D)) : Z :=
  sum (map (fun rg => shoelaces (region_paths t rg)) rgs).
Definition covered_oddly {D} (t : topology D) (rgs : list (topo_region D)) (z : place) : bool :=
  fold_right xorb false (map (fun rg => covered_by (region_paths t rg) z) rgs).

(** How often the rings of some regions pass an edge forwards and how often backwards. *)
Definition passed {D} (d : direction) (i : nat) (rgs : list (topo_region D)) : Z :=
  Z.of_nat (length (filter (fun x => Nat.eqb (de_edge x) i && match d, de_dir x with Forward, Forward | Backward, Backward => true | _, _ => false end)
    (flat_map (fun rg => flat_map tr_des (tg_outer rg ++ tg_inner rg)) rgs))).

(** The points of an edge. *)
Definition edge_points {D} (t : topology D) (i : nat) : list point :=
  match nth_error (tp_edges t) i with Some e => te_points e | None => [] end.

(** Edge [i] is the border between some of the regions, not a border of all of them together: the
    rings pass it as often in one direction as in the other. *)
Definition inland {D} (i : nat) (rgs : list (topo_region D)) : Prop := passed Forward i rgs = passed Backward i rgs.
