(** * SizeSpec: how large topologies are *)
From Verif Require Export CrossSpec.

(** The edges in all rings; an edge between two rings is counted for both. *)
Definition ring_edges {D} (rs : list (topo_region D)) : list directed_edge :=
  flat_map (fun rg => flat_map tr_des (tg_outer rg ++ tg_inner rg)) rs.
Definition n_uses {D} (t : topology D) : nat := length (ring_edges (tp_regions t)).
Definition n_edges {D} (t : topology D) : nat := length (tp_edges t).
Definition n_rings {D} (t : topology D) : nat := length (flat_map (fun rg => tg_outer rg ++ tg_inner rg) (tp_regions t)).

(** The line segments of all paths. *)
Definition n_segments (ps : list (list point)) : nat := length (flat_map segments ps).
Definition size {D} (t : topology D) : nat := n_segments (map te_points (tp_edges t)).

(** The segments of all rings: those of an edge between two rings are counted for both. *)
Definition used_path {D} (t : topology D) (d : directed_edge) : list point :=
  match nth_error (tp_edges t) (de_edge d) with Some e => te_points e | None => [] end.
Definition used_size {D} (t : topology D) : nat := n_segments (map (used_path t) (ring_edges (tp_regions t))).
