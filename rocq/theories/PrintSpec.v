(** * PrintSpec: the lines that shp-to-geo-data prints *)
From Verif Require Export PipelineSpec DisplaySpec.

(** A number between two texts. *)
Definition number_line (before : text) (n : nat) (after line : text) : Prop :=
  exists s, (is_usize (Z.of_nat n) -> is_numeral (Z.of_nat n) s) /\ line = before ++ s ++ after.

(** The seven lines about a topology. *)
Definition topology_text {D} (t : topology D) (lines : list text) : Prop :=
  Forall2 (fun label_n line => number_line (fst label_n) (snd label_n) [] line)
    [ (str "  Regions:      ", length (tp_regions t));
      (str "  Outer rings:  ", list_sum (map (fun rg => length (tg_outer rg)) (tp_regions t)));
      (str "  Inner rings:  ", list_sum (map (fun rg => length (tg_inner rg)) (tp_regions t)));
      (str "  Edges:        ", length (tp_edges t));
      (str "  Shared edges: ", length (filter is_shared (tp_edges t)));
      (str "  Lone edges:   ", length (filter (fun e => negb (is_shared e)) (tp_edges t)));
      (str "  Points:       ", list_sum (map (fun e => length (te_points e)) (tp_edges t))) ] lines.
