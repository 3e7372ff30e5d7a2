(** * ClipStepsSpec: clipping by two parallel lines *)
From Verif Require Export ClipAreaSpec.

(** The second mask keeps less: its line is parallel to that of the first, strictly inside. *)
Definition tighter (k k' : clip_mask) : Prop :=
  match k, k' with
  | MinX a, MinX b | MinY a, MinY b => a < b
  | MaxX a, MaxX b | MaxY a, MaxY b => b < a
  | _, _ => False
  end.

(** The same point, or two points of the mask line with at most one unit between them. *)
Definition beside (k : clip_mask) (x y : point) : Prop :=
  x = y \/ (on_line k x /\ on_line k y /\ Z.abs (along k x - along k y) <= 1).

(** Crossings can be computed. *)
Definition small_path (ps : list point) : Prop :=
  forall p q, In [p; q] (segments ps) -> small_step p q.

(** A segment that crosses both lines crosses the first one at integer coordinates. *)
Definition exact_first (k k' : clip_mask) (ps : list point) : Prop :=
  forall p q, In [p; q] (segments ps) -> opposite k' p q -> between_points k p q = false.

Definition exact_edges {D} (k k' : clip_mask) (t : topology D) : Prop :=
  forall e, In e (tp_edges t) -> exact_first k k' (te_points e).

(** A ring without area after the first step would have none in a direct clip either. *)
Definition no_return {D} (m : mode) (k k' : clip_mask) (t : topology D) : Prop :=
  forall C C' rg r, clips m k t C -> clips m k' t C' ->
    In rg (tp_regions t) -> In r (tg_outer rg ++ tg_inner rg) -> ring_kept C' r = true -> ring_kept C r = true.
