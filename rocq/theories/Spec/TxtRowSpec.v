(** What the rows of an exported table should be, independently of how they are selected. *)
From Coq Require Import QArith Qabs List Sorting.Permutation Sorting.Sorted.
From Verif Require Import Base.Num Model.Materials Model.Mesh1D Spec.MeshSpec.
Import ListNotations.
Local Open Scope Q_scope.

(** [order] is a result of argsort: all the indices, by non-decreasing coordinate. *)
Definition argsort (x : list Q) (order : list nat) : Prop :=
  Permutation order (seq 0 (length x)) /\
  forall r s, (r <= s < length order)%nat -> nth (nth r order 0%nat) x 0 <= nth (nth s order 0%nat) x 0.

(** [b] is an end of the borders of one of the materials. *)
Definition border_end {P} (ms : list (material (A:=Q) P)) (b : Q) : Prop :=
  exists m, In m ms /\
    ((exists lo hi, m_borders m = BOne (lo, hi) /\ (b = lo \/ b = hi)) \/
     (exists l lo hi, m_borders m = BMany l /\ In (lo, hi) l /\ (b = lo \/ b = hi))).

(** Every end of a border is the coordinate of a dof. *)
Definition borders_on_mesh {P} (ms : list (material (A:=Q) P)) (x : list Q) : Prop :=
  forall b, border_end ms b -> exists i, (i < length x)%nat /\ nth i x 0 == b.

(** [c] is a coordinate of the mesh at least distance from [b]. *)
Definition nearest (x : list Q) (b c : Q) : Prop :=
  (exists i, (i < length x)%nat /\ nth i x 0 == c) /\
  forall j, (j < length x)%nat -> Qabs (c - b) <= Qabs (nth j x 0 - b).

(** All the materials give their borders in the same way (one pair each, or lists of pairs). *)
Definition uniform_borders {P} (ms : list (material (A:=Q) P)) : Prop :=
  (forall m b, In m ms -> m_borders m <> BOne b) \/
  (forall m l, In m ms -> m_borders m = BMany l -> l = []).

(** One border ends at [c] and another starts there. *)
Definition junction {P} (ms : list (material (A:=Q) P)) (c : Q) : Prop :=
  exists b1 b2 rest, Permutation (flat_map borders_of ms) (b1 :: b2 :: rest) /\ snd b1 == c /\ fst b2 == c.

(** Only one dof at [c] (as at the two ends of a 1D mesh). *)
Definition single (x : list Q) (c : Q) : Prop :=
  forall i j, (i < length x)%nat -> (j < length x)%nat -> nth i x 0 == c -> nth j x 0 == c -> i = j.
