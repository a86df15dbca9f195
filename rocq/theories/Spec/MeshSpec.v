(** Vocabulary for statements about materials, borders and 1D meshes. *)
From Coq Require Import ZArith QArith List Permutation.
From Verif Require Import Base.Num Model.Materials Model.Mesh1D.
Import ListNotations.
Local Open Scope Q_scope.

Section Spec.
Context {P : Type}.
Local Notation material := (material (A:=Q) P).

(** The borders of a material, as a list of intervals. *)
Definition borders_of (m : material) : list (Q * Q) :=
  match m_borders m with BNone => [] | BOne b => [b] | BMany l => l end.
Definition in_interval (x : Q) (b : Q * Q) : Prop := fst b <= x /\ x <= snd b.
Definition contains (m : material) (x : Q) : Prop := exists b, In b (borders_of m) /\ in_interval x b.
(** x is an end of some border. *)
Definition interface (ms : list material) (x : Q) : Prop :=
  exists m b, In m ms /\ In b (borders_of m) /\ (x == fst b \/ x == snd b).

(** The borders, in some order, follow each other from 0 to size. *)
Fixpoint chain (a : Q) (bs : list (Q * Q)) (z : Q) : Prop :=
  match bs with
  | [] => a == z
  | b :: r => fst b == a /\ chain (snd b) r z
  end.
Definition tiled (ms : list material) (size : Q) : Prop :=
  exists bs, Permutation bs (flat_map borders_of ms) /\ chain 0 bs size.
(** No border is empty or reversed. *)
Definition proper_borders (ms : list material) : Prop :=
  forall m b, In m ms -> In b (borders_of m) -> fst b < snd b.

(** The id of material m that goes with position j of its borders. *)
Definition id_at (m : material) (j : nat) (z : Z) : Prop :=
  m_id m = IdOne z \/ exists l, m_id m = IdMany l /\ nth_error l j = Some z.
Definition has_id (m : material) (z : Z) : Prop :=
  m_id m = IdOne z \/ exists l, m_id m = IdMany l /\ In z l.

(** Each border has an id: one id, or as many ids as borders; nested lists have at least two borders. *)
Definition well_shaped (m : material) : Prop :=
  match m_borders m, m_id m with
  | BNone, IdOne _ | BOne _, IdOne _ => True
  | BNone, IdMany _ => False
  | BOne _, IdMany l => l <> []
  | BMany bs, IdOne _ => (2 <= length bs)%nat
  | BMany bs, IdMany l => (2 <= length bs)%nat /\ (length bs <= length l)%nat
  end.

(** A property is given for all materials or for none. *)
Definition all_or_none {B} (f : material -> option B) (ms : list material) : Prop :=
  (forall m, In m ms -> f m <> None) \/ (forall m, In m ms -> f m = None).
Definition given {B} (f : material -> option B) (ms : list material) : Prop :=
  forall m, In m ms -> f m <> None.
(** The properties a temperature problem needs. *)
Definition needed (T : temp_kind) (ms : list material) : Prop :=
  match T with
  | Given => True
  | HeatTransfer false => given m_thermal ms
  | HeatTransfer true => given m_thermal ms /\ given m_heat ms /\ given m_rho ms
  end.
End Spec.

(** Cell j of the mesh is the interval from a to b. *)
Definition cell_interval (m : mesh (A:=Q)) (j : nat) (a b : Q) : Prop :=
  exists p q, nth_error (cells m) j = Some (p, q) /\
    nth_error (vertices m) p = Some a /\ nth_error (vertices m) q = Some b.

(** No two distinct coordinates of the list are closer than eps. *)
Definition separated (eps : Q) (vs : list Q) : Prop :=
  forall x y, In x vs -> In y vs -> x < y -> eps <= y - x.
