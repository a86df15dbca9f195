(** Vocabulary for statements about fields, sources and boundary conditions. *)
From Coq Require Import ZArith List Bool String.
From Verif Require Import Base.Key Model.Sources Model.Bcs.
Import ListNotations.
Local Open Scope string_scope.

(** The objects of a simulation with n traps. *)
Definition present (n : nat) (sp : species) : Prop :=
  match sp with Trap i => (1 <= i <= n)%nat | _ => True end.
(** The object a source field designates (documented names). *)
Definition designates (n : nat) (k : key) (sp : species) : Prop :=
  match sp with
  | Mobile => In k [KS "solute"; KS "mobile"; KS "0"; KI 0]
  | Temp => k = KS "T"
  | Trap i => (1 <= i <= n)%nat /\ (k = KI (Z.of_nat i) \/ k = KS (str (Z.of_nat i)))
  end.
(** The source with field k (a RadioactiveDecay or not) belongs to the equation of sp. *)
Definition belongs (n : nat) (k : key) (decay : bool) (sp : species) : Prop :=
  if (decay && key_eqb k (KS "all"))%bool then present n sp /\ sp <> Temp else designates n k sp.

(** m consists of the elements of l that satisfy P, each as often as in l and in the same order. *)
Inductive selected {A : Type} (P : A -> Prop) : list A -> list A -> Prop :=
| sel_nil : selected P [] []
| sel_keep x l m : P x -> selected P l m -> selected P (x :: l) (x :: m)
| sel_drop x l m : ~ P x -> selected P l m -> selected P (x :: l) m.

(** Two conditions on the same field overlap on a surface and one of them fixes the solution. *)
Definition fixes (b : bc) : Prop := bc_kind_of b = Dirichlet \/ bc_kind_of b = SurfKin.
Definition overlap (a b : bc) : Prop := exists s, In s (bc_surfaces a) /\ In s (bc_surfaces b).
Definition conflict (a b : bc) : Prop :=
  bc_uid a <> bc_uid b /\ bc_field a = bc_field b /\ (fixes a \/ fixes b) /\ overlap a b.
(** The fields a boundary condition can have. *)
Definition bc_field_ok (n : nat) (k : key) : Prop :=
  k = KS "T" \/ exists i, (i <= n)%nat /\ (k = KI (Z.of_nat i) \/ k = KS (str (Z.of_nat i))).

(** Field k designates component c of the hydrogen problem. *)
Definition designates_component (k : key) (c : nat) : Prop :=
  k = KI (Z.of_nat c) \/ k = KS (str (Z.of_nat c)).
(** What a boundary condition should contribute: one term per surface, in the equation of its field. *)
Inductive contribution (b : bc) : list term -> Prop :=
| heat_flux : bc_field b = KS "T" -> bc_kind_of b = Flux \/ bc_kind_of b = SurfKin ->
    contribution b (map (FluxTerm b OnTemperature) (bc_surfaces b))
| heat_dirichlet : bc_field b = KS "T" -> bc_kind_of b = Dirichlet ->
    contribution b (map (Constraint b OnTemperature) (bc_surfaces b))
| h_flux c : designates_component (bc_field b) c -> bc_kind_of b = Flux \/ bc_kind_of b = SurfKin ->
    contribution b (map (FluxTerm b (OnComponent c)) (bc_surfaces b))
| h_dirichlet c : designates_component (bc_field b) c -> bc_kind_of b = Dirichlet ->
    contribution b (map (Constraint b (OnComponent c)) (bc_surfaces b)).
