(** Vocabulary for statements about traps ids, unknowns and field names. *)
From Coq Require Import ZArith List Bool String.
From Verif Require Import Base.Key Model.Sources Model.Fields.
Import ListNotations.
Local Open Scope string_scope.

(** The ids given by the user can be completed by positions without clash. *)
Definition given (ids : list (option Z)) (i : nat) (z : Z) : Prop := nth_error ids i = Some (Some z).
Definition missing (ids : list (option Z)) (i : nat) : Prop := nth_error ids i = Some None.
Definition clash_free (ids : list (option Z)) : Prop :=
  (forall i z, given ids i z -> z <> 0%Z) /\
  (forall i j z, given ids i z -> given ids j z -> i = j) /\
  (forall i j, given ids i (Z.of_nat (S j)) -> ~ missing ids j).

(** The unknowns of a problem with n traps and SurfaceKinetics with these numbers of surfaces. *)
Definition unknown (n : nat) (sks : list nat) (s : slot) : Prop :=
  match s with
  | SlotMobile => True
  | SlotTrap i => (1 <= i <= n)%nat
  | SlotAdsorbed j i => exists m, nth_error sks j = Some m /\ (i < m)%nat
  end.
(** The finite element each unknown lives in. *)
Definition element_of (s : slot) : element :=
  match s with SlotMobile => Solute | SlotTrap _ => TrapElement | SlotAdsorbed _ _ => RealElement end.

(** Field k names species sp, traps being named by their ids. *)
Definition names (ids : list Z) (k : key) (sp : species) : Prop :=
  match sp with
  | Mobile => In k [KS "solute"; KS "0"; KI 0]
  | Temp => False
  | Trap p => exists i z, p = S i /\ nth_error ids i = Some z /\ (k = KI z \/ k = KS (str z))
  end.
(** v is the value of the last element of l whose field names sp. *)
Inductive last_named {V : Type} (ids : list Z) (sp : species) : list (key * V) -> option V -> Prop :=
| ln_nil : last_named ids sp [] None
| ln_new l k v o : last_named ids sp l o -> names ids k sp -> last_named ids sp (l ++ [(k, v)]) (Some v)
| ln_old l k v o : last_named ids sp l o -> ~ names ids k sp -> last_named ids sp (l ++ [(k, v)]) o.
(** The ids are the positions 1, 2, ... *)
Definition positional (ids : list Z) : Prop := forall i z, nth_error ids i = Some z -> z = Z.of_nat (S i).
