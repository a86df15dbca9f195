(** What the user means by the materials and densities of a trap. *)
From Coq Require Import Reals ZArith List String.
From Verif Require Import Base.Exc Base.Dual Model.Materials Model.Theta Model.Forms Model.TrapInputs.
Import ListNotations.

(** A name stands for the first material of the simulation with that name; an object for itself. *)
Definition stands_for (ms : list mat_obj) (e : entry) (m : mat_obj) : Prop :=
  match e with
  | EName s => exists before after, ms = before ++ m :: after /\ m_name (attrs m) = Some s /\
                 forall x, In x before -> m_name (attrs x) <> Some s
  | EMaterial x => x = m
  | EOther => False
  end.
Definition entries (v : materials_arg) : list entry := match v with MOne e => [e] | MList l => l end.

Section Densities.
Context {P : Type}.
Definition given (v : density_arg P) : list (density_entry P) := match v with DOne d => [d] | DList l => l end.
(** The density given in an entry. *)
Definition is_density (e : density_entry P) (d : P -> R) : Prop := e = DFenics d \/ e = DSympy d.
(** How many entries are None. *)
Fixpoint nones (l : list (density_entry P)) : nat :=
  match l with [] => 0 | DNone :: r => S (nones r) | _ :: r => nones r end.
End Densities.
