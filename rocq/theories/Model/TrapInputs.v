(** Construction of a trap from the arguments of the user: its materials and its densities
    (festim/concentration/traps/trap.py, traps.py). *)
From Coq Require Import Reals ZArith List String Bool Arith.
From Verif Require Import Base.Exc Base.Dual Model.Materials Model.Theta Model.Forms.
Import ListNotations.
Local Open Scope string_scope.
Local Open Scope list_scope.

(** An entry of the argument materials. *)
Inductive entry : Type :=
| EName (s : string)
| EMaterial (m : mat_obj)
| EOther.                                (* anything else: an id, None, ... *)
(** The argument materials: a list or one entry. *)
Inductive materials_arg : Type :=
| MOne (e : entry)
| MList (l : list entry).

(** trap.py L57-66: the setter of materials. *)
Definition entry_ok (e : entry) : bool := match e with EOther => false | _ => true end.
Definition set_materials (v : materials_arg) : res (list entry) :=
  let value := match v with MOne e => [e] | MList l => l end in
  if forallb entry_ok value then Ok value
  else Err (TypeError "Accepted types for materials are str or festim.Material").

(** materials.py L208-242: find_material for a name or a Material object (which is returned as it is); None for the rest.
    The list is that of the simulation. *)
Definition has_name (s : string) (m : mat_obj) : bool :=
  match m_name (attrs m) with Some n => String.eqb n s | None => false end.
Definition find_object (ms : list mat_obj) (e : entry) : res (option mat_obj) :=
  match e with
  | EName s => match find (has_name s) ms with
               | Some m => Ok (Some m)
               | None => Err (ValueError "No material with this name was found")
               end
  | EMaterial m => Ok (Some m)
  | EOther => Ok None
  end.
(** trap.py L79-80: the loop of make_materials. *)
Fixpoint find_all (ms : list mat_obj) (l : list entry) : res (list (option mat_obj)) :=
  match l with
  | [] => Ok []
  | e :: r => let! m := find_object ms e in let! s := find_all ms r in Ok (m :: s)
  end.
(** len(l) != len(list(set(l))): Material objects are compared by identity. *)
Fixpoint distinct (l : list mat_obj) : list mat_obj :=
  match l with
  | [] => []
  | m :: r => if mat_in m r then distinct r else m :: distinct r
  end.
(** The setter, for what find_material returned. *)
Fixpoint all_materials (l : list (option mat_obj)) : res (list mat_obj) :=
  match l with
  | [] => Ok []
  | None :: _ => Err (TypeError "Accepted types for materials are str or festim.Material")
  | Some m :: r => let! s := all_materials r in Ok (m :: s)
  end.
(** trap.py L68-85: make_materials. *)
Definition make_materials (ms : list mat_obj) (l : list entry) : res (list mat_obj) :=
  let! found := find_all ms l in
  let! s := all_materials found in
  if Nat.eqb (List.length s) (List.length (distinct s)) then Ok s
  else Err (ValueError "Duplicate materials in trap").

Section Densities.
Variable P : Type.
Local Notation scalar := (P -> R).

(** An entry of the argument density: None, a fenics Expression (used as it is) or a sympy expression or number (of which
    the C code is compiled: C93).  Simplification: both stand for their values at the points. *)
Inductive density_entry : Type :=
| DNone
| DFenics (d : scalar)
| DSympy (d : scalar).
Inductive density_arg : Type :=
| DOne (d : density_entry)
| DList (l : list density_entry).

(** trap.py L87-106: make_density, on the attribute density. *)
Fixpoint append_densities (density : list scalar) (l : list density_entry) : list scalar :=
  match l with
  | [] => density
  | DNone :: r => append_densities density r
  | DFenics d :: r => append_densities (density ++ [d]) r
  | DSympy d :: r => append_densities (density ++ [d]) r
  end.
Definition make_density (density : list scalar) (v : density_arg) : list scalar :=
  append_densities density (match v with DOne d => [d] | DList l => l end).

(** trap.py L40-51: the constructor, then make_materials at the initialisation of the simulation
    (h_transport_problem.py L95, traps.py L43-45).  The functions of the finite element space are given. *)
Definition build_trap (ms : list mat_obj) (k_0 E_k p_0 E_p : arg) (materials : materials_arg) (density : density_arg)
    (solution previous test : field P) : res (trap P) :=
  let! l := set_materials materials in
  let! s := make_materials ms l in
  Ok (mkTrap k_0 E_k p_0 E_p (make_density [] density) s solution previous test []).
End Densities.
Arguments DNone {P}. Arguments DFenics {P}. Arguments DSympy {P}. Arguments DOne {P}. Arguments DList {P}.
Arguments append_densities {P}. Arguments make_density {P}. Arguments build_trap {P}.
