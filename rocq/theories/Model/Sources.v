(** Model of Simulation.attribute_source_terms, generic_simulation.py L200-237. *)
From Coq Require Import ZArith List Bool String.
From Verif Require Import Base.Exc Base.Key.
Import ListNotations.
Local Open Scope string_scope.

(** The objects sources are attached to: the mobile species, the temperature and the i-th trap of
    self.traps (counted from 1; the traps are different objects). *)
Inductive species : Type :=
| Mobile
| Temp
| Trap (i : nat).
Definition species_dec (a b : species) : {a = b} + {a <> b}.
Proof. repeat decide equality. Defined.
(** isinstance(obj, festim.Concentration) *)
Definition is_concentration (sp : species) : bool := match sp with Temp => false | _ => true end.

(** L211-219: field_to_object, for n traps. *)
Definition field_to_object (n : nat) : dict species :=
  fold_left (fun d i => dict_set (dict_set d (KI (Z.of_nat i)) (Trap i)) (KS (str (Z.of_nat i))) (Trap i))
    (seq 1 n)
    [(KS "solute", Mobile); (KS "0", Mobile); (KI 0, Mobile); (KS "mobile", Mobile); (KS "T", Temp)].

Section Sources.
(** Source objects with their field; isinstance(source, festim.RadioactiveDecay). *)
Variable S : Type.
Variable s_field : S -> key.
Variable s_decay : S -> bool.

(** The .sources attributes. *)
Definition attached := species -> list S.
Definition add_source (a : attached) (s : S) (sp : species) : attached :=
  fun x => if species_dec x sp then (a x ++ [s])%list else a x.

(** L204-208: the lists are emptied. *)
Definition reset_sources (n : nat) (a : attached) : attached :=
  fun x => match x with
           | Mobile | Temp => []
           | Trap i => if (Nat.leb 1 i && Nat.leb i n)%bool then [] else a x
           end.

(** L222-237: one iteration of the loop over the sources; [heat]: self.T is a HeatTransferProblem.
    set(...) removes repetitions; each object gets at most one append, so its order does not matter. *)
Definition attribute_one (n : nat) (heat : bool) (a : attached) (s : S) : res attached :=
  if (key_eqb (s_field s) (KS "T") && negb heat)%bool then
    Err (TypeError "Heat transfer sources can only be used with HeatTransferProblem")
  else if (s_decay s && key_eqb (s_field s) (KS "all"))%bool then
    Ok (fold_left (fun a sp => if is_concentration sp then add_source a s sp else a)
          (nodup species_dec (dict_values (field_to_object n))) a)
  else
    match dict_get (field_to_object n) (s_field s) with
    | Some sp => Ok (add_source a s sp)
    | None => Err (KeyError "field")
    end.
Fixpoint attribute_loop (n : nat) (heat : bool) (a : attached) (l : list S) : res attached :=
  match l with
  | [] => Ok a
  | s :: r => let! a := attribute_one n heat a s in attribute_loop n heat a r
  end.
Definition attribute_source_terms (n : nat) (heat : bool) (sources : list S) (before : attached) : res attached :=
  attribute_loop n heat (reset_sources n before) sources.
End Sources.
Arguments attribute_source_terms {S} s_field s_decay n heat sources before.
Arguments attribute_loop {S} s_field s_decay n heat a l.
Arguments attribute_one {S} s_field s_decay n heat a s.
Arguments reset_sources {S} n a.
Arguments add_source {S} a s sp.
