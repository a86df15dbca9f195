(** Field names: Python ints and strings as dictionary keys, and dictionaries. *)
From Coq Require Import ZArith List Bool String DecimalString DecimalZ.
Import ListNotations.

(** A field: an int or a string; 0 and "0" are different keys. *)
Inductive key : Type :=
| KI (z : Z)
| KS (s : string).
Definition key_eqb (a b : key) : bool :=
  match a, b with
  | KI x, KI y => Z.eqb x y
  | KS x, KS y => String.eqb x y
  | _, _ => false
  end.

(** str(z): decimal notation. *)
Definition str (z : Z) : string := NilZero.string_of_int (Z.to_int z).

(** Python dictionaries (insertion order does not matter here). *)
Section Dict.
Context {V : Type}.
Definition dict := list (key * V).
Fixpoint dict_get (d : dict) (k : key) : option V :=
  match d with
  | [] => None
  | (k', v) :: r => if key_eqb k k' then Some v else dict_get r k
  end.
(** d[k] = v *)
Definition dict_set (d : dict) (k : key) (v : V) : dict :=
  (k, v) :: filter (fun e => negb (key_eqb k (fst e))) d.
Definition dict_values (d : dict) : list V := map snd d.
End Dict.
Arguments dict V : clear implicits.
