(** Model of the validated lists: festim.Materials, festim.Traps, festim.Exports and
    festim.DerivedQuantities, and of the Simulation setters that replace them.
    The four classes have the same code: materials/materials.py L15-49, concentration/traps/traps.py L10-40,
    exports/exports.py L10-44, exports/derived_quantities/derived_quantities.py L41-85. *)
From Coq Require Import ZArith List Bool String.
From Verif Require Import Base.Exc.
Import ListNotations.

Section Lists.
(** Any Python object, and isinstance(value, festim.Material) (Trap, Export or DerivedQuantities,
    DerivedQuantity). *)
Variable obj : Type.
Variable valid : obj -> bool.

(** materials.py L46-49: _validate_material. *)
Definition validate (x : obj) : res obj :=
  if valid x then Ok x else Err (TypeError "wrong type of item").

(** An operation returns the exception it raises, if any, and the list afterwards. *)
Definition outcome : Type := res unit * list obj.

(** list.append; materials.py L37-38. *)
Definition append (l : list obj) (x : obj) : outcome :=
  match validate x with
  | Ok y => (Ok tt, l ++ [y])
  | Err e => (Err e, l)
  end.

(** The position list.insert uses: negative indices count from the end, and it is clamped. *)
Definition insert_pos (n : nat) (i : Z) : nat :=
  let i' := if (i <? 0)%Z then (i + Z.of_nat n)%Z else i in
  Nat.min n (Z.to_nat i').
(** materials.py L34-35. *)
Definition insert (l : list obj) (i : Z) (x : obj) : outcome :=
  match validate x with
  | Ok y => let p := insert_pos (List.length l) i in (Ok tt, firstn p l ++ y :: skipn p l)
  | Err e => (Err e, l)
  end.

(** Item assignment with an int index; materials.py L31-32. *)
Definition index_pos (n : nat) (i : Z) : option nat :=
  let i' := if (i <? 0)%Z then (i + Z.of_nat n)%Z else i in
  if ((0 <=? i') && (i' <? Z.of_nat n))%Z%bool then Some (Z.to_nat i') else None.
Definition setitem (l : list obj) (i : Z) (x : obj) : outcome :=
  match validate x with
  | Ok y =>
      match index_pos (List.length l) i with
      | Some p => (Ok tt, firstn p l ++ y :: skipn (S p) l)
      | None => (Err (IndexError "list assignment index out of range"), l)
      end
  | Err e => (Err e, l)
  end.

(** list.extend(generator): the items are appended one by one, so those before the first wrong one stay. *)
Fixpoint extend_gen (l : list obj) (xs : list obj) : outcome :=
  match xs with
  | [] => (Ok tt, l)
  | x :: r =>
      match validate x with
      | Ok y => extend_gen (l ++ [y]) r
      | Err e => (Err e, l)
      end
  end.
(** materials.py L40-44; [same]: isinstance(other, type(self)). *)
Definition extend (l : list obj) (same : bool) (xs : list obj) : outcome :=
  if same then (Ok tt, l ++ xs) else extend_gen l xs.

(** Not overridden: list.__iadd__, used by l += xs. *)
Definition iadd (l : list obj) (xs : list obj) : outcome := (Ok tt, l ++ xs).

(** The constructor Materials(xs), materials.py L15-22 (xs is a list). *)
Fixpoint construct (xs : list obj) : res (list obj) :=
  match xs with
  | [] => Ok []
  | x :: r => let! y := validate x in let! ys := construct r in Ok (y :: ys)
  end.

(** What can be given to a Simulation setter. *)
Inductive value : Type :=
| VNone
| VCollection (l : list obj)      (* an object of the collection class *)
| VList (l : list obj)            (* a plain list *)
| VItem (x : obj)                 (* anything else *).

(** generic_simulation.py L116-129 (traps) and L153-166 (exports): the collection after the assignment.
    Simplification: None gives an empty collection, as for traps and exports; for materials (L136-149) it
    stays None. *)
Definition assign (l : list obj) (v : value) : outcome :=
  match v with
  | VNone => (Ok tt, [])
  | VCollection l' => (Ok tt, l')
  | VList xs => match construct xs with Ok l' => (Ok tt, l') | Err e => (Err e, l) end
  | VItem x => if valid x then (Ok tt, [x]) else (Err (TypeError "accepted types"), l)
  end.

Inductive op : Type :=
| OAppend (x : obj)
| OInsert (i : Z) (x : obj)
| OSet (i : Z) (x : obj)
| OExtend (same : bool) (xs : list obj)
| OAssign (v : value)
| OIadd (xs : list obj).
Definition apply_op (l : list obj) (o : op) : outcome :=
  match o with
  | OAppend x => append l x
  | OInsert i x => insert l i x
  | OSet i x => setitem l i x
  | OExtend same xs => extend l same xs
  | OAssign v => assign l v
  | OIadd xs => iadd l xs
  end.
(** A user program: the exceptions are caught, the list is what remains. *)
Definition apply_ops (l : list obj) (os : list op) : list obj :=
  fold_left (fun l o => snd (apply_op l o)) os l.
End Lists.
Arguments VNone {obj}.
Arguments VCollection {obj} l.
Arguments VList {obj} l.
Arguments VItem {obj} x.
Arguments OAppend {obj} x.
Arguments OInsert {obj} i x.
Arguments OSet {obj} i x.
Arguments OExtend {obj} same xs.
Arguments OAssign {obj} v.
Arguments OIadd {obj} xs.
Arguments validate {obj} valid x.
Arguments append {obj} valid l x.
Arguments insert {obj} valid l i x.
Arguments setitem {obj} valid l i x.
Arguments extend_gen {obj} valid l xs.
Arguments extend {obj} valid l same xs.
Arguments iadd {obj} l xs.
Arguments construct {obj} valid xs.
Arguments assign {obj} valid l v.
Arguments apply_op {obj} valid l o.
Arguments apply_ops {obj} valid l os.
