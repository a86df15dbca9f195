(** Model of DerivedQuantities.filter, exports/derived_quantities/derived_quantities.py L194-273. *)
From Coq Require Import ZArith List Bool String.
From Verif Require Import Base.Key.
Import ListNotations.

Section Filter.
(** Classes of derived quantities, and isinstance(quantity, class). *)
Variable cls : Type.
Variable quantity : Type.
(** hasattr(quantity, "surface") and its value; similarly volume. *)
Variable q_surface : quantity -> option Z.
Variable q_volume : quantity -> option Z.
Variable q_field : quantity -> key.
Variable instance_of : quantity -> cls -> bool.

(** An argument is None, a single value or a list. *)
Inductive arg (B : Type) : Type :=
| ANone
| AOne (b : B)
| AList (l : list B).
Arguments ANone {B}.
Arguments AOne {B} b.
Arguments AList {B} l.

(** L217-225: "ensure arguments are list". *)
Definition to_list {B} (a : arg B) : option (list B) :=
  match a with ANone => None | AOne b => Some [b] | AList l => Some l end.

(** L229-266: the flags. *)
Definition match_surface (surfaces : option (list Z)) (q : quantity) : bool :=
  match surfaces with
  | Some l => match q_surface q with Some s => existsb (Z.eqb s) l | None => false end
  | None => true
  end.
Definition match_volume (volumes : option (list Z)) (q : quantity) : bool :=
  match volumes with
  | Some l => match q_volume q with Some v => existsb (Z.eqb v) l | None => false end
  | None => true
  end.
Definition match_field (fields : option (list key)) (q : quantity) : bool :=
  match fields with
  | Some l => existsb (key_eqb (q_field q)) l
  | None => true
  end.
Definition match_instance (instances : option (list cls)) (q : quantity) : bool :=
  match instances with
  | Some l => existsb (instance_of q) l
  | None => true
  end.

(** L227-269: the loop. *)
Fixpoint filter_loop (surfaces volumes : option (list Z)) (fields : option (list key))
    (instances : option (list cls)) (l quantities : list quantity) : list quantity :=
  match l with
  | [] => quantities
  | q :: r =>
      let quantities :=
        if (match_surface surfaces q && match_volume volumes q && match_field fields q
            && match_instance instances q)%bool
        then (quantities ++ [q])%list else quantities in
      filter_loop surfaces volumes fields instances r quantities
  end.

(** The result: one quantity, or a list. *)
Inductive filtered : Type :=
| One (q : quantity)
| Many (l : list quantity).
Definition filter_quantities (l : list quantity) (surfaces volumes : arg Z) (fields : arg key)
    (instances : arg cls) : filtered :=
  match filter_loop (to_list surfaces) (to_list volumes) (to_list fields) (to_list instances) l [] with
  | [q] => One q
  | qs => Many qs
  end.
End Filter.
Arguments ANone {B}.
Arguments AOne {B} b.
Arguments AList {B} l.
Arguments One {quantity} q.
Arguments Many {quantity} l.
Arguments filter_quantities {cls quantity} q_surface q_volume q_field instance_of l surfaces volumes fields instances.
Arguments filter_loop {cls quantity} q_surface q_volume q_field instance_of surfaces volumes fields instances l quantities.
