(** festim/exports/txt_export.py, TXTExport.initialise: which degrees of freedom make up the rows of the
    exported table.  Modelled function by function; the FEniCS part (interpolating x[0] into CG1 or DG1) is
    the input [x], the list of the x coordinates of the dofs in dof order.  numpy's argsort is the input
    [order]: the default sort is not stable, so nothing is assumed here about the order of equal
    coordinates (the theorems take any sorting permutation). *)
From Coq Require Import List Bool String PeanoNat.
From Verif Require Import Base.Exc Base.Num Model.Materials.
Import ListNotations.

Section TxtRows.
Context {A : Type} {N : Num A} {P : Type}.
Local Notation material := (material (A:=A) P).

(** One element of the Python list [borders] of L153: a number or a list of two numbers. *)
Inductive item : Type :=
| INum (a : A)
| IPair (b : A * A).

(** txt_export.py L155-157: `if material.borders: for border in material.borders: borders.append(border)`. *)
Definition border_items (m : material) : list item :=
  match m_borders m with
  | BNone => []
  | BOne (a, b) => [INum a; INum b]
  | BMany l => map IPair l
  end.

Definition is_num (i : item) : bool := match i with INum _ => true | IPair _ => false end.

Definition flatten (i : item) : list A :=
  match i with INum a => [a] | IPair (a, b) => [a; b] end.

(** txt_export.py L158, np.unique(borders): numpy refuses to build an array out of a mix of numbers and
    lists; otherwise the array is flattened.  Simplification: the result is not sorted and keeps repeated
    values, which L162-167 cannot tell apart (only membership in border_indices is used). *)
Definition np_borders (l : list item) : res (list A) :=
  if orb (forallb is_num l) (forallb (fun i => negb (is_num i)) l)
  then Ok (flat_map flatten l)
  else Err (ValueError "setting an array element with a sequence. The requested array has an inhomogeneous shape").

(** numpy.argmin of a non-empty array: the first index of the smallest value. [best] is the index and the
    value found so far, [i] the index of the head of the rest. *)
Fixpoint argmin_from (best : nat * A) (i : nat) (l : list A) : nat :=
  match l with
  | [] => fst best
  | a :: r => if nltb a (snd best) then argmin_from (i, a) (S i) r else argmin_from best (S i) r
  end.

Definition argmin (l : list A) : res nat :=
  match l with
  | [] => Err (ValueError "attempt to get argmin of an empty sequence")
  | a :: r => Ok (argmin_from (0, a) 1 r)
  end.

(** np.where(x_column == v)[0]: the indices holding the value [v]; [i] is the index of the head. *)
Fixpoint where_eq (v : A) (i : nat) (l : list A) : list nat :=
  match l with
  | [] => []
  | a :: r => if neqb a v then i :: where_eq v (S i) r else where_eq v (S i) r
  end.

(** txt_export.py L161-167: for each border, all the dofs at the coordinate closest to it. *)
Fixpoint border_indices (x : list A) (borders : list A) : res (list nat) :=
  match borders with
  | [] => Ok []
  | b :: r =>
      let! c := argmin (map (fun a => nabs (nsub a b)) x) in
      let closest := nth c x n0 in
      let! rest := border_indices x r in
      Ok (where_eq closest 0 x ++ rest)
  end.

(** txt_export.py L170, np.unique(x_column, return_index=True): the index of the first occurrence of each
    value.  [seen] are the values before index [i]. *)
Fixpoint first_indices (seen : list A) (i : nat) (l : list A) : list nat :=
  match l with
  | [] => []
  | a :: r =>
      if existsb (fun s => neqb s a) seen
      then first_indices seen (S i) r
      else i :: first_indices (a :: seen) (S i) r
  end.

Definition mem (i : nat) (l : list nat) : bool := existsb (Nat.eqb i) l.

(** txt_export.py L141-182: _unique_indices. [ms] is the argument materials (None by default). *)
Definition unique_indices (project_to_DG filter : bool) (ms : option (list material))
                          (x : list A) (order : list nat) : res (list nat) :=
  if andb project_to_DG filter then
    match ms with
    | None => Err (TypeError "'NoneType' object is not iterable")
    | Some ms =>
        let! borders := np_borders (flat_map border_items ms) in
        let! bi := border_indices x borders in
        let mi := first_indices [] 0 x in
        Ok (List.filter (fun i => orb (mem i mi) (mem i bi)) order)
    end
  else Ok order.

(** txt_export.py L184: the first column, x_column[_unique_indices]; L217-219 takes the same rows of a
    solution vector. *)
Definition column (u : list A) (idx : list nat) : list A := map (fun i => nth i u n0) idx.
End TxtRows.
