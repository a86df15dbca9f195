(** Model of festim/meshing/mesh_1d.py and festim/meshing/mesh_from_vertices.py. *)
From Coq Require Import ZArith List Bool String.
From Verif Require Import Base.Exc Base.Num Model.Stepsize Model.Materials.
Import ListNotations.

Section Mesh.
Context {A : Type} {N : Num A}.

(** numpy.unique: the sorted distinct values. *)
Fixpoint dedup (l : list A) : list A :=
  match l with
  | a :: ((b :: _) as r) => if neqb a b then dedup r else a :: dedup r
  | other => other
  end.
Definition np_unique (l : list A) : list A := dedup (py_sorted l).

(** builtin min and max of a list: the first extremal element. *)
Definition py_max (l : list A) : res A :=
  match l with
  | [] => Err (ValueError "max() arg is an empty sequence")
  | a :: r => Ok (fold_left (fun m x => if nltb m x then x else m) r a)
  end.
Definition py_min (l : list A) : res A :=
  match l with
  | [] => Err (ValueError "min() arg is an empty sequence")
  | a :: r => Ok (fold_left (fun m x => if nltb x m then x else m) r a)
  end.

(** A Mesh1D built from vertices: coordinates of the vertices (which are the facets in 1D) and, for
    each cell, the indices of its two vertices. *)
Record mesh : Type := mkMesh {
  vertices : list A;
  cells    : list (nat * nat);
  start    : A;
  size     : A
}.

(** mesh_from_vertices.py L18-44: __init__ and generate_mesh_from_vertices, on one process. *)
Definition mesh_from_vertices (vs : list A) : res mesh :=
  let! sz := py_max vs in
  let! st := py_min vs in
  let v := py_sorted (np_unique vs) in
  let nb_cells := (List.length v - 1)%nat in
  Ok (mkMesh v (map (fun j => (j, S j)) (seq 0 nb_cells)) st sz).

(** f.near(x, x0): |x - x0| < DOLFIN_EPS (dolfin is not part of the repository). *)
Variable eps : A.
Definition near (x x0 : A) : bool := nltb (nabs (nsub x x0)) eps.

(** mesh_1d.py L31-51: define_surface_markers, the marker of the facet at x. *)
Definition surface_marker (m : mesh) (x : A) : Z :=
  let s := if near x (start m) then 1%Z else 0%Z in
  if near x (size m) then 2%Z else s.
Definition define_surface_markers (m : mesh) : list Z := map (surface_marker m) (vertices m).

(** The midpoint of a cell. *)
Variable half : A.
Definition midpoint (m : mesh) (c : nat * nat) : A :=
  nmul half (nadd (nth (fst c) (vertices m) n0) (nth (snd c) (vertices m) n0)).

Variable P : Type.
Definition mats := materials (A:=A) P.

(** mesh_1d.py L66-70: the marker given to one cell; a list cannot be assigned to a marker. *)
Definition cell_marker (ms : mats) (x : A) : res Z :=
  let! i := find_subdomain_from_x_coordinate ms x in
  match i with
  | IdOne z => Ok z
  | IdMany _ => Err (TypeError "incompatible function arguments")
  end.
Fixpoint mark_cells (ms : mats) (xs : list A) : res (list Z) :=
  match xs with
  | [] => Ok []
  | x :: r => let! z := cell_marker ms x in let! zs := mark_cells ms r in Ok (z :: zs)
  end.

(** mesh_1d.py L53-72: define_volume_markers. *)
Definition define_volume_markers (m : mesh) (ms : mats) : res (list Z) :=
  mark_cells ms (map (midpoint m) (cells m)).

(** mesh_1d.py L74-83: define_measures, returning the volume and surface markers. *)
Definition define_measures (m : mesh) (ms : mats) : res (list Z * list Z) :=
  let no_border (mat : material (A:=A) P) := match m_borders mat with BNone => true | _ => false end in
  if (Nat.ltb 1 (List.length ms) && existsb no_border ms)%bool
  then Err (ValueError "borders attributes need to be set for multiple 1D domains")
  else
    match ms with
    | [] => Err (IndexError "list index out of range")
    | m0 :: _ =>
        let! _ := (if no_border m0 then Ok true else check_borders ms (size m)) in
        let! vol := define_volume_markers m ms in
        Ok (vol, define_surface_markers m)
    end.
End Mesh.
Arguments mkMesh {A} _ _ _ _.
Arguments vertices {A} _.
Arguments cells {A} _.
Arguments start {A} _.
Arguments size {A} _.
Arguments midpoint {A N} half m c.
Arguments cell_marker {A N P} ms x.
Arguments mark_cells {A N P} ms xs.
Arguments define_volume_markers {A N} half {P} m ms.
Arguments define_measures {A N} eps half {P} m ms.
Arguments surface_marker {A N} eps m x.
Arguments define_surface_markers {A N} eps m.
Arguments near {A N} eps x x0.
