(** The same problem described otherwise (C72): other ids, another order, one condition per id. *)
From Coq Require Import Reals ZArith List Permutation.
From Verif Require Import Base.Exc Base.Dual Model.Materials Model.Exports Model.Laws Model.Theta Model.Forms Model.Quantities.
Import ListNotations.
Local Open Scope R_scope.

Definition injective (f : Z -> Z) : Prop := forall x y, f x = f y -> x = y.

(** Both raise, or both forms have the same value. *)
Definition agree {P} (M M' : mesh P) (F F' : res (form P)) : Prop :=
  match F, F' with
  | Ok F, Ok F' => assemble M' F' = assemble M F
  | Err _, Err _ => True
  | _, _ => False
  end.

(** * Other ids *)
Section Names.
Context {P : Type}.
Variables vol surf : Z -> Z.

Definition ren_id (i : mat_id) : mat_id := match i with IdOne z => IdOne (vol z) | IdMany l => IdMany (map vol l) end.
Definition with_id (m : mat) (i : mat_id) : mat :=
  mkMaterial i (m_name m) (m_D0 m) (m_ED m) (m_S0 m) (m_ES m) (m_thermal m) (m_heat m) (m_rho m) (m_borders m) (m_Q m) (m_law m).
Definition ren_mat (m : mat) : mat := with_id m (ren_id (m_id m)).
Definition ren_obj (m : mat_obj) : mat_obj := mkMatObj (uid m) (ren_mat (attrs m)).
Definition ren_source (s : source P) : source P := mkSource (ren_id (s_volume s)) (s_value s) (s_decay s).
Definition ren_trap (t : trap P) : trap P :=
  mkTrap (t_k0 t) (t_Ek t) (t_p0 t) (t_Ep t) (t_density t) (map ren_obj (t_materials t)) (t_solution t) (t_previous t) (t_test t)
    (map ren_source (t_sources t)).
Definition ren_adsorbed (a : adsorbed P) : adsorbed P := mkAds (surf (a_surface a)) (a_solution a) (a_previous a) (a_test a).
Definition ren_sk (s : surface_kinetics P) : surface_kinetics P :=
  mkSK (sk_k_sb s) (sk_k_bs s) (sk_J_vs s) (sk_lambda_IS s) (sk_n_surf s) (sk_n_IS s) (map ren_adsorbed (sk_adsorbed s)).
Definition ren_bc (b : bc P) : bc P :=
  match b with BFlux T l f => BFlux T (map surf l) f | BSurf s => BSurf (ren_sk s) end.
Definition ren_class (c : mobile_class P) : mobile_class P :=
  match c with ClassMobile => ClassMobile | ClassTheta S_ ms => ClassTheta S_ (map ren_mat ms) end.
Definition ren_mobile (mb : mobile P) : mobile P :=
  mkMobile (ren_class (mb_class mb)) (mb_solution mb) (mb_previous mb) (mb_test mb) (map ren_source (mb_sources mb)) (map ren_bc (mb_bcs mb)).
Definition ren_mesh (M : mesh P) : mesh P :=
  mkMesh (q_cells M) (q_facets M) (q_weight M) (fun p => vol (q_volume M p)) (fun p => surf (q_surface M p)) (q_x0 M) (q_dim M) (q_type M).
Definition ren_space (V : fespace) : fespace :=
  mkFe (map vol (fe_cell_markers V)) (map surf (fe_facet_markers V)) (fe_cell_dofs V) (fe_vector V).
Definition ren_quantity (q : dquantity P) : dquantity P :=
  mkDq (d_kind q) (d_field q) (if is_volume (d_kind q) then vol (d_id q) else surf (d_id q)) (d_azimuth q) (d_polar q) (d_show q) (d_point q).
End Names.

(** * Another order *)
Section Order.
Context {P : Type}.

(** Element by element after a permutation. *)
Definition reordered {A} (rel : A -> A -> Prop) (l l' : list A) : Prop := exists k, Permutation l k /\ Forall2 rel k l'.

(** Per material parameters of a trap and the material. *)
Record row : Type := mkRow { r_k : R; r_Ek : R; r_p : R; r_Ep : R; r_n : P -> R; r_m : mat_obj }.
Definition trap_of (rows : list row) (u un v : field P) (ss : list (source P)) : trap P :=
  mkTrap (PerMat (map r_k rows)) (PerMat (map r_Ek rows)) (PerMat (map r_p rows)) (PerMat (map r_Ep rows))
    (map r_n rows) (map r_m rows) u un v ss.
(** The same parameters everywhere, or one row per material. *)
Inductive trap_reordered : trap P -> trap P -> Prop :=
| common k Ek p Ep n ms ms' u un v ss ss' : Permutation ms ms' -> Permutation ss ss' ->
    trap_reordered (mkTrap (Scalar k) Ek p Ep n ms u un v ss) (mkTrap (Scalar k) Ek p Ep n ms' u un v ss')
| per_row rows rows' u un v ss ss' : Permutation rows rows' -> Permutation ss ss' ->
    trap_reordered (trap_of rows u un v ss) (trap_of rows' u un v ss').
Inductive bc_reordered : bc P -> bc P -> Prop :=
| flux_surfaces T l l' f : Permutation l l' -> bc_reordered (BFlux T l f) (BFlux T l' f)
| kinetics_surfaces k1 k2 J la ns ni l l' : Permutation l l' ->
    bc_reordered (BSurf (mkSK k1 k2 J la ns ni l)) (BSurf (mkSK k1 k2 J la ns ni l')).
Definition class_reordered (c c' : mobile_class P) : Prop :=
  match c, c' with
  | ClassMobile, ClassMobile => True
  | ClassTheta S_ ms, ClassTheta S' ms' => S' = S_ /\ Permutation ms ms'
  | _, _ => False
  end.
Definition mobile_reordered (mb mb' : mobile P) : Prop :=
  class_reordered (mb_class mb) (mb_class mb') /\ mb_solution mb' = mb_solution mb /\ mb_previous mb' = mb_previous mb /\
  mb_test mb' = mb_test mb /\ Permutation (mb_sources mb) (mb_sources mb') /\ reordered bc_reordered (mb_bcs mb) (mb_bcs mb').
End Order.
Arguments row : clear implicits.

(** * One source, condition or material per id *)
Section Split.
Context {P : Type}.
Definition split_source (s : source P) : list (source P) := map (fun z => mkSource (IdOne z) (s_value s) (s_decay s)) (ids (s_volume s)).
Definition split_bc (b : bc P) : list (bc P) :=
  match b with
  | BFlux T l f => map (fun z => BFlux T [z] f) l
  | BSurf s => map (fun a => BSurf (mkSK (sk_k_sb s) (sk_k_bs s) (sk_J_vs s) (sk_lambda_IS s) (sk_n_surf s) (sk_n_IS s) [a])) (sk_adsorbed s)
  end.
Definition split_mat (m : mat) : list mat := map (fun z => with_id m (IdOne z)) (ids (m_id m)).
Definition split_obj (m : mat_obj) : list mat_obj := map (mkMatObj (uid m)) (split_mat (attrs m)).
Definition split_class (c : mobile_class P) : mobile_class P :=
  match c with ClassMobile => ClassMobile | ClassTheta S_ ms => ClassTheta S_ (flat_map split_mat ms) end.
Definition split_mobile (mb : mobile P) : mobile P :=
  mkMobile (split_class (mb_class mb)) (mb_solution mb) (mb_previous mb) (mb_test mb)
    (flat_map split_source (mb_sources mb)) (flat_map split_bc (mb_bcs mb)).
Definition split_heat_bc (b : list Z * flux P) : list (list Z * flux P) := map (fun z => ([z], snd b)) (fst b).
End Split.
