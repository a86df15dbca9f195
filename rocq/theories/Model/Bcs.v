(** Model of the treatment of boundary conditions:
    generic_simulation.py check_boundary_conditions L239-294, check_mesh_dim_coords L296-306,
    attribute_boundary_conditions L308-318;
    h_transport_problem.py attribute_flux_boundary_conditions L296-302, create_dirichlet_bcs L304-321;
    boundary_conditions/dirichlets/dirichlet_bc.py create_dirichletbc L54-92;
    concentration/mobile.py create_fluxes_form L206-238;
    temperature/temperature_solver.py L215-224 and L236-253. *)
From Coq Require Import ZArith List Bool String.
From Verif Require Import Base.Exc Base.Key.
Import ListNotations.
Local Open Scope string_scope.

(** Classes of boundary conditions: DirichletBC and its subclasses, SurfaceKinetics (a FluxBC), the other
    FluxBCs, and direct instances of the base class. *)
Inductive bc_kind : Type := Dirichlet | SurfKin | Flux | OtherBC.
Definition is_flux (k : bc_kind) : bool := match k with SurfKin | Flux => true | _ => false end.
Definition is_dirichlet (k : bc_kind) : bool := match k with Dirichlet => true | _ => false end.
Definition is_surfkin (k : bc_kind) : bool := match k with SurfKin => true | _ => false end.

(** A boundary condition.  [bc_uid] is the identity of the object, which is what == compares. *)
Record bc : Type := mkBc {
  bc_uid      : nat;
  bc_kind_of  : bc_kind;
  bc_field    : key;
  bc_surfaces : list Z
}.
(** boundary_condition.py L11-21: the constructor. *)
Definition mk_bc (uid : nat) (kind : bc_kind) (field : key) (surfaces : list Z) : bc :=
  mkBc uid kind (if key_eqb field (KS "solute") then KI 0 else field) surfaces.

(** generic_simulation.py L242-246, for n traps. *)
Definition valid_fields (n : nat) : list key :=
  ([KS "T"; KI 0; KS "0"] ++ map (fun i => KS (str (Z.of_nat i + 1))) (seq 0 n)
                          ++ map (fun i => KI (Z.of_nat i + 1)) (seq 0 n))%list.
Definition is_valid_field (n : nat) (k : key) : bool := existsb (key_eqb k) (valid_fields n).

(** not set(a).isdisjoint(b) *)
Definition share (a b : list Z) : bool := existsb (fun x => existsb (Z.eqb x) b) a.

(** L249-253 *)
Definition dc_sk (b : bc) : bool := (is_dirichlet (bc_kind_of b) || is_surfkin (bc_kind_of b))%bool.
Definition bc_type (b : bc) : string := if is_dirichlet (bc_kind_of b) then "DirichletBC" else "SurfaceKinetics".

(** L276-294: the inner loop. *)
Fixpoint check_conflicts (b : bc) (l : list bc) : res unit :=
  match l with
  | [] => Ok tt
  | d :: r =>
      if (Nat.eqb (bc_uid b) (bc_uid d) || negb (key_eqb (bc_field b) (bc_field d)))%bool
      then check_conflicts b r
      else if share (bc_surfaces b) (bc_surfaces d)
           then Err (ValueError (bc_type d ++ " is simultaneously set with another boundary condition"))
           else check_conflicts b r
  end.

(** L255-294: one boundary condition; [dim] is the dimension of the mesh. *)
Definition check_one (n : nat) (heat : bool) (dim : nat) (dcs : list bc) (b : bc) : res unit :=
  if negb (is_valid_field n (bc_field b)) then Err (ValueError "not a valid field for BC")
  else if (is_surfkin (bc_kind_of b) && negb (Nat.eqb dim 1))%bool
       then Err (ValueError "SurfaceKinetics can only be used in 1D simulations")
  else if (key_eqb (bc_field b) (KS "T") && negb heat)%bool
       then Err (TypeError "Heat transfer boundary conditions can only be used with HeatTransferProblem")
  else check_conflicts b dcs.
Fixpoint check_loop (n : nat) (heat : bool) (dim : nat) (dcs l : list bc) : res unit :=
  match l with
  | [] => Ok tt
  | b :: r => let! _ := check_one n heat dim dcs b in check_loop n heat dim dcs r
  end.
Definition check_boundary_conditions (n : nat) (heat : bool) (dim : nat) (l : list bc) : res unit :=
  check_loop n heat dim (filter dc_sk l) l.

(** L296-306 *)
Inductive coords : Type := Cartesian | Cylindrical | Spherical.
Definition check_mesh_dim_coords (c : coords) (dim : nat) : res unit :=
  match c with
  | Spherical => if Nat.eqb dim 1 then Ok tt
                 else Err (AttributeError "spherical coordinates can be used for one-dimensional domains only")
  | Cylindrical => if Nat.ltb 2 dim then Err (AttributeError "cylindrical coordinates cannot be used for 3D domains")
                   else Ok tt
  | Cartesian => Ok tt
  end.

(** L308-318: the boundary conditions of T and of the hydrogen transport problem. *)
Definition attribute_boundary_conditions (n : nat) (heat : bool) (dim : nat) (l : list bc)
  : res (list bc * list bc) :=
  let! _ := check_boundary_conditions n heat dim l in
  Ok (filter (fun b => key_eqb (bc_field b) (KS "T")) l,
      filter (fun b => negb (key_eqb (bc_field b) (KS "T"))) l).

(** Where a condition ends up. *)
Inductive target : Type :=
| OnTemperature          (* the heat equation *)
| OnComponent (k : nat)  (* component k of the hydrogen problem, 0 being the mobile species *).
Inductive term : Type :=
| FluxTerm (b : bc) (where_ : target) (surface : Z)
| Constraint (b : bc) (where_ : target) (surface : Z).

(** h_transport_problem.py L296-302 *)
Definition mobile_fluxes (h : list bc) : list bc :=
  filter (fun b => is_flux (bc_kind_of b) && key_eqb (bc_field b) (KI 0))%bool h.
(** mobile.py L206-238: the fluxes added to the equation of the mobile species, per surface
    (for SurfaceKinetics see surface_kinetics.py L168). *)
Definition flux_terms (fluxes : list bc) : list term :=
  flat_map (fun b => if (negb (key_eqb (bc_field b) (KS "T")) && is_flux (bc_kind_of b))%bool
                     then map (FluxTerm b (OnComponent 0)) (bc_surfaces b) else []) fluxes.

(** dirichlet_bc.py L83-92: the constraints of one condition; [subspaces] is V.num_sub_spaces().
    V.sub raises for a string and for an index out of range. *)
Definition create_dirichletbc (subspaces : nat) (b : bc) : res (list term) :=
  let! k := (if Nat.eqb subspaces 0 then Ok 0%nat
             else match bc_field b with
                  | KI z => if ((0 <=? z) && (z <? Z.of_nat subspaces))%Z%bool then Ok (Z.to_nat z)
                            else Err (RuntimeError "cannot extract subspace")
                  | KS _ => Err (TypeError "incompatible function arguments")
                  end) in
  Ok (map (Constraint b (OnComponent k)) (bc_surfaces b)).
(** h_transport_problem.py L304-321 *)
Fixpoint create_dirichlet_bcs (subspaces : nat) (h : list bc) : res (list term) :=
  match h with
  | [] => Ok []
  | b :: r =>
      if (negb (key_eqb (bc_field b) (KS "T")) && is_dirichlet (bc_kind_of b))%bool then
        let! c := create_dirichletbc subspaces b in
        let! rest := create_dirichlet_bcs subspaces r in
        Ok (c ++ rest)%list
      else create_dirichlet_bcs subspaces r
  end.

(** temperature_solver.py L215-224 and L236-253 *)
Definition heat_terms (t : list bc) : list term :=
  (flat_map (fun b => if is_flux (bc_kind_of b) then map (FluxTerm b OnTemperature) (bc_surfaces b) else []) t ++
   flat_map (fun b => if (is_dirichlet (bc_kind_of b) && key_eqb (bc_field b) (KS "T"))%bool
                      then map (Constraint b OnTemperature) (bc_surfaces b) else []) t)%list.

(** h_transport_problem.py L123-133: the number of subspaces, for n traps. *)
Definition nb_adsorbed (h : list bc) : nat :=
  list_sum (map (fun b => List.length (bc_surfaces b)) (filter (fun b => is_surfkin (bc_kind_of b)) h)).
Definition num_sub_spaces (n : nat) (h : list bc) : nat :=
  if (Nat.eqb n 0 && Nat.eqb (nb_adsorbed h) 0)%bool then 0 else (1 + n + nb_adsorbed h)%nat.

(** Everything the boundary conditions of a simulation contribute. *)
Definition apply_boundary_conditions (n : nat) (heat : bool) (dim : nat) (l : list bc) : res (list term) :=
  let! th := attribute_boundary_conditions n heat dim l in
  let (t, h) := th in
  let! c := create_dirichlet_bcs (num_sub_spaces n h) h in
  Ok (heat_terms t ++ flux_terms (mobile_fluxes h) ++ c)%list.
