(** The FEniCS objects that carry a time: which ones the hydrogen and heat problems contain, and which ones
    festim registers to be updated at every step.
    festim/helpers.py (update_expressions), festim/boundary_conditions/**, festim/concentration/mobile.py,
    festim/concentration/traps/*.py, festim/h_transport_problem.py, festim/temperature/temperature_solver.py.

    Objects are identified by numbers; [Expression(..., t=0)] makes a fresh one from a counter that the
    functions below thread through.  Only what matters for time is kept of a form: the values occurring in
    it.  Simplification: the form of a condition or source is kept even if its list of surfaces or volumes is
    empty. *)
From Coq Require Import ZArith List Bool String.
From Verif Require Import Base.Exc Base.Key.
Import ListNotations.

(** Values occurring in a form or boundary condition.
    - [Const]: floats, fenics.Constant and fenics.Function (their attribute t is never read);
    - [Expr n]: the fenics.Expression (or user's fenics.UserExpression) number n, evaluated with its t;
    - [Term l]: an UFL expression of the values l;
    - [BcExpr n l]: BoundaryConditionExpression number n, whose eval uses the parameters l
      (dirichlet_bc.py L129-163);
    - [BcTheta n v]: BoundaryConditionTheta number n, whose eval uses v (dirichlet_bc.py L86-126). *)
Inductive value : Type :=
| Const
| Expr (n : nat)
| Term (l : list value)
| BcExpr (n : nat) (prms : list value)
| BcTheta (n : nat) (bci : value).

(** isinstance(v, (Expression, UserExpression)) *)
Definition is_expression (v : value) : bool :=
  match v with Expr _ | BcExpr _ _ | BcTheta _ _ => true | Const | Term _ => false end.

(** The attribute t of each object. *)
Definition stamps (A : Type) : Type := nat -> A.

Definition set_t {A} (v : value) (t : A) (ts : stamps A) : stamps A :=
  match v with
  | Expr n | BcExpr n _ | BcTheta n _ => fun k => if Nat.eqb k n then t else ts k
  | Const | Term _ => ts
  end.

(** helpers.py L7-17: update_expressions. *)
Fixpoint update_expressions {A} (l : list value) (t : A) (ts : stamps A) : stamps A :=
  match l with
  | [] => ts
  | v :: r => update_expressions r t (set_t v t ts)
  end.

(** sub_expressions: a list, or for CustomDirichlet the view prms.values() (custom_dc.py L40). *)
Inductive container : Type :=
| PyList (l : list value)
| DictValues (l : list value).
Definition items (c : container) : list value := match c with PyList l | DictValues l => l end.

(** A result with the objects made so far. *)
Definition counter : Type := nat.

(** ** Fluxes *)

(** The classes of fluxes. [before]: their sub_expressions when create_form is called ([] for a new
    object, boundary_condition.py L21). *)
Inductive flux : Type :=
| PlainFlux                          (* FluxBC *)
| CustomFlux (prms : list value)     (* prms after convert_prms: Constant or Expression *)
| RecombinationFlux
| DissociationFlux
| MassFlux
| ConvectiveFlux
| SurfaceKinetics (prms : list value).

(** create_form of each class: flux_bc.py L23-32, flux_custom.py L31-33, recombination_flux.py L26-32,
    dissociation_flux.py L26-33, mass_flux.py L24-30, convective_flux.py L21-27, surface_kinetics.py L110-168.
    The functions given by the user are applied to T, the concentrations and the parameters. *)
Definition create_form (f : flux) (before : list value) (n : counter) : counter * value * list value :=
  match f with
  | PlainFlux => (n + 1, Expr n, before ++ [Expr n])
  | CustomFlux prms => (n, Term (Const :: Const :: prms), before ++ prms)
  | RecombinationFlux => (n + 2, Term [Expr n; Expr (n + 1); Const; Const], [Expr n; Expr (n + 1)])
  | DissociationFlux =>
      (n + 3, Term [Expr n; Expr (n + 1); Const; Expr (n + 2)], [Expr n; Expr (n + 1); Expr (n + 2)])
  | MassFlux => (n + 2, Term [Expr n; Const; Expr (n + 1)], [Expr n; Expr (n + 1)])
  | ConvectiveFlux => (n + 2, Term [Expr n; Const; Expr (n + 1)], [Expr n; Expr (n + 1)])
  | SurfaceKinetics prms => (n, Term (Const :: Const :: Const :: prms), before ++ prms)
  end%nat.

(** ** Dirichlet conditions *)
Inductive dirichlet : Type :=
| PlainDirichlet                     (* DirichletBC *)
| CustomDirichlet (prms : list value)
| ImplantationDirichlet (with_P : bool)
| SievertsBC
| HenrysBC.

(** create_expression of each class: dirichlet_bc.py L25-35, custom_dc.py L33-40, dc_imp.py L71-95,
    sieverts_bc.py L28-37, henrys_bc.py L28-37. Returns expression and sub_expressions. *)
Definition create_expression (d : dirichlet) (before : container) (n : counter)
  : counter * value * container :=
  match d with
  | PlainDirichlet => (n + 1, Expr n, before)
  | CustomDirichlet prms => (n + 1, BcExpr n prms, DictValues prms)
  | ImplantationDirichlet true =>
      (n + 4, BcExpr (n + 3) [Expr n; Expr (n + 1); Const; Expr (n + 2)],
       PyList [Expr n; Expr (n + 1); Expr (n + 2)])
  | ImplantationDirichlet false =>
      (n + 3, BcExpr (n + 2) [Expr n; Expr (n + 1); Const], PyList [Expr n; Expr (n + 1)])
  | SievertsBC => (n + 2, BcExpr (n + 1) [Const; Const; Expr n], PyList [Expr n])
  | HenrysBC => (n + 2, BcExpr (n + 1) [Const; Const; Expr n], PyList [Expr n])
  end%nat.

(** dirichlet_bc.py L35-52: normalise_by_solubility. *)
Definition normalise_by_solubility (e : value) (subs : container) (n : counter)
  : res (counter * value * container) :=
  match subs with
  | PyList l => Ok (S n, BcTheta n e, PyList (l ++ [e]))
  | DictValues _ => Err (AttributeError "'dict_values' object has no attribute 'append'")
  end.

(** ** Boundary conditions *)
Inductive condition : Type :=
| Flux (f : flux) (before : list value)
| Dirichlet (d : dirichlet) (before : container).
Record bc : Type := mkBc { bc_field : key; bc_cond : condition }.

(** dirichlet_bc.py L79-84: create_dirichletbc, without the construction of the FEniCS objects
    (see Model/Bcs.v). *)
Definition create_dirichletbc (chemical_pot : bool) (field : key) (d : dirichlet) (before : container)
  (n : counter) : res (counter * value * container) :=
  let '(n, e, subs) := create_expression d before n in
  if andb (existsb (key_eqb field) [KI 0; KS "0"; KS "solute"]) chemical_pot
  then normalise_by_solubility e subs n
  else Ok (n, e, subs).

(** ** Sources *)

(** source.py L24-33 and radioactive_decay.py L20-35: [src_value] is None for a RadioactiveDecay. *)
Record source : Type := mkSource { src_value : option value }.
(** the value used in the form: source.value, or -lambda * concentration. *)
Definition used (s : source) : value := match src_value s with None => Term [Const; Const] | Some v => v end.

(** mobile.py L179-204: create_source_form; the terms and the expressions. *)
Definition create_source_form (l : list source) : list value * list value :=
  (map (fun s => Term [used s; Const]) l, filter is_expression (map used l)).

(** ** Traps *)

(** [tr_list]: k_0, E_k, p_0, E_p are lists; [tr_mats]: the number of materials;
    [tr_extrinsic]: the parameters of an extrinsic trap (phi_0, n_amax, ... or phi, K, ...), which replace
    the density by a Function; [tr_before]: sub_expressions before create_form. *)
Record trap : Type := mkTrap {
  tr_density   : list value;
  tr_list      : bool;
  tr_mats      : nat;
  tr_sources   : list source;
  tr_extrinsic : option (list value);
  tr_before    : list value
}.

(** traps.py L65-71: initialise_extrinsic_traps sets density = [Function]. *)
Definition density (t : trap) : list value :=
  match tr_extrinsic t with Some _ => [Const] | None => tr_density t end.

(** density[i] if the coefficients are lists, else density[0]. *)
Definition density_at (t : trap) (i : nat) : res value :=
  match nth_error (density t) (if tr_list t then i else 0) with
  | Some v => Ok v
  | None => Err (IndexError "list index out of range")
  end.

(** enumerate(trap.materials) *)
Fixpoint densities (t : trap) (i k : nat) : res (list value) :=
  match k with
  | O => Ok []
  | S k => let! v := density_at t i in let! r := densities t (S i) k in Ok (v :: r)
  end.

(** mobile.py L149-178: the trapping terms of the mobile species; trap.py L131-197: those of the trap. *)
Definition trapping_values (t : trap) : res (list value) :=
  let! ds := densities t 0 (tr_mats t) in
  Ok (map (fun v => Term [v; Const; Const]) ds).

(** trap.py L102-122 and L199-211: create_form; the terms and sub_expressions. *)
Definition trap_create_form (t : trap) : res (list value * list value) :=
  let! ds := densities t 0 (tr_mats t) in
  let! F := trapping_values t in
  let (Fs, es) := create_source_form (tr_sources t) in
  Ok (F ++ Fs, tr_before t ++ ds ++ es).

(** Two passes over the traps: mobile.py L149-178 and traps.py L51-56. *)
Fixpoint mobile_trapping (l : list trap) : res (list value) :=
  match l with
  | [] => Ok []
  | t :: r => let! a := trapping_values t in let! b := mobile_trapping r in Ok (a ++ b)
  end.
Fixpoint traps_create_forms (l : list trap) : res (list value * list value) :=
  match l with
  | [] => Ok ([], [])
  | t :: r =>
      let! a := trap_create_form t in
      let! b := traps_create_forms r in
      Ok (fst a ++ fst b, snd a ++ snd b)
  end.

(** ** The hydrogen problem *)

(** mobile.py L206-238: create_fluxes_form over mobile.boundary_conditions, which are the FluxBC with
    field == 0 (h_transport_problem.py L296-302). *)
Fixpoint create_fluxes_form (l : list bc) (n : counter) : counter * list value * list value :=
  match l with
  | [] => (n, [], [])
  | b :: r =>
      match bc_cond b with
      | Flux f before =>
          if key_eqb (bc_field b) (KI 0) then
            let '(n, form, subs) := create_form f before n in
            let '(n, F, es) := create_fluxes_form r n in
            (n, form :: F, subs ++ es)
          else create_fluxes_form r n
      | Dirichlet _ _ => create_fluxes_form r n
      end
  end.

(** h_transport_problem.py L304-321: create_dirichlet_bcs; the values imposed and the expressions. *)
Fixpoint create_dirichlet_bcs (chemical_pot : bool) (l : list bc) (n : counter)
  : res (counter * list value * list value) :=
  match l with
  | [] => Ok (n, [], [])
  | b :: r =>
      match bc_cond b with
      | Dirichlet d before =>
          if key_eqb (bc_field b) (KS "T") then create_dirichlet_bcs chemical_pot r n
          else
            let! x := create_dirichletbc chemical_pot (bc_field b) d before n in
            let '(n, e, subs) := x in
            let! y := create_dirichlet_bcs chemical_pot r n in
            let '(n, vs, es) := y in
            Ok (n, e :: vs, items subs ++ [e] ++ es)
      | Flux _ _ => create_dirichlet_bcs chemical_pot r n
      end
  end.

(** traps.py L73-88: define_variational_problem_extrinsic_traps: the parameters in the forms of the
    densities. expressions_extrinsic stays empty. *)
Definition extrinsic_forms (l : list trap) : list value :=
  flat_map (fun t => match tr_extrinsic t with Some p => [Term (Const :: Const :: p)] | None => [] end) l.

(** What is solved (forms, imposed values), what the densities of the extrinsic traps are solved with,
    and HTransportProblem.expressions. *)
Record problem : Type := mkProblem {
  pb_forms       : list value;
  pb_imposed     : list value;
  pb_densities   : list value;
  pb_expressions : list value
}.

(** h_transport_problem.py L73-111 (initialise) and L249-279 (define_variational_problem). [before]:
    Traps.sub_expressions, which is never reset. *)
Definition initialise (chemical_pot : bool) (sources : list source) (bcs : list bc) (traps : list trap)
  (before : list value) (n : counter) : res problem :=
  let! mt := mobile_trapping traps in
  let (Fs, es) := create_source_form sources in
  let '(n, Ff, ef) := create_fluxes_form bcs n in
  let! tr := traps_create_forms traps in
  let! d := create_dirichlet_bcs chemical_pot bcs n in
  let '(n, vs, ed) := d in
  Ok (mkProblem (mt ++ Fs ++ Ff ++ fst tr) vs (extrinsic_forms traps)
        ((es ++ ef) ++ (before ++ snd tr) ++ ed)).

(** ** The heat problem *)

(** temperature_solver.py L204-227 (sources and fluxes of the form) and L239-253 (create_dirichlet_bcs);
    the values used and sub_expressions. [before]: sub_expressions, which is never reset. *)
Fixpoint heat_fluxes (l : list bc) (n : counter) : counter * list value * list value :=
  match l with
  | [] => (n, [], [])
  | b :: r =>
      match bc_cond b with
      | Flux f before =>
          let '(n, form, subs) := create_form f before n in
          let '(n, F, es) := heat_fluxes r n in
          (n, form :: F, subs ++ es)
      | Dirichlet _ _ => heat_fluxes r n
      end
  end.
Fixpoint heat_dirichlet (l : list bc) (n : counter) : counter * list value * list value :=
  match l with
  | [] => (n, [], [])
  | b :: r =>
      match bc_cond b with
      | Dirichlet d before =>
          if key_eqb (bc_field b) (KS "T") then
            let '(n, e, subs) := create_expression d before n in
            let '(n, vs, es) := heat_dirichlet r n in
            (n, e :: vs, items subs ++ [e] ++ es)
          else heat_dirichlet r n
      | Flux _ _ => heat_dirichlet r n
      end
  end.
Definition heat_problem (sources : list source) (bcs : list bc) (before : list value) (n : counter) : problem :=
  let vs := map used sources in
  let '(n, Ff, ef) := heat_fluxes bcs n in
  let '(n, ds, ed) := heat_dirichlet bcs n in
  mkProblem (map (fun v => Term [v; Const]) vs ++ Ff) ds [] (before ++ vs ++ ef ++ ed).

(** temperature_solver.py L255-275: HeatTransferProblem.update, as far as the times carried by its expressions
    are concerned: nothing happens when the problem is stationary. *)
Definition heat_update {A} (transient : bool) (pb : problem) (t : A) (ts : stamps A) : stamps A :=
  if transient then update_expressions (pb_expressions pb) t ts else ts.
