(** Model of the ids of the traps, of the layout of the solution and of the field names:
    concentration/traps/traps.py L47-64, h_transport_problem.py L113-247 and L375-393,
    generic_simulation.py L549-583. *)
From Coq Require Import ZArith List Bool String.
From Verif Require Import Base.Exc Base.Key Model.Sources.
Import ListNotations.
Local Open Scope string_scope.

(** * Ids of the traps *)

(** traps.py L47-50: the ids, in the order of the list; None: not given. *)
Fixpoint assign_from (i : Z) (ids : list (option Z)) : list Z :=
  match ids with
  | [] => []
  | Some z :: r => z :: assign_from (i + 1) r
  | None :: r => i :: assign_from (i + 1) r
  end.
Definition assign_traps_ids (ids : list (option Z)) : list Z := assign_from 1 ids.

(** traps.py L59-63: the position (from 1) of the trap returned by get_trap. *)
Fixpoint get_from (i : nat) (ids : list Z) (id : Z) : res nat :=
  match ids with
  | [] => Err (ValueError "Couldn't find trap")
  | z :: r => if Z.eqb z id then Ok i else get_from (S i) r id
  end.
Definition get_trap (ids : list Z) (id : Z) : res nat := get_from 1 ids id.

(** * Layout of the solution *)

(** The unknowns: the mobile species, the i-th trap (from 1), and the adsorbed species of the i-th surface
    (from 0) of the j-th SurfaceKinetics (from 0). *)
Inductive slot : Type :=
| SlotMobile
| SlotTrap (i : nat)
| SlotAdsorbed (j i : nat).

(** h_transport_problem.py L123-134: the element of each component; None: V is not a mixed space.
    [sks]: the number of surfaces of each SurfaceKinetics. *)
Inductive element : Type := Solute | TrapElement | RealElement.
Definition mixed_elements (n : nat) (sks : list nat) : option (list element) :=
  let nb_adsorbed := list_sum sks in
  if (Nat.eqb n 0 && Nat.eqb nb_adsorbed 0)%bool then None
  else Some ([Solute] ++ repeat TrapElement n ++ repeat RealElement nb_adsorbed)%list.
Definition subspaces (n : nat) (sks : list nat) : nat :=
  match mixed_elements n sks with None => 0 | Some l => List.length l end.

(** L165-177 and L233-247: conc_list, and the components given by the loops (the same loop twice). *)
Inductive concentration : Type :=
| CMobile
| CTrap (i : nat)
| CSurfKin (j surfaces : nat).
Definition conc_list (n : nat) (sks : list nat) : list concentration :=
  ([CMobile] ++ map CTrap (seq 1 n) ++ map (fun p => CSurfKin (fst p) (snd p)) (combine (seq 0 (List.length sks)) sks))%list.
(** for i in range(m) with index += 1 *)
Definition surface_loop (j m index : nat) : list (slot * nat) :=
  map (fun i => (SlotAdsorbed j i, index + i)%nat) (seq 0 m).
Fixpoint index_loop (index : nat) (l : list concentration) : list (slot * nat) :=
  match l with
  | [] => []
  | CSurfKin j m :: r => (surface_loop j m index ++ index_loop (index + m) r)%list
  | CMobile :: r => (SlotMobile, index) :: index_loop (S index) r
  | CTrap i :: r => (SlotTrap i, index) :: index_loop (S index) r
  end.
Definition solve_layout (n : nat) (sks : list nat) : list (slot * nat) := index_loop 0 (conc_list n sks).

(** The loops over the SurfaceKinetics starting with index = len(self.traps) + 1: L212-219 (initial
    values) and L383-388 (post-processing). *)
Fixpoint sk_loop (j index : nat) (sks : list nat) : list (slot * nat) :=
  match sks with
  | [] => []
  | m :: r => (surface_loop j m index ++ sk_loop (S j) (index + m) r)%list
  end.
(** L375-393: res[...] read for each unknown; with the chemical potential the mobile concentration is
    computed from component 0 (mobile.solution) instead. *)
Definition post_layout (n : nat) (sks : list nat) : list (slot * nat) :=
  (map (fun i => (SlotTrap i, i)) (seq 1 n) ++ sk_loop 0 (n + 1) sks ++ [(SlotMobile, 0%nat)])%list.
(** L212-219: the adsorbed species are initialised in subspace index. *)
Definition init_adsorbed_layout (n : nat) (sks : list nat) : list (slot * nat) := sk_loop 0 (n + 1) sks.

(** * Field names *)

(** h_transport_problem.py L184-191 *)
Fixpoint component_entries (i : nat) (ids : list Z) (d : dict nat) : dict nat :=
  match ids with
  | [] => d
  | z :: r => component_entries (S i) r (dict_set (dict_set d (KI z) i) (KS (str z)) i)
  end.
Definition field_to_component (ids : list Z) : dict nat :=
  component_entries 1 ids [(KS "solute", 0%nat); (KS "0", 0%nat); (KI 0, 0%nat)].
(** L193-210: the species that receives the initial condition. *)
Definition initialised (ids : list Z) (field : key) : res species :=
  match dict_get (field_to_component ids) field with
  | None => Err (KeyError "field")
  | Some 0%nat => Ok Mobile
  | Some component => let! i := get_trap ids (Z.of_nat component) in Ok (Trap i)
  end.
(** L193-210: the loop over the initial conditions; the state holds the value of each previous solution
    (None: zero). *)
Section Initial.
Context {V : Type}.
Definition state := species -> option V.
Definition set_initial (s : state) (sp : species) (v : V) : state :=
  fun x => if species_dec x sp then Some v else s x.
Fixpoint initial_loop (ids : list Z) (s : state) (inis : list (key * V)) : res state :=
  match inis with
  | [] => Ok s
  | (field, v) :: r => let! sp := initialised ids field in initial_loop ids (set_initial s sp v) r
  end.
Definition initialise_concentrations (ids : list Z) (inis : list (key * V)) : res state :=
  initial_loop ids (fun _ => None) inis.
End Initial.

(** generic_simulation.py L549-583: label_to_function, without the entries T and adsorbed; [mobile] and
    [trap i] are the post-processing solutions, [add] the sum of functions and [zero] the start of sum. *)
Section Labels.
Context {F : Type} (zero : F) (add : F -> F -> F) (mobile : F) (trap : nat -> F).
Fixpoint label_entries (i : nat) (ids : list Z) (d : dict F) : dict F :=
  match ids with
  | [] => d
  | z :: r => label_entries (S i) r (dict_set (dict_set d (KI z) (trap i)) (KS (str z)) (trap i))
  end.
Definition label_to_function (ids : list Z) : dict F :=
  label_entries 1 ids
    [(KS "solute", mobile); (KS "0", mobile); (KI 0, mobile);
     (KS "retention", fold_left add (mobile :: map trap (seq 1 (List.length ids))) zero)].
End Labels.
(** L570-580: the entry "adsorbed": the post-processing solutions and the surfaces of each SurfaceKinetics. *)
Definition label_adsorbed {F : Type} (read : slot -> F) (surfaces : list (list Z)) : list (list F * list Z) :=
  map (fun p => (map (fun i => read (SlotAdsorbed (fst p) i)) (seq 0 (List.length (snd p))), snd p))
      (combine (seq 0 (List.length surfaces)) surfaces).
