(** Model of festim/exports: Exports.write, XDMFExport, DerivedQuantities and TXTExport (when and
    what is computed and written), and of Simulation.run_post_processing.

    Finite element functions are an abstract type; what a quantity computes from a function, the
    projection of an expression and the sampling of a function on the mesh vertices are oracles.
    A write to disk is a value of type [written], returned in order. *)
From Coq Require Import ZArith List Bool String.
From Verif Require Import Base.Exc Base.Num Model.Paths.
Import ListNotations.
Local Open Scope string_scope.

(** The field of an export: a str or an int. *)
Inductive label : Type :=
| LStr (s : string)
| LInt (z : Z).

(** Python's == on labels (a str and an int are never equal). *)
Definition label_eqb (a b : label) : bool :=
  match a, b with
  | LStr x, LStr y => String.eqb x y
  | LInt x, LInt y => Z.eqb x y
  | _, _ => false
  end.

(** The classes of festim/exports/derived_quantities (AverageSurfaceSpherical is an alias of
    AverageSurface, average_surface.py L109). *)
Inductive qkind : Type :=
| SurfaceFlux | SurfaceFluxCylindrical | SurfaceFluxSpherical | HydrogenFlux | ThermalFlux
| AverageVolume | AverageVolumeCylindrical | AverageVolumeSpherical
| AverageSurface | AverageSurfaceCylindrical
| TotalVolume | TotalVolumeCylindrical | TotalVolumeSpherical
| TotalSurface | TotalSurfaceCylindrical | TotalSurfaceSpherical
| MaximumVolume | MinimumVolume | MaximumSurface | MinimumSurface
| PointValue | AdsorbedHydrogen.

Section Exports.
Context {A : Type} {N : Num A}.
(** [F]: what label_to_function maps fields to (fenics.Function or UFL expressions);
    [V]: values of derived quantities; [C]: columns of numbers. *)
Variables F V C : Type.

(** Values of label_to_function: a function, or under "adsorbed" the post-processing solutions and
    surfaces of each SurfaceKinetics. generic_simulation.py L559-578 *)
Inductive fval : Type :=
| FFun (f : F)
| FAds (l : list (list F * list Z)).

Definition dict := list (label * fval).

(** dict lookup and item assignment. *)
Fixpoint lookup (d : dict) (k : label) : option fval :=
  match d with
  | [] => None
  | (k', v) :: r => if label_eqb k' k then Some v else lookup r k
  end.
Fixpoint set_item (d : dict) (k : label) (v : fval) : dict :=
  match d with
  | [] => [(k, v)]
  | (k', v') :: r => if label_eqb k' k then (k', v) :: r else (k', v') :: set_item r k v
  end.
Definition getitem (d : dict) (k : label) : res fval :=
  match lookup d k with Some v => Ok v | None => Err (KeyError "") end.

(** isinstance(x, fenics.Function) *)
Variable is_function : F -> bool.
(** fenics.project(x, V_DG1) *)
Variable project : F -> F.

Definition is_function_val (v : fval) : bool :=
  match v with FFun f => is_function f | FAds _ => false end.

(** The repeated pattern "if not isinstance(label_to_function[k], f.Function):
    label_to_function[k] = f.project(label_to_function[k], self.V_DG1)".
    exports.py L63-68, L87-90, L99-102 *)
Definition project_item (d : dict) (k : label) : res dict :=
  let! v := getitem d k in
  if is_function_val v then Ok d
  else match v with
       | FFun f => Ok (set_item d k (FFun (project f)))
       | FAds _ => Err (TypeError "cannot project a list")
       end.

(** * Derived quantities *)

(** A DerivedQuantity object. [q_assemble]: what its integrals evaluate to for a function.
    [q_title units]: its title. *)
Record quantity : Type := mkQuantity {
  q_kind     : qkind;
  q_field    : label;
  q_surface  : option Z;          (* None: no attribute surface *)
  q_volume   : option Z;          (* None: no attribute volume *)
  q_title    : bool -> string;
  q_assemble : fval -> V;
  q_function : option fval;
  q_r        : bool;              (* the attribute r has been set *)
  q_t        : list A;
  q_data     : list V
}.

(** Python objects are references: the quantities of a simulation live in a store. *)
Definition store := nat -> quantity.
Definition upd (s : store) (i : nat) (q : quantity) : store :=
  fun j => if Nat.eqb j i then q else s j.

Definition set_function (q : quantity) (f : option fval) : quantity :=
  mkQuantity (q_kind q) (q_field q) (q_surface q) (q_volume q) (q_title q) (q_assemble q)
    f (q_r q) (q_t q) (q_data q).
Definition set_r (q : quantity) : quantity :=
  mkQuantity (q_kind q) (q_field q) (q_surface q) (q_volume q) (q_title q) (q_assemble q)
    (q_function q) true (q_t q) (q_data q).
Definition record_value (q : quantity) (t : A) (v : V) : quantity :=
  mkQuantity (q_kind q) (q_field q) (q_surface q) (q_volume q) (q_title q) (q_assemble q)
    (q_function q) (q_r q) (q_t q ++ [t]) (q_data q ++ [v]).
Definition reset_quantity (q : quantity) : quantity :=
  mkQuantity (q_kind q) (q_field q) (q_surface q) (q_volume q) (q_title q) (q_assemble q)
    (q_function q) (q_r q) [] [].

(** isinstance(quantity, (MaximumVolume, MinimumVolume)) *)
Definition is_extremum_volume (k : qkind) : bool :=
  match k with MaximumVolume | MinimumVolume => true | _ => false end.

(** Classes whose compute() first asks self.function.function_space() for the mesh when self.r is
    None: average_volume.py L90-95, L132-137, average_surface.py L91-96, surface_flux.py L155-160,
    L261-266, total_volume.py L126-131, L208-213, total_surface.py L127-132, L211-216. *)
Definition uses_r (k : qkind) : bool :=
  match k with
  | AverageVolumeCylindrical | AverageVolumeSpherical | AverageSurfaceCylindrical
  | SurfaceFluxCylindrical | SurfaceFluxSpherical
  | TotalVolumeCylindrical | TotalVolumeSpherical
  | TotalSurfaceCylindrical | TotalSurfaceSpherical => true
  | _ => false
  end.

(** Classes that look up self.prop (surface_flux.py L66-74). *)
Definition is_flux (k : qkind) : bool :=
  match k with
  | SurfaceFlux | SurfaceFluxCylindrical | SurfaceFluxSpherical | HydrogenFlux | ThermalFlux => true
  | _ => false
  end.

(** surface_flux.py L66-74: prop, a KeyError for other fields. *)
Definition has_prop (k : label) : bool :=
  (label_eqb k (LStr "0") || label_eqb k (LStr "solute") || label_eqb k (LInt 0)
   || label_eqb k (LStr "T"))%bool.

(** The compute methods of the classes, as called by DerivedQuantities.compute
    (derived_quantities.py L130-133): with the volume markers for MaximumVolume/MinimumVolume,
    without argument otherwise.  MaximumSurface.compute and MinimumSurface.compute
    (maximum_surface.py L46, minimum_surface.py L46) require an argument. Returns the quantity (with
    r set) and its value. *)
Definition compute_quantity (q : quantity) : res (quantity * V) :=
  match q_kind q with
  | MaximumSurface | MinimumSurface =>
      Err (TypeError "compute() missing 1 required positional argument: 'surface_markers'")
  | k =>
      match q_function q with
      | None => Err (TypeError "unsupported operand: NoneType")
      | Some f =>
          if (is_extremum_volume k && negb (is_function_val f))%bool
          then Err (AttributeError "function_space")
          else if (uses_r k && negb (q_r q) && negb (is_function_val f))%bool
          then Err (AttributeError "function_space")
          else if (is_flux k && negb (has_prop (q_field q)))%bool
          then Err (KeyError "")
          else Ok (if uses_r k then set_r q else q, q_assemble q f)
      end
  end.

(** A row of DerivedQuantities.data *)
Inductive row : Type :=
| Header (titles : list string)
| Row (t : A) (values : list V).

(** A DerivedQuantities object. derived_quantities.py L41-69 *)
Record derived : Type := mkDerived {
  dq_list     : list nat;         (* the quantities, as references *)
  dq_filename : option string;
  dq_compute  : Z;                (* nb_iterations_between_compute *)
  dq_exports  : option Z;         (* nb_iterations_between_exports *)
  dq_units    : bool;             (* show_units *)
  dq_data     : list row;
  dq_t        : list A
}.
Definition set_data (d : derived) (data : list row) (t : list A) : derived :=
  mkDerived (dq_list d) (dq_filename d) (dq_compute d) (dq_exports d) (dq_units d) data t.

(** derived_quantities.py L100-105: make_header.  Simplification: show_units is passed to the title
    instead of being stored in the quantity. *)
Definition make_header (s : store) (d : derived) : row :=
  Header ("t(s)" :: map (fun i => q_title (s i) (dq_units d)) (dq_list d)).

(** derived_quantities.py L129-141: the loop of compute.  Returns the store, self.data and the
    row being filled. *)
Fixpoint compute_loop (s : store) (d : derived) (t : A) (data : list row) (vals : list V)
  (qs : list nat) : res (store * list row * list V) :=
  match qs with
  | [] => Ok (s, data, vals)
  | i :: r =>
      let! (q, v) := compute_quantity (s i) in
      let s1 := upd s i q in
      let data1 := match data with [] => [make_header s1 d] | _ => data end in
      compute_loop (upd s1 i (record_value q t v)) d t data1 (vals ++ [v]) r
  end.

(** derived_quantities.py L127-143: compute. *)
Definition dq_run_compute (s : store) (d : derived) (t : A) : res (store * derived) :=
  let! (sd, vals) := compute_loop s d t (dq_data d) [] (dq_list d) in
  let (s', data) := sd in
  Ok (s', set_data d (data ++ [Row t vals]) (dq_t d ++ [t])).

(** nb % n == 0 *)
Definition every (nb n : Z) : res bool :=
  if (n =? 0)%Z then Err ZeroDivisionError else Ok ((nb mod n =? 0)%Z).

(** derived_quantities.py L157-180: is_export. *)
Definition dq_is_export (d : derived) (t : A) (final : option A) (nb : Z) : res bool :=
  match final with
  | Some ft =>
      match dq_exports d with
      | None => Ok (isclose t ft)
      | Some n => every nb n
      end
  | None => Ok true
  end.

(** derived_quantities.py L182-192: is_compute. *)
Definition dq_is_compute (d : derived) (nb : Z) : res bool := every nb (dq_compute d).

(** exports.py L73-82: the function a quantity reads.  For AdsorbedHydrogen the last SurfaceKinetics
    containing the surface wins; the first position of the surface in it (list.index). *)
Fixpoint index_of (z : Z) (l : list Z) : option nat :=
  match l with
  | [] => None
  | a :: r => if Z.eqb a z then Some O else option_map S (index_of z r)
  end.
Fixpoint adsorbed_function (surf : Z) (l : list (list F * list Z)) (cur : option fval)
  : res (option fval) :=
  match l with
  | [] => Ok cur
  | (sols, surfs) :: r =>
      match index_of surf surfs with
      | None => adsorbed_function surf r cur
      | Some ind =>
          match nth_error sols ind with
          | Some f => adsorbed_function surf r (Some (FFun f))
          | None => Err (IndexError "list index out of range")
          end
      end
  end.

Definition is_adsorbed (k : qkind) : bool := match k with AdsorbedHydrogen => true | _ => false end.

(** exports.py L58-82: the loop preparing the quantities. *)
Fixpoint prepare (s : store) (d : dict) (qs : list nat) : res (store * dict) :=
  match qs with
  | [] => Ok (s, d)
  | i :: r =>
      let q := s i in
      let! d1 := (if is_extremum_volume (q_kind q) then project_item d (q_field q) else Ok d) in
      let! f := (if is_adsorbed (q_kind q) then
                   let! v := getitem d1 (q_field q) in
                   match v, q_surface q with
                   | FAds l, Some surf => adsorbed_function surf l (q_function q)
                   | _, _ => Err (TypeError "adsorbed")
                   end
                 else let! v := getitem d1 (q_field q) in Ok (Some v)) in
      prepare (upd s i (set_function q f)) d1 r
  end.

(** * XDMFExport *)

Inductive xmode : Type :=
| Last
| Every (n : Z).

(** xdmf_export.py L68-78: the setter of mode; an argument is a str, an int or something else. *)
Inductive mode_arg : Type :=
| MStr (s : string)
| MInt (z : Z)
| MOther.
Definition set_mode (m : mode_arg) : res xmode :=
  match m with
  | MOther => Err (ValueError "accepted values for mode are int and 'last'")
  | MInt z => if (z <=? 0)%Z then Err (ValueError "mode must be positive") else Ok (Every z)
  | MStr s => if String.eqb s "last" then Ok Last
              else Err (ValueError "accepted values for mode are int and 'last'")
  end.

(** An XDMFExport object; [xd_trap]: it is a TrapDensityXDMF (trap_density_xdmf.py), whose written
    function is computed from the trap by an oracle. *)
Record xdmf : Type := mkXdmf {
  xd_field      : label;
  xd_mode       : xmode;
  xd_checkpoint : bool;
  xd_trap       : option F;
  xd_append     : bool
}.

(** xdmf_export.py L144-161: is_export.  numpy.isclose(t, None) raises a TypeError. *)
Definition xd_is_export (x : xdmf) (t : A) (final : option A) (nb : Z) : res bool :=
  match xd_mode x with
  | Last => match final with
            | None => Err (TypeError "ufunc 'isfinite' not supported for the input types")
            | Some ft => Ok (isclose t ft)
            end
  | Every n => every nb n
  end.

(** * TXTExport *)

(** A TXTExport object.  [tx_x]: the vertices column, [tx_sample]: the column of a function
    (projection and selection of the rows, see Model/TxtRows.v), [tx_format]: header_format applied to
    a time. *)
Record txt : Type := mkTxt {
  tx_field    : label;
  tx_filename : option string;
  tx_times    : option (list A);
  tx_last     : bool;              (* write_at_last *)
  tx_format   : A -> string;
  tx_x        : C;
  tx_sample   : F -> C;
  tx_data     : option (list C);   (* columns; None before initialise *)
  tx_header   : option string
}.
Definition set_txt (x : txt) (data : option (list C)) (header : option string) : txt :=
  mkTxt (tx_field x) (tx_filename x) (tx_times x) (tx_last x) (tx_format x) (tx_x x) (tx_sample x)
    data header.

(** txt_export.py L78-95: is_it_time_to_export. *)
Definition tx_is_time (x : txt) (t : A) : bool :=
  match tx_times x with
  | None => true
  | Some l => existsb (fun time => isclose time t) l
  end.

(** self.times[-1] *)
Definition last_time (l : list A) : res A :=
  match rev l with
  | [] => Err (IndexError "list index out of range")
  | a :: _ => Ok a
  end.

(** txt_export.py L97-123: is_last. *)
Definition tx_is_last (x : txt) (t : A) (final : option A) : res bool :=
  match final with
  | None => Ok true
  | Some ft =>
      match tx_times x with
      | None => Ok (isclose t ft)
      | Some l => let! a := last_time l in Ok (isclose t a)
      end
  end.

(** txt_export.py L183-185: the end of initialise. *)
Definition tx_initialise (x : txt) : txt := set_txt x (Some [tx_x x]) (Some "x").

(** * Exports *)

Inductive export : Type :=
| EDerived (d : derived)
| EXdmf (x : xdmf)
| ETxt (x : txt).

(** What reaches the disk. *)
Inductive written : Type :=
| WCsv (filename : string) (rows : list row)
| WXdmf (t : A) (f : fval) (checkpoint append : bool)
| WTxt (filename : string) (header : string) (columns : list C).

(** derived_quantities.py L145-155: write. *)
Definition dq_write (fs : folders) (d : derived) : res (folders * list written) :=
  match dq_filename d with
  | None => Ok (fs, [])
  | Some fn => let! fs' := ensure_folder fs fn in Ok (fs', [WCsv fn (dq_data d)])
  end.

(** txt_export.py L187-231: write. *)
Definition tx_write (fs : folders) (x : txt) (f : fval) (t : A) (final : option A)
  : res (folders * txt * list written) :=
  if tx_is_time x t then
    match f, tx_filename x, tx_data x, tx_header x with
    | FFun fn, Some name, Some data, Some header =>
        let! fs' := ensure_folder fs name in
        let header' := match final with
                       | None => header ++ ",t=steady"
                       | Some _ => header ++ ",t=" ++ tx_format x t ++ "s"
                       end in
        let data' := (data ++ [tx_sample x fn])%list in
        let x' := set_txt x (Some data') (Some header') in
        let! w := (if tx_last x then tx_is_last x t final else Ok true) in
        Ok (fs', x', if w then [WTxt name header' data'] else [])
    | _, None, _, _ => Err (TypeError "expected str, bytes or os.PathLike object, not NoneType")
    | _, _, _, _ => Err (TypeError "not initialised")
    end
  else Ok (fs, x, []).

(** The attributes of an Exports object, with the store of quantities and the disk. *)
Record exports : Type := mkExports {
  ex_list  : list export;
  ex_store : store;
  ex_fs    : folders;
  ex_final : option A;     (* final_time *)
  ex_nb    : Z             (* nb_iterations *)
}.

(** exports.py L53-104: the body of the loop of write for one export.  Returns the export, the
    store, the folders, label_to_function and what was written. *)
Definition write_one (s : store) (fs : folders) (d : dict) (t : A) (final : option A) (nb : Z)
  (e : export) : res (export * store * folders * dict * list written) :=
  match e with
  | EDerived dq =>
      let! b := dq_is_compute dq nb in
      let! (sdq, d1) := (if b then
                    let! (s1, d1) := prepare s d (dq_list dq) in
                    let! (s2, dq2) := dq_run_compute s1 dq t in
                    Ok (s2, dq2, d1)
                  else Ok (s, dq, d)) in
      let (s2, dq2) := sdq in
      let! b2 := dq_is_export dq2 t final nb in
      let! (fs', w) := (if b2 then dq_write fs dq2 else Ok (fs, [])) in
      Ok (EDerived dq2, s2, fs', d1, w)
  | EXdmf x =>
      let! b := xd_is_export x t final nb in
      if b then
        let! d1 := (if label_eqb (xd_field x) (LStr "retention") then project_item d (LStr "retention")
                    else Ok d) in
        let! v := getitem d1 (xd_field x) in
        let f := match xd_trap x with Some f => FFun f | None => v end in
        Ok (EXdmf (mkXdmf (xd_field x) (xd_mode x) (xd_checkpoint x) (xd_trap x) true), s, fs, d1,
            [WXdmf t f (xd_checkpoint x) (xd_append x)])
      else Ok (EXdmf x, s, fs, d, [])
  | ETxt x =>
      let! d1 := project_item d (tx_field x) in
      let! v := getitem d1 (tx_field x) in
      let! (fsx, w) := tx_write fs x v t final in
      let (fs', x') := fsx in
      Ok (ETxt x', s, fs', d1, w)
  end.

(** exports.py L53: for export in self.  [i] numbers the exports: each write is tagged with the
    position of its export. *)
Fixpoint write_loop (s : store) (fs : folders) (d : dict) (t : A) (final : option A) (nb : Z)
  (i : nat) (l : list export)
  : res (list export * store * folders * list (nat * written)) :=
  match l with
  | [] => Ok ([], s, fs, [])
  | e :: r =>
      let! (x, w) := write_one s fs d t final nb e in
      let '(e', s1, fs1, d1) := x in
      let! (y, ws) := write_loop s1 fs1 d1 t final nb (S i) r in
      let '(r', s2, fs2) := y in
      Ok (e' :: r', s2, fs2, (map (fun a => (i, a)) w ++ ws)%list)
  end.

(** exports.py L46-105: write. *)
Definition write (ex : exports) (d : dict) (t : A) : res (exports * list (nat * written)) :=
  let! (x, ws) := write_loop (ex_store ex) (ex_fs ex) d t (ex_final ex) (ex_nb ex) 0 (ex_list ex) in
  let '(l, s, fs) := x in
  Ok (mkExports l s fs (ex_final ex) (ex_nb ex + 1)%Z, ws).

(** exports.py L115-125: reset of the quantities of one DerivedQuantities. *)
Fixpoint reset_quantities (s : store) (qs : list nat) : store :=
  match qs with
  | [] => s
  | i :: r => reset_quantities (upd s i (reset_quantity (s i))) r
  end.

(** exports.py L107-125: initialise_derived_quantities (the measures and properties given to the
    quantities are part of the oracles). *)
Fixpoint initialise_derived (s : store) (l : list export) : list export * store :=
  match l with
  | [] => ([], s)
  | EDerived d :: r =>
      let (r', s') := initialise_derived (reset_quantities s (dq_list d)) r in
      (EDerived (set_data d [] []) :: r', s')
  | e :: r => let (r', s') := initialise_derived s r in (e :: r', s')
  end.

(** What Simulation.initialise does to the exports: generic_simulation.py L387-445.  TXTExports are
    initialised, derived quantities are reset. nb_iterations, append and final_time are left alone. *)
Definition initialise_exports (ex : exports) : exports :=
  let l1 := map (fun e => match e with ETxt x => ETxt (tx_initialise x) | _ => e end) (ex_list ex) in
  let (l2, s) := initialise_derived (ex_store ex) l1 in
  mkExports l2 s (ex_fs ex) (ex_final ex) (ex_nb ex).

(** generic_simulation.py L471-472: self.exports.final_time = self.settings.final_time *)
Definition set_final (ex : exports) (ft : A) : exports :=
  mkExports (ex_list ex) (ex_store ex) (ex_fs ex) (Some ft) (ex_nb ex).

(** The exports together with the log of what was written: one entry per call of Exports.write. *)
Definition export_state : Type := exports * list (A * list (nat * written)).

(** generic_simulation.py L539-547: run_post_processing, given label_to_function. *)
Definition post_processing {U X : Type} (label_to_function : U -> X -> dict) (t : A) (u : U) (T : X)
  (e : export_state) : res export_state :=
  let! (ex, ws) := write (fst e) (label_to_function u T) t in
  Ok (ex, (snd e ++ [(t, ws)])%list).

End Exports.

Arguments FFun {F} f.
Arguments FAds {F} l.
Arguments lookup {F} d k.
Arguments set_item {F} d k v.
Arguments getitem {F} d k.
Arguments is_function_val {F} is_function v.
Arguments project_item {F} is_function project d k.
Arguments mkQuantity {A F V} _ _ _ _ _ _ _ _ _ _.
Arguments q_kind {A F V} _.
Arguments q_field {A F V} _.
Arguments q_surface {A F V} _.
Arguments q_volume {A F V} _.
Arguments q_title {A F V} _ _.
Arguments q_assemble {A F V} _ _.
Arguments q_function {A F V} _.
Arguments q_r {A F V} _.
Arguments q_t {A F V} _.
Arguments q_data {A F V} _.
Arguments upd {A F V} s i q _.
Arguments set_function {A F V} q f.
Arguments set_r {A F V} q.
Arguments record_value {A F V} q t v.
Arguments reset_quantity {A F V} q.
Arguments compute_quantity {A F V} is_function q.
Arguments Header {A V} titles.
Arguments Row {A V} t values.
Arguments mkDerived {A V} _ _ _ _ _ _ _.
Arguments dq_list {A V} _.
Arguments dq_filename {A V} _.
Arguments dq_compute {A V} _.
Arguments dq_exports {A V} _.
Arguments dq_units {A V} _.
Arguments dq_data {A V} _.
Arguments dq_t {A V} _.
Arguments set_data {A V} d data t.
Arguments make_header {A F V} s d.
Arguments compute_loop {A F V} is_function s d t data vals qs.
Arguments dq_run_compute {A F V} is_function s d t.
Arguments dq_is_export {A N V} d t final nb.
Arguments dq_is_compute {A V} d nb.
Arguments adsorbed_function {F} surf l cur.
Arguments prepare {A F V} is_function project s d qs.
Arguments mkXdmf {F} _ _ _ _ _.
Arguments xd_field {F} _.
Arguments xd_mode {F} _.
Arguments xd_checkpoint {F} _.
Arguments xd_trap {F} _.
Arguments xd_append {F} _.
Arguments xd_is_export {A N F} x t final nb.
Arguments mkTxt {A F C} _ _ _ _ _ _ _ _ _.
Arguments tx_field {A F C} _.
Arguments tx_filename {A F C} _.
Arguments tx_times {A F C} _.
Arguments tx_last {A F C} _.
Arguments tx_format {A F C} _ _.
Arguments tx_x {A F C} _.
Arguments tx_sample {A F C} _ _.
Arguments tx_data {A F C} _.
Arguments tx_header {A F C} _.
Arguments set_txt {A F C} x data header.
Arguments tx_is_time {A N F C} x t.
Arguments last_time {A} l.
Arguments tx_is_last {A N F C} x t final.
Arguments tx_initialise {A F C} x.
Arguments EDerived {A F V C} d.
Arguments EXdmf {A F V C} x.
Arguments ETxt {A F V C} x.
Arguments WCsv {A F V C} filename rows.
Arguments WXdmf {A F V C} t f checkpoint append.
Arguments WTxt {A F V C} filename header columns.
Arguments dq_write {A F V C} fs d.
Arguments tx_write {A N F V C} fs x f t final.
Arguments mkExports {A F V C} _ _ _ _ _.
Arguments ex_list {A F V C} _.
Arguments ex_store {A F V C} _.
Arguments ex_fs {A F V C} _.
Arguments ex_final {A F V C} _.
Arguments ex_nb {A F V C} _.
Arguments write_one {A N F V C} is_function project s fs d t final nb e.
Arguments write_loop {A N F V C} is_function project s fs d t final nb i l.
Arguments write {A N F V C} is_function project ex d t.
Arguments reset_quantities {A F V} s qs.
Arguments initialise_derived {A F V C} s l.
Arguments initialise_exports {A F V C} ex.
Arguments set_final {A F V C} ex ft.
Arguments post_processing {A N F V C} is_function project {U X} label_to_function t u T e.
