(** Model of XDMF checkpoint files and of what reads them: festim/exports/xdmf_export.py:write,
    festim/helpers.py:extract_xdmf_times, extract_xdmf_labels, festim/initial_condition.py,
    festim/concentration/concentration.py:get_comp, festim/temperature/temperature_from_xdmf.py and
    festim/temperature/temperature_solver.py:create_functions (initial condition). *)
From Coq Require Import ZArith List String Bool.
From Verif Require Import Base.Exc Model.Paths.
Import ListNotations.
Local Open Scope string_scope.

(** An element of an XML tree (xml.etree.ElementTree). *)
Inductive xml : Type := Node (tag : string) (attrib : list (string * string)) (children : list xml).
Definition tag (x : xml) : string := let 'Node t _ _ := x in t.
Definition attrib (x : xml) : list (string * string) := let 'Node _ a _ := x in a.
Definition children (x : xml) : list xml := let 'Node _ _ c := x in c.

(** "sub in s" *)
Fixpoint contains (sub s : string) : bool :=
  (prefix sub s || match s with "" => false | String _ r => contains sub r end)%bool.
(** element.attrib[k] *)
Fixpoint get (k : string) (l : list (string * string)) : res string :=
  match l with
  | [] => Err (KeyError k)
  | (k', v) :: r => if String.eqb k k' then Ok v else get k r
  end.
Definition first {B} (l : list B) : res B :=
  match l with [] => Err (IndexError "list index out of range") | x :: _ => Ok x end.

(** helpers.py L72-83 and L96-107: the loops over the grid, collecting an attribute. *)
Fixpoint collect (what key : string) (elements : list xml) : res (list string) :=
  match elements with
  | [] => Ok []
  | e :: r =>
      if contains what (tag e) then
        let! v := get key (attrib e) in let! vs := collect what key r in Ok (v :: vs)
      else collect what key r
  end.
Definition collect_grid (what key : string) (root : xml) : res (list string) :=
  let! domain := first (children root) in
  let! grid := first (children domain) in
  collect what key (flat_map children (children grid)).

Section Files.
(** [A]: times, [V]: functions.  [show]: how DOLFIN prints a time, [float]: Python's float. *)
Context {A V : Type}.
Variable show : A -> string.
Variable float : string -> res A.

(** helpers.py L60-83: extract_xdmf_times. *)
Fixpoint floats (l : list string) : res (list A) :=
  match l with
  | [] => Ok []
  | s :: r => let! t := float s in let! ts := floats r in Ok (t :: ts)
  end.
Definition extract_xdmf_times (root : xml) : res (list A) :=
  let! l := collect_grid "Time" "Value" root in floats l.
(** helpers.py L86-110: extract_xdmf_labels; the order of list(set(...)) is not specified. *)
Definition extract_xdmf_labels (root : xml) : res (list string) :=
  let! l := collect_grid "Attribute" "Name" root in Ok (nodup string_dec l).

(** A checkpoint file: the functions with their label and time, in the order of writing.  DOLFIN's
    write_checkpoint starts a new file unless append is true. *)
Record checkpoint : Type := mkCheckpoint { c_label : string; c_time : A; c_fun : V }.
Definition file := list checkpoint.
Definition write_checkpoint (old : file) (label : string) (t : A) (f : V) (append : bool) : file :=
  if append then (old ++ [mkCheckpoint label t f])%list else [mkCheckpoint label t f].

(** The XML of the file, as written by DOLFIN 2019.1: one temporal collection per label, one grid per
    function with its topology, geometry, time and attribute. *)
Definition step_xml (c : checkpoint) : xml :=
  Node "Grid" [("Name", c_label c); ("GridType", "Uniform")]
    [Node "Topology" [] []; Node "Geometry" [] []; Node "Time" [("Value", show (c_time c))] [];
     Node "Attribute" [("ItemType", "FiniteElementFunction"); ("Name", c_label c)] []].
Fixpoint labels_of (seen : list string) (f : file) : list string :=
  match f with
  | [] => []
  | c :: r => if existsb (String.eqb (c_label c)) seen then labels_of seen r
              else c_label c :: labels_of (c_label c :: seen) r
  end.
Definition of_label (label : string) (f : file) : file := filter (fun c => String.eqb (c_label c) label) f.
Definition to_xml (f : file) : xml :=
  Node "Xdmf" [] [Node "Domain" []
    (map (fun l => Node "Grid" [("Name", "TimeSeries_" ++ l); ("GridType", "Collection")]
                     (map step_xml (of_label l f))) (labels_of [] f))].

(** DOLFIN's read_checkpoint(u, label, counter): the counter-th function of the label, -1 for the last. *)
Definition read_checkpoint (f : file) (label : string) (counter : Z) : res V :=
  let l := of_label label f in
  let found := if Z.eqb counter (-1) then nth_error (rev l) 0
               else if Z.ltb counter 0 then None else nth_error l (Z.to_nat counter) in
  match found with
  | Some c => Ok (c_fun c)
  | None => Err (RuntimeError "XDMF file has no such function")
  end.

Definition disk := string -> option file.
Definition open_file (d : disk) (name : string) : res file :=
  match d name with Some f => Ok f | None => Err (FileNotFoundError name) end.

(** initial_condition.py L16-27. *)
Inductive ini_value : Type :=
| IStr (s : string)
| IExpr (v : V).      (* a number or a sympy expression *)
Record initial_condition : Type := mkIni {
  i_value : ini_value; i_label : option string; i_step : option Z
}.
Definition InitialCondition (value : ini_value) (label : option string) (time_step : option Z)
  : res initial_condition :=
  let ini := mkIni value label time_step in
  match value with
  | IStr s =>
      if endswith s ".xdmf" then
        match label, time_step with
        | None, _ => Err (ValueError "label cannot be None")
        | _, None => Err (ValueError "time_step cannot be None")
        | _, _ => Ok ini
        end
      else Ok ini
  | IExpr _ => Ok ini
  end.

(** [parse]: the value of a string that is not a file name, printed by ccode and compiled. *)
Variable parse : string -> res V.

(** What read_checkpoint gets from an initial condition (None instead of a label or a step raises). *)
Definition read_ini (d : disk) (s : string) (ini : initial_condition) : res V :=
  let! f := open_file d s in
  match i_label ini, i_step ini with
  | Some l, Some k => read_checkpoint f l k
  | _, _ => Err (TypeError "incompatible function arguments")
  end.
(** concentration.py L43-51: get_comp. *)
Definition get_comp (d : disk) (ini : initial_condition) : res V :=
  match i_value ini with
  | IStr s => if endswith s ".xdmf" then read_ini d s ini else parse s
  | IExpr v => Ok v
  end.

(** temperature_solver.py L107-129: T_n of a HeatTransferProblem; [zero]: the value of a new function. *)
Definition heat_initial (zero : V) (d : disk) (transient : bool) (ini : option initial_condition) : res V :=
  match transient, ini with
  | true, None => Err (AttributeError "Initial condition is required for transient heat transfer simulations")
  | true, Some ini =>
      match i_value ini with
      | IStr s => if endswith s ".xdmf" then read_ini d s ini else Ok zero
      | IExpr v => Ok v
      end
  | false, _ => Ok zero
  end.

(** temperature_from_xdmf.py L20-48: __init__ and create_functions; T and T_n. *)
Definition TemperatureFromXDMF (d : disk) (name label : string) : res (string * string) :=
  let! f := open_file d name in
  let! ls := extract_xdmf_labels (to_xml f) in
  if existsb (String.eqb label) ls then Ok (name, label) else Err (ValueError "Coudln't find label").
Definition xdmf_temperature (d : disk) (T : string * string) : res (V * V) :=
  let! f := open_file d (fst T) in
  let! v := read_checkpoint f (snd T) (-1) in Ok (v, v).
End Files.
Arguments file : clear implicits.
Arguments checkpoint : clear implicits.
Arguments disk : clear implicits.
