(** Model of how the times of TXTExports become milestones: festim/exports/txt_export.py (__init__) and
    the end of festim/generic_simulation.py (initialise). *)
From Coq Require Import ZArith List Bool String.
From Verif Require Import Base.Exc Base.Num Model.Stepsize Model.Exports.
Import ListNotations.

Section TxtTimes.
Context {A : Type} {N : Num A} {F V C : Type}.

(** txt_export.py L50-53: "if times: self.times = sorted(times)", other values are kept. *)
Definition mk_times (times : option (list A)) : option (list A) :=
  match times with
  | Some ((_ :: _) as l) => Some (py_sorted l)
  | other => other
  end.

(** txt_export.py L40-63: __init__ (data and header are None until initialise). *)
Definition mk_txt (field : label) (filename : option string) (times : option (list A))
  (write_at_last : bool) (format : A -> string) (x : C) (sample : F -> C) : txt (A:=A) F C :=
  mkTxt field filename (mk_times times) write_at_last format x sample None None.

(** time not in self.dt.milestones, generic_simulation.py L436; append, L440. *)
Definition add_time (l : list A) (time : A) : list A :=
  if existsb (neqb time) l then l else l ++ [time].

(** generic_simulation.py L433-441: milestones None or [] are replaced by [], the times are appended in
    order, and the list is sorted. *)
Definition merge_times (milestones : option (list A)) (times : list A) : list A :=
  py_sorted (fold_left add_time times (match milestones with Some l => l | None => [] end)).

Definition with_milestones (s : stepsize A) (l : list A) : stepsize A :=
  mkStepsize (initial_value s) (value s) (adaptive_stepsize s) (Some l).

(** generic_simulation.py L432-441 for the exports in order.  [dt] is None in a steady simulation
    (accessing its milestones raises).  Only the effect on dt. *)
Fixpoint register_times (dt : option (stepsize A)) (l : list (export (A:=A) F V C))
  : res (option (stepsize A)) :=
  match l with
  | [] => Ok dt
  | ETxt x :: r =>
      match tx_times x with
      | Some ((_ :: _) as times) =>
          match dt with
          | None => Err (AttributeError "'NoneType' object has no attribute 'milestones'")
          | Some s => register_times (Some (with_milestones s (merge_times (milestones s) times))) r
          end
      | _ => register_times dt r
      end
  | _ :: r => register_times dt r
  end.
End TxtTimes.
