(** Which list objects the simulations hold: generic_simulation.py L77-109 (constructor) and the setters
    L115-128 (traps) and L153-166 (exports).  Python lists are objects: assigning a list keeps the object,
    and the default value of a parameter is one object made when the class is defined.

    Simplifications: the items are not validated here (see Model/Lists.v); materials, mesh, T, dt and settings
    are left out. *)
From Coq Require Import List Bool Arith.
Import ListNotations.

Section Sharing.
Variable item : Type.

Inductive attr : Type := ASources | ABcs | AIcs | ATraps | AExports.
Definition attr_eqb (a b : attr) : bool :=
  match a, b with
  | ASources, ASources | ABcs, ABcs | AIcs, AIcs | ATraps, ATraps | AExports, AExports => true
  | _, _ => false
  end.

(** What is given for an attribute: nothing (the default of the parameter), a list written in place, the
    attribute of another (or the same) simulation, or a list that the user keeps in a variable. *)
Inductive arg : Type :=
| Omitted
| Literal (l : list item)
| Of (k : nat) (a : attr)
| Var (n : nat).

(** A simulation (numbered) holds the address of a list for each attribute, a variable that of a list. *)
Record world : Type := mkWorld {
  heap : nat -> list item;
  next : nat;
  sims : nat -> option (attr -> nat);
  vars : nat -> option nat
}.

Definition upd {B} (f : nat -> B) (n : nat) (v : B) : nat -> B := fun k => if Nat.eqb k n then v else f k.
Definition upd_attr (f : attr -> nat) (a : attr) (v : nat) : attr -> nat := fun b => if attr_eqb b a then v else f b.

Definition alloc (w : world) (l : list item) : nat * world :=
  (next w, mkWorld (upd (heap w) (next w) l) (S (next w)) (sims w) (vars w)).

(** generic_simulation.py L81-82, L87: the lists made when the class is defined. *)
Definition default_of (a : attr) : nat :=
  match a with ASources => 0 | ABcs => 1 | AIcs => 2 | ATraps => 3 | AExports => 4 end.

(** The object that an argument denotes; None for traps=None and exports=None (their default, L83 and L88). *)
Definition denote (w : world) (a : attr) (v : arg) : option (option nat * world) :=
  match v with
  | Omitted => match a with ATraps | AExports => Some (None, w) | _ => Some (Some (default_of a), w) end
  | Literal l => let (p, w') := alloc w l in Some (Some p, w')
  | Of k b => match sims w k with Some s => Some (Some (s b), w) | None => None end
  | Var n => match vars w n with Some p => Some (Some p, w) | None => None end
  end.

(** isinstance(value, festim.Traps) (Exports): the collection of a simulation is kept, a list is copied into a
    new collection (L116-121, L154-161). *)
Definition is_collection (v : arg) : bool :=
  match v with Of _ (ATraps | AExports) => true | _ => false end.

(** Assignment of an attribute: L99-104 (the list itself) or the setters of traps and exports. *)
Definition hold (w : world) (a : attr) (v : arg) : option (nat * world) :=
  match denote w a v with
  | None => None
  | Some (p, w') =>
      match a with
      | ATraps | AExports =>
          match p with
          | None => Some (alloc w' [])
          | Some p => if is_collection v then Some (p, w') else Some (alloc w' (heap w' p))
          end
      | _ => match p with Some p => Some (p, w') | None => None end
      end
  end.

Definition set_sim (w : world) (k : nat) (s : attr -> nat) : world :=
  mkWorld (heap w) (next w) (upd (sims w) k (Some s)) (vars w).

(** Simulation(sources=..., boundary_conditions=..., traps=..., initial_conditions=..., exports=...):
    L77-109; the order of the assignments is that of the code. *)
Definition new_sim (w : world) (k : nat) (args : attr -> arg) : option world :=
  match hold w ATraps (args ATraps) with
  | None => None
  | Some (pt, w1) =>
      match hold w1 ABcs (args ABcs) with
      | None => None
      | Some (pb, w2) =>
          match hold w2 AIcs (args AIcs) with
          | None => None
          | Some (pi, w3) =>
              match hold w3 AExports (args AExports) with
              | None => None
              | Some (pe, w4) =>
                  match hold w4 ASources (args ASources) with
                  | None => None
                  | Some (ps, w5) =>
                      Some (set_sim w5 k (fun a => match a with
                        | ASources => ps | ABcs => pb | AIcs => pi | ATraps => pt | AExports => pe end))
                  end
              end
          end
      end
  end.

(** What a user does: make a simulation, assign one of its attributes, append to one of its lists; make a list
    of their own and append to it. *)
Inductive op : Type :=
| New (k : nat) (args : attr -> arg)
| Assign (k : nat) (a : attr) (v : arg)
| Append (k : nat) (a : attr) (x : item)
| Let (n : nat) (l : list item)
| AppendVar (n : nat) (x : item).

(** None: a NameError or TypeError of the user's program. *)
Definition step (w : world) (o : op) : option world :=
  match o with
  | New k args => new_sim w k args
  | Assign k a v =>
      match v, sims w k with
      | Omitted, _ | _, None => None
      | _, Some s =>
          match hold w a v with
          | None => None
          | Some (p, w') => Some (set_sim w' k (upd_attr s a p))
          end
      end
  | Append k a x =>
      match sims w k with
      | None => None
      | Some s => Some (mkWorld (upd (heap w) (s a) (heap w (s a) ++ [x])) (next w) (sims w) (vars w))
      end
  | Let n l => let (p, w') := alloc w l in Some (mkWorld (heap w') (next w') (sims w') (upd (vars w') n (Some p)))
  | AppendVar n x =>
      match vars w n with
      | None => None
      | Some p => Some (mkWorld (upd (heap w) p (heap w p ++ [x])) (next w) (sims w) (vars w))
      end
  end.

Fixpoint exec (w : world) (l : list op) : option world :=
  match l with
  | [] => Some w
  | o :: r => match step w o with Some w' => exec w' r | None => None end
  end.

(** When festim has been imported: the default lists are empty. *)
Definition world0 : world := mkWorld (fun _ => []) 5 (fun _ => None) (fun _ => None).

(** The content of sim.a. *)
Definition content (w : world) (k : nat) (a : attr) : option (list item) :=
  match sims w k with Some s => Some (heap w (s a)) | None => None end.

End Sharing.

Arguments Omitted {item}.
Arguments Literal {item} l.
Arguments Of {item} k a.
Arguments New {item} k args.
Arguments Assign {item} k a v.
Arguments Append {item} k a x.
Arguments Var {item} n.
Arguments Let {item} n l.
Arguments AppendVar {item} n x.
Arguments mkWorld {item} _ _ _ _.
Arguments heap {item} _.
Arguments next {item} _.
Arguments sims {item} _.
Arguments vars {item} _.
Arguments alloc {item} w l.
Arguments hold {item} w a v.
Arguments denote {item} w a v.
Arguments set_sim {item} w k s.
Arguments new_sim {item} w k args.
Arguments step {item} w o.
Arguments exec {item} w l.
Arguments world0 {item}.
Arguments content {item} w k a.
Arguments is_collection {item} v.
