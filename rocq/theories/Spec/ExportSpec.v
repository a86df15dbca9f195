(** Vocabulary for statements about exports: which export wrote what, in which call. *)
From Coq Require Import ZArith List Bool String Ascii.
From Verif Require Import Base.Num Model.Exports.
Import ListNotations.

Section Spec.
Context {A F V C : Type}.
Local Notation written := (written (A:=A) F V C).

(** What export number i wrote in one call of Exports.write. *)
Definition of_export (i : nat) (ws : list (nat * written)) : list written :=
  map snd (filter (fun p => Nat.eqb (fst p) i) ws).

(** Everything export number i wrote, with the number of the call (counting from k) and its time. *)
Fixpoint written_from (i k : nat) (log : list (A * list (nat * written))) : list (nat * A * written) :=
  match log with
  | [] => []
  | (t, ws) :: r => map (fun w => (k, t, w)) (of_export i ws) ++ written_from i (S k) r
  end.
Definition written_by (i : nat) (log : list (A * list (nat * written))) := written_from i 0 log.

(** The numbers of the calls in which it wrote (repeated if it wrote several times in a call). *)
Definition steps_written (i : nat) log : list nat := map (fun x => fst (fst x)) (written_by i log).

(** The numbers 0, n, 2n, ... below len. *)
Definition multiples_below (n : Z) (len : nat) : list nat :=
  filter (fun k => Z.eqb (Z.of_nat k mod n) 0) (seq 0 len).

(** The entries of a comma separated line. *)
Fixpoint entries (s : string) : list string :=
  match s with
  | EmptyString => [EmptyString]
  | String c r =>
      if Ascii.eqb c ","%char then EmptyString :: entries r
      else match entries r with
           | e :: l => String c e :: l
           | [] => []
           end
  end.
Fixpoint no_comma (s : string) : Prop :=
  match s with
  | EmptyString => True
  | String c r => c <> ","%char /\ no_comma r
  end.


(** ** What the exports read *)
Variable is_function : F -> bool.
Variable project : F -> F.

(** v' is v, or its projection if v was not a function. *)
Definition value_ok (v v' : fval F) : Prop :=
  v' = v \/ exists f, v = FFun f /\ is_function f = false /\ v' = FFun (project f).

(** f is the adsorbed concentration of a condition on surface surf. *)
Definition adsorbed_on (surf : Z) (l : list (list F * list Z)) (f : F) : Prop :=
  exists sols surfs ind, In (sols, surfs) l /\ nth_error surfs ind = Some surf /\ nth_error sols ind = Some f.

(** The function a quantity has to read, given label_to_function: its field (projected if needed),
    or the adsorbed concentration on its surface if there is one. *)
Definition reads (q : quantity (A:=A) F V) (d : dict F) (f : fval F) : Prop :=
  match q_kind q with
  | AdsorbedHydrogen =>
      exists l surf, lookup d (q_field q) = Some (FAds l) /\ q_surface q = Some surf /\
        ((exists g, f = FFun g /\ adsorbed_on surf l g) \/
         forall sols surfs, In (sols, surfs) l -> ~ In surf surfs)
  | _ => exists v, lookup d (q_field q) = Some v /\ value_ok v f
  end.

(** The titles of a table of derived quantities. *)
Definition titles (s : store (A:=A) F V) (d : derived (A:=A) V) : list string :=
  "t(s)"%string :: map (fun i => q_title (s i) (dq_units d)) (dq_list d).

(** Row r holds, at time t, the value of each quantity for the fields d. *)
Definition row_ok (s : store (A:=A) F V) (dq : derived (A:=A) V) (p : A * dict F) (r : A * list V) : Prop :=
  fst r = fst p /\
  Forall2 (fun q v => exists f, reads (s q) (snd p) f /\ v = q_assemble (s q) f) (dq_list dq) (snd r).

(** Every n-th element of a list, counting from nb. *)
Fixpoint computed {B} (n nb : Z) (cs : list B) : list B :=
  match cs with
  | [] => []
  | c :: r => if (nb mod n =? 0)%Z then c :: computed n (nb + 1) r else computed n (nb + 1) r
  end.

Definition mk_row (r : A * list V) : row (A:=A) V := Row (fst r) (snd r).

(** The function an XDMFExport writes. *)
Definition xdmf_writes (x : xdmf F) (d : dict F) (f : fval F) : Prop :=
  match xd_trap x with
  | Some g => f = FFun g
  | None => exists v, lookup d (xd_field x) = Some v /\ value_ok v f
  end.

(** The entry of the header of a TXTExport for an export at time t. *)
Definition header_entry (x : txt (A:=A) F C) (fin : option A) (t : A) : string :=
  match fin with None => "t=steady" | Some _ => ("t=" ++ tx_format x t ++ "s")%string end.

(** The column of one export: the sample of the (projected) function of the field. *)
Definition col_ok (x : txt (A:=A) F C) (p : A * dict F) (c : C) : Prop :=
  exists v f, lookup (snd p) (tx_field x) = Some v /\ value_ok v (FFun f) /\ is_function f = true /\
    c = tx_sample x f.

End Spec.

Section Times.
Context {A : Type} {N : Num A}.

(** t is (up to numpy.isclose) one of the requested times; None requests every time. *)
Definition requested (times : option (list A)) (t : A) : bool :=
  match times with
  | None => true
  | Some l => existsb (fun time => isclose time t) l
  end.

(** The elements of a list of (time, _) at requested times, in order. *)
Definition at_requested {B} (times : option (list A)) (l : list (A * B)) : list (A * B) :=
  filter (fun p => requested times (fst p)) l.
End Times.

(** The calls of Exports.write made by a run: time and label_to_function. *)
Definition fields_of {A U X F} (ltf : U -> X -> dict F) (ps : list (A * U * X)) : list (A * dict F) :=
  map (fun p => (fst (fst p), ltf (snd (fst p)) (snd p))) ps.
