(** Model of Temperature.is_steady_state (festim/temperature/temperature.py L55-56), which looks for the
    letter t in sp.printing.ccode(value).  The part of sympy that is needed is the C99 printer of
    sympy/printing/codeprinter.py and c.py: numbers, symbols, sums, products, powers, functions of C99,
    relations and Piecewise.  Simplifications: the arguments of sums and products are taken in the order in
    which sympy prints them; other classes of sympy (derivatives, matrices, ...) are left out. *)
From Coq Require Import ZArith List Bool String Ascii.
From Verif Require Import Base.Key.
Import ListNotations.
Local Open Scope string_scope.

Inductive expr : Type :=
| EInt (z : Z)
| ERat (p : Z) (q : positive)              (* Rational, not an integer *)
| EFloat (neg : bool) (digits : string)    (* the absolute value as printed *)
| ESym (name : string)                     (* festim.x is "x[0]", festim.t is "t" (festim/__init__.py L18) *)
| EAdd (l : list expr)
| EMul (l : list expr)
| EPow (base exponent : expr)
| EFun (name : string) (args : list expr)  (* name: of the C function *)
| ERel (op : string) (a b : expr)
| EBool (op : string) (l : list expr)      (* && and || *)
| EPiece (l : list (expr * expr)) (other : expr).   (* (value, condition) *)

(** "t" in s *)
Fixpoint contains_t (s : string) : bool :=
  match s with
  | EmptyString => false
  | String c r => if Ascii.eqb c "t" then true else contains_t r
  end.

(** sep.join(l) *)
Fixpoint join (sep : string) (l : list string) : string :=
  match l with
  | [] => ""
  | [a] => a
  | a :: r => a ++ sep ++ join sep r
  end.

(** sympy/printing/precedence.py *)
Definition negative_number (e : expr) : bool :=
  match e with
  | EInt z => Z.ltb z 0
  | ERat p _ => Z.ltb p 0
  | EFloat neg _ => neg
  | _ => false
  end.
Definition precedence (e : expr) : nat :=
  if negative_number e then 40 else
  match e with
  | EAdd _ => 40
  | EMul (a :: _) => if negative_number a then 40 else 50
  | EMul [] | ERat _ _ => 50
  | EPow _ _ => 60
  | EFun _ _ | EPiece _ _ => 70
  | ERel _ _ _ => 35
  | EBool _ _ => 30
  | _ => 1000
  end.
(** str.py, StrPrinter.parenthesize *)
Definition parenthesize (e : expr) (text : string) (level : nat) : string :=
  if Nat.leb (precedence e) level then "(" ++ text ++ ")" else text.

(** codeprinter.py, _print_Rational *)
Definition rational (p : Z) (q : positive) : string := str p ++ ".0/" ++ str (Zpos q) ++ ".0".

(** c.py, _print_Pow; [b]: the printed base, [pb]: in parentheses, [x]: the printed exponent *)
Definition print_pow (b pb : string) (e : expr) (x : string) : string :=
  match e with
  | EInt (-1) => "1.0/" ++ pb
  | ERat 1 2 => "sqrt(" ++ b ++ ")"
  | EFloat false "0.5" => "sqrt(" ++ b ++ ")"
  | ERat 1 3 => "cbrt(" ++ b ++ ")"
  | _ => "pow(" ++ b ++ ", " ++ x ++ ")"
  end.

(** str.py, StrPrinter._print_Add: the terms with their signs; [ts]: (is_Add, precedence, text) *)
Definition term_text (t : bool * nat * string) : string * string :=
  let '(add, prec, text) := t in
  let '(sign, text) := match text with
                       | String "-" r => if add then ("+", text) else ("-", r)
                       | _ => ("+", text)
                       end in
  (sign, if (Nat.ltb prec 40 || add)%bool then "(" ++ text ++ ")" else text).
Definition print_sum (ts : list (bool * nat * string)) : string :=
  match map term_text ts with
  | [] => ""
  | (s, t) :: r =>
      (if String.eqb s "+" then "" else s) ++ join " " (t :: flat_map (fun p => [fst p; snd p]) r)
  end.

(** codeprinter.py, _print_Mul: a factor goes to the numerator or, as the inverse, to the denominator. *)
Inductive factor : Type :=
| Numer (text : string)
| Denom (text : string)
| Minus (text : option string).   (* a negative number, with its absolute value unless it is 1 *)
Fixpoint numerator (l : list factor) : list string :=
  match l with
  | [] => []
  | Numer t :: r | Minus (Some t) :: r => t :: numerator r
  | _ :: r => numerator r
  end.
Fixpoint denominator (l : list factor) : list string :=
  match l with
  | [] => []
  | Denom t :: r => t :: denominator r
  | _ :: r => denominator r
  end.
Definition sign (l : list factor) : string := match l with Minus _ :: _ => "-" | _ => "" end.
Definition print_mul (l : list factor) : string :=
  let a := match numerator l with [] => ["1"] | a => a end in
  sign l ++ join "*" a ++
  match denominator l with
  | [] => ""
  | [b] => "/" ++ b
  | b => "/(" ++ join "*" b ++ ")"
  end.
Definition minus (e : expr) : option (option string) :=
  match e with
  | EInt (Zneg 1) => Some None
  | EInt (Zneg p) => Some (Some (str (Zpos p)))
  | ERat (Zneg p) q => Some (Some (rational (Zpos p) q))
  | EFloat true d => Some (Some d)
  | _ => None
  end.

(** codeprinter.py, _print_Piecewise and _print_Relational *)
Fixpoint print_pieces (l : list (string * string)) (other : string) : string :=
  match l with
  | [] => other
  | (v, c) :: r => "((" ++ c ++ ") ? (" ++ v ++ ") : (" ++ print_pieces r other ++ "))"
  end.

(** sp.printing.ccode(e) *)
Fixpoint ccode (e : expr) : string :=
  match e with
  | EInt z => str z
  | ERat p q => rational p q
  | EFloat neg d => (if neg then "-" else "") ++ d
  | ESym n => n
  | EAdd l => print_sum (map (fun a => (match a with EAdd _ => true | _ => false end, precedence a, ccode a)) l)
  | EMul l =>
      print_mul (map (fun a =>
        match a with
        | EPow b (EInt (Zneg 1)) => Denom (parenthesize b (ccode b) 50)
        | EPow b (EInt (Zneg p)) => Denom (print_pow (ccode b) (parenthesize b (ccode b) 60) (EInt (Zpos p)) (str (Zpos p)))
        | EPow b (ERat (Zneg p) q) =>
            Denom (print_pow (ccode b) (parenthesize b (ccode b) 60) (ERat (Zpos p) q) (rational (Zpos p) q))
        | _ => match minus a with
               | Some o => Minus o
               | None => Numer (parenthesize a (ccode a) 50)
               end
        end) l)
  | EPow b x => print_pow (ccode b) (parenthesize b (ccode b) 60) x (ccode x)
  | EFun n l => n ++ "(" ++ join ", " (map ccode l) ++ ")"
  | ERel op a b => ccode a ++ " " ++ op ++ " " ++ ccode b
  | EBool op l => join (" " ++ op ++ " ") (map (fun a => parenthesize a (ccode a) 30) l)
  | EPiece l d => print_pieces (map (fun p => (ccode (fst p), ccode (snd p))) l) (ccode d)
  end.

(** temperature.py L55-56 *)
Definition is_steady_state (value : expr) : bool := negb (contains_t (ccode value)).
