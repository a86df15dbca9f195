(** What an expression of sympy means and what a text means as an expression of C (C93).  C is taken with the
    layout of spaces that sympy uses, without overflow of integers, and double numbers are real numbers. *)
From Coq Require Import ZArith List Bool String Ascii Reals.
From Verif Require Import Base.Key Model.SympyAst.
Import ListNotations.
Local Open Scope string_scope.

(** ** Decimal constants: digits, a point, digits, and possibly e, a sign and digits *)
Definition digit (c : ascii) : option Z :=
  let n := nat_of_ascii c in
  if (Nat.leb 48 n && Nat.leb n 57)%bool then Some (Z.of_nat n - 48)%Z else None.
Fixpoint read_exponent (neg : bool) (acc : Z) (s : string) : option Z :=
  match s with
  | "" => Some (if neg then - acc else acc)%Z
  | String c r => match digit c with Some d => read_exponent neg (10 * acc + d)%Z r | None => None end
  end.
Fixpoint read_fraction (acc : Z) (places : nat) (s : string) : option R :=
  match s with
  | "" => Some (IZR acc / 10 ^ places)%R
  | String c r =>
      match digit c with
      | Some d => read_fraction (10 * acc + d)%Z (S places) r
      | None =>
          match (if Ascii.eqb c "e" then
                   match r with
                   | String "-" ((String _ _) as r') => read_exponent true 0 r'
                   | String "+" ((String _ _) as r') => read_exponent false 0 r'
                   | String _ _ => read_exponent false 0 r
                   | "" => None
                   end
                 else None) with
          | Some k => Some (IZR acc / 10 ^ places * powerRZ 10 k)%R
          | None => None
          end
      end
  end.
Fixpoint read_units (acc : Z) (s : string) : option R :=
  match s with
  | "" => None
  | String c r =>
      match digit c with
      | Some d => read_units (10 * acc + d)%Z r
      | None => if Ascii.eqb c "." then read_fraction acc 0 r else None
      end
  end.
Definition decimal (s : string) : option R :=
  match s with
  | "" => None
  | String c r => match digit c with Some d => read_units d r | None => None end
  end.

(** ** Names: x, t, x[0] *)
Definition letter (c : ascii) : bool :=
  let n := nat_of_ascii c in
  (Nat.leb 65 n && Nat.leb n 90 || Nat.leb 97 n && Nat.leb n 122 || Nat.eqb n 95)%bool.
Fixpoint word_end (s : string) : bool :=
  match s with
  | "" => true
  | String c r => ((letter c || if digit c then true else false) && word_end r)%bool
  end.
Definition word (s : string) : bool := match s with "" => false | String c r => (letter c && word_end r)%bool end.
Definition name (s : string) : Prop := word s = true \/ exists a k, word a = true /\ s = a ++ "[" ++ str (Z.of_N k) ++ "]".

(** The values of the names, the functions of C, and the power of real numbers. *)
Record world : Type := mkWorld { w_name : string -> R; w_fun : string -> list R -> R; w_pow : R -> R -> R }.

(** ** The expression of sympy: its value, and whether it holds for conditions *)
Definition relation (op : string) (a b : R) : bool :=
  if String.eqb op "<" then if Rlt_dec a b then true else false
  else if String.eqb op "<=" then if Rle_dec a b then true else false
  else if String.eqb op ">" then if Rlt_dec b a then true else false
  else if String.eqb op ">=" then if Rle_dec b a then true else false
  else if String.eqb op "==" then if Req_EM_T a b then true else false
  else if Req_EM_T a b then false else true.
Section Meaning.
Variable w : world.
Local Open Scope R_scope.
Fixpoint meaning (e : expr) : R * bool :=
  match e with
  | EInt z => (IZR z, false)
  | ERat p q => (IZR p / IZR (Zpos q), false)
  | EFloat n d => ((if n then - 1 else 1) * match decimal d with Some r => r | None => 0 end, false)
  | ESym n => (w_name w n, false)
  | EAdd l => (fold_right (fun a s => fst (meaning a) + s) 0 l, false)
  | EMul l => (fold_right (fun a s => fst (meaning a) * s) 1 l, false)
  | EPow a b => (w_pow w (fst (meaning a)) (fst (meaning b)), false)
  | EFun n l => (w_fun w n (map (fun a => fst (meaning a)) l), false)
  | ERel op a b => (0, relation op (fst (meaning a)) (fst (meaning b)))
  | EBool op l => (0, if String.eqb op "&&" then forallb (fun a => snd (meaning a)) l
                      else existsb (fun a => snd (meaning a)) l)
  | EPiece l d =>
      (fold_right (fun p s => if snd (meaning (snd p)) then fst (meaning (fst p)) else s) (fst (meaning d)) l, false)
  end.
Definition value (e : expr) : R := fst (meaning e).
Definition holds (e : expr) : bool := snd (meaning e).

(** No division by zero in what is evaluated. *)
Fixpoint defined (e : expr) : Prop :=
  match e with
  | EInt _ | ERat _ _ | EFloat _ _ | ESym _ => True
  | EAdd l | EMul l | EFun _ l | EBool _ l => fold_right (fun a p => defined a /\ p) True l
  | EPow a b => defined a /\ defined b /\
                match b with EInt (Zneg _) | ERat (Zneg _) _ => value a <> 0 | _ => True end
  | ERel _ a b => defined a /\ defined b
  | EPiece l d =>
      fold_right (fun c p => defined (snd c) /\ if holds (snd c) then defined (fst c) else p) (defined d) l
  end.
End Meaning.

(** What the functions pow, sqrt and cbrt of C and the power have to do with each other. *)
Record lawful (w : world) : Prop := mkLawful {
  l_pow  : forall a b, w_fun w "pow" [a; b] = w_pow w a b;
  l_sqrt : forall a, w_fun w "sqrt" [a] = w_pow w a (1 / 2)%R;
  l_cbrt : forall a, w_fun w "cbrt" [a] = w_pow w a (1 / 3)%R;
  l_one  : forall a, w_pow w a 1 = a;
  l_inv  : forall a b, a <> 0%R -> (w_pow w a (- b) = / w_pow w a b)%R
}.

(** ** The expressions that sympy builds.  [cond]: a condition is wanted, not a number.  In a product a
    negative number comes first; 1/(1/x) is x. *)
Definition relop (op : string) : bool :=
  (String.eqb op "<" || String.eqb op "<=" || String.eqb op ">" || String.eqb op ">=")%bool.
Definition eqop (op : string) : bool := (String.eqb op "==" || String.eqb op "!=")%bool.
Fixpoint regular (cond : bool) (e : expr) : Prop :=
  match e with
  | EInt _ | ERat _ _ => cond = false
  | EFloat _ d => cond = false /\ decimal d <> None
  | ESym n => cond = false /\ name n
  | EAdd l => cond = false /\ l <> [] /\ fold_right (fun a p => regular false a /\ p) True l
  | EMul l => cond = false /\ l <> [] /\ fold_right (fun a p => regular false a /\ p) True l /\
              fold_right (fun a p => negative_number a = false /\ p) True (tl l)
  | EPow a b => cond = false /\ regular false a /\ regular false b /\
                match a, b with EPow _ (EInt (-1)), EInt (-1) => False | _, _ => True end
  | EFun n l => cond = false /\ word n = true /\ fold_right (fun a p => regular false a /\ p) True l
  | ERel op a b => cond = true /\ (relop op || eqop op)%bool = true /\ regular false a /\ regular false b
  | EBool op l => cond = true /\ (op = "&&" \/ op = "||") /\ l <> [] /\
                  fold_right (fun a p => regular true a /\ p) True l
  | EPiece l d => cond = false /\ l <> [] /\
                  fold_right (fun c p => regular false (fst c) /\ regular true (snd c) /\ p) True l /\ regular false d
  end.

(** ** Integers: an expression built from integers without division has an integer type in C. *)
Fixpoint integral (e : expr) : bool :=
  match e with
  | EInt _ => true
  | EAdd l | EMul l => forallb integral l
  | EPiece l d => (forallb (fun c => integral (fst c)) l && integral d)%bool
  | _ => false
  end.
(** A factor that is printed in the denominator *)
Definition inverse (e : expr) : bool :=
  match e with EPow _ (EInt (Zneg _)) | EPow _ (ERat (Zneg _) _) => true | _ => false end.
(** A factor that makes the quotient one of doubles *)
Definition makes_double (e : expr) : bool :=
  match e with
  | EPow b (EInt (-1)) => negb (integral b)
  | _ => negb (integral e)
  end.
(** No quotient of two integers *)
Fixpoint no_integer_quotient (e : expr) : Prop :=
  match e with
  | EInt _ | ERat _ _ | EFloat _ _ | ESym _ => True
  | EAdd l | EFun _ l | EBool _ l => fold_right (fun a p => no_integer_quotient a /\ p) True l
  | EMul l => fold_right (fun a p => no_integer_quotient a /\ p) True l /\
              (existsb inverse l = true -> existsb makes_double l = true)
  | EPow a b => no_integer_quotient a /\ no_integer_quotient b
  | ERel _ a b => no_integer_quotient a /\ no_integer_quotient b
  | EPiece l d =>
      fold_right (fun c p => no_integer_quotient (fst c) /\ no_integer_quotient (snd c) /\ p) True l /\ no_integer_quotient d
  end.

(** ** C.  Values are of an integer or of a double type. *)
Inductive cval : Type := CI (z : Z) | CD (r : R).
Definition real (c : cval) : R := match c with CI z => IZR z | CD r => r end.
Definition cbool (b : bool) : cval := CI (if b then 1 else 0)%Z.
Definition arith (fz : Z -> Z -> Z) (fr : R -> R -> R) (a b : cval) : cval :=
  match a, b with CI x, CI y => CI (fz x y) | _, _ => CD (fr (real a) (real b)) end.
(** the usual arithmetic conversions *)
Definition choose (t : bool) (a b : cval) : cval :=
  match a, b with CI x, CI y => CI (if t then x else y) | _, _ => CD (if t then real a else real b) end.
Definition nonzero (c : cval) : bool := match c with CI z => negb (Z.eqb z 0) | CD r => if Req_EM_T r 0 then false else true end.
Definition not_minus (s : string) : Prop := match s with String "-" _ => False | _ => True end.

(** The grammar of expressions, ISO/IEC 9899 6.5.1 to 6.5.15; - before a - would be the operator --. *)
Inductive level : Type := Postfix | Unary | Mult | Additive | Relational | Equality | And | Or | Cond.
Definition above (l : level) : level :=
  match l with
  | Postfix => Unary | Unary => Mult | Mult => Additive | Additive => Relational | Relational => Equality
  | Equality => And | And => Or | Or => Cond | Cond => Cond
  end.
Section Parse.
Variable w : world.
Inductive parses : level -> string -> cval -> Prop :=
| p_int z : (0 <= z)%Z -> parses Postfix (str z) (CI z)
| p_double s r : decimal s = Some r -> parses Postfix s (CD r)
| p_name s : name s -> parses Postfix s (CD (w_name w s))
| p_call n s l : word n = true -> parses_args s l -> parses Postfix (n ++ "(" ++ s ++ ")") (CD (w_fun w n (map real l)))
| p_paren s c : parses Cond s c -> parses Postfix ("(" ++ s ++ ")") c
| p_minus s c : parses Unary s c -> not_minus s ->
    parses Unary ("-" ++ s) (match c with CI z => CI (- z) | CD r => CD (- r) end)
| p_mul a b x y : parses Mult a x -> parses Unary b y -> parses Mult (a ++ "*" ++ b) (arith Z.mul Rmult x y)
| p_div a b x y : parses Mult a x -> parses Unary b y -> parses Mult (a ++ "/" ++ b) (arith Z.quot Rdiv x y)
| p_add a b x y : parses Additive a x -> parses Mult b y -> parses Additive (a ++ " + " ++ b) (arith Z.add Rplus x y)
| p_sub a b x y : parses Additive a x -> parses Mult b y -> parses Additive (a ++ " - " ++ b) (arith Z.sub Rminus x y)
| p_rel op a b x y : relop op = true -> parses Relational a x -> parses Additive b y ->
    parses Relational (a ++ " " ++ op ++ " " ++ b) (cbool (relation op (real x) (real y)))
| p_eq op a b x y : eqop op = true -> parses Equality a x -> parses Relational b y ->
    parses Equality (a ++ " " ++ op ++ " " ++ b) (cbool (relation op (real x) (real y)))
| p_and a b x y : parses And a x -> parses Equality b y -> parses And (a ++ " && " ++ b) (cbool (nonzero x && nonzero y))
| p_or a b x y : parses Or a x -> parses And b y -> parses Or (a ++ " || " ++ b) (cbool (nonzero x || nonzero y))
| p_cond c a b x y z : parses Or c z -> parses Cond a x -> parses Cond b y ->
    parses Cond (c ++ " ? " ++ a ++ " : " ++ b) (choose (nonzero z) x y)
| p_up l s c : parses l s c -> parses (above l) s c
with parses_args : string -> list cval -> Prop :=
| a_none : parses_args "" []
| a_one s c : parses Cond s c -> parses_args s [c]
| a_more s r c d l : parses Cond s c -> parses_args r (d :: l) -> parses_args (s ++ ", " ++ r) (c :: d :: l).
End Parse.
