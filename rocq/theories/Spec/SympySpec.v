(** The value of an expression, which is what f.Expression computes (C54). *)
From Coq Require Import ZArith List Bool String.
From Verif Require Import Model.SympyAst.
Import ListNotations.
Local Open Scope string_scope.

(** Any interpretation of the operations. *)
Record meaning (B : Type) : Type := mkMeaning {
  m_int   : Z -> B;
  m_rat   : Z -> positive -> B;
  m_float : bool -> string -> B;
  m_sum   : list B -> B;
  m_prod  : list B -> B;
  m_pow   : B -> B -> B;
  m_fun   : string -> list B -> B;
  m_rel   : string -> B -> B -> B;
  m_bool  : string -> list B -> B;
  m_piece : list (B * B) -> B -> B
}.
Arguments m_int {B} _. Arguments m_rat {B} _. Arguments m_float {B} _. Arguments m_sum {B} _.
Arguments m_prod {B} _. Arguments m_pow {B} _. Arguments m_fun {B} _. Arguments m_rel {B} _.
Arguments m_bool {B} _. Arguments m_piece {B} _.

(** The value at time t; [env]: the other symbols (the coordinates). *)
Fixpoint value_at {B} (m : meaning B) (env : string -> B) (t : B) (e : expr) : B :=
  match e with
  | EInt z => m_int m z
  | ERat p q => m_rat m p q
  | EFloat n d => m_float m n d
  | ESym n => if String.eqb n "t" then t else env n
  | EAdd l => m_sum m (map (value_at m env t) l)
  | EMul l => m_prod m (map (value_at m env t) l)
  | EPow a b => m_pow m (value_at m env t a) (value_at m env t b)
  | EFun n l => m_fun m n (map (value_at m env t) l)
  | ERel op a b => m_rel m op (value_at m env t a) (value_at m env t b)
  | EBool op l => m_bool m op (map (value_at m env t) l)
  | EPiece l d => m_piece m (map (fun p => (value_at m env t (fst p), value_at m env t (snd p))) l) (value_at m env t d)
  end.

(** No name in e contains the letter t and there is no square or cubic root. *)
Definition has_letter (s : string) : Prop := exists a b, s = a ++ "t" ++ b.
Definition root (e : expr) : Prop :=
  match e with
  | ERat p q => (p = 1 \/ p = -1)%Z /\ (q = 2 \/ q = 3)%positive
  | EFloat false "0.5" => True
  | _ => False
  end.
Fixpoint plain (e : expr) : Prop :=
  match e with
  | EInt _ | ERat _ _ => True
  | EFloat _ d => ~ has_letter d
  | ESym n => ~ has_letter n
  | EAdd l | EMul l => fold_right (fun a p => plain a /\ p) True l
  | EPow a b => plain a /\ plain b /\ ~ root b
  | EFun n l => ~ has_letter n /\ fold_right (fun a p => plain a /\ p) True l
  | ERel op a b => ~ has_letter op /\ plain a /\ plain b
  | EBool op l => ~ has_letter op /\ fold_right (fun a p => plain a /\ p) True l
  | EPiece l d => fold_right (fun c p => (plain (fst c) /\ plain (snd c)) /\ p) True l /\ plain d
  end.
