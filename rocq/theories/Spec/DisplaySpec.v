(** What the displayed progress should be. *)
From Coq Require Import ZArith QArith Qabs List String.
From Verif Require Import Base.Exc Base.Key Model.Display.
Import ListNotations.
Local Open Scope Q_scope.

(** The message shows the decimal number a.b (n = 10 a + b tenths, not negative). *)
Definition shows (s : string) (n : Z) : Prop :=
  exists a b, (0 <= a /\ 0 <= b <= 9 /\ n = 10 * a + b)%Z /\ s = (str a ++ "." ++ str b ++ " %")%string.
(** n tenths of a percent stand for t / final_time: at most 0.055 % away. *)
Definition stands_for (n : Z) (t final_time : Q) : Prop := Qabs (inject_Z n / 10 - 100 * (t / final_time)) <= 55 # 1000.
(** n tenths are the closest number of tenths. *)
Definition closest (n : Z) (t final_time : Q) : Prop :=
  forall k, Qabs (inject_Z n / 10 - 100 * (t / final_time)) <= Qabs (inject_Z k / 10 - 100 * (t / final_time)).
