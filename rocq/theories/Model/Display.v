(** The progress displayed during a transient run: festim/generic_simulation.py (display_time). *)
From Coq Require Import ZArith QArith Qround List Bool String Ascii.
From Verif Require Import Base.Exc Base.Num Base.Key.
Local Open Scope string_scope.

(** Python's round and format round to the nearest.  At a tie n + 1/2 the result depends on the binary representation of the float:
    [up n] tells whether it is n + 1.  Simplification: floats are rational numbers. *)
Definition nearest (up : Z -> bool) (q : Q) : Z :=
  let n := Qfloor q in
  match Qcompare (q - inject_Z n) (1 # 2) with
  | Lt => n
  | Eq => if up n then (n + 1)%Z else n
  | Gt => (n + 1)%Z
  end.

Section Display.
(** The ties of round(x, 2) and of "{:.1f}". *)
Variables up2 up1 : Z -> bool.

(** generic_simulation.py L526: simulation_percentage = round(t / final_time * 100, 2), in hundredths. *)
Definition simulation_percentage (t final_time : Q) : res Z :=
  if Qeq_bool final_time 0 then Err ZeroDivisionError else Ok (nearest up2 (t / final_time * 100 * 100)).
(** generic_simulation.py L528: "{:.1f} %".format(simulation_percentage), in tenths. *)
Definition one_decimal (hundredths : Z) : Z := nearest up1 (hundredths # 10).
(** The text of n tenths. *)
Definition tenths_text (n : Z) : string :=
  (if Z.ltb n 0 then "-" else "") ++ str (Z.abs n / 10) ++ "." ++ str (Z.abs n mod 10).

(** How the line ends: it is overwritten by the next one, or stays. *)
Inductive line_end : Type := CarriageReturn | NewLine.
(** generic_simulation.py L524-537: display_time.  Simplification: of the message only the percentage, not the time and the elapsed
    time. *)
Definition display_time (log_level : Z) (t final_time : Q) : res (string * line_end) :=
  let! p := simulation_percentage t final_time in
  let msg := tenths_text (one_decimal p) ++ " %" in
  Ok (msg, if negb (isclose t final_time) && Z.eqb log_level 40 then CarriageReturn else NewLine).
End Display.

(** The messages of a run, one for each time visited: display_time is called once per iterate (generic_simulation.py L513), after the
    solver and before the post processing.  Simplification: the message of a step whose post processing raises is left out. *)
Definition displayed (up2 up1 : Z -> bool) (log_level : Z) (final_time : Q) (ts : list Q) : list (res (string * line_end)) :=
  map (fun t => display_time up2 up1 log_level t final_time) ts.
