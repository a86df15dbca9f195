(** C114: the values of sources, densities, temperatures and initial conditions at a point, at each time of a run. *)
From Coq Require Import Reals List Bool String Lra.
From Verif Require Import Base.Exc Model.SympyAst Model.TimedInputs Spec.CcodeSpec Spec.ImposedSpec Spec.TimedInputsSpec
  Properties.CcodeProps Properties.ImposedProps.
Import ListNotations.
Local Open Scope R_scope.
Local Open Scope string_scope.

Definition timed (w : R -> world) (code : R -> string -> R) (l : list expr) : Prop := forall t, readable (w t) (code t) l.
Lemma timed_read w code l e t : clock w -> timed w code l -> In e l -> code t (ccode e) = value (w t) e.
Proof. intros C H Hin. exact (read (w t) (code t) l e (proj1 (C t)) (H t) Hin). Qed.
Lemma timed_sub w code l l' : timed w code l -> (forall e, In e l' -> In e l) -> timed w code l'.
Proof. intros H S t e He. apply (H t). now apply S. Qed.

Lemma run_cons times o b l : run times ((o, b) :: l) =
  (if b then fold_left (fun o t => set_t t o) times o else o, b) :: run times l.
Proof.
  unfold run. revert o l. induction times as [|t times IH]; intros o l; [now destruct b|].
  cbn [fold_left update]. destruct b; rewrite IH; reflexivity.
Qed.
Lemma set_ts code times o :
  value_at code (fold_left (fun o t => set_t t o) times o) =
  match o with
  | FConstant x | FFunction x => x
  | FExpression s t => code (latest t times) s
  | Own g t => g (latest t times)
  end.
Proof.
  revert o. induction times as [|t times IH]; intros o; cbn [fold_left]; [now destruct o|]. rewrite IH. now destruct o.
Qed.

(** Sources: a problem (hydrogen, trap or heat) accepts exactly numbers, expressions of sympy and expressions or functions of
    fenics; after any steps each source has the value that is meant at the time of the last step, in its own place. *)
Theorem C114_sources : forall w code heat times l, clock w -> timed w code (exprs l) ->
  ((exists f, create_source_form heat l = Ok f) <-> Forall accepted l) /\
  (forall x, create_source_form heat l = Err x -> exists m, x = AttributeError m) /\
  forall f, create_source_form heat l = Ok f -> Forall2 (means w times) l (seen code (run times f)).
Proof.
  intros w code heat times l C H. induction l as [|a l IH].
  - split; [split; [constructor|now exists []]|]. split; [discriminate|]. intros f [= <-].
    replace (run times []) with (@nil (object * bool)); [constructor|]. symmetry. unfold run. now induction times.
  - assert (H' : timed w code (exprs l)).
    { apply (timed_sub w code _ _ H). intros e He. unfold exprs. cbn [flat_map]. apply in_or_app. now right. }
    destruct (IH H') as (I1 & I2 & I3). cbn [create_source_form].
    destruct (create_source_form heat l) as [f|y] eqn:E.
    + assert (F : Forall accepted l) by (apply I1; now exists f).
      destruct (source_value a) as [o|] eqn:Eo; cbn [attribute bind].
      * assert (Ha : accepted a) by (destruct a; try discriminate; exact I).
        split; [split; [intros _; now constructor|intros _; eexists; reflexivity]|]. split; [discriminate|].
        intros f' [= <-]. rewrite run_cons. unfold seen. cbn [map fst]. constructor; [|now apply I3].
        destruct a as [x|e|x|g t|x|]; try discriminate Eo; injection Eo as <-; cbn [is_expression]; rewrite ?orb_true_r, ?orb_false_r.
        -- destruct heat; [rewrite set_ts|]; constructor.
        -- rewrite set_ts, (timed_read w code (exprs (ASympy e :: l)) e _ C H) by (now left). constructor.
        -- rewrite set_ts. constructor.
        -- destruct heat; [rewrite set_ts|]; constructor.
      * assert (Ha : ~ accepted a) by (destruct a; try discriminate; auto).
        split; [split; [intros [f' G]; discriminate|intros G; inversion G; contradiction]|].
        split; [|discriminate]. intros x [= <-]. eexists. reflexivity.
    + assert (F : ~ Forall accepted l) by (intros G; apply I1 in G; destruct G; discriminate).
      destruct (attribute (source_value a)) as [o|z] eqn:Eo; cbn [bind].
      * split; [split; [intros [f' G]; discriminate|intros G; inversion G; contradiction]|].
        split; [intros x [= <-]; now apply I2|discriminate].
      * split; [split; [intros [f' G]; discriminate|intros G; inversion G; contradiction]|].
        split; [|discriminate]. intros x [= <-]. unfold attribute in Eo. destruct (source_value a); [discriminate|].
        injection Eo as <-. eexists. reflexivity.
Qed.

(** Densities of traps: None is left out; every other entry has, after any steps, the value at the time of the last step. *)
Theorem C114_densities : forall w code times l, clock w ->
  timed w code (exprs (flat_map (fun o => match o with Some a => [a] | None => [] end) l)) ->
  forall d, make_density l = Ok d ->
  Forall2 (means w times) (flat_map (fun o => match o with Some a => [a] | None => [] end) l)
    (map (value_at code) (run_density times d)).
Proof.
  intros w code times l C.
  assert (U : forall times d, map (value_at code) (run_density times d)
                = map (fun o => value_at code (fold_left (fun o t => set_t t o) times o)) d).
  { clear. unfold run_density. induction times as [|t times IH]; intros d; [reflexivity|]. cbn [fold_left]. rewrite IH.
    induction d as [|o d IHd]; [reflexivity|]. cbn [update_expressions map]. now rewrite IHd. }
  induction l as [|[a|] l IH]; intros H d Hd.
  - injection Hd as <-. rewrite U. constructor.
  - cbn [flat_map app] in H |- *.
    assert (H' := timed_sub w code _ (exprs (flat_map (fun o => match o with Some a => [a] | None => [] end) l)) H
                    (fun e He => in_or_app _ _ e (or_intror He))).
    destruct a as [x|e|x|g t|x|]; try discriminate Hd; cbn [make_density] in Hd;
      destruct (make_density l) as [d'|] eqn:E; try discriminate Hd; injection Hd as <-;
      specialize (IH H' d' eq_refl); rewrite U in IH |- *; cbn [map]; (constructor; [|exact IH]); rewrite set_ts.
    + rewrite (timed_read w code _ e _ C H) by (now left). constructor.
    + constructor.
  - now apply IH.
Qed.

(** Temperature: T is the value at the time of the last step, T_n at the one before; both at 0 before the first step. *)
Theorem C114_temperature : forall w code e times, clock w -> timed w code [e] ->
  T_now (run_T code times (create_functions code e)) = value (w (latest 0 times)) e /\
  T_previous (run_T code times (create_functions code e)) = value (w (latest 0 (removelast times))) e.
Proof.
  intros w code e times C H.
  assert (V : forall t, code t (ccode e) = value (w t) e) by (intros t; apply (timed_read w code [e]); [exact C|exact H|now left]).
  assert (G : forall times t0 p,
    T_now (run_T code times (mkTemperature (FExpression (ccode e) t0) (code t0 (ccode e)) p)) = code (latest t0 times) (ccode e) /\
    T_previous (run_T code times (mkTemperature (FExpression (ccode e) t0) (code t0 (ccode e)) p))
      = match times with [] => p | _ => code (latest t0 (removelast times)) (ccode e) end).
  { clear. induction times as [|t times IH]; intros t0 p; [split; reflexivity|].
    unfold run_T. cbn [fold_left]. unfold update_T at 2 4. cbn [T_now T_expression set_t value_at].
    destruct (IH t (code t0 (ccode e))) as [I1 I2]. split; [exact I1|]. unfold run_T in I2. rewrite I2. now destruct times. }
  unfold create_functions. cbv zeta. cbn [value_at]. destruct (G times 0 (code 0 (ccode e))) as [G1 G2].
  rewrite G1, G2, !V. split; [reflexivity|]. now destruct times.
Qed.

(** Initial concentrations, and the initial temperature of a heat problem however it is given, are values at t = 0. *)
Theorem C114_initial : forall w code e, clock w -> timed w code [e] ->
  initialise code e = value (w 0) e /\
  heat_start code (set_initial_condition (inl e)) = Ok (value (w 0) e) /\
  (forall field, heat_start code (set_initial_condition (inr (Some (mkIni field e)))) = Ok (value (w 0) e)) /\
  (forall v, (exists x, heat_start code (set_initial_condition v) = Err x) <-> v = inr None).
Proof.
  intros w code e C H.
  assert (V : code 0 (ccode e) = value (w 0) e) by (apply (timed_read w code [e]); [exact C|exact H|now left]).
  unfold initialise, heat_start. cbn [set_initial_condition i_value value_at]. rewrite V.
  split; [reflexivity|]. split; [reflexivity|]. split; [reflexivity|].
  intros [e'|[i|]]; cbn [set_initial_condition]; (split; [intros [x G]; congruence|]); try discriminate.
  intros _. eexists. reflexivity.
Qed.

(** The parameters of an extrinsic trap: whatever the steps, an expression of time keeps its value at t = 0. *)
Theorem C114_frozen : forall w code a o times, clock w -> timed w code (exprs [a]) -> parameter a = Some o ->
  exists v, seen code (run times (parameter_form o)) = [v] /\
    (means w [] a v \/ exists x, a = AConstant x /\ v = x).
Proof.
  intros w code a o times C H Ho. unfold parameter_form. rewrite run_cons.
  replace (run times []) with (@nil (object * bool)) by (unfold run; now induction times).
  eexists. split; [reflexivity|]. cbn [fst].
  destruct a as [x|e|x|g t|x|]; try discriminate Ho; injection Ho as <-; cbn [value_at].
  - left. constructor.
  - left. rewrite (timed_read w code _ e 0 C H) by (now left). apply (means_expr w [] e).
  - right. now exists x.
  - left. apply (means_own w [] g t).
Qed.


(** ** Examples: 3*t*x + 1.5 at x = 5 *)
Definition at_time (t : R) : world :=
  mkWorld (fun n => if String.eqb n "t" then t else 5) (w_fun real_world) (w_pow real_world).
Definition machine (t : R) (s : string) : R := if String.eqb s "3*t*x[0] + 1.5" then 15 * t + 3 / 2 else 0.
Example C114_clock : clock at_time.
Proof.
  intros t. split; [|split; [reflexivity|]].
  - destruct (proj1 C93_world). constructor; assumption.
  - intros t'. split; [reflexivity|]. split; [reflexivity|]. intros n Hn. unfold at_time. cbn [w_name].
    destruct (String.eqb_spec n "t"); [contradiction|reflexivity].
Qed.
Lemma pressure_at t : value (at_time t) pressure = 15 * t + 3 / 2.
Proof.
  change (value (at_time t) pressure) with
    (3 * (w_name (at_time t) "t" * (w_name (at_time t) "x[0]" * 1)) + (1 * (IZR 15 / 10 ^ 1) + 0)).
  cbn [w_name at_time String.eqb Ascii.eqb Bool.eqb]. lra.
Qed.
Example C114_timed : timed at_time machine [pressure].
Proof.
  intros t e [<-|[]]. destruct (proj2 C113_readable pressure (or_introl eq_refl)) as (Hr & Hq & _ & _).
  assert (Hd : defined (at_time t) pressure) by (cbn; repeat split).
  split; [exact Hr|]. split; [exact Hq|]. split; [exact Hd|]. intros c Hc.
  rewrite (proj1 (C93_only_value _ _ c (proj1 (C114_clock t)) Hr Hq Hd) Hc), pressure_at. reflexivity.
Qed.
(** Three sources of a hydrogen problem after the steps at 1 and 4; a fenics.Constant is refused. *)
Example C114_three :
  (exists f, create_source_form false [ASympy pressure; ANumber 7; AOwn (fun t => t * t) 9] = Ok f /\
     seen machine (run [1; 4] f) = [15 * 4 + 3 / 2; 7; 4 * 4] /\ seen machine (run [] f) = [15 * 0 + 3 / 2; 7; 9 * 9]) /\
  exists x, create_source_form false [ASympy pressure; AConstant 7] = Err x.
Proof. split; [eexists; split; [reflexivity|]; split; reflexivity|eexists; reflexivity]. Qed.
Example C114_warm : let s := run_T machine [1; 4] (create_functions machine pressure) in
  T_now s = 15 * 4 + 3 / 2 /\ T_previous s = 15 * 1 + 3 / 2.
Proof.
  cbv zeta. destruct (C114_temperature at_time machine pressure [1; 4] C114_clock C114_timed) as [-> ->].
  split; apply pressure_at.
Qed.
Example C114_sites : exists d, make_density [None; Some (ASympy pressure)] = Ok d /\
  map (value_at machine) (run_density [1; 4] d) = [15 * 4 + 3 / 2].
Proof. eexists. split; reflexivity. Qed.
Example C114_begin : initialise machine pressure = 15 * 0 + 3 / 2.
Proof. rewrite (proj1 (C114_initial at_time machine pressure C114_clock C114_timed)). apply pressure_at. Qed.
(** At t = 4 the parameter has its value of t = 0, which is another one. *)
Example C114_stale : exists o, parameter (ASympy pressure) = Some o /\
  seen machine (run [1; 4] (parameter_form o)) = [15 * 0 + 3 / 2] /\ 15 * 0 + 3 / 2 <> value (at_time 4) pressure.
Proof. eexists. split; [reflexivity|]. split; [reflexivity|]. rewrite pressure_at. lra. Qed.

Print Assumptions C114_sources.
Print Assumptions C114_densities.
Print Assumptions C114_temperature.
Print Assumptions C114_initial.
Print Assumptions C114_frozen.
