(** C54: a temperature that says it is stationary does not change during a run. *)
From Coq Require Import ZArith QArith List Bool String Lia.
From Verif Require Import Base.Exc Base.Num Base.Key Model.SympyAst Model.Stepsize Model.TimeLoop Spec.TimeSpec Spec.SympySpec
  Proofs.TimeChain Proofs.TimeLoopProofs Proofs.TimeQ Proofs.TimeQ2 Proofs.SympyProofs.
Import ListNotations.
Local Open Scope string_scope.

(** For every meaning of the operations and every point, the value is the same at all times. *)
Theorem C54_steady : forall (B : Type) (m : meaning B) (env : string -> B) (e : expr),
  is_steady_state e = true ->
  forall t1 t2, value_at m env t1 e = value_at m env t2 e.
Proof.
  intros B m env e H t1 t2. unfold is_steady_state in H. apply negb_true_iff in H.
  exact (constant_all m env t1 t2 e H).
Qed.

(** In a transient run the temperature of every solve and of all that is post-processed is the one interpolated
    at the start; [nodes]: the nodes at which f.interpolate evaluates the expression. *)
Definition nodal {B} (m : meaning B) (time : Q -> B) (nodes : list (string -> B)) (e : expr) (t : Q) : list B :=
  map (fun env => value_at m env (time t) e) nodes.
Theorem C54_run :
  forall (B U D E : Type) (m : meaning B) (time : Q -> B) nodes e (dens_solve : D -> D -> Q -> list B -> D)
         (post : Q -> U -> list B -> E -> res E) F s Tn u un d dn x sched st' evs stt,
  is_steady_state e = true ->
  run_transient (TempExpr (nodal m time nodes e)) dens_solve post F
    (start s (nodal m time nodes e 0) Tn u un d dn x) sched = (st', evs, stt) ->
  (forall c, In c (solves evs) -> sv_T c = nodal m time nodes e 0 /\ (sv_Tn c = nodal m time nodes e 0)) /\
  (forall p, In p (posts evs) -> snd p = nodal m time nodes e 0).
Proof.
  intros B U D E m time nodes e dens_solve post F s Tn u un d dn x sched st' evs stt He H.
  assert (Hn : forall t, nodal m time nodes e t = nodal m time nodes e 0).
  { intros t. unfold nodal. apply map_ext. intros env. now apply C54_steady. }
  destruct (run_temperature_expr _ _ _ _ _ _ _ _ _ _ _ _ _ _ _ _ _ eq_refl H) as (H1 & H2 & H3).
  assert (HT : forall c, In c (solves evs) -> sv_T c = nodal m time nodes e 0).
  { intros c Hc. now rewrite (H1 c Hc), Hn. }
  assert (HTn : forall c, In c (solves evs) -> sv_Tn c = nodal m time nodes e 0).
  { destruct (solves evs) as [|c r]; [easy|]. pose proof (H3 c r eq_refl) as Hc. clear H1 H3. revert c Hc H2 HT.
    induction r as [|b r IH]; intros c Hc H2 HT c' Hin.
    - destruct Hin as [ <- |[]]. exact Hc.
    - destruct Hin as [ <- |Hin]; [exact Hc|]. destruct H2 as [Hb H2].
      apply (IH b); auto; [|intros y Hy; apply HT; now right].
      rewrite Hb. destruct (at_conv (sv_out c)); [apply HT; now left|exact Hc]. }
  split; [auto|].
  destruct (run_posts _ _ _ _ _ _ _ _ _ _ _ _ _ _ _ _ H) as (tl & Hp & _).
  intros p Hp0. assert (Hi : In p (map (fun c => (sv_t c, at_u (sv_out c), sv_T c))
                            (filter (fun c => at_conv (sv_out c)) (solves evs)))) by (rewrite Hp; apply in_or_app; now left).
  apply in_map_iff in Hi as (c & <- & Hc). apply filter_In in Hc as [Hc _]. cbn [snd]. now apply HT.
Qed.

(** The other two temperatures that say so: a stationary heat problem and a temperature read from a file. *)
Theorem C54_run_frozen :
  forall (U X D E : Type) temp (dens_solve : D -> D -> Q -> X -> D) (post : Q -> U -> X -> E -> res E)
         F s T Tn u un d dn x sched st' evs stt,
  (exists solve, temp = TempHeat false solve) \/ temp = TempXDMF ->
  run_transient temp dens_solve post F (start s T Tn u un d dn x) sched = (st', evs, stt) ->
  (forall c, In c (solves evs) -> sv_T c = T /\ sv_Tn c = Tn) /\ (forall p, In p (posts evs) -> snd p = T).
Proof.
  intros U X D E temp dens_solve post F s T Tn u un d dn x sched st' evs stt Htemp H.
  assert (Hup : forall t dt a b, temp_update temp t dt a b = (a, b)).
  { intros t dt a b. destruct Htemp as [[solve -> ]| -> ]; reflexivity. }
  pose proof (run_chain_start _ _ _ _ _ _ _ _ _ _ _ _ _ _ _ _ H) as Hch.
  assert (HT : forall c, In c (solves evs) -> sv_T c = T /\ sv_Tn c = Tn).
  { destruct (solves evs) as [|c r] eqn:Heq; [easy|].
    destruct (run_first_solve _ _ _ _ _ _ _ _ _ _ _ H Heq) as (_ & _ & _ & _ & _ & Htu).
    rewrite Hup in Htu. injection Htu as H1 H2. clear Heq H. revert c H1 H2 Hch.
    induction r as [|b r IH]; intros c H1 H2 Hch c' Hin.
    - destruct Hin as [ <- |[]]. auto.
    - destruct Hin as [ <- |Hin]; [auto|]. destruct Hch as [Hf Hch]. apply (IH b); auto.
      + destruct Hf as [Hr|Hn].
        * destruct Hr as (_ & _ & _ & _ & HT' & _). congruence.
        * destruct Hn as (_ & _ & _ & _ & Htu & _). rewrite Hup in Htu. congruence.
      + destruct Hf as [Hr|Hn].
        * destruct Hr as (_ & _ & _ & _ & _ & HT' & _). congruence.
        * destruct Hn as (_ & _ & _ & _ & Htu & _). rewrite Hup in Htu. congruence. }
  split; [exact HT|].
  destruct (run_posts _ _ _ _ _ _ _ _ _ _ _ _ _ _ _ _ H) as (tl & Hp & _).
  intros p Hp0. assert (Hi : In p (map (fun c => (sv_t c, at_u (sv_out c), sv_T c))
                            (filter (fun c => at_conv (sv_out c)) (solves evs)))) by (rewrite Hp; apply in_or_app; now left).
  apply in_map_iff in Hi as (c & <- & Hc). apply filter_In in Hc as [Hc _]. cbn [snd]. now apply HT.
Qed.

(** The converse needs more: when no name has the letter t and there is no root, the answer is true. *)
Theorem C54_complete : forall e, plain e -> is_steady_state e = true.
Proof. intros e H. unfold is_steady_state. now rewrite (proj1 (plain_none e H)). Qed.

(** It does not hold otherwise (outside the claim): a square root of the position, say. *)
Theorem C54_converse_refuted : exists e,
  (forall (B : Type) (m : meaning B) env t1 t2, value_at m env t1 e = value_at m env t2 e) /\ is_steady_state e = false.
Proof. exists (EPow (ESym "x[0]") (ERat 1 2)). split; [intros; reflexivity|reflexivity]. Qed.

(** ** Examples *)
(** 300 + 10*x - 2/(x*(1 + y)) and a temperature with time in a product's denominator *)
Definition stationary : expr :=
  EAdd [EMul [EInt 10; ESym "x[0]"]; EInt 300; EMul [EInt (-2); EPow (ESym "x[0]") (EInt (-1)); EPow (EAdd [ESym "x[1]"; EInt 1]) (EInt (-1))]].
Example C54_text : ccode stationary = "10*x[0] + 300 - 2/(x[0]*(x[1] + 1))".
Proof. reflexivity. Qed.
Example C54_stationary : is_steady_state stationary = true /\ plain stationary.
Proof.
  split; [reflexivity|].
  cbn. repeat split; try exact I;
    try (intros H; apply contains_spec in H; discriminate); intros [].
Qed.
Example C54_moving : let e := EMul [EInt 300; EPow (EAdd [ESym "t"; EInt 1]) (EInt (-2))] in
  ccode e = "300/pow(t + 1, 2)" /\ is_steady_state e = false.
Proof. split; reflexivity. Qed.
(** A transient run that meets the hypotheses of C54_run: two steps with 300 + x. *)
Definition meaningQ : meaning Q :=
  mkMeaning Q inject_Z (fun p q => p # q)%Q (fun _ _ => 0%Q) (fold_right Qplus 0%Q) (fold_right Qmult 1%Q)
    (fun a _ => a) (fun _ _ => 0%Q) (fun _ _ _ => 0%Q) (fun _ _ => 0%Q) (fun _ d => d).
Example C54_run_example :
  let e := EAdd [ESym "x[0]"; EInt 300] in
  let T := nodal meaningQ (fun t => t) [fun _ => 0%Q; fun _ => 1%Q] e in
  let r := run_transient (U:=Q) (D:=unit) (E:=unit) (TempExpr T) (fun d _ _ _ => d) (fun _ _ _ x => Ok x) 2%Q
             (start (mkStepsize 1%Q 1%Q None None) (T 0%Q) [] 0%Q 0%Q tt tt tt)
             [[mkAttempt 5%Q 2 true]; [mkAttempt 6%Q 2 true]] in
  is_steady_state e = true /\ snd r = Done /\ List.length (solves (snd (fst r))) = 2%nat /\
  T 0%Q = [300; 301]%Q.
Proof. vm_compute. repeat split; reflexivity. Qed.

Print Assumptions C54_steady.
Print Assumptions C54_run.
Print Assumptions C54_run_frozen.
Print Assumptions C54_complete.
Print Assumptions C54_converse_refuted.
