(** C79: calling run() again, without initialise(). *)
From Coq Require Import ZArith QArith Qabs List Bool Lqa Lia String.
From Verif Require Import Base.Exc Base.Num Model.Stepsize Model.TimeLoop Spec.TimeSpec
  Proofs.NumQ Proofs.StepsizeProofs Proofs.TimeLoopProofs Proofs.TimeQ Proofs.TimeWitness Proofs.TimeResume.
Import ListNotations.
Local Open Scope Q_scope.

(** The user assigns the stepsize between two runs: sim.dt.value.assign(v). *)
Definition with_stepsize {U X D E} (st : state (A:=Q) U X D E) (v : Q) : state (A:=Q) U X D E :=
  mkState (st_t st) (assign (st_dt st) v) (st_T st) (st_Tn st) (st_u st) (st_un st) (st_dens st) (st_densn st)
    (st_expr st) (st_exp st).

Section Again.
Context {U X D E : Type}.
Variable temp : temperature (A:=Q) X.
Variable dens_solve : D -> D -> Q -> X -> D.
Variable post : Q -> U -> X -> E -> res E.
Local Notation run := (run_transient temp dens_solve post).

(** A finished run, run again: no solve, nothing exported, nothing changed. *)
Theorem C79_finished F st sched st' evs :
  run F st sched = (st', evs, Done) -> forall sched', run F st' sched' = (st', [], Done).
Proof. intros H sched'. apply run_stopped. eapply run_done_not_running; eauto. Qed.

(** A run cut between two steps and run again does what the uncut run does. *)
Theorem C79_interrupted F st sched1 st1 evs1 sched2 st2 evs2 k :
  solvable sched1 ->
  run F st sched1 = (st1, evs1, Pending) -> run F st1 sched2 = (st2, evs2, k) ->
  run F st (sched1 ++ sched2) = (st2, evs1 ++ evs2, k).
Proof. intros Hs H1 H2. rewrite (run_resume temp dens_solve post F sched2 sched1 st st1 evs1 Hs H1), H2. reflexivity. Qed.

Variables (T0 Tn0 : X) (u0 un0 : U) (d0 dn0 : D) (e0 : E).
Variables (init : Q) (ratio t_stop stop_max : option Q) (mx : maxspec Q) (dtmin : option Q)
  (miles : option (list Q)).
Local Notation S := (mk_stepsize init ratio t_stop stop_max mx dtmin miles).

(** Part of C79: a finished run continued to a later final time F' with a stepsize v given anew: the times go on
    increasing from the time reached up to F', and every solve has a positive stepsize.  Missing: the stepsize
    left by the first run, with which nothing advances, see C79_extended_stuck. *)
Theorem C79_extended_partial F F' v sched st' evs sched' st2 evs2 k :
  0 < init -> init <= F -> positive_settings S ->
  run F (start S T0 Tn0 u0 un0 d0 dn0 e0) sched = (st', evs, Done) ->
  0 < v -> st_t st' + v <= F' ->
  run F' (with_stepsize st' v) sched' = (st2, evs2, k) ->
  chain Qlt (st_t st' :: visited evs2) /\ (forall t, In t (visited evs2) -> t <= F') /\
  (forall c, In c (solves evs2) -> 0 < sv_dt c) /\
  (k = Done -> F' <= st_t st2 \/ close (st_t st2) F').
Proof.
  intros Hi HF Hp H1 Hv Hle H2.
  pose proof (run_done_steps _ _ _ _ _ _ _ _ H1) as [Hs _].
  pose proof (good_start F S T0 Tn0 u0 un0 d0 dn0 e0 Hp Hi) as Hg.
  assert (H0 : st_t (start S T0 Tn0 u0 un0 d0 dn0 e0) + value (st_dt (start S T0 Tn0 u0 un0 d0 dn0 e0)) <= F).
  { cbn. rewrite Qplus_0_l. exact HF. }
  destruct (steps_increasing temp dens_solve post F _ _ _ Hg H0 Hs) as (_ & _ & [Hp' _] & _).
  assert (Hg2 : good F' (with_stepsize st' v)) by (split; [exact Hp'|intros _; exact Hv]).
  assert (Hd : k = Done -> F' <= st_t st2 \/ close (st_t st2) F').
  { intros ->. apply run_done_not_running in H2. now apply running_false in H2. }
  apply run_steps in H2 as (sa & ea & eb & Hsa & -> & Hcase).
  destruct (steps_increasing temp dens_solve post F' _ _ _ Hg2 Hle Hsa) as (Ha & Hb & Hg' & Hle').
  destruct (steps_le temp dens_solve post F' (with_stepsize st' v) _ _ Hle Hsa) as (_ & Hc & _).
  rewrite visited_app, solves_app.
  destruct Hcase as [(_ & _ & _ & ->)|[(_ & _ & _ & ->)|(Hn & Hr & atts & Hit)]].
  - cbn. rewrite !app_nil_r. auto.
  - cbn. rewrite !app_nil_r. auto.
  - pose proof (iterate_not_done _ _ _ _ _ _ _ _ _ Hit Hn) as
      (T' & Tn' & u' & s' & e0' & stt0 & tl & _ & Hl & -> & Hvi & Ht & Hst).
    rewrite Hvi, app_nil_r. split; [exact Ha|]. split; [exact Hc|]. split; [|exact Hd].
    intros c Hin. apply in_app_or in Hin as [|Hin]; [auto|].
    rewrite solves_app, Ht, app_nil_r in Hin. destruct Hg' as [Hpa Hva].
    eapply loop_pos; eauto.
Qed.

(** A run that ended exactly at its final time cannot be continued by raising final_time: whatever the solver
    returns, the second run never ends, all its solves have the stepsize 0 and it visits nothing but the old
    final time. *)
Theorem C79_extended_stuck F F' sched st' evs :
  0 < init -> init <= F -> positive_settings S ->
  run F (start S T0 Tn0 u0 un0 d0 dn0 e0) sched = (st', evs, Done) -> st_t st' == F ->
  F < F' -> ~ close F F' ->
  forall sched' st2 evs2 k, run F' st' sched' = (st2, evs2, k) ->
  k <> Done /\ (forall t, In t (visited evs2) -> t == F) /\ (forall c, In c (solves evs2) -> sv_dt c == 0).
Proof.
  intros Hi HF Hp H1 Ht HF' Hn sched' st2 evs2 k H2.
  pose proof (run_done_steps _ _ _ _ _ _ _ _ H1) as [Hs Hr].
  pose proof (good_start F S T0 Tn0 u0 un0 d0 dn0 e0 Hp Hi) as Hg.
  assert (H0 : st_t (start S T0 Tn0 u0 un0 d0 dn0 e0) + value (st_dt (start S T0 Tn0 u0 un0 d0 dn0 e0)) <= F).
  { cbn. rewrite Qplus_0_l. exact HF. }
  destruct (last_zero temp dens_solve post F _ _ _ Hg H0 Hs) as [->|[Hp' Hz]].
  - exfalso. destruct (steps_last _ _ _ _ _ _ _ Hs) as [[_ E1]|[pre E1]].
    + rewrite E1 in Ht. cbn in Ht. lra.
    + destruct pre; discriminate.
  - eapply run_stuck; eauto. split; [assumption|]. split; [assumption|]. auto.
Qed.
End Again.

(** C79 is false: after a run to 4, with final_time set to 8 and every solve converging, the times stay at 4. *)
Theorem C79_extended_refuted :
  exists s sched st' evs, run0 4 s sched = (st', evs, Done) /\
  forall n, let r := run_transient (TempExpr (fun _ => tt)) (fun (_ _ : unit) _ _ => tt)
                       (fun _ (_ : unit) _ _ => Ok tt) 8 st' (repeat [ok 3] n) in
  snd r <> Done /\ (forall t, In t (visited (snd (fst r))) -> t == 4).
Proof.
  exists (mk_stepsize 1 None None None MaxNone None None), (repeat [ok 3] 4).
  do 2 eexists. split; [vm_compute; reflexivity|]. intros n. cbn zeta.
  match goal with |- snd ?r <> _ /\ _ => destruct r as [[st2 evs2] k] eqn:E end. cbn [fst snd].
  eapply (C79_extended_stuck (TempExpr (fun _ => tt)) (fun (_ _ : unit) _ _ => tt) (fun _ (_ : unit) _ _ => Ok tt)
           tt tt tt tt tt tt tt 1 None None None MaxNone None None 4 8 (repeat [ok 3] 4)) in E as (A & B & _).
  - split; [exact A|exact B].
  - reflexivity.
  - discriminate.
  - exact I.
  - vm_compute. reflexivity.
  - reflexivity.
  - reflexivity.
  - intros H. unfold close in H. vm_compute in H. now apply H.
Qed.

(** C79 is false after an exception: a step of a run fails (no dt_min), the user halves the stepsize and calls
    run() again.  The clock was not set back: the next solve integrates a step of 1/2 from the initial state
    (concentration 0) to the time 3/2. *)
Theorem C79_after_failure_refuted :
  exists (s : stepsize Q) e (st' : state (A:=Q) Z unit unit unit) evs,
  let go := run_transient (TempExpr (fun _ => tt)) (fun (_ _ : unit) _ _ => tt) (fun _ (_ : Z) _ _ => Ok tt) 10 in
  go (start s tt tt 0%Z 0%Z tt tt tt) [[mkAttempt 7%Z 30 false]] = (st', evs, Raised e) /\
  visited evs = [] /\
  exists c, solves (snd (fst (go (with_stepsize st' (1 # 2)) [[mkAttempt 5%Z 3 true]]))) = [c] /\
  sv_dt c == 1 # 2 /\ sv_prev c = 0%Z /\ sv_t c == 3 # 2.
Proof.
  exists (mk_stepsize 1 (Some 2) None None MaxNone None None). do 3 eexists. cbn zeta.
  split; [vm_compute; reflexivity|]. split; [reflexivity|]. eexists. split; [vm_compute; reflexivity|].
  vm_compute. auto.
Qed.

(** A finished run, a run cut after two steps, and a run to 4 continued to 8 with a new stepsize. *)
Example C79_example :
  let s := mk_stepsize 1 (Some 2) None None (MaxConst 3) (Some (1 # 8)) (Some [2]) in
  let go := run_transient (TempExpr (fun _ => tt)) (fun (_ _ : unit) _ _ => tt) (fun _ (_ : unit) _ _ => Ok tt) in
  let cut := run0 10 s [[ok 3]; [ko 9; ok 3]] in
  solvable [[ok 3]; [ko 9; ok 3]] /\ snd cut = Pending /\
  map Qred (visited (snd (fst (go 10 (fst (fst cut)) (repeat [ok 3] 9))))) = [5 # 2; 7 # 2; 11 # 2; 17 # 2; 10] /\
  let whole := run0 4 s (repeat [ok 3] 5) in
  snd whole = Done /\ st_t (fst (fst whole)) == 4 /\ positive_settings s /\
  map Qred (visited (snd (fst (go 8 (with_stepsize (fst (fst whole)) 1) (repeat [ok 3] 9))))) = [5; 7; 8].
Proof.
  cbn zeta. split; [|split; [vm_compute; reflexivity|split; [vm_compute; reflexivity|]]].
  - intros atts H. cbn in H. destruct H as [<-|[<-|[]]]; exists (ok 3); cbn; tauto.
  - split; [vm_compute; reflexivity|]. split; [vm_compute; reflexivity|]. split; [|vm_compute; reflexivity].
    split; [cbn; lra|]. cbn. intros t b <-. lra.
Qed.

Print Assumptions C79_finished.
Print Assumptions C79_interrupted.
Print Assumptions C79_extended_partial.
Print Assumptions C79_extended_stuck.
Print Assumptions C79_extended_refuted.
Print Assumptions C79_after_failure_refuted.
