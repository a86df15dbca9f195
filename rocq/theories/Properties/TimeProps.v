(** C01-C10, C12, C13: transient runs (exact arithmetic unless stated otherwise).

    [run F s sched]: run() of a transient simulation with final_time F and stepsize s, whose k-th
    time step sees the Newton outcomes of the k-th list of [sched].  The solver, the temperature,
    the extrinsic trap solver and the exports are arbitrary. *)
From Coq Require Import ZArith QArith Qabs Qminmax List Bool Lqa Lia String Floats.
From Verif Require Import Base.Exc Base.Num Model.Stepsize Model.TimeLoop Spec.TimeSpec
  Proofs.StepsizeProofs Proofs.TimeLoopProofs Proofs.TimeChain Proofs.TimeQ Proofs.TimeQ2
  Proofs.TimeTerm Proofs.TimeFloor Proofs.TimeRuns Proofs.TimeGrid Proofs.TimeWitness.
Import ListNotations.
Local Open Scope Q_scope.
Local Notation length := List.length.

Section Runs.
Context {U X D E : Type}.
Variable temp : temperature (A:=Q) X.
Variable dens_solve : D -> D -> Q -> X -> D.
Variable post : Q -> U -> X -> E -> res E.
(** State of the fields when run() is called. *)
Variables (T0 Tn0 : X) (u0 un0 : U) (d0 dn0 : D) (e0 : E).

Definition run (F : Q) (s : stepsize Q) (sched : list (list (attempt U))) :=
  run_transient temp dens_solve post F (start s T0 Tn0 u0 un0 d0 dn0 e0) sched.

(** Stepsize(initial_value, stepsize_change_ratio, t_stop, stepsize_stop_max, max_stepsize, dt_min,
    milestones) *)
Variables (init : Q) (ratio t_stop stop_max : option Q) (mx : maxspec Q) (dtmin : option Q)
  (miles : option (list Q)).
Local Notation S := (mk_stepsize init ratio t_stop stop_max mx dtmin miles).

Theorem C01_no_overshoot F sched st' evs stt :
  init <= F -> 0 <= F ->
  run F S sched = (st', evs, stt) ->
  (forall t, In t (visited evs) -> t <= F) /\
  (forall c, In c (solves evs) -> sv_t c <= F) /\ st_t st' <= F.
Proof.
  intros Hi HF H. destruct (run_no_overshoot temp dens_solve post F S _ _ _ _ _ _ _ _ _ _ _ Hi H) as (A & B & C).
  auto.
Qed.

Theorem C02_stops_at_final_time F sched st' evs :
  0 < F -> run F S sched = (st', evs, Done) ->
  (exists pre, visited evs = (pre ++ [st_t st'])%list) /\
  (F <= st_t st' \/ close (st_t st') F) /\
  (init <= F -> (forall t, In t (visited evs) -> t < F -> ~ close t F) -> st_t st' == F).
Proof.
  intros HF H. destruct (run_reaches_final temp dens_solve post F S _ _ _ _ _ _ _ _ _ _ H HF) as (A & B & C).
  auto.
Qed.

(** Part of C03: milestones are visited when no visited time falls just below (relative distance
    1e-5) a milestone or final_time.  Missing: the other runs, see C03_milestones_hit_refuted. *)
Theorem C03_milestones_hit_partial F ms m sched st' evs :
  miles = Some ms -> 0 < init -> init <= m -> m <= F -> In m ms ->
  run F S sched = (st', evs, Done) ->
  (forall t m', In t (visited evs) -> In m' (F :: ms) -> t < m' -> ~ close t m') ->
  exists t, In t (visited evs) /\ t == m.
Proof.
  intros Hm Hi Him HmF Hin H Hn.
  refine (run_milestone temp dens_solve post F S ms _ _ _ _ _ _ _ _ _ _ m _ Hi Him HmF Hin H Hn).
  cbn. now rewrite Hm.
Qed.

(** What C03 comes to without a condition on the run: a milestone that is not visited was jumped over from a
    time just below it or below an earlier milestone, or the run stopped just below final_time before it. *)
Theorem C03_missed_partial F ms m sched st' evs :
  miles = Some ms -> 0 < init -> init <= m -> m <= F -> In m ms ->
  run F S sched = (st', evs, Done) ->
  (exists t, In t (visited evs) /\ t == m) \/
  (exists pre t t' tl m', visited evs = pre ++ t :: t' :: tl /\ t < m /\ m < t' /\
     In m' ms /\ t < m' /\ m' <= m /\ close t m') \/
  (exists pre t, visited evs = pre ++ [t] /\ t < m /\ close t F).
Proof.
  intros Hm Hi Him HmF Hin H.
  refine (run_missed temp dens_solve post F S ms _ _ _ _ _ _ _ _ _ _ m _ Hi Him HmF Hin H).
  cbn. now rewrite Hm.
Qed.

(** Part of C03 in terms of the inputs only: fixed stepsize, everything on a common grid h that is
    coarser than the relative tolerance. *)
Theorem C03_milestones_grid_partial F ms m h sched st' evs :
  miles = Some ms -> ratio = None -> 0 < h ->
  (forall x, In x (init :: F :: ms) -> 0 < x /\ multiple h x /\ (1 # 100000) * x < h) ->
  init <= m -> m <= F -> In m ms ->
  run F S sched = (st', evs, Done) ->
  exists t, In t (visited evs) /\ t == m.
Proof.
  intros Hm Hr Hh Hall Him HmF Hin H.
  refine (run_milestone_grid temp dens_solve post F h S ms _ _ _ _ _ _ _ _ _ _ m Hh _ _ Hall Him HmF Hin H).
  - cbn. now rewrite Hr.
  - cbn. now rewrite Hm.
Qed.

Theorem C04_max_stepsize F r sched st' evs stt :
  ratio = Some r ->
  run F S sched = (st', evs, stt) ->
  chain (fun c1 c2 => forall b, user_bound t_stop stop_max mx (sv_t c1) b -> sv_dt c2 <= b) (solves evs).
Proof.
  intros Hr H.
  destruct (adaptive_stepsize S) as [a|] eqn:Ha; [|cbn in Ha; rewrite Hr in Ha; discriminate].
  eapply chain_impl; [|exact (run_max_stepsize temp dens_solve post F S a _ _ _ _ _ _ _ _ _ _ _ Ha H)].
  intros c1 c2 Hb b Hub. apply Hb. rewrite Hr in Ha. eapply user_bound_ok; eauto.
Qed.

(** Part of C05: a failed attempt is only retried if dt_min is set and the stepsize divided by the
    ratio is still at least dt_min.  Missing: the retry itself, and slow steps that converge, may
    use less than dt_min: C05_dt_min_refuted. *)
Theorem C05_dt_min_partial F r sched st' evs stt :
  ratio = Some r ->
  run F S sched = (st', evs, stt) ->
  chain (fun c1 c2 => at_conv (sv_out c1) = false ->
           exists dm, dtmin = Some dm /\ dm <= sv_dt c1 / r) (solves evs).
Proof.
  intros Hr H.
  destruct (adaptive_stepsize S) as [a|] eqn:Ha; [|cbn in Ha; rewrite Hr in Ha; discriminate].
  pose proof (run_dt_min temp dens_solve post F S a _ _ _ _ _ _ _ _ _ _ _ Ha H) as Hc.
  rewrite Hr in Ha. apply mk_stepsize_adaptive in Ha as [<- <-]. exact Hc.
Qed.

(** Part of C05: [delta] is a stepsize that the settings do not go below (without milestones dt_min / r, if the
    initial stepsize and max_stepsize are not smaller).  Missing: converged solves with five iterations or more,
    after which the stepsize is divided without comparison with dt_min. *)
Definition not_below (delta : Q) : Prop :=
  0 < delta /\ delta <= init /\ (forall x, stop_max = Some x -> delta <= x) /\
  (forall t b, bound_at mx t b -> delta <= b) /\
  (forall ms m, miles = Some ms -> In m ms -> 0 < m -> delta <= (1 # 100000) * m).
Theorem C05_floor_partial F r delta sched st' evs stt :
  ratio = Some r -> 1 <= r -> not_below delta ->
  (forall dm, dtmin = Some dm -> delta * r <= dm) ->
  run F S sched = (st', evs, stt) ->
  (forall c, In c (solves evs) -> at_conv (sv_out c) = true -> (at_nb (sv_out c) < 5)%Z) ->
  forall c, In c (solves evs) -> delta <= sv_dt c \/ sv_t c == F.
Proof.
  intros Hr Hr1 (Hd & Hi & Hs & Hb & Hm) Hdm H Hq.
  destruct (adaptive_stepsize S) as [a|] eqn:Ha; [|cbn in Ha; rewrite Hr in Ha; discriminate].
  destruct (floor_settings _ _ _ _ _ _ _ _ _ _ Hr Ha Hs Hb) as (<- & Hdt & Hb').
  refine (run_floor a (milestones S) delta Hr1 Hd Hb' _ _ temp dens_solve post F S _ _ _ _ _ _ _ _ _ _ _ Ha eq_refl Hi H Hq).
  - intros l m Hl Hin. cbn in Hl. destruct miles as [ms|]; [|discriminate].
    apply (Hm ms m eq_refl). now apply (set_milestones_in ms l m Hl).
  - now rewrite Hdt.
Qed.

(** Part of C06: in a run without failed attempts the clock is the sum of the integrated stepsizes;
    in every run the first attempt of a step integrates over exactly the advance of the clock.
    Missing: steps with failed attempts, where it is false: C06_clock_refuted. *)
Theorem C06_clock_partial F sched st' evs stt :
  run F S sched = (st', evs, stt) ->
  chain (fun c1 c2 => sv_t c2 = if at_conv (sv_out c1) then sv_t c1 + sv_dt c2 else sv_t c1) (solves evs) /\
  (stt = Done -> (forall c, In c (solves evs) -> at_conv (sv_out c) = true) ->
   st_t st' == Qsum (accepted_dts evs)).
Proof.
  intros H. split.
  - exact (run_clock temp dens_solve post F S _ _ _ _ _ _ _ _ _ _ _ H).
  - intros -> Hall. exact (run_clock_sum temp dens_solve post F S _ _ _ _ _ _ _ _ _ _ H Hall).
Qed.

Theorem C07_failed_attempts_leave_no_trace F sched st' evs stt :
  run F S sched = (st', evs, stt) ->
  chain (fun c1 c2 =>
    if at_conv (sv_out c1)
    then sv_guess c2 = at_u (sv_out c1) /\ sv_prev c2 = at_u (sv_out c1)
    else sv_guess c2 = sv_guess c1 /\ sv_prev c2 = sv_prev c1) (solves evs) /\
  (forall c r, solves evs = c :: r -> sv_guess c = u0 /\ sv_prev c = un0).
Proof. exact (run_rollback temp dens_solve post F S _ _ _ _ _ _ _ _ _ _ _). Qed.

(** First half of C08: what is post-processed (time, solution, temperature) is exactly the list of
    converged solves; a failed solve never reaches the exports. *)
Theorem C08_accept_on_convergence F sched st' evs :
  run F S sched = (st', evs, Done) ->
  posts evs = map (fun c => (sv_t c, at_u (sv_out c), sv_T c))
                  (filter (fun c => at_conv (sv_out c)) (solves evs)).
Proof.
  intros H. destruct (run_posts temp dens_solve post F S _ _ _ _ _ _ _ _ _ _ _ H) as (tl & Heq & Ht).
  now rewrite Heq, Ht, app_nil_r by auto.
Qed.

(** Part of the second half of C08: retries end with the documented error provided enough of the
    failed attempts took at least five iterations.  Missing: failures after fewer iterations, and
    stepsizes without change ratio: C08_retries_terminate_refuted. *)
Theorem C08_retries_terminate_partial r dm (s : stepsize Q) t T Tn dens guess prev :
  1 < r -> 0 < dm ->
  (forall f t e, mx = MaxFun f -> f t <> Err e) -> t_stop = None -> stop_max = None ->
  adaptive_stepsize s = adaptive_stepsize (mk_stepsize init (Some r) t_stop stop_max mx (Some dm) miles) ->
  exists n, forall atts : list (attempt U),
    (forall x, In x atts -> at_conv x = false) -> (n < hard_count atts)%nat ->
    exists u s' evs, update_loop (X:=X) (D:=D) t t T Tn dens guess prev s atts =
      (u, s', evs, Raised (ValueError "stepsize reached minimal value")).
Proof.
  intros Hr Hdm Htot -> -> Ha. cbn in Ha. eapply retries_end; [| | | |exact Ha]; cbn; eauto.
Qed.

Theorem C09_time_increases F sched st' evs stt :
  0 < init -> init <= F ->
  (forall r, ratio = Some r -> 0 < r) ->
  (forall x, stop_max = Some x -> 0 < x) -> (forall t b, bound_at mx t b -> 0 < b) ->
  run F S sched = (st', evs, stt) ->
  chain Qlt (0 :: visited evs) /\ (forall c, In c (solves evs) -> 0 < sv_dt c).
Proof.
  intros Hi HiF Hr Hs Hm H.
  refine (run_increasing temp dens_solve post F S _ _ _ _ _ _ _ _ _ _ _ _ Hi HiF H).
  destruct ratio as [r|] eqn:Er; [|exact I]. apply user_positive; auto.
Qed.

(** Parts of C10. *)
Theorem C10_step_count F delta sched st' evs stt :
  init <= F -> 0 <= F ->
  run F S sched = (st', evs, stt) ->
  chain (fun a b => a + delta <= b) (0 :: visited evs) ->
  inject_Z (Z.of_nat (length (visited evs))) * delta <= F.
Proof. intros Hi HF H. exact (run_steps_bound temp dens_solve post F S delta _ _ _ _ _ _ _ _ _ _ _ Hi HF H). Qed.

Hypothesis exports_do_not_fail : forall t u T e, exists e', post t u T e = Ok e'.

(** Fixed stepsize without milestones: the k-th time is min(k * stepsize, final_time). *)
Theorem C10_fixed_stepsize_ends F sched :
  ratio = None -> miles = None -> 0 < init -> init <= F ->
  solvable sched -> F <= inject_Z (Z.of_nat (length sched)) * init ->
  exists st' evs, run F S sched = (st', evs, Done) /\
    forall i t, nth_error (visited evs) i = Some t ->
      t == Qmin (inject_Z (Z.of_nat (i + 1)) * init) F.
Proof.
  intros Hr Hm Hi HiF Hs HF.
  destruct (run_fixed temp dens_solve post F exports_do_not_fail S T0 Tn0 u0 un0 d0 dn0 e0 sched)
    as (st' & evs & H & Hn); auto.
  - cbn. now rewrite Hr.
  - cbn. now rewrite Hm.
  - exists st', evs. split; [exact H|]. intros i t Hi'. rewrite Nat.add_1_r. exact (Hn i t Hi').
Qed.

(** Fixed stepsize with milestones: the number of steps is bounded by the settings only. *)
Theorem C10_fixed_stepsize_milestones_ends F ms :
  ratio = None -> miles = Some ms -> 0 < init ->
  exists n, forall sched, solvable sched -> (n <= length sched)%nat ->
    exists st' evs, run F S sched = (st', evs, Done).
Proof.
  intros Hr Hm Hi.
  assert (Hl : exists l, milestones S = Some l) by (cbn; rewrite Hm; destruct ms; cbn; eauto).
  destruct Hl as [l Hl].
  apply (run_fixed_milestones temp dens_solve post F exports_do_not_fail S l); auto.
  cbn. now rewrite Hr.
Qed.

(** Adaptive stepsize, every first attempt converges in less than five iterations. *)
Theorem C10_quick_convergence_ends_partial F r delta sched :
  ratio = Some r -> 1 <= r -> t_stop = None -> stop_max = None -> not_below delta ->
  (forall f t e, mx = MaxFun f -> f t <> Err e) ->
  quick sched -> F <= inject_Z (Z.of_nat (length sched)) * delta ->
  exists st' evs, run F S sched = (st', evs, Done).
Proof.
  intros Hr Hr1 Hts Hsm (Hd & Hi & Hs & Hb & Hm) Htot Hq HF.
  assert (Ha : adaptive_stepsize (mk_stepsize init ratio t_stop stop_max mx dtmin miles) = Some (mkAdaptive r mx dtmin))
    by (cbn; now rewrite Hr, Hts, Hsm).
  refine (quick_ends temp dens_solve post F exports_do_not_fail (mkAdaptive r mx dtmin) (milestones S) delta
            Hr1 Hd Hb _ Htot S _ _ _ _ _ _ _ _ Ha eq_refl Hi Hq HF).
  intros l m Hl Hin. cbn in Hl. destruct miles as [ms|]; [|discriminate].
  apply (Hm ms m eq_refl). now apply (set_milestones_in ms l m Hl).
Qed.

(** Adaptive stepsize with failing attempts: if the solver converges in the end of every step, in less than five
    iterations, the run does not go on for ever; it reaches final_time or raises an exception. *)
Theorem C10_failures_end_partial F r delta sched :
  ratio = Some r -> 1 <= r -> not_below delta -> (forall dm, dtmin = Some dm -> delta * r <= dm) ->
  solvable sched ->
  (forall atts a, In atts sched -> In a atts -> at_conv a = true -> (at_nb a < 5)%Z) ->
  F <= inject_Z (Z.of_nat (length sched)) * delta ->
  exists st' evs stt, run F S sched = (st', evs, stt) /\ stt <> Pending.
Proof.
  intros Hr Hr1 (Hd & Hi & Hs & Hb & Hm) Hdm Hsol Hq HF.
  destruct (adaptive_stepsize S) as [a|] eqn:Ha; [|cbn in Ha; rewrite Hr in Ha; discriminate].
  destruct (floor_settings _ _ _ _ _ _ _ _ _ _ Hr Ha Hs Hb) as (<- & Hdt & Hb').
  refine (run_ends_floor a (milestones S) delta Hr1 Hd Hb' _ _ temp dens_solve post F S _ _ _ _ _ _ _ _ Ha eq_refl Hi _ HF).
  - intros l m Hl Hin. cbn in Hl. destruct miles as [ms|]; [|discriminate].
    apply (Hm ms m eq_refl). now apply (set_milestones_in ms l m Hl).
  - now rewrite Hdt.
  - intros atts Hin. split; [now apply Hsol|]. intros x Hx Hc. now apply (Hq atts).
Qed.

(** Part of C12: temperature given as an expression [f] of time.  Missing: transient heat transfer,
    where it is false, see C12_previous_temperature_refuted. *)
Theorem C12_temperature_chronology_partial F f sched st' evs stt :
  temp = TempExpr f ->
  run F S sched = (st', evs, stt) ->
  (forall c, In c (solves evs) -> sv_T c = f (sv_t c)) /\
  chain (fun c1 c2 => sv_Tn c2 = if at_conv (sv_out c1) then sv_T c1 else sv_Tn c1) (solves evs) /\
  (forall c r, solves evs = c :: r -> sv_Tn c = T0).
Proof. exact (run_temperature_expr temp dens_solve post F f S _ _ _ _ _ _ _ _ _ _ _). Qed.

(** With a transient heat problem the previous temperature always equals the current one. *)
Theorem C12_heat_previous_is_current F solve sched st' evs stt :
  temp = TempHeat true solve ->
  run F S sched = (st', evs, stt) ->
  forall c, In c (solves evs) -> sv_Tn c = sv_T c.
Proof. exact (run_temperature_heat temp dens_solve post F solve S _ _ _ _ _ _ _ _ _ _ _). Qed.

(** Part of C13: without change ratio and milestones.  Missing: stepsizes that are adapted, where it
    is false: C13_extrinsic_density_refuted. *)
Theorem C13_extrinsic_density_partial F sched st' evs :
  ratio = None -> miles = None ->
  run F S sched = (st', evs, Done) ->
  density_dts evs = accepted_dts evs.
Proof.
  intros Hr Hm H. refine (run_density temp dens_solve post F S _ _ _ _ _ _ _ _ _ _ _ _ H).
  - cbn. now rewrite Hr.
  - cbn. now rewrite Hm.
Qed.

End Runs.

(** * Refutations *)

(** The clock only: no fields. *)
Definition clock {A} {N : Num A} (F : A) (s : stepsize A) (sched : list (list (attempt unit))) :=
  run_transient (TempExpr (fun _ => tt)) (fun (_ _ : unit) _ _ => tt)
    (fun _ (_ : unit) _ _ => Ok tt) F (start s tt tt tt tt tt tt tt) sched.

Local Lemma split3 {P R W} (r : P * R * W) w : snd r = w -> r = (fst (fst r), snd (fst r), w).
Proof. intros <-. destruct r as [[? ?] ?]. reflexivity. Qed.
Local Lemma forallb_false {B} (f : B -> bool) l :
  forallb (fun x => negb (f x)) l = true -> forall x, In x l -> ~ f x = true.
Proof. rewrite forallb_forall. intros H x Hin. specialize (H x Hin). now destruct (f x). Qed.
Ltac done_run := apply split3; vm_compute; reflexivity.

(** C03 is false: Stepsize(0.5, milestones=[0.999999, 1, 1.1]), final_time=2, every solve converges;
    the run jumps from 0.999999 over 1.1. *)
Theorem C03_milestones_hit_refuted :
  exists (init F m : Q) ms sched st' evs,
    0 < init /\ init <= m /\ m <= F /\ In m ms /\
    (forall atts a, In atts sched -> In a atts -> at_conv a = true) /\
    clock F (mk_stepsize init None None None MaxNone None (Some ms)) sched = (st', evs, Done) /\
    ~ exists t, In t (visited evs) /\ close t m.
Proof.
  exists (1 # 2), 2, (1 + (1 # 10)), [1 - (1 # 1000000); 1; 1 + (1 # 10)], (repeat [ok 3] 4).
  do 2 eexists. split; [lra|]. split; [lra|]. split; [lra|]. split; [cbn; tauto|]. split; [|split].
  - intros atts a Hin Ha. apply repeat_spec in Hin. subst. destruct Ha as [<-|[]]. reflexivity.
  - done_run.
  - intros (t & Hin & Hc). unfold close in Hc. apply Qle_bool_iff in Hc. revert t Hin Hc.
    apply forallb_false. vm_compute. reflexivity.
Qed.

(** The same in binary64 arithmetic with ordinary values: Stepsize(1.9, milestones=[5.7, 6]),
    final_time=10 visits 1.9, 3.8, 5.699999999999999, 7.6, 9.5, 10 and never 6. *)
Theorem C03_milestones_hit_binary64_refuted :
  exists sched st' evs,
    clock 10%float (mk_stepsize 1.9%float None None None MaxNone None (Some [5.7%float; 6%float]))
      sched = (st', evs, Done) /\
    (forall atts a, In atts sched -> In a atts -> at_conv a = true) /\
    forall t, In t (visited evs) -> isclose t 6%float = false.
Proof.
  exists (repeat [ok 3] 6). do 2 eexists. split; [done_run|]. split.
  - intros atts a Hin Ha. apply repeat_spec in Hin. subst. destruct Ha as [<-|[]]. reflexivity.
  - intros t Hin. apply not_true_is_false. revert t Hin.
    apply forallb_false. vm_compute. reflexivity.
Qed.

(** The first step is not bounded by max_stepsize. *)
Theorem C04_first_step_refuted :
  exists (init b F : Q) sched st' evs c,
    clock F (mk_stepsize init (Some 2) None None (MaxConst b) None None) sched = (st', evs, Done) /\
    In c (solves evs) /\ b < sv_dt c.
Proof.
  exists 5, 1, 5, [[ok 3]]. do 2 eexists. exists (mkSolve tt tt 5 5 tt tt tt (ok 3)).
  split; [done_run|]. split; [apply nth_error_In with (n := 0%nat); vm_compute; reflexivity|]. vm_compute. reflexivity.
Qed.

(** C05 is false: with dt_min = 1/2 a run completes without error although it used 1/8 (slow steps
    that converge), and a failed attempt is retried with 1/4. *)
Theorem C05_dt_min_refuted :
  (exists F sched st' evs c,
    clock F (mk_stepsize 1 (Some 2) None None MaxNone (Some (1 # 2)) None) sched = (st', evs, Done) /\
    (forall atts a, In atts sched -> In a atts -> at_conv a = true) /\
    In c (solves evs) /\ sv_dt c < 1 # 2 /\ ~ sv_t c == F) /\
  (exists F sched st' evs c,
    clock F (mk_stepsize 1 (Some 2) None None MaxNone (Some (1 # 2)) None) sched = (st', evs, Done) /\
    In c (solves evs) /\ sv_dt c < 1 # 2 /\ at_conv (sv_out c) = true /\ ~ sv_t c == F).
Proof.
  split.
  - exists (15 # 8), (repeat [ok 7] 4). do 2 eexists. exists (mkSolve tt tt (14 # 8) (1 # 4) tt tt tt (ok 7)).
    split; [done_run|]. split.
    { intros atts a Hin Ha. apply repeat_spec in Hin. subst. destruct Ha as [<-|[]]. reflexivity. }
    split; [apply nth_error_In with (n := 2%nat); vm_compute; reflexivity|]. split; [vm_compute; reflexivity|]. vm_compute. discriminate.
  - exists 2, [[ko 7; ok 3]; [ok 3]; [ok 3]]. do 2 eexists. exists (mkSolve tt tt 1 (1 # 4) tt tt tt (ok 3)).
    split; [done_run|].
    split; [apply nth_error_In with (n := 1%nat); vm_compute; reflexivity|]. split; [vm_compute; reflexivity|].
    split; [reflexivity|]. vm_compute. discriminate.
Qed.

(** C06 is false: the accepted solve of the first step integrates over 1/4, the clock shows 1. *)
Theorem C06_clock_refuted :
  exists (F : Q) s sched st' evs c,
    clock F s sched = (st', evs, Pending) /\
    filter (fun c => at_conv (sv_out c)) (solves evs) = [c] /\
    visited evs = [1] /\ sv_t c = 1 /\ sv_dt c == 1 # 4.
Proof.
  exists 10, (mk_stepsize 1 (Some 2) None None MaxNone (Some (1 # 100)) None), [[ko 7; ok 3]].
  do 2 eexists. exists (mkSolve tt tt 1 (1 # 4) tt tt tt (ok 3)).
  split; [done_run|]. split; [vm_compute; reflexivity|].
  split; [vm_compute; reflexivity|]. split; vm_compute; reflexivity.
Qed.

(** C08 is false: ratio 2 and dt_min 1/2, all solves fail after 3 iterations; every number of
    retries leaves the step unfinished without error.  Likewise without change ratio. *)
Theorem C08_retries_terminate_refuted :
  (forall n, exists atts st' evs,
    length atts = n /\ (forall a, In a atts -> at_conv a = false) /\
    clock 10 (mk_stepsize 1 (Some 2) None None MaxNone (Some (1 # 2)) None) [atts] = (st', evs, Pending) /\
    length (solves evs) = n) /\
  (forall n, exists atts st' evs,
    length atts = n /\ (forall a, In a atts -> at_conv a = false) /\
    clock 10 (mk_stepsize 1 None None None MaxNone None None) [atts] = (st', evs, Pending) /\
    length (solves evs) = n).
Proof.
  split; intros n.
  - destruct (w8_run n) as (st' & evs & H & Hl). exists (repeat (ko 3) n), st', evs.
    split; [apply repeat_length|]. split; [|split; [exact H|exact Hl]].
    intros a Ha. apply repeat_spec in Ha. now subst.
  - destruct (w8b_run n) as (st' & evs & H & Hl). exists (repeat (ko 30) n), st', evs.
    split; [apply repeat_length|]. split; [|split; [exact H|exact Hl]].
    intros a Ha. apply repeat_spec in Ha. now subst.
Qed.

(** C10 is false for adaptive runs: all solves converge (in 5 iterations), ratio 2, initial stepsize
    1; the time stays below 2 forever and final_time = 10 is never reached. *)
Theorem C10_adaptive_ends_refuted :
  forall n, exists sched st' evs,
    length sched = n /\ (forall atts a, In atts sched -> In a atts -> at_conv a = true) /\
    clock 10 (mk_stepsize 1 (Some 2) None None MaxNone None None) sched = (st', evs, Pending) /\
    length (visited evs) = n.
Proof.
  intros n. destruct (w10_run n) as (st' & evs & H & Hl). exists (repeat [ok 5] n), st', evs.
  split; [apply repeat_length|]. split; [|split; [exact H|exact Hl]].
  intros atts a Hin Ha. apply repeat_spec in Hin. subst. destruct Ha as [<-|[]]. reflexivity.
Qed.

(** C12 is false with a transient heat problem: at t = 1 and t = 2 the previous temperature used for
    the hydrogen solve equals the current one although the temperature changed. *)
Theorem C12_previous_temperature_refuted :
  exists (solve : Q -> Q -> Q -> Q -> Q) st' evs,
    run_transient (TempHeat true solve) (fun (_ _ : unit) _ _ => tt) (fun _ (_ : unit) _ _ => Ok tt) 2
      (start (mk_stepsize 1 None None None MaxNone None None) 300 300 tt tt tt tt tt)
      [[ok 3]; [ok 3]] = (st', evs, Done) /\
    map (fun c => (sv_t c, sv_T c, sv_Tn c)) (solves evs) = [(1, 301, 301); (2, 303, 303)].
Proof.
  exists heat12. do 2 eexists. split; [done_run|vm_compute; reflexivity].
Qed.

(** C13 is false with an adaptive stepsize: concentrations integrated over 1 and 2, densities over
    2 and 4. *)
Theorem C13_extrinsic_density_refuted :
  exists (s : stepsize Q) st' evs,
    clock 10 s [[ok 3]; [ok 3]] = (st', evs, Pending) /\
    accepted_dts evs = [1; 2] /\ density_dts evs = [2; 4].
Proof.
  exists w10. do 2 eexists. split; [done_run|]. split; vm_compute; reflexivity.
Qed.

(** * Examples: the hypotheses of the theorems are met by non-trivial runs *)

(** Stepsize(1, stepsize_change_ratio=2, max_stepsize=3, dt_min=0.01, milestones=[4]), final_time 10,
    the second step fails once before it converges, the third converges slowly. *)
Definition ex_s : stepsize Q := mk_stepsize 1 (Some 2) None None (MaxConst 3) (Some (1 # 100)) (Some [4]).
Definition ex_sched : list (list (attempt unit)) :=
  [[ok 3]; [ko 30; ok 4]; [ok 6]; [ok 3]; [ok 3]; [ok 3]; [ok 3]].
Definition ex_run := clock 10 ex_s ex_sched.

Example C01_C02_C09_example :
  snd ex_run = Done /\ map Qred (visited (snd (fst ex_run))) = [1; 3; 4; 9 # 2; 11 # 2; 15 # 2; 10].
Proof. vm_compute. split; reflexivity. Qed.

Example C03_example :
  snd ex_run = Done /\ In 4 [4] /\ 1 <= 4 /\ 4 <= 10 /\
  (forall t m', In t (visited (snd (fst ex_run))) -> In m' (10 :: [4]) -> t < m' -> ~ close t m').
Proof.
  split; [vm_compute; reflexivity|]. split; [cbn; auto|]. split; [lra|]. split; [lra|].
  intros t m' Ht Hm Hlt Hc. unfold close in Hc. apply Qle_bool_iff in Hc.
  assert (Hb : forallb (fun t => forallb (fun m => Qle_bool m t ||
             negb (Qle_bool (Qabs (t - m)) ((1 # 100000) * Qabs m)))%bool [10; 4])
             (visited (snd (fst ex_run))) = true) by (vm_compute; reflexivity).
  rewrite forallb_forall in Hb. specialize (Hb t Ht). rewrite forallb_forall in Hb.
  specialize (Hb m' Hm). rewrite Hc in Hb. rewrite orb_false_r in Hb.
  apply Qle_bool_iff in Hb. lra.
Qed.

(** The second case of C03_missed_partial, in the run of C03_milestones_hit_refuted. *)
Example C03_missed_example :
  let r := clock 2 (mk_stepsize (1 # 2) None None None MaxNone None (Some [1 - (1 # 1000000); 1; 1 + (1 # 10)])) (repeat [ok 3] 4) in
  snd r = Done /\ exists t t', map Qred (visited (snd (fst r))) = [1 # 2; Qred t; Qred t'; 1999997 # 1000000] /\
  t == 1 - (1 # 1000000) /\ 1 + (1 # 10) < t' /\ close t 1.
Proof.
  cbn zeta. split; [vm_compute; reflexivity|]. exists (999999 # 1000000), (1499998 # 1000000).
  split; [vm_compute; reflexivity|]. split; [reflexivity|]. split; [reflexivity|]. unfold close. vm_compute. discriminate.
Qed.

(** Stepsize(0.5, milestones=[1.25, 1.75]), final_time=2 with grid 0.25. *)
Example C03_grid_example :
  snd (clock 2 (mk_stepsize (1 # 2) None None None MaxNone None (Some [7 # 4; 5 # 4])) (repeat [ok 3] 8)) = Done /\
  map Qred (visited (snd (fst (clock 2 (mk_stepsize (1 # 2) None None None MaxNone None (Some [7 # 4; 5 # 4]))
    (repeat [ok 3] 8))))) = [1 # 2; 1; 5 # 4; 3 # 2; 7 # 4; 2] /\
  forall x, In x [1 # 2; 2; 7 # 4; 5 # 4] -> 0 < x /\ multiple (1 # 4) x /\ (1 # 100000) * x < 1 # 4.
Proof.
  split; [vm_compute; reflexivity|]. split; [vm_compute; reflexivity|].
  intros x Hx. unfold multiple. cbn in Hx. repeat destruct Hx as [<-|Hx]; [..|destruct Hx];
    (split; [lra|]; split; [|lra]).
  - exists 2%Z. reflexivity.
  - exists 8%Z. reflexivity.
  - exists 7%Z. reflexivity.
  - exists 5%Z. reflexivity.
Qed.

(** The stepsizes of the solves of [ex_run]: bounded by 3 after each step, one retry. *)
Example C04_C05_C06_C07_example :
  map (fun c => (Qred (sv_t c), Qred (sv_dt c), at_conv (sv_out c))) (solves (snd (fst ex_run))) =
  [(1, 1, true); (3, 2, false); (3, 1 # 2, true); (4, 1, true); (9 # 2, 1 # 2, true); (11 # 2, 1, true);
   (15 # 2, 2, true); (10, 5 # 2, true)].
Proof. vm_compute. reflexivity. Qed.

Example C04_old_style_bound_example : user_bound (Some 5) (Some (1 # 10)) MaxNone 7 (1 # 10).
Proof. unfold user_bound. split; [intros [H _]; discriminate H|]. split; [lra|reflexivity]. Qed.

(** A run without failures: the clock is the sum of the stepsizes. *)
Example C06_sum_example :
  snd (clock 10 ex_s (repeat [ok 3] 7)) = Done /\
  forallb (fun c => at_conv (sv_out c)) (solves (snd (fst (clock 10 ex_s (repeat [ok 3] 7))))) = true /\
  Qsum (accepted_dts (snd (fst (clock 10 ex_s (repeat [ok 3] 7))))) == 10.
Proof. vm_compute. repeat split; reflexivity. Qed.

Example C08_example :
  posts (snd (fst (clock 2 ex_s [[ok 3]; [ok 3]]))) = [(1, tt, tt); (2, tt, tt)] /\
  snd (clock 10 ex_s [repeat (ko 7) 10]) = Raised (ValueError "stepsize reached minimal value").
Proof. vm_compute. split; reflexivity. Qed.

Example C10_example :
  solvable (repeat [ko 9; ok 3] 4) /\
  map Qred (visited (snd (fst (clock 5 (mk_stepsize (3 # 2) None None None MaxNone None None)
    (repeat [ko 9; ok 3] 4))))) = [3 # 2; 3; 9 # 2; 5] /\
  quick (repeat [ok 3] 4) /\
  snd (clock 10 (mk_stepsize 1 (Some 2) None None (MaxConst 3) None None) (repeat [ok 3] 10)) = Done.
Proof.
  split; [|split; [vm_compute; reflexivity|split; [|vm_compute; reflexivity]]].
  - intros atts H. apply repeat_spec in H. subst. exists (ok 3). cbn. auto.
  - intros atts H. apply repeat_spec in H. subst. cbn. auto with zarith.
Qed.

(** Settings with milestones, a bound and dt_min, and a run with failed attempts. *)
Example C05_C10_floor_example :
  not_below 1 None (MaxConst 3) (Some [2; 7 # 2]) (1 # 100000) /\ (1 # 100000) * 2 <= 1 # 2 /\
  (let sched := [ok 3] :: repeat [ko 9; ok 3] 1 ++ repeat [ok 4] 7 in solvable sched /\
   let r := clock 10 (mk_stepsize 1 (Some 2) None None (MaxConst 3) (Some (1 # 2)) (Some [2; 7 # 2])) sched in
   snd r = Done /\ map (fun c => Qred (sv_dt c)) (solves (snd (fst r))) = [1; 1; 1 # 4; 1 # 2; 1; 2; 3; 3 # 2]).
Proof.
  split; [|split; [lra|split]].
  - split; [lra|]. split; [lra|]. split; [discriminate|]. split; [cbn; intros _ b <-; lra|].
    intros ms m [= <-] [<-|[<-|[]]] _; lra.
  - intros atts H. cbn in H. repeat destruct H as [<-|H]; [..|destruct H];
      first [exists (ok 3); cbn; tauto|exists (ok 4); cbn; tauto].
  - vm_compute. split; reflexivity.
Qed.

(** Temperature t -> 300 + 10 t, with a retry in the second step. *)
Example C12_example :
  map (fun c => (Qred (sv_t c), Qred (sv_T c), Qred (sv_Tn c))) (solves (snd (fst
    (run_transient (TempExpr (fun t => 300 + 10 * t)) (fun (_ _ : unit) _ _ => tt)
       (fun _ (_ : unit) _ _ => Ok tt) 10 (start ex_s 300 300 tt tt tt tt tt) [[ok 3]; [ko 9; ok 3]]))))
  = [(1, 310, 300); (3, 330, 310); (3, 330, 310)].
Proof. vm_compute. reflexivity. Qed.

Example C13_example :
  density_dts (snd (fst (clock 2 (mk_stepsize 1 None None None MaxNone None None) [[ok 3]; [ko 9; ok 3]]))) = [1; 1].
Proof. vm_compute. reflexivity. Qed.

Print Assumptions C01_no_overshoot.
Print Assumptions C02_stops_at_final_time.
Print Assumptions C03_milestones_hit_partial.
Print Assumptions C03_milestones_grid_partial.
Print Assumptions C03_missed_partial.
Print Assumptions C03_milestones_hit_refuted.
Print Assumptions C03_milestones_hit_binary64_refuted.
Print Assumptions C04_max_stepsize.
Print Assumptions C04_first_step_refuted.
Print Assumptions C05_dt_min_partial.
Print Assumptions C05_floor_partial.
Print Assumptions C05_dt_min_refuted.
Print Assumptions C06_clock_partial.
Print Assumptions C06_clock_refuted.
Print Assumptions C07_failed_attempts_leave_no_trace.
Print Assumptions C08_accept_on_convergence.
Print Assumptions C08_retries_terminate_partial.
Print Assumptions C08_retries_terminate_refuted.
Print Assumptions C09_time_increases.
Print Assumptions C10_step_count.
Print Assumptions C10_fixed_stepsize_ends.
Print Assumptions C10_fixed_stepsize_milestones_ends.
Print Assumptions C10_quick_convergence_ends_partial.
Print Assumptions C10_failures_end_partial.
Print Assumptions C10_adaptive_ends_refuted.
Print Assumptions C12_temperature_chronology_partial.
Print Assumptions C12_heat_previous_is_current.
Print Assumptions C12_previous_temperature_refuted.
Print Assumptions C13_extrinsic_density_partial.
Print Assumptions C13_extrinsic_density_refuted.
