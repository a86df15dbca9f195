(** C103: the progress displayed during a run.  How ties are rounded ([up2], [up1]) is arbitrary. *)
From Coq Require Import ZArith QArith Qabs List Bool String Lqa Lia.
From Verif Require Import Base.Exc Base.Num Base.Key Model.Display Spec.TimeSpec Spec.DisplaySpec Proofs.NumQ Proofs.DisplayProofs
  Model.Stepsize Model.TimeLoop Proofs.TimeLoopProofs Proofs.TimeQ Proofs.TimeWitness Properties.TimeProps.
Import ListNotations.
Local Open Scope Q_scope.

Section Displays.
Variables up2 up1 : Z -> bool.
Local Notation disp := (display_time up2 up1).
Local Notation lines := (displayed up2 up1).

Lemma disp_ok lvl t F : 0 < F ->
  disp lvl t F = Ok ((tenths_text (shown up2 up1 t F) ++ " %")%string,
                     if negb (isclose t F) && Z.eqb lvl 40 then CarriageReturn else NewLine).
Proof.
  intros HF. unfold display_time, simulation_percentage. destruct (Qeq_bool F 0) eqn:E; [apply Qeq_bool_eq in E; lra|]. reflexivity.
Qed.
Lemma shown_nonneg t F : 0 < F -> 0 <= t -> (0 <= shown up2 up1 t F)%Z.
Proof. intros HF Ht. rewrite <- (shown_0 up2 up1 F HF). now apply shown_mono. Qed.
Lemma shown_le t F : 0 < F -> t <= F -> (shown up2 up1 t F <= 1000)%Z.
Proof. intros HF Ht. rewrite <- (shown_1 up2 up1 F HF). now apply shown_mono. Qed.

Theorem C103_accurate lvl t F : 0 < F -> 0 <= t ->
  exists s e n, disp lvl t F = Ok (s, e) /\ shows s n /\ stands_for n t F /\
    (e = CarriageReturn <-> ~ close t F /\ lvl = 40%Z).
Proof.
  intros HF Ht. rewrite (disp_ok lvl t F HF). eexists _, _, (shown up2 up1 t F). split; [reflexivity|].
  split; [apply text_shows; now apply shown_nonneg|]. split; [apply shown_stands|].
  destruct (isclose t F) eqn:E; cbn [negb andb].
  - apply isclose_true in E. split; [discriminate|tauto].
  - apply isclose_false in E. destruct (Z.eqb_spec lvl 40); split; try discriminate; tauto.
Qed.

Section Runs.
Context {U X D E : Type}.
Variable temp : temperature (A:=Q) X.
Variable dens_solve : D -> D -> Q -> X -> D.
Variable post : Q -> U -> X -> E -> res E.
Variables (T0 Tn0 : X) (u0 un0 : U) (d0 dn0 : D) (e0 : E).
Variables (init : Q) (ratio t_stop stop_max : option Q) (mx : maxspec Q) (dtmin : option Q) (miles : option (list Q)).
Local Notation S := (mk_stepsize init ratio t_stop stop_max mx dtmin miles).
Local Notation run := (TimeProps.run temp dens_solve post T0 Tn0 u0 un0 d0 dn0 e0).

Lemma chain_nonneg t l : chain Qlt (t :: l) -> Forall (fun x => t < x) l.
Proof.
  revert t. induction l as [|a l IH]; intros t H; [constructor|]. cbn in H. destruct H as [H1 H2].
  constructor; [exact H1|]. eapply Forall_impl; [|exact (IH a H2)]. cbn. intros x Hx. lra.
Qed.
Lemma chain_shown F t l : 0 < F -> chain Qlt (t :: l) -> (forall x, In x (t :: l) -> x <= F) ->
  chain Z.le (shown up2 up1 t F :: map (fun x => shown up2 up1 x F) l ++ [1000%Z]).
Proof.
  intros HF. revert t. induction l as [|a l IH]; intros t H Hx.
  - cbn. split; [|exact I]. apply shown_le; [exact HF|]. apply Hx. now left.
  - cbn in H. destruct H as [H1 H2]. cbn [map app]. split; [apply shown_mono; lra|].
    apply (IH a H2). intros x Hin. apply Hx. now right.
Qed.

(** The run progresses from 0.0 % to 100.0 % and never back, whatever the solver does. *)
Theorem C103_progress lvl F sched st' evs stt :
  0 < init -> init <= F -> (forall r, ratio = Some r -> 0 < r) ->
  (forall x, stop_max = Some x -> 0 < x) -> (forall t b, bound_at mx t b -> 0 < b) ->
  run F S sched = (st', evs, stt) ->
  exists ns, chain Z.le (0%Z :: ns ++ [1000%Z]) /\
    Forall2 (fun n m => exists s e, m = Ok (s, e) /\ shows s n) ns (lines lvl F (visited evs)) /\
    Forall2 (fun n t => stands_for n t F) ns (visited evs).
Proof.
  intros Hi HiF Hr Hs Hm Hrun. assert (HF : 0 < F) by lra.
  destruct (C09_time_increases temp dens_solve post T0 Tn0 u0 un0 d0 dn0 e0 init ratio t_stop stop_max mx dtmin miles
              F sched st' evs stt Hi HiF Hr Hs Hm Hrun) as [Hc _].
  destruct (C01_no_overshoot temp dens_solve post T0 Tn0 u0 un0 d0 dn0 e0 init ratio t_stop stop_max mx dtmin miles
              F sched st' evs stt HiF ltac:(lra) Hrun) as [Hle _].
  pose proof (chain_nonneg 0 _ Hc) as Hpos.
  exists (map (fun x => shown up2 up1 x F) (visited evs)). split; [|split].
  - rewrite <- (shown_0 up2 up1 F HF) at 1. apply chain_shown; [exact HF|exact Hc|]. intros x [<-|Hx]; [lra|now apply Hle].
  - clear Hc Hle. induction Hpos as [|x l Hx Hl IH]; [constructor|]. cbn [displayed map]. constructor; [|exact IH].
    rewrite (disp_ok lvl x F HF). eexists _, _. split; [reflexivity|]. apply text_shows, shown_nonneg; lra.
  - clear. induction (visited evs) as [|x l IH]; constructor; [apply shown_stands|exact IH].
Qed.

Lemma steps_running F (st : state U X D E) evs st' : steps temp dens_solve post F st evs st' ->
  Forall (fun t => t < F /\ ~ close t F) (removelast (st_t st :: visited evs)).
Proof.
  induction 1 as [st|st atts st1 e1 e2 st2 Hr Hi Hs IH]; [constructor|].
  destruct (iterate_visited _ _ _ _ _ _ _ _ Hi) as [Hv _]. rewrite visited_app, Hv. cbn [app]. cbn [removelast] in IH |- *.
  constructor; [|exact IH]. now apply running_true in Hr.
Qed.

(** A finished run ends with the line "100.0 %"; only this one stays on the screen at the default log level. *)
Theorem C103_end lvl F sched st' evs :
  0 < F -> init <= F -> run F S sched = (st', evs, Done) ->
  exists pre, lines lvl F (visited evs) = (pre ++ [Ok ("100.0 %"%string, NewLine)])%list /\
    Forall (fun m => exists s, m = Ok (s, if Z.eqb lvl 40 then CarriageReturn else NewLine)) pre.
Proof.
  intros HF HiF Hrun.
  destruct (C01_no_overshoot temp dens_solve post T0 Tn0 u0 un0 d0 dn0 e0 init ratio t_stop stop_max mx dtmin miles
              F sched st' evs Done HiF ltac:(lra) Hrun) as (Hle & _ & Hle').
  destruct (C02_stops_at_final_time temp dens_solve post T0 Tn0 u0 un0 d0 dn0 e0 init ratio t_stop stop_max mx dtmin miles
              F sched st' evs HF Hrun) as ([pre Hpre] & Hend & _).
  exists (lines lvl F pre). unfold displayed. rewrite Hpre, map_app. cbn [map]. split.
  - f_equal. f_equal. rewrite (disp_ok lvl (st_t st') F HF).
    assert (Hc : close (st_t st') F).
    { destruct Hend as [H|H]; [|exact H]. unfold close. apply Qabs_case; intros _; rewrite (Qabs_pos F) by lra; lra. }
    rewrite (shown_near up2 up1 (st_t st') F HF Hle').
    + replace (isclose (st_t st') F) with true by (symmetry; now apply isclose_true). reflexivity.
    + unfold close in Hc. rewrite (Qabs_pos F) in Hc by lra. apply Qabs_Qle_condition in Hc. lra.
  - unfold TimeProps.run in Hrun. apply run_done_steps in Hrun as [Hs _]. apply steps_running in Hs.
    rewrite Hpre in Hs. change (?a :: pre ++ [?b])%list with ((a :: pre) ++ [b])%list in Hs. rewrite removelast_last in Hs.
    apply Forall_inv_tail in Hs. clear Hpre. induction Hs as [|t l [Ht Hn] Hl IH]; [constructor|]. cbn [map]. constructor; [|exact IH].
    rewrite (disp_ok lvl t F HF). eexists. f_equal. f_equal.
    destruct (isclose t F) eqn:E'; [apply isclose_true in E'; contradiction|reflexivity].
Qed.
End Runs.

End Displays.

(** Round half to even. *)
Definition half_even : Z -> bool := Z.odd.
Local Notation Sd := (mk_stepsize 20 None None None MaxNone None None).
(** Found: a first step longer than final_time shows more than 100 %. *)
Theorem C103_overshoot_refuted :
  exists evs st, clock 10 Sd [[ok 3]] = (st, evs, Done) /\ visited evs = [20] /\
    forall up2 up1, displayed up2 up1 40 10 (visited evs) = [Ok ("200.0 %"%string, CarriageReturn)].
Proof.
  do 2 eexists. split; [done_run|]. split; [vm_compute; reflexivity|].
  intros up2 up1. vm_compute. reflexivity.
Qed.
(** Found: rounded to two decimals first, then to one, the number shown is not always the closest one. *)
Theorem C103_closest_refuted :
  display_time half_even half_even 40 2549 1000000 = Ok ("0.2 %"%string, CarriageReturn) /\ ~ closest 2 2549 1000000.
Proof. split; [vm_compute; reflexivity|]. intros H. specialize (H 3%Z). apply Qle_bool_iff in H. vm_compute in H. discriminate. Qed.
(** Found: 100.0 % is shown before the end is reached. *)
Theorem C103_early_refuted : display_time half_even half_even 40 9996 10000 = Ok ("100.0 %"%string, CarriageReturn).
Proof. vm_compute. reflexivity. Qed.

(** The run of TimeProps, line by line. *)
Example C103_example :
  snd ex_run = Done /\
  displayed half_even half_even 40 10 (visited (snd (fst ex_run))) =
  [Ok ("10.0 %"%string, CarriageReturn); Ok ("30.0 %"%string, CarriageReturn); Ok ("40.0 %"%string, CarriageReturn);
   Ok ("45.0 %"%string, CarriageReturn); Ok ("55.0 %"%string, CarriageReturn); Ok ("75.0 %"%string, CarriageReturn);
   Ok ("100.0 %"%string, NewLine)].
Proof. vm_compute. split; reflexivity. Qed.

Print Assumptions C103_accurate.
Print Assumptions C103_progress.
Print Assumptions C103_end.
Print Assumptions C103_overshoot_refuted.
Print Assumptions C103_closest_refuted.
Print Assumptions C103_early_refuted.
