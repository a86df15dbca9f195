(** More proofs about transient runs in exact arithmetic. *)
From Coq Require Import ZArith QArith Qabs Qround Qminmax List Bool Lqa Lia String.
From Verif Require Import Base.Exc Base.Num Model.Stepsize Model.TimeLoop Spec.TimeSpec
  Proofs.NumQ Proofs.StepsizeProofs Proofs.TimeLoopProofs Proofs.TimeChain Proofs.TimeQ.
Import ListNotations.
Local Open Scope Q_scope.

Lemma chain_impl {B} (R S : B -> B -> Prop) l :
  (forall a b, R a b -> S a b) -> chain R l -> chain S l.
Proof.
  intros H. induction l as [|x r IH]; cbn; [auto|].
  destruct r as [|y r']; [auto|]. intros [H1 H2]. auto.
Qed.

Section Runs.
Context {U X D E : Type}.
Variable temp : temperature (A:=Q) X.
Variable dens_solve : D -> D -> Q -> X -> D.
Variable post : Q -> U -> X -> E -> res E.
Variable F : Q.

Local Notation state := (state (A:=Q) U X D E).
Local Notation event := (event (A:=Q) U X D).
Local Notation call := (solve_call (A:=Q) U X D).
Local Notation iterate := (iterate temp dens_solve post F).
Local Notation run := (run_transient temp dens_solve post F).
Local Notation running := (running (U:=U) (X:=X) (D:=D) (E:=E) F).
Local Notation steps := (steps temp dens_solve post F).

Lemma run_chain_start s T Tn u un d dn e sched st' evs stt :
  run (start s T Tn u un d dn e) sched = (st', evs, stt) ->
  chain (follows temp dens_solve F s) (solves evs).
Proof.
  intros H. eapply (run_chain temp dens_solve post F s (start s T Tn u un d dn e)); [|exact H].
  split; reflexivity.
Qed.

(** ** C04 *)
Lemma run_max_stepsize s a T Tn u un d dn e sched st' evs stt :
  adaptive_stepsize s = Some a ->
  run (start s T Tn u un d dn e) sched = (st', evs, stt) ->
  chain (fun c1 c2 => forall b, bound_at (max_stepsize a) (sv_t c1) b -> sv_dt c2 <= b) (solves evs).
Proof.
  intros Ha H.
  eapply chain_impl; [|apply (run_chain_start _ _ _ _ _ _ _ _ _ _ _ _ H)].
  intros c1 c2 [Hr|Hn] b Hb.
  - destruct Hr as (_ & _ & _ & _ & _ & _ & _ & s1 & s2 & [Hs1 _] & _ & Had & <-).
    unfold adapted, calls_adapt in Had. rewrite Hs1, Ha in Had.
    eapply adapt_bound; [|exact Had|exact Hb]. now rewrite Hs1, Ha.
  - destruct Hn as (_ & _ & _ & _ & _ & s1 & s2 & [Hs1 _] & _ & Had & -> & _).
    eapply Qle_trans; [apply clamp_final_value_le|].
    unfold adapted, calls_adapt in Had. rewrite Hs1, Ha in Had.
    eapply adapt_bound; [|exact Had|exact Hb]. now rewrite Hs1, Ha.
Qed.

(** ** C05 *)
Lemma adapt_failed_inv (s s' : stepsize Q) a t nb :
  adaptive_stepsize s = Some a -> adapt s t nb false = Ok s' ->
  exists dm, dt_min a = Some dm /\ dm <= value s / change_ratio a.
Proof.
  intros Ha H. apply adapt_inv in H as (v & Hv & _). rewrite Ha in Hv.
  unfold adapt_value in Hv. destruct (adapt_diverged a (value s)) as [v1|] eqn:E1; [|discriminate].
  unfold adapt_diverged in E1. destruct (dt_min a) as [dm|]; [|discriminate].
  destruct (py_div (value s) (change_ratio a)) as [w|] eqn:Ew; cbn in E1; [|discriminate].
  destruct (Qltb w dm) eqn:El; [discriminate|]. apply py_div_ok in Ew as ->.
  apply Qltb_false in El. eauto.
Qed.

Lemma run_dt_min s a T Tn u un d dn e sched st' evs stt :
  adaptive_stepsize s = Some a ->
  run (start s T Tn u un d dn e) sched = (st', evs, stt) ->
  chain (fun c1 c2 => at_conv (sv_out c1) = false ->
           exists dm, dt_min a = Some dm /\ dm <= sv_dt c1 / change_ratio a) (solves evs).
Proof.
  intros Ha H.
  eapply chain_impl; [|apply (run_chain_start _ _ _ _ _ _ _ _ _ _ _ _ H)].
  intros c1 c2 [Hr|Hn] Hf.
  - destruct Hr as (_ & _ & _ & _ & _ & _ & _ & s1 & s2 & [Hs1 _] & <- & Had & _).
    unfold adapted, calls_adapt in Had. rewrite Hs1, Ha in Had.
    eapply adapt_failed_inv; [|exact Had]. now rewrite Hs1, Ha.
  - destruct Hn as [Hc _]. congruence.
Qed.

(** ** C06, C07, C12 *)
Lemma run_clock s T Tn u un d dn e sched st' evs stt :
  run (start s T Tn u un d dn e) sched = (st', evs, stt) ->
  chain (fun c1 c2 =>
    sv_t c2 = if at_conv (sv_out c1) then sv_t c1 + sv_dt c2 else sv_t c1) (solves evs).
Proof.
  intros H.
  eapply chain_impl; [|apply (run_chain_start _ _ _ _ _ _ _ _ _ _ _ _ H)].
  intros c1 c2 [Hr|Hn].
  - destruct Hr as (-> & _ & _ & Ht & _). exact Ht.
  - destruct Hn as (-> & _ & _ & Ht & _). exact Ht.
Qed.

Lemma run_rollback s T Tn u un d dn e sched st' evs stt :
  run (start s T Tn u un d dn e) sched = (st', evs, stt) ->
  chain (fun c1 c2 =>
    if at_conv (sv_out c1)
    then sv_guess c2 = at_u (sv_out c1) /\ sv_prev c2 = at_u (sv_out c1)
    else sv_guess c2 = sv_guess c1 /\ sv_prev c2 = sv_prev c1) (solves evs) /\
  (forall c r, solves evs = c :: r -> sv_guess c = u /\ sv_prev c = un).
Proof.
  intros H. split.
  - eapply chain_impl; [|apply (run_chain_start _ _ _ _ _ _ _ _ _ _ _ _ H)].
    intros c1 c2 [Hr|Hn].
    + destruct Hr as (-> & Hg & Hp & _). auto.
    + destruct Hn as (-> & Hg & Hp & _). auto.
  - intros c r Heq. destruct (run_first_solve _ _ _ _ _ _ _ _ _ _ _ H Heq) as (Hg & Hp & _). auto.
Qed.

(** Sum of the accepted stepsizes when nothing failed. *)
Lemma Qsum_app a b : Qsum (a ++ b) == Qsum a + Qsum b.
Proof.
  unfold Qsum. induction a as [|x r IH]; cbn [app fold_right]; [ring|]. rewrite IH. ring.
Qed.

Lemma iterate_no_failure st atts st' evs :
  iterate st atts = (st', evs, Done) ->
  (forall c, In c (solves evs) -> at_conv (sv_out c) = true) ->
  accepted_dts evs = [value (st_dt st)].
Proof.
  intros H Hall.
  pose proof (iterate_accepted _ _ _ _ _ _ _ _ H) as (c & Hc & _).
  assert (Hid : acc (solves evs) = solves evs).
  { clear -Hall. unfold acc. induction (solves evs) as [|x r IH]; cbn in *; [reflexivity|].
    rewrite (Hall x (or_introl eq_refl)). f_equal. apply IH. auto. }
  unfold accepted_dts. fold (acc (solves evs)). rewrite Hc. cbn.
  rewrite Hid in Hc.
  destruct (iterate_first_solve _ _ _ _ _ _ _ _ _ _ _ H Hc) as (_ & _ & Hd & _).
  now rewrite Hd.
Qed.

Lemma steps_clock_sum st evs st' :
  steps st evs st' ->
  (forall c, In c (solves evs) -> at_conv (sv_out c) = true) ->
  st_t st' == st_t st + Qsum (accepted_dts evs).
Proof.
  induction 1 as [st|st atts st1 e1 e2 st2 Hr Hi Hs IH]; intros Hall.
  - cbn. lra.
  - rewrite solves_app in Hall.
    destruct (iterate_visited _ _ _ _ _ _ _ _ Hi) as [_ Ht]. cbn in Ht.
    assert (H1 : accepted_dts e1 = [value (st_dt st)]).
    { eapply iterate_no_failure; eauto. intros c Hc. apply Hall. apply in_or_app. auto. }
    assert (Happ : accepted_dts (e1 ++ e2) = (accepted_dts e1 ++ accepted_dts e2)%list).
    { unfold accepted_dts. now rewrite solves_app, filter_app, map_app. }
    rewrite Happ, Qsum_app, H1, IH, Ht.
    + cbn. lra.
    + intros c Hc. apply Hall. apply in_or_app. auto.
Qed.

Lemma run_clock_sum s T Tn u un d dn e sched st' evs :
  run (start s T Tn u un d dn e) sched = (st', evs, Done) ->
  (forall c, In c (solves evs) -> at_conv (sv_out c) = true) ->
  st_t st' == Qsum (accepted_dts evs).
Proof.
  intros H Hall. apply run_done_steps in H as [Hs _].
  rewrite (steps_clock_sum _ _ _ Hs Hall). cbn. lra.
Qed.

(** Temperature given by an expression. *)
Lemma run_temperature_expr (f : Q -> X) s T Tn u un d dn e sched st' evs stt :
  temp = TempExpr f ->
  run (start s T Tn u un d dn e) sched = (st', evs, stt) ->
  (forall c, In c (solves evs) -> sv_T c = f (sv_t c)) /\
  chain (fun c1 c2 => sv_Tn c2 = if at_conv (sv_out c1) then sv_T c1 else sv_Tn c1) (solves evs) /\
  (forall c r, solves evs = c :: r -> sv_Tn c = T).
Proof.
  intros HT H.
  pose proof (run_chain_start _ _ _ _ _ _ _ _ _ _ _ _ H) as Hch.
  assert (Hfirst : forall c r, solves evs = c :: r -> sv_T c = f (sv_t c) /\ sv_Tn c = T).
  { intros c r Heq.
    destruct (run_first_solve _ _ _ _ _ _ _ _ _ _ _ H Heq) as (_ & _ & _ & _ & _ & Htu).
    rewrite HT in Htu. cbn in Htu. injection Htu as <- <-. auto. }
  split; [|split].
  - destruct (solves evs) as [|c r] eqn:Heq; [intros c []|].
    destruct (Hfirst c r eq_refl) as [H1 _].
    clear -Hch H1 HT. revert c H1 Hch. induction r as [|b r IH]; intros c H1 Hch c' Hin.
    + destruct Hin as [<-|[]]. exact H1.
    + destruct Hin as [<-|Hin]; [exact H1|].
      cbn in Hch. destruct Hch as [Hf Hch]. apply (IH b); auto.
      destruct Hf as [Hr|Hn].
      * destruct Hr as (_ & _ & _ & Ht & HT' & _). now rewrite HT', Ht.
      * destruct Hn as (_ & _ & _ & _ & Htu & _). rewrite HT in Htu. cbn in Htu.
        now injection Htu.
  - eapply chain_impl; [|exact Hch]. intros c1 c2 [Hr|Hn].
    + destruct Hr as (-> & _ & _ & _ & _ & HTn & _). exact HTn.
    + destruct Hn as (-> & _ & _ & _ & Htu & _). rewrite HT in Htu. cbn in Htu. now injection Htu.
  - intros c r Heq. now apply (Hfirst c r).
Qed.

(** Temperature from a transient heat transfer problem. *)
Lemma run_temperature_heat solve s T Tn u un d dn e sched st' evs stt :
  temp = TempHeat true solve ->
  run (start s T Tn u un d dn e) sched = (st', evs, stt) ->
  forall c, In c (solves evs) -> sv_Tn c = sv_T c.
Proof.
  intros HT H.
  pose proof (run_chain_start _ _ _ _ _ _ _ _ _ _ _ _ H) as Hch.
  destruct (solves evs) as [|c r] eqn:Heq; [intros c []|].
  assert (H1 : sv_Tn c = sv_T c).
  { destruct (run_first_solve _ _ _ _ _ _ _ _ _ _ _ H Heq) as (_ & _ & _ & _ & _ & Htu).
    rewrite HT in Htu. cbn in Htu. injection Htu as <- <-. reflexivity. }
  clear -Hch H1 HT. revert c H1 Hch. induction r as [|b r IH]; intros c H1 Hch c' Hin.
  - destruct Hin as [<-|[]]. exact H1.
  - destruct Hin as [<-|Hin]; [exact H1|].
    cbn in Hch. destruct Hch as [Hf Hch]. apply (IH b); auto.
    destruct Hf as [Hr|Hn].
    + destruct Hr as (_ & _ & _ & _ & HT' & HTn & _). congruence.
    + destruct Hn as (_ & _ & _ & _ & Htu & _). rewrite HT in Htu. cbn in Htu.
      injection Htu as <- <-. reflexivity.
Qed.

(** ** C08: only converged solutions are kept *)
Lemma run_posts s T Tn u un d dn e sched st' evs stt :
  run (start s T Tn u un d dn e) sched = (st', evs, stt) ->
  exists tl,
    map (fun c => (sv_t c, at_u (sv_out c), sv_T c))
        (filter (fun c => at_conv (sv_out c)) (solves evs)) = (posts evs ++ tl)%list /\
    (stt = Done \/ stt = Pending -> tl = []).
Proof.
  intros H. apply run_steps in H as (st1 & e0 & e1 & Hs & -> & Hcase).
  rewrite posts_app, (steps_accepted _ _ _ _ _ _ _ Hs), solves_app. fold (acc (solves e0 ++ solves e1)).
  rewrite acc_app, map_app.
  destruct Hcase as [(_ & _ & _ & ->)|[(_ & _ & _ & ->)|(Hn & Hr & atts & Hi)]].
  - exists []. cbn. rewrite !app_nil_r. auto.
  - exists []. cbn. rewrite !app_nil_r. auto.
  - pose proof (iterate_not_done _ _ _ _ _ _ _ _ _ Hi Hn) as
      (T' & Tn' & u' & s' & e0' & stt0 & tl & HT & Hl & He & Hv & Ht & Hst).
    rewrite visited_posts in Hv. apply map_eq_nil in Hv. rewrite Hv, app_nil_r.
    eexists. split; [reflexivity|].
    intros [-> | ->]; [now elim Hn|].
    unfold TimeLoop.iterate in Hi. cbn in HT, Hl. cbn zeta in Hi. cbn [nadd NumQ] in Hi. rewrite HT in Hi. unfold update in Hi.
    cbn [st_t st_dt st_T st_Tn st_u st_un st_dens st_densn st_expr st_exp] in Hi.
    rewrite Hl in Hi.
    destruct stt0; cbn in Hi.
    + destruct (post _ u' T' (st_exp st1)); discriminate.
    + discriminate.
    + injection Hi as _ <-. rewrite acc_none; [reflexivity|].
      clear -Hl.
      revert Hl. generalize (st_dt st1), (st_t st1 + value (st_dt st1)). intros s q.
      revert s u' s' e0'. induction atts as [|a r IH]; intros s u' s' e0' Hl; cbn in Hl.
      * injection Hl as <- <- <-. intros c [].
      * destruct (if calls_adapt s then adapt s _ (at_nb a) (at_conv a) else Ok s) as [s1|]; [|discriminate].
        destruct (at_conv a) eqn:Ec; [discriminate|].
        destruct (update_loop q q T' Tn' (st_dens st1) (st_u st1) (st_un st1) s1 r)
          as [[[u2 s2] e2] st2] eqn:E2.
        injection Hl as <- <- <- ->. intros c [<-|Hin]; [exact Ec|].
        eapply IH; eauto.
Qed.

(** ** C13 *)
Lemma loop_noadapt t et T Tn dens g p (s : stepsize Q) atts u s' evs stt :
  calls_adapt s = false ->
  update_loop (U:=U) (X:=X) (D:=D) t et T Tn dens g p s atts = (u, s', evs, stt) ->
  forall c, In c (solves evs) -> sv_dt c = value s.
Proof.
  intros Hc. revert u s' evs stt. induction atts as [|a r IH]; intros u s' evs stt H; cbn in H.
  - injection H as <- <- <- <-. intros c [].
  - rewrite Hc in H. destruct (at_conv a).
    + injection H as <- <- <- <-. intros c [<-|[]]. reflexivity.
    + destruct (update_loop t et T Tn dens g p s r) as [[[u2 s2] e2] st2] eqn:E2.
      injection H as <- <- <- <-. intros c [<-|Hin]; [reflexivity|]. eauto.
Qed.

Lemma steps_density st evs st' :
  calls_adapt (st_dt st) = false -> steps st evs st' -> density_dts evs = accepted_dts evs.
Proof.
  intros Hc Hs. induction Hs as [st|st atts st1 e1 e2 st2 Hr Hi Hs IH]; [reflexivity|].
  rewrite density_dts_app. unfold accepted_dts in *. rewrite solves_app, filter_app, map_app.
  apply iterate_done in Hi as (T & Tn & u & s & e0 & e & d & HT & Hl & Hd & _ & -> & ->).
  pose proof (loop_last_adapt _ _ _ _ _ _ _ _ _ _ _ _ Hl) as Hla. rewrite Hc in Hla. subst s.
  rewrite IH.
  - f_equal. pose proof (loop_events _ _ _ _ _ _ _ _ _ _ _ _ _ Hl) as (_ & Hdd & _).
    rewrite density_dts_app, Hdd, solves_app. cbn. rewrite app_nil_r.
    destruct (loop_done _ _ _ _ _ _ _ _ _ _ _ _ Hl) as (pre & c & Heq & Hacc & _ & Hfail).
    fold (acc (solves e0)). rewrite Heq, acc_app, (acc_none pre Hfail). cbn.
    unfold accepted in Hacc. rewrite Hacc. cbn. f_equal.
    symmetry. eapply loop_noadapt; [exact Hc|exact Hl|].
    rewrite Heq. apply in_or_app. cbn. auto.
  - cbn. unfold calls_adapt in *. rewrite clamp_final_adaptive, clamp_final_milestones. exact Hc.
Qed.

Lemma run_density s T Tn u un d dn e sched st' evs :
  adaptive_stepsize s = None -> milestones s = None ->
  run (start s T Tn u un d dn e) sched = (st', evs, Done) ->
  density_dts evs = accepted_dts evs.
Proof.
  intros Ha Hm H. apply run_done_steps in H as [Hs _].
  eapply (steps_density (start s T Tn u un d dn e)); [|exact Hs].
  unfold calls_adapt. cbn. now rewrite Ha, Hm.
Qed.

End Runs.
