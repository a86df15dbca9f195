(** Adaptive runs whose converged solves are quick: a lower bound of the stepsizes, and their end. *)
From Coq Require Import ZArith QArith Qabs Qminmax List Bool Lqa Lia String.
From Verif Require Import Base.Exc Base.Num Model.Stepsize Model.TimeLoop Spec.TimeSpec
  Proofs.NumQ Proofs.StepsizeProofs Proofs.TimeLoopProofs Proofs.TimeChain Proofs.TimeQ Proofs.TimeQ2
  Proofs.TimeTerm.
Import ListNotations.
Local Open Scope Q_scope.
Local Notation length := List.length.

Section Floor.
Variable a0 : adaptive Q.
Variable ml : option (list Q).
Variable dlt : Q.
Hypothesis Hr : 1 <= change_ratio a0.
Hypothesis Hd : 0 < dlt.
Hypothesis Hb : forall t b, bound_at (max_stepsize a0) t b -> dlt <= b.
Hypothesis Hm : forall l m, ml = Some l -> In m l -> 0 < m -> dlt <= (1 # 100000) * m.

Lemma cap_floor t v w : dlt <= v -> cap (max_stepsize a0) t v = Ok w -> dlt <= w.
Proof.
  unfold cap. intros Hv. destruct (max_stepsize a0) as [|x|f] eqn:E; cbn.
  - congruence.
  - injection 1 as <-. specialize (Hb t x eq_refl). destruct (Qltb x v); lra.
  - destruct (f t) as [[b|]|] eqn:Ef; cbn; try congruence.
    injection 1 as <-. specialize (Hb t b Ef). destruct (Qltb b v); lra.
Qed.

Lemma clamp_floor (s : stepsize Q) t v : milestones s = ml -> 0 <= t -> dlt <= v -> dlt <= clamp_milestone s t v.
Proof.
  intros Hs Ht Hv. unfold clamp_milestone. destruct (next_milestone s t) as [m|] eqn:En; [|exact Hv].
  cbn [nltb nadd nsub NumQ]. destruct (Qltb m (t + v) && negb (isclose t m)) eqn:E; [|exact Hv].
  apply andb_true_iff in E as [_ Hc]. apply negb_true_iff, isclose_false in Hc.
  unfold next_milestone in En. rewrite Hs in En. destruct ml as [l|]; [|discriminate].
  apply first_after_some in En as [Hin Hlt].
  assert (Hpos : 0 < m) by lra. specialize (Hm l m eq_refl Hin Hpos).
  unfold close in Hc. rewrite (Qabs_pos m) in Hc by lra.
  assert (Ha : Qabs (t - m) == m - t).
  { rewrite Qabs_neg by lra. ring. }
  rewrite Ha in Hc. lra.
Qed.

Lemma times_ge v : 0 <= v -> v <= v * change_ratio a0.
Proof.
  intros Hv. setoid_replace v with (1 * v) at 1 by ring. rewrite (Qmult_comm v). now apply Qmult_le_compat_r.
Qed.

(** After a failed attempt the stepsize is at least dlt, whatever it was; after a quick one it does not fall
    below dlt. *)
Lemma adapt_floor (s s' : stepsize Q) t nb c :
  adaptive_stepsize s = Some a0 -> milestones s = ml -> 0 <= t ->
  (c = true -> dlt <= value s /\ (nb < 5)%Z) ->
  (c = false -> forall dm, dt_min a0 = Some dm -> dlt * change_ratio a0 <= dm) ->
  adapt s t nb c = Ok s' -> dlt <= value s'.
Proof.
  intros Ha Hml Ht Hc Hf H. apply adapt_inv in H as (v & Hv & ->). rewrite Ha in Hv. cbn [assign value].
  apply clamp_floor; [assumption..|]. unfold adapt_value in Hv. destruct c.
  - destruct (Hc eq_refl) as [Hge Hnb]. cbn [bind] in Hv.
    rewrite (proj2 (Z.ltb_lt nb 5) Hnb) in Hv. cbn [bind nmul NumQ] in Hv.
    eapply cap_floor; [|exact Hv]. pose proof (times_ge (value s)). lra.
  - specialize (Hf eq_refl). destruct (adapt_diverged a0 (value s)) as [v1|] eqn:E1; [|discriminate].
    cbn [bind] in Hv.
    assert (Hv1 : dlt * change_ratio a0 <= v1).
    { unfold adapt_diverged in E1. destruct (dt_min a0) as [dm|]; [|discriminate]. specialize (Hf dm eq_refl).
      destruct (py_div (value s) (change_ratio a0)) as [w|]; cbn in E1; [|discriminate].
      destruct (Qltb w dm) eqn:Ew; [discriminate|]. injection E1 as <-. apply Qltb_false in Ew. lra. }
    destruct (nb <? 5)%Z.
    + cbn [bind nmul NumQ] in Hv. eapply cap_floor; [|exact Hv].
      pose proof (times_ge dlt). pose proof (times_ge v1). lra.
    + destruct (py_div v1 (change_ratio a0)) as [w|] eqn:Ew; [|discriminate]. cbn [bind] in Hv.
      apply py_div_ok in Ew. eapply cap_floor; [|exact Hv]. rewrite Ew.
      apply Qle_shift_div_l; [lra|exact Hv1].
Qed.

Hypothesis Hdm : forall dm, dt_min a0 = Some dm -> dlt * change_ratio a0 <= dm.

Section Loop.
Context {U X D : Type}.
Variables (t et : Q) (T Tn : X) (dens : D) (g p : U).
Local Notation loop := (update_loop t et T Tn dens g p).

Definition quickly (x : attempt U) : Prop := at_conv x = true -> (at_nb x < 5)%Z.

(** All attempts of a step but the first use at least dlt. *)
Lemma loop_floor s atts u s' evs stt :
  loop s atts = (u, s', evs, stt) ->
  adaptive_stepsize s = Some a0 -> milestones s = ml -> 0 <= t ->
  (forall c, In c (solves evs) -> quickly (sv_out c)) ->
  (forall c, In c (solves evs) -> dlt <= sv_dt c \/ sv_dt c = value s) /\
  (dlt <= value s -> stt = Done -> dlt <= value s').
Proof.
  intros H Ha Hml Ht. revert s u s' evs stt H Ha Hml.
  induction atts as [|x r IH]; cbn [update_loop]; intros s u s' evs stt H Ha Hml Hq.
  - injection H as <- <- <- <-. split; [intros c []|auto].
  - unfold calls_adapt in H. rewrite Ha in H.
    destruct (adapt s t (at_nb x) (at_conv x)) as [s1|e] eqn:E1.
    + assert (Ha1 : adaptive_stepsize s1 = Some a0) by (now rewrite (adapt_adaptive _ _ _ _ _ E1)).
      assert (Hm1 : milestones s1 = ml) by (now rewrite (adapt_milestones _ _ _ _ _ E1)).
      destruct (at_conv x) eqn:Ec.
      * injection H as <- <- <- <-. split.
        { intros c [<-|[]]. now right. }
        intros Hge _. apply (adapt_floor s s1 t (at_nb x) true); [assumption..| |discriminate|exact E1].
        intros _. split; [exact Hge|]. apply (Hq _ (or_introl eq_refl)). exact Ec.
      * assert (Hge1 : dlt <= value s1).
        { apply (adapt_floor s s1 t (at_nb x) false); [assumption..|discriminate|intros _; exact Hdm|exact E1]. }
        destruct (loop s1 r) as [[[u2 s2] evs2] st2] eqn:E2. injection H as <- <- <- <-.
        destruct (IH _ _ _ _ _ E2 Ha1 Hm1) as [Hc Hv].
        { intros c Hin. apply Hq. cbn. auto. }
        split.
        { intros c [<-|Hin]; [now right|]. destruct (Hc c Hin) as [Hx|Hx]; [now left|left; rewrite Hx; exact Hge1]. }
        { intros _. now apply Hv. }
    + injection H as <- <- <- <-. split; [|discriminate]. intros c [<-|[]]. now right.
Qed.
End Loop.

Section Runs.
Context {U X D E : Type}.
Variable temp : temperature (A:=Q) X.
Variable dens_solve : D -> D -> Q -> X -> D.
Variable post : Q -> U -> X -> E -> res E.
Variable F : Q.
Local Notation state := (state (A:=Q) U X D E).
Local Notation iterate := (iterate temp dens_solve post F).
Local Notation run := (run_transient temp dens_solve post F).
Local Notation running := (running (U:=U) (X:=X) (D:=D) (E:=E) F).
Local Notation steps := (steps temp dens_solve post F).

Definition floored (st : state) : Prop :=
  adaptive_stepsize (st_dt st) = Some a0 /\ milestones (st_dt st) = ml /\ 0 <= st_t st /\
  (running st = true -> dlt <= value (st_dt st) \/ 0 < value (st_dt st) /\ st_t st + value (st_dt st) == F).

Lemma iterate_floor st atts st' evs :
  floored st -> running st = true -> iterate st atts = (st', evs, Done) ->
  (forall c, In c (solves evs) -> quickly (sv_out c)) ->
  floored st' /\ (forall c, In c (solves evs) -> dlt <= sv_dt c \/ sv_t c == F) /\
  (st_t st + dlt <= st_t st' \/ st_t st' == F).
Proof.
  intros (Ha & Hml & Ht & Hv) Hrun H Hq. specialize (Hv Hrun).
  apply iterate_done in H as (T & Tn & u & s & e0 & e & d & _ & Hl & _ & _ & -> & ->).
  cbn [nadd NumQ] in Hl. rewrite solves_app in Hq |- *. cbn [solves app] in Hq |- *.
  assert (Ht1 : 0 <= st_t st + value (st_dt st)) by lra.
  pose proof (loop_settings _ _ _ _ _ _ _ _ _ _ _ _ _ Hl) as (Hsa & Hsm & _).
  destruct (loop_floor _ _ _ _ _ _ _ _ _ _ _ _ _ Hl Ha Hml Ht1) as [Hc Hge].
  { intros c Hin. apply Hq. apply in_or_app. now left. }
  split; [|split].
  - split; [|split; [|split]].
    + cbn. now rewrite clamp_final_adaptive, Hsa.
    + cbn. now rewrite clamp_final_milestones, Hsm.
    + exact Ht1.
    + intros Hr'. apply running_true in Hr' as [Hlt _]. cbn [st_t st_dt] in Hlt |- *. cbn [nadd NumQ] in *.
      destruct Hv as [Hv|[_ Hv]]; [|lra]. specialize (Hge Hv eq_refl).
      unfold clamp_final. cbn [nltb nadd nsub NumQ]. destruct (Qltb F _) eqn:Ef; cbn [assign value]; [|now left].
      right. split; [lra|ring].
  - intros c Hin. apply in_app_or in Hin as [Hin|[]].
    destruct (Hc c Hin) as [|Heq]; [now left|].
    destruct Hv as [Hv|[_ Hv]]; [left; now rewrite Heq|right].
    destruct (loop_events _ _ _ _ _ _ _ _ _ _ _ _ _ Hl) as (_ & _ & He).
    destruct (He c Hin) as (_ & _ & -> & _). exact Hv.
  - cbn [st_t nadd NumQ]. destruct Hv as [Hv|[_ Hv]]; [left; lra|right; exact Hv].
Qed.

Lemma steps_floor st evs st' :
  floored st -> steps st evs st' -> (forall c, In c (solves evs) -> quickly (sv_out c)) ->
  floored st' /\ (forall c, In c (solves evs) -> dlt <= sv_dt c \/ sv_t c == F).
Proof.
  intros Hf Hs. induction Hs as [st|st atts st1 e1 e2 st2 Hr1 Hi Hs IH]; intros Hq.
  - split; [exact Hf|intros c []].
  - rewrite solves_app in Hq |- *.
    destruct (iterate_floor _ _ _ _ Hf Hr1 Hi) as (Hf1 & Hc & _).
    { intros c Hin. apply Hq, in_or_app. now left. }
    destruct (IH Hf1) as [Hf2 Hc2].
    { intros c Hin. apply Hq, in_or_app. now right. }
    split; [exact Hf2|]. intros c Hin. apply in_app_or in Hin as [|]; auto.
Qed.

Lemma floored_start s T Tn u un d dn e :
  adaptive_stepsize s = Some a0 -> milestones s = ml -> dlt <= initial_value s ->
  floored (start s T Tn u un d dn e).
Proof. intros Ha Hml Hi. repeat split; cbn; auto. lra. Qed.

(** Every stepsize used is at least dlt, except for the step that lands on final_time. *)
Lemma run_floor s T Tn u un d dn e sched st' evs stt :
  adaptive_stepsize s = Some a0 -> milestones s = ml -> dlt <= initial_value s ->
  run (start s T Tn u un d dn e) sched = (st', evs, stt) ->
  (forall c, In c (solves evs) -> quickly (sv_out c)) ->
  forall c, In c (solves evs) -> dlt <= sv_dt c \/ sv_t c == F.
Proof.
  intros Ha Hml Hi H Hq. pose proof (floored_start s T Tn u un d dn e Ha Hml Hi) as Hf.
  apply run_steps in H as (st0 & e0 & e1 & Hs & -> & Hcase). rewrite solves_app in Hq |- *.
  destruct (steps_floor _ _ _ Hf Hs) as [(Ha0 & Hm0 & Ht0 & Hv0) Hc0].
  { intros c Hin. apply Hq, in_or_app. now left. }
  intros c Hin. apply in_app_or in Hin as [Hin|Hin]; [now apply Hc0|].
  destruct Hcase as [(_ & _ & _ & ->)|[(_ & _ & _ & ->)|(Hn & Hr0 & atts & Hit)]]; [destruct Hin..|].
  specialize (Hv0 Hr0).
  pose proof (iterate_not_done _ _ _ _ _ _ _ _ _ Hit Hn) as (T' & Tn' & u' & s' & e0' & stt0 & tl & _ & Hl & -> & _ & Htl & _).
  rewrite solves_app, Htl, app_nil_r in Hin. cbn [nadd NumQ] in Hl.
  assert (Ht1 : 0 <= st_t st0 + value (st_dt st0)) by lra.
  destruct (loop_floor _ _ _ _ _ _ _ _ _ _ _ _ _ Hl Ha0 Hm0 Ht1) as [Hc _].
  { intros c' Hin'. apply Hq, in_or_app. right. rewrite solves_app, Htl, app_nil_r. exact Hin'. }
  destruct (Hc c Hin) as [|Heq]; [now left|].
  destruct Hv0 as [Hv|[_ Hv]]; [left; now rewrite Heq|right].
  destruct (loop_events _ _ _ _ _ _ _ _ _ _ _ _ _ Hl) as (_ & _ & He).
  destruct (He c Hin) as (_ & _ & -> & _). exact Hv.
Qed.

(** The attempts of a step: some converge, and the first that does is quick. *)
Lemma loop_not_pending (t et : Q) (T Tn : X) (dens : D) (g p : U) atts : forall (s : stepsize Q) u s' evs stt,
  update_loop t et T Tn dens g p s atts = (u, s', evs, stt) ->
  (exists x, In x atts /\ at_conv x = true) -> stt <> Pending.
Proof.
  induction atts as [|x r IH]; intros s u s' evs stt H [y [Hin Hy]]; [destruct Hin|].
  cbn [update_loop] in H. destruct (if calls_adapt s then _ else _) as [s1|e].
  - destruct (at_conv x) eqn:Ec; [injection H as <- <- <- <-; discriminate|].
    destruct (update_loop t et T Tn dens g p s1 r) as [[[u2 s2] evs2] st2] eqn:E2. injection H as <- <- <- <-.
    apply (IH _ _ _ _ _ E2). destruct Hin as [->|Hin]; [congruence|eauto].
  - injection H as <- <- <- <-. discriminate.
Qed.

Lemma loop_outs (t et : Q) (T Tn : X) (dens : D) (g p : U) atts : forall (s : stepsize Q) u s' evs stt,
  update_loop t et T Tn dens g p s atts = (u, s', evs, stt) ->
  forall c, In c (solves evs) -> In (sv_out c) atts.
Proof.
  induction atts as [|x r IH]; intros s u s' evs stt H c Hc.
  - injection H as <- <- <- <-. destruct Hc.
  - cbn [update_loop] in H. destruct (if calls_adapt s then _ else _) as [s1|e].
    + destruct (at_conv x) eqn:Ec; [injection H as <- <- <- <-; destruct Hc as [<-|[]]; now left|].
      destruct (update_loop t et T Tn dens g p s1 r) as [[[u2 s2] evs2] st2] eqn:E2. injection H as <- <- <- <-.
      destruct Hc as [<-|Hc]; [now left|]. right. now apply (IH _ _ _ _ _ E2).
    + injection H as <- <- <- <-. destruct Hc as [<-|[]]. now left.
Qed.

Lemma iterate_outs st atts st' evs stt : iterate st atts = (st', evs, stt) ->
  (forall c, In c (solves evs) -> In (sv_out c) atts) /\
  ((exists x, In x atts /\ at_conv x = true) -> stt <> Pending).
Proof.
  unfold TimeLoop.iterate. cbn zeta.
  destruct (temp_update temp _ _ (st_T st) (st_Tn st)) as [T Tn].
  unfold update. cbn [st_t st_dt st_T st_Tn st_u st_un st_dens st_densn st_expr st_exp].
  destruct (update_loop _ _ T Tn _ _ _ _ atts) as [[[u s] evs0] stt0] eqn:El.
  pose proof (loop_outs _ _ _ _ _ _ _ _ _ _ _ _ _ El) as Ho.
  pose proof (loop_not_pending _ _ _ _ _ _ _ _ _ _ _ _ _ El) as Hp.
  assert (Hs : forall dd ty tt_ de, solves (evs0 ++ [EvDensity dd ty tt_ de]) = solves evs0).
  { intros. rewrite solves_app. cbn. now rewrite app_nil_r. }
  destruct stt0; cbn [st_u st_T st_exp].
  - destruct (post _ u T (st_exp st)) as [e'|e'] eqn:Ep; intros [= <- <- <-].
    + split; [|discriminate]. intros c. rewrite solves_app. cbn. rewrite app_nil_r, Hs. apply Ho.
    + split; [|discriminate]. intros c. rewrite Hs. apply Ho.
  - intros [= <- <- <-]. split; [exact Ho|discriminate].
  - intros [= <- <- <-]. split; [exact Ho|exact Hp].
Qed.

(** With enough steps the loop does not go on. *)
Lemma run_floor_ends : forall sched st, 
  (forall atts, In atts sched -> (exists x, In x atts /\ at_conv x = true) /\ forall x, In x atts -> quickly x) ->
  floored st ->
  F - st_t st <= inject_Z (Z.of_nat (length sched)) * dlt ->
  exists st' evs stt, run st sched = (st', evs, stt) /\ stt <> Pending.
Proof.
  induction sched as [|atts r IH]; intros st Hq Hf HF.
  - cbn [run_transient]. destruct (running st) eqn:Er.
    + apply running_true in Er as [Hlt _].
      change (inject_Z (Z.of_nat (length (@nil (list (attempt U)))))) with 0 in HF. lra.
    + do 3 eexists. split; [reflexivity|discriminate].
  - cbn [run_transient]. destruct (running st) eqn:Er.
    2:{ do 3 eexists. split; [reflexivity|discriminate]. }
    destruct (Hq _ (or_introl eq_refl)) as [Hex Hqu].
    destruct (iterate st atts) as [[st1 e1] stt1] eqn:Ei.
    destruct (iterate_outs _ _ _ _ _ Ei) as [Ho Hp]. specialize (Hp Hex).
    destruct stt1; [|do 3 eexists; split; [reflexivity|discriminate]|congruence].
    destruct (iterate_floor _ _ _ _ Hf Er Ei) as (Hf1 & _ & Hstep).
    { intros c Hin. apply Hqu, Ho, Hin. }
    assert (Hend : F - st_t st1 <= inject_Z (Z.of_nat (length r)) * dlt).
    { destruct Hstep as [Hst|Hst].
      - cbn [length] in HF. rewrite Nat2Z.inj_succ in HF. unfold Z.succ in HF. rewrite inject_Z_plus in HF.
        change (inject_Z 1) with 1 in HF. lra.
      - rewrite Hst. assert (0 <= inject_Z (Z.of_nat (length r)) * dlt); [|lra].
        apply Qmult_le_0_compat; [|lra]. change 0 with (inject_Z 0). rewrite <- Zle_Qle. lia. }
    destruct (IH st1) as (st2 & e2 & stt2 & -> & Hn); auto.
    { intros at' Hin. apply Hq. now right. }
    do 3 eexists. split; [reflexivity|exact Hn].
Qed.

Lemma run_ends_floor s T Tn u un d dn e sched :
  adaptive_stepsize s = Some a0 -> milestones s = ml -> dlt <= initial_value s ->
  (forall atts, In atts sched -> (exists x, In x atts /\ at_conv x = true) /\ forall x, In x atts -> quickly x) ->
  F <= inject_Z (Z.of_nat (length sched)) * dlt ->
  exists st' evs stt, run (start s T Tn u un d dn e) sched = (st', evs, stt) /\ stt <> Pending.
Proof.
  intros Ha Hml Hi Hq HF. apply run_floor_ends; [exact Hq|now apply floored_start|]. cbn. lra.
Qed.

End Runs.
End Floor.

(** Adaptive settings without failures. *)
Section Quick.
Context {U X D E : Type}.
Variable temp : temperature (A:=Q) X.
Variable dens_solve : D -> D -> Q -> X -> D.
Variable post : Q -> U -> X -> E -> res E.
Variable F : Q.
Hypothesis post_ok : forall t u T e, exists e', post t u T e = Ok e'.
Variable a0 : adaptive Q.
Variable ml : option (list Q).
Variable dlt : Q.
Hypothesis Hr : 1 <= change_ratio a0.
Hypothesis Hd : 0 < dlt.
Hypothesis Hb : forall t b, bound_at (max_stepsize a0) t b -> dlt <= b.
Hypothesis Hm : forall l m, ml = Some l -> In m l -> 0 < m -> dlt <= (1 # 100000) * m.
Hypothesis Htot : total_max (max_stepsize a0).
Local Notation run := (run_transient temp dens_solve post F).
Local Notation running := (running (U:=U) (X:=X) (D:=D) (E:=E) F).

Lemma quick_ends_gen : forall sched st, quick sched -> floored a0 ml dlt F st ->
  F - st_t st <= inject_Z (Z.of_nat (length sched)) * dlt ->
  exists st' evs, run st sched = (st', evs, Done).
Proof.
  induction sched as [|atts r IH]; intros st Hq (Ha & Hml & Ht & Hv) HF.
  - cbn [run_transient]. destruct (running st) eqn:Er; [|eauto].
    apply running_true in Er as [Hlt _].
    change (inject_Z (Z.of_nat (length (@nil (list (attempt U)))))) with 0 in HF. lra.
  - cbn [run_transient]. destruct (running st) eqn:Er; [|eauto]. specialize (Hv eq_refl).
    pose proof (Hq _ (or_introl eq_refl)) as Hx. destruct atts as [|x xs]; [destruct Hx|]. destruct Hx as [Hc Hnb].
    unfold TimeLoop.iterate. cbn zeta. destruct (temp_update temp _ _ (st_T st) (st_Tn st)) as [T Tn].
    unfold update. cbn [st_t st_dt st_T st_Tn st_u st_un st_dens st_densn st_expr st_exp update_loop].
    unfold calls_adapt. rewrite Ha, Hc. cbn [nadd NumQ].
    set (t1 := st_t st + value (st_dt st)) in *.
    assert (Ht1 : 0 <= t1) by (unfold t1; lra).
    assert (Had : exists s1, adapt (st_dt st) t1 (at_nb x) true = Ok s1).
    { unfold adapt. rewrite Ha. unfold adapt_value. cbn [bind]. rewrite (proj2 (Z.ltb_lt (at_nb x) 5) Hnb). cbn [bind].
      destruct (cap_total (max_stepsize a0) t1 (nmul (value (st_dt st)) (change_ratio a0)) Htot) as [w Hw].
      rewrite Hw. cbn [bind]. eauto. }
    destruct Had as [s1 Had]. rewrite Had. cbn [st_u st_T st_exp st_dt].
    destruct (post_ok t1 (at_u x) T (st_exp st)) as [e' ->].
    match goal with |- context [run_transient _ _ _ _ ?S r] =>
      destruct (IH S) as (st' & evs & Hrun) end; [| | |rewrite Hrun; eauto].
    + intros at' Hin. apply Hq. now right.
    + split; [|split; [|split]]; cbn [st_dt st_t].
      * rewrite clamp_final_adaptive. now rewrite (adapt_adaptive _ _ _ _ _ Had).
      * rewrite clamp_final_milestones. now rewrite (adapt_milestones _ _ _ _ _ Had).
      * exact Ht1.
      * intros Hr'. apply running_true in Hr' as [Hlt _]. cbn [st_t] in Hlt.
        destruct Hv as [Hv|[_ Hv]]; [|fold t1 in Hv; lra].
        assert (Hge : dlt <= value s1).
        { apply (adapt_floor a0 ml dlt Hr Hd Hb Hm (st_dt st) s1 t1 (at_nb x) true); auto. discriminate. }
        unfold clamp_final. cbn [nltb nadd nsub NumQ]. destruct (Qltb F _) eqn:Ef; cbn [assign value]; [|now left].
        right. split; [lra|ring].
    + cbn [st_t]. cbn [length] in HF. rewrite Nat2Z.inj_succ in HF. unfold Z.succ in HF. rewrite inject_Z_plus in HF.
      change (inject_Z 1) with 1 in HF.
      assert (0 <= inject_Z (Z.of_nat (length r)) * dlt).
      { apply Qmult_le_0_compat; [|lra]. change 0 with (inject_Z 0). rewrite <- Zle_Qle. lia. }
      destruct Hv as [Hv|[_ Hv]]; unfold t1 in *; lra.
Qed.

Lemma quick_ends s T Tn u un d dn e sched :
  adaptive_stepsize s = Some a0 -> milestones s = ml -> dlt <= initial_value s ->
  quick sched -> F <= inject_Z (Z.of_nat (length sched)) * dlt ->
  exists st' evs, run (start s T Tn u un d dn e) sched = (st', evs, Done).
Proof.
  intros Ha Hml Hi Hq HF. apply quick_ends_gen; [exact Hq| |cbn; lra]. now apply floored_start.
Qed.
End Quick.

Lemma floor_settings (d0 : Q) rt ts sm mx dm ml a (dlt : Q) r :
  rt = Some r -> adaptive_stepsize (mk_stepsize d0 rt ts sm mx dm ml) = Some a ->
  (forall x, sm = Some x -> dlt <= x) -> (forall t b, bound_at mx t b -> dlt <= b) ->
  change_ratio a = r /\ dt_min a = dm /\ forall t b, bound_at (max_stepsize a) t b -> dlt <= b.
Proof.
  intros -> [= <-] Hs Hb. split; [reflexivity|]. split; [reflexivity|].
  intros t b. cbn [max_stepsize]. destruct (truthy ts || truthy sm); [|apply Hb]. unfold bound_at, stop_lambda.
  destruct ts as [ts'|]; [|discriminate]. intros H. injection H as H. destruct (Qle_bool ts' t); [eauto|discriminate].
Qed.
