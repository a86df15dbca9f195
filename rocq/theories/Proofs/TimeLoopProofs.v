(** Structure of a transient run: decomposition into finished steps. *)
From Coq Require Import ZArith List Bool Lia.
From Verif Require Import Base.Exc Base.Num Model.Stepsize Model.TimeLoop Spec.TimeSpec
  Proofs.StepsizeProofs.
Import ListNotations.

Section Gen.
Context {A : Type} {N : Num A}.
Context {U X D : Type}.
Local Notation event := (event (A:=A) U X D).

(** ** Trace functions and concatenation *)
Lemma solves_app (a b : list event) : solves (a ++ b) = solves a ++ solves b.
Proof. induction a as [|[] r IH]; cbn; congruence. Qed.
Lemma visited_app (a b : list event) : visited (a ++ b) = visited a ++ visited b.
Proof. induction a as [|[] r IH]; cbn; congruence. Qed.
Lemma density_dts_app (a b : list event) : density_dts (a ++ b) = density_dts a ++ density_dts b.
Proof. induction a as [|[] r IH]; cbn; congruence. Qed.

(** ** The retry loop *)
Section Loop.
Variables (t et : A) (T Tn : X) (dens : D) (guess prev : U).
Local Notation loop := (update_loop t et T Tn dens guess prev).

Lemma loop_settings s atts u s' evs st :
  loop s atts = (u, s', evs, st) ->
  adaptive_stepsize s' = adaptive_stepsize s /\ milestones s' = milestones s /\
  initial_value s' = initial_value s.
Proof.
  revert s u s' evs st. induction atts as [|a r IH]; cbn; intros s u s' evs st H.
  - injection H as <- <- <- <-. auto.
  - destruct (if calls_adapt s then adapt s t (at_nb a) (at_conv a) else Ok s) as [s1|e] eqn:E1.
    + assert (Hs1 : adaptive_stepsize s1 = adaptive_stepsize s /\ milestones s1 = milestones s /\
                    initial_value s1 = initial_value s).
      { destruct (calls_adapt s); [|injection E1 as <-; auto].
        repeat split; eauto using adapt_adaptive, adapt_milestones, adapt_initial. }
      destruct (at_conv a).
      * injection H as <- <- <- <-. assumption.
      * destruct (loop s1 r) as [[[u2 s2] evs2] st2] eqn:E2.
        injection H as <- <- <- <-. apply IH in E2. intuition congruence.
    + injection H as <- <- <- <-. auto.
Qed.

(** The events of the loop are solves, all with the same data except the stepsize. *)
Lemma loop_events s atts u s' evs st :
  loop s atts = (u, s', evs, st) ->
  visited evs = [] /\ density_dts evs = [] /\
  forall c, In c (solves evs) ->
    sv_guess c = guess /\ sv_prev c = prev /\ sv_t c = et /\
    sv_T c = T /\ sv_Tn c = Tn /\ sv_dens c = dens.
Proof.
  revert s u s' evs st. induction atts as [|a r IH]; cbn; intros s u s' evs st H.
  - injection H as <- <- <- <-. cbn. intuition.
  - destruct (if calls_adapt s then adapt s t (at_nb a) (at_conv a) else Ok s) as [s1|e] eqn:E1.
    + destruct (at_conv a).
      * injection H as <- <- <- <-. cbn. intuition; subst; reflexivity.
      * destruct (loop s1 r) as [[[u2 s2] evs2] st2] eqn:E2.
        injection H as <- <- <- <-. apply IH in E2 as (Hv & Hd & Hc). cbn.
        split; [assumption|]. split; [assumption|].
        intros c [<-|Hin]; [cbn; intuition|auto].
    + injection H as <- <- <- <-. cbn. intuition; subst; reflexivity.
Qed.

(** When the loop ends normally, its last solve converged, all earlier ones failed. *)
Lemma loop_done s atts u s' evs :
  loop s atts = (u, s', evs, Done) ->
  exists pre c, solves evs = pre ++ [c] /\ accepted c /\ at_u (sv_out c) = u /\
    (forall c', In c' pre -> at_conv (sv_out c') = false).
Proof.
  revert s u s' evs. induction atts as [|a r IH]; cbn; intros s u s' evs H.
  - discriminate.
  - destruct (if calls_adapt s then adapt s t (at_nb a) (at_conv a) else Ok s) as [s1|e] eqn:E1;
      [|discriminate].
    destruct (at_conv a) eqn:Ec.
    + injection H as <- <- <-. exists [], (mkSolve guess prev et (value s) T Tn dens a).
      cbn. repeat split; auto. intros c' [].
    + destruct (loop s1 r) as [[[u2 s2] evs2] st2] eqn:E2.
      injection H as <- <- <- ->. apply IH in E2 as (pre & c & Hs & Ha & Hu & Hp).
      exists (mkSolve guess prev et (value s) T Tn dens a :: pre), c.
      cbn. rewrite Hs. repeat split; auto.
      intros c' [<-|Hin]; [assumption|auto].
Qed.

(** When the loop does not end normally, no accepted solve (an exception raised by adapt after a
    converged solve is possible). *)
Lemma loop_first s atts u s' evs st :
  loop s atts = (u, s', evs, st) ->
  match atts with
  | [] => evs = [] /\ st = Pending
  | a :: _ => exists evs', evs = EvSolve (mkSolve guess prev et (value s) T Tn dens a) :: evs'
  end.
Proof.
  destruct atts as [|a r]; cbn; intros H.
  - injection H as <- <- <- <-. auto.
  - destruct (if calls_adapt s then adapt s t (at_nb a) (at_conv a) else Ok s) as [s1|e] eqn:E1.
    + destruct (at_conv a).
      * injection H as <- <- <- <-. eauto.
      * destruct (loop s1 r) as [[[u2 s2] evs2] st2] eqn:E2.
        injection H as <- <- <- <-. eauto.
    + injection H as <- <- <- <-. eauto.
Qed.

(** The stepsize after a normal end is the one adapt computed from a converged solve, or the
    original one when adapt is not called. *)
Lemma loop_last_adapt s atts u s' evs :
  loop s atts = (u, s', evs, Done) ->
  if calls_adapt s
  then exists s0 nb, adaptive_stepsize s0 = adaptive_stepsize s /\ milestones s0 = milestones s /\
                     adapt s0 t nb true = Ok s'
  else s' = s.
Proof.
  revert s u s' evs. induction atts as [|a r IH]; cbn; intros s u s' evs H.
  - discriminate.
  - destruct (calls_adapt s) eqn:Ecall.
    + destruct (adapt s t (at_nb a) (at_conv a)) as [s1|e] eqn:E1; [|discriminate].
      destruct (at_conv a) eqn:Ec.
      * injection H as <- <- <-. exists s, (at_nb a). auto.
      * destruct (loop s1 r) as [[[u2 s2] evs2] st2] eqn:E2.
        injection H as <- <- <- ->. apply IH in E2.
        assert (Hc1 : calls_adapt s1 = true).
        { unfold calls_adapt in *.
          now rewrite (adapt_adaptive _ _ _ _ _ E1), (adapt_milestones _ _ _ _ _ E1). }
        rewrite Hc1 in E2. destruct E2 as (s0 & nb & Ha & Hm & Had).
        exists s0, nb.
        rewrite (adapt_adaptive _ _ _ _ _ E1) in Ha. rewrite (adapt_milestones _ _ _ _ _ E1) in Hm. auto.
    + destruct (at_conv a) eqn:Ec.
      * injection H as <- <- <-. reflexivity.
      * destruct (loop s r) as [[[u2 s2] evs2] st2] eqn:E2.
        injection H as <- <- <- ->. apply IH in E2. now rewrite Ecall in E2.
Qed.

(** Any property of the stepsize preserved by adapt is preserved by the loop, and holds of every
    stepsize used in a solve. *)
Lemma loop_inv (P : stepsize A -> Prop) s atts u s' evs st :
  (forall s1 s2 nb c, P s1 -> adapt s1 t nb c = Ok s2 -> P s2) ->
  P s -> loop s atts = (u, s', evs, st) ->
  P s' /\ forall c, In c (solves evs) -> exists s1, P s1 /\ value s1 = sv_dt c.
Proof.
  intros Had. revert s u s' evs st. induction atts as [|a r IH]; cbn; intros s u s' evs st Hs H.
  - injection H as <- <- <- <-. split; [assumption|]. intros c [].
  - destruct (if calls_adapt s then adapt s t (at_nb a) (at_conv a) else Ok s) as [s1|e] eqn:E1.
    + assert (Hs1 : P s1).
      { destruct (calls_adapt s); [eauto|]. injection E1 as <-. assumption. }
      destruct (at_conv a).
      * injection H as <- <- <- <-. split; [assumption|].
        intros c [<-|[]]. eauto.
      * destruct (loop s1 r) as [[[u2 s2] evs2] st2] eqn:E2.
        injection H as <- <- <- <-. apply IH in E2 as [Hs2 Hc]; [|assumption].
        split; [assumption|]. intros c [<-|Hin]; [eauto|auto].
    + injection H as <- <- <- <-. split; [assumption|].
      intros c [<-|[]]. eauto.
Qed.
End Loop.

Section Run.
Context {E : Type}.
Variable temp : temperature (A:=A) X.
Variable dens_solve : D -> D -> A -> X -> D.
Variable post : A -> U -> X -> E -> res E.
Variable F : A.

Local Notation state := (state (A:=A) U X D E).
Local Notation iterate := (iterate temp dens_solve post F).
Local Notation run := (run_transient temp dens_solve post F).
Local Notation running := (running (U:=U) (X:=X) (D:=D) (E:=E) F).

(** ** One step *)
Lemma iterate_done st atts st' evs :
  iterate st atts = (st', evs, Done) ->
  let t := nadd (st_t st) (value (st_dt st)) in
  exists T Tn u s evs0 e dens,
    temp_update temp t (value (st_dt st)) (st_T st) (st_Tn st) = (T, Tn) /\
    update_loop t t T Tn (st_dens st) (st_u st) (st_un st) (st_dt st) atts = (u, s, evs0, Done) /\
    dens = dens_solve (st_dens st) (st_dens st) (value s) T /\
    post t u T (st_exp st) = Ok e /\
    st' = mkState t (clamp_final F t s) T Tn u u dens (st_dens st) t e /\
    evs = evs0 ++ [EvDensity (st_dens st) (value s) T dens; EvPost t u T].
Proof.
  unfold TimeLoop.iterate. cbn zeta.
  destruct (temp_update temp (nadd (st_t st) (value (st_dt st))) (value (st_dt st)) (st_T st) (st_Tn st))
    as [T Tn].
  unfold update. cbn [st_t st_dt st_T st_Tn st_u st_un st_dens st_densn st_expr st_exp].
  destruct (update_loop _ _ T Tn (st_dens st) (st_u st) (st_un st) (st_dt st) atts)
    as [[[u s] evs0] stt] eqn:El.
  destruct stt; cbn; try discriminate.
  destruct (post _ u T (st_exp st)) as [e|e] eqn:Ep; [|discriminate].
  intros H. injection H as <- <-.
  exists T, Tn, u, s, evs0, e, (dens_solve (st_dens st) (st_dens st) (value s) T).
  rewrite <- app_assoc. cbn. auto 10.
Qed.

Lemma iterate_not_done st atts st' evs stt :
  iterate st atts = (st', evs, stt) -> stt <> Done ->
  let t := nadd (st_t st) (value (st_dt st)) in
  exists T Tn u s evs0 stt0 tl,
    temp_update temp t (value (st_dt st)) (st_T st) (st_Tn st) = (T, Tn) /\
    update_loop t t T Tn (st_dens st) (st_u st) (st_un st) (st_dt st) atts = (u, s, evs0, stt0) /\
    evs = evs0 ++ tl /\ visited evs = [] /\ solves tl = [] /\ st_t st' = t.
Proof.
  unfold TimeLoop.iterate. cbn zeta.
  destruct (temp_update temp (nadd (st_t st) (value (st_dt st))) (value (st_dt st)) (st_T st) (st_Tn st))
    as [T Tn].
  unfold update. cbn [st_t st_dt st_T st_Tn st_u st_un st_dens st_densn st_expr st_exp].
  destruct (update_loop _ _ T Tn (st_dens st) (st_u st) (st_un st) (st_dt st) atts)
    as [[[u s] evs0] stt0] eqn:El.
  pose proof (loop_events _ _ _ _ _ _ _ _ _ _ _ _ _ El) as (Hv & _ & _).
  intros H Hn.
  destruct stt0; cbn in H.
  - destruct (post _ u T (st_exp st)) as [e|e] eqn:Ep.
    + injection H as <- <- <-. now elim Hn.
    + injection H as <- <- <-. do 7 eexists. split; [reflexivity|]. split; [eassumption|].
      split; [reflexivity|]. rewrite visited_app, Hv. cbn. auto.
  - injection H as <- <- <-. exists T, Tn, u, s, evs0, (Raised e), []. rewrite app_nil_r. auto 10.
  - injection H as <- <- <-. exists T, Tn, u, s, evs0, Pending, []. rewrite app_nil_r. auto 10.
Qed.

(** ** Finished steps of a run *)
Inductive steps : state -> list event -> state -> Prop :=
| steps_nil st : steps st [] st
| steps_cons st atts st1 evs1 evs2 st2 :
    running st = true -> iterate st atts = (st1, evs1, Done) -> steps st1 evs2 st2 ->
    steps st (evs1 ++ evs2) st2.

Lemma run_steps st sched st' evs stt :
  run st sched = (st', evs, stt) ->
  exists st0 evs0 evs1,
    steps st evs0 st0 /\ evs = evs0 ++ evs1 /\
    (   (stt = Done /\ running st0 = false /\ st0 = st' /\ evs1 = [])
     \/ (stt = Pending /\ running st0 = true /\ st0 = st' /\ evs1 = [])
     \/ (stt <> Done /\ running st0 = true /\ exists atts, iterate st0 atts = (st', evs1, stt))).
Proof.
  revert st st' evs stt. induction sched as [|atts r IH]; cbn; intros st st' evs stt H.
  - destruct (running st) eqn:Er; injection H as <- <- <-;
      exists st, [], []; (split; [constructor|]); cbn; auto 10.
  - destruct (running st) eqn:Er.
    + destruct (iterate st atts) as [[st1 evs1] stt1] eqn:Ei.
      destruct stt1.
      * destruct (run st1 r) as [[st2 evs2] stt2] eqn:E2. injection H as <- <- <-.
        apply IH in E2 as (st0 & e0 & e1 & Hs & -> & Hcase).
        exists st0, (evs1 ++ e0), e1. split; [econstructor; eauto|].
        split; [now rewrite app_assoc|]. exact Hcase.
      * injection H as <- <- <-. exists st, [], evs1. split; [constructor|]. split; [reflexivity|].
        right; right. split; [discriminate|]. eauto.
      * injection H as <- <- <-. exists st, [], evs1. split; [constructor|]. split; [reflexivity|].
        right; right. split; [discriminate|]. eauto.
    + injection H as <- <- <-. exists st, [], []. split; [constructor|]. auto 10.
Qed.

(** The trace after the finished steps contains no visited time. *)
Lemma run_visited st sched st' evs stt :
  run st sched = (st', evs, stt) ->
  exists st0 evs0, steps st evs0 st0 /\ visited evs = visited evs0.
Proof.
  intros H. apply run_steps in H as (st0 & e0 & e1 & Hs & -> & Hc).
  exists st0, e0. split; [assumption|]. rewrite visited_app.
  destruct Hc as [(_ & _ & _ & ->)|[(_ & _ & _ & ->)|(Hn & _ & atts & Hi)]];
    [now rewrite app_nil_r|now rewrite app_nil_r|].
  apply iterate_not_done in Hi as (? & ? & ? & ? & ? & ? & ? & _ & _ & _ & -> & _); auto.
  now rewrite app_nil_r.
Qed.

(** A step visits exactly the new time. *)
Lemma iterate_visited st atts st' evs :
  iterate st atts = (st', evs, Done) ->
  visited evs = [st_t st'] /\ st_t st' = nadd (st_t st) (value (st_dt st)).
Proof.
  intros H. apply iterate_done in H as (T & Tn & u & s & e0 & e & d & _ & Hl & _ & _ & -> & ->).
  apply loop_events in Hl as (Hv & _). rewrite visited_app, Hv. auto.
Qed.

(** Invariants over finished steps. *)
Lemma steps_inv (P : state -> Prop) st evs st' :
  (forall st atts st1 evs, P st -> running st = true -> iterate st atts = (st1, evs, Done) -> P st1) ->
  P st -> steps st evs st' -> P st'.
Proof. intros Hi Hp Hs. induction Hs; eauto. Qed.

End Run.
End Gen.

(** ** Lemmas about [chain] *)
Section Chain.
Context {B : Type} (R : B -> B -> Prop).

Lemma chain_app l1 l2 :
  chain R l1 -> chain R l2 ->
  (forall pre a b suf, l1 = pre ++ [a] -> l2 = b :: suf -> R a b) -> chain R (l1 ++ l2).
Proof.
  induction l1 as [|x r IH]; cbn; intros H1 H2 Hj; [assumption|].
  destruct r as [|y r'].
  - cbn. destruct l2 as [|b suf]; [exact I|]. split; [|assumption].
    apply (Hj [] x b suf); reflexivity.
  - cbn in *. destruct H1 as [Hxy H1]. split; [assumption|].
    apply IH; [assumption|assumption|].
    intros pre a b suf E1 E2. apply (Hj (x :: pre) a b suf); [now rewrite E1|assumption].
Qed.

Lemma chain_app_inv l1 a b l2 : chain R (l1 ++ a :: b :: l2) -> R a b.
Proof.
  induction l1 as [|x r IH].
  - cbn. tauto.
  - intros H. apply IH. cbn in H. destruct (r ++ a :: b :: l2) eqn:E; [destruct r; discriminate|tauto].
Qed.

Lemma chain_intro l : (forall l1 a b l2, l = l1 ++ a :: b :: l2 -> R a b) -> chain R l.
Proof.
  induction l as [|x r IH]; cbn; intros H; [exact I|].
  destruct r as [|y r']; [exact I|]. split.
  - apply (H [] x y r'). reflexivity.
  - apply IH. intros l1 a b l2 E. apply (H (x :: l1) a b l2). now rewrite E.
Qed.
End Chain.
