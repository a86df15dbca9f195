(** How consecutive solver calls of a run are related (any arithmetic). *)
From Coq Require Import ZArith List Bool Lia.
From Verif Require Import Base.Exc Base.Num Model.Stepsize Model.TimeLoop Spec.TimeSpec
  Proofs.StepsizeProofs Proofs.TimeLoopProofs.
Import ListNotations.

Section Gen.
Context {A : Type} {N : Num A}.
Context {U X D E : Type}.
Variable temp : temperature (A:=A) X.
Variable dens_solve : D -> D -> A -> X -> D.
Variable post : A -> U -> X -> E -> res E.
Variable F : A.

Local Notation state := (state (A:=A) U X D E).
Local Notation event := (event (A:=A) U X D).
Local Notation call := (solve_call (A:=A) U X D).
Local Notation iterate := (iterate temp dens_solve post F).
Local Notation run := (run_transient temp dens_solve post F).
Local Notation running := (running (U:=U) (X:=X) (D:=D) (E:=E) F).
Local Notation steps := (steps temp dens_solve post F).

Definition adapted (s1 : stepsize A) (t : A) nb c (s2 : stepsize A) : Prop :=
  if calls_adapt s1 then adapt s1 t nb c = Ok s2 else s2 = s1.

(** The settings of the stepsize of the run. *)
Variable s0 : stepsize A.
Definition same (s : stepsize A) : Prop :=
  adaptive_stepsize s = adaptive_stepsize s0 /\ milestones s = milestones s0.

Lemma same_calls s : same s -> calls_adapt s = calls_adapt s0.
Proof. intros [H1 H2]. unfold calls_adapt. now rewrite H1, H2. Qed.

Lemma adapted_same s1 t nb c s2 : same s1 -> adapted s1 t nb c s2 -> same s2.
Proof.
  unfold adapted. intros [H1 H2]. destruct (calls_adapt s1).
  - intros H. split; [now rewrite (adapt_adaptive _ _ _ _ _ H)|now rewrite (adapt_milestones _ _ _ _ _ H)].
  - intros ->. split; assumption.
Qed.

Lemma clamp_final_same t s : same s -> same (clamp_final F t s).
Proof. unfold clamp_final. destruct (nltb F (nadd t (value s))); auto. Qed.

(** A failed solve and the retry after it. *)
Definition retry (a b : call) : Prop :=
  at_conv (sv_out a) = false /\
  sv_guess b = sv_guess a /\ sv_prev b = sv_prev a /\ sv_t b = sv_t a /\
  sv_T b = sv_T a /\ sv_Tn b = sv_Tn a /\ sv_dens b = sv_dens a /\
  exists s1 s2, same s1 /\ value s1 = sv_dt a /\
    adapted s1 (sv_t a) (at_nb (sv_out a)) false s2 /\ value s2 = sv_dt b.

(** An accepted solve and the first solve of the next step. *)
Definition next_step (a b : call) : Prop :=
  at_conv (sv_out a) = true /\
  sv_guess b = at_u (sv_out a) /\ sv_prev b = at_u (sv_out a) /\
  sv_t b = nadd (sv_t a) (sv_dt b) /\
  temp_update temp (sv_t b) (sv_dt b) (sv_T a) (sv_Tn a) = (sv_T b, sv_Tn b) /\
  exists s1 s2, same s1 /\ value s1 = sv_dt a /\
    adapted s1 (sv_t a) (at_nb (sv_out a)) true s2 /\
    sv_dt b = value (clamp_final F (sv_t a) s2) /\
    sv_dens b = dens_solve (sv_dens a) (sv_dens a) (value s2) (sv_T a).

Definition follows (a b : call) : Prop := retry a b \/ next_step a b.

Lemma loop_chain t T Tn dens g p s atts u s' evs stt :
  same s ->
  update_loop t t T Tn dens g p s atts = (u, s', evs, stt) ->
  chain follows (solves evs) /\
  (stt = Done -> forall pre c, solves evs = pre ++ [c] ->
     exists s1, same s1 /\ value s1 = sv_dt c /\ adapted s1 t (at_nb (sv_out c)) true s').
Proof.
  revert s u s' evs stt. induction atts as [|a r IH]; intros s u s' evs stt Hs H; cbn in H.
  - injection H as <- <- <- <-. cbn. split; [exact I|discriminate].
  - destruct (if calls_adapt s then adapt s t (at_nb a) (at_conv a) else Ok s) as [s1|e] eqn:E1.
    + assert (Had : adapted s t (at_nb a) (at_conv a) s1).
      { unfold adapted. destruct (calls_adapt s); congruence. }
      destruct (at_conv a) eqn:Ec.
      * injection H as <- <- <- <-. cbn. split; [exact I|].
        intros _ pre c Heq. destruct pre as [|x [|]]; try discriminate.
        injection Heq as <-. cbn. eauto.
      * destruct (update_loop t t T Tn dens g p s1 r) as [[[u2 s2] evs2] st2] eqn:E2.
        injection H as <- <- <- <-.
        pose proof (adapted_same _ _ _ _ _ Hs Had) as Hs1.
        destruct (IH _ _ _ _ _ Hs1 E2) as [Hch Hlast].
        pose proof (loop_first _ _ _ _ _ _ _ _ _ _ _ _ _ E2) as Hfirst.
        cbn [solves]. destruct r as [|a2 r].
        { destruct Hfirst as [-> ->]. cbn. split; [exact I|discriminate]. }
        destruct Hfirst as [evs' ->]. cbn [solves] in *. split.
        { split; [|exact Hch]. left. unfold retry. cbn. repeat split; auto.
          exists s, s1. auto. }
        { intros -> pre c Heq. destruct pre as [|x pre]; [discriminate|].
          injection Heq as <- Heq. apply (Hlast eq_refl _ _ Heq). }
    + injection H as <- <- <- <-. cbn. split; [exact I|discriminate].
Qed.

(** What links a state at the loop head to the last solve. *)
Definition linked (p : option call) (st : state) : Prop :=
  same (st_dt st) /\
  match p with
  | None => True
  | Some a =>
      at_conv (sv_out a) = true /\ st_u st = at_u (sv_out a) /\ st_un st = at_u (sv_out a) /\
      st_t st = sv_t a /\ st_T st = sv_T a /\ st_Tn st = sv_Tn a /\
      exists s1 s2, same s1 /\ value s1 = sv_dt a /\
        adapted s1 (sv_t a) (at_nb (sv_out a)) true s2 /\
        st_dt st = clamp_final F (sv_t a) s2 /\
        st_dens st = dens_solve (sv_dens a) (sv_dens a) (value s2) (sv_T a)
  end.

Definition onto (p : option call) (l : list call) : list call :=
  match p with None => l | Some a => a :: l end.

Lemma onto_loop p st atts T Tn u s evs stt :
  linked p st ->
  let t := nadd (st_t st) (value (st_dt st)) in
  temp_update temp t (value (st_dt st)) (st_T st) (st_Tn st) = (T, Tn) ->
  update_loop t t T Tn (st_dens st) (st_u st) (st_un st) (st_dt st) atts = (u, s, evs, stt) ->
  chain follows (onto p (solves evs)).
Proof.
  intros [Hsame Hlink] t HT Hl.
  destruct (loop_chain _ _ _ _ _ _ _ _ _ _ _ _ Hsame Hl) as [Hch _].
  destruct p as [a|]; [|exact Hch]. cbn.
  pose proof (loop_first _ _ _ _ _ _ _ _ _ _ _ _ _ Hl) as Hf.
  destruct atts as [|at1 r].
  - destruct Hf as [-> _]. exact I.
  - destruct Hf as [evs' ->]. cbn [solves] in *. split; [|exact Hch].
    destruct Hlink as (Hc & Hu & Hun & Ht & HTa & HTna & s1 & s2 & Hs1 & Hv & Had & Hdt & Hdens).
    right. unfold next_step. cbn.
    repeat split; auto.
    + now rewrite <- Ht.
    + now rewrite <- HTa, <- HTna.
    + exists s1, s2. repeat split; try apply Hs1; auto. now rewrite Hdt.
Qed.

Lemma iterate_linked p st atts st' evs :
  linked p st -> iterate st atts = (st', evs, Done) ->
  exists pre c, solves evs = pre ++ [c] /\ linked (Some c) st' /\
    chain follows (onto p (solves evs)) /\ sv_t c = st_t st'.
Proof.
  intros Hlink H.
  apply iterate_done in H as (T & Tn & u & s & e0 & e & d & HT & Hl & Hd & _ & -> & ->).
  pose proof (onto_loop _ _ _ _ _ _ _ _ _ Hlink HT Hl) as Hch.
  rewrite solves_app. cbn [solves]. rewrite app_nil_r.
  destruct (loop_done _ _ _ _ _ _ _ _ _ _ _ _ Hl) as (pre & c & Heq & Hacc & Hu & _).
  exists pre, c. split; [assumption|].
  pose proof (loop_events _ _ _ _ _ _ _ _ _ _ _ _ _ Hl) as (_ & _ & Hev).
  assert (Hin : In c (solves e0)) by (rewrite Heq; apply in_or_app; cbn; auto).
  specialize (Hev c Hin) as (Hg & Hp & Ht & HcT & HcTn & Hcd).
  destruct Hlink as [Hsame Hlink].
  destruct (loop_chain _ _ _ _ _ _ _ _ _ _ _ _ Hsame Hl) as [_ Hlast].
  destruct (Hlast eq_refl _ _ Heq) as (s1 & Hs1 & Hv & Had).
  split; [|split; [exact Hch|cbn; exact Ht]].
  split.
  - cbn. apply clamp_final_same. eapply adapted_same; eauto.
  - cbn. repeat split; auto.
    exists s1, s. rewrite Ht, HcT, Hcd. repeat split; try apply Hs1; auto.
Qed.

Lemma chain_onto_app p l1 l2 pre c :
  l1 = pre ++ [c] -> chain follows (onto p l1) -> chain follows (onto (Some c) l2) ->
  chain follows (onto p (l1 ++ l2)).
Proof.
  intros -> H1 H2.
  assert (Hg : forall l, chain follows (l ++ [c]) -> chain follows (l ++ [c] ++ l2)).
  { clear H1 p pre. induction l as [|x r IH]; intros H; [exact H2|].
    cbn [app] in *. destruct (r ++ [c]) as [|y w] eqn:Er; [destruct r; discriminate|].
    cbn in H. destruct H as [Hxy H]. specialize (IH H).
    assert (E1 : exists w', r ++ c :: l2 = y :: w').
    { destruct r; cbn in Er |- *; injection Er as -> _; eauto. }
    destruct E1 as [w' Ew]. cbn [app] in IH. rewrite Ew in *. split; assumption. }
  destruct p as [a|]; cbn in *; rewrite <- app_assoc.
  - apply (Hg (a :: pre)). exact H1.
  - apply Hg. exact H1.
Qed.

Lemma steps_chain p st evs st' :
  linked p st -> steps st evs st' ->
  chain follows (onto p (solves evs)) /\
  exists q, linked q st' /\
    (q = p /\ solves evs = [] \/ exists pre c, q = Some c /\ solves evs = pre ++ [c]).
Proof.
  intros Hlink Hs. revert p Hlink.
  induction Hs as [st|st atts st1 e1 e2 st2 Hr Hi Hs IH]; intros p Hlink.
  - split; [destruct p; exact I|]. exists p. auto.
  - destruct (iterate_linked _ _ _ _ _ Hlink Hi) as (pre & c & Heq & Hl1 & Hch & _).
    destruct (IH _ Hl1) as [Hch2 (q & Hq & Hcase)].
    rewrite solves_app. split; [eapply chain_onto_app; eauto|].
    exists q. split; [assumption|]. right.
    destruct Hcase as [[-> ->]|(pre2 & c2 & -> & Heq2)].
    + exists pre, c. rewrite app_nil_r. auto.
    + exists (solves e1 ++ pre2), c2. rewrite Heq2, app_assoc. auto.
Qed.

(** All solver calls of a run follow each other as described. *)
Lemma run_chain st sched st' evs stt :
  same (st_dt st) -> run st sched = (st', evs, stt) -> chain follows (solves evs).
Proof.
  intros Hsame H. apply run_steps in H as (st1 & e0 & e1 & Hs & -> & Hcase).
  assert (Hlink : linked None st) by (split; [assumption|exact I]).
  destruct (steps_chain _ _ _ _ Hlink Hs) as [Hch (q & Hq & Hqc)]. cbn in Hch.
  rewrite solves_app.
  destruct Hcase as [(_ & _ & _ & ->)|[(_ & _ & _ & ->)|(Hn & Hr & atts & Hi)]];
    [cbn; now rewrite app_nil_r|cbn; now rewrite app_nil_r|].
  pose proof (iterate_not_done _ _ _ _ _ _ _ _ _ Hi Hn) as
    (T' & Tn' & u' & s' & e0' & stt0 & tl & HT & Hl & -> & Hv & Ht & Hst).
  rewrite solves_app, Ht, app_nil_r.
  pose proof (onto_loop _ _ _ _ _ _ _ _ _ Hq HT Hl) as Hch2.
  destruct Hqc as [[-> ->]|(pre & c & -> & Heq)].
  - exact Hch2.
  - apply (chain_onto_app None _ _ pre c Heq Hch Hch2).
Qed.

(** The first solve of a run. *)
Lemma iterate_first_solve st atts st' evs stt c r :
  iterate st atts = (st', evs, stt) -> solves evs = c :: r ->
  sv_guess c = st_u st /\ sv_prev c = st_un st /\ sv_dt c = value (st_dt st) /\
  sv_t c = nadd (st_t st) (value (st_dt st)) /\ sv_dens c = st_dens st /\
  temp_update temp (sv_t c) (value (st_dt st)) (st_T st) (st_Tn st) = (sv_T c, sv_Tn c).
Proof.
  intros H Heq.
  assert (Hx : exists T Tn u s e0 stt0 tl,
    let t := nadd (st_t st) (value (st_dt st)) in
    temp_update temp t (value (st_dt st)) (st_T st) (st_Tn st) = (T, Tn) /\
    update_loop t t T Tn (st_dens st) (st_u st) (st_un st) (st_dt st) atts = (u, s, e0, stt0) /\
    evs = e0 ++ tl /\ solves tl = []).
  { destruct stt.
    - apply iterate_done in H as (T & Tn & u & s & e0 & e & d & HT & Hl & _ & _ & _ & ->).
      do 7 eexists. cbn zeta. split; [exact HT|]. split; [exact Hl|]. split; reflexivity.
    - apply iterate_not_done in H as (T & Tn & u & s & e0 & stt0 & tl & HT & Hl & -> & _ & Htl & _);
        [|discriminate].
      do 7 eexists. cbn zeta. split; [exact HT|]. split; [exact Hl|]. split; [reflexivity|exact Htl].
    - apply iterate_not_done in H as (T & Tn & u & s & e0 & stt0 & tl & HT & Hl & -> & _ & Htl & _);
        [|discriminate].
      do 7 eexists. cbn zeta. split; [exact HT|]. split; [exact Hl|]. split; [reflexivity|exact Htl]. }
  destruct Hx as (T & Tn & u & s & e0 & stt0 & tl & HT & Hl & -> & Htl).
  rewrite solves_app, Htl, app_nil_r in Heq.
  pose proof (loop_first _ _ _ _ _ _ _ _ _ _ _ _ _ Hl) as Hf.
  destruct atts as [|a1 r1].
  - destruct Hf as [-> _]. discriminate.
  - destruct Hf as [e' ->]. cbn in Heq. injection Heq as <- _. cbn. auto 10.
Qed.

Lemma run_first_solve st sched st' evs stt c r :
  run st sched = (st', evs, stt) -> solves evs = c :: r ->
  sv_guess c = st_u st /\ sv_prev c = st_un st /\ sv_dt c = value (st_dt st) /\
  sv_t c = nadd (st_t st) (value (st_dt st)) /\ sv_dens c = st_dens st /\
  temp_update temp (sv_t c) (value (st_dt st)) (st_T st) (st_Tn st) = (sv_T c, sv_Tn c).
Proof.
  intros H Heq. apply run_steps in H as (st1 & e0 & e1 & Hs & -> & Hcase).
  rewrite solves_app in Heq. inversion Hs; subst.
  - cbn in Heq. destruct Hcase as [(_ & _ & _ & ->)|[(_ & _ & _ & ->)|(Hn & Hr & atts & Hi)]];
      [discriminate|discriminate|].
    eapply iterate_first_solve; eauto.
  - rewrite solves_app in Heq.
    assert (Hlast : exists pre c', solves evs1 = pre ++ [c']).
    { apply iterate_done in H0 as (T & Tn & u & s & e0 & e & d & HT & Hl & _ & _ & _ & ->).
      apply loop_done in Hl as (pre & c' & Hp & _). rewrite solves_app, Hp. cbn.
      rewrite app_nil_r. eauto. }
    destruct Hlast as (pre & c' & Hp).
    destruct (solves evs1) as [|x y] eqn:Ex; [destruct pre; discriminate|].
    cbn in Heq. injection Heq as <- _.
    eapply iterate_first_solve; eauto.
Qed.

Lemma posts_app (a b : list event) : posts (a ++ b) = posts a ++ posts b.
Proof. induction a as [|[] r IH]; cbn; congruence. Qed.

Lemma visited_posts (evs : list event) : visited evs = map (fun p => fst (fst p)) (posts evs).
Proof. induction evs as [|[] r IH]; cbn; congruence. Qed.

Definition acc (l : list call) : list call := filter (fun c => at_conv (sv_out c)) l.

Lemma acc_app a b : acc (a ++ b) = acc a ++ acc b.
Proof. apply filter_app. Qed.

Lemma acc_none l : (forall c, In c l -> at_conv (sv_out c) = false) -> acc l = [].
Proof.
  induction l as [|x r IH]; cbn; intros H; [reflexivity|].
  rewrite (H x); auto.
Qed.

Lemma iterate_accepted st atts st' evs :
  iterate st atts = (st', evs, Done) ->
  exists c, acc (solves evs) = [c] /\
    posts evs = [(sv_t c, at_u (sv_out c), sv_T c)] /\ density_dts evs <> [].
Proof.
  intros H.
  apply iterate_done in H as (T & Tn & u & s & e0 & e & d & HT & Hl & Hd & _ & -> & ->).
  destruct (loop_done _ _ _ _ _ _ _ _ _ _ _ _ Hl) as (pre & c & Heq & Hacc & Hu & Hfail).
  pose proof (loop_events _ _ _ _ _ _ _ _ _ _ _ _ _ Hl) as (Hv & _ & Hev).
  assert (Hin : In c (solves e0)) by (rewrite Heq; apply in_or_app; cbn; auto).
  specialize (Hev c Hin) as (Hg & Hp & Ht & HcT & _).
  exists c. rewrite solves_app, acc_app, Heq, acc_app, (acc_none pre Hfail). cbn.
  unfold accepted in Hacc. rewrite Hacc. split; [reflexivity|].
  rewrite posts_app. rewrite visited_posts in Hv. apply map_eq_nil in Hv. rewrite Hv. cbn.
  rewrite Ht, Hu, HcT. split; [reflexivity|]. rewrite density_dts_app. cbn.
  destruct (density_dts e0); discriminate.
Qed.

Lemma steps_accepted st evs st' :
  steps st evs st' ->
  posts evs = map (fun c => (sv_t c, at_u (sv_out c), sv_T c)) (acc (solves evs)).
Proof.
  induction 1 as [st|st atts st1 e1 e2 st2 Hr Hi Hs IH]; [reflexivity|].
  destruct (iterate_accepted _ _ _ _ Hi) as (c & Hc & Hp & _).
  now rewrite posts_app, solves_app, acc_app, Hc, Hp, IH.
Qed.

End Gen.
