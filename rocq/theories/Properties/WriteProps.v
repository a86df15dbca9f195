(** C95: why the exports of a simulation cannot be written, and why a run raises. *)
From Coq Require Import ZArith QArith List Bool String Lia.
From Verif Require Import Base.Exc Base.Num Model.Paths Model.Exports Spec.SteadySpec Spec.WriteSpec
  Proofs.NumQ Proofs.TimeWitness Proofs.ExportProofs Proofs.ExportRuns Proofs.WriteProofs Properties.ExportProps Model.Stepsize Model.TimeLoop.
From Verif Require Model.Steady.
Import ListNotations.
Local Open Scope list_scope.

(** Exports.write raises only for one of the causes, and with its class. *)
Theorem C95_write {A} {N : Num A} {F V C} (is_function : F -> bool) project (ex : exports (A:=A) F V C) d t e :
  (forall f, is_function (project f) = true) -> write is_function project ex d t = Err e ->
  exists x, In x (ex_list ex) /\ write_cause is_function d (ex_store ex) (ex_final ex) x e.
Proof.
  intros Hp H. unfold write in H.
  destruct (write_loop_spec (V:=V) (C:=C) is_function project Hp d (ex_store ex) (ex_final ex) t (ex_nb ex) (ex_list ex)
    (ex_store ex) (ex_fs ex) d 0%nat) as [H1 _]; [apply evolves_refl|apply same_refl|].
  destruct (write_loop is_function project (ex_store ex) (ex_fs ex) d t (ex_final ex) (ex_nb ex) 0 (ex_list ex))
    as [[[[l s] fs] ws]|e0]; cbn [bind] in H; [discriminate|]. injection H as <-. now apply H1.
Qed.
Print Assumptions C95_write.

Section Run.
Context {A : Type} {N : Num A} {U X D F V C : Type}.
Variable temp : temperature (A:=A) X.
Variable dens_solve : D -> D -> A -> X -> D.
Variable is_function : F -> bool.
Variable project : F -> F.
Hypothesis project_function : forall f, is_function (project f) = true.
Variable ltf : U -> X -> dict F.
Variable ft : A.
Variable s0 : stepsize A.
Variable S0 : nat -> quantity (A:=A) F V.
Variable L0 : list (export (A:=A) F V C).
Local Notation state := (state (A:=A) U X D (export_state (A:=A) F V C)).

Definition kept (ex : exports (A:=A) F V C) : Prop :=
  ex_final ex = Some ft /\ same S0 (ex_store ex) /\ Forall2 still L0 (ex_list ex).
Definition cause (e : exc) : Prop := exists u T x, In x L0 /\ write_cause is_function (ltf u T) S0 (Some ft) x e.

Lemma forall2_in {B E} (R : B -> E -> Prop) l l' y : Forall2 R l l' -> In y l' -> exists x, In x l /\ R x y.
Proof using Type. induction 1; intros []; [subst; eauto with datatypes|]. destruct (IHForall2 H1) as (z & ? & ?). eauto with datatypes. Qed.
Lemma forall2_trans {B} (R : B -> B -> Prop) l1 l2 l3 : (forall a b c, R a b -> R b c -> R a c) ->
  Forall2 R l1 l2 -> Forall2 R l2 l3 -> Forall2 R l1 l3.
Proof using Type.
  intros HR H. revert l3. induction H; intros l3 H3; inversion H3; subst; constructor; eauto.
Qed.

Lemma post_spec t u T ex log : kept ex ->
  (forall e, post_processing is_function project ltf t u T (ex, log) = Err e -> cause e) /\
  (forall ex' log', post_processing is_function project ltf t u T (ex, log) = Ok (ex', log') -> kept ex').
Proof using project_function.
  intros (Hf & Hs & Hl). unfold post_processing. cbn [fst snd].
  assert (H1 : forall e, write is_function project ex (ltf u T) t = Err e -> cause e).
  { intros e H. apply C95_write in H; [|exact project_function]. destruct H as (x & Hx & Hc).
    destruct (forall2_in _ _ _ _ Hl Hx) as (y & Hy & Hst). exists u, T, y. split; [exact Hy|].
    rewrite Hf in Hc. now apply (cause_back is_function (ltf u T) S0 (ex_store ex) (Some ft) y x). }
  assert (H2 : forall ex' ws, write is_function project ex (ltf u T) t = Ok (ex', ws) -> kept ex').
  { intros ex' ws. unfold write.
    destruct (write_loop_spec (V:=V) (C:=C) is_function project project_function (ltf u T) S0 (ex_final ex) t (ex_nb ex) (ex_list ex)
      (ex_store ex) (ex_fs ex) (ltf u T) 0%nat (evolves_refl _ _ _) Hs) as [_ G].
    destruct (write_loop is_function project (ex_store ex) (ex_fs ex) (ltf u T) t (ex_final ex) (ex_nb ex) 0 (ex_list ex))
      as [[[[l s] fs] w]|e0]; cbn [bind]; [|discriminate]. intros [= <- <-]. destruct (G l s fs w eq_refl) as [G1 G2].
    split; [exact Hf|]. split; [exact G1|]. cbn. eapply forall2_trans; [|exact Hl|exact G2]. apply still_trans. }
  destruct (write is_function project ex (ltf u T) t) as [[ex1 ws]|e1]; cbn [bind].
  - split; [discriminate|]. intros ex' log' [= <- <-]. now apply (H2 ex1 ws).
  - split; [|discriminate]. intros e [= <-]. now apply H1.
Qed.

Lemma adapt_spec s t nb c : adaptive_stepsize s = adaptive_stepsize s0 ->
  (forall e, adapt s t nb c = Err e -> forall sched atts at_, In atts sched -> In at_ atts -> at_conv (U:=U) at_ = c -> step_cause s0 sched e) /\
  (forall s', adapt s t nb c = Ok s' -> adaptive_stepsize s' = adaptive_stepsize s0).
Proof using Type.
  intros Hs. unfold adapt. rewrite Hs. destruct (adaptive_stepsize s0) as [a|] eqn:Ea; cbn [bind].
  2:{ split; [discriminate|]. intros s' [= <-]. cbn. congruence. }
  assert (Hdiv : forall v e, py_div v (change_ratio a) = Err e -> neqb (change_ratio a) n0 = true /\ e = ZeroDivisionError).
  { intros v e. unfold py_div. destruct (neqb (change_ratio a) n0); [|discriminate]. now intros [= <-]. }
  assert (H : forall e, adapt_value a t nb c (value s) = Err e ->
     forall sched atts at_, In atts sched -> In at_ atts -> at_conv (U:=U) at_ = c -> step_cause s0 sched e).
  { intros e. unfold adapt_value.
    assert (HZ : forall v, (if (nb <? 5)%Z then Ok (nmul v (change_ratio a)) else py_div v (change_ratio a)) = Err e ->
      forall sched : list (list (attempt U)), step_cause s0 sched e).
    { intros v. destruct (nb <? 5)%Z; [discriminate|]. intros Hv sched. apply Hdiv in Hv as [Hv ->]. now apply ZeroRatio with a. }
    assert (HC : forall v, cap (max_stepsize a) t v = Err e -> forall sched : list (list (attempt U)), step_cause s0 sched e).
    { intros v Hv sched. unfold cap in Hv. destruct (max_stepsize a) as [|x|f] eqn:Em; cbn [bind] in Hv; try discriminate.
      destruct (f t) as [[b|]|e'] eqn:Ef; cbn [bind] in Hv; try discriminate. injection Hv as <-. now apply UserFunction with a f t. }
    assert (HV : forall v1, (let! v2 := (if (nb <? 5)%Z then Ok (nmul v1 (change_ratio a)) else py_div v1 (change_ratio a)) in
      cap (max_stepsize a) t v2) = Err e -> forall sched : list (list (attempt U)), step_cause s0 sched e).
    { intros v1. destruct (if (nb <? 5)%Z then Ok (nmul v1 (change_ratio a)) else py_div v1 (change_ratio a)) as [v2|e2] eqn:E2; cbn [bind].
      - now apply HC.
      - intros [= ->]. now apply (HZ v1). }
    destruct c; cbn [bind].
    - intros Hv. intros. eapply HV. exact Hv.
    - destruct (adapt_diverged a (value s)) as [v1|e1] eqn:E1; cbn [bind].
      + intros Hv. intros. eapply HV. exact Hv.
      + intros [= ->]. intros sched atts at_ H1 H2 H3. unfold adapt_diverged in E1.
        destruct (dt_min a); [|injection E1 as <-; now apply Diverged with a atts at_].
        destruct (py_div (value s) (change_ratio a)) eqn:Ep; cbn [bind] in E1.
        * destruct (nltb a1 a0); [|discriminate]. injection E1 as <-. now apply Diverged with a atts at_.
        * injection E1 as ->. apply Hdiv in Ep as [Ep ->]. now apply ZeroRatio with a. }
  destruct (adapt_value a t nb c (value s)) as [v|e0]; cbn [bind].
  - split; [discriminate|]. intros s' [= <-]. cbn. congruence.
  - split; [|discriminate]. intros e [= <-]. now apply H.
Qed.

Lemma loop_spec t et T Tn dens guess prev atts : forall s u s' evs stt (sched : list (list (attempt U))) all,
  adaptive_stepsize s = adaptive_stepsize s0 -> In all sched -> incl atts all ->
  update_loop (X:=X) (D:=D) t et T Tn dens guess prev s atts = (u, s', evs, stt) ->
  adaptive_stepsize s' = adaptive_stepsize s0 /\ (forall e, stt = Raised e -> step_cause s0 sched e).
Proof using Type.
  induction atts as [|a atts IH]; intros s u s' evs stt sched all Hs Hall Hincl; cbn [update_loop].
  - intros [= <- <- <- <-]. split; [exact Hs|discriminate].
  - destruct (adapt_spec s t (at_nb a) (at_conv a) Hs) as [H1 H2].
    assert (Ha : In a all) by (apply Hincl; now left).
    destruct (if calls_adapt s then adapt s t (at_nb a) (at_conv a) else Ok s) as [s1|e1] eqn:E.
    + assert (Hs1 : adaptive_stepsize s1 = adaptive_stepsize s0).
      { destruct (calls_adapt s); [now apply H2|]. injection E as <-. exact Hs. }
      destruct (at_conv a); [intros [= <- <- <- <-]; split; [exact Hs1|discriminate]|].
      destruct (update_loop t et T Tn dens guess prev s1 atts) as [[[u2 s2] evs2] st2] eqn:El. intros [= <- <- <- <-].
      apply (IH s1 u2 s2 evs2 st2 sched all Hs1 Hall); [|exact El]. intros b Hb. apply Hincl. now right.
    + intros [= <- <- <- <-]. split; [exact Hs|]. intros e [= <-]. destruct (calls_adapt s); [|discriminate].
      now apply (H1 e1 E sched all a).
Qed.

Definition inv (st : state) : Prop := kept (fst (st_exp st)) /\ adaptive_stepsize (st_dt st) = adaptive_stepsize s0.

Lemma iterate_spec st atts st' evs stt sched : inv st -> In atts sched ->
  iterate temp dens_solve (post_processing is_function project ltf) ft st atts = (st', evs, stt) ->
  (stt = Done -> inv st') /\ (forall e, stt = Raised e -> step_cause s0 sched e \/ cause e).
Proof using project_function.
  intros [Hk Ha] Hin. unfold iterate. destruct (temp_update temp _ _ _ _) as [T Tn]. unfold update. cbn [st_t st_dt st_T st_Tn st_u st_un st_dens st_densn st_exp].
  destruct (update_loop _ _ T Tn (st_dens st) (st_u st) (st_un st) (st_dt st) atts) as [[[u s1] evs1] st1] eqn:El.
  apply (loop_spec _ _ _ _ _ _ _ _ _ _ _ _ _ sched atts Ha Hin (incl_refl _)) in El as [Hs1 He].
  destruct st1 as [|e1|].
  - cbn [st_u st_T st_exp]. destruct (st_exp st) as [ex log] eqn:Ex. cbn [fst] in Hk.
    match goal with |- context [post_processing _ _ _ ?t ?u ?T _] => destruct (post_spec t u T ex log Hk) as [P1 P2] end.
    destruct (post_processing is_function project ltf _ u T (ex, log)) as [[ex' log']|e2].
    + intros [= <- <- <-]. split; [|discriminate]. intros _. split; cbn; [now apply (P2 ex' log')|].
      unfold clamp_final. destruct (nltb _ _); exact Hs1.
    + intros [= <- <- <-]. split; [discriminate|]. intros e [= <-]. right. now apply P1.
  - intros [= <- <- <-]. split; [discriminate|]. intros e [= <-]. left. now apply He.
  - intros [= <- <- <-]. split; discriminate.
Qed.
Lemma run_spec all : forall sched st st' evs e, inv st -> incl sched all ->
  run_transient temp dens_solve (post_processing is_function project ltf) ft st sched = (st', evs, Raised e) ->
  step_cause s0 all e \/ cause e.
Proof using project_function.
  induction sched as [|atts sched IH]; intros st st' evs e Hi Hincl; cbn [run_transient].
  - destruct (running ft st); discriminate.
  - destruct (running ft st); [|discriminate].
    destruct (iterate temp dens_solve _ ft st atts) as [[st1 evs1] stt1] eqn:E.
    destruct (iterate_spec st atts st1 evs1 stt1 all Hi (Hincl atts (or_introl eq_refl)) E) as [H1 H2].
    destruct stt1 as [|e1|].
    + destruct (run_transient temp dens_solve _ ft st1 sched) as [[st2 evs2] stt2] eqn:Er. intros [= <- <- ->].
      apply (IH st1 st2 evs2 e (H1 eq_refl)); [|exact Er]. intros a Ha. apply Hincl. now right.
    + intros [= <- <- <-]. now apply H2.
    + discriminate.
Qed.
End Run.

Lemma reset_same {A F V} (S : nat -> quantity (A:=A) F V) qs : forall s, same S s -> same S (reset_quantities s qs).
Proof. induction qs as [|i r IH]; intros s Hs; cbn; [exact Hs|]. apply IH. apply same_upd; [exact Hs|]. cbn. auto. Qed.
Lemma derived_same {A F V C} (S : nat -> quantity (A:=A) F V) (l : list (export (A:=A) F V C)) : forall s, same S s ->
  same S (snd (initialise_derived s l)).
Proof.
  induction l as [|[d|x|x] l IH]; intros s Hs; cbn; [exact Hs| | |].
  - specialize (IH _ (reset_same S (dq_list d) s Hs)). destruct (initialise_derived (reset_quantities s (dq_list d)) l). exact IH.
  - specialize (IH s Hs). destruct (initialise_derived s l). exact IH.
  - specialize (IH s Hs). destruct (initialise_derived s l). exact IH.
Qed.

(** A transient run raises only because of the stepsize, or because an export cannot be written. *)
Theorem C95_run {A} {N : Num A} {U X D F V C} (temp : temperature (A:=A) X) (dens_solve : D -> D -> A -> X -> D)
  (is_function : F -> bool) project ltf T0 Tn0 (u0 un0 : U) d0 dn0 ft s (ex0 : exports (A:=A) F V C) sched st' evs e :
  (forall f, is_function (project f) = true) ->
  run_exports temp dens_solve is_function project ltf T0 Tn0 u0 un0 d0 dn0 ft s ex0 sched = (st', evs, Raised e) ->
  step_cause s sched e \/
  exists u T x, In x (ex_list ex0) /\ write_cause is_function (ltf u T) (ex_store ex0) (Some ft) (init_export x) e.
Proof.
  intros Hp H. unfold run_exports in H.
  apply (run_spec temp dens_solve is_function project Hp ltf ft s (ex_store ex0) (map init_export (ex_list ex0)) sched) in H.
  - destruct H as [H|(u & T & x & Hx & Hc)]; [now left|right]. apply in_map_iff in Hx as (y & <- & Hy). eauto.
  - split; [|reflexivity]. cbn [start st_exp fst]. split; [reflexivity|]. split.
    + cbn. unfold initialise_exports.
      match goal with |- context [initialise_derived ?s ?l] => pose proof (derived_same (ex_store ex0) l s (same_refl _)) as G;
        destruct (initialise_derived s l) end. exact G.
    + cbn. rewrite (proj1 (initialise_exports_ok ex0)). clear. induction (map init_export (ex_list ex0)); constructor; [apply still_refl|auto].
  - apply incl_refl.
Qed.
Print Assumptions C95_run.

(** A steady simulation: an export that cannot be written, for the same causes (there is no final time of a run), or
    "The solver diverged". *)
Theorem C95_steady {A} {N : Num A} {U X F V C} (is_function : F -> bool) project ltf (u : U) converged (T : X) (ex0 : exports (A:=A) F V C) :
  (forall f, is_function (project f) = true) ->
  match Steady.steady is_function project ltf u converged T ex0 with
  | Steady.Raised e => exists x, In x (ex_list ex0) /\ write_cause is_function (ltf u T) (ex_store ex0) (ex_final ex0) (init_export x) e
  | Steady.Diverged e _ => converged = false /\ e = ValueError "The solver diverged in"
  | Steady.Completed _ => converged = true
  end.
Proof.
  intros Hp. unfold Steady.steady, Steady.run_steady, post_processing. cbn [fst snd].
  destruct (initialise_exports_ok ex0) as (El & _).
  assert (Es : same (ex_store ex0) (ex_store (initialise_exports ex0))).
  { unfold initialise_exports. match goal with |- context [initialise_derived ?s ?l] => pose proof (derived_same (ex_store ex0) l s (same_refl _)) as G;
      destruct (initialise_derived s l) end. exact G. }
  assert (Ef : ex_final (initialise_exports ex0) = ex_final ex0).
  { unfold initialise_exports. destruct (initialise_derived _ _). reflexivity. }
  unfold write. rewrite Ef, El.
  destruct (write_loop_spec (V:=V) (C:=C) is_function project Hp (ltf u T) (ex_store ex0) (ex_final ex0) n0
    (ex_nb (initialise_exports ex0)) (map init_export (ex_list ex0)) (ex_store (initialise_exports ex0)) (ex_fs (initialise_exports ex0))
    (ltf u T) 0%nat) as [H1 _]; [apply evolves_refl|exact Es|].
  destruct (write_loop is_function project _ _ _ _ _ _ _ _) as [[[[l s] fs] ws]|e0]; cbn [bind].
  - destruct converged; auto.
  - destruct (H1 e0 eq_refl) as (x & Hx & Hc). apply in_map_iff in Hx as (y & <- & Hy). eauto.
Qed.
Print Assumptions C95_steady.

(** A run over two steps with an export of the temperature, and the same with a trap that does not exist. *)
Local Open Scope Q_scope.
Example ex_C95_runs : exists st' evs,
  demo 2 (fixed 1 None) [EXdmf (mkXdmf (LStr "T") (Every 1) true None false); EDerived (demo_dq [0; 1]%nat None)]
    demo_store (repeat [ok 3] 2) = (st', evs, Done).
Proof. do 2 eexists. done_run. Qed.
Example ex_C95_unknown : exists st' evs,
  demo 2 (fixed 1 None) [EXdmf (mkXdmf (LStr "1") (Every 1) true None false)] demo_store (repeat [ok 3] 2)
  = (st', evs, Raised (KeyError "")).
Proof. do 2 eexists. done_run. Qed.
Example ex_C95_surface : exists st' evs,
  demo 2 (fixed 1 None) [EDerived (demo_dq [0]%nat None)] (fun _ => demo_q MaximumSurface "max") (repeat [ok 3] 2)
  = (st', evs, Raised (TypeError "compute() missing 1 required positional argument: 'surface_markers'")).
Proof. do 2 eexists. done_run. Qed.
Example ex_C95_diverged : exists st' evs,
  demo 2 (mk_stepsize 1 (Some 2) None None MaxNone None None) [] demo_store [[mkAttempt tt 3 false]]
  = (st', evs, Raised (ValueError "Solver diverged but dt_min is not set.")).
Proof. do 2 eexists. done_run. Qed.
(** Steady simulations with a field that does not exist and with a mode 'last', and one whose solver diverged. *)
Example ex_C95_steady :
  let run (cv : bool) (l : list (export (A:=Q) Q Q Q)) := Steady.steady (C:=Q) (V:=Q) (fun _ => true) (fun f => f) demo_ltf tt cv 300 (mkExports l demo_store [] None 0) in
  run true [EXdmf (mkXdmf (LStr "1") (Every 1) true None false)] = Steady.Raised (KeyError "") /\
  (exists e, run true [EXdmf (mkXdmf (LStr "T") Last true None false)] = Steady.Raised (TypeError e)) /\
  (exists e', run false [EXdmf (mkXdmf (LStr "T") (Every 1) true None false)] = Steady.Diverged (ValueError "The solver diverged in") e') /\
  (exists e', run true [EXdmf (mkXdmf (LStr "T") (Every 1) true None false)] = Steady.Completed e').
Proof. cbv zeta. repeat split; try (eexists; vm_compute; reflexivity); vm_compute; reflexivity. Qed.
