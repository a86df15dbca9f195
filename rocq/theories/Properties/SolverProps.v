(** C81: which Newton solver is used. *)
From Coq Require Import List Bool String ZArith QArith.
From Verif Require Import Base.Exc Model.Solvers Spec.SolverSpec.
Import ListNotations.
Local Open Scope string_scope.

Section Lemmas.
Variable k : kind.

Lemma exec_app l1 l2 o : exec k o (l1 ++ l2) = (let! o' := exec k o l1 in exec k o' l2).
Proof.
  revert o. induction l1 as [|x r IH]; intros o; [reflexivity|].
  cbn. destruct (step k o x); [apply IH|reflexivity].
Qed.

Lemma step_params o x o' : step k o x = Ok o' ->
  ow_params o' = match x with SetParams q => q | _ => ow_params o end.
Proof.
  destruct x as [p|[|s|]|[|]]; cbn; try (injection 1 as <-; reflexivity); try discriminate;
    unfold initialise, define_newton_solver; destruct k; try (injection 1 as <-; reflexivity);
    destruct (ow_solver o); cbn; injection 1 as <-; reflexivity.
Qed.

Lemma exec_params l : forall o o', exec k o l = Ok o' -> ow_params o' = params_after (ow_params o) l.
Proof.
  induction l as [|x r IH]; intros o o' H; [injection H as <-; reflexivity|].
  cbn in H. destruct (step k o x) as [o1|] eqn:E; [|discriminate].
  cbn [bind] in H. rewrite (IH _ _ H), (step_params _ _ _ E). destruct x; reflexivity.
Qed.

Lemma last_cons (s d : solver) l : last (s :: l) d = last l s.
Proof.
  revert s d. induction l as [|x r IH]; intros s d; [reflexivity|].
  change (last (x :: r) d = last (x :: r) s). rewrite (IH x d), (IH x s). reflexivity.
Qed.

(** After a solver is there, assignments replace it. *)
Lemma exec_plain l : forall o o' s, Forall plain l -> ow_solver o = Some s -> exec k o l = Ok o' ->
  ow_solver o' = Some (latest s (assigned l)).
Proof.
  unfold latest. induction l as [|x r IH]; intros o o' s Hp Hs H; [injection H as <-; exact Hs|].
  inversion Hp; subst. cbn in H. destruct (step k o x) as [o1|] eqn:E; [|discriminate]. cbn [bind] in H.
  destruct x as [p|[|s1|]|]; try contradiction; cbn in E; injection E as <-.
  - apply (IH _ _ s H3) in H; [exact H|exact Hs].
  - apply (IH _ _ s1 H3) in H; [|reflexivity]. rewrite H. cbn [assigned flat_map app]. now rewrite last_cons.
Qed.
End Lemmas.

(** The hydrogen problem: the last solver provided since initialise(), otherwise one with the settings at the
    last initialise(). *)
Theorem C81_hydrogen p0 pre transient post o :
  Forall plain post ->
  exec Hydrogen (new_owner p0) (pre ++ Initialise transient :: post) = Ok o ->
  ow_solver o = Some (latest (Built (params_after p0 pre) false) (assigned post)).
Proof.
  intros Hp H. rewrite exec_app in H. destruct (exec Hydrogen (new_owner p0) pre) as [o1|] eqn:E; [|discriminate].
  apply exec_params in E. cbn [bind exec] in H. cbn in H.
  eapply exec_plain in H; [exact H|exact Hp|]. cbn. rewrite E. reflexivity.
Qed.

(** The same for the densities of extrinsic traps in transient simulations; their solvers do not accept
    non-convergence. *)
Theorem C81_extrinsic_trap_partial p0 pre post o :
  Forall plain post ->
  exec ExtrinsicTrap (new_owner p0) (pre ++ Initialise true :: post) = Ok o ->
  ow_solver o = Some (latest (Built (params_after p0 pre) true) (assigned post)).
Proof.
  intros Hp H. rewrite exec_app in H. destruct (exec ExtrinsicTrap (new_owner p0) pre) as [o1|] eqn:E; [|discriminate].
  apply exec_params in E. cbn [bind exec] in H. cbn in H.
  eapply exec_plain in H; [exact H|exact Hp|]. cbn. rewrite E. reflexivity.
Qed.

(** The heat problem: the last solver ever provided, otherwise one with the parameters at the *first*
    initialise(). *)
Theorem C81_heat_partial p0 pre transient post o :
  Forall plain pre -> Forall proper post ->
  exec Heat (new_owner p0) (pre ++ Initialise transient :: post) = Ok o ->
  ow_solver o = Some (latest (Built (params_after p0 pre) true) (assigned (pre ++ post))).
Proof.
  intros Hp Hq H. rewrite exec_app in H. destruct (exec Heat (new_owner p0) pre) as [o1|] eqn:E; [|discriminate].
  cbn [bind exec] in H. cbn [step] in H.
  destruct (initialise Heat transient o1) as [o2|] eqn:E2; [|discriminate]. cbn [bind] in H.
  assert (H2 : ow_solver o2 = Some (latest (Built (params_after p0 pre) true) (assigned pre))).
  { pose proof (exec_params Heat _ _ _ E) as Ep. cbn in Ep. rewrite <- Ep. clear Ep H.
    assert (G : forall l o o1, Forall plain l -> exec Heat o l = Ok o1 ->
              ow_solver o1 = match assigned l with [] => ow_solver o | s :: r => Some (latest s r) end).
    { clear. induction l as [|x r IH]; intros o o1 Hp E; [injection E as <-; reflexivity|].
      inversion Hp; subst. cbn in E. destruct (step Heat o x) as [oa|] eqn:Ea; [|discriminate]. cbn [bind] in E.
      destruct x as [p|[|s1|]|]; try contradiction; cbn in Ea; injection Ea as <-.
      - apply (IH _ _ H2) in E. exact E.
      - cbn [assigned flat_map app]. eapply exec_plain in E; [exact E|assumption|reflexivity]. }
    specialize (G _ _ _ Hp E). cbn [ow_solver new_owner] in G.
    destruct (assigned pre) as [|s r] eqn:Ea.
    - cbn in E2. rewrite G in E2. cbn in E2. injection E2 as <-. reflexivity.
    - cbn in E2. rewrite G in E2. injection E2 as <-. rewrite G. unfold latest. now rewrite last_cons. }
  assert (G : forall l o o1 s, Forall proper l -> ow_solver o = Some s -> exec Heat o l = Ok o1 ->
            ow_solver o1 = Some (latest s (assigned l))).
  { clear. unfold latest. induction l as [|x r IH]; intros o o1 s Hp Hs E; [injection E as <-; exact Hs|].
    inversion Hp; subst. cbn in E. destruct (step Heat o x) as [oa|] eqn:Ea; [|discriminate]. cbn [bind] in E.
    destruct x as [p|[|s1|]|tr]; try contradiction; cbn in Ea.
    - injection Ea as <-. apply (IH _ _ s H2) in E; [exact E|exact Hs].
    - injection Ea as <-. apply (IH _ _ s1 H2) in E; [|reflexivity]. rewrite E.
      cbn [assigned flat_map app]. now rewrite last_cons.
    - rewrite Hs in Ea. injection Ea as <-. apply (IH _ _ s H2) in E; [exact E|exact Hs]. }
  specialize (G _ _ _ _ Hq H2 H). rewrite G. unfold assigned, latest. rewrite flat_map_app.
  clear. generalize (Built (params_after p0 pre) true) as d.
  induction (flat_map (fun x => match x with SetSolver (VSolver s) => [s] | _ => [] end) pre) as [|x r IH]; intros d;
    [reflexivity|].
  change ((x :: r) ++ ?t)%list with (x :: (r ++ t))%list. rewrite !last_cons. apply IH.
Qed.

(** Anything but a NewtonSolver or None is refused. *)
Theorem C81_types k o v : (exists e, step k o (SetSolver v) = Err e) <-> v = VOther.
Proof.
  split; [|intros ->; eexists; reflexivity]. intros [e H]. destruct v; [discriminate|discriminate|reflexivity].
Qed.

Definition p1 : params := mkParams 1 (1 # 1000) 30 None "default".
Definition p2 : params := mkParams (1 # 100) (1 # 1000) 50 (Some "gmres") "icc".

(** C81 is false for the heat problem: tolerances changed between two initialisations are ignored. *)
Theorem C81_heat_refuted :
  exists o, exec Heat (new_owner p1) [Initialise true; SetParams p2; Initialise true] = Ok o /\
  ow_params o = p2 /\ ow_solver o = Some (Built p1 true) /\ p1 <> p2.
Proof. eexists. split; [reflexivity|]. split; [reflexivity|]. split; [reflexivity|discriminate]. Qed.

(** C81 is false for extrinsic traps: a solver provided before initialise() is thrown away. *)
Theorem C81_extrinsic_trap_refuted :
  exists o, exec ExtrinsicTrap (new_owner p1) [SetSolver (VSolver (Custom 0)); Initialise true] = Ok o /\
  ow_solver o = Some (Built p1 true).
Proof. eexists. split; reflexivity. Qed.

Example C81_example :
  (exists o, exec Hydrogen (new_owner p1) [Initialise true; SetSolver (VSolver (Custom 0)); SetParams p2; Initialise false]
     = Ok o /\ ow_solver o = Some (Built p2 false)) /\
  (exists o, exec Hydrogen (new_owner p1) [Initialise true; SetSolver (VSolver (Custom 0)); SetSolver (VSolver (Custom 1))]
     = Ok o /\ ow_solver o = Some (Custom 1) /\ ow_printed o = 2%nat) /\
  (exists o, exec Heat (new_owner p1) [SetSolver (VSolver (Custom 4)); Initialise false; SetParams p2; Initialise false]
     = Ok o /\ ow_solver o = Some (Custom 4)).
Proof. repeat split; eexists; repeat split; reflexivity. Qed.

Print Assumptions C81_hydrogen.
Print Assumptions C81_extrinsic_trap_partial.
Print Assumptions C81_heat_partial.
Print Assumptions C81_types.
Print Assumptions C81_heat_refuted.
Print Assumptions C81_extrinsic_trap_refuted.
