(** C11: time-dependent inputs are evaluated at the time of the step; C60: boundary conditions with
    chemical_pot. *)
From Coq Require Import ZArith QArith List Bool String Lia.
From Verif Require Import Base.Exc Base.Num Base.Key Model.Stepsize Model.TimeLoop
  Spec.TimeSpec Proofs.TimeQ2 Model.Expressions Spec.ExpressionSpec Proofs.ExpressionProofs.
Import ListNotations.

Section Updated.
Context {A : Type}.

(** Part of C11: every value in the forms and every imposed value of the hydrogen problem, after
    HTransportProblem.update has called update_expressions.  Missing: the parameters of extrinsic traps,
    where it is false, see C11_extrinsic_refuted. *)
Theorem C11_updated_partial chemical_pot sources bcs traps before n pb :
  Forall source_plain sources -> Forall bc_plain bcs -> Forall trap_plain traps ->
  initialise chemical_pot sources bcs traps before n = Ok pb ->
  forall (t : A) ts v, In v (pb_forms pb ++ pb_imposed pb) ->
  at_time (update_expressions (pb_expressions pb) t ts) t v.
Proof.
  intros S B T H t ts v V. apply covered_at_time.
  pose proof (initialise_covered _ _ _ _ _ _ _ S B T H) as C. rewrite Forall_forall in C. apply C. exact V.
Qed.

(** The same for the heat problem (its sources, fluxes and imposed temperatures), when it is transient. *)
Theorem C11_heat sources bcs before n :
  Forall source_plain sources -> Forall bc_plain bcs ->
  forall (t : A) ts v, In v (pb_forms (heat_problem sources bcs before n) ++ pb_imposed (heat_problem sources bcs before n)) ->
  at_time (heat_update true (heat_problem sources bcs before n) t ts) t v.
Proof.
  intros S B t ts v V. apply covered_at_time.
  pose proof (heat_covered sources bcs before n S B) as C. cbn zeta in C. rewrite Forall_forall in C. apply C. exact V.
Qed.

(** Part of C11: extrinsic traps whose parameters are numbers. *)
Theorem C11_constant_parameters_partial chemical_pot sources bcs traps before n pb :
  (forall tr p, In tr traps -> tr_extrinsic tr = Some p -> forall v, In v p -> v = Const) ->
  initialise chemical_pot sources bcs traps before n = Ok pb ->
  forall (t : A) ts v, In v (pb_densities pb) ->
  at_time (update_expressions (pb_expressions pb) t ts) t v.
Proof.
  intros C H t ts v V. apply covered_at_time.
  assert (E : pb_densities pb = extrinsic_forms traps).
  { unfold initialise in H. destruct (mobile_trapping traps); [|discriminate]. cbn [bind] in H.
    destruct (create_source_form sources). destruct (create_fluxes_form bcs n) as [[? ?] ?].
    destruct (traps_create_forms traps); [|discriminate]. cbn [bind] in H.
    destruct (create_dirichlet_bcs _ _ _) as [[[? ?] ?]|]; [|discriminate]. apply Ok_inj in H. subst. reflexivity. }
  rewrite E in V. apply in_flat_map in V as (tr & I & V).
  destruct (tr_extrinsic tr) as [p|] eqn:X; [|destruct V]. destruct V as [<-|[]].
  constructor. repeat (constructor; [constructor|]). apply Forall_forall. intros w W.
  rewrite (C tr p I X w W). constructor.
Qed.
End Updated.

(** The stamps after the updates made at the successive times of a run. *)
Definition updated {A} (l : list value) (times : list A) (ts : stamps A) : stamps A :=
  fold_left (fun s t => update_expressions l t s) times ts.

(** Part of C11, along a run: at every solve c of a transient run the expressions carry the time sv_t c, all
    the values of the problem are those of this time, whatever the expressions carried before, and the
    accepted solves are those of the times visited. *)
Theorem C11_run_partial {U X D E : Type} (temp : temperature (A:=Q) X) dens_solve post (F : Q) s (T0 Tn0 : X) (u0 un0 : U) (d0 dn0 : D) (e0 : E)
  sched st' (evs : list (event (A:=Q) U X D)) chemical_pot sources bcs traps before n pb :
  Forall source_plain sources -> Forall bc_plain bcs -> Forall trap_plain traps ->
  initialise chemical_pot sources bcs traps before n = Ok pb ->
  run_transient temp dens_solve post F (start s T0 Tn0 u0 un0 d0 dn0 e0) sched = (st', evs, Done) ->
  (forall earlier ts c v, In c (solves evs) -> In v (pb_forms pb ++ pb_imposed pb) ->
     at_time (updated (pb_expressions pb) (earlier ++ [sv_t c]) ts) (sv_t c) v) /\
  visited evs = map sv_t (filter (fun c => at_conv (sv_out c)) (solves evs)).
Proof.
  intros S B T H R. split.
  - intros earlier ts c v _ V. unfold updated. rewrite fold_left_app. cbn.
    eapply C11_updated_partial; eauto.
  - destruct (run_posts temp dens_solve post F s _ _ _ _ _ _ _ _ _ _ _ R) as (tl & Heq & Ht).
    rewrite Ht, app_nil_r in Heq by auto.
    assert (V : forall l : list (event (A:=Q) U X D), visited l = map (fun p => fst (fst p)) (posts l)).
    { induction l as [|[]]; cbn; congruence. }
    rewrite V, <- Heq, map_map. reflexivity.
Qed.

(** C11 is false for the parameters of extrinsic traps: nothing is registered for a trap whose phi_0 is an
    expression of time, which therefore keeps the value of time 0. *)
Theorem C11_extrinsic_refuted :
  exists traps pb, Forall trap_plain traps /\
    initialise false [] [] traps [] 8%nat = Ok pb /\
    exists v, In v (pb_densities pb) /\
    ~ at_time (updated (pb_expressions pb) [1; 2] (fun _ => 0)) 2 v.
Proof.
  exists [mkTrap [] false 1 [] (Some [Expr 7; Const; Const; Const; Const; Const; Const]) []].
  eexists. split; [constructor; [split; [intros v [] | constructor] | constructor]|]. split; [reflexivity|].
  exists (Term (Const :: Const :: [Expr 7; Const; Const; Const; Const; Const; Const])). split; [left; reflexivity|].
  intros H. specialize (H Q (fun _ t => t) (fun l => nth 2 l 0) 5). cbn in H. discriminate H.
Qed.

(** C11 is false for a stationary heat problem in a transient simulation: its temperature imposed on a surface
    is an expression of time, and keeps the value of time 0 at all later times. *)
Theorem C11_stationary_heat_refuted :
  exists bcs n, Forall bc_plain bcs /\
    let pb := heat_problem [] bcs [] n in
    exists v, In v (pb_imposed pb) /\
    forall t1 t2 : Q, ~ t2 == 0 ->
    let ts := heat_update false pb t2 (heat_update false pb t1 (fun _ => 0)) in
    ~ at_time ts t2 v /\ at_time ts 0 v.
Proof.
  exists [mkBc (KS "T") (Dirichlet PlainDirichlet (PyList []))], 4%nat.
  split; [repeat constructor|]. cbn. eexists. split; [left; reflexivity|].
  intros t1 t2 N. split; [|intros X i c k; reflexivity].
  intros H. specialize (H Q (fun _ t => t) (fun l => nth 2 l 0) 5). cbn in H. apply N. rewrite <- H. reflexivity.
Qed.

(** C60.  With chemical_pot=True a CustomDirichlet on the mobile species cannot be initialised; this is the only
    boundary condition that fails. *)
Definition custom_on_mobile (b : bc) : Prop :=
  (exists p before, bc_cond b = Dirichlet (CustomDirichlet p) before) /\
  In (bc_field b) [KI 0; KS "0"; KS "solute"].

(** A new object has an empty list of sub-expressions. *)
Definition new_or_used (b : bc) : Prop :=
  match bc_cond b with Dirichlet PlainDirichlet before => exists l, before = PyList l | _ => True end.

Lemma key_eqb_eq a b : key_eqb a b = true <-> a = b.
Proof.
  destruct a, b; cbn; split; try discriminate; intros H.
  - apply Z.eqb_eq in H. congruence.
  - injection H as ->. apply Z.eqb_refl.
  - apply String.eqb_eq in H. congruence.
  - injection H as ->. apply String.eqb_refl.
Qed.

(** Part of C60: it works exactly without chemical_pot or without such a condition. Missing: CustomDirichlet on
    the mobile species with chemical_pot, where it fails: C60_custom_refuted. *)
Theorem C60_dirichlet_partial chemical_pot bcs n : Forall new_or_used bcs ->
  (exists r, create_dirichlet_bcs chemical_pot bcs n = Ok r) <->
  (chemical_pot = false \/ forall b, In b bcs -> ~ custom_on_mobile b).
Proof.
  revert n. induction bcs as [|[fld [f before|d before]] r IH]; intros n P; inversion P as [|? ? P1 P2]; subst.
  - cbn. split; [intros _; right; intros b [] | eauto].
  - cbn [create_dirichlet_bcs bc_cond]. rewrite (IH n P2). split; (intros [->|H]; [left; reflexivity | right]).
    + intros b [<-|I]; [intros ((p & bf & E) & _); discriminate E | apply H; exact I].
    + intros b I. apply H. right. exact I.
  - cbn [create_dirichlet_bcs bc_cond bc_field]. destruct (key_eqb fld (KS "T")) eqn:T.
    + rewrite (IH n P2). apply key_eqb_eq in T. subst fld.
      split; (intros [->|H]; [left; reflexivity | right]).
      * intros b [<-|I]; [intros (_ & [E|[E|[E|[]]]]); discriminate E | apply H; exact I].
      * intros b I. apply H. right. exact I.
    + assert (K : (exists x, create_dirichletbc chemical_pot fld d before n = Ok x) <->
                  (chemical_pot = false \/ ~ custom_on_mobile (mkBc fld (Dirichlet d before)))).
      { unfold create_dirichletbc, custom_on_mobile. cbn [bc_cond bc_field].
        destruct (create_expression d before n) as [[n1 e] subs] eqn:E.
        destruct (existsb (key_eqb fld) [KI 0; KS "0"; KS "solute"] && chemical_pot)%bool eqn:G.
        - apply andb_true_iff in G as [G ->]. apply existsb_exists in G as (k & I & G). apply key_eqb_eq in G. subst k.
          unfold normalise_by_solubility. split.
          + intros (x & H). right. intros ((p & bf & Ed) & _). injection Ed as -> ->. cbn in E.
            injection E as <- <- <-. discriminate H.
          + intros [H|H]; [discriminate|]. destruct subs as [l|l]; [eauto|]. exfalso.
            destruct d as [|p|[]| |]; cbn in E; try discriminate E.
            * unfold new_or_used in P1. cbn in P1. destruct P1 as (l0 & ->). discriminate E.
            * apply H. split; [eauto | exact I].
        - apply andb_false_iff in G. split; [intros _ | eauto].
          destruct G as [G|G]; [right | left; exact G]. intros (_ & I).
          assert (existsb (key_eqb fld) [KI 0; KS "0"; KS "solute"] = true); [|congruence].
          apply existsb_exists. exists fld. split; [exact I | apply key_eqb_eq; reflexivity]. }
      split.
      * intros (x & H). destruct (create_dirichletbc chemical_pot fld d before n) as [[[n1 e] subs]|] eqn:E; [|discriminate].
        cbn [bind] in H. destruct (create_dirichlet_bcs chemical_pot r n1) as [y|] eqn:R; [|discriminate].
        destruct (proj1 K (ex_intro _ _ eq_refl)) as [->|K1]; [left; reflexivity|].
        destruct (proj1 (IH n1 P2) (ex_intro _ _ R)) as [->|K2]; [left; reflexivity|].
        right. intros b [<-|I]; [exact K1 | apply K2; exact I].
      * intros H. assert (H1 : chemical_pot = false \/ ~ custom_on_mobile (mkBc fld (Dirichlet d before))).
        { destruct H as [->|H]; [left; reflexivity | right; apply H; left; reflexivity]. }
        apply K in H1 as ([[n1 e] subs] & ->). cbn [bind].
        destruct (proj2 (IH n1 P2)) as ([[n2 vs] es] & ->).
        { destruct H as [->|H]; [left; reflexivity | right; intros b I; apply H; right; exact I]. }
        cbn [bind]. eauto.
Qed.

Theorem C60_custom_refuted :
  ~ (forall chemical_pot bcs n, Forall new_or_used bcs -> exists r, create_dirichlet_bcs chemical_pot bcs n = Ok r).
Proof.
  intros H. specialize (H true [mkBc (KI 0) (Dirichlet (CustomDirichlet [Expr 0]) (PyList []))] 1%nat).
  destruct H as (r & H); [repeat constructor | discriminate H].
Qed.

(** A problem with a source, a trap with a time-dependent density, a recombination flux, an implantation
    condition and a custom condition on the temperature-independent second species. *)
Definition ex_sources := [mkSource (Some (Expr 0)); mkSource None; mkSource (Some Const)].
Definition ex_bcs :=
  [mkBc (KI 0) (Flux RecombinationFlux []); mkBc (KI 0) (Dirichlet (ImplantationDirichlet true) (PyList []));
   mkBc (KI 0) (Flux (CustomFlux [Expr 1; Const]) []); mkBc (KI 1) (Dirichlet (CustomDirichlet [Expr 2]) (PyList []));
   mkBc (KI 0) (Dirichlet PlainDirichlet (PyList []))].
Definition ex_traps := [mkTrap [Expr 3; Expr 4] true 2 [mkSource (Some (Expr 5))] None [];
                        mkTrap [] false 1 [] (Some [Const; Const; Const; Const; Const]) []].
Example C11_example :
  Forall source_plain ex_sources /\ Forall bc_plain ex_bcs /\ Forall trap_plain ex_traps /\
  exists pb, initialise true ex_sources ex_bcs ex_traps [] 6%nat = Ok pb /\
  List.length (pb_forms pb) = 12%nat /\ pb_imposed pb = 
    [BcTheta 12 (BcExpr 11 [Expr 8; Expr 9; Const; Expr 10]); BcExpr 13 [Expr 2]; BcTheta 15 (Expr 14)].
Proof.
  split; [|split; [|split]].
  - apply Forall_forall. intros s [<-|[<-|[<-|[]]]] v E; cbn in E; try discriminate E; injection E as <-;
      [right; eauto | left; reflexivity].
  - apply Forall_forall. intros b [<-|[<-|[<-|[<-|[<-|[]]]]]]; cbn; try exact I.
    + intros v [<-|[<-|[]]]; [right; eauto | left; reflexivity].
    + intros v [<-|[]]. right. eauto.
  - apply Forall_forall. intros tr [<-|[<-|[]]]; split; cbn.
    + intros v [<-|[<-|[]]]; right; eauto.
    + apply Forall_forall. intros s [<-|[]] v E. cbn in E. injection E as <-. right. eauto.
    + intros v [].
    + apply Forall_nil.
  - eexists. split; [reflexivity|]. split; reflexivity.
Qed.

(** The statement is not about nothing: before the update these values are not those of time 1. *)
Example C11_before_update :
  ~ at_time (fun _ => 0) 1 (Term [Expr 0; Const]).
Proof.
  intros H. specialize (H Q (fun _ t => t) (fun l => nth 0 l 0) 5). cbn in H. discriminate H.
Qed.

Example C60_example : Forall new_or_used ex_bcs /\ (forall b, In b ex_bcs -> ~ custom_on_mobile b).
Proof.
  split.
  - repeat constructor. exists []. reflexivity.
  - intros b I ((p & bf & E) & F). repeat (destruct I as [<-|I]; [try discriminate E|]); [|destruct I].
    cbn in F. destruct F as [F|[F|[F|[]]]]; discriminate F.
Qed.

Print Assumptions C11_updated_partial.
Print Assumptions C11_heat.
Print Assumptions C11_constant_parameters_partial.
Print Assumptions C11_run_partial.
Print Assumptions C11_extrinsic_refuted.
Print Assumptions C11_stationary_heat_refuted.
Print Assumptions C60_dirichlet_partial.
Print Assumptions C60_custom_refuted.
