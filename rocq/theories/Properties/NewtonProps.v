(** C90: linear problems are solved in one Newton iteration; what this means for a run. *)
From Coq Require Import Reals ZArith QArith List Bool Lra Lqa Lia String.
From Verif Require Import Base.Exc Base.Num Base.Dual Model.Materials Model.Laws Model.Theta Model.Exports Model.Forms
  Model.NonlinearProblem Model.Stepsize Model.TimeLoop
  Spec.BalanceSpec Spec.SuperposeSpec Spec.NewtonSpec Spec.TimeSpec
  Proofs.NumQ Proofs.ThetaProofs Proofs.FormProofs Proofs.SuperposeProofs Proofs.NewtonProofs
  Proofs.StepsizeProofs Proofs.TimeLoopProofs Proofs.TimeChain Proofs.TimeQ Proofs.TimeQ2
  Properties.FormProps Properties.TrapProps Properties.NeutralProps Properties.SuperposeProps.
From Verif Require Import Model.Stepsize Model.TimeLoop.
Import ListNotations.
Local Open Scope R_scope.
Local Open Scope list_scope.

(** * Which problems are linear *)
(** Hydrogen transport without traps, with linear fluxes, in mobile concentration or in theta with Sieverts materials. *)
Theorem C90_hydrogen {P} (M : mesh P) mb ms T dt soret N phi r :
  (forall b, In b (mb_bcs mb) -> linear_bc b) -> linear_class (mb_class mb) ms ->
  hydrogen_residual M mb ms T dt soret N phi r -> affine N r.
Proof. exact (hydrogen_affine M mb ms T dt soret N phi r). Qed.
(** Heat transfer with constant properties and linear fluxes. *)
Theorem C90_heat {P} (M : mesh P) transient dt T_n ms sources bcs N phi r :
  (forall m, In m ms -> constant_thermal (attrs m)) -> (forall b, In b bcs -> linear_heat_bc b) ->
  heat_residual M transient dt T_n ms sources bcs N phi r -> affine N r.
Proof. exact (heat_affine M transient dt T_n ms sources bcs N phi r). Qed.
(** The densities of extrinsic and neutron induced traps, always. *)
Theorem C90_density {P} (M : mesh P) dt phi_0 n_amax n_bmax eta_a eta_b f_a f_b phi K n_max A_0 E_A T n_prev N (basis : nat -> field P) :
  affine N (fun x i => assemble M (extrinsic_form dt phi_0 n_amax n_bmax eta_a eta_b f_a f_b (span N basis x) n_prev (basis i))) /\
  affine N (fun x i => assemble M (neutron_form dt phi K n_max A_0 E_A T (span N basis x) n_prev (basis i))).
Proof. split; [apply density_affine|apply neutron_affine]. Qed.

(** * One iteration *)
(** Whatever the start and the tolerances, Newton's method converges in at most one iteration, and an iteration gives the exact
    solution. *)
Theorem C90_one_iteration N bcs r atol rtol max x y k c :
  affine N r -> 0 < atol -> (0 < max)%nat -> newton N bcs r atol rtol max x (y, k, c) ->
  c = true /\ (k <= 1)%nat /\ (k = 1%nat -> forall i, (i < N)%nat -> problem_F bcs (r y) y i = 0).
Proof. intros Hr. exact (newton_once N bcs r Hr atol rtol max x y k c). Qed.
(** If there is a solution, Newton's method has a step to it from any start. *)
Theorem C90_reaches N bcs r atol rtol max x y :
  affine N r -> 0 < atol -> (0 < max)%nat -> (forall i, (i < N)%nat -> problem_F bcs (r y) y i = 0) ->
  exists z k, newton N bcs r atol rtol max x (z, k, true).
Proof.
  intros Hr Ha Hm HF.
  destruct (Rlt_dec (size N bcs r x) atol) as [H1|H1].
  { exists x, 0%nat. constructor. now left. }
  destruct (Req_EM_T (size N bcs r x) 0) as [H2|H2]; [rewrite H2 in H1; contradiction|].
  destruct (Rlt_dec (size N bcs r x / size N bcs r x) rtol) as [H3|H3].
  { exists x, 0%nat. constructor. right. auto. }
  pose proof (step_to N bcs r Hr x y HF) as Hd.
  exists (fun i => x i - (x i - y i)), 1%nat. apply Next with (d := fun i => x i - y i); [|exact Hm|exact Hd|].
  - intros [H|[_ H]]; contradiction.
  - constructor. left. unfold size.
    rewrite (norm_zero N _ (one_step N bcs r Hr x _ Hd (fun i => x i - (x i - y i)) (fun j => eq_refl))). exact Ha.
Qed.

(** * Runs *)
Section Runs.
Local Open Scope Q_scope.
Context {X D E : Type}.
Variable temp : temperature (A:=Q) X.
Variable dens_solve : D -> D -> Q -> X -> D.
Variable post : Q -> (nat -> R) -> X -> E -> res E.
Variables (T0 Tn0 : X) (u0 un0 : nat -> R) (d0 dn0 : D) (e0 : E).
Definition run (F : Q) (s : stepsize Q) sched :=
  run_transient temp dens_solve post F (start s T0 Tn0 u0 un0 d0 dn0 e0) sched.
(** A call of the solver on a linear problem (which may depend on the time, the stepsize, ...). *)
Definition linear_solve (c : solve_call (A:=Q) (nat -> R) X D) : Prop :=
  exists N bcs r atol rtol max k, affine N r /\ (0 < atol)%R /\ (0 < max)%nat /\
    at_nb (sv_out c) = Z.of_nat k /\ newton N bcs r atol rtol max (sv_guess c) (at_u (sv_out c), k, at_conv (sv_out c)).

Lemma linear_quick c : linear_solve c -> at_conv (sv_out c) = true /\ (at_nb (sv_out c) <= 1)%Z.
Proof.
  intros (N & bcs & r & atol & rtol & max & k & Hr & Ha & Hm & Hk & Hn).
  destruct (C90_one_iteration _ _ _ _ _ _ _ _ _ _ Hr Ha Hm Hn) as (H1 & H2 & _). split; [exact H1|]. rewrite Hk. lia.
Qed.

Lemma chain_from {B} (R : B -> B -> Prop) l : chain R l -> chain (fun a b => In a l /\ R a b) l.
Proof.
  intros H. apply chain_intro. intros l1 a b l2 ->. split; [apply in_or_app; right; now left|]. now apply chain_app_inv in H.
Qed.

Variables (init r : Q) (mx : maxspec Q) (dtmin : option Q) (miles : option (list Q)) (F : Q).
Local Notation S := (mk_stepsize init (Some r) None None mx dtmin miles).

(** An adaptive run on linear problems: every step is accepted at the first attempt; the stepsize is multiplied by the ratio, unless this
    would exceed max_stepsize or jump over a milestone or final_time. *)
Theorem C90_run sched st' evs stt :
  run F S sched = (st', evs, stt) -> (forall c, In c (solves evs) -> linear_solve c) ->
  (forall c, In c (solves evs) -> at_conv (sv_out c) = true /\ (at_nb (sv_out c) <= 1)%Z) /\
  chain (fun c1 c2 => sv_t c2 = sv_t c1 + sv_dt c2) (solves evs) /\
  chain (fun c1 c2 => sv_dt c2 <= sv_dt c1 * r /\
    (sv_dt c2 = sv_dt c1 * r \/ bound_at mx (sv_t c1) (sv_dt c2) \/
     sv_t c2 == F \/ exists l m, miles = Some l /\ In m l /\ sv_t c2 == m)) (solves evs).
Proof.
  intros H HL.
  assert (HQ : forall c, In c (solves evs) -> at_conv (sv_out c) = true /\ (at_nb (sv_out c) <= 1)%Z)
    by (intros c Hc; apply linear_quick; auto).
  assert (HC : chain (fun c1 c2 => In c1 (solves evs) /\ follows temp dens_solve F S c1 c2) (solves evs))
    by (apply chain_from, (run_chain_start temp dens_solve post F _ _ _ _ _ _ _ _ _ _ _ _ H)).
  split; [exact HQ|]. split; eapply chain_impl; try exact HC; intros c1 c2 [H1 Hf]; destruct (HQ c1 H1) as [Hc Hn].
  - destruct Hf as [(Hr & _)|Hf]; [congruence|]. destruct Hf as (_ & _ & _ & Ht & _). exact Ht.
  - destruct Hf as [(Hr & _)|Hf]; [congruence|].
    destruct Hf as (_ & _ & _ & Ht & _ & s1 & s2 & [Hs1 Hs2] & Hv & Had & Hdt & _).
    unfold adapted, calls_adapt in Had. rewrite Hs1 in Had. cbn in Had.
    apply adapt_inv in Had as (v & Hva & ->). rewrite Hs1 in Hva. cbn in Hva.
    unfold adapt_value in Hva. rewrite (proj2 (Z.ltb_lt _ _) (Z.le_lt_trans _ 1 5 Hn eq_refl)) in Hva. cbn in Hva.
    rewrite Hv in Hva.
    pose proof (clamp_milestone_le s1 (sv_t c1) v) as Hle.
    assert (Hle2 : v <= sv_dt c1 * r).
    { revert Hva. unfold cap. destruct mx as [|x|f]; cbn.
      - intros E1; injection E1 as <-; lra.
      - destruct (Qltb x _) eqn:E0; intros E1; injection E1 as <-; qb; lra.
      - destruct (f (sv_t c1)) as [[b|]|]; cbn; [|intros E1; injection E1 as <-; lra|discriminate].
        destruct (Qltb b _) eqn:E0; intros E1; injection E1 as <-; qb; lra. }
    assert (Hor : v = sv_dt c1 * r \/ bound_at mx (sv_t c1) v).
    { revert Hva. unfold cap, bound_at. destruct mx as [|x|f]; cbn.
      - intros E1; injection E1 as <-; auto.
      - destruct (Qltb x _) eqn:E0; intros E1; injection E1 as <-; auto.
      - destruct (f (sv_t c1)) as [[b|]|]; cbn; [|intros E1; injection E1 as <-; auto|discriminate].
        destruct (Qltb b _) eqn:E0; intros E1; injection E1 as <-; auto. }
    assert (Hcl : clamp_milestone s1 (sv_t c1) v = v \/
                  exists l m, miles = Some l /\ In m l /\ clamp_milestone s1 (sv_t c1) v = m - sv_t c1).
    { unfold clamp_milestone, next_milestone. rewrite Hs2. cbn. destruct miles as [l|]; [|auto].
      destruct (set_milestones (Some l)) as [l'|] eqn:El; [|auto].
      destruct (first_after (sv_t c1) l') as [m|] eqn:Em; [|auto].
      apply first_after_some in Em as [Hm _].
      destruct (Qltb m _ && _); [|auto]. right. exists l, m. repeat split; auto. now apply (proj1 (set_milestones_in l l' m El)). }
    rewrite Ht, Hdt. unfold clamp_final. rewrite !assign_value.
    destruct (nltb F (nadd (sv_t c1) (clamp_milestone s1 (sv_t c1) v))) eqn:EF; rewrite ?assign_value; cbn.
    + cbn in EF. qb. split; [lra|]. right. right. left. lra.
    + split; [lra|]. destruct Hcl as [->|(l & m & Hl & Hm & ->)].
      * destruct Hor; auto.
      * right. right. right. exists l, m. repeat split; auto. lra.
Qed.

(** It never raises (unless max_stepsize or the exports do). *)
Theorem C90_no_error sched st' evs stt :
  (forall t u T e, exists e', post t u T e = Ok e') -> (forall f t e, mx = MaxFun f -> f t <> Err e) ->
  run F S sched = (st', evs, stt) -> (forall c, In c (solves evs) -> linear_solve c) -> forall e, stt <> Raised e.
Proof.
  intros Hp Hm H HL e ->. revert H HL. unfold run.
  assert (Hs : exists d, adaptive_stepsize (st_dt (start S T0 Tn0 u0 un0 d0 dn0 e0)) = Some (mkAdaptive r mx d)) by (cbn; eauto).
  revert Hs. generalize (start S T0 Tn0 u0 un0 d0 dn0 e0) as st. intros st. revert st st' evs.
  induction sched as [|atts rest IH]; cbn [run_transient]; intros st st' evs [d Hd].
  { destruct (running F st); discriminate. }
  destruct (running F st); [|discriminate].
  destruct (iterate temp dens_solve post F st atts) as [[st1 evs1] stt1] eqn:Ei.
  assert (HI : (forall c, In c (solves evs1) -> linear_solve c) ->
               (forall e1, stt1 <> Raised e1) /\ (stt1 = Done -> adaptive_stepsize (st_dt st1) = Some (mkAdaptive r mx d))).
  { revert Ei. unfold iterate, update. cbn zeta.
    destruct (temp_update temp _ _ _ _) as [T Tn]. cbn [st_t st_dt st_T st_Tn st_u st_un st_dens st_densn st_expr st_exp].
    destruct atts as [|a more]; cbn [update_loop].
    { intros E1; injection E1 as <- <- <-. intros _. split; discriminate. }
    unfold calls_adapt. rewrite Hd. unfold adapt. rewrite Hd. unfold adapt_value.
    destruct (at_conv a) eqn:Ec.
    2:{ intros Ei HL. exfalso. revert Ei HL.
        match goal with |- context [mkSolve ?g ?p ?t ?v ?T1 ?T2 ?ds a] => set (c := mkSolve g p t v T1 T2 ds a) end.
        intros Ei HL. assert (In c (solves evs1)) as Hin.
        { revert Ei. match goal with |- context [match ?x with Ok _ => _ | Err _ => _ end] => destruct x end.
          - match goal with |- context [update_loop ?a1 ?a2 ?a3 ?a4 ?a5 ?a6 ?a7 ?a8 ?a9] =>
              destruct (update_loop a1 a2 a3 a4 a5 a6 a7 a8 a9) as [[[u2 s2] evs2] [|e2|]] end; cbn.
            + match goal with |- context [post ?a1 ?a2 ?a3 ?a4] => destruct (post a1 a2 a3 a4) end;
                intros E1; injection E1 as <- <- <-; now left.
            + intros E1; injection E1 as <- <- <-; now left.
            + intros E1; injection E1 as <- <- <-; now left.
          - cbn. intros E1; injection E1 as <- <- <-; now left. }
        apply HL, linear_quick in Hin as [Hin _]. cbn in Hin. congruence. }
    cbn [bind]. intros Ei HL.
    assert (Hnb : (at_nb a <= 1)%Z).
    { match type of Ei with context [mkSolve ?g ?p ?t ?v ?T1 ?T2 ?ds a] => set (c := mkSolve g p t v T1 T2 ds a) in Ei end.
      assert (In c (solves evs1)) as Hin.
      { revert Ei. match goal with |- context [match ?x with Ok _ => _ | Err _ => _ end] => destruct x end; cbn.
        - match goal with |- context [post ?a1 ?a2 ?a3 ?a4] => destruct (post a1 a2 a3 a4) end;
            intros E1; injection E1 as <- <- <-; now left.
        - intros E1; injection E1 as <- <- <-; now left. }
      apply HL, linear_quick in Hin as [_ Hin]. exact Hin. }
    rewrite (proj2 (Z.ltb_lt _ _) (Z.le_lt_trans _ 1 5 Hnb eq_refl)) in Ei. cbn [bind change_ratio max_stepsize] in Ei.
    match type of Ei with context [cap mx ?t ?v] => destruct (cap mx t v) as [v'|e'] eqn:Ecap end; cbn in Ei.
    - match type of Ei with context [post ?a1 ?a2 ?a3 ?a4] => destruct (Hp a1 a2 a3 a4) as [e1 He1]; rewrite He1 in Ei end.
      injection Ei as <- <- <-. split; [discriminate|]. intros _. cbn. unfold clamp_final.
      match goal with |- context [if ?b then _ else _] => destruct b end; cbn; exact Hd.
    - exfalso. revert Ecap. unfold cap. destruct mx as [|x|f]; cbn; try discriminate.
      destruct (f _) as [[b|]|e1] eqn:Ef; cbn; try discriminate. exact (fun _ => Hm f _ e1 eq_refl Ef). }
  destruct stt1 as [|e1|].
  - destruct (run_transient temp dens_solve post F st1 rest) as [[st2 evs2] stt2] eqn:E2.
    intros E1 HL. injection E1 as <- <- ->. rewrite solves_app in HL.
    refine (IH st1 st2 evs2 _ E2 _).
    + exists d. apply HI; [|reflexivity]. intros c Hc. apply HL, in_or_app. now left.
    + intros c Hc. apply HL, in_or_app. now right.
  - intros E1 HL. injection E1 as <- <- <-. destruct (HI HL) as [HI1 _]. now apply (HI1 e1).
  - intros E1. discriminate.
Qed.
End Runs.
Print Assumptions C90_hydrogen.
Print Assumptions C90_heat.
Print Assumptions C90_density.
Print Assumptions C90_one_iteration.
Print Assumptions C90_reaches.
Print Assumptions C90_run.
Print Assumptions C90_no_error.

(** ** Examples *)
(** Two unknowns; the load of C86 (two materials, Soret, decay, fluxes) and heat transfer with convection. *)
Definition hats (i p : nat) : R * (nat -> R) := if Nat.eqb i 0 then (1 - INR p, fun _ => -1) else (INR p, fun _ => 1).
Definition hat (i p : nat) : dual := mkDual (fst (hats i p)) (snd (hats i p)).
Definition value_of (M : mesh nat) (f : res (form nat)) : R := match f with Ok F => assemble M F | Err _ => 0 end.
Definition load_residual (x : nat -> R) (i : nat) : R :=
  value_of (mesh_ty Cylindrical) (define_variational_problem (mesh_ty Cylindrical)
    (mkMobile (mb_class (load 1)) (span 2 hat x) (mb_previous (load 1)) (hat i) (mb_sources (load 1)) (mb_bcs (load 1)))
    Q_mats T_slope (Some 2) [] true).
Definition heat_load_residual (x : nat -> R) (i : nat) : R :=
  value_of (mesh_ty Spherical) (heat_form (mesh_ty Spherical) true 2 (span 2 hat x) ones (hat i) two_mats [mkSource (IdOne 1) (fun _ => 3) None]
    [([1; 2]%Z, ConvectiveFlux (fun _ => 3) (fun _ => 10)); ([1]%Z, FluxBC (fun _ => 2))]).
Example C90_hydrogen_example :
  (forall b, In b (mb_bcs (load 1)) -> linear_bc b) /\ linear_class (mb_class (load 1)) Q_mats /\
  hydrogen_residual (mesh_ty Cylindrical) (load 1) Q_mats T_slope (Some 2) true 2 hat load_residual.
Proof.
  split; [intros b [<-|[<-|[<-|[<-|[]]]]]; cbn; auto|]. split; [split; intros m [<-|[<-|[]]]; reflexivity|].
  intros x i _. eexists. split; [reflexivity|]. unfold load_residual, value_of. reflexivity.
Qed.
Example C90_heat_example :
  (forall m, In m two_mats -> constant_thermal (attrs m)) /\
  (forall b, In b [([1; 2]%Z, ConvectiveFlux (fun _ : nat => 3) (fun _ => 10)); ([1]%Z, FluxBC (fun _ => 2))] -> linear_heat_bc b) /\
  heat_residual (mesh_ty Spherical) true 2 ones two_mats [mkSource (IdOne 1) (fun _ => 3) None]
    [([1; 2]%Z, ConvectiveFlux (fun _ => 3) (fun _ => 10)); ([1]%Z, FluxBC (fun _ => 2))] 2 hat heat_load_residual.
Proof.
  split; [intros x [<-|[<-|[]]]; (split; [eexists; reflexivity|split; intros f; discriminate])|].
  split; [intros b [<-|[<-|[]]]; cbn; auto|].
  intros x i _. eexists. split; [reflexivity|]. unfold heat_load_residual, value_of. reflexivity.
Qed.

(** Two unknowns, the second imposed: 2 x0 + x1 = 10, x1 = 4.  From (0, 0): one iteration. *)
Definition small_r (x : nat -> R) (i : nat) : R := 2 * x 0%nat + x 1%nat - 10.
Definition small_x : nat -> R := fun _ => 0.
Definition small_d (i : nat) : R := match i with O => -3 | _ => -4 end.
Definition small_y (i : nat) : R := small_x i - small_d i.
Lemma small_affine : affine 2 small_r.
Proof. intros a x y z Hz i _. unfold small_r. rewrite !Hz by lia. ring. Qed.
Lemma small_F i : (i < 2)%nat -> problem_F [[(1%nat, 4)]] (small_r small_y) small_y i = 0.
Proof. destruct i as [|[|i]]; [| |lia]; intros _; cbn; unfold small_r, small_y, small_x, small_d; ring. Qed.
Lemma small_size : size 2 [[(1%nat, 4)]] small_r small_y = 0.
Proof. exact (norm_zero 2 _ small_F). Qed.
Lemma small_newton : newton 2 [[(1%nat, 4)]] small_r 1 0 30 small_x (small_y, 1%nat, true).
Proof.
  apply Next with (d := small_d); [|lia| |].
  - intros [H|[_ H]].
    + unfold size, norm in H. cbn in H. unfold small_r, small_x in H.
      match type of H with sqrt ?e < 1 => assert (1 <= e) as H1 by Lra.lra; apply sqrt_le_1 in H1; [|Lra.lra|Lra.lra]; rewrite sqrt_1 in H1; Lra.lra end.
    + assert (0 <= size 2 [[(1%nat, 4)]] small_r small_x) as H0 by apply sqrt_pos.
      destruct (Req_EM_T (size 2 [[(1%nat, 4)]] small_r small_x) 0) as [E|E]; [rewrite E in H; unfold Rdiv in H; rewrite Rmult_0_l in H; Lra.lra|].
      unfold Rdiv in H. rewrite Rinv_r in H by exact E. Lra.lra.
  - intros i Hi. destruct i as [|[|i]]; [| |lia].
    + unfold problem_J, problem_F, small_r, small_x, small_d. cbn.
      apply derivable_pt_lim_ext with (f := fun e => -10 * e + -10); [intros; ring|].
      replace (2 * 0 + 0 - 10) with (-10 * 1 + 0) by ring.
      apply (derivable_pt_lim_plus (fun e => -10 * e) (fun _ => -10)); [|apply derivable_pt_lim_const].
      apply (derivable_pt_lim_scal id (-10) 0 1), derivable_pt_lim_id.
    + cbn. unfold small_x, small_d. ring.
  - constructor. left. fold small_y. change (fun i => small_x i - small_d i) with small_y. rewrite small_size. Lra.lra.
Qed.
Example C90_one_iteration_example :
  affine 2 small_r /\ newton 2 [[(1%nat, 4)]] small_r 1 0 30 small_x (small_y, 1%nat, true) /\ small_y 0%nat = 3 /\ small_y 1%nat = 4.
Proof. split; [exact small_affine|]. split; [exact small_newton|]. unfold small_y, small_x, small_d. split; ring. Qed.

(** A run on this problem: Stepsize(1, stepsize_change_ratio=2, max_stepsize=3, milestones=[4]), final_time 10. *)
Definition solved_at (k : Z) : attempt (nat -> R) := mkAttempt small_y k true.
Definition linear_sched : list (list (attempt (nat -> R))) := [solved_at 1] :: repeat [solved_at 0] 5.
Definition linear_run :=
  run (TempExpr (fun _ : Q => tt)) (fun _ _ _ _ => tt) (fun _ _ _ e => Ok e) tt tt small_x small_x tt tt tt 10%Q
    (mk_stepsize 1%Q (Some 2%Q) None None (MaxConst 3%Q) None (Some [4%Q])) linear_sched.
Example C90_run_example :
  snd linear_run = Done /\ (forall c, In c (solves (snd (fst linear_run))) -> linear_solve c) /\
  map (fun c => (Qred (sv_t c), Qred (sv_dt c))) (solves (snd (fst linear_run))) =
    [(1, 1); (3, 2); (4, 1); (6, 2); (9, 3); (10, 1)]%Q.
Proof.
  split; [vm_compute; reflexivity|]. split; [|vm_compute; reflexivity].
  assert (E : map (fun c => (sv_guess c, sv_out c)) (solves (snd (fst linear_run))) =
    (small_x, solved_at 1) :: repeat (small_y, solved_at 0) 5) by (vm_compute; reflexivity).
  generalize dependent (solves (snd (fst linear_run))). intros l E.
  intros c Hc. apply (in_map (fun c => (sv_guess c, sv_out c))) in Hc. rewrite E in Hc. clear E l.
  assert (H0 : newton 2 [[(1%nat, 4)]] small_r 1 0 30 small_y (small_y, 0%nat, true)) by (constructor; left; rewrite small_size; Lra.lra).
  unfold linear_solve. destruct c as [g p t d T Tn dens out]. cbn in *.
  exists 2%nat, [[(1%nat, 4)]], small_r, 1, 0, 30%nat.
  destruct Hc as [Hc|Hc]; [exists 1%nat|exists 0%nat; assert (Hc' : (small_y, solved_at 0) = (g, out)) by tauto; clear Hc; rename Hc' into Hc];
    injection Hc as <- <-; (split; [exact small_affine|]); (split; [Lra.lra|]); (split; [lia|]); (split; [reflexivity|]).
  - exact small_newton.
  - exact H0.
Qed.
