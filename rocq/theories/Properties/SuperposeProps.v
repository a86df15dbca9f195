(** C86: linear problems superpose. *)
From Coq Require Import Reals ZArith List Bool Lra Lia String.
From Verif Require Import Base.Exc Base.Dual Model.Materials Model.Laws Model.Theta Model.Exports Model.Forms Model.Quantities
  Model.NonlinearProblem Spec.BalanceSpec Spec.NeutralSpec Spec.SuperposeSpec Proofs.ThetaProofs Proofs.FormProofs
  Proofs.SuperposeProofs Properties.FormProps Properties.TrapProps Properties.NeutralProps.
Import ListNotations.
Local Open Scope R_scope.
Local Open Scope list_scope.

Section Props.
Context {P : Type}.
Implicit Types (M : mesh P).

(** Without traps: the residual of the combination of two states (with the combination of their sources, fluxes,
    external concentrations and pressures) is the combination of the residuals. *)
Theorem C86_superposition M a b m1 m2 m ms T dt soret F1 F2 :
  mix_problem a b m1 m2 m -> linear_class (mb_class m) ms ->
  define_variational_problem M m1 ms T dt [] soret = Ok F1 -> define_variational_problem M m2 ms T dt [] soret = Ok F2 ->
  exists F, define_variational_problem M m ms T dt [] soret = Ok F /\ assemble M F = a * assemble M F1 + b * assemble M F2.
Proof. intros Hm Hl. exact (problem_mix M a b m1 m2 m ms T Hm Hl dt soret F1 F2). Qed.

(** What the Newton solver makes zero, with Dirichlet conditions on the same degrees of freedom. *)
Theorem C86_dirichlet a b rows1 rows2 rows (r1 r2 r x1 x2 x : nat -> R) i :
  mix_rows a b rows1 rows2 rows -> r i = a * r1 i + b * r2 i -> x i = a * x1 i + b * x2 i ->
  problem_F rows r x i = a * problem_F rows1 r1 x1 i + b * problem_F rows2 r2 x2 i.
Proof.
  intros H Hr Hx. unfold problem_F. pose proof (boundary_mix a b rows1 rows2 rows i H) as E.
  destruct (boundary_value rows1 i), (boundary_value rows2 i), (boundary_value rows i); try contradiction; [|exact Hr].
  rewrite E, Hx. ring.
Qed.

(** The heat problem with constant properties. *)
Theorem C86_heat M a b transient dt (T1 T2 T N1 N2 N v : field P) ms s1 s2 s b1 b2 bs F1 F2 :
  mix a b T1 T2 T -> mix a b N1 N2 N -> (forall x, In x ms -> constant_thermal (attrs x)) ->
  Forall3 (mix_source a b) s1 s2 s -> Forall3 (mix_heat_bc a b) b1 b2 bs ->
  heat_form M transient dt T1 N1 v ms s1 b1 = Ok F1 -> heat_form M transient dt T2 N2 v ms s2 b2 = Ok F2 ->
  exists F, heat_form M transient dt T N v ms s bs = Ok F /\ assemble M F = a * assemble M F1 + b * assemble M F2.
Proof. exact (heat_mix M a b transient dt T1 T2 T N1 N2 N v ms s1 s2 s b1 b2 bs F1 F2). Qed.

(** The derived quantities (fluxes with Soret, totals, averages, point values, adsorbed hydrogen) superpose. *)
Theorem C86_quantities M V a b x y z (q : dquantity P) v1 v2 :
  mix_context a b x y z -> is_extremum (d_kind q) = false ->
  compute M V x q = Ok v1 -> compute M V y q = Ok v2 -> compute M V z q = Ok (a * v1 + b * v2).
Proof.
  intros (Hf & D1 & D2 & C1 & C2 & Q1 & Q2 & T1 & T2 & N1 & N2 & S1 & S2) Hk.
  assert (Hi : forall m w, integral M m (fun p => val (x_function z p) * w p)
    = a * integral M m (fun p => val (x_function x p) * w p) + b * integral M m (fun p => val (x_function y p) * w p)).
  { intros m w. apply integral_mix. intros p _. destruct (Hf p) as [-> _]. ring. }
  assert (Hav : forall m w n v1 v2, rdiv (integral M m (fun p => val (x_function x p) * w p)) n = Ok v1 ->
    rdiv (integral M m (fun p => val (x_function y p) * w p)) n = Ok v2 ->
    rdiv (integral M m (fun p => val (x_function z p) * w p)) n = Ok (a * v1 + b * v2)).
  { intros m w n u1 u2. unfold rdiv. destruct (Req_EM_T n 0); [discriminate|]. intros H1 H2. apply Ok_inj in H1, H2. subst u1 u2.
    f_equal. rewrite Hi. field. assumption. }
  assert (Hto : forall m w k v1 v2, Ok (integral M m (fun p => val (x_function x p) * w p) * k) = Ok v1 ->
    Ok (integral M m (fun p => val (x_function y p) * w p) * k) = Ok v2 ->
    Ok (integral M m (fun p => val (x_function z p) * w p) * k) = Ok (a * v1 + b * v2)).
  { intros m w k u1 u2 H1 H2. apply Ok_inj in H1, H2. subst u1 u2. f_equal. rewrite Hi. ring. }
  assert (Hprop : prop_of x (d_field q) = prop_of z (d_field q) /\ prop_of y (d_field q) = prop_of z (d_field q)).
  { unfold prop_of. now rewrite D1, D2, C1, C2. }
  assert (Hfl : forall w v1 v2,
    (let! prop := prop_of x (d_field q) in Ok (flux_integral M x prop w (d_field q) (d_id q) * angle q)) = Ok v1 ->
    (let! prop := prop_of y (d_field q) in Ok (flux_integral M y prop w (d_field q) (d_id q) * angle q)) = Ok v2 ->
    (let! prop := prop_of z (d_field q) in Ok (flux_integral M z prop w (d_field q) (d_id q) * angle q)) = Ok (a * v1 + b * v2)).
  { intros w u1 u2. destruct Hprop as [-> ->]. destruct (prop_of z (d_field q)) as [prop|e]; cbn [bind]; [|discriminate].
    intros H1 H2. apply Ok_inj in H1, H2. subst u1 u2. f_equal. unfold flux_integral. rewrite S1, S2, Q1, Q2, T1, T2, N1, N2.
    assert (E1 : integral M (Ds (d_id q)) (fun p => prop p * w p * dot (q_dim M) (grd (x_function z p)) (x_n z p))
      = a * integral M (Ds (d_id q)) (fun p => prop p * w p * dot (q_dim M) (grd (x_function x p)) (x_n z p))
        + b * integral M (Ds (d_id q)) (fun p => prop p * w p * dot (q_dim M) (grd (x_function y p)) (x_n z p))).
    { apply integral_mix. intros p _. rewrite (dot_mix a b (q_dim M) (grd (x_function x p)) (grd (x_function y p))); [ring|].
      intros i. now destruct (Hf p) as [_ ->]. }
    destruct (x_soret z && is_solute (d_field q))%bool; rewrite E1; [|ring].
    match goal with |- (_ + integral M ?m ?e) * _ = a * ((_ + integral M _ ?e1) * _) + b * ((_ + integral M _ ?e2) * _) =>
      rewrite (integral_mix M a b m e1 e2 e); [ring|] end.
    intros p _. destruct (Hf p) as [-> _]. unfold Rdiv. ring. }
  unfold compute. destruct (d_kind q); try discriminate; auto.
  - destruct (d_point q) as [[p s]|]; [|discriminate]. intros H1 H2. apply Ok_inj in H1, H2. subst v1 v2. f_equal. apply (Hf p).
  - intros H1 H2. apply Ok_inj in H1, H2. subst v1 v2. f_equal. apply integral_mix. intros p _. apply (Hf p).
Qed.
End Props.
Print Assumptions C86_superposition.
Print Assumptions C86_dirichlet.
Print Assumptions C86_heat.
Print Assumptions C86_quantities.

(** ** Examples: two loads of a two-material sample with Soret, decay and fluxes, and twice the first minus the second. *)
Definition load (k : R) : mobile nat :=
  mkMobile (ClassTheta (fun p => INR p) (map attrs Q_mats)) (fun p => mkDual (k + INR p) (fun _ => k)) (fun _ => dconst k)
    (fun p => mkDual 1 (fun _ => 2)) [mkSource (IdMany [1; 2]%Z) (fun p => k * INR p) None; mkSource (IdOne 2) (fun _ => 0) (Some 3)]
    [BFlux false [1; 2]%Z (MassFlux (fun _ => 3) (fun p => k)); BFlux true [1%Z] (FluxBC (fun _ => k));
     BFlux false [2%Z] (RecombinationFlux (fun _ => 2) (fun _ => 1) (EInt 1)); BFlux false [1%Z] (DissociationFlux (fun _ => 2) (fun _ => 1) (fun p => k + 1))].
Definition mixed_load : mobile nat :=
  mkMobile (ClassTheta (fun p => INR p) (map attrs Q_mats)) (fun p => mkDual (-1 + INR p) (fun _ => -1)) (fun _ => dconst (-1))
    (fun p => mkDual 1 (fun _ => 2)) [mkSource (IdMany [1; 2]%Z) (fun p => - INR p) None; mkSource (IdOne 2) (fun _ => 0) (Some 3)]
    [BFlux false [1; 2]%Z (MassFlux (fun _ => 3) (fun p => -1)); BFlux true [1%Z] (FluxBC (fun _ => 7));
     BFlux false [2%Z] (RecombinationFlux (fun _ => 2) (fun _ => 1) (EInt 1)); BFlux false [1%Z] (DissociationFlux (fun _ => 2) (fun _ => 1) (fun p => 0))].
Example C86_example : let M := mesh_ty Cylindrical in
  mix_problem 2 (-1) (load 1) (load 3) mixed_load /\ linear_class (mb_class mixed_load) Q_mats /\
  (exists F1, define_variational_problem M (load 1) Q_mats T_slope (Some 2) [] true = Ok F1) /\
  (exists F2, define_variational_problem M (load 3) Q_mats T_slope (Some 2) [] true = Ok F2) /\
  mix_rows 2 (-1) [[(0%nat, 1); (1%nat, 2)]; [(3%nat, 5)]] [[(0%nat, 1); (1%nat, 0)]; [(3%nat, 4)]] [[(0%nat, 1); (1%nat, 4)]; [(3%nat, 6)]].
Proof.
  intros M. split.
  - do 4 (split; [reflexivity|]). split; [intros p; cbn; split; [ring|intros; ring]|]. split; [intros p; cbn; split; [ring|intros; ring]|]. split.
    + repeat constructor; intros p; cbn; ring.
    + repeat constructor; intros p; cbn; ring.
  - split; [split; intros m [<-|[<-|[]]]; reflexivity|]. split; [eexists; reflexivity|]. split; [eexists; reflexivity|].
    repeat constructor; cbn; ring.
Qed.
Example C86_heat_example : let M := mesh_ty Spherical in
  (forall x, In x two_mats -> constant_thermal (attrs x)) /\
  Forall3 (mix_heat_bc 2 (-1)) [([1; 2]%Z, ConvectiveFlux (fun _ : nat => 3) (fun _ => 10)); ([1]%Z, FluxBC (fun _ => 2))]
    [([1; 2]%Z, ConvectiveFlux (fun _ => 3) (fun _ => 4)); ([1]%Z, FluxBC (fun _ => 1))]
    [([1; 2]%Z, ConvectiveFlux (fun _ => 3) (fun _ => 16)); ([1]%Z, FluxBC (fun _ => 3))] /\
  (exists F, heat_form M true 2 ones ones ones two_mats [mkSource (IdOne 1) (fun _ => 3) None]
    [([1; 2]%Z, ConvectiveFlux (fun _ => 3) (fun _ => 10)); ([1]%Z, FluxBC (fun _ => 2))] = Ok F) /\
  mix_context 2 (-1) (mkCtx (fun p => mkDual 1 (fun _ => 3)) (fun _ => 2) (fun _ => 2) (fun _ => 5) (fun _ => dconst 300) (fun _ _ => 1) true)
    (mkCtx (fun p => mkDual 4 (fun _ => 1)) (fun _ => 2) (fun _ => 2) (fun _ => 5) (fun _ => dconst 300) (fun _ _ => 1) true)
    (mkCtx (fun p : nat => mkDual (-2) (fun _ => 5)) (fun _ => 2) (fun _ => 2) (fun _ => 5) (fun _ => dconst 300) (fun _ _ => 1) true).
Proof.
  intros M. split; [intros x [<-|[<-|[]]]; (split; [eexists; reflexivity|split; intros f; discriminate])|].
  split; [repeat constructor; intros p; cbn; ring|]. split; [eexists; reflexivity|].
  split; [intros p; cbn; split; [ring|intros; ring]|]. cbn. repeat split.
Qed.

(** Outside the claim: with Henry's law the equations are not linear in the unknown (c = S theta^2). *)
Definition henry_load (k : R) : mobile nat :=
  mkMobile (ClassTheta (fun _ => 1) (map attrs henry_mats)) (fun _ => dconst k) (fun _ => dconst 0) ones [] [].
Theorem C86_henry_refuted : exists (M : mesh nat) m1 m ms T dt F1 F,
  mix_problem 2 0 m1 m1 m /\ define_variational_problem M m1 ms T dt [] false = Ok F1 /\
  define_variational_problem M m ms T dt [] false = Ok F /\ assemble M F <> 2 * assemble M F1 + 0 * assemble M F1.
Proof.
  exists (mesh_ty Cartesian), (henry_load 1), (henry_load 2), henry_mats, T400, (Some 1). do 2 eexists. split.
  - do 4 (split; [reflexivity|]). split; [intros p; cbn; split; [ring|intros; ring]|]. split; [intros p; cbn; split; [ring|intros; ring]|].
    split; constructor.
  - split; [reflexivity|]. split; [reflexivity|]. unfold assemble, integral, points. cbn. rewrite !exp_zero. lra.
Qed.
Print Assumptions C86_henry_refuted.
