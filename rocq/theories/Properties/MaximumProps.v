(** C92: bounds on concentrations and temperatures. *)
From Coq Require Import Reals ZArith List Bool Arith Lra Lia.
From Verif Require Import Base.Exc Base.Dual Model.Materials Model.Laws Model.Theta Model.Forms Model.NonlinearProblem
  Spec.PhysSpec Spec.BalanceSpec Spec.NewtonSpec Spec.MaximumSpec Proofs.LawProofs Proofs.ThetaProofs Proofs.FormProofs Proofs.NewtonProofs Proofs.MaximumProofs.
Import ListNotations.
Local Open Scope R_scope.
Local Open Scope list_scope.

(** One transient step of hydrogen transport without traps, Soret effect and chemical potential, on any mesh: if the previous
    concentration and the imposed values are on one side of m, sources and fluxes bring back what is on the other side, and the
    unknowns are coupled with the right sign, then the solution is on this side of m. *)
Theorem C92_hydrogen {P} s m (M : mesh P) mb ms T dt N phi r bcs x :
  nonnegative_basis M N phi -> seen M ms N phi -> mb_class mb = ClassMobile -> positive_temperature M T -> 0 < dt ->
  field_within s m M (mb_previous mb) -> (forall src, In src (mb_sources mb) -> source_within s m M src) ->
  (forall b, In b (mb_bcs mb) -> bc_within s m M T b) -> imposed_within s m bcs ->
  hydrogen_residual M mb ms T (Some dt) false N phi r -> cooperative N r -> solves N bcs r x ->
  forall i, (i < N)%nat -> within s m (x i).
Proof.
  intros HB Hseen Hcl HT Hdt Hp Hs Hb Hg Hr Hc Hx. apply (comparison s m N bcs r x Hc); auto.
  intros i c Hi Hn. eapply hydrogen_flat; eauto.
Qed.
(** Heat transfer, with any thermal properties. *)
Theorem C92_heat {P} s m (M : mesh P) dt T_n ms sources fluxes N phi r bcs x :
  nonnegative_basis M N phi -> seen M ms N phi -> 0 < dt ->
  (forall y, In y ms -> positive_prop (m_heat (attrs y)) /\ positive_prop (m_rho (attrs y))) ->
  field_within s m M T_n -> (forall src, In src sources -> heat_source_within s m M src) ->
  (forall b, In b fluxes -> heat_bc_within s m M b) -> imposed_within s m bcs ->
  heat_residual M true dt T_n ms sources fluxes N phi r -> cooperative N r -> solves N bcs r x ->
  forall i, (i < N)%nat -> within s m (x i).
Proof.
  intros HB Hseen Hdt Hm Hp Hs Hb Hg Hr Hc Hx. apply (comparison s m N bcs r x Hc); auto.
  intros i c Hi Hn. eapply heat_flat; eauto.
Qed.

(** Linear elements on a segment: the coupling has the right sign when h^2 <= 6 D dt in every element. *)
Theorem C92_segment s m K X rule vol left right mb ms T dt r bcs x :
  (0 < K)%nat -> (forall e, (e < K)%nat -> X e < X (S e)) -> exact_2 rule ->
  (forall e, (e < K)%nat -> exists y, In y ms /\ In (vol e) (ids (m_id (attrs y)))) ->
  let M := segment K X rule vol left right in
  mb_class mb = ClassMobile -> positive_temperature M T -> 0 < dt -> step_large_enough K X rule vol left right ms T dt ->
  field_within s m M (mb_previous mb) ->
  (forall src, In src (mb_sources mb) -> s_decay src = None /\ source_within s m M src) ->
  (forall b, In b (mb_bcs mb) -> bc_within s m M T b) -> imposed_within s m bcs ->
  hydrogen_residual M mb ms T (Some dt) false (S K) (linear K X) r -> solves (S K) bcs r x ->
  forall i, (i < S K)%nat -> within s m (x i).
Proof.
  intros HK HX HR Hcov M Hcl HT Hdt Hstep Hp Hs Hb Hg Hr Hx.
  apply (C92_hydrogen s m M mb ms T dt (S K) (linear K X) r bcs x); auto.
  - now apply segment_basis.
  - now apply segment_seen.
  - intros src Hin. now apply Hs.
  - apply (segment_cooperative K X rule vol left right HK HX HR mb ms T dt r); auto.
    + intros src Hin. now apply Hs.
    + intros b Hin. specialize (Hb b Hin). destruct b; auto.
Qed.

(** All the steps of a run: the bound of the initial concentration is kept. *)
Theorem C92_run s m K X rule vol left right (mb : nat -> mobile pt) ms (T : nat -> temperature pt) dt r bcs (x : nat -> nat -> R) :
  (0 < K)%nat -> (forall e, (e < K)%nat -> X e < X (S e)) -> exact_2 rule ->
  (forall e, (e < K)%nat -> exists y, In y ms /\ In (vol e) (ids (m_id (attrs y)))) ->
  let M := segment K X rule vol left right in
  (forall i, (i < S K)%nat -> within s m (x 0%nat i)) ->
  (forall k, mb_class (mb k) = ClassMobile /\ mb_previous (mb k) = span (S K) (linear K X) (x k) /\ positive_temperature M (T k) /\
    0 < dt k /\ step_large_enough K X rule vol left right ms (T k) (dt k) /\
    (forall src, In src (mb_sources (mb k)) -> s_decay src = None /\ source_within s m M src) /\
    (forall b, In b (mb_bcs (mb k)) -> bc_within s m M (T k) b) /\ imposed_within s m (bcs k) /\
    hydrogen_residual M (mb k) ms (T k) (Some (dt k)) false (S K) (linear K X) (r k) /\ solves (S K) (bcs k) (r k) (x (S k))) ->
  forall k, (forall i, (i < S K)%nat -> within s m (x k i)) /\ field_within s m M (span (S K) (linear K X) (x k)).
Proof.
  intros HK HX HR Hcov M H0 Hstep.
  assert (Hx : forall k i, (i < S K)%nat -> within s m (x k i)).
  { induction k as [|k IH]; [exact H0|]. destruct (Hstep k) as (Hcl & Hprev & HT & Hdt & Hl & Hs & Hb & Hg & Hr & Hsol).
    apply (C92_segment s m K X rule vol left right (mb k) ms (T k) (dt k) (r k) (bcs k)); auto.
    rewrite Hprev. apply span_within; [now apply segment_basis|exact IH]. }
  intros k. split; [apply Hx|]. apply span_within; [now apply segment_basis|apply Hx].
Qed.

(** One element of length h, D constant, concentration 1 imposed at the left, 0 before the step. *)
Definition D_mat (D : R) : mat_obj :=
  mkMatObj 0 (mkMaterial (IdOne 1) None (Const D) (Const 0) None None None None None BNone None Sievert).
Definition one_element (h : R) (rule : list (R * R)) : mesh pt := segment 1 (fun i => INR i * h) rule (fun _ => 1%Z) 1 2.
Definition empty_before : mobile pt := mkMobile ClassMobile (fun _ => dconst 0) (fun _ => dconst 0) (fun _ => dconst 0) [] [].
Definition T300 : temperature pt := mkTemp (fun _ => dconst 300) (fun _ => dconst 300).
Definition element_residual (h : R) (rule : list (R * R)) (D dt : R) (x : nat -> R) (i : nat) : R :=
  match define_variational_problem (one_element h rule)
          (mkMobile ClassMobile (span 2 (linear 1 (fun i => INR i * h)) x) (fun _ => dconst 0) (linear 1 (fun i => INR i * h) i) [] [])
          [D_mat D] T300 (Some dt) [] false with
  | Ok F => assemble (one_element h rule) F
  | Err _ => 0
  end.
Definition left_one : list (list (nat * R)) := [[(0%nat, 1)]].

Lemma element_residual_ok h rule D dt :
  hydrogen_residual (one_element h rule) empty_before [D_mat D] T300 (Some dt) false 2 (linear 1 (fun i => INR i * h)) (element_residual h rule D dt).
Proof. intros x i _. eexists. split; [reflexivity|]. reflexivity. Qed.
Lemma element_residual_1 h rule D dt x : 0 < h -> 0 < dt -> exact_2 rule ->
  element_residual h rule D dt x 1 = h / dt * (x 0%nat / 6 + x 1%nat / 3) + D / h * (x 1%nat - x 0%nat).
Proof.
  intros Hh Hdt HR.
  assert (HX : forall e, (e < 1)%nat -> INR e * h < INR (S e) * h) by (intros e He; rewrite S_INR; nra).
  destruct (element_residual_ok h rule D dt x 1%nat ltac:(lia)) as (F & HF & <-).
  destruct (hydrogen_split (one_element h rule) (mkMobile ClassMobile (span 2 (linear 1 (fun i => INR i * h)) x) (fun _ => dconst 0) (linear 1 (fun i => INR i * h) 1) [] []) [D_mat D] T300 (Some dt) F eq_refl HF) as [_ ->].
  unfold create_mobile_source_form, create_fluxes_form. cbn [mb_sources mb_bcs flat_map]. rewrite !assemble_nil, !Rplus_0_r.
  unfold sum_over. cbn [map D_mat attrs m_id ids D0_of ED_of m_D0 m_ED mb_solution mb_previous mb_test]. rewrite !rsum_cons, !rsum_nil, !Rplus_0_r.
  unfold one_element. rewrite diffusion_segment, integral_elements. cbn [seq]. rewrite sum_over_cons. unfold sum_over at 2. cbn [map]. rewrite rsum_nil, Rplus_0_r.
  rewrite Z.eqb_refl.
  assert (HL : length_of (fun i => INR i * h) 0 = h) by (unfold length_of; cbn [INR]; ring). rewrite HL.
  rewrite (sum_over_ext _ _ (fun q => h / dt * (x 0%nat * (snd q * (fst q * (1 - fst q)))) + (h / dt * x 1%nat * (snd q * fst q ^ 2) + D / h * (x 1%nat - x 0%nat) * snd q))).
  - unfold sum_over. rewrite !rsum_map_plus, !rsum_map_scale, (rule_moment rule HR). destruct HR as (_ & H1 & _ & H3).
    change (map (fun x0 : R * R => snd x0) rule) with (map snd rule). rewrite H1, H3. field. split; lra.
  - intros q Hq.
    assert (Hp : point (one_element h rule) (Cell 0 (fst q) (snd q))) by (left; apply segment_cells; [lia|exists 0%nat, q; auto]).
    destruct (span_segment 1 (fun i => INR i * h) rule (fun _ => 1%Z) 1 2 ltac:(lia) HR x _ Hp) as [-> Hg]. rewrite Hg.
    cbn [element local linear val grd Nat.eqb T300 T_T dconst]. rewrite HL. unfold Rdiv at 2 3. rewrite !Ropp_0, !Rmult_0_l, exp_0. field. split; lra.
Qed.

(** The condition is needed: below it the concentration is negative, although 0 before and 1 imposed. *)
Theorem C92_small_step_refuted h rule D dt : 0 < h -> 0 <= D -> 0 < dt -> exact_2 rule -> 6 * D * dt < h ^ 2 ->
  hydrogen_residual (one_element h rule) empty_before [D_mat D] T300 (Some dt) false 2 (linear 1 (fun i => INR i * h)) (element_residual h rule D dt) /\
  (exists x, solves 2 left_one (element_residual h rule D dt) x) /\
  forall x, solves 2 left_one (element_residual h rule D dt) x -> x 0%nat = 1 /\ x 1%nat < 0.
Proof.
  intros Hh HD Hdt HR Hs. split; [apply element_residual_ok|].
  assert (Hpos : 0 < h / (3 * dt) + D / h).
  { apply Rplus_lt_le_0_compat; [apply Rdiv_lt_0_compat; lra|]. apply Rmult_le_pos; [exact HD|]. left. now apply Rinv_0_lt_compat. }
  assert (E : forall x, solves 2 left_one (element_residual h rule D dt) x <-> x 0%nat = 1 /\ x 1%nat = (D / h - h / (6 * dt)) / (h / (3 * dt) + D / h)).
  { intros x. split.
    - intros H. pose proof (H 0%nat ltac:(lia)) as H0. pose proof (H 1%nat ltac:(lia)) as H1. unfold problem_F in H0, H1. cbn in H0. cbn [boundary_value left_one find fst Nat.eqb option_map] in H1.
      rewrite element_residual_1 in H1 by assumption. assert (E0 : x 0%nat = 1) by lra. split; [exact E0|]. rewrite E0 in H1.
      apply (Rmult_eq_reg_r (h / (3 * dt) + D / h)); [|lra].
      transitivity (D / h - h / (6 * dt)); [|field; split; [|split]; try lra; intros E; apply (Rlt_irrefl 0); rewrite <- E at 2; nra].
      apply Rminus_diag_uniq. rewrite <- H1. field. split; lra.
    - intros [E0 E1] i Hi. unfold problem_F. destruct i as [|[|i]]; [cbn; lra| |lia]. cbn [boundary_value left_one find fst Nat.eqb option_map].
      rewrite element_residual_1, E0, E1 by assumption. set (a := h / (3 * dt) + D / h) in *. set (b := D / h - h / (6 * dt)).
      replace (h / dt * (1 / 6 + b / a / 3) + D / h * (b / a - 1)) with (b / a * a - b) by (unfold a, b; field; repeat split; lra || (intros E; apply (Rlt_irrefl 0); rewrite <- E at 2; nra)).
      field. lra. }
  split.
  - exists (fun i => match i with O => 1 | _ => (D / h - h / (6 * dt)) / (h / (3 * dt) + D / h) end). now apply E.
  - intros x Hx. apply E in Hx. destruct Hx as [E0 E1]. split; [exact E0|]. rewrite E1. unfold Rdiv at 1.
    assert (Hi : 0 < / (h / (3 * dt) + D / h)) by now apply Rinv_0_lt_compat.
    enough (D / h - h / (6 * dt) < 0) by nra.
    replace (D / h - h / (6 * dt)) with (- ((h ^ 2 - 6 * D * dt) * / (6 * dt * h))) by (field; split; lra).
    assert (0 < (h ^ 2 - 6 * D * dt) * / (6 * dt * h)); [|lra]. apply Rmult_lt_0_compat; [lra|]. apply Rinv_0_lt_compat. nra.
Qed.

(** Concrete cases. *)
Definition simpson : list (R * R) := [(0, 1 / 6); (1 / 2, 4 / 6); (1, 1 / 6)].
Lemma simpson_exact : exact_2 simpson.
Proof.
  split; [|unfold simpson; cbn [map fst snd]; rewrite !rsum_cons, !rsum_nil; split; [|split]; field].
  intros q [<-|[<-|[<-|[]]]]; cbn [fst snd]; lra.
Qed.
(** One element of length 1, D = 1, dt = 1: 5/8 at the right, between 0 and 1. *)
Definition x_5_8 (i : nat) : R := match i with O => 1 | _ => 5 / 8 end.
Example C92_segment_example s :
  let X := fun i => INR i * 1 in
  let M := segment 1 X simpson (fun _ => 1%Z) 1 2 in
  let m := match s with Above => 0 | Below => 1 end in
  ((0 < 1)%nat /\ (forall e, (e < 1)%nat -> X e < X (S e)) /\ exact_2 simpson /\
   (forall e, (e < 1)%nat -> exists y, In y [D_mat 1] /\ In 1%Z (ids (m_id (attrs y))))) /\
  mb_class empty_before = ClassMobile /\ positive_temperature M T300 /\ step_large_enough 1 X simpson (fun _ => 1%Z) 1 2 [D_mat 1] T300 1 /\
  field_within s m M (mb_previous empty_before) /\ imposed_within s m left_one /\
  hydrogen_residual M empty_before [D_mat 1] T300 (Some 1) false 2 (linear 1 X) (element_residual 1 simpson 1 1) /\
  solves 2 left_one (element_residual 1 simpson 1 1) x_5_8.
Proof.
  cbv zeta. split; [|split; [reflexivity|split; [|split; [|split; [|split; [|split]]]]]].
  - split; [lia|]. split; [intros e _; rewrite S_INR; lra|]. split; [apply simpson_exact|].
    intros e _. exists (D_mat 1). split; now left.
  - intros p _. cbn. lra.
  - intros y D0 ED p [<-|[]] H1 H2 Hp _. cbn in H1, H2. injection H1 as <-. injection H2 as <-.
    apply segment_cells in Hp; [|lia]. destruct Hp as (e & q & He & _ & ->). replace e with 0%nat by lia.
    unfold length_of, arrhenius. cbn [element INR T300 T_T dconst val]. replace (0 / (boltzmann * 300)) with 0 by (unfold Rdiv; ring). rewrite exp_0. lra.
  - intros p _. destruct s; cbn; lra.
  - intros b q [<-|[]] [<-|[]]. destruct s; cbn; lra.
  - apply element_residual_ok.
  - intros i Hi. unfold problem_F. destruct i as [|[|i]]; [cbn; lra| |lia]. cbn [boundary_value left_one find fst Nat.eqb option_map].
    rewrite element_residual_1 by (lra || apply simpson_exact). cbn [x_5_8]. field.
Qed.
(** The same with dt = 1/12: -1/5. *)
Example C92_small_step_example x : solves 2 left_one (element_residual 1 simpson 1 (1 / 12)) x -> x 1%nat = - (1 / 5).
Proof.
  intros H. pose proof (H 0%nat ltac:(lia)) as H0. pose proof (H 1%nat ltac:(lia)) as H1. unfold problem_F in H0, H1. cbn in H0.
  cbn [boundary_value left_one find fst Nat.eqb option_map] in H1. rewrite element_residual_1 in H1 by (lra || apply simpson_exact). lra.
Qed.
(** Data that keep a bound: an exchange with c_ext on its side, dissociation and recombination of order 1 above 0, decay above 0;
    recombination of order 2 does not. *)
Example C92_data_example (M : mesh pt) p : In p (q_facets M) -> q_surface M p = 1%Z ->
  bc_within Above 2 M T300 (BFlux false [1%Z] (MassFlux (fun _ => 3) (fun _ => 4))) /\
  bc_within Below 5 M T300 (BFlux false [1%Z] (MassFlux (fun _ => 3) (fun _ => 4))) /\
  bc_within Above 0 M T300 (BFlux false [1%Z] (DissociationFlux (fun _ => 3) (fun _ => 1) (fun _ => 4))) /\
  bc_within Above 0 M T300 (BFlux false [1%Z] (RecombinationFlux (fun _ => 3) (fun _ => 1) (EInt 1))) /\
  source_within Above 0 M (mkSource (IdOne 1) (fun _ => 0) (Some 2)) /\
  ~ bc_within Above 0 M T300 (BFlux false [1%Z] (RecombinationFlux (fun _ => 3) (fun _ => 1) (EInt 2))).
Proof.
  intros Hp Hz. assert (Ha : forall T, 0 < arrhenius 3 1 T) by (intros T; apply arrhenius_pos; lra).
  cbn [bc_within]. repeat split; try (intros q c _ _ Hc; cbn [within] in Hc).
  - cbn. lra.
  - cbn. lra.
  - cbn [pushes flux_into]. pose proof (Ha (val (T_T T300 q))). lra.
  - cbn [pushes flux_into power]. pose proof (Ha (val (T_T T300 q))). nra.
  - cbn. lra.
  - intros H. specialize (H p (-1) Hp ltac:(rewrite Hz; now left) ltac:(cbn; lra)). cbn [pushes flux_into power pow] in H. pose proof (Ha (val (T_T T300 p))). nra.
Qed.
(** Heat: one basis function equal to 1 on one point, previous temperature 300, heated by an exchange with 500. *)
Example C92_heat_example :
  let M := mkMesh [0]%nat [1]%nat (fun _ => 1) (fun _ => 1%Z) (fun _ => 1%Z) (fun _ => 0) 1 Cartesian in
  let phi := fun _ (_ : nat) => dconst 1 in
  let ms := [mkMatObj 0 (mkMaterial (IdOne 1) None (Const 1) (Const 0) None None (Some (Const 3)) (Some (Fun (fun T => 1 + T ^ 2))) (Some (Const 7)) BNone None Sievert)] in
  let fl := [([1%Z], ConvectiveFlux (fun _ => 2) (fun _ => 500))] in
  nonnegative_basis M 1 phi /\ seen M ms 1 phi /\
  (forall y, In y ms -> positive_prop (m_heat (attrs y)) /\ positive_prop (m_rho (attrs y))) /\
  field_within Above 300 M (fun _ => dconst 300) /\ (forall b, In b fl -> heat_bc_within Above 300 M b) /\
  (forall F x, heat_form M true 1 (span 1 phi x) (fun _ => dconst 300) (phi 0%nat) ms [] fl = Ok F ->
   assemble M F = 7 * (1 + x 0%nat ^ 2) * (x 0%nat - 300) - 2 * (500 - x 0%nat)) /\
  cooperative 1 (fun x _ => 7 * (1 + x 0%nat ^ 2) * (x 0%nat - 300) - 2 * (500 - x 0%nat)).
Proof.
  cbv zeta. split; [|split; [|split; [|split; [|split; [|split]]]]].
  - split; [intros; cbn; lra|]. split; [intros; cbn; lra|]. split; intros; cbn; rewrite ?rsum_cons; cbn; lra.
  - intros i _. eexists _, 0%nat. split; [left; reflexivity|]. split; [now left|]. split; [now left|]. cbn. lra.
  - intros y [<-|[]]. cbn [attrs m_heat m_rho positive_prop]. split; [|lra]. intros T. pose proof (pow2_ge_0 T). lra.
  - intros p _. cbn. lra.
  - intros b [<-|[]] p c _ _ Hc. cbn in *. lra.
  - intros F x H. unfold heat_form, heat_material_form in H. cbn [sum_forms attrs m_thermal m_heat m_rho value_at bind] in H. apply Ok_inj in H. subst F.
    unfold assemble, integral, points. cbn. unfold convective_form. cbn. field.
  - intros x y i Hi E _. replace i with 0%nat in E by lia. rewrite E. lra.
Qed.

Print Assumptions C92_hydrogen.
Print Assumptions C92_heat.
Print Assumptions C92_segment.
Print Assumptions C92_run.
Print Assumptions C92_small_step_refuted.
