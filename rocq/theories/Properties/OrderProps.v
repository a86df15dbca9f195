(** C97: more hydrogen supplied never gives less hydrogen anywhere. *)
From Coq Require Import Reals ZArith List Bool Arith Lra Lia.
From Verif Require Import Base.Exc Base.Dual Model.Materials Model.Laws Model.Theta Model.Forms Model.NonlinearProblem
  Spec.PhysSpec Spec.BalanceSpec Spec.NewtonSpec Spec.MaximumSpec Spec.OrderSpec Proofs.LawProofs Proofs.FormProofs Proofs.MaximumProofs
  Proofs.MergeProofs Proofs.ThetaProofs Proofs.OrderProofs Properties.MaximumProps.
Import ListNotations.
Local Open Scope R_scope.

(** One time step, on any mesh where raising one unknown never raises the residual of another (as in C92). *)
Theorem C97_step {P} lo (M : mesh P) mb1 mb2 ms T dt N phi r1 r2 bcs1 bcs2 x1 x2 :
  nonnegative_basis M N phi -> seen M ms N phi -> positive_temperature M T -> 0 < dt -> data_order lo M T mb1 mb2 ->
  imposed_order N bcs1 bcs2 ->
  hydrogen_residual M mb1 ms T (Some dt) false N phi r1 -> hydrogen_residual M mb2 ms T (Some dt) false N phi r2 ->
  cooperative N r1 -> solves N bcs1 r1 x1 -> solves N bcs2 r2 x2 -> (forall i, (i < N)%nat -> lo <= x2 i) ->
  forall i, (i < N)%nat -> x1 i <= x2 i.
Proof.
  intros HB Hs HT Hdt Hd Hg Hr1 Hr2 Hc H1 H2 Hlo. apply (order_principle N bcs1 bcs2 r1 r2); auto.
  intros i d Hi Hpos. apply (hydrogen_shift lo M mb1 mb2 ms T dt N phi r1 r2); auto.
Qed.

(** Linear elements on a segment. *)
Theorem C97_segment lo K X rule vol left right mb1 mb2 ms T dt r1 r2 bcs1 bcs2 x1 x2 :
  (0 < K)%nat -> (forall e, (e < K)%nat -> X e < X (S e)) -> exact_2 rule ->
  (forall e, (e < K)%nat -> exists y, In y ms /\ In (vol e) (ids (m_id (attrs y)))) ->
  let M := segment K X rule vol left right in
  positive_temperature M T -> 0 < dt -> step_large_enough K X rule vol left right ms T dt ->
  (forall src, In src (mb_sources mb1) -> s_decay src = None) ->
  data_order lo M T mb1 mb2 -> imposed_order (S K) bcs1 bcs2 ->
  hydrogen_residual M mb1 ms T (Some dt) false (S K) (linear K X) r1 ->
  hydrogen_residual M mb2 ms T (Some dt) false (S K) (linear K X) r2 ->
  solves (S K) bcs1 r1 x1 -> solves (S K) bcs2 r2 x2 -> (forall i, (i < S K)%nat -> lo <= x2 i) ->
  forall i, (i < S K)%nat -> x1 i <= x2 i.
Proof.
  intros HK HX HR Hcov M HT Hdt Hstep Hsrc Hd Hg Hr1 Hr2 H1 H2 Hlo.
  apply (C97_step lo M mb1 mb2 ms T dt (S K) (linear K X) r1 r2 bcs1 bcs2); auto.
  - now apply segment_basis.
  - now apply segment_seen.
  - destruct Hd as (Hcl & _ & _ & _ & Hb).
    apply (segment_cooperative K X rule vol left right HK HX HR mb1 ms T dt r1); auto.
    intros b Hin. clear - Hb Hin. induction Hb as [|b1 b2 l1 l2 H _ IH]; [destruct Hin|].
    destruct Hin as [<-|Hin]; [|now apply IH]. destruct b1 as [[|] ? ?|?]; [exact I|exact I|contradiction].
Qed.

(** Two runs with the same steps: the order of the initial concentrations is kept, at all unknowns and at all points. *)
Theorem C97_run lo K X rule vol left right (mb1 mb2 : nat -> mobile pt) ms (T : nat -> temperature pt) dt r1 r2 bcs1 bcs2
    (x1 x2 : nat -> nat -> R) :
  (0 < K)%nat -> (forall e, (e < K)%nat -> X e < X (S e)) -> exact_2 rule ->
  (forall e, (e < K)%nat -> exists y, In y ms /\ In (vol e) (ids (m_id (attrs y)))) ->
  let M := segment K X rule vol left right in
  (forall i, (i < S K)%nat -> x1 0%nat i <= x2 0%nat i) ->
  (forall k, mb_class (mb1 k) = ClassMobile /\ mb_class (mb2 k) = ClassMobile /\
    mb_previous (mb1 k) = span (S K) (linear K X) (x1 k) /\ mb_previous (mb2 k) = span (S K) (linear K X) (x2 k) /\
    positive_temperature M (T k) /\ 0 < dt k /\ step_large_enough K X rule vol left right ms (T k) (dt k) /\
    (forall src, In src (mb_sources (mb1 k)) -> s_decay src = None) /\
    Forall2 (source_order lo M) (mb_sources (mb1 k)) (mb_sources (mb2 k)) /\
    Forall2 (bc_order lo M (T k)) (mb_bcs (mb1 k)) (mb_bcs (mb2 k)) /\ imposed_order (S K) (bcs1 k) (bcs2 k) /\
    hydrogen_residual M (mb1 k) ms (T k) (Some (dt k)) false (S K) (linear K X) (r1 k) /\
    hydrogen_residual M (mb2 k) ms (T k) (Some (dt k)) false (S K) (linear K X) (r2 k) /\
    solves (S K) (bcs1 k) (r1 k) (x1 (S k)) /\ solves (S K) (bcs2 k) (r2 k) (x2 (S k)) /\
    (forall i, (i < S K)%nat -> lo <= x2 (S k) i)) ->
  forall k, (forall i, (i < S K)%nat -> x1 k i <= x2 k i) /\
    forall p, In p (q_cells M) -> val (span (S K) (linear K X) (x1 k) p) <= val (span (S K) (linear K X) (x2 k) p).
Proof.
  intros HK HX HR Hcov M H0 Hstep.
  assert (Hsp : forall y z, (forall i, (i < S K)%nat -> y i <= z i) -> forall p, In p (q_cells M) ->
    val (span (S K) (linear K X) y p) <= val (span (S K) (linear K X) z p)).
  { intros y z Hyz p Hp. destruct (segment_basis K X rule vol left right HK HX HR) as (_ & Hphi & _ & _). cbn [span val].
    assert (1 * rsum (map (fun i => y i * val (linear K X i p) + - (z i * val (linear K X i p))) (seq 0 (S K))) <= 0).
    { apply rsum_sign. intros j Hj. apply in_seq in Hj. specialize (Hyz j ltac:(lia)). pose proof (Hphi j p (or_introl Hp)). nra. }
    rewrite rsum_map_plus, rsum_map_opp in *. lra. }
  assert (Hx : forall k i, (i < S K)%nat -> x1 k i <= x2 k i).
  { induction k as [|k IH]; [exact H0|].
    destruct (Hstep k) as (Hc1 & Hc2 & Hp1 & Hp2 & HT & Hdt & Hl & Hdec & Hs & Hb & Hg & Hr1 & Hr2 & Hs1 & Hs2 & Hlo).
    apply (C97_segment lo K X rule vol left right (mb1 k) (mb2 k) ms (T k) (dt k) (r1 k) (r2 k) (bcs1 k) (bcs2 k)); auto.
    split; [exact Hc1|]. split; [exact Hc2|]. split; [|split; [exact Hs|exact Hb]].
    rewrite Hp1, Hp2. apply (Hsp (x1 k) (x2 k) IH). }
  intros k. split; [apply Hx|]. apply Hsp. apply Hx.
Qed.

(** A run whose data do not decrease from one step to the next, and whose first step does not decrease the concentration, never
    decreases it (same stepsize and temperature). *)
Theorem C97_monotone lo K X rule vol left right (mb : nat -> mobile pt) ms (T : temperature pt) dt r bcs (x : nat -> nat -> R) :
  (0 < K)%nat -> (forall e, (e < K)%nat -> X e < X (S e)) -> exact_2 rule ->
  (forall e, (e < K)%nat -> exists y, In y ms /\ In (vol e) (ids (m_id (attrs y)))) ->
  let M := segment K X rule vol left right in
  positive_temperature M T -> 0 < dt -> step_large_enough K X rule vol left right ms T dt ->
  (forall i, (i < S K)%nat -> x 0%nat i <= x 1%nat i) ->
  (forall k, mb_class (mb k) = ClassMobile /\ mb_previous (mb k) = span (S K) (linear K X) (x k) /\
    (forall src, In src (mb_sources (mb k)) -> s_decay src = None) /\
    Forall2 (source_order lo M) (mb_sources (mb k)) (mb_sources (mb (S k))) /\
    Forall2 (bc_order lo M T) (mb_bcs (mb k)) (mb_bcs (mb (S k))) /\ imposed_order (S K) (bcs k) (bcs (S k)) /\
    hydrogen_residual M (mb k) ms T (Some dt) false (S K) (linear K X) (r k) /\
    solves (S K) (bcs k) (r k) (x (S k)) /\ (forall i, (i < S K)%nat -> lo <= x (S k) i)) ->
  forall k i, (i < S K)%nat -> x k i <= x (S k) i.
Proof.
  intros HK HX HR Hcov M HT Hdt Hl H0 H k.
  apply (C97_run lo K X rule vol left right mb (fun k => mb (S k)) ms (fun _ => T) (fun _ => dt) r (fun k => r (S k)) bcs (fun k => bcs (S k))
    x (fun k => x (S k))); auto.
  intros j. destruct (H j) as (Hc & Hp & Hd & Hs & Hb & Hg & Hr & Hsol & Hlo).
  destruct (H (S j)) as (Hc' & Hp' & Hd' & Hs' & Hb' & Hg' & Hr' & Hsol' & Hlo'). repeat split; auto; try (apply HT; assumption).
Qed.

(** The solution of a step is unique when no source or flux grows with the concentration. *)
Theorem C97_unique {P} lo (M : mesh P) mb ms T dt N phi r bcs x y :
  nonnegative_basis M N phi -> seen M ms N phi -> positive_temperature M T -> 0 < dt -> data_order lo M T mb mb ->
  hydrogen_residual M mb ms T (Some dt) false N phi r -> cooperative N r -> solves N bcs r x -> solves N bcs r y ->
  (forall i, (i < N)%nat -> lo <= x i /\ lo <= y i) -> forall i, (i < N)%nat -> x i = y i.
Proof.
  intros HB Hs HT Hdt Hd Hr Hc Hx Hy Hlo i Hi.
  assert (Hg : imposed_order N bcs bcs) by (intros j _; destruct (boundary_value bcs j); [lra|exact I]).
  apply Rle_antisym.
  - apply (C97_step lo M mb mb ms T dt N phi r r bcs bcs x y); auto. intros j Hj. now apply Hlo.
  - apply (C97_step lo M mb mb ms T dt N phi r r bcs bcs y x); auto. intros j Hj. now apply Hlo.
Qed.
(** Heat, with constant properties: more heat supplied never gives a lower temperature. *)
Theorem C97_heat {P} lo (M : mesh P) dt T1 T2 ms src1 src2 fl1 fl2 N phi r1 r2 bcs1 bcs2 x1 x2 :
  nonnegative_basis M N phi -> seen M ms N phi -> 0 < dt -> fixed_thermal ms ->
  (forall p, In p (q_cells M) -> val (T1 p) <= val (T2 p)) ->
  Forall2 (heat_source_order M) src1 src2 -> Forall2 (heat_bc_order lo M) fl1 fl2 -> imposed_order N bcs1 bcs2 ->
  heat_residual M true dt T1 ms src1 fl1 N phi r1 -> heat_residual M true dt T2 ms src2 fl2 N phi r2 ->
  cooperative N r1 -> solves N bcs1 r1 x1 -> solves N bcs2 r2 x2 -> (forall i, (i < N)%nat -> lo <= x2 i) ->
  forall i, (i < N)%nat -> x1 i <= x2 i.
Proof.
  intros HB Hs Hdt Hm Hp Hsrc Hb Hg Hr1 Hr2 Hc H1 H2 Hlo. apply (order_principle N bcs1 bcs2 r1 r2); auto.
  intros i d Hi Hpos. apply (heat_shift lo M dt T1 T2 ms src1 src2 fl1 fl2 N phi r1 r2); auto.
Qed.
(** Concrete cases: 1 and 2 imposed at the left of one element; the solutions are ordered (5/8 and 5/4 at the right). *)
Example C97_segment_example :
  let X := fun i => INR i * 1 in
  let M := segment 1 X simpson (fun _ => 1%Z) 1 2 in
  let two := [[(0%nat, 2)]] in
  let r := element_residual 1 simpson 1 1 in
  ((0 < 1)%nat /\ (forall e, (e < 1)%nat -> X e < X (S e)) /\ exact_2 simpson /\
   (forall e, (e < 1)%nat -> exists y, In y [D_mat 1] /\ In 1%Z (ids (m_id (attrs y))))) /\
  positive_temperature M T300 /\ step_large_enough 1 X simpson (fun _ => 1%Z) 1 2 [D_mat 1] T300 1 /\
  data_order 0 M T300 empty_before empty_before /\ imposed_order 2 left_one two /\
  hydrogen_residual M empty_before [D_mat 1] T300 (Some 1) false 2 (linear 1 X) r /\
  solves 2 left_one r x_5_8 /\ solves 2 two r (fun i => 2 * x_5_8 i) /\ (forall i, (i < 2)%nat -> 0 <= 2 * x_5_8 i) /\
  x_5_8 1%nat < 2 * x_5_8 1%nat.
Proof.
  cbv zeta. destruct (C92_segment_example Above) as (H1 & _ & H3 & H4 & _ & _ & H7 & H8).
  split; [exact H1|]. split; [exact H3|]. split; [exact H4|]. split; [|split; [|split; [exact H7|split; [exact H8|split; [|split]]]]].
  - split; [reflexivity|]. split; [reflexivity|]. split; [intros p _; cbn; lra|]. split; constructor.
  - intros i _. destruct i as [|i]; cbn; [lra|exact I].
  - intros i Hi. unfold problem_F. destruct i as [|[|i]]; [cbn; lra| |lia]. cbn [boundary_value find fst Nat.eqb option_map].
    rewrite element_residual_1 by (lra || apply simpson_exact). cbn [x_5_8]. field.
  - intros i _. destruct i as [|i]; cbn [x_5_8]; lra.
  - cbn [x_5_8]. lra.
Qed.
(** Data in order: a larger volumetric source, a slower decay, a larger external concentration, a smaller recombination of order 2
    (above 0), a larger pressure; a recombination of order 2 is not in order with itself below 0. *)
Example C97_data_example (M : mesh pt) p : In p (q_facets M) -> q_surface M p = 1%Z ->
  data_order 0 M T300
    (mkMobile ClassMobile (fun _ => dconst 0) (fun _ => dconst 1) (fun _ => dconst 0)
       [mkSource (IdOne 1) (fun _ => 3) None; mkSource (IdOne 1) (fun _ => 0) (Some 5)]
       [BFlux false [1%Z] (MassFlux (fun _ => 3) (fun _ => 4)); BFlux false [1%Z] (RecombinationFlux (fun _ => 7) (fun _ => 1) (EInt 2));
        BFlux false [2%Z] (DissociationFlux (fun _ => 3) (fun _ => 1) (fun _ => 4))])
    (mkMobile ClassMobile (fun _ => dconst 0) (fun _ => dconst 2) (fun _ => dconst 0)
       [mkSource (IdOne 1) (fun _ => 4) None; mkSource (IdOne 1) (fun _ => 0) (Some 2)]
       [BFlux false [1%Z] (MassFlux (fun _ => 3) (fun _ => 5)); BFlux false [1%Z] (RecombinationFlux (fun _ => 6) (fun _ => 1) (EInt 2));
        BFlux false [2%Z] (DissociationFlux (fun _ => 3) (fun _ => 1) (fun _ => 9))]) /\
  ~ bc_order (-1) M T300 (BFlux false [1%Z] (RecombinationFlux (fun _ => 7) (fun _ => 1) (EInt 2)))
      (BFlux false [1%Z] (RecombinationFlux (fun _ => 7) (fun _ => 1) (EInt 2))).
Proof.
  intros Hp Hz. assert (Ha : forall k T, 0 < k -> 0 < arrhenius k 1 T) by (intros k T Hk; apply arrhenius_pos; lra).
  assert (H76 : forall T, arrhenius 6 1 T <= arrhenius 7 1 T).
  { intros T. unfold arrhenius, Rdiv. pose proof (Rinv_0_lt_compat _ (exp_pos (1 * / (boltzmann * T)))). nra. }
  split.
  - split; [reflexivity|]. split; [reflexivity|]. split; [intros q _; cbn; lra|]. cbn [mb_sources mb_bcs]. split.
    + constructor; [|constructor; [|constructor]]; (split; [reflexivity|]; intros q c d _ _ Hc Hd; unfold brings; cbn [s_decay s_value]; nra).
    + constructor; [|constructor; [|constructor; [|constructor]]]; cbn [bc_order]; (split; [reflexivity|]; intros q c d _ _ Hc Hd; cbn [flux_into power pow]).
      * lra.
      * pose proof (H76 (val (T_T T300 q))). pose proof (Ha 6 (val (T_T T300 q)) ltac:(lra)).
        assert (c * c <= (c + d) * (c + d)) by nra. assert (0 <= c * c) by nra. nra.
      * pose proof (Ha 3 (val (T_T T300 q)) ltac:(lra)). nra.
  - intros [_ H]. specialize (H p (-1) 1 Hp ltac:(rewrite Hz; now left) ltac:(lra) ltac:(lra)). cbn [flux_into power pow] in H.
    pose proof (Ha 7 (val (T_T T300 p)) ltac:(lra)). nra.
Qed.
(** Heat: one basis function equal to 1 on one point; exchanges with 500 and with 600 from 300, and a source in the second. *)
Example C97_heat_example :
  let M := mkMesh [0]%nat [1]%nat (fun _ => 1) (fun _ => 1%Z) (fun _ => 1%Z) (fun _ => 0) 1 Cartesian in
  let phi := fun _ (_ : nat) => dconst 1 in
  let ms := [mkMatObj 0 (mkMaterial (IdOne 1) None (Const 1) (Const 0) None None (Some (Const 3)) (Some (Const 2)) (Some (Const 7)) BNone None Sievert)] in
  let fl := fun t => [([1%Z], ConvectiveFlux (fun _ => 2) (fun _ => t))] in
  let src := fun q => [mkSource (IdOne 1) (fun _ : nat => q) None] in
  let r := fun t q => fun (x : nat -> R) (_ : nat) => 14 * (x 0%nat - 300) - q - 2 * (t - x 0%nat) in
  nonnegative_basis M 1 phi /\ seen M ms 1 phi /\ fixed_thermal ms /\
  Forall2 (heat_source_order M) (src 0) (src 16) /\ Forall2 (heat_bc_order 0 M) (fl 500) (fl 600) /\
  (forall t q F x, heat_form M true 1 (span 1 phi x) (fun _ => dconst 300) (phi 0%nat) ms (src q) (fl t) = Ok F ->
     assemble M F = r t q x 0%nat) /\
  cooperative 1 (r 500 0) /\ solves 1 [] (r 500 0) (fun _ => 325) /\ solves 1 [] (r 600 16) (fun _ => 338 + 1 / 2).
Proof.
  cbv zeta. split; [|split; [|split; [|split; [|split; [|split; [|split; [|split]]]]]]].
  - split; [intros; cbn; lra|]. split; [intros; cbn; lra|]. split; intros; cbn; rewrite ?rsum_cons; cbn; lra.
  - intros i _. eexists _, 0%nat. split; [left; reflexivity|]. split; [now left|]. split; [now left|]. cbn. lra.
  - intros y [<-|[]]. exists 3, 2, 7. cbn. repeat split; lra.
  - constructor; [|constructor]. split; [reflexivity|]. intros p _ _. cbn. lra.
  - constructor; [|constructor]. split; [reflexivity|]. intros p t d _ _ _ Hd. cbn [snd heat_in]. do 2 eexists. split; [reflexivity|]. split; [reflexivity|]. lra.
  - intros t q F x H. unfold heat_form, heat_material_form in H. cbn [sum_forms attrs m_thermal m_heat m_rho value_at bind] in H. apply Ok_inj in H. subst F.
    unfold assemble, integral, points. cbn. unfold convective_form. cbn. field.
  - intros x y i Hi E _. replace i with 0%nat in E by lia. rewrite E. lra.
  - intros i Hi. unfold problem_F. cbn. lra.
  - intros i Hi. unfold problem_F. cbn. lra.
Qed.

Print Assumptions C97_heat.
Print Assumptions C97_step.
Print Assumptions C97_segment.
Print Assumptions C97_run.
Print Assumptions C97_monotone.
Print Assumptions C97_unique.
