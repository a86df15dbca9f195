(** C97 and C92 for the temperature: linear elements on a segment, constant thermal properties. *)
From Coq Require Import Reals ZArith List Bool Arith Lra Lia.
From Verif Require Import Base.Exc Base.Dual Model.Materials Model.Laws Model.Theta Model.Forms Model.NonlinearProblem
  Spec.PhysSpec Spec.BalanceSpec Spec.NewtonSpec Spec.MaximumSpec Spec.OrderSpec Proofs.LawProofs Proofs.ThetaProofs Proofs.FormProofs
  Proofs.MaximumProofs Proofs.OrderProofs Proofs.HeatSegment Properties.MaximumProps Properties.OrderProps.
Import ListNotations.
Local Open Scope R_scope.

(** One step: more heat supplied never gives a lower temperature, if h^2 rho cp <= 6 k dt in every element. *)
Theorem C97_heat_segment lo K X rule vol left right dt T1 T2 ms src1 src2 fl1 fl2 r1 r2 bcs1 bcs2 x1 x2 :
  (0 < K)%nat -> (forall e, (e < K)%nat -> X e < X (S e)) -> exact_2 rule ->
  (forall e, (e < K)%nat -> exists y, In y ms /\ In (vol e) (ids (m_id (attrs y)))) ->
  let M := segment K X rule vol left right in
  0 < dt -> fixed_thermal ms -> heat_step_large_enough K X vol ms dt ->
  (forall p, In p (q_cells M) -> val (T1 p) <= val (T2 p)) ->
  Forall2 (heat_source_order M) src1 src2 -> Forall2 (heat_bc_order lo M) fl1 fl2 -> imposed_order (S K) bcs1 bcs2 ->
  heat_residual M true dt T1 ms src1 fl1 (S K) (linear K X) r1 -> heat_residual M true dt T2 ms src2 fl2 (S K) (linear K X) r2 ->
  solves (S K) bcs1 r1 x1 -> solves (S K) bcs2 r2 x2 -> (forall i, (i < S K)%nat -> lo <= x2 i) ->
  forall i, (i < S K)%nat -> x1 i <= x2 i.
Proof.
  intros HK HX HR Hcov M Hdt Hm Hl Hp Hs Hb Hg Hr1 Hr2 H1 H2 Hlo.
  apply (C97_heat lo M dt T1 T2 ms src1 src2 fl1 fl2 (S K) (linear K X) r1 r2 bcs1 bcs2); auto.
  - now apply segment_basis.
  - now apply segment_seen.
  - exact (heat_cooperative K X rule vol left right HK HX HR dt T1 ms src1 fl1 r1 Hdt Hm Hl Hr1).
Qed.

(** Two runs with the same steps: the order of the initial temperatures is kept, at all unknowns and at all points. *)
Theorem C97_heat_run lo K X rule vol left right ms (dt : nat -> R) src1 src2 fl1 fl2 r1 r2 bcs1 bcs2 (x1 x2 : nat -> nat -> R) :
  (0 < K)%nat -> (forall e, (e < K)%nat -> X e < X (S e)) -> exact_2 rule ->
  (forall e, (e < K)%nat -> exists y, In y ms /\ In (vol e) (ids (m_id (attrs y)))) ->
  let M := segment K X rule vol left right in
  let u := span (S K) (linear K X) in
  fixed_thermal ms -> (forall i, (i < S K)%nat -> x1 0%nat i <= x2 0%nat i) ->
  (forall k, 0 < dt k /\ heat_step_large_enough K X vol ms (dt k) /\
    Forall2 (heat_source_order M) (src1 k) (src2 k) /\ Forall2 (heat_bc_order lo M) (fl1 k) (fl2 k) /\ imposed_order (S K) (bcs1 k) (bcs2 k) /\
    heat_residual M true (dt k) (u (x1 k)) ms (src1 k) (fl1 k) (S K) (linear K X) (r1 k) /\
    heat_residual M true (dt k) (u (x2 k)) ms (src2 k) (fl2 k) (S K) (linear K X) (r2 k) /\
    solves (S K) (bcs1 k) (r1 k) (x1 (S k)) /\ solves (S K) (bcs2 k) (r2 k) (x2 (S k)) /\
    (forall i, (i < S K)%nat -> lo <= x2 (S k) i)) ->
  forall k, (forall i, (i < S K)%nat -> x1 k i <= x2 k i) /\ forall p, In p (q_cells M) -> val (u (x1 k) p) <= val (u (x2 k) p).
Proof.
  intros HK HX HR Hcov M u Hm H0 Hstep.
  assert (Hsp : forall y z, (forall i, (i < S K)%nat -> y i <= z i) -> forall p, In p (q_cells M) -> val (u y p) <= val (u z p)).
  { intros y z Hyz p Hp. destruct (segment_basis K X rule vol left right HK HX HR) as (_ & Hphi & _ & _). unfold u. cbn [span val].
    assert (1 * rsum (map (fun i => y i * val (linear K X i p) + - (z i * val (linear K X i p))) (seq 0 (S K))) <= 0).
    { apply rsum_sign. intros j Hj. apply in_seq in Hj. specialize (Hyz j ltac:(lia)). pose proof (Hphi j p (or_introl Hp)). nra. }
    rewrite rsum_map_plus, rsum_map_opp in *. lra. }
  assert (Hx : forall k i, (i < S K)%nat -> x1 k i <= x2 k i).
  { induction k as [|k IH]; [exact H0|].
    destruct (Hstep k) as (Hdt & Hl & Hs & Hb & Hg & Hr1 & Hr2 & Hs1 & Hs2 & Hlo).
    apply (C97_heat_segment lo K X rule vol left right (dt k) (u (x1 k)) (u (x2 k)) ms (src1 k) (src2 k) (fl1 k) (fl2 k) (r1 k) (r2 k) (bcs1 k) (bcs2 k)); auto. }
  intros k. split; [apply Hx|]. apply Hsp. apply Hx.
Qed.

(** The bounds of the data are bounds of the temperature under the same condition. *)
Theorem C92_heat_segment s m K X rule vol left right dt T_n ms sources fluxes r bcs x :
  (0 < K)%nat -> (forall e, (e < K)%nat -> X e < X (S e)) -> exact_2 rule ->
  (forall e, (e < K)%nat -> exists y, In y ms /\ In (vol e) (ids (m_id (attrs y)))) ->
  let M := segment K X rule vol left right in
  0 < dt -> fixed_thermal ms -> heat_step_large_enough K X vol ms dt ->
  field_within s m M T_n -> (forall src, In src sources -> heat_source_within s m M src) ->
  (forall b, In b fluxes -> heat_bc_within s m M b) -> imposed_within s m bcs ->
  heat_residual M true dt T_n ms sources fluxes (S K) (linear K X) r -> solves (S K) bcs r x ->
  forall i, (i < S K)%nat -> within s m (x i).
Proof.
  intros HK HX HR Hcov M Hdt Hm Hl Hp Hs Hb Hg Hr Hx.
  apply (C92_heat s m M dt T_n ms sources fluxes (S K) (linear K X) r bcs); auto.
  - now apply segment_basis.
  - now apply segment_seen.
  - intros y Hy. destruct (Hm y Hy) as (k & cp & rho & _ & -> & -> & Pc & Pr). split; assumption.
  - exact (heat_cooperative K X rule vol left right HK HX HR dt T_n ms sources fluxes r Hdt Hm Hl Hr).
Qed.

(** ** Example: one element of length 1, rho = 2, cp = 3, k = 6, dt = 1; 0 before; 1 and 2 imposed at the left *)
Definition slab : mat_obj :=
  mkMatObj 0 (mkMaterial (IdOne 1) None (Const 1) (Const 0) None None (Some (Const 6)) (Some (Const 3)) (Some (Const 2)) BNone None Sievert).
Definition heat_element (x : nat -> R) (i : nat) : R :=
  match heat_form (one_element 1 simpson) true 1 (span 2 (linear 1 (fun i => INR i * 1)) x) (fun _ => dconst 0)
          (linear 1 (fun i => INR i * 1) i) [slab] [] [] with Ok F => assemble (one_element 1 simpson) F | Err _ => 0 end.
Lemma heat_element_1 x : heat_element x 1 = 6 * (x 0%nat / 6 + x 1%nat / 3) + 6 * (x 1%nat - x 0%nat).
Proof.
  unfold heat_element, heat_form, heat_material_form. cbn [sum_forms slab attrs m_thermal m_heat m_rho value_at bind].
  unfold assemble, integral, points, one_element. cbn -[Rmult Rplus Rminus Rdiv Rinv]. unfold dot, length_of. cbn -[Rmult Rplus Rminus Rdiv Rinv]. field.
Qed.
Example C97_heat_segment_example :
  let X := fun i => INR i * 1 in
  let M := segment 1 X simpson (fun _ => 1%Z) 1 2 in
  let two := [[(0%nat, 2)]] in
  ((0 < 1)%nat /\ (forall e, (e < 1)%nat -> X e < X (S e)) /\ exact_2 simpson /\
   (forall e, (e < 1)%nat -> exists y, In y [slab] /\ In 1%Z (ids (m_id (attrs y))))) /\
  fixed_thermal [slab] /\ heat_step_large_enough 1 X (fun _ => 1%Z) [slab] 1 /\ imposed_order 2 left_one two /\
  (forall s, imposed_within s (match s with Above => 0 | Below => 1 end) left_one) /\
  heat_residual M true 1 (fun _ => dconst 0) [slab] [] [] 2 (linear 1 X) heat_element /\
  solves 2 left_one heat_element x_5_8 /\ solves 2 two heat_element (fun i => 2 * x_5_8 i).
Proof.
  cbv zeta. split; [|split; [|split; [|split; [|split; [|split; [|split]]]]]].
  - split; [lia|]. split; [intros e _; rewrite S_INR; lra|]. split; [apply simpson_exact|]. intros e _. exists slab. split; now left.
  - intros y [<-|[]]. exists 6, 3, 2. cbn. repeat split; lra.
  - intros y k cp rho e [<-|[]] H1 H2 H3 He _. cbn in H1, H2, H3. injection H1 as <-. injection H2 as <-. injection H3 as <-.
    replace e with 0%nat by lia. unfold length_of. cbn [INR]. lra.
  - intros i _. destruct i as [|i]; cbn; [lra|exact I].
  - intros s b q [<-|[]] [<-|[]]. destruct s; cbn; lra.
  - intros x i _. eexists. split; [reflexivity|]. reflexivity.
  - intros i Hi. unfold problem_F. destruct i as [|[|i]]; [cbn; lra| |lia]. cbn [boundary_value left_one find fst Nat.eqb option_map].
    rewrite heat_element_1. cbn [x_5_8]. field.
  - intros i Hi. unfold problem_F. destruct i as [|[|i]]; [cbn; lra| |lia]. cbn [boundary_value find fst Nat.eqb option_map].
    rewrite heat_element_1. cbn [x_5_8]. field.
Qed.

Print Assumptions C97_heat_segment.
Print Assumptions C97_heat_run.
Print Assumptions C92_heat_segment.
