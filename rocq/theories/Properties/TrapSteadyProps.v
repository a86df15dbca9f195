(** C105: traps in steady state. *)
From Coq Require Import Reals ZArith List Bool Arith Lra Lia Psatz.
From Verif Require Import Base.Exc Base.Dual Model.Materials Model.Laws Model.Theta Model.Forms Model.NonlinearProblem
  Spec.PhysSpec Spec.BalanceSpec Spec.NewtonSpec Spec.MaximumSpec Spec.PermeationSpec Spec.WeakSpec Spec.TrapSteadySpec
  Proofs.LawProofs Proofs.FormProofs Proofs.MaximumProofs Proofs.WeakProofs Proofs.MergeProofs Proofs.TrapSteadyProofs
  Properties.WeakProps Properties.MaximumProps Properties.PermeationProps.
Import ListNotations.
Local Open Scope R_scope.

(** Traps that are in all materials do not change the steady mobile concentration. *)
Theorem C105_transparent {P} (M : mesh P) mb ms T traps soret N phi bcs r x :
  no_surface_kinetics mb ->
  (forall t, In t traps -> (forall m, In m ms -> mat_in m (t_materials t) = true) /\ t_sources t = []) ->
  hydrogen_residual M mb ms T None soret N phi r ->
  solves_with_traps M mb ms T traps soret N phi bcs x -> solves N bcs r x.
Proof.
  intros Hk Ht Hr [Hm Htr] i Hi. unfold problem_F. specialize (Hm i Hi). destruct (boundary_value bcs i) as [g|]; [rewrite Hm; ring|].
  set (mb' := mkMobile (mb_class mb) (span N phi x) (mb_previous mb) (mb_test mb) (mb_sources mb) (mb_bcs mb)) in *.
  set (v := mkTests (phi i) (fun j => if Nat.ltb j (length traps) then phi i else null) (fun _ _ => null)).
  destruct (C75_linear M mb' ms T None traps soret) as [Herr Hlin].
  destruct (define_variational_problem M (retest_mobile mb' v) ms T None (retest_traps traps v) soret) as [F|e] eqn:HF.
  2:{ destruct Hm as (F & HF' & _). rewrite (Herr _ (only_mobile (phi i)) _ HF) in HF'. discriminate. }
  assert (E : assemble M F = 0).
  { rewrite (Hlin _ v (assemble M F) (fun _ => 0) (rows_combination (length traps) (phi i))).
    - rewrite rsum_map_zero; [reflexivity|]. intros q _. ring.
    - exists F. split; [exact HF|reflexivity].
    - intros q [<-|Hq]; [exact Hm|]. apply in_map_iff in Hq. destruct Hq as (j & <- & Hj). apply in_seq in Hj. apply Htr; [lia|exact Hi]. }
  destruct (Hr x i Hi) as (F0 & HF0 & <-). rewrite <- E. symmetry. apply (transparent M mb' ms T traps soret v F F0); [|exact Ht|exact HF|].
  - intros j p Hj. unfold v. cbn [v_trap v_mobile]. destruct (Nat.ltb_spec j (length traps)); [reflexivity|lia].
  - unfold retest_mobile. rewrite (no_kinetics_retest mb' v) by exact Hk. exact HF0.
Qed.
Print Assumptions C105_transparent.

(** What a trap holds is the projection of the Langmuir isotherm, and the isotherm itself where it can be represented. *)
Theorem C105_langmuir {P} (M : mesh P) mb ms T traps soret j t k d n c cn W :
  covered M ms -> concentrations M mb T ms c cn -> positive_temperature M T ->
  nth_error traps j = Some t -> kinetics M T t k d n -> t_materials t = ms -> t_sources t = [] ->
  (forall p, In p (q_cells M) -> 0 < q_weight M p) -> (forall p, In p (q_cells M) -> 0 < k p * c p + d p) ->
  (forall v, W v -> weak_residual M mb ms T None traps soret (only_trap j v) 0) ->
  let isotherm := fun p => langmuir (k p) (d p) (n p) (c p) in
  let misfit := fun u : P -> R => integral M DxAll (fun p => (k p * c p + d p) * (isotherm p - u p) ^ 2) in
  (forall v, W v -> integral M DxAll (fun p => (k p * c p + d p) * (isotherm p - val (t_solution t p)) * val (v p)) = 0) /\
  (forall u v, W v -> (forall p, In p (q_cells M) -> val (v p) = u p - val (t_solution t p)) ->
     misfit (fun p => val (t_solution t p)) <= misfit u) /\
  (forall v, W v -> (forall p, In p (q_cells M) -> val (v p) = isotherm p - val (t_solution t p)) ->
     forall p, In p (q_cells M) -> val (t_solution t p) = isotherm p).
Proof.
  intros Hcov Hc HT Hj Hkin Hm Hs Hw Hpos HW isotherm misfit.
  assert (Hcells : forall p, In p (points M DxAll) -> In p (q_cells M)) by (intros p Hp; exact Hp).
  assert (Hortho : forall v, W v -> integral M DxAll (fun p => (k p * c p + d p) * (isotherm p - val (t_solution t p)) * val (v p)) = 0).
  { intros v Hv. destruct (trap_row M mb ms T traps soret j t v Hj (HW v Hv)) as (K & K' & E1 & E2 & E3).
    rewrite (langmuir_form M mb ms T (retest_trap (only_trap j v) j t) k d n c cn K Hcov Hc HT Hkin Hm Hs E1) in E3.
    rewrite (langmuir_form M mb ms T (retest_trap nothing j t) k d n c cn K' Hcov Hc HT Hkin Hm Hs E2) in E3.
    cbn [t_solution t_test retest_trap only_trap nothing v_trap] in E3. rewrite Nat.eqb_refl in E3.
    rewrite (integral_zero M DxAll (fun p => _ * val (null p))) in E3 by (intros; cbn; ring).
    assert (E4 := E3). rewrite <- Ropp_0, <- E4, <- integral_opp. apply integral_ext. intros p Hp. unfold isotherm, langmuir.
    specialize (Hpos p (Hcells p Hp)). field. lra. }
  assert (Hnn : forall e : P -> R, (forall p, In p (q_cells M) -> 0 <= e p) -> 0 <= integral M DxAll e /\ (integral M DxAll e = 0 -> forall p, In p (q_cells M) -> e p = 0)).
  { intros e He. unfold integral, points. clear -Hw He. induction (q_cells M) as [|p l IH]; [split; [cbn; lra|intros _ p []]|].
    destruct IH as [I1 I2]; [intros q Hq; apply Hw; now right|intros q Hq; apply He; now right|]. cbn [map]. rewrite rsum_cons.
    assert (H1 := Hw p (or_introl eq_refl)). assert (H2 := He p (or_introl eq_refl)). assert (H3 : 0 <= q_weight M p * e p) by nra.
    split; [lra|]. intros H0 q [<-|Hq]; [|apply I2; [lra|exact Hq]]. assert (H4 : q_weight M p * e p = 0) by lra. apply Rmult_integral in H4. lra. }
  split; [exact Hortho|]. split.
  - intros u v Hv Huv. specialize (Hortho v Hv).
    assert (E : misfit u = misfit (fun p => val (t_solution t p)) + integral M DxAll (fun p => (k p * c p + d p) * val (v p) ^ 2)
      + - 2 * integral M DxAll (fun p => (k p * c p + d p) * (isotherm p - val (t_solution t p)) * val (v p))).
    { unfold misfit. rewrite <- MergeProofs.integral_scale, <- !integral_plus. apply integral_ext. intros p Hp.
      rewrite (Huv p (Hcells p Hp)). ring. }
    destruct (Hnn (fun p => (k p * c p + d p) * val (v p) ^ 2)) as [H _].
    { intros p Hp. specialize (Hpos p Hp). pose proof (pow2_ge_0 (val (v p))). nra. }
    cbv beta in H. lra.
  - intros v Hv Hvi p Hp. specialize (Hortho v Hv). destruct (Hnn (fun p => (k p * c p + d p) * val (v p) ^ 2)) as [_ H].
    { intros q Hq. specialize (Hpos q Hq). pose proof (pow2_ge_0 (val (v q))). nra. }
    assert (E : integral M DxAll (fun p => (k p * c p + d p) * val (v p) ^ 2) = 0).
    { rewrite <- Hortho. apply integral_ext. intros q Hq. rewrite <- (Hvi q (Hcells q Hq)). ring. }
    specialize (H E p Hp). cbv beta in H. apply Rmult_integral in H. specialize (Hpos p Hp). destruct H as [H|H]; [lra|].
    rewrite Hvi in H by exact Hp. destruct (Req_dec (isotherm p - val (t_solution t p)) 0) as [E0|E0]; [lra|]. exfalso. apply (pow_nonzero _ 2 E0 H).
Qed.
Print Assumptions C105_langmuir.

(** Two layers of length 1 with D = 1; a trap with k = p = 1 and density 73 in the first one only. *)
Definition layers_1 : list mat_obj := [layer 1 1; layer 2 1].
Definition trap_in (mats : list mat_obj) (n : R) (y : nat -> R) : trap pt :=
  mkTrap (Scalar 1) (Scalar 0) (Scalar 1) (Scalar 0) [fun _ => n] mats (span 3 (linear 2 INR) y) (fun _ => dconst 0) (fun _ => dconst 0) [].
Definition mobile_1 : mobile pt := mkMobile ClassMobile (fun _ => dconst 0) (fun _ => dconst 0) (fun _ => dconst 0) [] [].
Definition of3 (a b c : R) (i : nat) : R := match i with 0%nat => a | 1%nat => b | _ => c end.
Lemma exp_00 : exp (- 0 / k_B / 300) = 1.
Proof. replace (- 0 / k_B / 300) with 0 by (unfold Rdiv; ring). apply exp_0. Qed.
Ltac rows := eexists; split; [cbn; reflexivity|]; unfold assemble, integral, points; cbn; rewrite ?rsum_cons, ?rsum_nil; unfold dot; cbn; rewrite ?exp_00; unfold length_of; cbn; field.
Lemma one_layer_trap : solves_with_traps (segment 2 INR simpson vol2 1 2) mobile_1 layers_1 T300 [trap_in [layer 1 1] 73 (of3 61 28 (-14))] false
  3 (linear 2 INR) [[(0%nat, 3)]; [(2%nat, 6)]] (of3 3 1 6).
Proof.
  split.
  - intros [|[|[|i]]] Hi; [reflexivity| |reflexivity|lia]. cbn [boundary_value find fst snd Nat.eqb option_map]. rows.
  - intros [|j] i Hj Hi; [|cbn in Hj; lia]. destruct i as [|[|[|i]]]; [rows|rows|rows|lia].
Qed.
(** A trap in one of two layers changes the mobile concentration and the fluxes, which are no longer the same in the two layers
    (1 - 3 and 6 - 1); without the trap they would both be 3/2.  The trap holds less than nothing at the end of the other layer. *)
Theorem C105_one_layer_refuted : exists K X rule vol left right mb ms T t bcs x y,
  covered (segment K X rule vol left right) ms /\ positive_temperature (segment K X rule vol left right) T /\
  no_surface_kinetics mb /\ t_sources t = [] /\ (exists m, In m ms /\ t_materials t = [m]) /\ t_solution t = span (S K) (linear K X) y /\
  ends_only K bcs /\ solves_with_traps (segment K X rule vol left right) mb ms T [t] false (S K) (linear K X) bcs x /\
  (forall e, (e < K)%nat -> length_of X e = 1) /\ (forall m, In m ms -> m_D0 (attrs m) = Const 1 /\ m_ED (attrs m) = Const 0) /\
  x 1%nat - x 0%nat <> x 2%nat - x 1%nat /\ y K < 0.
Proof.
  exists 2%nat, INR, simpson, vol2, 1%Z, 2%Z, mobile_1, layers_1, T300, (trap_in [layer 1 1] 73 (of3 61 28 (-14))), [[(0%nat, 3)]; [(2%nat, 6)]], (of3 3 1 6), (of3 61 28 (-14)).
  split. { split; [repeat constructor; cbn; intuition discriminate|]. intros p _. cbn. unfold vol2. destruct (element 2 p); auto. }
  split; [intros p _; cbn; lra|]. split; [intros b []|]. split; [reflexivity|]. split; [exists (layer 1 1); split; [now left|reflexivity]|].
  split; [reflexivity|]. split; [intros i Hi; replace i with 1%nat by lia; reflexivity|]. split; [exact one_layer_trap|].
  split; [intros e _; unfold length_of; rewrite S_INR; ring|]. split; [intros m [<-|[<-|[]]]; split; reflexivity|]. cbn. lra.
Qed.
Print Assumptions C105_one_layer_refuted.

(** What a trap holds is unique. *)
Theorem C105_unique {P} (M : mesh P) mb ms T traps traps' soret j t t' k d n c cn W v :
  covered M ms -> concentrations M mb T ms c cn -> positive_temperature M T ->
  nth_error traps j = Some t -> kinetics M T t k d n -> t_materials t = ms -> t_sources t = [] ->
  nth_error traps' j = Some t' -> kinetics M T t' k d n -> t_materials t' = ms -> t_sources t' = [] ->
  (forall p, In p (q_cells M) -> 0 < q_weight M p) -> (forall p, In p (q_cells M) -> 0 < k p * c p + d p) ->
  (forall v, W v -> weak_residual M mb ms T None traps soret (only_trap j v) 0) ->
  (forall v, W v -> weak_residual M mb ms T None traps' soret (only_trap j v) 0) ->
  W v -> (forall p, In p (q_cells M) -> val (v p) = val (t_solution t' p) - val (t_solution t p)) ->
  forall p, In p (q_cells M) -> val (t_solution t' p) = val (t_solution t p).
Proof.
  intros Hcov Hc HT Hj Hkin Hm Hs Hj' Hkin' Hm' Hs' Hw Hpos HW HW' Hv Hd p Hp.
  destruct (C105_langmuir M mb ms T traps soret j t k d n c cn W) as (O1 & _ & _); try assumption.
  destruct (C105_langmuir M mb ms T traps' soret j t' k d n c cn W) as (O2 & _ & _); try assumption. specialize (O1 v Hv). specialize (O2 v Hv). cbv beta in O1, O2.
  assert (E : integral M DxAll (fun p => (k p * c p + d p) * val (v p) ^ 2) = 0).
  { transitivity (integral M DxAll (fun p => (k p * c p + d p) * (langmuir (k p) (d p) (n p) (c p) - val (t_solution t p)) * val (v p))
      + - integral M DxAll (fun p => (k p * c p + d p) * (langmuir (k p) (d p) (n p) (c p) - val (t_solution t' p)) * val (v p))); [|lra].
    rewrite <- integral_opp, <- integral_plus. apply integral_ext. intros q Hq. rewrite (Hd q Hq). ring. }
  assert (H : val (v p) = 0); [|rewrite Hd in H by exact Hp; lra].
  revert E p Hp. unfold integral, points. clear -Hw Hpos. induction (q_cells M) as [|q l IH]; intros E p Hp; [destruct Hp|].
  cbn [map] in E. rewrite rsum_cons in E.
  assert (Hn : forall l', (forall q, In q l' -> 0 < q_weight M q /\ 0 < k q * c q + d q) ->
    0 <= rsum (map (fun q => q_weight M q * ((k q * c q + d q) * val (v q) ^ 2)) l')).
  { clear. induction l' as [|q l' IH]; intros H; [cbn; lra|]. cbn [map]. rewrite rsum_cons. destruct (H q (or_introl eq_refl)).
    pose proof (IH (fun q' Hq' => H q' (or_intror Hq'))). pose proof (pow2_ge_0 (val (v q))).
    assert (0 <= (k q * c q + d q) * val (v q) ^ 2) by nra. nra. }
  specialize (Hn l (fun q' Hq' => conj (Hw q' (or_intror Hq')) (Hpos q' (or_intror Hq')))).
  assert (H1 := Hw q (or_introl eq_refl)). assert (H2 := Hpos q (or_introl eq_refl)). pose proof (pow2_ge_0 (val (v q))) as H3.
  assert (H4 : 0 <= q_weight M q * ((k q * c q + d q) * val (v q) ^ 2)) by (apply Rmult_le_pos; [lra|apply Rmult_le_pos; lra]).
  destruct Hp as [<-|Hp].
  - assert (H5 : q_weight M q * ((k q * c q + d q) * val (v q) ^ 2) = 0) by lra. apply Rmult_integral in H5. destruct H5 as [H5|H5]; [lra|].
    apply Rmult_integral in H5. destruct H5 as [H5|H5]; [lra|]. destruct (Req_dec (val (v q)) 0) as [E0|E0]; [exact E0|]. exfalso. apply (pow_nonzero _ 2 E0 H5).
  - apply (IH (fun q' Hq' => Hw q' (or_intror Hq')) (fun q' Hq' => Hpos q' (or_intror Hq'))); [lra|exact Hp].
Qed.
Print Assumptions C105_unique.

(** Concentration 1 imposed at both ends, a trap with k = p = 1 and density 4 in both layers: it holds 2 = 4 * 1 / (1 + 1)
    everywhere, and the concentration is 1 as without the trap. *)
Example C105_example :
  let M := segment 2 INR simpson vol2 1 2 in
  let t := trap_in layers_1 4 (of3 2 2 2) in
  let W := fun v : field pt => exists f, v = span 3 (linear 2 INR) f in
  let mb := mkMobile ClassMobile (span 3 (linear 2 INR) (of3 1 1 1)) (fun _ => dconst 0) (fun _ => dconst 0) [] [] in
  no_surface_kinetics mobile_1 /\ (forall m, In m layers_1 -> mat_in m (t_materials t) = true) /\ t_sources t = [] /\
  (exists r, hydrogen_residual M mobile_1 layers_1 T300 None false 3 (linear 2 INR) r) /\
  solves_with_traps M mobile_1 layers_1 T300 [t] false 3 (linear 2 INR) [[(0%nat, 1)]; [(2%nat, 1)]] (of3 1 1 1) /\
  covered M layers_1 /\ concentrations M mb T300 layers_1 (fun p => val (mb_solution mb p)) (fun _ => 0) /\ positive_temperature M T300 /\
  kinetics M T300 t (fun _ => 1) (fun _ => 1) (fun _ => 4) /\ (forall p, In p (q_cells M) -> 0 < q_weight M p) /\
  (forall p, In p (q_cells M) -> 0 < 1 * val (mb_solution mb p) + 1) /\
  (forall v, W v -> weak_residual M mb layers_1 T300 None [t] false (only_trap 0 v) 0) /\
  (exists v, W v /\ forall p, In p (q_cells M) -> val (v p) = langmuir 1 1 4 (val (mb_solution mb p)) - val (t_solution t p)).
Proof.
  intros M t W mb. assert (HR := simpson_exact).
  assert (Hone : forall a p, point M p -> val (span 3 (linear 2 INR) (of3 a a a) p) = a).
  { intros a p Hp. rewrite (proj1 (span_segment 2 INR simpson vol2 1 2 ltac:(lia) HR _ p Hp)).
    assert (forall i, of3 a a a i = a) as E by (intros [|[|i]]; reflexivity). rewrite !E. ring. }
  split; [intros b []|]. split; [intros m [<-|[<-|[]]]; reflexivity|]. split; [reflexivity|]. split.
  { exists (fun x i => match define_variational_problem M (mkMobile ClassMobile (span 3 (linear 2 INR) x) (fun _ => dconst 0) (linear 2 INR i) [] []) layers_1 T300 None [] false with
                       Ok F => assemble M F | Err _ => 0 end).
    intros x i _. eexists. split; cbn; reflexivity. }
  split.
  { split.
    - intros [|[|[|i]]] Hi; [reflexivity| |reflexivity|lia]. cbn [boundary_value find fst snd Nat.eqb option_map]. rows.
    - intros [|j] i Hj Hi; [|cbn in Hj; lia]. destruct i as [|[|[|i]]]; [rows|rows|rows|lia]. }
  assert (Hcov : covered M layers_1). { split; [repeat constructor; cbn; intuition discriminate|]. intros p _. cbn. unfold vol2. destruct (element 2 p); auto. }
  assert (Hc : concentrations M mb T300 layers_1 (fun p => val (mb_solution mb p)) (fun _ => 0)) by (intros p _ m _ _; split; reflexivity).
  assert (HT : positive_temperature M T300) by (intros p _; cbn; lra).
  assert (Hkin : kinetics M T300 t (fun _ => 1) (fun _ => 1) (fun _ => 4)).
  { intros p _ i m k_0 E_k p_0 E_p nn _ _ [(E1 & E2 & E3 & E4 & E5)|(lk & _ & _ & _ & E & _)]; [|discriminate E].
    cbn in E1, E2, E3, E4, E5. injection E1 as <-. injection E2 as <-. injection E3 as <-. injection E4 as <-. injection E5 as <-.
    unfold arrhenius, Rdiv. rewrite Rmult_0_l, exp_0, Rinv_1, Rmult_1_r. auto. }
  split; [exact Hcov|]. split; [exact Hc|]. split; [exact HT|]. split; [exact Hkin|].
  split. { intros p Hp. cbn in Hp. destruct Hp as [<-|[<-|[<-|[<-|[<-|[<-|[]]]]]]]; cbn; unfold length_of; cbn; lra. }
  split. { intros p Hp. unfold mb. cbn [mb_solution]. rewrite Hone by now left. lra. }
  split.
  { intros v [f ->]. eexists. split; [cbn; reflexivity|]. unfold assemble, integral, points; cbn; rewrite ?rsum_cons, ?rsum_nil; unfold dot; cbn; rewrite ?exp_00; unfold length_of; cbn; field. }
  exists (span 3 (linear 2 INR) (of3 0 0 0)). split; [eexists; reflexivity|]. intros p Hp. assert (Hpp : point M p) by now left.
  unfold t, mb. cbn [t_solution trap_in mb_solution]. rewrite !Hone by exact Hpp. unfold langmuir. field.
Qed.
