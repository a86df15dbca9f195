From Coq Require Import Reals ZArith List Arith Lra Lia.
From Verif Require Import Base.Exc Base.Dual Model.Materials Model.Laws Model.Theta Model.Forms Model.NonlinearProblem
  Spec.PhysSpec Spec.BalanceSpec Spec.NewtonSpec Spec.MaximumSpec Spec.WeakSpec Spec.TrapSteadySpec
  Proofs.LawProofs Proofs.FormProofs Proofs.MaximumProofs Proofs.WeakProofs Proofs.BudgetProofs Proofs.RestProofs Properties.WeakProps.
Import ListNotations.
Local Open Scope R_scope.

Section TrapSteady.
Context {P : Type}.
Implicit Types (M : mesh P) (v : test_functions P).

(** The equation of the mobile species does not read the test functions of the traps. *)
Lemma trapping_retest mb T traps v i :
  sum_forms (fun t => sum_forms_enum (mobile_trapping_terms mb T t) 0 (t_materials t)) (mapi_from (retest_trap v) i traps)
  = sum_forms (fun t => sum_forms_enum (mobile_trapping_terms mb T t) 0 (t_materials t)) traps.
Proof. revert i. induction traps as [|t r IH]; intros i; [reflexivity|]. cbn [mapi_from sum_forms]. rewrite IH. reflexivity. Qed.
Lemma mobile_form_retest M mb ms T dt traps soret v :
  mobile_create_form M mb ms T dt (retest_traps traps v) soret = mobile_create_form M mb ms T dt traps soret.
Proof. unfold mobile_create_form, create_diffusion_form, retest_traps. now rewrite trapping_retest. Qed.
Lemma no_kinetics_retest mb v (Hk : no_surface_kinetics mb) : mapi_from (retest_bc v) 0 (mb_bcs mb) = mb_bcs mb.
Proof.
  unfold no_surface_kinetics in Hk. revert Hk. generalize 0%nat. induction (mb_bcs mb) as [|b r IH]; intros i Hk; [reflexivity|].
  cbn [mapi_from]. rewrite IH by (intros b' Hb'; apply (Hk b'); now right). f_equal. destruct b as [|s]; [reflexivity|]. destruct (Hk s). now left.
Qed.

(** Traps in all materials and without sources: what they take is what the mobile species loses. *)
Lemma trap_transparent M mb ms T t K G :
  (forall p, In p (q_cells M) -> val (t_test t p) = val (mb_test mb p)) ->
  (forall m, In m ms -> mat_in m (t_materials t) = true) -> t_sources t = [] ->
  sum_forms_enum (mobile_trapping_terms mb T t) 0 (t_materials t) = Ok K -> trap_create_form mb ms T None t = Ok G ->
  assemble M G = assemble M K + 0.
Proof.
  intros Ht Hm Hs HK. unfold trap_create_form, create_trapping_form. rewrite Hs. cbn [sum_forms].
  match goal with |- bind (bind ?x _) _ = _ -> _ => destruct x as [F0|e] eqn:HF0 end; cbn [bind]; [|discriminate].
  destruct (sum_forms_enum (trapping_terms mb T t) 0 (t_materials t)) as [F1|e] eqn:HF1; cbn [bind]; [|discriminate].
  intros HG. injection HG as HG. subst G. rewrite !assemble_app, assemble_nil.
  rewrite (sum_forms_assemble M _ (fun _ => 0) _ _ HF0).
  2:{ intros m H Hin. rewrite (Hm m Hin). intros HH. injection HH as HH. subst H. reflexivity. }
  rewrite (sum_forms_enum_rel M _ _ _ _ _ _ HK HF1).
  2:{ intros i m A B _ HA HB. exact (trapping_cancel M mb T t i m A B Ht HA HB). }
  unfold sum_over. rewrite rsum_map_zero by reflexivity. ring.
Qed.

Lemma transparent M mb ms T traps soret v F F0 :
  (forall i p, (i < length traps)%nat -> val (v_trap v i p) = val (v_mobile v p)) ->
  (forall t, In t traps -> (forall m, In m ms -> mat_in m (t_materials t) = true) /\ t_sources t = []) ->
  define_variational_problem M (retest_mobile mb v) ms T None (retest_traps traps v) soret = Ok F ->
  define_variational_problem M (retest_mobile mb v) ms T None [] soret = Ok F0 ->
  assemble M F = assemble M F0.
Proof.
  intros Hv Ht. unfold define_variational_problem. rewrite mobile_form_retest. unfold mobile_create_form, create_diffusion_form.
  destruct (sum_forms (material_form M (retest_mobile mb v) T None soret) ms) as [F1|e] eqn:HF1; cbn [bind]; [|discriminate].
  match goal with |- bind (bind (bind ?x _) _) _ = _ -> _ => destruct x as [F2|e] eqn:HF2 end; cbn [bind]; [|discriminate].
  destruct (sum_forms (trap_create_form (retest_mobile mb v) ms T None) (retest_traps traps v)) as [G|e] eqn:HG; cbn [bind]; [|discriminate].
  cbn [sum_forms bind]. intros HF HF0. injection HF as HF. injection HF0 as HF0. subst F F0. rewrite !assemble_app, !assemble_neg, !assemble_nil.
  assert (E : sum_forms (fun t => sum_forms_enum (mobile_trapping_terms (retest_mobile mb v) T t) 0 (t_materials t)) (retest_traps traps v) = Ok F2).
  { rewrite <- HF2. apply trapping_retest. }
  assert (Hin : forall i t', In t' (mapi_from (retest_trap v) i traps) -> exists j t, In t traps /\ (i <= j < i + length traps)%nat /\ t' = retest_trap v j t).
  { clear. induction traps as [|t r IH]; intros i t'; [intros []|]. cbn [mapi_from]. intros [<-|H].
    - exists i, t. split; [now left|]. split; [cbn; lia|reflexivity].
    - destruct (IH _ _ H) as (j & t0 & Hj & Hb & E). exists j, t0. split; [now right|]. split; [cbn; lia|exact E]. }
  rewrite (sum_forms_both M _ _ (fun _ => 0) _ _ _ E HG).
  - unfold sum_over. rewrite rsum_map_zero by reflexivity. ring.
  - intros t' K L Hin' HK HL. destruct (Hin _ _ Hin') as (j & t & Htr & Hj & ->). destruct (Ht t Htr) as [H1 H2].
    apply (trap_transparent M (retest_mobile mb v) ms T (retest_trap v j t)); try assumption. intros p _. cbn. apply Hv. lia.
Qed.

(** The rows together. *)
Lemma rows_combination (n : nat) (f : field P) :
  combination ((1, only_mobile f) :: map (fun j => (1, only_trap j f)) (seq 0 n))
    (mkTests f (fun i => if Nat.ltb i n then f else null) (fun _ _ => null)).
Proof.
  assert (HZ : forall (h : nat -> R), (forall j, h j = 0) -> rsum (map h (seq 0 n)) = 0) by (intros h Hh; apply rsum_map_zero; auto).
  assert (HD : forall i (a : R), rsum (map (fun j => 1 * (if Nat.eqb i j then a else 0)) (seq 0 n)) = if Nat.ltb i n then a else 0).
  { intros i a. destruct (Nat.ltb_spec i n) as [H|H].
    - rewrite (rsum_map_ext _ (fun j => if Nat.eqb j i then a else 0)) by (intros j _; rewrite (Nat.eqb_sym i j); destruct (Nat.eqb j i); ring).
      rewrite (rsum_delta (fun _ => a)) by lia. reflexivity.
    - apply rsum_map_zero. intros j Hj. apply in_seq in Hj. destruct (Nat.eqb_spec i j); [lia|ring]. }
  unfold combination, component. cbn [map v_mobile v_trap v_ads fst snd only_mobile]. rewrite !map_map. cbn [fst snd only_trap v_mobile v_trap v_ads].
  split; [|split].
  - intros p. cbn [map fst snd]. rewrite rsum_cons, !map_map. cbn [fst snd v_mobile v_trap v_ads only_trap]. split; [rewrite HZ by (intros; cbn; ring); cbn; ring|].
    intros i. rewrite rsum_cons, !map_map. cbn [fst snd v_mobile v_trap v_ads only_trap]. rewrite HZ by (intros; cbn; ring). ring.
  - intros i p. cbn [map fst snd]. rewrite rsum_cons, !map_map. cbn [fst snd v_mobile v_trap v_ads only_trap]. split.
    + rewrite (rsum_map_ext _ (fun j => 1 * (if Nat.eqb i j then val (f p) else 0))) by (intros j _; destruct (Nat.eqb i j); reflexivity).
      rewrite HD. destruct (Nat.ltb i n); cbn; ring.
    + intros k. rewrite rsum_cons, !map_map. cbn [fst snd v_mobile v_trap v_ads only_trap].
      rewrite (rsum_map_ext _ (fun j => 1 * (if Nat.eqb i j then grd (f p) k else 0))) by (intros j _; destruct (Nat.eqb i j); reflexivity).
      rewrite HD. destruct (Nat.ltb i n); cbn; ring.
  - intros a b p. cbn [map fst snd]. rewrite rsum_cons, !map_map. cbn [fst snd v_mobile v_trap v_ads only_trap]. split; [rewrite HZ by (intros; cbn; ring); cbn; ring|].
    intros i. rewrite rsum_cons, !map_map. cbn [fst snd v_mobile v_trap v_ads only_trap]. rewrite HZ by (intros; cbn; ring). cbn. ring.
Qed.

(** The equation of trap j alone. *)
Lemma one_trap_differs M mb ms T v v' j t traps : nth_error traps j = Some t ->
  forall i G G', (forall k, k <> (i + j)%nat -> v_trap v k = v_trap v' k) ->
  sum_forms (trap_create_form mb ms T None) (mapi_from (retest_trap v) i traps) = Ok G ->
  sum_forms (trap_create_form mb ms T None) (mapi_from (retest_trap v') i traps) = Ok G' ->
  exists K K', trap_create_form mb ms T None (retest_trap v (i + j) t) = Ok K /\ trap_create_form mb ms T None (retest_trap v' (i + j) t) = Ok K' /\
    assemble M G - assemble M G' = assemble M K - assemble M K'.
Proof.
  revert j. induction traps as [|u r IH]; intros j Hj; [destruct j; discriminate|]. intros i G G' Hv. cbn [mapi_from sum_forms].
  destruct (trap_create_form mb ms T None (retest_trap v i u)) as [K|e] eqn:EK; cbn [bind]; [|discriminate].
  destruct (sum_forms (trap_create_form mb ms T None) (mapi_from (retest_trap v) (S i) r)) as [H|e] eqn:EH; cbn [bind]; [|discriminate].
  destruct (trap_create_form mb ms T None (retest_trap v' i u)) as [K'|e] eqn:EK'; cbn [bind]; [|discriminate].
  destruct (sum_forms (trap_create_form mb ms T None) (mapi_from (retest_trap v') (S i) r)) as [H'|e] eqn:EH'; cbn [bind]; [|discriminate].
  intros HG HG'. injection HG as <-. injection HG' as <-. rewrite !assemble_app. destruct j as [|j]; cbn [nth_error] in Hj.
  - injection Hj as ->. rewrite Nat.add_0_r. exists K, K'. split; [exact EK|]. split; [exact EK'|].
    assert (E : mapi_from (retest_trap v) (S i) r = mapi_from (retest_trap v') (S i) r).
    { assert (Hle : (i < S i)%nat) by lia. revert Hle. clear -Hv. generalize (S i) as k. induction r as [|w r IH]; intros k Hk; [reflexivity|].
      cbn [mapi_from]. rewrite IH by lia. f_equal. unfold retest_trap. rewrite (Hv k) by lia. reflexivity. }
    rewrite E, EH' in EH. injection EH as ->. ring.
  - rewrite Nat.add_succ_r in Hv |- *. destruct (IH j Hj (S i) H H' Hv EH EH') as (A & A' & E1 & E2 & E3). exists A, A'. split; [exact E1|]. split; [exact E2|].
    assert (E : retest_trap v i u = retest_trap v' i u) by (unfold retest_trap; rewrite (Hv i) by lia; reflexivity).
    rewrite E, EK' in EK. injection EK as ->. lra.
Qed.
Definition nothing : test_functions P := mkTests null (fun _ => null) (fun _ _ => null).
Lemma trap_row M mb ms T traps soret j t (f : field P) :
  nth_error traps j = Some t -> weak_residual M mb ms T None traps soret (only_trap j f) 0 ->
  exists K K', trap_create_form mb ms T None (retest_trap (only_trap j f) j t) = Ok K /\ trap_create_form mb ms T None (retest_trap nothing j t) = Ok K' /\
    assemble M K = assemble M K'.
Proof.
  intros Hj (F & HF & H0). destruct (C75_linear M mb ms T None traps soret) as [Herr Hlin].
  destruct (define_variational_problem M (retest_mobile mb nothing) ms T None (retest_traps traps nothing) soret) as [F'|e] eqn:HF'.
  2:{ rewrite (Herr _ (only_trap j f) _ HF') in HF. discriminate. }
  assert (E : assemble M F' = 0).
  { rewrite (Hlin [] nothing (assemble M F') (fun _ => 0)); [reflexivity| | |intros q []].
    - split; [|split]; [intros p|intros i p|intros a b p]; cbn; split; try intros; reflexivity.
    - exists F'. split; [exact HF'|reflexivity]. }
  unfold define_variational_problem in HF, HF'. rewrite mobile_form_retest in HF, HF'.
  change (retest_mobile mb (only_trap j f)) with (retest_mobile mb nothing) in HF.
  destruct (mobile_create_form M (retest_mobile mb nothing) ms T None traps soret) as [A|e]; cbn [bind] in HF, HF'; [|discriminate].
  destruct (sum_forms (trap_create_form (retest_mobile mb nothing) ms T None) (retest_traps traps (only_trap j f))) as [G|e] eqn:HG; cbn [bind] in HF; [|discriminate].
  destruct (sum_forms (trap_create_form (retest_mobile mb nothing) ms T None) (retest_traps traps nothing)) as [G'|e] eqn:HG'; cbn [bind] in HF'; [|discriminate].
  injection HF as <-. injection HF' as <-. rewrite assemble_app in H0, E.
  destruct (one_trap_differs M (retest_mobile mb nothing) ms T (only_trap j f) nothing j t traps Hj 0 G G') as (K & K' & E1 & E2 & E3); [|exact HG|exact HG'|].
  { intros k Hk. cbn in Hk |- *. destruct (Nat.eqb_spec k j); [contradiction|reflexivity]. }
  exists K, K'. split; [exact E1|]. split; [exact E2|]. lra.
Qed.

Lemma enum_assemble M (f : nat -> mat_obj -> res (form P)) (h : P -> R) ms : forall i F,
  sum_forms_enum f i ms = Ok F ->
  (forall j m K, nth_error ms j = Some m -> f (i + j)%nat m = Ok K -> exists z, m_id (attrs m) = IdOne z /\ assemble M K = integral M (Dx z) h) ->
  assemble M F = sum_over (all_ids ms) (fun z => integral M (Dx z) h).
Proof.
  induction ms as [|m r IH]; intros i F; cbn [sum_forms_enum].
  - intros H _. injection H as <-. reflexivity.
  - destruct (f i m) as [K|e] eqn:EK; cbn [bind]; [|discriminate].
    destruct (sum_forms_enum f (S i) r) as [G|e] eqn:EG; cbn [bind]; [|discriminate]. intros HF Hf. injection HF as <-.
    destruct (Hf 0%nat m K eq_refl) as (z & Hz & E); [now rewrite Nat.add_0_r|].
    rewrite assemble_app, E, (IH (S i) G EG).
    + unfold all_ids. cbn [flat_map]. rewrite Hz. cbn [ids app]. now rewrite sum_over_cons.
    + intros j m' K' Hj HK'. apply (Hf (S j) m' K' Hj). now rewrite Nat.add_succ_r.
Qed.

Lemma langmuir_form M mb ms T t k d n c cn K :
  covered M ms -> concentrations M mb T ms c cn -> positive_temperature M T -> kinetics M T t k d n ->
  t_materials t = ms -> t_sources t = [] -> trap_create_form mb ms T None t = Ok K ->
  assemble M K = integral M DxAll (fun p => ((k p * c p + d p) * val (t_solution t p) - n p * (k p * c p)) * val (t_test t p)).
Proof.
  intros Hcov Hc HT Hk Hm Hs. unfold trap_create_form, create_trapping_form. rewrite Hs. cbn [sum_forms].
  match goal with |- bind (bind ?x _) _ = _ -> _ => destruct x as [F0|e] eqn:HF0 end; cbn [bind]; [|discriminate].
  destruct (sum_forms_enum (trapping_terms mb T t) 0 (t_materials t)) as [F1|e] eqn:HF1; cbn [bind]; [|discriminate].
  intros HG. injection HG as HG. subst K. rewrite !assemble_app, assemble_nil.
  rewrite (sum_forms_assemble M _ (fun _ => 0) _ _ HF0).
  2:{ intros m H Hin. replace (mat_in m (t_materials t)) with true.
      - intros HH. injection HH as HH. subst H. reflexivity.
      - symmetry. rewrite Hm. unfold mat_in. apply existsb_exists. exists m. split; [exact Hin|apply Nat.eqb_refl]. }
  unfold sum_over at 1. rewrite rsum_map_zero by reflexivity. rewrite Rplus_0_l, Rplus_0_r.
  set (h := fun p => ((k p * c p + d p) * val (t_solution t p) - n p * (k p * c p)) * val (t_test t p)).
  destruct Hcov as [Hnd Hcov]. rewrite <- (integral_cover M (all_ids ms)) by (auto; intros p Hp; apply Hcov; now left).
  rewrite Hm in HF1. apply (enum_assemble M _ h ms 0 F1 HF1). intros j m K Hj. cbn [plus]. unfold trapping_terms.
  match goal with |- bind ?x _ = _ -> _ => destruct x as [[[[[k_0 E_k] p_0] E_p] nn]|e] eqn:Ep end; cbn [bind]; [|discriminate].
  match goal with |- bind ?x _ = _ -> _ => destruct x as [[]|e] end; cbn [bind]; [|discriminate].
  destruct (get_concentration mb (attrs m) T) as [[g gn]|e] eqn:Hg; cbn [bind]; [|discriminate].
  destruct (m_id (attrs m)) as [z|l] eqn:Hid; cbn [dx_id bind]; [|discriminate].
  intros HK. injection HK as <-. exists z. split; [reflexivity|]. rewrite !assemble_cons, assemble_nil. cbn [fst snd].
  rewrite Rplus_0_r, <- integral_plus. apply integral_ext. intros p Hp. cbn [points] in Hp. apply filter_In in Hp. destruct Hp as [Hp Hz]. apply Z.eqb_eq in Hz.
  assert (Hin : In m ms) by (eapply nth_error_In; eassumption).
  assert (Hzz : In (q_volume M p) (ids (m_id (attrs m)))) by (rewrite Hid; cbn; auto).
  destruct (get_concentration_val M mb T ms c cn m g gn p Hc HT Hg (or_introl Hp) Hin Hzz) as [-> _].
  assert (Hpar : trap_params t j k_0 E_k p_0 E_p nn).
  { apply params_spec. exact Ep. }
  destruct (Hk p Hp j m k_0 E_k p_0 E_p nn ltac:(rewrite Hm; exact Hj) Hzz Hpar) as (E1 & E2 & E3). destruct (HT p (or_introl Hp)) as [HT1 _].
  unfold h. rewrite E1, E2, E3, <- !arrhenius_model by exact HT1. ring.
Qed.
End TrapSteady.
