(** C104: steady permeation through layers of different solubilities, Sieverts or Henry, with conservation of chemical potential. *)
From Coq Require Import String Reals ZArith List Bool Arith Lra Lia Psatz.
From Verif Require Import Base.Exc Base.Dual Model.Materials Model.Laws Model.Theta Model.Exports Model.Forms Model.Quantities Model.PostProcess Model.NonlinearProblem
  Spec.PhysSpec Spec.BalanceSpec Spec.NewtonSpec Spec.MaximumSpec Spec.PermeationSpec Spec.ConductionSpec Spec.VariableSpec Spec.CompositeSpec Spec.QuantitySpec Spec.FluxSpec
  Proofs.LawProofs Proofs.ThetaProofs Proofs.FormProofs Proofs.BudgetProofs Proofs.MaximumProofs Proofs.PermeationProofs Proofs.CompositeProofs
  Properties.MaximumProps Properties.QuantityProps Properties.FluxProps Properties.PermeationProps.
Import ListNotations.
Local Open Scope R_scope.

Lemma composite_solves K X rule vol left right mb ms T t L r bcs x :
  composite K X rule vol left right mb ms T t L ->
  hydrogen_residual (segment K X rule vol left right) mb ms T None false (S K) (linear K X) r -> ends_only K bcs ->
  (solves (S K) bcs r x <->
   (forall i v, (i < S K)%nat -> boundary_value bcs i = Some v -> x i = v) /\
   exists J, (forall e, (e < K)%nat -> through X L t x e = J) /\
     (boundary_value bcs 0 = None -> J = - entering_left K X rule vol left right mb T t L x) /\
     (boundary_value bcs K = None -> J = entering_right K X rule vol left right mb T t L x)).
Proof.
  intros Hc Hr Hends. pose proof Hc as (HK & HX & HR & _).
  rewrite <- (flux_chain K (through X L t x) (entering_left K X rule vol left right mb T t L x) (entering_right K X rule vol left right mb T t L x) bcs HK Hends).
  pose proof (fun i Hi => theta_residual K X rule vol left right HK HX HR mb ms T t L r x i Hc Hr Hi) as HRs.
  unfold solves, problem_F. split.
  - intros Hs. split.
    + intros i v Hi E. specialize (Hs i Hi). rewrite E in Hs. lra.
    + intros i Hi E. specialize (Hs i Hi). rewrite E in Hs. rewrite <- HRs by exact Hi. exact Hs.
  - intros [H1 H2] i Hi. destruct (boundary_value bcs i) as [v|] eqn:E; [rewrite (H1 i v Hi E); ring|]. rewrite HRs by exact Hi. auto.
Qed.
Lemma composite_pos K X rule vol left right mb ms T t L e : composite K X rule vol left right mb ms T t L -> (e < K)%nat ->
  0 < permeability (L e) t /\ 0 < length_of X e /\ 0 < permeability (L e) t / length_of X e.
Proof.
  intros (HK & HX & _ & _ & _ & _ & HL & _) He. destruct (HL e He) as (_ & H0 & H1). pose proof (permeability_pos (L e) t H0 H1).
  pose proof (length_pos K X HX e He). split; [assumption|]. split; [assumption|]. now apply Rdiv_lt_0_compat.
Qed.

(** The same flux J crosses every element. *)
Theorem C104_series K X rule vol left right mb ms T t L r bcs x :
  let M := segment K X rule vol left right in
  composite K X rule vol left right mb ms T t L -> hydrogen_residual M mb ms T None false (S K) (linear K X) r ->
  ends_only K bcs -> solves (S K) bcs r x ->
  exists J, (forall e, (e < K)%nat -> through X L t x e = J) /\
    (boundary_value bcs 0 = None -> J = - entering_left K X rule vol left right mb T t L x) /\
    (boundary_value bcs K = None -> J = entering_right K X rule vol left right mb T t L x).
Proof.
  intros M Hc Hr Hends Hs. apply (composite_solves K X rule vol left right mb ms T t L r bcs x Hc Hr Hends) in Hs. apply Hs.
Qed.
Print Assumptions C104_series.

Lemma resistance_S X L t i : permeation_resistance X L t (S i) = permeation_resistance X L t i + length_of X i / permeability (L i) t.
Proof. unfold permeation_resistance. rewrite seq_S, map_app, rsum_app. cbn [map plus]. rewrite rsum_cons, rsum_nil. ring. Qed.
Lemma resistance_pos K X rule vol left right mb ms T t L : composite K X rule vol left right mb ms T t L -> 0 < permeation_resistance X L t K.
Proof.
  intros Hc. pose proof Hc as (HK & _).
  assert (H : forall n, (n <= K)%nat -> 0 <= permeation_resistance X L t n /\ ((0 < n)%nat -> 0 < permeation_resistance X L t n)).
  { induction n as [|n IH]; intros Hn; [split; [unfold permeation_resistance; cbn; lra|lia]|]. destruct (IH ltac:(lia)) as [H0 _].
    rewrite resistance_S. destruct (composite_pos K X rule vol left right mb ms T t L n Hc ltac:(lia)) as (A & B & _).
    pose proof (Rdiv_lt_0_compat _ _ B A). split; [lra|intros; lra]. }
  now apply H.
Qed.

(** Layers that all follow Sieverts' law, or all Henry's: the activities are those of resistances in series. *)
Theorem C104_law K X rule vol left right mb ms T t L l r bcs a b x :
  let M := segment K X rule vol left right in
  composite K X rule vol left right mb ms T t L -> hydrogen_residual M mb ms T None false (S K) (linear K X) r ->
  ends_only K bcs -> (forall e, (e < K)%nat -> k_law (L e) = l) -> boundary_value bcs 0 = Some a -> boundary_value bcs K = Some b ->
  (solves (S K) bcs r x <-> x 0%nat = a /\ x K = b /\ forall i, (i <= K)%nat ->
     activity l (x i) = activity l a + (activity l b - activity l a) / permeation_resistance X L t K * permeation_resistance X L t i) /\
  (solves (S K) bcs r x -> forall e, (e < K)%nat ->
     through X L t x e * permeation_resistance X L t K = activity l b - activity l a).
Proof.
  intros M Hc Hr Hends Hl H0 HKv. pose proof Hc as (HK & _). pose proof (resistance_pos _ _ _ _ _ _ _ _ _ _ _ Hc) as RK.
  pose proof (composite_solves K X rule vol left right mb ms T t L r bcs x Hc Hr Hends) as Hs.
  assert (Hsum : forall J, (forall e, (e < K)%nat -> through X L t x e = J) ->
    forall i, (i <= K)%nat -> activity l (x i) - activity l (x 0%nat) = J * permeation_resistance X L t i).
  { intros J HJ. induction i as [|i IH]; intros Hi; [unfold permeation_resistance; cbn; ring|].
    rewrite resistance_S, Rmult_plus_distr_l, <- IH by lia. rewrite <- (HJ i) by lia. unfold through. rewrite Hl by lia.
    destruct (composite_pos K X rule vol left right mb ms T t L i Hc ltac:(lia)) as (A & B & _). field. lra. }
  split; [split|].
  - intros H. apply Hs in H. destruct H as [Hv (J & HJ & _)].
    assert (E0 : x 0%nat = a) by (apply Hv; [lia|assumption]). assert (EK : x K = b) by (apply Hv; [lia|assumption]).
    split; [exact E0|]. split; [exact EK|]. pose proof (Hsum J HJ) as H. pose proof (H K ltac:(lia)) as HKJ. rewrite E0, EK in HKJ.
    intros i Hi. specialize (H i Hi). rewrite E0 in H. rewrite HKJ. replace (J * permeation_resistance X L t K / permeation_resistance X L t K) with J by (field; lra). lra.
  - intros (E0 & EK & Hx). apply Hs. split.
    + intros i v Hi E. destruct (Nat.eq_dec i 0) as [Ei|Ei]; [subst i; congruence|]. destruct (Nat.eq_dec i K) as [EiK|EiK]; [subst i; congruence|].
      rewrite Hends in E by lia. discriminate.
    + exists ((activity l b - activity l a) / permeation_resistance X L t K). split; [|split; congruence].
      intros e He. unfold through. rewrite Hl, (Hx e), (Hx (S e)), resistance_S by lia.
      destruct (composite_pos K X rule vol left right mb ms T t L e Hc He) as (A & B & _). field. lra.
  - intros H e He. apply Hs in H. destruct H as [Hv (J & HJ & _)]. rewrite (HJ e He). pose proof (Hsum J HJ K ltac:(lia)) as HKJ.
    rewrite (Hv 0%nat a ltac:(lia) H0), (Hv K b ltac:(lia) HKv) in HKJ. lra.
Qed.
Print Assumptions C104_law.

(** Gases at both sides: Richardson's law, J = (sqrt p_right - sqrt p_left) / sum of thickness / permeability for Sieverts
    materials, with p instead of sqrt p for Henry materials (DOLFIN_EPS, added to both pressures, cancels out). *)
Theorem C104_gas K X rule vol left right mb ms T t L l r bcs a b p_left p_right x :
  let M := segment K X rule vol left right in
  composite K X rule vol left right mb ms T t L -> hydrogen_residual M mb ms T None false (S K) (linear K X) r ->
  ends_only K bcs -> (forall e, (e < K)%nat -> k_law (L e) = l) -> boundary_value bcs 0 = Some a -> boundary_value bcs K = Some b ->
  0 <= p_left -> 0 <= p_right ->
  bc_theta (map attrs ms) (vol 0%nat) t (gas_concentration (L 0%nat) t p_left) = Ok a ->
  bc_theta (map attrs ms) (vol (K - 1)%nat) t (gas_concentration (L (K - 1)%nat) t p_right) = Ok b ->
  solves (S K) bcs r x -> forall e, (e < K)%nat ->
  through X L t x e * permeation_resistance X L t K = gas_activity l p_right - gas_activity l p_left.
Proof.
  intros M Hc Hr Hends Hl H0 HKv Hp0 HpK Ba Bb Hs e He.
  destruct (C104_law K X rule vol left right mb ms T t L l r bcs a b x Hc Hr Hends Hl H0 HKv) as [_ H]. rewrite (H Hs e He).
  pose proof Hc as (HK & _ & _ & [Hnd Hcov] & HT & Hiso & HL & _).
  assert (Ht : 0 < t).
  { assert (Hp : point M LeftEnd) by (right; now left). destruct (Hiso _ Hp) as [<- _]. apply HT. exact Hp. }
  assert (Hnd' : NoDup (ThetaProofs.all_ids (map attrs ms))).
  { replace (ThetaProofs.all_ids (map attrs ms)) with (BalanceSpec.all_ids ms); [exact Hnd|]. unfold BalanceSpec.all_ids, ThetaProofs.all_ids.
    clear. induction ms as [|m ms IH]; [reflexivity|]. cbn. now rewrite IH. }
  assert (G : forall e0 p v q, (e0 < K)%nat -> point M q -> element K q = e0 -> 0 <= p ->
    bc_theta (map attrs ms) (vol e0) t (gas_concentration (L e0) t p) = Ok v ->
    activity l v = gas_activity l p + match l with Sievert => 0 | Henry => DOLFIN_EPS end).
  { intros e0 p v q He0 Hq Eq Hp Hb. pose proof (Hcov q Hq) as Hin. cbn [M q_volume segment] in Hin. rewrite Eq in Hin.
    apply in_flat_map in Hin as (m & Hm & Hz). destruct (HL e0 He0) as (Hmade & HD0 & HS0). destruct (Hmade m Hm Hz) as (El & _ & _ & E0 & E1).
    destruct (bc_theta_ok (map attrs ms) (attrs m) (vol e0) t _ v Ht Hnd' (in_map attrs ms m Hm) Hz Hb) as (S0 & ES & F0 & F1 & Ev).
    rewrite E0 in F0. rewrite E1 in F1. injection F0 as <-. injection F1 as <-. rewrite El, (Hl e0 He0) in Ev.
    unfold gas_concentration in Ev. rewrite (Hl e0 He0) in Ev. subst v. unfold sieverts_law, henrys_law. cbv zeta. rewrite arrhenius_model by exact Ht.
    assert (HA : 0 < arrhenius (k_S0 (L e0)) (k_ES (L e0)) t) by (unfold arrhenius; apply Rdiv_lt_0_compat; [assumption|apply exp_pos]).
    destruct l; cbn [activity gas_activity].
    - field. lra.
    - replace (arrhenius (k_S0 (L e0)) (k_ES (L e0)) t * p / arrhenius (k_S0 (L e0)) (k_ES (L e0)) t) with p by (field; lra).
      rewrite pow2_sqrt; [reflexivity|]. unfold DOLFIN_EPS. lra. }
  rewrite (G 0%nat p_left a LeftEnd) by (assumption || reflexivity || (right; now left)).
  rewrite (G (K - 1)%nat p_right b RightEnd) by (assumption || reflexivity || lia || (right; right; now left)). ring.
Qed.
Print Assumptions C104_gas.

(** Any mix of Sieverts and Henry layers: exactly one nonnegative solution, monotone. *)
Theorem C104_mixed K X rule vol left right mb ms T t L r bcs a b :
  let M := segment K X rule vol left right in
  composite K X rule vol left right mb ms T t L -> hydrogen_residual M mb ms T None false (S K) (linear K X) r ->
  ends_only K bcs -> boundary_value bcs 0 = Some a -> boundary_value bcs K = Some b -> 0 <= a -> 0 <= b ->
  exists x, solves (S K) bcs r x /\ (forall i, (i <= K)%nat -> 0 <= x i) /\ monotone_between K x a b /\
    forall y, solves (S K) bcs r y -> (forall i, (i <= K)%nat -> 0 <= y i) -> forall i, (i <= K)%nat -> y i = x i.
Proof.
  intros M Hc Hr Hends H0 HKv Ha Hb. pose proof Hc as (HK & _).
  set (l := fun e => k_law (L e)). set (g := fun e => permeability (L e) t / length_of X e).
  assert (Hg : forall e, (e < K)%nat -> 0 < g e) by (intros e He; apply (composite_pos K X rule vol left right mb ms T t L e Hc He)).
  destruct (mixed_exists K l g a b HK Hg Ha Hb) as (x & J & E0 & EK & Hx & HJ).
  pose proof (composite_solves K X rule vol left right mb ms T t L r bcs) as Hs.
  exists x. split; [|split; [exact Hx|split]].
  - apply (Hs x Hc Hr Hends). split.
    + intros i v Hi E. destruct (Nat.eq_dec i 0) as [Ei|Ei]; [subst i; congruence|]. destruct (Nat.eq_dec i K) as [EiK|EiK]; [subst i; congruence|].
      rewrite Hends in E by lia. discriminate.
    + exists J. split; [exact HJ|split; congruence].
  - destruct (mixed_mono K l g HK Hg x J Hx HJ) as [Hup Hdown].
    assert (HJ0 : 0 <= J \/ J <= 0) by lra.
    split; intros Hab i j Hij.
    + destruct HJ0 as [H|H].
      * pose proof (Hup H 0%nat i ltac:(lia)). pose proof (Hup H i j Hij). pose proof (Hup H j K ltac:(lia)). lra.
      * pose proof (Hdown H 0%nat i ltac:(lia)). pose proof (Hdown H i j Hij). pose proof (Hdown H j K ltac:(lia)). lra.
    + destruct HJ0 as [H|H].
      * pose proof (Hup H 0%nat i ltac:(lia)). pose proof (Hup H i j Hij). pose proof (Hup H j K ltac:(lia)). lra.
      * pose proof (Hdown H 0%nat i ltac:(lia)). pose proof (Hdown H i j Hij). pose proof (Hdown H j K ltac:(lia)). lra.
  - intros y Hy Hy0. apply (Hs y Hc Hr Hends) in Hy. destruct Hy as [Hv (J' & HJ' & _)].
    destruct (mixed_unique K l g HK Hg y x J' J (fun i Hi => conj (Hy0 i Hi) (Hx i Hi))) as [_ H]; [| |exact HJ'|exact HJ|exact H].
    + rewrite E0. apply Hv; [lia|assumption].
    + rewrite EK. apply Hv; [lia|assumption].
Qed.
Print Assumptions C104_mixed.

(** The SurfaceFlux (HydrogenFlux) of an end is exactly the flux of its element, although the concentration it reads is a projection
    (of theta^2 for Henry materials). *)
Theorem C104_reported K X rule vol left right mb ms T t L x W c a b ctx V k field id q v :
  let M := segment K X rule vol left right in
  composite K X rule vol left right mb ms T t L -> exact_3 rule -> left <> right ->
  dg1_tests K W -> piecewise_linear K X rule vol left right c a b ->
  mobile_post_processing M W (mkMobile (mb_class mb) (span (S K) (linear K X) x) (mb_previous mb) (mb_test mb) (mb_sources mb) (mb_bcs mb)) c ->
  x_function ctx = c -> x_soret ctx = false ->
  (forall p, In p [LeftEnd; RightEnd] -> x_D ctx p = arrhenius (k_D0 (L (element K p))) (k_ED (L (element K p))) t) ->
  x_n ctx LeftEnd 0%nat = - 1 -> x_n ctx RightEnd 0%nat = 1 ->
  is_flux k = true -> solute_label (class_field k field) -> allowed_mesh k Cartesian = true ->
  make_quantity k field id None None = Ok q -> compute M V ctx q = Ok v ->
  (d_id q = right -> v = through X L t x (K - 1)) /\ (d_id q = left -> v = - through X L t x 0).
Proof.
  intros M Hc [HR W3] Hlr HW Hlin Hpost Hf Hso HD HnL HnR Hk Hl Ha Hq Hv.
  pose proof Hc as (HK & HX & _ & Hcov & HT & Hiso & HL & Hcl & HS & _).
  assert (Hslope : forall e, (e < K)%nat -> b e - a e = solubility (L e) t * (activity (k_law (L e)) (x (S e)) - activity (k_law (L e)) (x e))).
  { intros e He. unfold mobile_post_processing in Hpost. cbn [mb_class mb_solution] in Hpost.
    unfold solubility_field in HS. destruct (mb_class mb) as [|S_ ms'] eqn:Ecl; [contradiction|]. destruct HS as [-> HS].
    set (cc := fun p => law_conc (k_law (L (element K p))) (solubility (L (element K p)) t) (val (span (S K) (linear K X) x p))).
    assert (Hcc : forall p, In p (q_cells M) -> forall m, In m ms -> In (q_volume M p) (ids (m_id (attrs m))) ->
      cc p = law_conc (m_law (attrs m)) (S_ p) (val (span (S K) (linear K X) x p))).
    { intros p Hp m Hm Hz. assert (Hpp : point M p) by now left. pose proof (point_element K X rule vol left right HK p Hpp) as Hep.
      destruct (HL _ Hep) as (Hmade & _). destruct (Hmade m Hm Hz) as (E1 & _ & _ & E2 & E3).
      destruct (HS p (or_introl Hp) m Hm Hz) as (S0 & ES & F1 & F2 & ->). rewrite E2 in F1. rewrite E3 in F2. injection F1 as <-. injection F2 as <-.
      destruct (Hiso p Hpp) as [-> _]. unfold cc. now rewrite E1. }
    assert (Hint : forall w : pt -> R, W w -> (forall p, element K p <> e -> w p = 0) ->
      sum_over rule (fun q0 => snd q0 * ((cc (Cell e (fst q0) (snd q0)) - val (c (Cell e (fst q0) (snd q0)))) * w (Cell e (fst q0) (snd q0)))) = 0).
    { intros w Hw Hout. destruct (Hpost w Hw) as (F & HF & H0).
      rewrite (post_forms M ms S_ (span (S K) (linear K X) x) cc (fun p => val (c p)) w F Hcov Hcc HF) in H0.
      unfold M in H0. rewrite all_elements in H0. unfold sum_over at 1 in H0.
      rewrite (rsum_map_ext _ (fun e0 => if Nat.eqb e0 e then length_of X e0 * sum_over rule (fun q0 => snd q0 *
         ((cc (Cell e0 (fst q0) (snd q0)) - val (c (Cell e0 (fst q0) (snd q0)))) * w (Cell e0 (fst q0) (snd q0)))) else 0)) in H0.
      - rewrite rsum_delta in H0 by lia. pose proof (length_pos K X HX e He). apply Rmult_integral in H0. destruct H0 as [H0|H0]; [lra|exact H0].
      - intros e0 He0. destruct (Nat.eqb_spec e0 e) as [E|E].
        + rewrite <- sum_over_scale. apply sum_over_ext. intros q0 _. ring.
        + unfold sum_over. apply rsum_map_zero. intros q0 _. rewrite Hout by (cbn; congruence). ring. }
    destruct (HW e He) as [W1 W2].
    pose proof (Hint _ W1 ltac:(intros p Hp; cbv beta; now rewrite (proj2 (Nat.eqb_neq _ _) Hp))) as I1.
    pose proof (Hint _ W2 ltac:(intros p Hp; cbv beta; now rewrite (proj2 (Nat.eqb_neq _ _) Hp))) as I2.
    cbv beta in I1, I2.
    set (sl := solubility (L e) t) in *.
    assert (Hpt : forall q0, In q0 rule -> cc (Cell e (fst q0) (snd q0)) = law_conc (k_law (L e)) sl (x e * (1 - fst q0) + x (S e) * fst q0) /\
      val (c (Cell e (fst q0) (snd q0))) = a e * (1 - fst q0) + b e * fst q0).
    { intros q0 Hq0. assert (Hp : point M (Cell e (fst q0) (snd q0))) by (left; apply segment_cells; [exact HK|exists e, q0; auto]).
      split; [|apply (Hlin _ Hp)]. unfold cc. rewrite (proj1 (span_segment K X rule vol left right HK HR x _ Hp)). reflexivity. }
    destruct HR as (_ & R0 & R1 & R2).
    assert (M0 : forall f0 f1 f2 f3 (f : R -> R), (forall s, f s = f0 + f1 * s + f2 * s ^ 2 + f3 * s ^ 3) ->
      sum_over rule (fun q0 => snd q0 * f (fst q0)) = f0 + f1 / 2 + f2 / 3 + f3 / 4).
    { intros f0 f1 f2 f3 f Hff.
      rewrite (sum_over_ext _ _ (fun q0 => f0 * snd q0 + (f1 * (snd q0 * fst q0) + (f2 * (snd q0 * fst q0 ^ 2) + f3 * (snd q0 * fst q0 ^ 3)))))
        by (intros q0 _; rewrite Hff; ring).
      rewrite !sum_over_plus, !sum_over_scale. unfold sum_over. rewrite R0, R1, R2, W3. field. }
    cbn [element] in I1, I2. rewrite Nat.eqb_refl in I1, I2. cbn [local] in I1, I2.
    destruct (k_law (L e)) eqn:El; cbn [activity law_conc] in *.
    - pose (f1 := fun s => ((x e * (1 - s) + x (S e) * s) * sl - (a e * (1 - s) + b e * s)) * (1 - s)).
      rewrite (sum_over_ext _ _ (fun q0 => snd q0 * f1 (fst q0))) in I1
        by (intros q0 Hq0; destruct (Hpt q0 Hq0) as [-> ->]; reflexivity).
      pose (f2 := fun s => ((x e * (1 - s) + x (S e) * s) * sl - (a e * (1 - s) + b e * s)) * s).
      rewrite (sum_over_ext _ _ (fun q0 => snd q0 * f2 (fst q0))) in I2
        by (intros q0 Hq0; destruct (Hpt q0 Hq0) as [-> ->]; reflexivity).
      set (d := x (S e) - x e) in *. set (u := b e - a e) in *.
      rewrite (M0 (x e * sl - a e) (d * sl - u - (x e * sl - a e)) (- (d * sl - u)) 0 f1) in I1 by (intros s; unfold d, u, f1; ring).
      rewrite (M0 0 (x e * sl - a e) (d * sl - u) 0 f2) in I2 by (intros s; unfold d, u, f2; ring). lra.
    - pose (f1 := fun s => ((x e * (1 - s) + x (S e) * s) ^ 2 * sl - (a e * (1 - s) + b e * s)) * (1 - s)).
      rewrite (sum_over_ext _ _ (fun q0 => snd q0 * f1 (fst q0))) in I1
        by (intros q0 Hq0; destruct (Hpt q0 Hq0) as [-> ->]; reflexivity).
      pose (f2 := fun s => ((x e * (1 - s) + x (S e) * s) ^ 2 * sl - (a e * (1 - s) + b e * s)) * s).
      rewrite (sum_over_ext _ _ (fun q0 => snd q0 * f2 (fst q0))) in I2
        by (intros q0 Hq0; destruct (Hpt q0 Hq0) as [-> ->]; reflexivity).
      set (d := x (S e) - x e) in *. set (u := b e - a e) in *.
      rewrite (M0 (x e ^ 2 * sl - a e) (2 * x e * d * sl - u - (x e ^ 2 * sl - a e)) (d ^ 2 * sl - (2 * x e * d * sl - u)) (- (d ^ 2 * sl)) f1) in I1 by (intros s; unfold d, u, f1; ring).
      rewrite (M0 0 (x e ^ 2 * sl - a e) (2 * x e * d * sl - u) (d ^ 2 * sl) f2) in I2 by (intros s; unfold d, u, f2; ring).
      replace (x (S e) ^ 2 - x e ^ 2) with (d ^ 2 + 2 * x e * d) by (unfold d; ring). lra. }
  rewrite (printed_solute M V ctx k field id q v Hk Hl Ha Hq Hv).
  assert (Hang : full_angle k = 1) by (destruct k; try discriminate Hk; try discriminate Ha; reflexivity). rewrite Hang, Rmult_1_l.
  assert (Hg : forall p, In p [LeftEnd; RightEnd] -> dot (q_dim M) (flux_vector ctx p) (x_n ctx p) = through X L t x (element K p) * x_n ctx p 0%nat).
  { intros p Hp. assert (Hpp : point M p) by (right; exact Hp). cbn [M q_dim segment]. rewrite dot1. unfold flux_vector. rewrite Hso, HD, Hf by exact Hp.
    destruct (Hlin p Hpp) as [_ ->]. pose proof (point_element K X rule vol left right HK p Hpp) as He.
    rewrite (Hslope _ He). unfold through, permeability. pose proof (length_pos K X HX _ He). field. lra. }
  unfold total_on, wsum. cbn [M q_facets segment filter q_surface].
  split; intros ->; [destruct (Z.eqb_spec left right) as [E|_]; [contradiction|]; rewrite Z.eqb_refl
                    |rewrite Z.eqb_refl; destruct (Z.eqb_spec right left) as [E|_]; [now destruct Hlr|]];
    cbn [map]; rewrite rsum_cons, rsum_nil; unfold weight; cbn [q_type q_weight M segment]; rewrite Hg by (cbn; tauto); cbn [element]; rewrite ?HnL, ?HnR; ring.
Qed.
Print Assumptions C104_reported.

(** Two layers of length 1 with D = S = 1 and D = 1, S = 2, each with its law. *)
Definition layer_s (z : Z) (S_ : R) (l : law) : mat_obj :=
  mkMatObj (Z.to_nat z) (mkMaterial (IdOne z) None (Const 1) (Const 0) (Some (Const S_)) (Some (Const 0)) None None None BNone None l).
Definition layers_s (l1 l2 : law) : list mat_obj := [layer_s 1 1 l1; layer_s 2 2 l2].
Definition made (l1 l2 : law) (e : nat) : composition := match e with O => mkComposition l1 1 0 1 0 | _ => mkComposition l2 1 0 2 0 end.
Definition S2 (p : pt) : R := match element 2 p with O => 1 | _ => 2 end.
Definition mobile_s (l1 l2 : law) : mobile pt :=
  mkMobile (ClassTheta S2 (map attrs (layers_s l1 l2))) (fun _ => dconst 0) (fun _ => dconst 0) (fun _ => dconst 0) [] [].
Definition residual_s (l1 l2 : law) (x : nat -> R) (i : nat) : R :=
  let M := segment 2 INR simpson vol2 1 2 in
  let mb := mobile_s l1 l2 in
  match define_variational_problem M (mkMobile (mb_class mb) (span 3 (linear 2 INR) x) (mb_previous mb) (linear 2 INR i) (mb_sources mb) (mb_bcs mb))
          (layers_s l1 l2) T300 None [] false with
  | Ok F => assemble M F
  | Err _ => 0
  end.
Lemma arrhenius_0 A t : arrhenius A 0 t = A.
Proof. unfold arrhenius, Rdiv. rewrite Rmult_0_l, exp_0, Rinv_1, Rmult_1_r. reflexivity. Qed.
Lemma composite_s l1 l2 :
  composite 2 INR simpson vol2 1 2 (mobile_s l1 l2) (layers_s l1 l2) T300 300 (made l1 l2) /\
  hydrogen_residual (segment 2 INR simpson vol2 1 2) (mobile_s l1 l2) (layers_s l1 l2) T300 None false 3 (linear 2 INR) (residual_s l1 l2).
Proof.
  split.
  - split; [lia|]. split; [intros e _; rewrite S_INR; lra|]. split; [apply simpson_exact|]. split.
    { split; [repeat constructor; cbn; intuition discriminate|]. intros p _. cbn. unfold vol2. destruct (element 2 p); auto. }
    split; [intros p _; cbn; lra|]. split; [intros p _; split; [reflexivity|intros i; reflexivity]|]. split.
    { intros [|e] He; cbn; (split; [|split; lra]); intros m [<-|[<-|[]]] [H|[]]; try discriminate H; cbn; tauto. }
    split; [discriminate|]. split; [|split; [reflexivity|intros b []]].
    split; [reflexivity|]. intros p _ m Hm Hz. cbn in Hm, Hz. unfold vol2 in Hz. cbn. unfold S2.
    destruct Hm as [<-|[<-|[]]]; cbn in Hz |- *; do 2 eexists; (split; [reflexivity|]); (split; [reflexivity|]); rewrite arrhenius_0;
      destruct (element 2 p); try reflexivity; destruct Hz as [Hz|[]]; discriminate.
  - intros x i _. unfold residual_s, mobile_s. cbn [mb_class mb_previous mb_sources mb_bcs].
    destruct l1, l2; eexists; (split; [cbn; reflexivity|cbn; reflexivity]).
Qed.
Lemma permeability_s l1 l2 : permeability (made l1 l2 0) 300 = 1 /\ permeability (made l1 l2 1) 300 = 2.
Proof. unfold permeability, solubility. cbn. rewrite !arrhenius_0. lra. Qed.
Lemma length_s e : length_of INR e = 1.
Proof. unfold length_of. rewrite S_INR. ring. Qed.
Lemma resistance_s l1 l2 : permeation_resistance INR (made l1 l2) 300 0 = 0 /\ permeation_resistance INR (made l1 l2) 300 1 = 1 /\
  permeation_resistance INR (made l1 l2) 300 2 = 3 / 2.
Proof.
  destruct (permeability_s l1 l2) as [E0 E1]. unfold permeation_resistance. cbn [seq map]. rewrite !rsum_cons, !rsum_nil, !length_s, E0, E1. lra.
Qed.
Lemma ends_s (a b : R) : ends_only 2 [[(0%nat, a)]; [(2%nat, b)]].
Proof. intros i Hi. replace i with 1%nat by lia. reflexivity. Qed.

(** Henry materials: the sign of an interior theta is not determined.  3 nodes, theta = 1 at both ends: 1 and -1 in the middle
    both solve. *)
Theorem C104_sign_refuted : exists K X rule vol left right mb ms T t L r bcs x y,
  composite K X rule vol left right mb ms T t L /\ hydrogen_residual (segment K X rule vol left right) mb ms T None false (S K) (linear K X) r /\
  ends_only K bcs /\ boundary_value bcs 0 = Some 1 /\ boundary_value bcs K = Some 1 /\
  solves (S K) bcs r x /\ solves (S K) bcs r y /\ x 1%nat <> y 1%nat.
Proof.
  destruct (composite_s Henry Henry) as [H1 H2]. destruct (resistance_s Henry Henry) as (R0 & R1 & R2).
  exists 2%nat, INR, simpson, vol2, 1%Z, 2%Z, (mobile_s Henry Henry), (layers_s Henry Henry), T300, 300, (made Henry Henry), (residual_s Henry Henry),
    [[(0%nat, 1)]; [(2%nat, 1)]], (fun _ => 1), (fun i => match i with 1%nat => - 1 | _ => 1 end).
  split; [exact H1|]. split; [exact H2|]. split; [apply ends_s|]. split; [reflexivity|]. split; [reflexivity|].
  assert (Hl : forall e, (e < 2)%nat -> k_law (made Henry Henry e) = Henry) by (intros [|e] _; reflexivity).
  pose proof (fun z => proj1 (C104_law 2 INR simpson vol2 1 2 _ _ T300 300 _ Henry _ _ 1 1 z H1 H2 (ends_s 1 1) Hl eq_refl eq_refl)) as Hs.
  split; [|split; [|lra]]; apply Hs; (split; [reflexivity|]); (split; [reflexivity|]); intros [|[|i]] _; cbn [activity]; field; lra.
Qed.
Print Assumptions C104_sign_refuted.

(** Sieverts then Henry, theta = 3 at the left and 0 at the right: theta = 1 at the interface, and the flux is -2 in both. *)
Example C104_mixed_example :
  let bcs := [[(0%nat, 3)]; [(2%nat, 0)]] in
  composite 2 INR simpson vol2 1 2 (mobile_s Sievert Henry) (layers_s Sievert Henry) T300 300 (made Sievert Henry) /\
  hydrogen_residual (segment 2 INR simpson vol2 1 2) (mobile_s Sievert Henry) (layers_s Sievert Henry) T300 None false 3 (linear 2 INR) (residual_s Sievert Henry) /\
  ends_only 2 bcs /\ boundary_value bcs 0 = Some 3 /\ boundary_value bcs 2 = Some 0 /\ solves 3 bcs (residual_s Sievert Henry) x_310 /\
  through INR (made Sievert Henry) 300 x_310 0 = - 2 /\ through INR (made Sievert Henry) 300 x_310 1 = - 2.
Proof.
  intros bcs. destruct (composite_s Sievert Henry) as [H1 H2]. split; [exact H1|]. split; [exact H2|]. split; [apply ends_s|].
  split; [reflexivity|]. split; [reflexivity|]. destruct (permeability_s Sievert Henry) as [E0 E1].
  assert (F0 : through INR (made Sievert Henry) 300 x_310 0 = - 2) by (unfold through; rewrite E0, length_s; cbn; field).
  assert (F1 : through INR (made Sievert Henry) 300 x_310 1 = - 2) by (unfold through; rewrite E1, length_s; cbn; field).
  split; [|split; [exact F0|exact F1]]. apply (composite_solves 2 INR simpson vol2 1 2 _ _ T300 300 _ _ bcs x_310 H1 H2 (ends_s 3 0)). split.
  - intros [|[|[|i]]] v Hi; cbn; intros E; try discriminate E; try lia; now injection E.
  - exists (- 2). split; [intros [|[|e]] He; [exact F0|exact F1|lia]|]. split; discriminate.
Qed.

(** Gas at 9 on the left, nothing on the right, two Sieverts layers: theta = 3, 1, 0, and J = (0 - sqrt 9) / (3/2). *)
Example C104_gas_example :
  let bcs := [[(0%nat, 3)]; [(2%nat, 0)]] in
  let ms := layers_s Sievert Sievert in
  composite 2 INR simpson vol2 1 2 (mobile_s Sievert Sievert) ms T300 300 (made Sievert Sievert) /\
  hydrogen_residual (segment 2 INR simpson vol2 1 2) (mobile_s Sievert Sievert) ms T300 None false 3 (linear 2 INR) (residual_s Sievert Sievert) /\
  (forall e, (e < 2)%nat -> k_law (made Sievert Sievert e) = Sievert) /\
  ends_only 2 bcs /\ boundary_value bcs 0 = Some 3 /\ boundary_value bcs 2 = Some 0 /\
  bc_theta (map attrs ms) (vol2 0) 300 (gas_concentration (made Sievert Sievert 0) 300 9) = Ok 3 /\
  bc_theta (map attrs ms) (vol2 1) 300 (gas_concentration (made Sievert Sievert 1) 300 0) = Ok 0 /\
  solves 3 bcs (residual_s Sievert Sievert) x_310 /\ (gas_activity Sievert 0 - gas_activity Sievert 9) / (3 / 2) = - 2.
Proof.
  intros bcs ms. destruct (composite_s Sievert Sievert) as [H1 H2]. split; [exact H1|]. split; [exact H2|].
  assert (Hl : forall e, (e < 2)%nat -> k_law (made Sievert Sievert e) = Sievert) by (intros [|e] _; reflexivity).
  split; [exact Hl|]. split; [apply ends_s|]. split; [reflexivity|]. split; [reflexivity|].
  assert (S9 : sqrt 9 = 3) by (replace 9 with (3 * 3) by ring; apply sqrt_square; lra).
  assert (HE : exp (- 0 / k_B / 300) = 1) by (replace (- 0 / k_B / 300) with 0 by (unfold Rdiv; ring); apply exp_0).
  split; [cbn; unfold sieverts_law; rewrite HE, S9; f_equal; field|].
  split; [cbn; unfold sieverts_law; rewrite HE, sqrt_0; f_equal; field|].
  split; [|cbn; rewrite S9, sqrt_0; field].
  apply (proj1 (C104_law 2 INR simpson vol2 1 2 _ _ T300 300 _ Sievert _ _ 3 0 x_310 H1 H2 (ends_s 3 0) Hl eq_refl eq_refl)).
  destruct (resistance_s Sievert Sievert) as (R0 & R1 & R2).
  split; [reflexivity|]. split; [reflexivity|]. intros [|[|[|i]]] Hi; try lia; rewrite ?R0, ?R1, ?R2; cbn; field.
Qed.

(** The concentration written in the example of Sieverts then Henry: 3 to 1, then 5/3 to -1/3 (negative where theta is 0: the
    projection of 2 (1 - s)^2). *)
Definition a_s (e : nat) : R := match e with O => 3 | _ => 5 / 3 end.
Definition b_s (e : nat) : R := match e with O => 1 | _ => - (1 / 3) end.
Definition c_s (p : pt) : dual :=
  mkDual (a_s (element 2 p) * (1 - local p) + b_s (element 2 p) * local p) (fun _ => b_s (element 2 p) - a_s (element 2 p)).
Definition W_s (w : pt -> R) : Prop :=
  exists e, (e < 2)%nat /\ ((w = fun p => if Nat.eqb (element 2 p) e then 1 - local p else 0) \/ (w = fun p => if Nat.eqb (element 2 p) e then local p else 0)).
Example C104_reported_example :
  let mb := mobile_s Sievert Henry in
  let M := segment 2 INR simpson vol2 1 2 in
  let ctx := mkCtx c_s (fun _ => 1) (fun _ => 0) (fun _ => 0) (fun _ => dconst 300) (fun p _ => match p with LeftEnd => - 1 | _ => 1 end) false in
  exact_3 simpson /\ dg1_tests 2 W_s /\ piecewise_linear 2 INR simpson vol2 1 2 c_s a_s b_s /\
  mobile_post_processing M W_s (mkMobile (mb_class mb) (span 3 (linear 2 INR) x_310) (mb_previous mb) (mb_test mb) (mb_sources mb) (mb_bcs mb)) c_s /\
  (forall p, In p [LeftEnd; RightEnd] -> x_D ctx p = arrhenius (k_D0 (made Sievert Henry (element 2 p))) (k_ED (made Sievert Henry (element 2 p))) 300) /\
  exists q v, make_quantity HydrogenFlux (LStr "solute") (IdInt 2) None None = Ok q /\
    compute M (mkFe [] [] [] []) ctx q = Ok v /\ d_id q = 2%Z /\ v = - 2.
Proof.
  intros mb M ctx. split; [split; [apply simpson_exact|unfold simpson; cbn [map fst snd]; rewrite !rsum_cons, !rsum_nil; field]|].
  split; [intros e He; split; exists e; auto|]. split.
  { intros p _. split; [reflexivity|]. intros i. cbn [c_s grd]. rewrite length_s. field. }
  split.
  { intros w (e & He & Hw). assert (HF : exists F, form_post_processing (map attrs (layers_s Sievert Henry)) S2 (span 3 (linear 2 INR) x_310) (fun p => val (c_s p)) w = Ok F)
      by (eexists; reflexivity).
    destruct HF as [F HF]. exists F. split; [exact HF|].
    set (cc := fun p => law_conc (k_law (made Sievert Henry (element 2 p))) (S2 p) (val (span 3 (linear 2 INR) x_310 p))).
    destruct (composite_s Sievert Henry) as [(_ & _ & HR & Hcov & _) _].
    rewrite (post_forms M (layers_s Sievert Henry) S2 (span 3 (linear 2 INR) x_310) cc (fun p => val (c_s p)) w F Hcov); [| |exact HF].
    2:{ intros p _ m Hm Hz. unfold cc. cbn in Hm, Hz. unfold vol2 in Hz. destruct Hm as [<-|[<-|[]]]; destruct (element 2 p); try reflexivity; destruct Hz as [Hz|[]]; discriminate. }
    unfold M. rewrite all_elements.
    assert (Hcc : forall e0 q0, (e0 < 2)%nat -> In q0 simpson -> cc (Cell e0 (fst q0) (snd q0)) =
      law_conc (k_law (made Sievert Henry e0)) (match e0 with O => 1 | _ => 2 end) (x_310 e0 * (1 - fst q0) + x_310 (S e0) * fst q0)).
    { intros e0 q0 He0 Hq0. unfold cc.
      assert (Hp : point M (Cell e0 (fst q0) (snd q0))) by (left; apply segment_cells; [lia|exists e0, q0; auto]).
      rewrite (proj1 (span_segment 2 INR simpson vol2 1 2 ltac:(lia) HR x_310 _ Hp)). reflexivity. }
    unfold sum_over at 1. cbn [seq map]. rewrite !rsum_cons, rsum_nil.
    rewrite (sum_over_ext simpson _ (fun q0 => length_of INR 0 * snd q0 * ((law_conc Sievert 1 (3 * (1 - fst q0) + 1 * fst q0) - (3 * (1 - fst q0) + 1 * fst q0)) * w (Cell 0 (fst q0) (snd q0)))))
      by (intros q0 Hq0; rewrite Hcc by (lia || assumption); reflexivity).
    rewrite (sum_over_ext simpson (fun q0 => length_of INR 1 * _ * _) (fun q0 => length_of INR 1 * snd q0 * ((law_conc Henry 2 (1 * (1 - fst q0) + 0 * fst q0) - (5 / 3 * (1 - fst q0) + - (1 / 3) * fst q0)) * w (Cell 1 (fst q0) (snd q0)))))
      by (intros q0 Hq0; rewrite Hcc by (lia || assumption); reflexivity).
    rewrite !length_s. unfold sum_over, simpson. cbn [map fst snd law_conc]. rewrite !rsum_cons, !rsum_nil.
    destruct e as [|[|e]]; [| |lia]; destruct Hw as [-> | ->]; cbn [element Nat.eqb local]; field. }
  split; [intros p [<-|[<-|[]]]; cbn; now rewrite arrhenius_0|].
  eexists. eexists. split; [reflexivity|]. split; [reflexivity|]. split; [reflexivity|].
  unfold flux_integral, integral, points, angle. cbn. rewrite ?rsum_cons, ?rsum_nil. unfold dot. cbn. field.
Qed.

(** The concentration written is not always nonnegative, although theta is. *)
Theorem C104_negative_refuted : exists K X rule vol left right mb ms T t L r bcs x W c a b,
  composite K X rule vol left right mb ms T t L /\ hydrogen_residual (segment K X rule vol left right) mb ms T None false (S K) (linear K X) r /\
  ends_only K bcs /\ solves (S K) bcs r x /\ (forall i, 0 <= x i) /\
  exact_3 rule /\ dg1_tests K W /\ piecewise_linear K X rule vol left right c a b /\
  mobile_post_processing (segment K X rule vol left right) W
    (mkMobile (mb_class mb) (span (S K) (linear K X) x) (mb_previous mb) (mb_test mb) (mb_sources mb) (mb_bcs mb)) c /\
  val (c RightEnd) < 0.
Proof.
  destruct C104_mixed_example as (H1 & H2 & H3 & _ & _ & H6 & _). destruct C104_reported_example as (G1 & G2 & G3 & G4 & _).
  exists 2%nat, INR, simpson, vol2, 1%Z, 2%Z, (mobile_s Sievert Henry), (layers_s Sievert Henry), T300, 300, (made Sievert Henry), (residual_s Sievert Henry),
    [[(0%nat, 3)]; [(2%nat, 0)]], x_310, W_s, c_s, a_s, b_s.
  split; [exact H1|]. split; [exact H2|]. split; [exact H3|]. split; [exact H6|]. split; [intros [|[|i]]; cbn; lra|].
  split; [exact G1|]. split; [exact G2|]. split; [exact G3|]. split; [exact G4|]. cbn. lra.
Qed.
Print Assumptions C104_negative_refuted.
