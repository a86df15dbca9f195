(** The steady equations of theta on a segment, as a chain of fluxes. *)
From Coq Require Import Reals ZArith List Bool Arith Lra Lia Psatz.
From Verif Require Import Base.Exc Base.Dual Model.Materials Model.Laws Model.Theta Model.Forms Model.NonlinearProblem
  Spec.PhysSpec Spec.BalanceSpec Spec.NewtonSpec Spec.MaximumSpec Spec.PermeationSpec Spec.VariableSpec Spec.CompositeSpec
  Proofs.LawProofs Proofs.ThetaProofs Proofs.FormProofs Proofs.MaximumProofs Proofs.PermeationProofs Proofs.VariableProofs.
Import ListNotations.
Local Open Scope R_scope.

(** A chain of fluxes: the equation of each node. *)
Definition flux_node (K : nat) (f : nat -> R) (eL eR : R) (i : nat) : R :=
  match i with O => 0 | S j => f j end - (if Nat.eqb i K then 0 else f i)
  - (if Nat.eqb i 0 then eL else 0) - (if Nat.eqb i K then eR else 0).
Lemma flux_chain K (f : nat -> R) eL eR bcs : (0 < K)%nat -> ends_only K bcs ->
  ((forall i, (i < S K)%nat -> boundary_value bcs i = None -> flux_node K f eL eR i = 0) <->
   exists J, (forall e, (e < K)%nat -> f e = J) /\ (boundary_value bcs 0 = None -> J = - eL) /\ (boundary_value bcs K = None -> J = eR)).
Proof.
  intros HK Hends. unfold flux_node. split.
  - intros Hres.
    assert (HJ : forall e, (e < K)%nat -> f e = f 0%nat).
    { induction e as [|e IH]; intros He; [reflexivity|]. specialize (IH ltac:(lia)).
      pose proof (Hres (S e) ltac:(lia) (Hends (S e) ltac:(lia))) as E.
      destruct (Nat.eqb_spec (S e) K); [lia|]. cbn [Nat.eqb] in E. lra. }
    exists (f 0%nat). split; [exact HJ|]. split.
    + intros E. pose proof (Hres 0%nat ltac:(lia) E) as H0. destruct (Nat.eqb_spec 0 K); [lia|]. cbn [Nat.eqb] in H0. lra.
    + intros E. pose proof (Hres K ltac:(lia) E) as H0. rewrite Nat.eqb_refl in H0. destruct K as [|k]; [lia|].
      cbn [Nat.eqb] in H0. rewrite (HJ k ltac:(lia)) in H0. lra.
  - intros (J & HJ & H0 & HK') i Hi E. destruct (Nat.eqb_spec i K) as [EK|EK].
    + subst i. specialize (HK' E). destruct K as [|k]; [lia|]. cbn [Nat.eqb]. rewrite (HJ k) by lia. lra.
    + rewrite (HJ i) by lia. destruct i as [|j].
      * cbn [Nat.eqb]. specialize (H0 E). lra.
      * cbn [Nat.eqb]. rewrite (HJ j) by lia. lra.
Qed.

Section Composite.
Variables (K : nat) (X : nat -> R) (rule : list (R * R)) (vol : nat -> Z) (left right : Z).
Hypotheses (HK : (0 < K)%nat) (HX : forall e, (e < K)%nat -> X e < X (S e)) (Hrule : exact_2 rule).
Local Notation M := (segment K X rule vol left right).
Local Notation phi := (linear K X).
Local Notation N := (S K).

Lemma point_element p : point M p -> (element K p < K)%nat.
Proof using HK. 
  intros [H|[<-|[<-|[]]]]; [|exact HK|cbn; lia]. apply segment_cells in H; [|exact HK]. destruct H as (e & q & He & _ & ->). exact He.
Qed.

(** Flux conditions act on the equations of the two ends, whatever the field of concentration. *)
Lemma fluxes_ends_any (c : field pt) prev srcs bcs T cL cR i : positive_temperature M T ->
  val (c LeftEnd) = cL -> val (c RightEnd) = cR -> (forall s, ~ In (BSurf s) bcs) -> (i < S K)%nat ->
  assemble M (create_fluxes_form M (mkMobile ClassMobile c prev (phi i) srcs bcs) T None)
  = - (if Nat.eqb i 0 then entering K X rule vol left right bcs T cL LeftEnd else 0)
    - (if Nat.eqb i K then entering K X rule vol left right bcs T cR RightEnd else 0).
Proof using HK.
  intros HT HcL HcR Hb Hi. unfold create_fluxes_form. rewrite assemble_flat_map. cbn [mb_bcs]. unfold entering.
  set (mb := mkMobile ClassMobile c prev (phi i) srcs bcs).
  assert (Hone : forall b, In b bcs ->
    assemble M (flux_terms M mb T None b)
    = - (if Nat.eqb i 0 then 1 else 0) * match b with BFlux false surfaces f =>
          rsum (map (fun z => if Z.eqb (q_surface M LeftEnd) z then flux_into f (val (T_T T LeftEnd)) cL LeftEnd else 0) surfaces) | _ => 0 end
      + - (if Nat.eqb i K then 1 else 0) * match b with BFlux false surfaces f =>
          rsum (map (fun z => if Z.eqb (q_surface M RightEnd) z then flux_into f (val (T_T T RightEnd)) cR RightEnd else 0) surfaces) | _ => 0 end).
  { intros b Hin. destruct b as [[|] l f|s]; cbn [flux_terms]; [rewrite assemble_nil; ring| |now destruct (Hb s)].
    rewrite assemble_map. unfold sum_over. cbn [fst snd].
    rewrite <- !rsum_map_scale, <- rsum_map_plus. apply rsum_map_ext. intros z _.
    assert (HL : point M LeftEnd) by (right; now left). assert (HR : point M RightEnd) by (right; right; now left).
    assert (FL : flux_form f (T_T T) (mobile_concentration M mb) LeftEnd = flux_into f (val (T_T T LeftEnd)) cL LeftEnd)
      by (apply (flux_form_into f (T_T T) (fun _ => cL)); [now apply HT|exact HcL]).
    assert (FR : flux_form f (T_T T) (mobile_concentration M mb) RightEnd = flux_into f (val (T_T T RightEnd)) cR RightEnd)
      by (apply (flux_form_into f (T_T T) (fun _ => cR)); [now apply HT|exact HcR]).
    assert (PL : val (phi i LeftEnd) = if Nat.eqb i 0 then 1 else 0).
    { cbn [linear val element local]. destruct (Nat.eqb i 0); [ring|]. destruct (Nat.eqb i 1); reflexivity. }
    assert (PR : val (phi i RightEnd) = if Nat.eqb i K then 1 else 0).
    { cbn [linear val element local]. replace (S (K - 1)) with K by lia.
      destruct (Nat.eqb_spec i (K - 1)) as [->|]; [destruct (Nat.eqb_spec (K - 1) K); [lia|ring]|]. destruct (Nat.eqb i K); reflexivity. }
    unfold integral, points. cbn [q_facets segment filter mb mb_test]. cbn [q_surface segment].
    destruct (Z.eqb left z); destruct (Z.eqb right z); cbn [map]; rewrite ?rsum_cons, ?rsum_nil; cbn [q_weight segment];
      rewrite ?FL, ?FR, ?PL, ?PR; ring. }
  rewrite (sum_over_ext _ _ _ Hone), sum_over_plus, !sum_over_scale. unfold sum_over.
  destruct (Nat.eqb i 0); destruct (Nat.eqb i K); ring.
Qed.

(** The concentration of theta. *)
Definition conc (L : nat -> composition) (T theta : field pt) : field pt := fun p =>
  let k := L (element K p) in
  let s := arrhenius (k_S0 k) (k_ES k) (val (T p)) in
  let c := law_conc (k_law k) s (val (theta p)) in
  mkDual c (fun i => s * theta_slope (k_law k) (val (theta p)) * grd (theta p) i + c * (k_ES k / (boltzmann * val (T p) ^ 2)) * grd (T p) i).
Lemma conc_fields mb ms T L : (forall e, (e < K)%nat -> made_of ms (vol e) (L e)) ->
  concentration_fields M mb T ms (conc L (T_T T) (mb_solution mb)) (conc L (T_Tn T) (mb_previous mb)).
Proof using HK.
  intros Hm p Hp m Hin Hz. pose proof (point_element p Hp) as He. destruct (Hm _ He m Hin Hz) as (E1 & _ & _ & E2 & E3).
  exists (k_S0 (L (element K p))), (k_ES (L (element K p))). split; [exact E2|]. split; [exact E3|]. rewrite E1.
  split; split; reflexivity.
Qed.
Definition diff (L : nat -> composition) (T : temperature pt) (p : pt) : R :=
  arrhenius (k_D0 (L (element K p))) (k_ED (L (element K p))) (val (T_T T p)).
Lemma diff_diffusivity ms T L : (forall e, (e < K)%nat -> made_of ms (vol e) (L e)) -> diffusivity K X rule vol left right ms T (diff L T).
Proof using HK.
  intros Hm m D0 ED p Hin H0 H1 Hp Hz. pose proof (point_element p Hp) as He. destruct (Hm _ He m Hin Hz) as (_ & E2 & E3 & _).
  unfold diff. congruence.
Qed.

Lemma one_element (k : composition) t x i e : (e < K)%nat ->
  sum_over rule (fun q => length_of X e * snd q *
     (arrhenius (k_D0 k) (k_ED k) t * (arrhenius (k_S0 k) (k_ES k) t * theta_slope (k_law k) (val (span N phi x (Cell e (fst q) (snd q))))
        * grd (span N phi x (Cell e (fst q) (snd q))) 0) * grd (phi i (Cell e (fst q) (snd q))) 0))
  = let f := permeability k t / length_of X e * (activity (k_law k) (x (S e)) - activity (k_law k) (x e)) in
    (if Nat.eqb i (S e) then f else 0) - (if Nat.eqb i e then f else 0).
Proof using All.
  intros He. pose proof (length_pos K X HX e He) as Hh. destruct Hrule as (_ & W0 & W1 & _).
  set (h := length_of X e) in *. set (sg := if Nat.eqb i e then -1 else if Nat.eqb i (S e) then 1 else 0).
  rewrite (sum_over_ext _ _ (fun q => sg * permeability k t * (x (S e) - x e) / h
     * (snd q * theta_slope (k_law k) (x e * (1 - fst q) + x (S e) * fst q)))).
  - rewrite sum_over_scale.
    assert (E : (x (S e) - x e) * sum_over rule (fun q => snd q * theta_slope (k_law k) (x e * (1 - fst q) + x (S e) * fst q))
      = activity (k_law k) (x (S e)) - activity (k_law k) (x e)).
    { destruct (k_law k); cbn [theta_slope activity].
      - rewrite (sum_over_ext _ _ snd) by (intros; ring). unfold sum_over. rewrite W0. ring.
      - rewrite (sum_over_ext _ _ (fun q => 2 * x e * snd q + 2 * (x (S e) - x e) * (snd q * fst q))) by (intros; ring).
        rewrite sum_over_plus, !sum_over_scale. unfold sum_over. rewrite W0, W1. field. }
    cbv zeta. rewrite <- E. set (s := sum_over _ _). unfold sg.
    destruct (Nat.eqb_spec i e) as [E1|E1]; destruct (Nat.eqb_spec i (S e)) as [E2|E2]; try lia; field; lra.
  - intros q Hq.
    assert (Hp : point M (Cell e (fst q) (snd q))) by (left; apply segment_cells; eauto).
    destruct (span_segment K X rule vol left right HK Hrule x _ Hp) as [Hv Hg]. rewrite Hg, Hv. cbn [element linear grd local]. fold h.
    unfold permeability, solubility, sg. destruct (Nat.eqb i e); destruct (Nat.eqb i (S e)); field; lra.
Qed.

Lemma theta_residual mb ms T t L r x i : composite K X rule vol left right mb ms T t L ->
  hydrogen_residual M mb ms T None false N phi r -> (i < S K)%nat ->
  r x i = flux_node K (through X L t x) (entering_left K X rule vol left right mb T t L x) (entering_right K X rule vol left right mb T t L x) i.
Proof using All.
  intros (_ & _ & _ & Hcov & HT & Hiso & HL & Hcl & HS & Hsrc & Hb) Hr Hi. destruct (Hr x i Hi) as (F & HF & <-).
  set (mbx := mkMobile (mb_class mb) (span N phi x) (mb_previous mb) (phi i) (mb_sources mb) (mb_bcs mb)) in *.
  destruct (mb_class mb) as [|S_ ms'] eqn:Ecl; [contradiction|].
  assert (Hm : forall e, (e < K)%nat -> made_of ms (vol e) (L e)) by (intros e He; apply (HL e He)).
  assert (HSx : solubility_field M mbx T ms) by (unfold solubility_field in *; cbn [mbx mb_class]; rewrite Ecl in HS; exact HS).
  pose proof (conc_fields mbx ms T L Hm) as Hc.
  destruct (variable_problem M mbx T ms _ _ S_ ms' eq_refl Hcov HSx Hc HT None [] false F Hb
              (fun t0 m (H : In t0 []) _ => match H with end) HF) as (G & HG & <-).
  set (c := conc L (T_T T) (mb_solution mbx)) in *. set (cn := conc L (T_Tn T) (mb_previous mbx)) in *.
  destruct (hydrogen_split M (of_concentration mbx c cn) ms T None G eq_refl HG) as [Hnum ->].
  unfold of_concentration. cbn [mb_solution mb_previous mb_test mb_sources mb_bcs].
  rewrite (diffusion_all K X rule vol left right ms T (diff L T) c cn _ Hcov HT (diff_diffusivity ms T L Hm) Hnum).
  assert (HpL : point M LeftEnd) by (right; now left). assert (HpR : point M RightEnd) by (right; right; now left).
  assert (EL : val (c LeftEnd) = solubility (L 0%nat) t * activity (k_law (L 0%nat)) (x 0%nat)).
  { unfold c, conc. cbv zeta. cbn [val element]. destruct (Hiso _ HpL) as [-> _]. cbn [mbx mb_solution].
    rewrite (proj1 (span_segment K X rule vol left right HK Hrule x _ HpL)). cbn [element local].
    replace (x 0%nat * (1 - 0) + x 1%nat * 0) with (x 0%nat) by ring. unfold law_conc, activity, solubility. destruct (k_law _); ring. }
  assert (ER : val (c RightEnd) = solubility (L (K - 1)%nat) t * activity (k_law (L (K - 1)%nat)) (x K)).
  { unfold c, conc. cbv zeta. cbn [val element]. destruct (Hiso _ HpR) as [-> _]. cbn [mbx mb_solution].
    rewrite (proj1 (span_segment K X rule vol left right HK Hrule x _ HpR)). cbn [element local]. replace (S (K - 1)) with K by lia.
    replace (x (K - 1)%nat * (1 - 1) + x K * 1) with (x K) by ring. unfold law_conc, activity, solubility. destruct (k_law (L (K - 1)%nat)); ring. }
  rewrite (fluxes_ends_any c cn _ _ T _ _ i HT EL ER Hb Hi).
  unfold create_mobile_source_form. cbn [mb_sources mbx]. rewrite Hsrc. cbn [flat_map]. rewrite assemble_nil, all_elements.
  rewrite (sum_over_ext _ _ (fun e => (if Nat.eqb i (S e) then through X L t x e else 0) - (if Nat.eqb i e then through X L t x e else 0))).
  - rewrite <- sum_over_minus. unfold sum_over. rewrite (seq_up K HK), (seq_down K HK) by exact Hi.
    unfold flux_node, entering_left, entering_right. destruct i as [|j]; ring.
  - intros e He. apply in_seq in He. unfold through. transitivity (let f := permeability (L e) t / length_of X e * (activity (k_law (L e)) (x (S e)) - activity (k_law (L e)) (x e)) in
      (if Nat.eqb i (S e) then f else 0) - (if Nat.eqb i e then f else 0)); [|reflexivity].
    rewrite <- (one_element (L e) t x i e ltac:(lia)). apply sum_over_ext. intros q Hq.
    assert (Hp : point M (Cell e (fst q) (snd q))) by (left; apply segment_cells; [exact HK|exists e, q; repeat split; auto; lia]).
    destruct (Hiso _ Hp) as [Ht Hgt]. unfold diff, c, conc. cbv zeta. cbn [grd element mbx mb_solution mb_test]. rewrite Ht, Hgt, Rmult_0_r, Rplus_0_r. reflexivity.
Qed.
Lemma permeability_pos k t : 0 < k_D0 k -> 0 < k_S0 k -> 0 < permeability k t.
Proof using Type.
  intros H0 H1. unfold permeability, solubility, arrhenius. apply Rmult_lt_0_compat; (apply Rdiv_lt_0_compat; [assumption|apply exp_pos]).
Qed.
End Composite.

(** ** Chains of two kinds of elements: one solution, which is monotone. *)
From Coq Require Import Ranalysis.
Section Mixed.
Variables (K : nat) (l : nat -> law) (g : nat -> R).
Hypotheses (HK : (0 < K)%nat) (Hg : forall e, (e < K)%nat -> 0 < g e).
Local Notation flux := (fun (x : nat -> R) e => g e * (activity (l e) (x (S e)) - activity (l e) (x e))).

Lemma activity_mono k a b : 0 <= a -> a <= b -> activity k a <= activity k b.
Proof using Type. intros H0 H. destruct k; cbn; [exact H|nra]. Qed.
Lemma activity_strict k a b : 0 <= a -> a < b -> activity k a < activity k b.
Proof using Type. intros H0 H. destruct k; cbn; [exact H|nra]. Qed.
Lemma activity_inv_le k a b : 0 <= a -> 0 <= b -> activity k a <= activity k b -> a <= b.
Proof using Type. intros H0 H1 H. destruct k; cbn in H; [exact H|nra]. Qed.
Lemma activity_inv_lt k a b : 0 <= a -> 0 <= b -> activity k a < activity k b -> a < b.
Proof using Type. intros H0 H1 H. destruct k; cbn in H; [exact H|nra]. Qed.

Lemma mixed_mono x J : (forall i, (i <= K)%nat -> 0 <= x i) -> (forall e, (e < K)%nat -> flux x e = J) ->
  (0 <= J -> forall i j, (i <= j <= K)%nat -> x i <= x j) /\ (J <= 0 -> forall i j, (i <= j <= K)%nat -> x j <= x i).
Proof using All.
  intros H0 HJ. split; intros HJ0 i j [Hij Hj]; induction Hij as [|j Hij IH]; try lra; specialize (IH ltac:(lia));
    specialize (HJ j ltac:(lia)); specialize (Hg j ltac:(lia)); cbn beta in HJ.
  - apply Rle_trans with (x j); [exact IH|]. apply (activity_inv_le (l j)); [apply H0; lia|apply H0; lia|]. nra.
  - apply Rle_trans with (x j); [|exact IH]. apply (activity_inv_le (l j)); [apply H0; lia|apply H0; lia|]. nra.
Qed.

Lemma mixed_compare x y J J' : (forall i, (i <= K)%nat -> 0 <= x i /\ 0 <= y i) -> x 0%nat = y 0%nat ->
  (forall e, (e < K)%nat -> flux x e = J) -> (forall e, (e < K)%nat -> flux y e = J') -> J < J' -> x K < y K.
Proof using All.
  intros H0 E HJ HJ' Hlt.
  assert (H : forall i, (i < K)%nat -> x (S i) < y (S i)).
  { induction i as [|i IH]; intros Hi; pose proof (HJ _ Hi) as A; pose proof (HJ' _ Hi) as B; pose proof (Hg _ Hi) as G; cbn beta in A, B.
    - rewrite <- E in B. destruct (H0 1%nat ltac:(lia)). apply (activity_inv_lt (l 0%nat)); [assumption|assumption|nra].
    - specialize (IH ltac:(lia)). destruct (H0 (S i) ltac:(lia)). destruct (H0 (S (S i)) ltac:(lia)).
      pose proof (activity_strict (l (S i)) _ _ H IH). apply (activity_inv_lt (l (S i))); [assumption|assumption|nra]. }
  specialize (H (K - 1)%nat ltac:(lia)). replace (S (K - 1)) with K in H by lia. exact H.
Qed.
Lemma mixed_unique x y J J' : (forall i, (i <= K)%nat -> 0 <= x i /\ 0 <= y i) -> x 0%nat = y 0%nat -> x K = y K ->
  (forall e, (e < K)%nat -> flux x e = J) -> (forall e, (e < K)%nat -> flux y e = J') -> J = J' /\ forall i, (i <= K)%nat -> x i = y i.
Proof using All.
  intros H0 E EK HJ HJ'.
  assert (EJ : J = J').
  { destruct (Rtotal_order J J') as [H|[H|H]]; [|exact H|].
    - pose proof (mixed_compare x y J J' H0 E HJ HJ' H). lra.
    - pose proof (mixed_compare y x J' J ltac:(intros i Hi; specialize (H0 i Hi); tauto) (eq_sym E) HJ' HJ H). lra. }
  split; [exact EJ|]. induction i as [|i IH]; intros Hi; [exact E|]. specialize (IH ltac:(lia)).
  pose proof (HJ i ltac:(lia)) as A. pose proof (HJ' i ltac:(lia)) as B. pose proof (Hg i ltac:(lia)) as G. cbn beta in A, B.
  rewrite <- EJ, <- A, IH in B. destruct (H0 (S i) Hi) as [P Q].
  assert (HE : activity (l i) (x (S i)) = activity (l i) (y (S i))) by nra.
  apply Rle_antisym; apply (activity_inv_le (l i)); try assumption; lra.
Qed.

(** Existence, upwards: shooting from the left. *)
Lemma sqrt_continuous : continuity sqrt.
Proof using Type.
  intros x. destruct (Rlt_le_dec x 0) as [H|H].
  - intros eps He. exists (- x). split; [lra|]. intros y [_ Hy]. cbn in Hy |- *. unfold R_dist in *.
    rewrite (sqrt_neg_0 x), (sqrt_neg_0 y).
    + unfold Rminus. rewrite Rplus_opp_r, Rabs_R0. exact He.
    + unfold Rabs in Hy. destruct (Rcase_abs (y - x)); lra.
    + lra.
  - intros eps He. exists (eps * eps). split; [nra|]. intros y [_ Hy]. cbn in Hy |- *. unfold R_dist in *.
    pose proof (sqrt_pos x). pose proof (sqrt_pos y). pose proof (sqrt_sqrt x H).
    destruct (Rlt_le_dec y 0) as [Hy0|Hy0].
    + rewrite (sqrt_neg_0 y) by lra. unfold Rminus. rewrite Rplus_0_l, Rabs_Ropp, Rabs_pos_eq by assumption.
      rewrite Rabs_minus_sym, Rabs_pos_eq in Hy by lra. apply Rsqr_incrst_0; unfold Rsqr; lra.
    + pose proof (sqrt_sqrt y Hy0). apply Rabs_def1; [|].
      * apply Rabs_def2 in Hy. destruct Hy. destruct (Rlt_le_dec (sqrt y - sqrt x) eps); [assumption|]. nra.
      * apply Rabs_def2 in Hy. destruct Hy. destruct (Rlt_le_dec (- eps) (sqrt y - sqrt x)); [assumption|]. nra.
Qed.
Definition next (k : law) (r theta J : R) : R := match k with Sievert => theta + J / r | Henry => sqrt (theta * theta + J / r) end.
Fixpoint shoot (a J : R) (n : nat) : R := match n with O => a | S m => next (l m) (g m) (shoot a J m) J end.
Lemma shoot_continuous a n : continuity (fun J => shoot a J n).
Proof using Type.
  induction n as [|m IH]; cbn [shoot]; [apply continuity_const; intros u v; reflexivity|]. unfold next.
  assert (C : continuity (fun J : R => J / g m)).
  { intros u. apply (continuity_pt_mult (fun J => J) (fun _ => / g m)); [apply derivable_continuous_pt, derivable_pt_id|apply continuity_pt_const; intros v w; reflexivity]. }
  destruct (l m).
  - intros u. apply (continuity_pt_plus (fun J => shoot a J m) (fun J => J / g m)); [apply IH|apply C].
  - intros u. apply (continuity_pt_comp (fun J => shoot a J m * shoot a J m + J / g m) sqrt); [|apply sqrt_continuous].
    apply (continuity_pt_plus (fun J => shoot a J m * shoot a J m) (fun J => J / g m)); [|apply C].
    apply (continuity_pt_mult (fun J => shoot a J m) (fun J => shoot a J m)); apply IH.
Qed.
Lemma shoot_flux a J : 0 <= a -> 0 <= J -> forall n, (n <= K)%nat -> 0 <= shoot a J n /\
  (forall e, (e < n)%nat -> flux (shoot a J) e = J).
Proof using All.
  intros Ha HJ. induction n as [|m IH]; intros Hn; [split; [exact Ha|intros; lia]|]. destruct (IH ltac:(lia)) as [H1 H2].
  pose proof (Hg m ltac:(lia)) as G. assert (Hq : 0 <= J / g m) by (apply Rmult_le_pos; [exact HJ|left; now apply Rinv_0_lt_compat]).
  split.
  - cbn [shoot]. unfold next. destruct (l m); [lra|apply sqrt_pos].
  - intros e He. destruct (Nat.eq_dec e m) as [->|Hne]; [|apply H2; lia]. cbn [shoot]. unfold next. destruct (l m) eqn:El; cbn [activity].
    + field. lra.
    + rewrite pow2_sqrt by nra. field. lra.
Qed.
Lemma mixed_exists_up a b : 0 <= a -> a <= b -> exists x J, x 0%nat = a /\ x K = b /\
  (forall i, (i <= K)%nat -> 0 <= x i) /\ (forall e, (e < K)%nat -> flux x e = J).
Proof using All.
  intros Ha Hab. set (m := (K - 1)%nat). pose proof (Hg m ltac:(unfold m; lia)) as G.
  set (J1 := g m * (activity (l m) (b + 1) + 1)).
  assert (Hact : 0 <= activity (l m) (b + 1)) by (destruct (l m); cbn; nra).
  assert (HJ1 : 0 < J1) by (unfold J1; apply Rmult_lt_0_compat; lra).
  assert (Hhi : b < shoot a J1 K).
  { destruct (shoot_flux a J1 Ha ltac:(lra) K ltac:(lia)) as [P Q]. specialize (Q m ltac:(unfold m; lia)).
    replace (S m) with K in Q by (unfold m; lia). destruct (shoot_flux a J1 Ha ltac:(lra) m ltac:(unfold m; lia)) as [P' _].
    assert (0 <= activity (l m) (shoot a J1 m)) by (destruct (l m); cbn; nra). cbn beta in Q. unfold J1 in Q at 3.
    assert (activity (l m) (b + 1) < activity (l m) (shoot a J1 K)) by nra.
    apply Rlt_trans with (b + 1); [lra|]. apply (activity_inv_lt (l m)); lra. }
  destruct (Req_dec a b) as [E|E].
  - subst b. exists (fun _ => a), 0. split; [reflexivity|]. split; [reflexivity|]. split; [intros; exact Ha|]. intros e He. ring.
  - assert (Hlo : shoot a 0 K < b).
    { assert (Hz : forall n, (n <= K)%nat -> shoot a 0 n = a).
      { induction n as [|n IH]; intros Hn; [reflexivity|]. cbn [shoot]. rewrite IH by lia. unfold next. destruct (l n); unfold Rdiv; rewrite Rmult_0_l, Rplus_0_r; [reflexivity|].
        apply sqrt_lem_1; nra. }
      rewrite Hz by lia. lra. }
    destruct (IVT (fun J => shoot a J K - b) 0 J1) as (J & [HJ0 HJ1'] & HJ).
    + intros u. apply (continuity_pt_minus (fun J => shoot a J K) (fun _ => b)); [apply shoot_continuous|apply continuity_pt_const; intros v w; reflexivity].
    + exact HJ1.
    + lra.
    + lra.
    + exists (shoot a J), J. split; [reflexivity|]. split; [lra|]. split.
      * intros i Hi. apply (shoot_flux a J Ha HJ0 i Hi).
      * apply (shoot_flux a J Ha HJ0 K). lia.
Qed.
End Mixed.

(** Both ways. *)
Lemma mixed_exists K l g a b : (0 < K)%nat -> (forall e, (e < K)%nat -> 0 < g e) -> 0 <= a -> 0 <= b ->
  exists (x : nat -> R) J, x 0%nat = a /\ x K = b /\ (forall i, (i <= K)%nat -> 0 <= x i) /\
  (forall e, (e < K)%nat -> g e * (activity (l e) (x (S e)) - activity (l e) (x e)) = J).
Proof.
  intros HK Hg Ha Hb. destruct (Rle_lt_dec a b) as [H|H].
  - exact (mixed_exists_up K l g HK Hg a b Ha H).
  - destruct (mixed_exists_up K (fun e => l (K - 1 - e)%nat) (fun e => g (K - 1 - e)%nat) HK (fun e He => Hg (K - 1 - e)%nat ltac:(lia)) b a Hb ltac:(lra))
      as (x & J & H0 & H1 & H2 & H3).
    exists (fun i => x (K - i)%nat), (- J). split; [now rewrite Nat.sub_0_r|]. split; [now rewrite Nat.sub_diag|].
    split; [intros i Hi; apply H2; lia|]. intros e He. specialize (H3 (K - 1 - e)%nat ltac:(lia)). cbn beta in H3.
    replace (K - 1 - (K - 1 - e))%nat with e in H3 by lia. replace (S (K - 1 - e)) with (K - e)%nat in H3 by lia.
    replace (K - S e)%nat with (K - 1 - e)%nat by lia. lra.
Qed.
