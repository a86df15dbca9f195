(** Transient and steady formulations compared term by term. *)
From Coq Require Import Reals ZArith List Bool Lra Lia.
From Verif Require Import Base.Exc Base.Dual Model.Materials Model.Laws Model.Theta Model.Forms
  Spec.BalanceSpec Spec.EulerSpec Proofs.FormProofs Proofs.StabilityProofs Proofs.SplitProofs.
Import ListNotations.
Local Open Scope R_scope.
Local Open Scope list_scope.

Section Euler.
Context {P : Type}.
Implicit Types (M : mesh P).

Lemma isum_cells M f : isum M (q_cells M) f = integral M DxAll f.
Proof. reflexivity. Qed.
Lemma isum_volume M z f : isum M (volume_points M z) f = integral M (Dx z) f.
Proof. reflexivity. Qed.
Lemma isum_surface M z f : isum M (surface_points M z) f = integral M (Ds z) f.
Proof. reflexivity. Qed.

Lemma sum_ids_integral M (l : list Z) (f : P -> R) : NoDup l -> (forall p, In p (q_cells M) -> In (q_volume M p) l) ->
  sum_over l (fun z => integral M (Dx z) f) = integral M DxAll f.
Proof.
  intros Hnd Hin. rewrite (sum_over_ext l _ (fun z => integral M DxAll (fun p => if Z.eqb (q_volume M p) z then f p else 0)))
    by (intros; apply integral_Dx).
  rewrite <- (integral_sum M l (fun z p => if Z.eqb (q_volume M p) z then f p else 0)). apply integral_ext. intros p Hp. specialize (Hin p Hp).
  clear Hp. unfold sum_over. induction l as [|a l IH]; [destruct Hin|]. inversion Hnd as [|? ? Ha Hl]; subst. cbn [map]. rewrite rsum_cons.
  destruct Hin as [->|Hin].
  - rewrite Z.eqb_refl. rewrite rsum_map_zero; [ring|]. intros z Hz. destruct (Z.eqb_spec (q_volume M p) z); [subst; contradiction|reflexivity].
  - destruct (Z.eqb_spec (q_volume M p) a); [subst; contradiction|]. rewrite IH by assumption. ring.
Qed.

Lemma sum_forms_two {A} M (f g : A -> res (form P)) (h : A -> R) l F G :
  sum_forms f l = Ok F -> sum_forms g l = Ok G ->
  (forall a K L, In a l -> f a = Ok K -> g a = Ok L -> assemble M K = assemble M L + h a) ->
  assemble M F = assemble M G + sum_over l h.
Proof.
  revert F G. induction l as [|a l IH]; intros F G; cbn [sum_forms].
  - intros [= <-] [= <-] _. rewrite assemble_nil. unfold sum_over. cbn [map]. rewrite rsum_nil. ring.
  - destruct (f a) as [K|] eqn:Ef; cbn [bind]; [|discriminate]. destruct (sum_forms f l) as [F'|]; cbn [bind]; [|discriminate].
    destruct (g a) as [L|] eqn:Eg; cbn [bind]; [|discriminate]. destruct (sum_forms g l) as [G'|]; cbn [bind]; [|discriminate].
    intros [= <-] [= <-] H. rewrite !assemble_app, sum_over_cons, (H a K L) by (auto; now left).
    rewrite (IH F' G') by (auto; intros; eapply H; eauto; now right). ring.
Qed.

Lemma diffusion_time M soret D0 ED Q c0 c0n v T dt z :
  assemble M (diffusion_terms M soret D0 ED Q c0 c0n v T (Some dt) z) =
  assemble M (diffusion_terms M soret D0 ED Q c0 c0n v T None z) + integral M (Dx z) (fun p => (val (c0 p) - val (c0n p)) / dt * val (v p)).
Proof.
  unfold diffusion_terms. rewrite !assemble_app, !assemble_cons, !assemble_nil. cbn [fst snd]. ring.
Qed.

Lemma materials_time M mb T ms c cn dt soret F1 F0 : covered M ms -> concentrations M mb T ms c cn -> positive_temperature M T ->
  sum_forms (material_form M mb T (Some dt) soret) ms = Ok F1 -> sum_forms (material_form M mb T None soret) ms = Ok F0 ->
  assemble M F1 = assemble M F0 + integral M DxAll (fun p => quotient dt c cn p * val (mb_test mb p)).
Proof.
  intros Hcov Hc HT H1 H0.
  rewrite (sum_forms_two M _ _ (fun m => sum_over (ids (m_id (attrs m))) (fun z => integral M (Dx z) (fun p => quotient dt c cn p * val (mb_test mb p)))) ms F1 F0 H1 H0).
  - f_equal. rewrite <- sum_over_flat_map. apply sum_ids_integral; [apply Hcov|]. intros p Hp. apply Hcov. now left.
  - intros m K L Hm. unfold material_form. destruct (get_concentration mb (attrs m) T) as [[f fn]|] eqn:Hg; cbn [bind]; [|discriminate].
    destruct (float_of (Some (m_D0 (attrs m)))); cbn [bind]; [|discriminate]. destruct (float_of (Some (m_ED (attrs m)))); cbn [bind]; [|discriminate].
    destruct (if soret then _ else _); cbn [bind]; [|discriminate]. intros [= <-] [= <-]. cbn [fst snd].
    rewrite !assemble_flat_map, <- sum_over_plus. apply sum_over_ext. intros z Hz. rewrite diffusion_time. f_equal.
    apply integral_ext. intros p Hp. apply in_points_cells in Hp. destruct Hp as [Hp Ez].
    destruct (get_concentration_val M mb T ms c cn m f fn p Hc HT Hg (or_introl Hp) Hm) as [-> ->]; [now rewrite Ez|reflexivity].
Qed.

Lemma fluxes_time M mb T ms c cn dt : covered M ms -> concentrations M mb T ms c cn -> solubility_field M mb T ms -> near_surface_ok mb ->
  (forall p, In p (q_facets M) -> In (q_volume M p) (BalanceSpec.all_ids ms)) ->
  assemble M (create_fluxes_form M mb T (Some dt)) =
  assemble M (create_fluxes_form M mb T None) + sum_over (mb_bcs mb) (surface_quotient M dt c cn (fun p => val (mb_test mb p))).
Proof.
  intros Hcov Hc HS Hn Hf. unfold create_fluxes_form. rewrite !assemble_flat_map, <- sum_over_plus. apply sum_over_ext. intros b Hb.
  destruct b as [[] surfaces f|s]; cbn [flux_terms surface_quotient]; [rewrite !assemble_nil; ring|ring|].
  destruct Hn as [Hn|Hn]; [|now destruct (Hn s)].
  rewrite !assemble_flat_map, <- sum_over_plus. apply sum_over_ext. intros a Ha. unfold surface_kinetics_terms.
  rewrite assemble_app. rewrite assemble_cons, assemble_cons, assemble_nil. cbn [fst snd]. rewrite app_nil_l.
  rewrite isum_surface, integral_plus.
  assert (E : integral M (Ds (a_surface a)) (fun p => sk_lambda_IS s * (mobile_concentration M mb p - val (mb_previous mb p)) / dt * val (mb_test mb p))
    = integral M (Ds (a_surface a)) (fun p => sk_lambda_IS s * quotient dt c cn p * val (mb_test mb p))); [|rewrite E; unfold quotient; ring].
  apply integral_ext. intros p Hp. apply in_points_facets in Hp. destruct Hp as [Hp _].
  rewrite (mobile_concentration_val M mb T ms c cn p Hcov Hc HS (or_intror Hp)).
  specialize (Hf p Hp). apply in_flat_map in Hf. destruct Hf as (m & Hm & Hz). specialize (Hc p (or_intror Hp) m Hm Hz).
  unfold concentration_at in Hc. rewrite Hn in Hc. destruct Hc as [_ Hc]. unfold quotient, Rdiv. rewrite Hc. ring.
Qed.

Lemma absent_terms M ms (t : trap P) F :
  sum_forms (fun m => if mat_in m (t_materials t) then Ok []
     else let! id := dx_id (m_id (attrs m)) in Ok [(Dx id, fun p => val (t_solution t p) * val (t_test t p))]) ms = Ok F ->
  assemble M F = empty_terms M ms t.
Proof.
  unfold empty_terms. revert F. induction ms as [|m ms IH]; intros F; cbn [sum_forms filter].
  - intros [= <-]. reflexivity.
  - destruct (mat_in m (t_materials t)); cbn [bind negb].
    + destruct (sum_forms _ ms) as [G|] eqn:E; cbn [bind]; [|discriminate]. intros [= <-]. now apply IH.
    + destruct (dx_id (m_id (attrs m))) as [z|] eqn:Ez; cbn [bind]; [|discriminate].
      destruct (sum_forms _ ms) as [G|] eqn:E; cbn [bind]; [|discriminate]. intros [= <-]. rewrite sum_over_cons.
      cbn [app]. rewrite assemble_cons, (IH G eq_refl). f_equal. destruct (m_id (attrs m)); cbn in Ez; [|discriminate].
      injection Ez as ->. unfold sum_over. cbn [ids map fst snd]. rewrite rsum_cons, rsum_nil. rewrite isum_volume. ring.
Qed.

Lemma trap_time M mb ms T dt t K L : trap_create_form mb ms T (Some dt) t = Ok K -> trap_create_form mb ms T None t = Ok L ->
  assemble M K = assemble M L + (isum M (q_cells M) (fun p => quotient dt (fun p => val (t_solution t p)) (fun p => val (t_previous t p)) p * val (t_test t p)) - empty_terms M ms t).
Proof.
  unfold trap_create_form, create_trapping_form. cbn [bind].
  destruct (sum_forms_enum (trapping_terms mb T t) 0 (t_materials t)) as [F1|]; cbn [bind]; [|discriminate].
  destruct (sum_forms (trap_source_terms t) (t_sources t)) as [G|]; cbn [bind]; [|discriminate]. intros [= <-].
  match goal with |- context [sum_forms ?f ms] => destruct (sum_forms f ms) as [F0|] eqn:E end; cbn [bind]; [|discriminate]. intros [= <-].
  rewrite !assemble_app, (absent_terms M ms t F0 E), assemble_cons, assemble_app. cbn [fst snd]. rewrite isum_cells. unfold quotient. rewrite ?assemble_nil. ring.
Qed.

Lemma euler M mb ms T dt traps soret c c_n F1 F0 : covered M ms -> concentrations M mb T ms c c_n -> solubility_field M mb T ms ->
  positive_temperature M T -> near_surface_ok mb ->
  define_variational_problem M mb ms T (Some dt) traps soret = Ok F1 -> define_variational_problem M mb ms T None traps soret = Ok F0 ->
  assemble M F1 = assemble M F0 + (time_terms M dt c c_n mb traps - sum_over traps (empty_terms M ms)).
Proof.
  intros Hcov Hc HS HT Hn. unfold define_variational_problem, mobile_create_form, create_diffusion_form.
  destruct (sum_forms (material_form M mb T (Some dt) soret) ms) as [A1|] eqn:E1; cbn [bind]; [|discriminate].
  destruct (sum_forms (material_form M mb T None soret) ms) as [A0|] eqn:E0; cbn [bind]; [|discriminate].
  destruct (sum_forms _ traps) as [B|]; cbn [bind]; [|discriminate].
  destruct (sum_forms (trap_create_form mb ms T (Some dt)) traps) as [G1|] eqn:H1; cbn [bind]; [|discriminate].
  destruct (sum_forms (trap_create_form mb ms T None) traps) as [G0|] eqn:H0; cbn [bind]; [|discriminate].
  intros [= <-] [= <-]. rewrite !assemble_app.
  rewrite (materials_time M mb T ms c c_n dt soret A1 A0 Hcov Hc HT E1 E0).
  rewrite (fluxes_time M mb T ms c c_n dt Hcov Hc HS Hn) by (intros p Hp; apply Hcov; now right).
  rewrite (sum_forms_two M _ _ (fun t => isum M (q_cells M) (fun p => quotient dt (fun p => val (t_solution t p)) (fun p => val (t_previous t p)) p * val (t_test t p)) - empty_terms M ms t) traps G1 G0 H1 H0)
    by (intros; eapply trap_time; eassumption).
  rewrite <- sum_over_minus. unfold time_terms. rewrite isum_cells. ring.
Qed.

Lemma heat_euler M dt T T_n v ms rho cp sources bcs F1 F0 : 
  (forall m, In m ms -> is_property (m_rho (attrs m)) (rho m) /\ is_property (m_heat (attrs m)) (cp m)) ->
  heat_form M true dt T T_n v ms sources bcs = Ok F1 -> heat_form M false dt T T_n v ms sources bcs = Ok F0 ->
  assemble M F1 = assemble M F0 + heat_time_terms M dt rho cp ms T T_n v.
Proof.
  intros Hp. unfold heat_form.
  destruct (sum_forms (heat_material_form M true dt T T_n v) ms) as [A1|] eqn:E1; cbn [bind]; [|discriminate].
  destruct (sum_forms (heat_material_form M false dt T T_n v) ms) as [A0|] eqn:E0; cbn [bind]; [|discriminate].
  destruct (sum_forms _ bcs) as [B|]; cbn [bind]; [|discriminate]. intros [= <-] [= <-]. rewrite !assemble_app.
  rewrite (sum_forms_two M _ _ (fun m => sum_over (ids (m_id (attrs m))) (fun z => isum M (volume_points M z) (fun p =>
    rho m (val (T p)) * cp m (val (T p)) * (quotient dt (fun p => val (T p)) (fun p => val (T_n p)) p * val (v p))))) ms A1 A0 E1 E0); [unfold heat_time_terms; ring|].
  intros m K L Hm. destruct (Hp m Hm) as [Hr Hh]. unfold heat_material_form. destruct (value_at (m_thermal (attrs m))); cbn [bind]; [|discriminate].
  assert (V : forall o f, is_property o f -> exists g, value_at o = Ok g /\ forall T, g T = f T).
  { intros o f [->|(r & -> & Hf)]; cbn; eauto. }
  destruct (V _ _ Hh) as (gh & -> & Eh). destruct (V _ _ Hr) as (gr & -> & Er). cbn [bind]. intros [= <-] [= <-].
  rewrite !assemble_app, !assemble_map.
  match goal with |- ?a + ?b = ?b' + ?d => assert (E : a = d); [|rewrite E; ring] end.
  apply sum_over_ext. intros z _. cbn [fst snd]. rewrite isum_volume. apply integral_ext. intros p _. rewrite Er, Eh. unfold quotient, Rdiv. ring.
Qed.
End Euler.
