(** Which equation a test function selects (C71). *)
From Coq Require Import Reals ZArith List Bool Lra Lia.
From Verif Require Import Base.Exc Base.Dual Model.Materials Model.Laws Model.Theta Model.Forms
  Spec.PhysSpec Spec.BalanceSpec Spec.SurfaceSpec Proofs.LawProofs Proofs.ThetaProofs Proofs.FormProofs.
Import ListNotations.
Local Open Scope R_scope.

Section Null.
Context {P : Type}.
Implicit Types (M : mesh P) (F : form P).

Lemma null_ddiv (v : field P) (r : P -> dual) : null v -> null (fun p => ddiv (v p) (r p)).
Proof. intros H p. destruct (H p) as [H1 H2]. cbn [ddiv val grd]. rewrite H1. split; [unfold Rdiv; ring|]. intros i. rewrite H2. unfold Rdiv. ring. Qed.

Lemma diffusion_null M soret D0 ED Q c0 c0n v T dt z : null v -> assemble M (diffusion_terms M soret D0 ED Q c0 c0n v T dt z) = 0.
Proof.
  intros Hv. assert (Hg := fun p => proj2 (Hv p)).
  assert (Hg1 := fun p => proj2 (null_ddiv v (fun p => dcoord0 (q_x0 M p)) Hv p)).
  assert (Hg2 := fun p => proj2 (null_ddiv _ (fun p => dcoord0 (q_x0 M p)) (null_ddiv v (fun p => dcoord0 (q_x0 M p)) Hv) p)).
  cbv beta in Hg1, Hg2. unfold diffusion_terms. cbv zeta. rewrite assemble_app.
  assert (E : forall X : R, assemble M (match dt with Some dt => [(Dx z, fun p => (val (c0 p) - val (c0n p)) / dt * val (v p))] | None => [] end) + X = X).
  { intros X. destruct dt; rewrite ?assemble_cons, assemble_nil; cbn [fst snd]; [|lra].
    rewrite integral_zero by (intros p _; rewrite (proj1 (Hv p)); ring). lra. }
  rewrite E. destruct (q_type M), soret; rewrite !assemble_cons, ?assemble_nil; cbn [fst snd];
    rewrite ?integral_zero; try lra; intros p _;
    ((rewrite dot_zero; [ring|]) || apply dot_zero); intros i _; right; auto.
Qed.

Lemma materials_null M mb T ms dt soret F : null (mb_test mb) -> sum_forms (material_form M mb T dt soret) ms = Ok F -> assemble M F = 0.
Proof.
  intros Hv HF. rewrite (sum_forms_assemble M _ (fun _ => 0) ms F HF); [now apply rsum_map_zero|].
  intros m G _. unfold material_form.
  destruct (get_concentration mb (attrs m) T) as [[f fn]|e] eqn:Hg; cbn [bind]; [|discriminate].
  destruct (float_of (Some (m_D0 (attrs m)))) as [D0|e]; cbn [bind]; [|discriminate].
  destruct (float_of (Some (m_ED (attrs m)))) as [ED|e]; cbn [bind]; [|discriminate].
  destruct (if soret then value_at (m_Q (attrs m)) else Ok (fun _ => 0)) as [Q|e]; cbn [bind]; [|discriminate].
  intros HG. apply Ok_inj in HG. subst G. rewrite assemble_flat_map. apply rsum_map_zero. intros z _. now apply diffusion_null.
Qed.

Lemma enum_null {A} M (f : nat -> A -> res (form P)) l : forall i F, sum_forms_enum f i l = Ok F ->
  (forall j a G, f j a = Ok G -> assemble M G = 0) -> assemble M F = 0.
Proof.
  induction l as [|x l IH]; intros i F; cbn [sum_forms_enum].
  - intros H _. apply Ok_inj in H. now subst.
  - destruct (f i x) as [G|e] eqn:E; cbn [bind]; [|discriminate].
    destruct (sum_forms_enum f (S i) l) as [H|e] eqn:E'; cbn [bind]; [|discriminate].
    intros HF Hf. apply Ok_inj in HF. subst F. rewrite assemble_app, (Hf _ _ _ E), (IH _ _ E' Hf). lra.
Qed.

Lemma mobile_trapping_null M mb T traps F : null (mb_test mb) ->
  sum_forms (fun t => sum_forms_enum (mobile_trapping_terms mb T t) 0 (t_materials t)) traps = Ok F -> assemble M F = 0.
Proof.
  intros Hv HF. rewrite (sum_forms_assemble M _ (fun _ => 0) traps F HF); [now apply rsum_map_zero|].
  intros t G _ HG. apply (enum_null M _ _ _ _ HG). intros j m K. unfold mobile_trapping_terms.
  match goal with |- bind ?x _ = _ -> _ => destruct x as [[[[[k0 Ek] p0] Ep] n]|e] end; cbn [bind]; [|discriminate].
  destruct (get_concentration mb (attrs m) T) as [c|e]; cbn [bind]; [|discriminate].
  destruct (dx_id (m_id (attrs m))) as [z|e]; cbn [bind]; [|discriminate].
  intros HK. apply Ok_inj in HK. subst K. rewrite !assemble_cons, assemble_nil. cbn [fst snd].
  rewrite !integral_zero; [lra| |]; intros p _; rewrite (proj1 (Hv p)); ring.
Qed.

Lemma sources_null M mb : null (mb_test mb) -> assemble M (create_mobile_source_form M mb) = 0.
Proof.
  intros Hv. unfold create_mobile_source_form. rewrite assemble_flat_map. apply rsum_map_zero. intros s _.
  unfold mobile_source_terms. cbv zeta. rewrite assemble_map. apply rsum_map_zero. intros z _. cbn [fst snd].
  apply integral_zero. intros p _. rewrite (proj1 (Hv p)). ring.
Qed.

Lemma trap_null M mb ms T dt t F : null (t_test t) -> trap_create_form mb ms T dt t = Ok F -> assemble M F = 0.
Proof.
  intros Hv. unfold trap_create_form, create_trapping_form.
  match goal with |- bind (bind ?x _) _ = _ -> _ => destruct x as [F0|e] eqn:HF0 end; cbn [bind]; [|discriminate].
  destruct (sum_forms_enum (trapping_terms mb T t) 0 (t_materials t)) as [F1|e] eqn:HF1; cbn [bind]; [|discriminate].
  destruct (sum_forms (trap_source_terms t) (t_sources t)) as [G1|e] eqn:HG1; cbn [bind]; [|discriminate].
  intros HG. apply Ok_inj in HG. subst F. rewrite !assemble_app.
  assert (E0 : assemble M F0 = 0).
  { destruct dt as [dt|].
    - apply Ok_inj in HF0. subst F0. rewrite assemble_cons, assemble_nil. cbn [fst snd].
      rewrite integral_zero; [lra|]. intros p _. rewrite (proj1 (Hv p)). ring.
    - rewrite (sum_forms_assemble M _ (fun _ => 0) _ _ HF0); [now apply rsum_map_zero|]. intros m G _.
      destruct (mat_in m (t_materials t)); [intros H; apply Ok_inj in H; now subst|].
      destruct (dx_id (m_id (attrs m))) as [z|e]; cbn [bind]; [|discriminate].
      intros H. apply Ok_inj in H. subst G. rewrite assemble_cons, assemble_nil. cbn [fst snd].
      rewrite integral_zero; [lra|]. intros p _. rewrite (proj1 (Hv p)). ring. }
  assert (E1 : assemble M F1 = 0).
  { apply (enum_null M _ _ _ _ HF1). intros j m K. unfold trapping_terms.
    match goal with |- bind ?x _ = _ -> _ => destruct x as [[[[[k0 Ek] p0] Ep] n]|e] end; cbn [bind]; [|discriminate].
    match goal with |- bind ?x _ = _ -> _ => destruct x end; cbn [bind]; [|discriminate].
    destruct (get_concentration mb (attrs m) T) as [c|e]; cbn [bind]; [|discriminate].
    destruct (dx_id (m_id (attrs m))) as [z|e]; cbn [bind]; [|discriminate].
    intros HK. apply Ok_inj in HK. subst K. rewrite !assemble_cons, assemble_nil. cbn [fst snd].
    rewrite !integral_zero; [lra| |]; intros p _; rewrite (proj1 (Hv p)); ring. }
  rewrite E0, E1, (sum_forms_assemble M _ (fun _ => 0) _ _ HG1); [unfold sum_over; rewrite (rsum_map_zero (fun _ => 0)) by auto; lra|].
  intros s G _. unfold trap_source_terms. cbv zeta. destruct (dx_id (s_volume s)) as [z|e]; cbn [bind]; [|discriminate].
  intros H. apply Ok_inj in H. subst G. rewrite assemble_cons, assemble_nil. cbn [fst snd].
  rewrite integral_zero; [lra|]. intros p _. rewrite (proj1 (Hv p)). ring.
Qed.

Lemma traps_null M mb ms T dt traps F : (forall t, In t traps -> null (t_test t)) -> sum_forms (trap_create_form mb ms T dt) traps = Ok F ->
  assemble M F = 0.
Proof.
  intros Hv HF. rewrite (sum_forms_assemble M _ (fun _ => 0) traps F HF); [now apply rsum_map_zero|].
  intros t G Ht HG. apply (trap_null M mb ms T dt t G); auto.
Qed.

(** The pieces of the assembled problem. *)
Lemma pieces M mb ms T dt traps soret F : define_variational_problem M mb ms T dt traps soret = Ok F ->
  exists F1 F2 G, sum_forms (material_form M mb T dt soret) ms = Ok F1 /\
    sum_forms (fun t => sum_forms_enum (mobile_trapping_terms mb T t) 0 (t_materials t)) traps = Ok F2 /\
    sum_forms (trap_create_form mb ms T dt) traps = Ok G /\
    assemble M F = assemble M F1 - assemble M F2 + assemble M (create_mobile_source_form M mb)
                   + assemble M (create_fluxes_form M mb T dt) + assemble M G.
Proof.
  unfold define_variational_problem, mobile_create_form, create_diffusion_form.
  destruct (sum_forms (material_form M mb T dt soret) ms) as [F1|e] eqn:HF1; cbn [bind]; [|discriminate].
  match goal with |- bind (bind (bind ?x _) _) _ = _ -> _ => destruct x as [F2|e] eqn:HF2 end; cbn [bind]; [|discriminate].
  destruct (sum_forms (trap_create_form mb ms T dt) traps) as [G|e] eqn:HG; cbn [bind]; [|discriminate].
  intros HF. apply Ok_inj in HF. subst F. exists F1, F2, G. repeat split; auto. rewrite !assemble_app, assemble_neg. lra.
Qed.

Lemma only_fluxes M mb ms T dt traps soret F : null (mb_test mb) -> (forall t, In t traps -> null (t_test t)) ->
  define_variational_problem M mb ms T dt traps soret = Ok F -> assemble M F = assemble M (create_fluxes_form M mb T dt).
Proof.
  intros Hv Ht HF. destruct (pieces M mb ms T dt traps soret F HF) as [F1 [F2 [G [H1 [H2 [H3 ->]]]]]].
  rewrite (materials_null M mb T ms dt soret F1 Hv H1), (mobile_trapping_null M mb T traps F2 Hv H2), (sources_null M mb Hv),
    (traps_null M mb ms T dt traps G Ht H3). lra.
Qed.

Lemma surface_terms_null M s solute prev test T dt (a : adsorbed P) : null test -> null (a_test a) ->
  assemble M (surface_kinetics_terms s solute prev test T dt a) = 0.
Proof.
  intros Hv Ha. unfold surface_kinetics_terms. cbv zeta. rewrite assemble_app, !assemble_cons, assemble_nil. cbn [fst snd].
  destruct dt; rewrite ?assemble_cons, assemble_nil; cbn [fst snd]; rewrite !integral_zero; try lra;
    intros p _; rewrite ?(proj1 (Hv p)), ?(proj1 (Ha p)); ring.
Qed.
Lemma flux_terms_null M mb T dt b : null (mb_test mb) -> adsorbed_null b -> assemble M (flux_terms M mb T dt b) = 0.
Proof.
  intros Hv Hb. destruct b as [[|] l f|s]; cbn [flux_terms].
  - apply assemble_nil.
  - rewrite assemble_map. apply rsum_map_zero. intros z _. cbn [fst snd]. apply integral_zero. intros p _. rewrite (proj1 (Hv p)). ring.
  - rewrite assemble_flat_map. apply rsum_map_zero. intros a Ha. apply surface_terms_null; auto.
Qed.
Lemma sum_over_app {A} (l l' : list A) f : sum_over (l ++ l') f = sum_over l f + sum_over l' f.
Proof. unfold sum_over. rewrite map_app. apply rsum_app. Qed.

Lemma one_adsorbed M mb T dt s a B1 B2 A1 A2 : one_of mb s a B1 B2 A1 A2 -> null (mb_test mb) ->
  (forall b, In b (B1 ++ B2) -> adsorbed_null b) -> (forall a, In a (A1 ++ A2) -> null (a_test a)) ->
  assemble M (create_fluxes_form M mb T dt)
  = assemble M (surface_kinetics_terms s (mobile_concentration M mb) (fun p => val (mb_previous mb p)) (mb_test mb) (T_T T) dt a).
Proof.
  intros [HB HA] Hv Hb Ha. unfold create_fluxes_form. rewrite assemble_flat_map, HB, sum_over_app, sum_over_cons.
  unfold sum_over at 1. rewrite rsum_map_zero by (intros b Hin; apply flux_terms_null; [exact Hv|apply Hb, in_or_app; now left]).
  unfold sum_over at 1. rewrite (rsum_map_zero _ B2) by (intros b Hin; apply flux_terms_null; [exact Hv|apply Hb, in_or_app; now right]).
  cbn [flux_terms]. rewrite assemble_flat_map, HA, sum_over_app, sum_over_cons.
  unfold sum_over at 1. rewrite rsum_map_zero by (intros b Hin; apply surface_terms_null; [exact Hv|apply Ha, in_or_app; now left]).
  unfold sum_over at 1. rewrite (rsum_map_zero _ A2) by (intros b Hin; apply surface_terms_null; [exact Hv|apply Ha, in_or_app; now right]).
  lra.
Qed.

Lemma integral_vertex M z p (f : P -> R) : vertex M z p -> integral M (Ds z) f = q_weight M p * f p.
Proof. intros [H _]. unfold integral. cbn [points]. rewrite H. cbn [map]. rewrite rsum_cons, rsum_nil. ring. Qed.

(** A test function of the same condition: the surface seen from the bulk. *)
Lemma surface_terms_bulk M s (solute prev c c_n : P -> R) test T dt (a : adsorbed P) : null (a_test a) -> sk_n_IS s <> 0 -> sk_n_surf s <> 0 ->
  (forall p, In p (q_facets M) -> solute p = c p) -> (dt <> None -> forall p, In p (q_facets M) -> prev p = c_n p) ->
  assemble M (surface_kinetics_terms s solute prev test T dt a)
  = integral M (Ds (a_surface a)) (fun p => - val (test p) *
      (to_bulk s (val (T p)) (val (a_solution a p)) (c p) p - to_surface s (val (T p)) (val (a_solution a p)) (c p) p
       - match dt with Some dt => sk_lambda_IS s * (c p - c_n p) / dt | None => 0 end)).
Proof.
  intros Ha HI Hn Hc Hp. unfold surface_kinetics_terms. cbv zeta. rewrite assemble_app, !assemble_cons, assemble_nil. cbn [fst snd].
  rewrite (integral_zero M _ (fun p => - _ * val (a_test a p))) by (intros p _; rewrite (proj1 (Ha p)); ring).
  destruct dt as [dt|]; rewrite ?assemble_cons, assemble_nil; cbn [fst snd].
  - rewrite (integral_zero M _ (fun p => _ / dt * val (a_test a p))) by (intros p _; rewrite (proj1 (Ha p)); ring).
    rewrite !Rplus_0_l, !Rplus_0_r, <- integral_plus. apply integral_ext. intros p Hq. apply in_points_facets in Hq.
    rewrite Hc, Hp by (tauto || discriminate). unfold to_bulk, to_surface, Rdiv.
    replace (1 - c p * / sk_n_IS s) with ((sk_n_IS s - c p) * / sk_n_IS s) by (field; exact HI).
    replace (1 - val (a_solution a p) * / sk_n_surf s) with ((sk_n_surf s - val (a_solution a p)) * / sk_n_surf s) by (field; exact Hn). ring.
  - rewrite !Rplus_0_l, !Rplus_0_r. apply integral_ext. intros p Hq. apply in_points_facets in Hq.
    rewrite Hc by tauto. unfold to_bulk, to_surface, Rdiv.
    replace (1 - c p * / sk_n_IS s) with ((sk_n_IS s - c p) * / sk_n_IS s) by (field; exact HI).
    replace (1 - val (a_solution a p) * / sk_n_surf s) with ((sk_n_surf s - val (a_solution a p)) * / sk_n_surf s) by (field; exact Hn). ring.
Qed.

(** Other boundary conditions change only the flux terms. *)
Lemma pieces_bcs M (mb : mobile P) bs ms T dt traps soret F : define_variational_problem M mb ms T dt traps soret = Ok F ->
  exists F', define_variational_problem M (with_bcs mb bs) ms T dt traps soret = Ok F' /\
    assemble M F' - assemble M (create_fluxes_form M (with_bcs mb bs) T dt) = assemble M F - assemble M (create_fluxes_form M mb T dt).
Proof.
  intros HF. assert (HF0 := HF).
  assert (E1 : sum_forms (material_form M (with_bcs mb bs) T dt soret) ms = sum_forms (material_form M mb T dt soret) ms) by reflexivity.
  assert (E2 : sum_forms (fun t => sum_forms_enum (mobile_trapping_terms (with_bcs mb bs) T t) 0 (t_materials t)) traps
               = sum_forms (fun t => sum_forms_enum (mobile_trapping_terms mb T t) 0 (t_materials t)) traps) by reflexivity.
  assert (E3 : sum_forms (trap_create_form (with_bcs mb bs) ms T dt) traps = sum_forms (trap_create_form mb ms T dt) traps) by reflexivity.
  destruct (pieces M mb ms T dt traps soret F HF) as [F1 [F2 [G [H1 [H2 [H3 E]]]]]].
  rewrite <- E1 in H1. rewrite <- E2 in H2. rewrite <- E3 in H3.
  assert (HF' : exists F', define_variational_problem M (with_bcs mb bs) ms T dt traps soret = Ok F').
  { unfold define_variational_problem, mobile_create_form, create_diffusion_form. rewrite H1. cbn [bind]. rewrite H2. cbn [bind].
    rewrite H3. cbn [bind]. eauto. }
  destruct HF' as [F' HF']. exists F'. split; [exact HF'|].
  destruct (pieces M (with_bcs mb bs) ms T dt traps soret F' HF') as [K1 [K2 [K [L1 [L2 [L3 E']]]]]].
  rewrite H1 in L1. rewrite H2 in L2. rewrite H3 in L3. apply Ok_inj in L1, L2, L3. subst K1 K2 K. rewrite E, E'.
  replace (create_mobile_source_form M (with_bcs mb bs)) with (create_mobile_source_form M mb) by reflexivity. lra.
Qed.
End Null.
