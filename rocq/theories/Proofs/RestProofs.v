(** The residual of a state at rest (C85). *)
From Coq Require Import Reals ZArith List Bool Lra Lia.
From Verif Require Import Base.Exc Base.Dual Model.Materials Model.Laws Model.Theta Model.Forms
  Spec.PhysSpec Spec.BalanceSpec Spec.RestSpec Spec.VariableSpec Proofs.LawProofs Proofs.ThetaProofs Proofs.FormProofs Proofs.SplitProofs
  Proofs.NeutralProofs Proofs.MergeProofs.
Import ListNotations.
Local Open Scope R_scope.
Local Open Scope list_scope.

Section Rest.
Context {P : Type}.
Implicit Types (M : mesh P).

Lemma integral_surfaces M (e : P -> R) l :
  sum_over l (fun z => integral M (Ds z) e)
  = rsum (map (fun p => q_weight M p * sum_over l (fun z => if Z.eqb z (q_surface M p) then e p else 0)) (q_facets M)).
Proof.
  induction l as [|z l IH].
  - unfold sum_over at 1. cbn [map]. rewrite rsum_nil. symmetry. apply rsum_map_zero. intros p _. unfold sum_over. cbn. ring.
  - rewrite sum_over_cons, IH.
    assert (E : forall p, q_weight M p * sum_over (z :: l) (fun z => if Z.eqb z (q_surface M p) then e p else 0)
      = q_weight M p * (if Z.eqb z (q_surface M p) then e p else 0)
        + q_weight M p * sum_over l (fun z => if Z.eqb z (q_surface M p) then e p else 0))
      by (intros p; rewrite sum_over_cons; ring).
    rewrite (map_ext _ _ E), rsum_map_plus. f_equal. clear IH. unfold integral. cbn [points].
    induction (q_facets M) as [|p ps IHp]; [reflexivity|]. cbn [filter map]. rewrite rsum_cons, <- IHp, (Z.eqb_sym z (q_surface M p)).
    destruct (Z.eqb (q_surface M p) z); cbn [map]; rewrite ?rsum_cons; ring.
Qed.
Lemma sum_over_zero {A} (l : list A) f : (forall a, In a l -> f a = 0) -> sum_over l f = 0.
Proof. intros H. unfold sum_over. now apply rsum_map_zero. Qed.
Lemma sum_over_rsum {A B} (l : list A) (ps : list B) (w : B -> R) (f : A -> B -> R) :
  sum_over l (fun a => rsum (map (fun p => w p * f a p) ps)) = rsum (map (fun p => w p * sum_over l (fun a => f a p)) ps).
Proof.
  induction l as [|a l IH].
  - unfold sum_over at 1. cbn [map]. rewrite rsum_nil. symmetry. apply rsum_map_zero. intros p _. unfold sum_over. cbn. ring.
  - rewrite sum_over_cons, IH, <- rsum_map_plus. apply rsum_map_ext. intros p _. rewrite sum_over_cons. ring.
Qed.

(** No flux: the gradient terms vanish whatever the test function. *)
Lemma diffusion_rest M (soret : bool) D0 ED Q (c c_n v T : field P) dt z :
  (forall p, val (c_n p) = val (c p)) ->
  (forall p, In p (points M (Dx z)) -> forall i, (i < q_dim M)%nat ->
     grd (c p) i + (if soret then Q (val (T p)) * val (c p) / (k_B * val (T p) ^ 2) * grd (T p) i else 0) = 0) ->
  assemble M (diffusion_terms M soret D0 ED Q c c_n v T dt z) = 0.
Proof.
  intros Hn Hf. unfold diffusion_terms. cbv zeta. rewrite assemble_app.
  match goal with |- assemble M ?f + _ = 0 => assert (H1 : assemble M f = 0) end.
  { destruct dt as [dt|]; [|reflexivity]. rewrite assemble_cons, assemble_nil. cbn [fst snd]. rewrite integral_zero; [lra|].
    intros p _. rewrite Hn. unfold Rdiv. ring. }
  rewrite H1, Rplus_0_l.
  assert (Hd : forall p (g : nat -> R), In p (points M (Dx z)) -> soret = false -> dot (q_dim M) (grd (c p)) g = 0).
  { intros p g Hp ->. apply dot_zero. intros i Hi. left. specialize (Hf p Hp i Hi). cbn in Hf. lra. }
  assert (Hd1 : forall p a (g : nat -> R), In p (points M (Dx z)) -> soret = false -> dot (q_dim M) (fun i => a * grd (c p) i) g = 0).
  { intros p a g Hp ->. apply dot_zero. intros i Hi. left. specialize (Hf p Hp i Hi). cbn in Hf. replace (grd (c p) i) with 0 by lra. ring. }
  assert (Hs1 : forall p a b (g : nat -> R), In p (points M (Dx z)) -> soret = true -> b = a * Q (val (T p)) * val (c p) / (k_B * val (T p) ^ 2) ->
    dot (q_dim M) (fun i => a * grd (c p) i) g + dot (q_dim M) (fun i => b * grd (T p) i) g = 0).
  { intros p a b g Hp -> ->. unfold dot. rewrite <- rsum_map_plus. apply rsum_map_zero. intros i Hi. apply in_seq in Hi.
    specialize (Hf p Hp i ltac:(lia)). cbn in Hf.
    replace (grd (c p) i) with (- (Q (val (T p)) * val (c p) / (k_B * val (T p) ^ 2) * grd (T p) i)) by (cbn; lra).
    unfold Rdiv. ring. }
  destruct (q_type M), soret; rewrite !assemble_cons, assemble_nil; cbn [fst snd].
  - rewrite Rplus_0_r, <- integral_plus. apply integral_zero. intros p Hp. apply (Hs1 p _ _ _ Hp eq_refl). reflexivity.
  - rewrite integral_zero; [lra|]. intros p Hp. now apply Hd1.
  - rewrite Rplus_0_r, <- integral_plus. apply integral_zero. intros p Hp. rewrite <- Rmult_plus_distr_l, (Hs1 p _ _ _ Hp eq_refl); [ring|reflexivity].
  - rewrite integral_zero; [lra|]. intros p Hp. rewrite Hd1 by auto. ring.
  - rewrite Rplus_0_r, <- integral_plus. apply integral_zero. intros p Hp. rewrite <- Rmult_plus_distr_l.
    replace (dot (q_dim M) (grd (c p)) (grd (ddiv (ddiv (v p) (dcoord0 (q_x0 M p))) (dcoord0 (q_x0 M p)))))
      with (dot (q_dim M) (fun i => 1 * grd (c p) i) (grd (ddiv (ddiv (v p) (dcoord0 (q_x0 M p))) (dcoord0 (q_x0 M p)))))
      by (unfold dot; apply rsum_map_ext; intros; ring).
    rewrite (Hs1 p 1 _ _ Hp eq_refl); [ring|]. unfold Rdiv. ring.
  - rewrite integral_zero; [lra|]. intros p Hp. rewrite Hd by auto. ring.
Qed.

Lemma params_spec t i k0 Ek p0 Ep (n : P -> R) : params_of t i = Ok (k0, Ek, p0, Ep, n) -> trap_params t i k0 Ek p0 Ep n.
Proof.
  unfold params_of, trap_params, index, arg_index, arg_number, index. destruct (t_k0 t) as [k|k].
  - destruct (t_Ek t); cbn [bind]; [|discriminate]. destruct (t_p0 t); cbn [bind]; [|discriminate].
    destruct (t_Ep t); cbn [bind]; [|discriminate]. destruct (nth_error (t_density t) 0); cbn [bind]; [|discriminate].
    intros H. apply Ok_inj in H. injection H as -> -> -> -> ->. left. auto.
  - destruct (nth_error k i) eqn:E1; cbn [bind]; [|discriminate].
    destruct (t_Ek t) as [|lE] eqn:E; cbn [bind]; [discriminate|]. destruct (nth_error lE i) eqn:E2; cbn [bind]; [|discriminate].
    destruct (t_p0 t) as [|lp] eqn:E'; cbn [bind]; [discriminate|]. destruct (nth_error lp i) eqn:E3; cbn [bind]; [|discriminate].
    destruct (t_Ep t) as [|lF] eqn:E''; cbn [bind]; [discriminate|]. destruct (nth_error lF i) eqn:E4; cbn [bind]; [|discriminate].
    destruct (nth_error (t_density t) i) eqn:E5; cbn [bind]; [|discriminate].
    intros H. apply Ok_inj in H. injection H as -> -> -> -> ->. right. exists k, lE, lp, lF. repeat split; assumption.
Qed.
Lemma sum_forms_enum_zero_nth {A} M (f : nat -> A -> res (form P)) l : forall i F,
  sum_forms_enum f i l = Ok F ->
  (forall j a K, nth_error l j = Some a -> f (i + j)%nat a = Ok K -> assemble M K = 0) -> assemble M F = 0.
Proof.
  induction l as [|x l IH]; intros i F; cbn [sum_forms_enum].
  - intros H _. apply Ok_inj in H. subst F. reflexivity.
  - destruct (f i x) as [K|e] eqn:E; cbn [bind]; [|discriminate].
    destruct (sum_forms_enum f (S i) l) as [H|e] eqn:E'; cbn [bind]; [|discriminate].
    intros Hf Hg. apply Ok_inj in Hf. subst F.
    rewrite assemble_app, (Hg 0%nat x K); [|reflexivity|now rewrite Nat.add_0_r]. rewrite (IH (S i) H E'); [lra|].
    intros j a K0 Ha HK. apply (Hg (S j) a K0); [exact Ha|]. replace (i + S j)%nat with (S i + j)%nat by lia. exact HK.
Qed.

Section One.
Variables (M : mesh P) (mb : mobile P) (T : temperature P) (ms : list mat_obj).
Hypotheses (Hcl : mb_class mb = ClassMobile) (HT : positive_temperature M T).
Let c := mb_solution mb.

Lemma get_mobile m : get_concentration mb m T = Ok (mb_solution mb, mb_previous mb).
Proof. unfold get_concentration, check_concentration. now rewrite Hcl. Qed.
Lemma mobile_terms_rest t i m K : nth_error (t_materials t) i = Some m -> trap_balanced M T c t ->
  mobile_trapping_terms mb T t i m = Ok K -> assemble M K = 0.
Proof.
  intros Hi Hb. unfold mobile_trapping_terms. fold (params_of t i).
  destruct (params_of t i) as [[[[[k0 Ek] p0] Ep] n]|e] eqn:E; cbn [bind]; [|discriminate]. apply params_spec in E.
  rewrite get_mobile. cbn [bind]. destruct (m_id (attrs m)) as [z|l] eqn:Hz; cbn [dx_id bind]; [|discriminate].
  intros HK. apply Ok_inj in HK. subst K. rewrite !assemble_cons, assemble_nil. cbn [fst snd].
  rewrite Rplus_0_r, <- integral_plus. apply integral_zero. intros p Hp. apply in_points_cells in Hp as [Hp Hv].
  specialize (Hb i m k0 Ek p0 Ep n p Hi E Hp). rewrite Hz in Hb. specialize (Hb (or_introl (eq_sym Hv))).
  destruct (HT p (or_introl Hp)) as [HTp _]. unfold c in Hb.
  pose proof (arrhenius_model k0 Ek _ HTp) as A1. pose proof (arrhenius_model p0 Ep _ HTp) as A2. rewrite <- A1, <- A2 in Hb.
  replace (- k0 * exp (- Ek / k_B / val (T_T T p))) with (- (k0 * exp (- Ek / k_B / val (T_T T p)))) by ring.
  match goal with |- - ?a * ?b * ?d * ?v + ?e * ?f * ?v = 0 => replace (- a * b * d * v + e * f * v) with ((e * f - a * b * d) * v) by ring end.
  rewrite <- Hb. ring.
Qed.
Lemma trap_terms_rest t i m K : nth_error (t_materials t) i = Some m -> trap_balanced M T c t ->
  trapping_terms mb T t i m = Ok K -> assemble M K = 0.
Proof.
  intros Hi Hb. unfold trapping_terms. fold (params_of t i). rewrite Hcl.
  destruct (params_of t i) as [[[[[k0 Ek] p0] Ep] n]|e] eqn:E; cbn [bind]; [|discriminate]. apply params_spec in E.
  rewrite get_mobile. cbn [bind]. destruct (m_id (attrs m)) as [z|l] eqn:Hz; cbn [dx_id bind]; [|discriminate].
  intros HK. apply Ok_inj in HK. subst K. rewrite !assemble_cons, assemble_nil. cbn [fst snd].
  rewrite Rplus_0_r, <- integral_plus. apply integral_zero. intros p Hp. apply in_points_cells in Hp as [Hp Hv].
  specialize (Hb i m k0 Ek p0 Ep n p Hi E Hp). rewrite Hz in Hb. specialize (Hb (or_introl (eq_sym Hv))).
  destruct (HT p (or_introl Hp)) as [HTp _]. unfold c in Hb.
  pose proof (arrhenius_model k0 Ek _ HTp) as A1. pose proof (arrhenius_model p0 Ep _ HTp) as A2. rewrite <- A1, <- A2 in Hb.
  replace (- k0 * exp (- Ek / k_B / val (T_T T p))) with (- (k0 * exp (- Ek / k_B / val (T_T T p)))) by ring.
  match goal with |- - ?a * ?b * ?d * ?v + ?e * ?f * ?v = 0 => replace (- a * b * d * v + e * f * v) with ((e * f - a * b * d) * v) by ring end.
  rewrite <- Hb. ring.
Qed.
Lemma trap_form_rest dt t K : trap_balanced M T c t -> absent_elsewhere M ms t -> t_sources t = [] ->
  (forall p, val (t_previous t p) = val (t_solution t p)) ->
  trap_create_form mb ms T dt t = Ok K -> assemble M K = 0.
Proof.
  intros Hb Ha Hs Hp. unfold trap_create_form, create_trapping_form. rewrite Hs.
  match goal with |- bind (bind ?x _) _ = _ -> _ => destruct x as [F0|e] eqn:H0; cbn [bind]; [|discriminate] end.
  match goal with |- bind (bind ?x _) _ = _ -> _ => destruct x as [F1|e] eqn:H1; cbn [bind]; [|discriminate] end.
  cbn [sum_forms bind]. intros H. apply Ok_inj in H. subst K. rewrite !assemble_app, assemble_nil.
  rewrite (sum_forms_enum_zero_nth M _ _ _ _ H1).
  2:{ intros j a K Hj HK. now apply (trap_terms_rest t j a K). }
  assert (E0 : assemble M F0 = 0); [|lra]. destruct dt as [dt|].
  - apply Ok_inj in H0. subst F0. rewrite assemble_cons, assemble_nil. cbn [fst snd]. rewrite integral_zero; [lra|].
    intros p _. rewrite Hp. unfold Rdiv. ring.
  - apply (sum_forms_zero M _ _ _ H0). intros m K Hm. destruct (mat_in m (t_materials t)) eqn:Em.
    + intros HK. apply Ok_inj in HK. subst K. reflexivity.
    + destruct (m_id (attrs m)) as [z|l] eqn:Hz; cbn [dx_id bind]; [|discriminate]. intros HK. apply Ok_inj in HK. subst K.
      rewrite assemble_cons, assemble_nil. cbn [fst snd]. rewrite integral_zero; [lra|]. intros p Hpt.
      apply in_points_cells in Hpt as [Hpt E]. rewrite (Ha m p Hm Em Hpt); [ring|]. rewrite Hz, E. now left.
Qed.
Lemma mobile_is_solution p : mobile_concentration M mb p = val (c p).
Proof. unfold mobile_concentration. now rewrite Hcl. Qed.
Lemma flux_terms_rest dt : (forall p, val (mb_previous mb p) = val (c p)) ->
  (forall p, In p (q_facets M) -> net_flux M T c (mb_bcs mb) p = 0) ->
  (forall s, In (BSurf s) (mb_bcs mb) -> surface_balanced M T c s) ->
  assemble M (create_fluxes_form M mb T dt) = 0.
Proof.
  intros Hn Hnet Hsk. unfold create_fluxes_form. rewrite assemble_flat_map.
  set (g := fun (b : bc P) p => match b with
    | BFlux false surfaces f =>
        sum_over surfaces (fun z => if Z.eqb z (q_surface M p) then flux_into f (val (T_T T p)) (val (c p)) p else 0)
    | _ => 0 end).
  rewrite (sum_over_ext _ _ (fun b => rsum (map (fun p => (- q_weight M p * val (mb_test mb p)) * g b p) (q_facets M)))).
  - rewrite sum_over_rsum. apply rsum_map_zero. intros p Hp. unfold net_flux in Hnet. fold (g) in Hnet.
    replace (sum_over (mb_bcs mb) (fun a => g a p)) with (net_flux M T c (mb_bcs mb) p) by reflexivity.
    unfold net_flux. rewrite (Hnet p Hp). ring.
  - intros b Hb. destruct b as [[|] surfaces f|s]; cbn [flux_terms g].
    + rewrite assemble_nil. symmetry. apply rsum_map_zero. intros. ring.
    + rewrite assemble_map. cbn [fst snd].
      rewrite (integral_surfaces M (fun p => - val (mb_test mb p) * flux_form f (T_T T) (mobile_concentration M mb) p)).
      apply rsum_map_ext. intros p Hp. rewrite <- !sum_over_scale. apply sum_over_ext. intros z _.
      destruct (Z.eqb z (q_surface M p)); [|ring].
      rewrite (flux_form_into f (T_T T) (fun p => val (c p))); [ring| |apply mobile_is_solution]. apply HT. now right.
    + rewrite assemble_flat_map.
      rewrite (rsum_map_zero (fun p => _ * 0)) by (intros; ring). apply sum_over_zero. intros a Ha.
      unfold surface_kinetics_terms. cbv zeta. rewrite assemble_app.
      assert (Hat : forall p, In p (points M (Ds (a_surface a))) -> In p (q_facets M) /\ q_surface M p = a_surface a)
        by (intros p; apply in_points_facets).
      match goal with |- assemble M ?f + _ = 0 => assert (H1 : assemble M f = 0) end.
      { destruct dt as [dt|]; [|reflexivity]. rewrite !assemble_cons, assemble_nil. cbn [fst snd].
        rewrite !integral_zero; [lra| |]; intros p Hp.
        - rewrite mobile_is_solution, Hn. unfold Rdiv. ring.
        - destruct (Hat p Hp) as [Hp1 Hp2]. destruct (Hsk s Hb a p Ha Hp1 Hp2) as (-> & _). unfold Rdiv. ring. }
      rewrite H1, !assemble_cons, assemble_nil. cbn [fst snd].
      rewrite !integral_zero; [lra| |]; intros p Hp; destruct (Hat p Hp) as [Hp1 Hp2];
        destruct (Hsk s Hb a p Ha Hp1 Hp2) as (_ & HJ & HB); cbv zeta in HJ, HB; rewrite mobile_is_solution, ?HJ, HB; ring.
Qed.
Lemma rest_residual dt traps soret F :
  mb_sources mb = [] -> at_rest_state M soret T ms c (mb_previous mb) (mb_bcs mb) traps ->
  define_variational_problem M mb ms T dt traps soret = Ok F -> assemble M F = 0.
Proof.
  intros Hsrc (Hn & Hf & Ht & Hnet & Hsk). unfold define_variational_problem, mobile_create_form, create_diffusion_form, create_mobile_source_form.
  rewrite Hsrc. cbn [flat_map].
  match goal with |- bind (bind (bind ?x _) _) _ = _ -> _ => destruct x as [F1|e] eqn:H1; cbn [bind]; [|discriminate] end.
  match goal with |- bind (bind (bind ?x _) _) _ = _ -> _ => destruct x as [F2|e] eqn:H2; cbn [bind]; [|discriminate] end.
  match goal with |- bind ?x _ = _ -> _ => destruct x as [F3|e] eqn:H3; cbn [bind]; [|discriminate] end.
  intros H. apply Ok_inj in H. subst F. rewrite !assemble_app, assemble_neg, assemble_nil, flux_terms_rest by assumption.
  rewrite (sum_forms_zero M _ _ _ H1), (sum_forms_zero M _ _ _ H2), (sum_forms_zero M _ _ _ H3); [lra| | |].
  - intros t K Hin. destruct (Ht t Hin) as (Hb & Ha & Hs & Hp). now apply trap_form_rest.
  - intros t K Hin HK. destruct (Ht t Hin) as (Hb & _). apply (sum_forms_enum_zero_nth M _ _ _ _ HK).
    intros j a L Hj HL. now apply (mobile_terms_rest t j a L).
  - intros m K Hm. unfold material_form. rewrite get_mobile. cbn [bind].
    destruct (float_of (Some (m_D0 (attrs m)))) as [D0|e]; cbn [bind]; [|discriminate].
    destruct (float_of (Some (m_ED (attrs m)))) as [ED|e]; cbn [bind]; [|discriminate].
    match goal with |- bind ?x _ = _ -> _ => destruct x as [Q|e] eqn:HQ; cbn [bind]; [|discriminate] end.
    intros HK. apply Ok_inj in HK. subst K. rewrite assemble_flat_map. apply sum_over_zero. intros z Hz.
    apply diffusion_rest; [exact Hn|]. intros p Hp i Hi. apply in_points_cells in Hp as [Hp E].
    assert (Hv : In (q_volume M p) (ids (m_id (attrs m)))) by now rewrite E.
    specialize (Hf p Hp m Hm Hv i Hi). cbn [fst]. destruct soret; [|fold c; lra].
    rewrite k_B_boltzmann. apply Hf. unfold heat_of_transport. destruct (m_Q (attrs m)) as [[r|f]|]; cbn [value_at] in HQ; try discriminate;
      apply Ok_inj in HQ; subst Q; [now left|right; eauto].
Qed.
End One.
End Rest.

Section RestMore.
Context {P : Type}.
Implicit Types (M : mesh P).

(** The heat problem with a uniform temperature. *)
Lemma heat_rest M transient dt (T T_n v : field P) ms bcs F :
  (forall p, In p (q_facets M) -> 0 < val (T p)) ->
  (forall p i, In p (q_cells M) -> (i < q_dim M)%nat -> grd (T p) i = 0) -> (forall p, val (T_n p) = val (T p)) ->
  (forall p, In p (q_facets M) -> net_heat M T bcs p = 0) ->
  heat_form M transient dt T T_n v ms [] bcs = Ok F -> assemble M F = 0.
Proof.
  intros HT Hg Hn Hnet. unfold heat_form. cbv zeta. cbn [flat_map].
  match goal with |- bind ?x _ = _ -> _ => destruct x as [F1|e] eqn:H1; cbn [bind]; [|discriminate] end.
  match goal with |- bind ?x _ = _ -> _ => destruct x as [F2|e] eqn:H2; cbn [bind]; [|discriminate] end.
  intros H. apply Ok_inj in H. subst F. rewrite !assemble_app, assemble_nil.
  rewrite (sum_forms_zero M _ _ _ H1).
  - assert (E : assemble M F2 = sum_over bcs (fun b => rsum (map (fun p => (- q_weight M p * val (v p)) *
        sum_over (fst b) (fun z => if Z.eqb z (q_surface M p) then flux_into (snd b) (val (T p)) 0 p else 0)) (q_facets M)))).
    { clear Hnet. revert F2 H2. induction bcs as [|[surfaces f] bcs IH]; intros F2; cbn [sum_forms fst snd].
      - intros H. apply Ok_inj in H. subst F2. reflexivity.
      - destruct (heat_flux_form f T) as [g|e] eqn:Eg; cbn [bind]; [|discriminate].
        match goal with |- bind ?x _ = _ -> _ => destruct x as [F3|e] eqn:H3; cbn [bind]; [|discriminate] end.
        intros H. apply Ok_inj in H. subst F2. rewrite assemble_app, sum_over_cons, (IH F3 eq_refl). f_equal. cbn [fst snd].
        rewrite assemble_map. cbn [fst snd].
        rewrite (integral_surfaces M (fun p => - g p * val (v p))). apply rsum_map_ext. intros p Hp. rewrite <- !sum_over_scale.
        apply sum_over_ext. intros z _. destruct (Z.eqb z (q_surface M p)); [|ring].
        assert (Eg' : g = flux_form f T (fun _ => 0)) by (destruct f; cbn in Eg; try discriminate; apply Ok_inj in Eg; now subst g).
        subst g. rewrite (flux_form_into f T (fun _ => 0)) by (auto || reflexivity). ring. }
    rewrite E, sum_over_rsum.
    match goal with |- context [rsum (map ?h (q_facets M))] => replace (rsum (map h (q_facets M))) with 0; [lra|] end.
    symmetry. apply rsum_map_zero. intros p Hp.
    match goal with |- _ * ?x = 0 => change x with (net_heat M T bcs p) end. rewrite (Hnet p Hp). ring.
  - intros m K _. unfold heat_material_form. cbv zeta.
    destruct (value_at (m_thermal (attrs m))) as [k|e]; cbn [bind]; [|discriminate].
    match goal with |- bind ?x _ = _ -> _ => destruct x as [F0|e] eqn:H0; cbn [bind]; [|discriminate] end.
    intros HK. apply Ok_inj in HK. subst K. rewrite assemble_app.
    assert (E0 : assemble M F0 = 0).
    { destruct transient; [|apply Ok_inj in H0; subst F0; reflexivity].
      destruct (value_at (m_heat (attrs m))) as [cp|e]; cbn [bind] in H0; [|discriminate].
      destruct (value_at (m_rho (attrs m))) as [rho|e]; cbn [bind] in H0; [|discriminate].
      apply Ok_inj in H0. subst F0. rewrite assemble_map. apply sum_over_zero. intros z _. cbn [fst snd]. apply integral_zero.
      intros p _. rewrite Hn. unfold Rdiv. ring. }
    rewrite E0, Rplus_0_l, assemble_map. apply sum_over_zero. intros z _.
    destruct (q_type M); cbn [fst snd]; apply integral_zero; intros p Hp; apply in_points_cells in Hp as [Hp _];
      rewrite dot_zero; try ring; intros i Hi; left; rewrite (Hg p i Hp Hi); ring.
Qed.

(** Gradients of the concentration where theta and T are uniform. *)
Lemma uniform_theta M (mb : mobile P) T ms c c_n :
  concentration_fields M mb T ms c c_n ->
  (forall p i, In p (q_cells M) -> (i < q_dim M)%nat -> grd (mb_solution mb p) i = 0 /\ grd (T_T T p) i = 0) ->
  forall soret, no_flux M soret T ms c.
Proof.
  intros Hc Hu soret p Hp m Hm Hv i Hi. destruct (Hc p (or_introl Hp) m Hm Hv) as (S_0 & E_S & _ & _ & [_ Hg] & _).
  destruct (Hu p i Hp Hi) as [H1 H2]. specialize (Hg i). rewrite H1, H2 in Hg.
  assert (grd (c p) i = 0) by lra. destruct soret; [|assumption]. intros Q _. rewrite H2. lra.
Qed.
End RestMore.
