(** The formulation in theta and the formulation in c (C83). *)
From Coq Require Import Reals ZArith List Bool Lra Lia.
From Verif Require Import Base.Exc Base.Dual Model.Materials Model.Laws Model.Theta Model.Forms
  Spec.PhysSpec Spec.BalanceSpec Spec.NeutralSpec Spec.VariableSpec Proofs.LawProofs Proofs.ThetaProofs Proofs.FormProofs
  Proofs.SplitProofs Proofs.NeutralProofs.
Import ListNotations.
Local Open Scope R_scope.
Local Open Scope list_scope.

Section Unknown.
Context {P : Type}.
Implicit Types (M : mesh P).

Lemma coefficient_grd S0 ES T i : 0 < val T ->
  grd (Theta.coefficient S0 ES T) i = arrhenius S0 ES (val T) * (ES / (boltzmann * val T ^ 2)) * grd T i.
Proof.
  intros HT. pose proof (coefficient_val S0 ES T HT) as Hv.
  unfold Theta.coefficient in *. cbn [dmul dconst dexp ddiv val grd] in *. rewrite <- Hv.
  rewrite <- k_B_boltzmann. pose proof k_B_pos. field. lra.
Qed.
Lemma theta_concentration_is m T T_n u u_n S0 ES :
  m_S0 m = Some (Const S0) -> m_ES m = Some (Const ES) -> 0 < val T -> 0 < val T_n ->
  exists c c_n, theta_concentration m T T_n u u_n = Ok (c, c_n) /\
    is_concentration (m_law m) S0 ES T u c /\ is_concentration (m_law m) S0 ES T_n u_n c_n.
Proof.
  intros H0 HE HT HTn. unfold theta_concentration. rewrite H0, HE. cbn [float_of bind].
  destruct (m_law m); eexists _, _; (split; [reflexivity|]); unfold is_concentration; cbv zeta;
    cbn [dmul dsquare val grd law_conc theta_slope]; rewrite !coefficient_val by assumption;
    repeat split; intros; rewrite ?coefficient_grd by assumption; ring.
Qed.
Lemma get_is M mb T m S_ ms' f fn p S0 ES :
  mb_class mb = ClassTheta S_ ms' -> get_concentration mb m T = Ok (f, fn) ->
  m_S0 m = Some (Const S0) -> m_ES m = Some (Const ES) -> positive_temperature M T ->
  In p (q_cells M) \/ In p (q_facets M) ->
  is_concentration (m_law m) S0 ES (T_T T p) (mb_solution mb p) (f p) /\
  is_concentration (m_law m) S0 ES (T_Tn T p) (mb_previous mb p) (fn p).
Proof.
  intros Hcl Hg H0 HE HT Hp. destruct (HT p Hp) as [H1 H2].
  destruct (theta_concentration_is m (T_T T p) (T_Tn T p) (mb_solution mb p) (mb_previous mb p) S0 ES H0 HE H1 H2)
    as (c & cn & Hc & Hi & Hin).
  unfold get_concentration, check_concentration in Hg. rewrite Hcl, H0, HE in Hg. cbn [float_of bind] in Hg.
  apply Ok_inj in Hg. injection Hg as <- <-. rewrite Hc. cbn [or_zero fst snd]. auto.
Qed.
Lemma get_matches M mb T ms c c_n S_ ms' m f fn p :
  mb_class mb = ClassTheta S_ ms' -> concentration_fields M mb T ms c c_n -> positive_temperature M T ->
  In m ms -> get_concentration mb (attrs m) T = Ok (f, fn) ->
  In p (q_cells M) \/ In p (q_facets M) -> In (q_volume M p) (ids (m_id (attrs m))) ->
  val (f p) = val (c p) /\ (forall i, grd (f p) i = grd (c p) i) /\ val (fn p) = val (c_n p).
Proof.
  intros Hcl Hc HT Hm Hg Hp Hz. destruct (Hc p Hp m Hm Hz) as (S0 & ES & H0 & HE & (Hv & Hd) & (Hvn & _)).
  destruct (get_is M mb T (attrs m) S_ ms' f fn p S0 ES Hcl Hg H0 HE HT Hp) as ((Gv & Gd) & (Gvn & _)).
  cbv zeta in *. rewrite Gv, Hv, Gvn, Hvn. repeat split. intros i. rewrite Gd, Hd, Gv, Hv. reflexivity.
Qed.
(** Only the values at the points of the subdomain matter. *)
Lemma diffusion_terms_on M soret D0 ED Q c c_n c' c_n' v T dt z :
  (forall p, In p (points M (Dx z)) -> val (c p) = val (c' p) /\ (forall i, grd (c p) i = grd (c' p) i) /\ val (c_n p) = val (c_n' p)) ->
  assemble M (diffusion_terms M soret D0 ED Q c c_n v T dt z) = assemble M (diffusion_terms M soret D0 ED Q c' c_n' v T dt z).
Proof.
  intros H. unfold diffusion_terms. cbv zeta. rewrite !assemble_app. f_equal.
  - destruct dt as [dt|]; [|reflexivity]. rewrite !assemble_cons, !assemble_nil. cbn [fst snd]. f_equal.
    apply integral_ext. intros p Hp. destruct (H p Hp) as (-> & _ & ->). reflexivity.
  - assert (Hd : forall p, In p (points M (Dx z)) -> forall a g, dot (q_dim M) (fun i => a * grd (c p) i) g = dot (q_dim M) (fun i => a * grd (c' p) i) g).
    { intros p Hp a g. unfold dot. apply rsum_map_ext. intros i _. destruct (H p Hp) as (_ & -> & _). reflexivity. }
    assert (Hd' : forall p, In p (points M (Dx z)) -> forall g, dot (q_dim M) (grd (c p)) g = dot (q_dim M) (grd (c' p)) g).
    { intros p Hp g. unfold dot. apply rsum_map_ext. intros i _. destruct (H p Hp) as (_ & -> & _). reflexivity. }
    destruct (q_type M), soret; rewrite !assemble_cons, !assemble_nil; cbn [fst snd];
      repeat (apply f_equal2; [apply integral_ext; intros p Hp; rewrite ?(Hd p Hp), ?(Hd' p Hp); try (destruct (H p Hp) as (-> & _ & _)); reflexivity|]); reflexivity.
Qed.

Section One.
Variables (M : mesh P) (mb : mobile P) (T : temperature P) (ms : list mat_obj) (c c_n : field P)
  (S_ : P -> R) (ms' : @materials R prop).
Hypotheses (Hcl : mb_class mb = ClassTheta S_ ms') (Hcov : covered M ms) (HS : solubility_field M mb T ms)
  (Hc : concentration_fields M mb T ms c c_n) (HT : positive_temperature M T).
Let pl := of_concentration mb c c_n.

Lemma variable_material dt soret m F : In m ms -> material_form M mb T dt soret m = Ok F ->
  exists G, material_form M pl T dt soret m = Ok G /\ assemble M G = assemble M F.
Proof.
  intros Hm. unfold material_form.
  destruct (get_concentration mb (attrs m) T) as [[f fn]|e] eqn:Hg; cbn [bind]; [|discriminate].
  replace (get_concentration pl (attrs m) T) with (@Ok (field P * field P) (c, c_n)) by reflexivity. cbn [bind].
  destruct (float_of (Some (m_D0 (attrs m)))) as [D0|e]; cbn [bind]; [|discriminate].
  destruct (float_of (Some (m_ED (attrs m)))) as [ED|e]; cbn [bind]; [|discriminate].
  match goal with |- bind ?x _ = _ -> _ => destruct x as [Q|e]; cbn [bind]; [|discriminate] end.
  intros HF. apply Ok_inj in HF. subst F. eexists. split; [reflexivity|]. cbn [fst snd pl mb_test of_concentration].
  rewrite !assemble_flat_map. apply sum_over_ext. intros z Hz. symmetry. apply diffusion_terms_on.
  intros p Hp. apply in_points_cells in Hp as [Hp E].
  apply (get_matches M mb T ms c c_n S_ ms' m f fn p); auto. now rewrite E.
Qed.
Lemma variable_mobile_trapping t i m F : In m ms -> mobile_trapping_terms mb T t i m = Ok F ->
  exists G, mobile_trapping_terms pl T t i m = Ok G /\ assemble M G = assemble M F.
Proof.
  intros Hm. unfold mobile_trapping_terms.
  match goal with |- bind ?x _ = _ -> _ => destruct x as [[[[[k0 Ek] p0] Ep] n]|e]; cbn [bind]; [|discriminate] end.
  destruct (get_concentration mb (attrs m) T) as [[f fn]|e] eqn:Hg; cbn [bind]; [|discriminate].
  replace (get_concentration pl (attrs m) T) with (@Ok (field P * field P) (c, c_n)) by reflexivity. cbn [bind].
  destruct (m_id (attrs m)) as [z|l] eqn:Hz; cbn [dx_id bind]; [|discriminate].
  intros HF. apply Ok_inj in HF. subst F. eexists. split; [reflexivity|].
  rewrite !assemble_cons, !assemble_nil. cbn [fst snd pl mb_test of_concentration]. apply f_equal2; [|reflexivity].
  apply integral_ext. intros p Hp. apply in_points_cells in Hp as [Hp E].
  destruct (get_matches M mb T ms c c_n S_ ms' m f fn p) as (-> & _); auto. rewrite Hz. now left.
Qed.
Lemma variable_trapping t i m F : In m ms -> trapping_terms mb T t i m = Ok F ->
  exists G, trapping_terms pl T t i m = Ok G /\ assemble M G = assemble M F.
Proof.
  intros Hm. unfold trapping_terms.
  match goal with |- bind ?x _ = _ -> _ => destruct x as [[[[[k0 Ek] p0] Ep] n]|e]; cbn [bind]; [|discriminate] end.
  match goal with |- bind ?x _ = _ -> _ => destruct x as [[]|e]; cbn [bind]; [|discriminate] end.
  destruct (get_concentration mb (attrs m) T) as [[f fn]|e] eqn:Hg; cbn [bind]; [|discriminate].
  replace (get_concentration pl (attrs m) T) with (@Ok (field P * field P) (c, c_n)) by reflexivity.
  cbn [bind mb_class pl of_concentration].
  destruct (m_id (attrs m)) as [z|l] eqn:Hz; cbn [dx_id bind]; [|discriminate].
  intros HF. apply Ok_inj in HF. subst F. eexists. split; [reflexivity|].
  rewrite !assemble_cons, !assemble_nil. cbn [fst snd]. apply f_equal2; [|reflexivity].
  apply integral_ext. intros p Hp. apply in_points_cells in Hp as [Hp E].
  destruct (get_matches M mb T ms c c_n S_ ms' m f fn p) as (-> & _); auto. rewrite Hz. now left.
Qed.
Lemma variable_trap dt t F : (forall m, In m (t_materials t) -> In m ms) -> trap_create_form mb ms T dt t = Ok F ->
  exists G, trap_create_form pl ms T dt t = Ok G /\ assemble M G = assemble M F.
Proof.
  intros Hm. unfold trap_create_form, create_trapping_form.
  match goal with |- bind (bind ?x _) _ = _ -> _ => destruct x as [F0|e]; cbn [bind]; [|discriminate] end.
  match goal with |- bind (bind ?x _) _ = _ -> _ => destruct x as [F1|e] eqn:H1; cbn [bind]; [|discriminate] end.
  destruct (sum_forms_enum_same M _ (trapping_terms pl T t) _ _ _ H1) as (G1 & -> & HA).
  { intros j a K Ha HK. apply variable_trapping; auto. }
  cbn [bind]. match goal with |- bind ?x _ = _ -> _ => destruct x as [F2|e]; cbn [bind]; [|discriminate] end.
  intros H. apply Ok_inj in H. subst F. eexists. split; [reflexivity|]. rewrite !assemble_app, HA. reflexivity.
Qed.
Lemma variable_solute p : In p (q_cells M) \/ In p (q_facets M) -> mobile_concentration M mb p = mobile_concentration M pl p.
Proof.
  intros Hp. cbn [pl mobile_concentration mb_class of_concentration mb_solution].
  apply (mobile_concentration_val M mb T ms (fun p => val (c p)) (fun p => val (c_n p))); try assumption.
  intros q Hq m Hm Hz. unfold concentration_at. rewrite Hcl.
  destruct (Hc q Hq m Hm Hz) as (S0 & ES & H0 & HE & (Hv & _) & (Hvn & _)). exists S0, ES. auto.
Qed.
Lemma variable_problem dt traps soret F :
  no_surface_kinetics mb -> (forall t m, In t traps -> In m (t_materials t) -> In m ms) ->
  define_variational_problem M mb ms T dt traps soret = Ok F ->
  exists G, define_variational_problem M pl ms T dt traps soret = Ok G /\ assemble M G = assemble M F.
Proof.
  intros Hsk Htm. unfold define_variational_problem, mobile_create_form, create_diffusion_form.
  match goal with |- bind (bind (bind ?x _) _) _ = _ -> _ => destruct x as [F1|e] eqn:H1; cbn [bind]; [|discriminate] end.
  destruct (sum_forms_same M _ (material_form M pl T dt soret) _ _ H1) as (G1 & -> & HA1).
  { intros m K Hm HK. apply variable_material; auto. }
  cbn [bind]. match goal with |- bind (bind (bind ?x _) _) _ = _ -> _ => destruct x as [F2|e] eqn:H2; cbn [bind]; [|discriminate] end.
  destruct (sum_forms_same M _ (fun t => sum_forms_enum (mobile_trapping_terms pl T t) 0 (t_materials t)) _ _ H2) as (G2 & -> & HA2).
  { intros t K Ht HK. apply (sum_forms_enum_same M _ _ _ _ _ HK). intros j m K' Hm HK'. apply variable_mobile_trapping; eauto. }
  cbn [bind]. match goal with |- bind ?x _ = _ -> _ => destruct x as [F3|e] eqn:H3; cbn [bind]; [|discriminate] end.
  destruct (sum_forms_same M _ (trap_create_form pl ms T dt) _ _ H3) as (G3 & -> & HA3).
  { intros t K Ht HK. apply variable_trap; eauto. }
  cbn [bind]. intros H. apply Ok_inj in H. subst F. eexists. split; [reflexivity|].
  rewrite !assemble_app, !assemble_neg, HA1, HA2, HA3. f_equal. f_equal. f_equal.
  - unfold create_mobile_source_form. rewrite !assemble_flat_map. apply sum_over_ext. intros s _. symmetry.
    apply source_terms_ext; [|reflexivity]. intros p Hp. apply variable_solute. now left.
  - unfold create_fluxes_form. rewrite !assemble_flat_map. apply sum_over_ext. intros b Hb. symmetry.
    destruct b as [field_T surfaces f|s]; [|destruct (Hsk s Hb)].
    destruct field_T; [reflexivity|]. cbn [flux_terms]. rewrite !assemble_map. apply sum_over_ext. intros z _. cbn [fst snd].
    apply integral_ext. intros p Hp. apply in_points_facets in Hp as [Hp _].
    replace (mb_test pl p) with (mb_test mb p) by reflexivity. f_equal.
    pose proof (variable_solute p (or_intror Hp)) as E. destruct f; cbn [flux_form]; rewrite ?E; reflexivity.
Qed.
End One.
End Unknown.
