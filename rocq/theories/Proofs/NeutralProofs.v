(** Terms of the formulations that vanish (C82). *)
From Coq Require Import Reals ZArith List Bool Lra Lia.
From Verif Require Import Base.Exc Base.Dual Model.Materials Model.Laws Model.Theta Model.Forms
  Spec.PhysSpec Spec.BalanceSpec Spec.NeutralSpec Proofs.LawProofs Proofs.ThetaProofs Proofs.FormProofs Proofs.SplitProofs.
Import ListNotations.
Local Open Scope R_scope.
Local Open Scope list_scope.

Section Neutral.
Context {P : Type}.
Implicit Types (M : mesh P).

Lemma sum_forms_same {A} M (f g : A -> res (form P)) l F :
  sum_forms f l = Ok F ->
  (forall a K, In a l -> f a = Ok K -> exists L, g a = Ok L /\ assemble M L = assemble M K) ->
  exists G, sum_forms g l = Ok G /\ assemble M G = assemble M F.
Proof.
  intros H Hg. destruct (sum_forms_step M f g (fun _ => 0) l F H) as (G & HG & HA).
  - intros a K Ha HK. destruct (Hg a K Ha HK) as (L & HL & E). exists L. split; [exact HL|]. lra.
  - exists G. split; [exact HG|]. rewrite HA. unfold sum_over. rewrite rsum_map_zero by reflexivity. lra.
Qed.
Lemma sum_forms_enum_same {A} M (f g : nat -> A -> res (form P)) l : forall i F,
  sum_forms_enum f i l = Ok F ->
  (forall j a K, In a l -> f j a = Ok K -> exists L, g j a = Ok L /\ assemble M L = assemble M K) ->
  exists G, sum_forms_enum g i l = Ok G /\ assemble M G = assemble M F.
Proof.
  induction l as [|x l IH]; intros i F; cbn [sum_forms_enum].
  - intros H _. apply Ok_inj in H. subst F. exists []. auto.
  - destruct (f i x) as [K|e] eqn:E; cbn [bind]; [|discriminate].
    destruct (sum_forms_enum f (S i) l) as [H|e] eqn:E'; cbn [bind]; [|discriminate].
    intros Hf Hg. apply Ok_inj in Hf. subst F. destruct (Hg i x K) as (L & -> & HL); [now left|exact E|].
    destruct (IH (S i) H E') as (G & -> & HG); [intros; eapply Hg; [now right|eassumption]|].
    cbn [bind]. eexists. split; [reflexivity|]. rewrite !assemble_app, HL, HG. reflexivity.
Qed.
Lemma sum_forms_enum_zero {A} M (f : nat -> A -> res (form P)) l : forall i F,
  sum_forms_enum f i l = Ok F -> (forall j a K, In a l -> f j a = Ok K -> assemble M K = 0) -> assemble M F = 0.
Proof.
  induction l as [|x l IH]; intros i F; cbn [sum_forms_enum].
  - intros H _. apply Ok_inj in H. subst F. reflexivity.
  - destruct (f i x) as [K|e] eqn:E; cbn [bind]; [|discriminate].
    destruct (sum_forms_enum f (S i) l) as [H|e] eqn:E'; cbn [bind]; [|discriminate].
    intros Hf Hg. apply Ok_inj in Hf. subst F.
    rewrite assemble_app, (Hg i x K (or_introl eq_refl) E), (IH (S i) H E'); [lra|].
    intros j a K0 Ha HK. apply (Hg j a K0); [now right|exact HK].
Qed.
Lemma sum_forms_zero {A} M (f : A -> res (form P)) l F :
  sum_forms f l = Ok F -> (forall a K, In a l -> f a = Ok K -> assemble M K = 0) -> assemble M F = 0.
Proof.
  intros H Hz. rewrite (sum_forms_assemble M f (fun _ => 0) l F H) by (intros; eauto).
  unfold sum_over. apply rsum_map_zero. reflexivity.
Qed.

(** Soret. *)
Lemma soret_terms_zero M D0 ED Q c c_n v T dt z :
  (forall p, In p (points M (Dx z)) -> (forall i, (i < q_dim M)%nat -> grd (T p) i = 0) \/ Q (val (T p)) = 0) ->
  assemble M (diffusion_terms M true D0 ED Q c c_n v T dt z) = assemble M (diffusion_terms M false D0 ED (fun _ => 0) c c_n v T dt z).
Proof.
  intros H. unfold diffusion_terms. cbv zeta. rewrite !assemble_app. f_equal.
  assert (Hd : forall p (a b : R) g, In p (points M (Dx z)) -> a = 0 \/ a = Q (val (T p)) * val (c p) / (k_B * val (T p) ^ 2) \/
     a = b * Q (val (T p)) * val (c p) / (k_B * val (T p) ^ 2) ->
     dot (q_dim M) (fun i => a * grd (T p) i) g = 0).
  { intros p a b g Hp Ha. apply dot_zero. intros i Hi. left. destruct (H p Hp) as [Hg|HQ].
    - rewrite (Hg i Hi). ring.
    - rewrite HQ in Ha. unfold Rdiv in Ha. destruct Ha as [->|[->| ->]]; ring. }
  destruct (q_type M); rewrite !assemble_cons, !assemble_nil; cbn [fst snd]; f_equal.
  - rewrite integral_zero; [lra|]. intros p Hp.
    apply (Hd p _ (D0 * exp (- ED / k_B / val (T p))) _ Hp). right. right. reflexivity.
  - rewrite integral_zero; [lra|]. intros p Hp.
    rewrite (Hd p _ (D0 * exp (- ED / k_B / val (T p))) _ Hp); [ring|]. right. right. reflexivity.
  - rewrite integral_zero; [lra|]. intros p Hp. rewrite (Hd p _ 0 _ Hp); [ring|]. right. left. reflexivity.
Qed.
Lemma soret_material M mb ms T dt m F :
  no_soret M T ms -> In m ms -> material_form M mb T dt true m = Ok F ->
  exists G, material_form M mb T dt false m = Ok G /\ assemble M G = assemble M F.
Proof.
  intros HQ Hm. unfold material_form.
  destruct (get_concentration mb (attrs m) T) as [c|e]; cbn [bind]; [|discriminate].
  destruct (float_of (Some (m_D0 (attrs m)))) as [D0|e]; cbn [bind]; [|discriminate].
  destruct (float_of (Some (m_ED (attrs m)))) as [ED|e]; cbn [bind]; [|discriminate].
  destruct (value_at (m_Q (attrs m))) as [Q|e] eqn:E; cbn [bind]; [|discriminate].
  intros HF. apply Ok_inj in HF. subst F. eexists. split; [reflexivity|].
  rewrite !assemble_flat_map. apply sum_over_ext. intros z Hz. symmetry. apply soret_terms_zero.
  intros p Hp. apply in_points_cells in Hp as [Hp Hv]. destruct (HQ p Hp) as [Hg|HQ']; [now left|right].
  destruct (HQ' m Hm) as [Hc|(f & Hf & H0)]; [now rewrite Hv| |]; rewrite ?Hc, ?Hf in E; cbn in E; apply Ok_inj in E; now subst Q.
Qed.
Lemma soret_neutral M mb ms T dt traps F :
  no_soret M T ms -> define_variational_problem M mb ms T dt traps true = Ok F ->
  exists G, define_variational_problem M mb ms T dt traps false = Ok G /\ assemble M G = assemble M F.
Proof.
  intros HQ. unfold define_variational_problem, mobile_create_form, create_diffusion_form.
  destruct (sum_forms (material_form M mb T dt true) ms) as [F1|e] eqn:H1; cbn [bind]; [|discriminate].
  destruct (sum_forms_same M _ (material_form M mb T dt false) _ _ H1) as (G1 & -> & HA).
  { intros m K Hm HK. now apply (soret_material M mb ms T dt m K). }
  cbn [bind]. match goal with |- bind (bind (bind ?x _) _) _ = _ -> _ => destruct x as [F2|e]; cbn [bind]; [|discriminate] end.
  match goal with |- bind ?x _ = _ -> _ => destruct x as [F3|e]; cbn [bind]; [|discriminate] end.
  intros H. apply Ok_inj in H. subst F. eexists. split; [reflexivity|]. rewrite !assemble_app, HA. reflexivity.
Qed.

(** Unit solubility. *)
Lemma unit_coefficient T : val (Theta.coefficient 1 0 T) = 1 /\ forall i, grd (Theta.coefficient 1 0 T) i = 0.
Proof.
  unfold Theta.coefficient. cbn [dmul dconst dexp ddiv val grd].
  assert (E : - 0 / k_B / val T = 0) by (unfold Rdiv; ring).
  rewrite E, exp_0. split; [ring|]. intros i. unfold Rdiv. ring.
Qed.
Lemma unit_get (mb : mobile P) T m S_ ms' :
  mb_class mb = ClassTheta S_ ms' -> unit_solubility m ->
  exists f fn, get_concentration mb m T = Ok (f, fn) /\
    forall p, val (f p) = val (mb_solution mb p) /\ (forall i, grd (f p) i = grd (mb_solution mb p) i) /\
              val (fn p) = val (mb_previous mb p).
Proof.
  intros Hcl (H0 & HE & Hl). unfold get_concentration, check_concentration. rewrite Hcl, H0, HE. cbn [float_of bind].
  eexists _, _. split; [reflexivity|]. intros p. unfold theta_concentration. rewrite H0, HE, Hl. cbn [float_of bind or_zero fst snd].
  destruct (unit_coefficient (T_T T p)) as [V G]. destruct (unit_coefficient (T_Tn T p)) as [V' _].
  cbn [dmul val grd]. rewrite V, V'. repeat split; [ring| |ring]. intros i. rewrite G. ring.
Qed.
Lemma diffusion_terms_ext M soret D0 ED Q c c_n c' c_n' v T dt z :
  (forall p, val (c p) = val (c' p) /\ (forall i, grd (c p) i = grd (c' p) i) /\ val (c_n p) = val (c_n' p)) ->
  assemble M (diffusion_terms M soret D0 ED Q c c_n v T dt z) = assemble M (diffusion_terms M soret D0 ED Q c' c_n' v T dt z).
Proof.
  intros H. unfold diffusion_terms. cbv zeta. rewrite !assemble_app. f_equal.
  - destruct dt as [dt|]; [|reflexivity]. rewrite !assemble_cons, !assemble_nil. cbn [fst snd]. f_equal.
    apply integral_ext. intros p _. destruct (H p) as (-> & _ & ->). reflexivity.
  - assert (Hd : forall p a g, dot (q_dim M) (fun i => a * grd (c p) i) g = dot (q_dim M) (fun i => a * grd (c' p) i) g).
    { intros p a g. unfold dot. apply rsum_map_ext. intros i _. destruct (H p) as (_ & -> & _). reflexivity. }
    assert (Hd' : forall p g, dot (q_dim M) (grd (c p)) g = dot (q_dim M) (grd (c' p)) g).
    { intros p g. unfold dot. apply rsum_map_ext. intros i _. destruct (H p) as (_ & -> & _). reflexivity. }
    destruct (q_type M), soret; rewrite !assemble_cons, !assemble_nil; cbn [fst snd];
      repeat (apply f_equal2; [apply integral_ext; intros p _; rewrite ?Hd, ?Hd'; try (destruct (H p) as (-> & _ & _)); reflexivity|]); reflexivity.
Qed.

Lemma plain_get (mb : mobile P) m T : get_concentration (plain mb) m T = Ok (mb_solution mb, mb_previous mb).
Proof. reflexivity. Qed.
Lemma unit_mobile M mb T ms p :
  covered M ms -> solubility_field M mb T ms -> (forall m, In m ms -> unit_solubility (attrs m)) ->
  In p (q_cells M) \/ In p (q_facets M) ->
  mobile_concentration M mb p = val (mb_solution mb p).
Proof.
  intros Hcov HS Hu Hp.
  assert (E1 : forall T, arrhenius 1 0 T = 1).
  { intros t. unfold arrhenius. replace (0 / (boltzmann * t)) with 0 by (unfold Rdiv; ring). rewrite exp_0. lra. }
  apply (mobile_concentration_val M mb T ms (fun p => val (mb_solution mb p)) (fun p => val (mb_previous mb p))); try assumption.
  intros q Hq m Hm Hz. unfold concentration_at. destruct (mb_class mb); [auto|].
  destruct (Hu m Hm) as (H0 & HE & Hl). exists 1, 0. rewrite Hl. cbn [law_conc]. rewrite !E1. repeat split; auto; ring.
Qed.
Lemma unit_material M mb T dt soret m S_ ms' F :
  mb_class mb = ClassTheta S_ ms' -> unit_solubility (attrs m) ->
  material_form M (plain mb) T dt soret m = Ok F ->
  exists G, material_form M mb T dt soret m = Ok G /\ assemble M G = assemble M F.
Proof.
  intros Hcl Hu. destruct (unit_get mb T (attrs m) S_ ms' Hcl Hu) as (f & fn & Hg & Hv).
  unfold material_form. rewrite plain_get, Hg. cbn [bind].
  destruct (float_of (Some (m_D0 (attrs m)))) as [D0|e]; cbn [bind]; [|discriminate].
  destruct (float_of (Some (m_ED (attrs m)))) as [ED|e]; cbn [bind]; [|discriminate].
  match goal with |- bind ?x _ = _ -> _ => destruct x as [Q|e]; cbn [bind]; [|discriminate] end.
  intros HF. apply Ok_inj in HF. subst F. eexists. split; [reflexivity|]. cbn [fst snd mb_test plain].
  rewrite !assemble_flat_map. apply sum_over_ext. intros z _. apply diffusion_terms_ext. exact Hv.
Qed.
Lemma unit_mobile_trapping M mb T t i m S_ ms' F :
  mb_class mb = ClassTheta S_ ms' -> unit_solubility (attrs m) ->
  mobile_trapping_terms (plain mb) T t i m = Ok F ->
  exists G, mobile_trapping_terms mb T t i m = Ok G /\ assemble M G = assemble M F.
Proof.
  intros Hcl Hu. destruct (unit_get mb T (attrs m) S_ ms' Hcl Hu) as (f & fn & Hg & Hv).
  unfold mobile_trapping_terms. rewrite plain_get, Hg.
  match goal with |- bind ?x _ = _ -> _ => destruct x as [[[[[k0 Ek] p0] Ep] n]|e]; cbn [bind]; [|discriminate] end.
  destruct (dx_id (m_id (attrs m))) as [z|e]; cbn [bind]; [|discriminate].
  intros HF. apply Ok_inj in HF. subst F. eexists. split; [reflexivity|].
  rewrite !assemble_cons, !assemble_nil. cbn [fst snd mb_test mb_solution plain]. apply f_equal2; [|reflexivity].
  apply integral_ext. intros p _. destruct (Hv p) as (-> & _). reflexivity.
Qed.
Lemma unit_trapping M mb T t i m S_ ms' F :
  mb_class mb = ClassTheta S_ ms' -> unit_solubility (attrs m) ->
  trapping_terms (plain mb) T t i m = Ok F ->
  exists G, trapping_terms mb T t i m = Ok G /\ assemble M G = assemble M F.
Proof.
  intros Hcl Hu. destruct (unit_get mb T (attrs m) S_ ms' Hcl Hu) as (f & fn & Hg & Hv). destruct Hu as (_ & _ & Hl).
  unfold trapping_terms. rewrite plain_get, Hg, Hcl, Hl. cbn [plain mb_class].
  match goal with |- bind ?x _ = _ -> _ => destruct x as [[[[[k0 Ek] p0] Ep] n]|e]; cbn [bind]; [|discriminate] end.
  destruct (dx_id (m_id (attrs m))) as [z|e]; cbn [bind]; [|discriminate].
  intros HF. apply Ok_inj in HF. subst F. eexists. split; [reflexivity|].
  rewrite !assemble_cons, !assemble_nil. cbn [fst snd mb_test mb_solution plain]. apply f_equal2; [|reflexivity].
  apply integral_ext. intros p _. destruct (Hv p) as (-> & _). reflexivity.
Qed.
Lemma unit_trap M mb ms T dt t S_ ms' F :
  mb_class mb = ClassTheta S_ ms' -> (forall m, In m (t_materials t) -> unit_solubility (attrs m)) ->
  trap_create_form (plain mb) ms T dt t = Ok F ->
  exists G, trap_create_form mb ms T dt t = Ok G /\ assemble M G = assemble M F.
Proof.
  intros Hcl Hu. unfold trap_create_form, create_trapping_form.
  match goal with |- bind (bind ?x _) _ = _ -> _ => destruct x as [F0|e]; cbn [bind]; [|discriminate] end.
  match goal with |- bind (bind ?x _) _ = _ -> _ => destruct x as [F1|e] eqn:H1; cbn [bind]; [|discriminate] end.
  destruct (sum_forms_enum_same M _ (trapping_terms mb T t) _ _ _ H1) as (G1 & -> & HA).
  { intros j a K Ha HK. now apply (unit_trapping M mb T t j a S_ ms' K); auto. }
  cbn [bind]. match goal with |- bind ?x _ = _ -> _ => destruct x as [F2|e]; cbn [bind]; [|discriminate] end.
  intros H. apply Ok_inj in H. subst F. eexists. split; [reflexivity|]. rewrite !assemble_app, HA. reflexivity.
Qed.
Lemma flux_terms_ext M mb mb' T dt b :
  (forall p, In p (q_facets M) -> mobile_concentration M mb p = mobile_concentration M mb' p) ->
  (forall p, val (mb_previous mb p) = val (mb_previous mb' p)) -> mb_test mb = mb_test mb' ->
  assemble M (flux_terms M mb T dt b) = assemble M (flux_terms M mb' T dt b).
Proof.
  intros Hc Hp Ht. destruct b as [[|] surfaces f|s]; cbn [flux_terms].
  - reflexivity.
  - rewrite !assemble_map. apply sum_over_ext. intros z _. cbn [fst snd]. apply integral_ext. intros p Hin.
    apply in_points_facets in Hin as [Hin _]. rewrite Ht. f_equal.
    destruct f; cbn [flux_form]; rewrite ?(Hc p Hin); reflexivity.
  - rewrite !assemble_flat_map. apply sum_over_ext. intros a _. unfold surface_kinetics_terms. cbv zeta. rewrite Ht.
    rewrite !assemble_app. f_equal.
    + destruct dt as [dt|]; [|reflexivity]. rewrite !assemble_cons, !assemble_nil. cbn [fst snd]. do 2 f_equal.
      apply integral_ext. intros p Hin. apply in_points_facets in Hin as [Hin _]. rewrite (Hc p Hin), Hp. reflexivity.
    + rewrite !assemble_cons, !assemble_nil. cbn [fst snd]. f_equal; [|f_equal];
        apply integral_ext; intros p Hin; apply in_points_facets in Hin as [Hin _]; rewrite (Hc p Hin); reflexivity.
Qed.
Lemma source_terms_ext M mb mb' s :
  (forall p, In p (q_cells M) -> mobile_concentration M mb p = mobile_concentration M mb' p) -> mb_test mb = mb_test mb' ->
  assemble M (mobile_source_terms M mb s) = assemble M (mobile_source_terms M mb' s).
Proof.
  intros Hc Ht. unfold mobile_source_terms. cbv zeta. rewrite !assemble_map. apply sum_over_ext. intros z _. cbn [fst snd].
  apply integral_ext. intros p Hp. apply in_points_cells in Hp as [Hp _]. rewrite Ht.
  destruct (s_decay s); [|reflexivity]. now rewrite (Hc p Hp).
Qed.
Lemma unit_neutral M mb ms T dt traps soret S_ ms' F :
  mb_class mb = ClassTheta S_ ms' -> covered M ms -> solubility_field M mb T ms ->
  (forall m, In m ms -> unit_solubility (attrs m)) ->
  (forall t m, In t traps -> In m (t_materials t) -> unit_solubility (attrs m)) ->
  define_variational_problem M (plain mb) ms T dt traps soret = Ok F ->
  exists G, define_variational_problem M mb ms T dt traps soret = Ok G /\ assemble M G = assemble M F.
Proof.
  intros Hcl Hcov HS Hu Hut. unfold define_variational_problem, mobile_create_form, create_diffusion_form.
  match goal with |- bind (bind (bind ?x _) _) _ = _ -> _ => destruct x as [F1|e] eqn:H1; cbn [bind]; [|discriminate] end.
  destruct (sum_forms_same M _ (material_form M mb T dt soret) _ _ H1) as (G1 & -> & HA1).
  { intros m K Hm HK. now apply (unit_material M mb T dt soret m S_ ms' K); auto. }
  cbn [bind]. match goal with |- bind (bind (bind ?x _) _) _ = _ -> _ => destruct x as [F2|e] eqn:H2; cbn [bind]; [|discriminate] end.
  destruct (sum_forms_same M _ (fun t => sum_forms_enum (mobile_trapping_terms mb T t) 0 (t_materials t)) _ _ H2) as (G2 & -> & HA2).
  { intros t K Ht HK. apply (sum_forms_enum_same M _ _ _ _ _ HK). intros j m K' Hm HK'.
    now apply (unit_mobile_trapping M mb T t j m S_ ms' K'); eauto. }
  cbn [bind]. match goal with |- bind ?x _ = _ -> _ => destruct x as [F3|e] eqn:H3; cbn [bind]; [|discriminate] end.
  destruct (sum_forms_same M _ (trap_create_form mb ms T dt) _ _ H3) as (G3 & -> & HA3).
  { intros t K Ht HK. now apply (unit_trap M mb ms T dt t S_ ms' K); eauto. }
  cbn [bind]. intros H. apply Ok_inj in H. subst F. eexists. split; [reflexivity|].
  rewrite !assemble_app, !assemble_neg, HA1, HA2, HA3. f_equal. f_equal. f_equal.
  - unfold create_mobile_source_form. rewrite !assemble_flat_map. apply sum_over_ext. intros s _.
    apply source_terms_ext; [|reflexivity]. intros p Hp. now apply (unit_mobile M mb T ms); auto.
  - unfold create_fluxes_form. rewrite !assemble_flat_map. apply sum_over_ext. intros b _.
    apply flux_terms_ext; [|reflexivity|reflexivity]. intros p Hp. now apply (unit_mobile M mb T ms); auto.
Qed.

(** An empty trap. *)
Lemma index_in {A} (l : list A) i x : index l i = Ok x -> In x l.
Proof. unfold index. destruct (nth_error l i) eqn:E; [|discriminate]. intros H. apply Ok_inj in H. subst. eapply nth_error_In, E. Qed.
Lemma empty_mobile M mb T t i m K : empty_trap t -> mobile_trapping_terms mb T t i m = Ok K -> assemble M K = 0.
Proof.
  intros (Hn & Hs & _ & _). unfold mobile_trapping_terms.
  destruct (t_k0 t) as [k|k].
  - destruct (arg_number (t_Ek t)) as [Ek|e]; cbn [bind]; [|discriminate].
    destruct (arg_number (t_p0 t)) as [p0|e]; cbn [bind]; [|discriminate].
    destruct (arg_number (t_Ep t)) as [Ep|e]; cbn [bind]; [|discriminate].
    destruct (index (t_density t) 0) as [n|e] eqn:E; cbn [bind]; [|discriminate].
    destruct (get_concentration mb (attrs m) T) as [c|e]; cbn [bind]; [|discriminate].
    destruct (dx_id (m_id (attrs m))) as [z|e]; cbn [bind]; [|discriminate].
    intros H. apply Ok_inj in H. subst K. apply index_in in E. rewrite !assemble_cons, assemble_nil. cbn [fst snd].
    rewrite !integral_zero; [lra| |]; intros p _; rewrite Hs, ?(Hn _ E); ring.
  - destruct (index k i) as [k0|e]; cbn [bind]; [|discriminate].
    destruct (arg_index (t_Ek t) i) as [Ek|e]; cbn [bind]; [|discriminate].
    destruct (arg_index (t_p0 t) i) as [p0|e]; cbn [bind]; [|discriminate].
    destruct (arg_index (t_Ep t) i) as [Ep|e]; cbn [bind]; [|discriminate].
    destruct (index (t_density t) i) as [n|e] eqn:E; cbn [bind]; [|discriminate].
    destruct (get_concentration mb (attrs m) T) as [c|e]; cbn [bind]; [|discriminate].
    destruct (dx_id (m_id (attrs m))) as [z|e]; cbn [bind]; [|discriminate].
    intros H. apply Ok_inj in H. subst K. apply index_in in E. rewrite !assemble_cons, assemble_nil. cbn [fst snd].
    rewrite !integral_zero; [lra| |]; intros p _; rewrite Hs, ?(Hn _ E); ring.
Qed.
Lemma empty_trapping M mb T t i m K : empty_trap t -> trapping_terms mb T t i m = Ok K -> assemble M K = 0.
Proof.
  intros (Hn & Hs & _ & _). unfold trapping_terms.
  destruct (t_k0 t) as [k|k].
  - destruct (arg_number (t_Ek t)) as [Ek|e]; cbn [bind]; [|discriminate].
    destruct (arg_number (t_p0 t)) as [p0|e]; cbn [bind]; [|discriminate].
    destruct (arg_number (t_Ep t)) as [Ep|e]; cbn [bind]; [|discriminate].
    destruct (index (t_density t) 0) as [n|e] eqn:E; cbn [bind]; [|discriminate].
    match goal with |- bind ?x _ = _ -> _ => destruct x as [[]|e]; cbn [bind]; [|discriminate] end.
    destruct (get_concentration mb (attrs m) T) as [c|e]; cbn [bind]; [|discriminate].
    destruct (dx_id (m_id (attrs m))) as [z|e]; cbn [bind]; [|discriminate].
    intros H. apply Ok_inj in H. subst K. apply index_in in E. rewrite !assemble_cons, assemble_nil. cbn [fst snd].
    rewrite !integral_zero; [lra| |]; intros p _; rewrite Hs, ?(Hn _ E); ring.
  - destruct (index k i) as [k0|e]; cbn [bind]; [|discriminate].
    destruct (arg_index (t_Ek t) i) as [Ek|e]; cbn [bind]; [|discriminate].
    destruct (arg_index (t_p0 t) i) as [p0|e]; cbn [bind]; [|discriminate].
    destruct (arg_index (t_Ep t) i) as [Ep|e]; cbn [bind]; [|discriminate].
    destruct (index (t_density t) i) as [n|e] eqn:E; cbn [bind]; [|discriminate].
    match goal with |- bind ?x _ = _ -> _ => destruct x as [[]|e]; cbn [bind]; [|discriminate] end.
    destruct (get_concentration mb (attrs m) T) as [c|e]; cbn [bind]; [|discriminate].
    destruct (dx_id (m_id (attrs m))) as [z|e]; cbn [bind]; [|discriminate].
    intros H. apply Ok_inj in H. subst K. apply index_in in E. rewrite !assemble_cons, assemble_nil. cbn [fst snd].
    rewrite !integral_zero; [lra| |]; intros p _; rewrite Hs, ?(Hn _ E); ring.
Qed.
Lemma empty_trap_form M mb ms T dt t K : empty_trap t -> trap_create_form mb ms T dt t = Ok K -> assemble M K = 0.
Proof.
  intros He. pose proof He as (_ & Hs & Hp & Hsrc). unfold trap_create_form, create_trapping_form.
  match goal with |- bind (bind ?x _) _ = _ -> _ => destruct x as [F0|e] eqn:H0; cbn [bind]; [|discriminate] end.
  match goal with |- bind (bind ?x _) _ = _ -> _ => destruct x as [F1|e] eqn:H1; cbn [bind]; [|discriminate] end.
  match goal with |- bind ?x _ = _ -> _ => destruct x as [F2|e] eqn:H2; cbn [bind]; [|discriminate] end.
  intros H. apply Ok_inj in H. subst K. rewrite !assemble_app.
  rewrite (sum_forms_enum_zero M _ _ _ _ H1) by (intros j a K _ HK; now apply (empty_trapping M mb T t j a K)).
  rewrite (sum_forms_zero M _ _ _ H2).
  2:{ intros s K Hin. unfold trap_source_terms. cbv zeta. destruct (dx_id (s_volume s)) as [z|e]; cbn [bind]; [|discriminate].
      intros HK. apply Ok_inj in HK. subst K. rewrite assemble_cons, assemble_nil. cbn [fst snd]. rewrite integral_zero; [lra|].
      intros p _. destruct (s_decay s) eqn:Ed; [unfold decay_form; rewrite Hs; ring|].
      destruct (Hsrc s Hin) as [Hd|Hv]; [congruence|]. rewrite Hv. ring. }
  assert (E0 : assemble M F0 = 0); [|lra]. destruct dt as [dt|].
  - apply Ok_inj in H0. subst F0. rewrite assemble_cons, assemble_nil. cbn [fst snd]. rewrite integral_zero; [lra|].
    intros p _. rewrite Hs, Hp. unfold Rdiv. ring.
  - apply (sum_forms_zero M _ _ _ H0). intros m K _. destruct (mat_in m (t_materials t)).
    + intros HK. apply Ok_inj in HK. subst K. reflexivity.
    + destruct (dx_id (m_id (attrs m))) as [z|e]; cbn [bind]; [|discriminate]. intros HK. apply Ok_inj in HK. subst K.
      rewrite assemble_cons, assemble_nil. cbn [fst snd]. rewrite integral_zero; [lra|]. intros p _. rewrite Hs. ring.
Qed.
Lemma sum_forms_insert {A} M (f : A -> res (form P)) l1 a l2 F :
  sum_forms f (l1 ++ a :: l2) = Ok F -> (forall K, f a = Ok K -> assemble M K = 0) ->
  exists G, sum_forms f (l1 ++ l2) = Ok G /\ assemble M G = assemble M F.
Proof.
  rewrite !sum_forms_app. destruct (sum_forms f l1) as [F1|e]; cbn [bind]; [|discriminate]. cbn [sum_forms].
  destruct (f a) as [K|e]; cbn [bind]; [|discriminate]. destruct (sum_forms f l2) as [F2|e]; cbn [bind]; [|discriminate].
  intros H Hz. apply Ok_inj in H. subst F. eexists. split; [reflexivity|]. rewrite !assemble_app, (Hz K eq_refl). lra.
Qed.
Lemma empty_trap_neutral M mb ms T dt l1 t l2 soret F :
  empty_trap t -> define_variational_problem M mb ms T dt (l1 ++ t :: l2) soret = Ok F ->
  exists G, define_variational_problem M mb ms T dt (l1 ++ l2) soret = Ok G /\ assemble M G = assemble M F.
Proof.
  intros He. unfold define_variational_problem, mobile_create_form, create_diffusion_form.
  match goal with |- bind (bind (bind ?x _) _) _ = _ -> _ => destruct x as [F1|e]; cbn [bind]; [|discriminate] end.
  match goal with |- bind (bind (bind ?x _) _) _ = _ -> _ => destruct x as [F2|e] eqn:H2; cbn [bind]; [|discriminate] end.
  match goal with |- bind ?x _ = _ -> _ => destruct x as [F3|e] eqn:H3; cbn [bind]; [|discriminate] end.
  destruct (sum_forms_insert M _ _ _ _ _ H2) as (G2 & -> & HA2).
  { intros K HK. apply (sum_forms_enum_zero M _ _ _ _ HK). intros j a K' _ HK'. now apply (empty_mobile M mb T t j a K'). }
  destruct (sum_forms_insert M _ _ _ _ _ H3) as (G3 & -> & HA3).
  { intros K HK. now apply (empty_trap_form M mb ms T dt t K). }
  cbn [bind]. intros H. apply Ok_inj in H. subst F. eexists. split; [reflexivity|].
  rewrite !assemble_app, !assemble_neg, HA2, HA3. reflexivity.
Qed.

(** Sources and fluxes. *)
Lemma null_source_terms M mb s : null_source M s -> assemble M (mobile_source_terms M mb s) = 0.
Proof.
  intros [Hd Hv]. unfold mobile_source_terms. rewrite Hd. cbv zeta. rewrite assemble_map. unfold sum_over. apply rsum_map_zero.
  intros z Hz. cbn [fst snd]. apply integral_zero. intros p Hp. apply in_points_cells in Hp as [Hp E]. rewrite Hv; [ring|exact Hp|now rewrite E].
Qed.
Lemma null_flux_terms M mb T dt c surfaces f :
  positive_temperature M T -> (forall p, In p (q_facets M) -> mobile_concentration M mb p = c p) ->
  null_flux M T c surfaces f -> assemble M (flux_terms M mb T dt (BFlux false surfaces f)) = 0.
Proof.
  intros HT Hc Hn. cbn [flux_terms]. rewrite assemble_map. unfold sum_over. apply rsum_map_zero.
  intros z Hz. cbn [fst snd]. apply integral_zero. intros p Hp. apply in_points_facets in Hp as [Hp E].
  rewrite (flux_form_into f (T_T T) c); [|apply HT; auto|auto]. rewrite Hn; [ring|exact Hp|now rewrite E].
Qed.
End Neutral.
