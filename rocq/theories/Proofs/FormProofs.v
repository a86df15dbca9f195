(** Evaluation of the variational formulations (Model/Forms.v) on the volume element. *)
From Coq Require Import Reals ZArith List Bool Lra Lia Psatz.
From Verif Require Import Base.Exc Base.Dual Model.Materials Model.Laws Model.Theta Model.Forms
  Spec.PhysSpec Spec.BalanceSpec Proofs.LawProofs Proofs.ThetaProofs.
Import ListNotations.
Local Open Scope R_scope.
Local Open Scope list_scope.

Lemma rsum_cons x l : rsum (x :: l) = x + rsum l.
Proof. reflexivity. Qed.
Lemma rsum_nil : rsum [] = 0.
Proof. reflexivity. Qed.
Lemma rsum_map_ext {A} (f g : A -> R) l : (forall x, In x l -> f x = g x) -> rsum (map f l) = rsum (map g l).
Proof.
  induction l as [|a l IH]; intros H; [reflexivity|]. cbn [map]. rewrite !rsum_cons, IH.
  - rewrite H by now left. reflexivity.
  - intros x Hx. apply H. now right.
Qed.
Lemma rsum_map_plus {A} (f g : A -> R) l :
  rsum (map (fun x => f x + g x) l) = rsum (map f l) + rsum (map g l).
Proof. induction l as [|a l IH]; cbn [map]; rewrite ?rsum_cons, ?rsum_nil; [lra|]. rewrite IH. lra. Qed.
Lemma rsum_map_opp {A} (f : A -> R) l : rsum (map (fun x => - f x) l) = - rsum (map f l).
Proof. induction l as [|a l IH]; cbn [map]; rewrite ?rsum_cons, ?rsum_nil; [lra|]. rewrite IH. lra. Qed.
Lemma rsum_map_scale {A} k (f : A -> R) l : rsum (map (fun x => k * f x) l) = k * rsum (map f l).
Proof. induction l as [|a l IH]; cbn [map]; rewrite ?rsum_cons, ?rsum_nil; [lra|]. rewrite IH. lra. Qed.
Lemma rsum_map_zero {A} (f : A -> R) l : (forall x, In x l -> f x = 0) -> rsum (map f l) = 0.
Proof.
  intros H. rewrite (rsum_map_ext f (fun _ => 0 * 0)).
  - rewrite rsum_map_scale. lra.
  - intros x Hx. rewrite H by exact Hx. lra.
Qed.

Lemma dot_zero d f g : (forall i, (i < d)%nat -> f i = 0 \/ g i = 0) -> dot d f g = 0.
Proof.
  intros H. unfold dot. apply rsum_map_zero. intros i Hi. apply in_seq in Hi.
  destruct (H i) as [E|E]; [lia| |]; rewrite E; ring.
Qed.

Section Forms.
Context {P : Type}.
Implicit Types (M : mesh P) (F G : form P).

Lemma assemble_app M F G : assemble M (F ++ G) = assemble M F + assemble M G.
Proof. unfold assemble. rewrite map_app. apply rsum_app. Qed.
Lemma assemble_nil M : assemble M [] = 0.
Proof. reflexivity. Qed.
Lemma assemble_cons M i F : assemble M (i :: F) = integral M (fst i) (snd i) + assemble M F.
Proof. reflexivity. Qed.
Lemma assemble_neg M F : assemble M (neg F) = - assemble M F.
Proof.
  unfold assemble, neg. rewrite map_map. rewrite <- rsum_map_opp. apply rsum_map_ext. intros i _.
  unfold integral. cbn [fst snd]. rewrite <- rsum_map_opp.
  apply (@rsum_map_ext P). intros p _. cbv beta. ring.
Qed.
Lemma assemble_map {A} M (f : A -> measure * (P -> R)) l :
  assemble M (map f l) = sum_over l (fun a => integral M (fst (f a)) (snd (f a))).
Proof. unfold assemble, sum_over. now rewrite map_map. Qed.
Lemma assemble_flat_map {A} M (f : A -> form P) l :
  assemble M (flat_map f l) = sum_over l (fun a => assemble M (f a)).
Proof.
  induction l as [|a l IH]; [reflexivity|]. cbn [flat_map]. rewrite assemble_app, IH. reflexivity.
Qed.
Lemma sum_over_cons {A} a (l : list A) f : sum_over (a :: l) f = f a + sum_over l f.
Proof. reflexivity. Qed.

Lemma integral_ext M m (e e' : P -> R) :
  (forall p, In p (points M m) -> e p = e' p) -> integral M m e = integral M m e'.
Proof. intros H. apply rsum_map_ext. intros p Hp. now rewrite H. Qed.
Lemma integral_zero M m (e : P -> R) : (forall p, In p (points M m) -> e p = 0) -> integral M m e = 0.
Proof. intros H. apply rsum_map_zero. intros p Hp. rewrite H by exact Hp. ring. Qed.
Lemma integral_opp M m (e : P -> R) : integral M m (fun p => - e p) = - integral M m e.
Proof. unfold integral. rewrite <- rsum_map_opp. apply rsum_map_ext. intros. ring. Qed.
Lemma integral_plus M m (e e' : P -> R) : integral M m (fun p => e p + e' p) = integral M m e + integral M m e'.
Proof. unfold integral. rewrite <- rsum_map_plus. apply rsum_map_ext. intros. ring. Qed.

Lemma in_points_cells M z p :
  In p (points M (Dx z)) -> In p (q_cells M) /\ q_volume M p = z.
Proof. cbn [points]. rewrite filter_In. intros [H E]. apply Z.eqb_eq in E. auto. Qed.
Lemma in_points_facets M z p :
  In p (points M (Ds z)) -> In p (q_facets M) /\ q_surface M p = z.
Proof. cbn [points]. rewrite filter_In. intros [H E]. apply Z.eqb_eq in E. auto. Qed.

(** Integrals against a test function equal to the volume element. *)
Lemma total_integral M (f : P -> R) (v : P -> R) :
  (forall p, In p (q_cells M) -> v p = weight M p) ->
  integral M DxAll (fun p => f p * v p) = total M f.
Proof.
  intros H. unfold integral, total, wsum. apply rsum_map_ext. intros p Hp. cbn [points] in Hp.
  rewrite H by exact Hp. ring.
Qed.
Lemma total_in_integral M z (f : P -> R) (v : P -> R) :
  (forall p, In p (q_cells M) -> v p = weight M p) ->
  integral M (Dx z) (fun p => f p * v p) = total_in M z f.
Proof.
  intros H. unfold integral, total_in, wsum. apply rsum_map_ext. intros p Hp.
  apply in_points_cells in Hp. rewrite H by tauto. ring.
Qed.
Lemma total_on_integral M z (f : P -> R) (v : P -> R) :
  (forall p, In p (q_facets M) -> v p = weight M p) ->
  integral M (Ds z) (fun p => f p * v p) = total_on M z f.
Proof.
  intros H. unfold integral, total_on, wsum. apply rsum_map_ext. intros p Hp.
  apply in_points_facets in Hp. rewrite H by tauto. ring.
Qed.

Lemma wsum_ext M ps (f g : P -> R) : (forall p, In p ps -> f p = g p) -> wsum M ps f = wsum M ps g.
Proof. intros H. apply rsum_map_ext. intros p Hp. now rewrite H. Qed.
Lemma wsum_plus M ps (f g : P -> R) : wsum M ps (fun p => f p + g p) = wsum M ps f + wsum M ps g.
Proof. unfold wsum. rewrite <- rsum_map_plus. apply rsum_map_ext. intros. ring. Qed.
Lemma wsum_scale M ps k (f : P -> R) : wsum M ps (fun p => k * f p) = k * wsum M ps f.
Proof. unfold wsum. rewrite <- rsum_map_scale. apply rsum_map_ext. intros. ring. Qed.
Lemma wsum_opp M ps (f : P -> R) : wsum M ps (fun p => - f p) = - wsum M ps f.
Proof. unfold wsum. rewrite <- rsum_map_opp. apply rsum_map_ext. intros. ring. Qed.
Lemma wsum_minus M ps (f g : P -> R) : wsum M ps f - wsum M ps g = wsum M ps (fun p => f p - g p).
Proof. unfold Rminus at 1. rewrite <- wsum_opp, <- wsum_plus. apply wsum_ext. intros. ring. Qed.
Lemma wsum_zero_minus M ps (g : P -> R) : 0 - wsum M ps g = wsum M ps (fun p => - g p).
Proof. rewrite wsum_opp. ring. Qed.
Lemma wsum_rate M ps dt (f g : P -> R) :
  wsum M ps (fun p => (f p - g p) / dt) = (wsum M ps f - wsum M ps g) / dt.
Proof.
  rewrite (wsum_ext M ps _ (fun p => / dt * (f p + - g p))) by (intros; unfold Rdiv; ring).
  rewrite wsum_scale, wsum_plus, wsum_opp. unfold Rdiv. ring.
Qed.

(** Sum over the ids of the materials = sum over the whole domain. *)
Lemma wsum_filter M (q : P -> bool) ps (f : P -> R) :
  wsum M (filter q ps) f = wsum M ps (fun p => if q p then f p else 0).
Proof.
  induction ps as [|p ps IH]; [reflexivity|]. cbn [filter].
  replace (wsum M (p :: ps) (fun p => if q p then f p else 0))
    with (q_weight M p * (weight M p * (if q p then f p else 0)) + wsum M ps (fun p => if q p then f p else 0))
    by reflexivity.
  destruct (q p); rewrite <- IH; [reflexivity|ring].
Qed.

Lemma sum_ids_wsum M (l : list Z) ps (f : P -> R) :
  sum_over l (fun z => wsum M (filter (fun p => Z.eqb (q_volume M p) z) ps) f)
  = wsum M ps (fun p => rsum (map (fun z => if Z.eqb z (q_volume M p) then 1 else 0) l) * f p).
Proof.
  induction l as [|z l IH].
  - unfold sum_over. cbn [map]. rewrite rsum_nil. symmetry. unfold wsum. apply rsum_map_zero. intros. ring.
  - rewrite sum_over_cons, IH, wsum_filter, <- wsum_plus. apply wsum_ext. intros p _.
    cbn [map]. rewrite rsum_cons, (Z.eqb_sym z). destruct (Z.eqb (q_volume M p) z); ring.
Qed.

Lemma sum_over_map {A B} (g : A -> B) l (f : B -> R) : sum_over (map g l) f = sum_over l (fun a => f (g a)).
Proof. unfold sum_over. now rewrite map_map. Qed.
Lemma sum_over_ext {A} (l : list A) f g : (forall a, In a l -> f a = g a) -> sum_over l f = sum_over l g.
Proof. apply rsum_map_ext. Qed.
Lemma sum_over_flat_map {A B} (g : A -> list B) l (f : B -> R) :
  sum_over (flat_map g l) f = sum_over l (fun a => sum_over (g a) f).
Proof.
  induction l as [|a l IH]; [reflexivity|]. cbn [flat_map]. rewrite sum_over_cons, <- IH.
  unfold sum_over. now rewrite map_app, rsum_app.
Qed.
Lemma sum_over_opp {A} (l : list A) f : sum_over l (fun a => - f a) = - sum_over l f.
Proof. apply rsum_map_opp. Qed.
Lemma sum_over_plus {A} (l : list A) f g : sum_over l (fun a => f a + g a) = sum_over l f + sum_over l g.
Proof. apply rsum_map_plus. Qed.
Lemma sum_over_minus {A} (l : list A) f g : sum_over l f - sum_over l g = sum_over l (fun a => f a - g a).
Proof. unfold Rminus at 1. rewrite <- sum_over_opp, <- sum_over_plus. apply sum_over_ext. intros. ring. Qed.
Lemma sum_over_zero_minus {A} (l : list A) f : 0 - sum_over l f = sum_over l (fun a => - f a).
Proof. rewrite sum_over_opp. ring. Qed.
Lemma sum_over_scale {A} k (l : list A) f : sum_over l (fun a => k * f a) = k * sum_over l f.
Proof. apply rsum_map_scale. Qed.

(** Each point is counted once. *)
Lemma sum_materials_total M (l : list Z) (f : P -> R) :
  NoDup l -> (forall p, In p (q_cells M) -> In (q_volume M p) l) ->
  sum_over l (fun z => total_in M z f) = total M f.
Proof.
  intros Hnd Hc. unfold total_in. rewrite sum_ids_wsum. unfold total. apply wsum_ext. intros p Hp.
  rewrite rsum_count_one; [ring|exact Hnd|auto].
Qed.

(** Loops. *)
Lemma sum_forms_ok {A} (f : A -> res (form P)) l F :
  sum_forms f l = Ok F -> forall a, In a l -> exists G, f a = Ok G.
Proof.
  revert F. induction l as [|x l IH]; intros F; cbn [sum_forms]; [intros _ a []|].
  destruct (f x) as [G|e] eqn:E; cbn [bind]; [|discriminate].
  destruct (sum_forms f l) as [H|e]; cbn [bind]; [|discriminate].
  intros _ a [->|Ha]; eauto.
Qed.
Lemma sum_forms_assemble {A} M (f : A -> res (form P)) (g : A -> R) l F :
  sum_forms f l = Ok F -> (forall a G, In a l -> f a = Ok G -> assemble M G = g a) ->
  assemble M F = sum_over l g.
Proof.
  revert F. induction l as [|x l IH]; intros F; cbn [sum_forms].
  - intros H _. apply Ok_inj in H. now subst.
  - destruct (f x) as [G|e] eqn:E; cbn [bind]; [|discriminate].
    destruct (sum_forms f l) as [H|e] eqn:E'; cbn [bind]; [|discriminate].
    intros Hf Hg. apply Ok_inj in Hf. subst F. rewrite assemble_app, sum_over_cons.
    rewrite (Hg x G); [|now left|exact E]. rewrite (IH H); [reflexivity|reflexivity|].
    intros a K Ha. apply Hg. now right.
Qed.
Lemma sum_forms_enum_rel {A} M (f g : nat -> A -> res (form P)) i l F G :
  sum_forms_enum f i l = Ok F -> sum_forms_enum g i l = Ok G ->
  (forall j a K L, In a l -> f j a = Ok K -> g j a = Ok L -> assemble M K = assemble M L) ->
  assemble M F = assemble M G.
Proof.
  revert i F G. induction l as [|x l IH]; intros i F G; cbn [sum_forms_enum].
  - intros H H' _. apply Ok_inj in H, H'. now subst.
  - destruct (f i x) as [K|e] eqn:E; cbn [bind]; [|discriminate].
    destruct (sum_forms_enum f (S i) l) as [H|e] eqn:E'; cbn [bind]; [|discriminate].
    destruct (g i x) as [K'|e] eqn:D; cbn [bind]; [|discriminate].
    destruct (sum_forms_enum g (S i) l) as [H'|e] eqn:D'; cbn [bind]; [|discriminate].
    intros Hf Hg Hr. apply Ok_inj in Hf, Hg. subst F G. rewrite !assemble_app.
    rewrite (Hr i x K K'); [|now left|exact E|exact D].
    rewrite (IH _ _ _ E' D'); [reflexivity|]. intros j a K0 L Ha. apply Hr. now right.
Qed.

(** Diffusion and Soret terms vanish on the volume element. *)
Lemma weight_cyl M v : q_type M = Cylindrical -> is_weight M v ->
  forall p, q_x0 M p <> 0 -> forall i, grd (ddiv (v p) (dcoord0 (q_x0 M p))) i = 0.
Proof.
  intros Hty Hv p Hr i. destruct (Hv p) as [Hval Hgrd]. specialize (Hgrd i).
  unfold weight in Hval. rewrite Hty in Hval, Hgrd. cbn [ddiv grd dcoord0 val].
  rewrite Hval, Hgrd. destruct i; field; exact Hr.
Qed.
Lemma weight_sph M v : q_type M = Spherical -> is_weight M v ->
  forall p, q_x0 M p <> 0 ->
  forall i, grd (ddiv (ddiv (v p) (dcoord0 (q_x0 M p))) (dcoord0 (q_x0 M p))) i = 0.
Proof.
  intros Hty Hv p Hr i. destruct (Hv p) as [Hval Hgrd]. specialize (Hgrd i).
  unfold weight in Hval. rewrite Hty in Hval, Hgrd. cbn [ddiv grd dcoord0 val].
  rewrite Hval, Hgrd. destruct i; field; exact Hr.
Qed.
Lemma weight_cart M v : q_type M = Cartesian -> is_weight M v -> forall p i, grd (v p) i = 0.
Proof.
  intros Hty Hv p i. destruct (Hv p) as [_ Hgrd]. specialize (Hgrd i). now rewrite Hty in Hgrd.
Qed.

Lemma diffusion_terms_weight M soret D0 ED Q c0 c0n v T dt z :
  is_weight M v -> off_axis M ->
  assemble M (diffusion_terms M soret D0 ED Q c0 c0n v T dt z)
  = match dt with
    | Some dt => total_in M z (fun p => (val (c0 p) - val (c0n p)) / dt)
    | None => 0
    end.
Proof.
  intros Hv Hr. unfold diffusion_terms. cbv zeta. rewrite assemble_app.
  match goal with |- _ + assemble M ?G = _ => assert (Hz : assemble M G = 0) end.
  { destruct (q_type M) eqn:Hty.
    - assert (Hg := weight_cart M v Hty Hv). rewrite assemble_cons. cbn [fst snd].
      rewrite integral_zero by (intros p Hp; apply dot_zero; intros i _; right; apply Hg).
      destruct soret; rewrite ?assemble_cons, ?assemble_nil; cbn [fst snd]; [|lra].
      rewrite integral_zero by (intros p Hp; apply dot_zero; intros i _; right; apply Hg). lra.
    - assert (Hg := weight_cyl M v Hty Hv).
      assert (Hr' : forall p, In p (points M (Dx z)) -> q_x0 M p <> 0).
      { intros p Hp. apply in_points_cells in Hp. destruct Hr as [Hr|Hr]; [congruence|]. apply Hr. tauto. }
      rewrite assemble_cons. cbn [fst snd].
      rewrite integral_zero
        by (intros p Hp; rewrite dot_zero; [ring|]; intros i _; right; apply Hg; auto).
      destruct soret; rewrite ?assemble_cons, ?assemble_nil; cbn [fst snd]; [|lra].
      rewrite integral_zero
        by (intros p Hp; rewrite dot_zero; [ring|]; intros i _; right; apply Hg; auto). lra.
    - assert (Hg := weight_sph M v Hty Hv).
      assert (Hr' : forall p, In p (points M (Dx z)) -> q_x0 M p <> 0).
      { intros p Hp. apply in_points_cells in Hp. destruct Hr as [Hr|Hr]; [congruence|]. apply Hr. tauto. }
      rewrite assemble_cons. cbn [fst snd].
      rewrite integral_zero
        by (intros p Hp; rewrite dot_zero; [ring|]; intros i _; right; apply Hg; auto).
      destruct soret; rewrite ?assemble_cons, ?assemble_nil; cbn [fst snd]; [|lra].
      rewrite integral_zero
        by (intros p Hp; rewrite dot_zero; [ring|]; intros i _; right; apply Hg; auto). lra. }
  rewrite Hz. destruct dt as [dt|]; rewrite ?assemble_cons, ?assemble_nil; cbn [fst snd]; [|lra].
  rewrite (total_in_integral M z (fun p => (val (c0 p) - val (c0n p)) / dt) (fun p => val (v p))); [lra|].
  intros p _. apply (Hv p).
Qed.

(** The concentration of the equations is the one of the specification. *)
Lemma get_concentration_val M mb T ms c cn m f fn p :
  concentrations M mb T ms c cn -> positive_temperature M T ->
  get_concentration mb (attrs m) T = Ok (f, fn) ->
  In p (q_cells M) \/ In p (q_facets M) -> In m ms -> In (q_volume M p) (ids (m_id (attrs m))) ->
  val (f p) = c p /\ val (fn p) = cn p.
Proof.
  intros Hc HT Hg Hp Hm Hz. specialize (Hc p Hp m Hm Hz). destruct (HT p Hp) as [HT1 HT2].
  unfold get_concentration, check_concentration in Hg. unfold concentration_at in Hc.
  destruct (mb_class mb) as [|S_ ms'].
  - cbn [bind] in Hg. apply Ok_inj in Hg. injection Hg as <- <-. destruct Hc as [-> ->]. auto.
  - destruct Hc as [S0 [ES [HS [HE [-> ->]]]]]. rewrite HS, HE in Hg. cbn [float_of bind] in Hg.
    apply Ok_inj in Hg.
    assert (H1 := f_equal fst Hg). assert (H2 := f_equal snd Hg). cbn [fst snd] in H1, H2. clear Hg. subst f fn.
    destruct (theta_concentration_some (attrs m) (T_T T p) (T_Tn T p) (mb_solution mb p) (mb_previous mb p) S0 ES HS HE)
      as [u [un Hu]].
    rewrite Hu. cbn [or_zero fst snd].
    destruct (theta_concentration_val _ _ _ _ _ _ _ HT1 HT2 Hu) as [S0' [ES' [HS' [HE' [-> ->]]]]].
    rewrite HS in HS'. rewrite HE in HE'. injection HS' as <-. injection HE' as <-. auto.
Qed.

Lemma mobile_concentration_val M mb T ms c cn p :
  covered M ms -> concentrations M mb T ms c cn -> solubility_field M mb T ms ->
  In p (q_cells M) \/ In p (q_facets M) ->
  mobile_concentration M mb p = c p.
Proof.
  intros [Hnd Hcov] Hc HS Hp.
  specialize (Hcov p Hp). unfold BalanceSpec.all_ids in Hcov. apply in_flat_map in Hcov.
  destruct Hcov as [m [Hm Hz]]. specialize (Hc p Hp m Hm Hz). unfold concentration_at in Hc.
  unfold mobile_concentration. unfold solubility_field in HS.
  destruct (mb_class mb) as [|S_ ms'].
  - symmetry. tauto.
  - destruct HS as [-> HS]. destruct (HS p Hp m Hm Hz) as [S0 [ES [H0 [HE HSp]]]].
    destruct Hc as [S0' [ES' [H0' [HE' [-> _]]]]]. rewrite H0 in H0'. rewrite HE in HE'.
    injection H0' as <-. injection HE' as <-.
    rewrite (mobile_concentration_owner (map attrs ms) (attrs m)).
    + now rewrite HSp.
    + unfold all_ids. rewrite flat_map_concat_map, map_map, <- flat_map_concat_map. exact Hnd.
    + now apply in_map.
    + exact Hz.
Qed.

(** mobile.py: terms of the materials. *)
Lemma material_forms M mb T ms c cn dt soret F :
  covered M ms -> concentrations M mb T ms c cn -> positive_temperature M T ->
  is_weight M (mb_test mb) -> off_axis M ->
  sum_forms (material_form M mb T dt soret) ms = Ok F ->
  assemble M F = match dt with Some dt => (total M c - total M cn) / dt | None => 0 end.
Proof.
  intros [Hnd Hcov] Hc HT Hv Hr HF.
  rewrite (sum_forms_assemble M (material_form M mb T dt soret)
             (fun m => sum_over (ids (m_id (attrs m)))
                 (fun z => match dt with
                           | Some dt => total_in M z (fun p => (c p - cn p) / dt)
                           | None => 0
                           end)) ms F HF).
  - destruct dt as [dt|].
    + rewrite <- sum_over_flat_map. fold (BalanceSpec.all_ids ms).
      rewrite sum_materials_total; [|exact Hnd|auto]. unfold total. apply wsum_rate.
    + apply rsum_map_zero. intros m _. apply rsum_map_zero. auto.
  - intros m G Hm. unfold material_form.
    destruct (get_concentration mb (attrs m) T) as [[f fn]|e] eqn:Hg; cbn [bind]; [|discriminate].
    destruct (float_of (Some (m_D0 (attrs m)))) as [D0|e]; cbn [bind]; [|discriminate].
    destruct (float_of (Some (m_ED (attrs m)))) as [ED|e]; cbn [bind]; [|discriminate].
    destruct (if soret then value_at (m_Q (attrs m)) else Ok (fun _ => 0)) as [Q|e]; cbn [bind]; [|discriminate].
    intros HG. apply Ok_inj in HG. subst G. rewrite assemble_flat_map. apply sum_over_ext. intros z Hz.
    rewrite diffusion_terms_weight by assumption. destruct dt as [dt|]; [|reflexivity].
    cbn [fst snd]. apply wsum_ext. intros p Hp. apply filter_In in Hp. destruct Hp as [Hp E].
    apply Z.eqb_eq in E. subst z.
    destruct (get_concentration_val M mb T ms c cn m f fn p Hc HT Hg (or_introl Hp) Hm Hz) as [-> ->].
    reflexivity.
Qed.

(** What a trap gains the mobile species loses. *)
Lemma trapping_cancel M mb T t i m K L :
  (forall p, In p (q_cells M) -> val (t_test t p) = val (mb_test mb p)) ->
  mobile_trapping_terms mb T t i m = Ok K -> trapping_terms mb T t i m = Ok L ->
  assemble M K = assemble M L.
Proof.
  intros Ht. unfold mobile_trapping_terms, trapping_terms.
  match goal with |- bind ?x _ = _ -> _ => destruct x as [[[[[k_0 E_k] p_0] E_p] n]|e] end;
    cbn [bind]; [|discriminate].
  destruct (get_concentration mb (attrs m) T) as [[f fn]|e]; cbn [bind]; [|discriminate].
  destruct (dx_id (m_id (attrs m))) as [z|e]; cbn [bind]; [|discriminate].
  intros HK. apply Ok_inj in HK. subst K.
  match goal with |- bind ?x _ = _ -> _ => destruct x as [[]|e] end; cbn [bind]; [|discriminate].
  intros HL. apply Ok_inj in HL. subst L.
  rewrite !assemble_cons, assemble_nil. cbn [fst snd]. f_equal; [|f_equal];
    apply integral_ext; intros p Hp; apply in_points_cells in Hp; rewrite Ht by tauto; reflexivity.
Qed.

Lemma trap_forms M mb T ms dt t F G :
  (forall p, In p (q_cells M) -> val (t_test t p) = weight M p) ->
  (forall p, In p (q_cells M) -> val (mb_test mb p) = weight M p) ->
  sum_forms_enum (mobile_trapping_terms mb T t) 0 (t_materials t) = Ok F ->
  trap_create_form mb ms T (Some dt) t = Ok G ->
  assemble M G = assemble M F + (total M (fun p => val (t_solution t p)) - total M (fun p => val (t_previous t p))) / dt
                 - sum_over (t_sources t) (source_rate M (fun p => val (t_solution t p))).
Proof.
  intros Ht Hv HF. unfold trap_create_form, create_trapping_form. cbn [bind].
  destruct (sum_forms_enum (trapping_terms mb T t) 0 (t_materials t)) as [F1|e] eqn:HF1; cbn [bind]; [|discriminate].
  destruct (sum_forms (trap_source_terms t) (t_sources t)) as [G1|e] eqn:HG1; cbn [bind]; [|discriminate].
  intros HG. apply Ok_inj in HG. subst G. rewrite !assemble_app, assemble_cons, assemble_nil. cbn [fst snd].
  rewrite (total_integral M (fun p => (val (t_solution t p) - val (t_previous t p)) / dt)) by exact Ht.
  unfold total at 1. rewrite wsum_rate.
  rewrite <- (sum_forms_enum_rel M _ _ _ _ _ _ HF HF1).
  2:{ intros j m K L _ HK HL. apply (trapping_cancel M mb T t j m K L); [|exact HK|exact HL].
      intros p Hp. rewrite Ht, Hv by exact Hp. reflexivity. }
  rewrite (sum_forms_assemble M (trap_source_terms t)
             (fun s => - source_rate M (fun p => val (t_solution t p)) s) _ _ HG1).
  - rewrite sum_over_opp. unfold total. ring.
  - intros s H Hs. unfold trap_source_terms, source_rate.
    destruct (s_volume s) as [z|l]; cbn [dx_id bind]; [|discriminate].
    intros HH. apply Ok_inj in HH. subst H. rewrite assemble_cons, assemble_nil. cbn [fst snd ids].
    rewrite sum_over_cons. unfold sum_over. cbn [map]. rewrite rsum_nil.
    rewrite (total_in_integral M z (fun p => - match s_decay s with
                | Some l => fun p0 => decay_form l (val (t_solution t p0)) | None => s_value s end p)) by exact Ht.
    unfold total_in. rewrite wsum_opp. rewrite !Rplus_0_r. f_equal. apply wsum_ext. intros p _.
    destruct (s_decay s); [unfold decay_form; ring|reflexivity].
Qed.

(** Sources and fluxes of the mobile species. *)
Lemma mobile_sources M mb c :
  (forall p, In p (q_cells M) -> val (mb_test mb p) = weight M p) ->
  (forall p, In p (q_cells M) -> mobile_concentration M mb p = c p) ->
  assemble M (create_mobile_source_form M mb) = - sum_over (mb_sources mb) (source_rate M c).
Proof.
  intros Hv Hc. unfold create_mobile_source_form. rewrite assemble_flat_map, <- sum_over_opp.
  apply sum_over_ext. intros s _. unfold mobile_source_terms, source_rate. cbv zeta.
  rewrite assemble_map. cbn [fst snd]. rewrite <- sum_over_opp. apply sum_over_ext. intros z _.
  rewrite (total_in_integral M z (fun p => - match s_decay s with
              | Some l => fun p0 => decay_form l (mobile_concentration M mb p0) | None => s_value s end p)) by exact Hv.
  unfold total_in. rewrite wsum_opp. f_equal. apply wsum_ext. intros p Hp. apply filter_In in Hp.
  destruct (s_decay s); [|reflexivity]. unfold decay_form. rewrite Hc by tauto. ring.
Qed.

Lemma flux_form_into (f : flux P) (T : field P) (c s : P -> R) p :
  0 < val (T p) -> s p = c p -> flux_form f T s p = flux_into f (val (T p)) (c p) p.
Proof.
  intros HT Hs. destruct f; cbn [flux_form flux_into]; unfold recombination_form, dissociation_form,
    mass_form, convective_form; rewrite ?arrhenius_model, ?Hs by exact HT; try ring; reflexivity.
Qed.

Lemma flux_forms M mb T dt c :
  is_weight M (mb_test mb) -> positive_temperature M T ->
  (forall p, In p (q_facets M) -> mobile_concentration M mb p = c p) ->
  (forall s a, In (BSurf s) (mb_bcs mb) -> In a (sk_adsorbed s) ->
   forall p, In p (q_facets M) -> q_surface M p = a_surface a -> val (a_test a p) = weight M p) ->
  assemble M (create_fluxes_form M mb T dt)
  = match dt with
    | Some dt => sum_over (mb_bcs mb) (surface_rate M dt c (fun p => val (mb_previous mb p)))
    | None => 0
    end - sum_over (mb_bcs mb) (flux_rate M T c).
Proof.
  intros Hv HT Hc Ha. unfold create_fluxes_form. rewrite assemble_flat_map.
  assert (Hb : forall b, In b (mb_bcs mb) ->
     assemble M (flux_terms M mb T dt b)
     = match dt with
       | Some dt => surface_rate M dt c (fun p => val (mb_previous mb p)) b
       | None => 0
       end - flux_rate M T c b).
  2:{ rewrite (sum_over_ext _ _ _ Hb). destruct dt as [dt|].
      - rewrite sum_over_minus. reflexivity.
      - rewrite sum_over_zero_minus. apply sum_over_ext. intros; ring. }
  intros b Hin. destruct b as [[|] surfaces f|s]; cbn [flux_terms surface_rate flux_rate].
  - rewrite assemble_nil. destruct dt; ring.
  - rewrite assemble_map. cbn [fst snd].
    rewrite (sum_over_ext _ _ (fun z => - total_on M z (fun p => flux_into f (val (T_T T p)) (c p) p))).
    + rewrite sum_over_opp. destruct dt; ring.
    + intros z _. rewrite <- (total_on_integral M z _ (fun p => val (mb_test mb p))) by (intros p _; apply (Hv p)).
      rewrite <- integral_opp. apply integral_ext. intros p Hp. apply in_points_facets in Hp.
      rewrite (flux_form_into f (T_T T) c); [ring| |apply Hc; tauto]. apply HT. tauto.
  - rewrite assemble_flat_map. specialize (Ha s).
    assert (Hs : forall a, In a (sk_adsorbed s) ->
      assemble M (surface_kinetics_terms s (mobile_concentration M mb) (fun p => val (mb_previous mb p))
                    (mb_test mb) (T_T T) dt a)
      = match dt with
        | Some dt => total_on M (a_surface a) (fun p => (val (a_solution a p) - val (a_previous a p)) / dt
                       + sk_lambda_IS s * (c p - val (mb_previous mb p)) / dt)
        | None => 0
        end - total_on M (a_surface a) (fun p => sk_J_vs s (val (T_T T p)) (val (a_solution a p)) (c p) p)).
    + intros a Hin'. specialize (Ha a Hin Hin'). unfold surface_kinetics_terms. cbv zeta.
      assert (Hat : forall g, integral M (Ds (a_surface a)) (fun p => g p * val (a_test a p)) = total_on M (a_surface a) g).
      { intros g. unfold integral, total_on, wsum. apply rsum_map_ext. intros p Hp.
        apply in_points_facets in Hp. rewrite Ha by tauto. ring. }
      assert (Hmt : forall g, integral M (Ds (a_surface a)) (fun p => g p * val (mb_test mb p)) = total_on M (a_surface a) g).
      { intros g. apply total_on_integral. intros p _. apply (Hv p). }
      rewrite assemble_app, !assemble_cons, assemble_nil. cbn [fst snd].
      rewrite (Hat (fun p => - _)). rewrite (Hmt (fun p => _ - _)).
      destruct dt as [dt|].
      * rewrite !assemble_cons, assemble_nil. cbn [fst snd].
        rewrite (Hat (fun p => _ / dt)), (Hmt (fun p => _ / dt)).
        unfold total_on. rewrite wsum_minus, !Rplus_0_r, <- !wsum_plus.
        apply wsum_ext. intros p Hp. apply filter_In in Hp. rewrite Hc by tauto. unfold Rdiv. ring.
      * rewrite assemble_nil. unfold total_on. rewrite wsum_zero_minus, Rplus_0_l, Rplus_0_r, <- wsum_plus.
        apply wsum_ext. intros p Hp. apply filter_In in Hp. rewrite Hc by tauto. ring.
    + rewrite (sum_over_ext _ _ _ Hs). destruct dt as [dt|].
      * now rewrite sum_over_minus.
      * rewrite sum_over_zero_minus. apply sum_over_ext. intros; ring.
Qed.

(** Trap equations in steady state. *)
Lemma trap_forms_steady M mb T ms t F G :
  (forall p, In p (q_cells M) -> val (t_test t p) = weight M p) ->
  (forall p, In p (q_cells M) -> val (mb_test mb p) = weight M p) ->
  sum_forms_enum (mobile_trapping_terms mb T t) 0 (t_materials t) = Ok F ->
  trap_create_form mb ms T None t = Ok G ->
  assemble M G = assemble M F + outside M ms t
                 - sum_over (t_sources t) (source_rate M (fun p => val (t_solution t p))).
Proof.
  intros Ht Hv HF. unfold trap_create_form, create_trapping_form.
  match goal with |- bind (bind ?x _) _ = _ -> _ => destruct x as [F0|e] eqn:HF0 end;
    cbn [bind]; [|discriminate].
  destruct (sum_forms_enum (trapping_terms mb T t) 0 (t_materials t)) as [F1|e] eqn:HF1; cbn [bind]; [|discriminate].
  destruct (sum_forms (trap_source_terms t) (t_sources t)) as [G1|e] eqn:HG1; cbn [bind]; [|discriminate].
  intros HG. apply Ok_inj in HG. subst G. rewrite !assemble_app.
  rewrite <- (sum_forms_enum_rel M _ _ _ _ _ _ HF HF1).
  2:{ intros j m K L _ HK HL. apply (trapping_cancel M mb T t j m K L); [|exact HK|exact HL].
      intros p Hp. rewrite Ht, Hv by exact Hp. reflexivity. }
  rewrite (sum_forms_assemble M (trap_source_terms t)
             (fun s => - source_rate M (fun p => val (t_solution t p)) s) _ _ HG1).
  2:{ intros s H Hs. unfold trap_source_terms, source_rate.
      destruct (s_volume s) as [z|l]; cbn [dx_id bind]; [|discriminate].
      intros HH. apply Ok_inj in HH. subst H. rewrite assemble_cons, assemble_nil. cbn [fst snd ids].
      rewrite sum_over_cons. unfold sum_over. cbn [map]. rewrite rsum_nil.
      rewrite (total_in_integral M z (fun p => - match s_decay s with
                  | Some l => fun p0 => decay_form l (val (t_solution t p0)) | None => s_value s end p)) by exact Ht.
      unfold total_in. rewrite wsum_opp. rewrite !Rplus_0_r. f_equal. apply wsum_ext. intros p _.
      destruct (s_decay s); [unfold decay_form; ring|reflexivity]. }
  rewrite (sum_forms_assemble M _
             (fun m => if mat_in m (t_materials t) then 0
                       else sum_over (ids (m_id (attrs m))) (fun z => total_in M z (fun p => val (t_solution t p))))
             _ _ HF0).
  - rewrite sum_over_opp. unfold outside.
    assert (E : forall l f, sum_over (filter (fun m => negb (mat_in m (t_materials t))) l) f
                = sum_over l (fun m => if mat_in m (t_materials t) then 0 else f m)).
    { intros l f. induction l as [|m l IH]; [reflexivity|]. cbn [filter]. rewrite sum_over_cons.
      destruct (mat_in m (t_materials t)); cbn [negb]; rewrite ?sum_over_cons, IH; ring. }
    rewrite E. ring.
  - intros m H Hm. destruct (mat_in m (t_materials t)).
    + intros HH. apply Ok_inj in HH. now subst H.
    + destruct (m_id (attrs m)) as [z|l]; cbn [dx_id bind]; [|discriminate].
      intros HH. apply Ok_inj in HH. subst H. rewrite assemble_cons, assemble_nil. cbn [fst snd ids].
      rewrite sum_over_cons. unfold sum_over. cbn [map]. rewrite rsum_nil.
      rewrite (total_in_integral M z (fun p => val (t_solution t p))) by exact Ht. reflexivity.
Qed.

(** Both loops over the traps. *)
Lemma sum_forms_both {A} M (f g : A -> res (form P)) (h : A -> R) l F G :
  sum_forms f l = Ok F -> sum_forms g l = Ok G ->
  (forall a K L, In a l -> f a = Ok K -> g a = Ok L -> assemble M L = assemble M K + h a) ->
  assemble M G = assemble M F + sum_over l h.
Proof.
  revert F G. induction l as [|x l IH]; intros F G; cbn [sum_forms].
  - intros H H' _. apply Ok_inj in H, H'. subst. rewrite assemble_nil. unfold sum_over. cbn [map]. rewrite rsum_nil. ring.
  - destruct (f x) as [K|e] eqn:E; cbn [bind]; [|discriminate].
    destruct (sum_forms f l) as [H|e] eqn:E'; cbn [bind]; [|discriminate].
    destruct (g x) as [K'|e] eqn:D; cbn [bind]; [|discriminate].
    destruct (sum_forms g l) as [H'|e] eqn:D'; cbn [bind]; [|discriminate].
    intros Hf Hg Hr. apply Ok_inj in Hf, Hg. subst F G. rewrite !assemble_app, sum_over_cons.
    rewrite (Hr x K K'); [|now left|exact E|exact D].
    rewrite (IH _ _ eq_refl eq_refl); [ring|]. intros a K0 L Ha. apply Hr. now right.
Qed.

Lemma balance M mb ms T dt traps soret c c_n F :
  covered M ms -> concentrations M mb T ms c c_n -> solubility_field M mb T ms ->
  positive_temperature M T -> tests M mb traps -> off_axis M ->
  define_variational_problem M mb ms T dt traps soret = Ok F ->
  assemble M F
  = match dt with
    | Some dt => (inventory M c traps - inventory_before M c_n traps) / dt
                 + sum_over (mb_bcs mb) (surface_rate M dt c (fun p => val (mb_previous mb p)))
    | None => sum_over traps (outside M ms)
    end - supply M T c mb traps.
Proof.
  intros Hcov Hc HS HT [Hv [Ht Ha]] Hr. unfold define_variational_problem, mobile_create_form, create_diffusion_form.
  destruct (sum_forms (material_form M mb T dt soret) ms) as [F1|e] eqn:HF1; cbn [bind]; [|discriminate].
  match goal with |- bind (bind (bind ?x _) _) _ = _ -> _ => destruct x as [F2|e] eqn:HF2 end; cbn [bind]; [|discriminate].
  destruct (sum_forms (trap_create_form mb ms T dt) traps) as [G|e] eqn:HG; cbn [bind]; [|discriminate].
  intros HF. apply Ok_inj in HF. subst F. rewrite !assemble_app, assemble_neg.
  assert (Hv' : forall p, In p (q_cells M) -> val (mb_test mb p) = weight M p) by (intros p _; apply (Hv p)).
  rewrite (material_forms M mb T ms c c_n dt soret F1) by assumption.
  rewrite (mobile_sources M mb c Hv') by (intros p Hp; apply (mobile_concentration_val M mb T ms c c_n); auto).
  rewrite (flux_forms M mb T dt c Hv HT); [| |exact Ha].
  2:{ intros p Hp; apply (mobile_concentration_val M mb T ms c c_n); auto. }
  assert (HGt : assemble M G = assemble M F2 + sum_over traps (fun t =>
     match dt with
     | Some dt => (total M (fun p => val (t_solution t p)) - total M (fun p => val (t_previous t p))) / dt
     | None => outside M ms t
     end - sum_over (t_sources t) (source_rate M (fun p => val (t_solution t p))))).
  { apply (sum_forms_both M _ _ _ traps F2 G HF2 HG). intros t K L Hin HK HL.
    destruct dt as [dt|].
    - rewrite (trap_forms M mb T ms dt t K L); [ring|auto|auto|exact HK|exact HL].
    - rewrite (trap_forms_steady M mb T ms t K L); [ring|auto|auto|exact HK|exact HL]. }
  rewrite HGt, <- sum_over_minus. unfold supply, inventory, inventory_before.
  destruct dt as [dt|].
  2:{ change (fun t : trap P => outside M ms t) with (outside M ms). unfold Rminus. ring. }
  rewrite (sum_over_ext traps (fun t => (total M (fun p => val (t_solution t p)) - total M (fun p => val (t_previous t p))) / dt)
    (fun t => / dt * (total M (fun p => val (t_solution t p)) - total M (fun p => val (t_previous t p)))))
    by (intros; unfold Rdiv; ring).
  rewrite sum_over_scale, <- sum_over_minus. unfold Rdiv. ring.
Qed.
End Forms.

Lemma chained_inventory {P} (M : mesh P) ms soret a b :
  covered M ms -> solved M ms soret a -> solved M ms soret b -> chained a b ->
  inventory_before M (st_cn b) (st_traps b) = inventory M (st_c a) (st_traps a).
Proof.
  intros [Hnd Hcov] [Ha _] [Hb _] [Hcl [Hu [HTn Htr]]]. unfold inventory, inventory_before. f_equal.
  - apply wsum_ext. intros p Hp. specialize (Hcov p (or_introl Hp)). apply in_flat_map in Hcov.
    destruct Hcov as [m [Hm Hz]].
    specialize (Ha p (or_introl Hp) m Hm Hz). specialize (Hb p (or_introl Hp) m Hm Hz).
    unfold concentration_at in *. destruct (mb_class (st_mb a)) as [|Sa msa], (mb_class (st_mb b)) as [|Sb msb]; cbn [same_class] in Hcl; try easy.
    + destruct Ha as [-> _], Hb as [_ ->]. apply Hu.
    + destruct Ha as [S0 [ES [H0 [HE [-> _]]]]], Hb as [S0' [ES' [H0' [HE' [_ ->]]]]].
      rewrite H0 in H0'. rewrite HE in HE'. injection H0' as <-. injection HE' as <-. now rewrite Hu, HTn.
  - induction Htr as [|t u la lb Htu Htr IH]; [reflexivity|]. rewrite !sum_over_cons, IH. f_equal.
    apply wsum_ext. auto.
Qed.
