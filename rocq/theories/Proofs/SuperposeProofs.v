(** Linearity of the residuals (C86). *)
From Coq Require Import Reals ZArith List Bool Lra Lia.
From Verif Require Import Base.Exc Base.Dual Model.Materials Model.Laws Model.Theta Model.Forms Model.NonlinearProblem
  Spec.BalanceSpec Spec.SuperposeSpec Proofs.ThetaProofs Proofs.FormProofs Proofs.MergeProofs.
Import ListNotations.
Local Open Scope R_scope.
Local Open Scope list_scope.

Section Superpose.
Context {P : Type}.
Variables (M : mesh P) (a b : R).

Lemma integral_mix m (e1 e2 e : P -> R) :
  (forall p, In p (points M m) -> e p = a * e1 p + b * e2 p) -> integral M m e = a * integral M m e1 + b * integral M m e2.
Proof.
  intros H. rewrite (integral_ext M m e (fun p => a * e1 p + b * e2 p) H), integral_plus, !integral_scale. reflexivity.
Qed.
Lemma dot_mix d (f1 f2 f g : nat -> R) :
  (forall i, f i = a * f1 i + b * f2 i) -> dot d f g = a * dot d f1 g + b * dot d f2 g.
Proof.
  intros H. unfold dot. rewrite <- !rsum_map_scale, <- rsum_map_plus. apply rsum_map_ext. intros i _. rewrite H. ring.
Qed.
Lemma sum_over_mix {A} (l : list A) f1 f2 f :
  (forall x, In x l -> f x = a * f1 x + b * f2 x) -> sum_over l f = a * sum_over l f1 + b * sum_over l f2.
Proof. intros H. rewrite (sum_over_ext l f (fun x => a * f1 x + b * f2 x) H), sum_over_plus, !sum_over_scale. reflexivity. Qed.
Lemma flat_map_mix {A} (f : A -> form P) (f1 f2 : A -> form P) l1 l2 l (Rel : A -> A -> A -> Prop) :
  Forall3 Rel l1 l2 l -> (forall x y z, Rel x y z -> assemble M (f z) = a * assemble M (f1 x) + b * assemble M (f2 y)) ->
  assemble M (flat_map f l) = a * assemble M (flat_map f1 l1) + b * assemble M (flat_map f2 l2).
Proof.
  intros H Hf. induction H as [|x y z k1 k2 k Hx H IH]; cbn [flat_map]; rewrite ?assemble_nil, ?assemble_app; [ring|].
  rewrite IH, (Hf x y z Hx). ring.
Qed.
Lemma sum_forms_mix {A} (f f1 f2 : A -> res (form P)) l : forall F1 F2,
  sum_forms f1 l = Ok F1 -> sum_forms f2 l = Ok F2 ->
  (forall x K1 K2, In x l -> f1 x = Ok K1 -> f2 x = Ok K2 -> exists K, f x = Ok K /\ assemble M K = a * assemble M K1 + b * assemble M K2) ->
  exists F, sum_forms f l = Ok F /\ assemble M F = a * assemble M F1 + b * assemble M F2.
Proof.
  induction l as [|x l IH]; intros F1 F2; cbn [sum_forms].
  - intros H1 H2 _. apply Ok_inj in H1, H2. subst. exists []. split; [reflexivity|]. rewrite assemble_nil. ring.
  - destruct (f1 x) as [K1|e] eqn:E1; cbn [bind]; [|discriminate]. destruct (sum_forms f1 l) as [G1|e] eqn:H1; cbn [bind]; [|discriminate].
    intros HF1. apply Ok_inj in HF1. subst F1.
    destruct (f2 x) as [K2|e] eqn:E2; cbn [bind]; [|discriminate]. destruct (sum_forms f2 l) as [G2|e] eqn:H2; cbn [bind]; [|discriminate].
    intros HF2 Hf. apply Ok_inj in HF2. subst F2.
    destruct (Hf x K1 K2 (or_introl eq_refl) E1 E2) as (K & -> & HK).
    destruct (IH G1 G2 eq_refl eq_refl) as (G & -> & HG). { intros y L1 L2 Hy. apply Hf. now right. }
    cbn [bind]. eexists. split; [reflexivity|]. rewrite !assemble_app, HK, HG. ring.
Qed.

Lemma diffusion_mix soret D0 ED Q (c1 c2 c n1 n2 n v T : field P) dt z :
  mix a b c1 c2 c -> mix a b n1 n2 n ->
  assemble M (diffusion_terms M soret D0 ED Q c n v T dt z)
  = a * assemble M (diffusion_terms M soret D0 ED Q c1 n1 v T dt z) + b * assemble M (diffusion_terms M soret D0 ED Q c2 n2 v T dt z).
Proof.
  intros Hc Hn. unfold diffusion_terms. cbv zeta. rewrite !assemble_app.
  match goal with |- ?x + ?y = a * (?x1 + ?y1) + b * (?x2 + ?y2) =>
    assert (E1 : x = a * x1 + b * x2); [|assert (E2 : y = a * y1 + b * y2); [|rewrite E1, E2; ring]] end.
  - destruct dt as [dt|]; rewrite ?assemble_cons, ?assemble_nil; cbn [fst snd]; [|ring].
    rewrite (integral_mix (Dx z) (fun p => (val (c1 p) - val (n1 p)) / dt * val (v p)) (fun p => (val (c2 p) - val (n2 p)) / dt * val (v p))); [ring|].
    intros p _. destruct (Hc p) as [-> _], (Hn p) as [-> _]. unfold Rdiv. ring.
  - assert (Hg : forall p k (g : nat -> R), dot (q_dim M) (fun i => k * grd (c p) i) g
       = a * dot (q_dim M) (fun i => k * grd (c1 p) i) g + b * dot (q_dim M) (fun i => k * grd (c2 p) i) g).
    { intros p k g. apply dot_mix. intros i. destruct (Hc p) as [_ ->]. ring. }
    assert (Hg1 : forall p (g : nat -> R), dot (q_dim M) (grd (c p)) g = a * dot (q_dim M) (grd (c1 p)) g + b * dot (q_dim M) (grd (c2 p)) g).
    { intros p g. apply dot_mix. intros i. now destruct (Hc p) as [_ ->]. }
    assert (Hs : forall p k l (t g : nat -> R), dot (q_dim M) (fun i => k * val (c p) / l * t i) g
       = a * dot (q_dim M) (fun i => k * val (c1 p) / l * t i) g + b * dot (q_dim M) (fun i => k * val (c2 p) / l * t i) g).
    { intros p k l t g. apply dot_mix. intros i. destruct (Hc p) as [-> _]. unfold Rdiv. ring. }
    destruct (q_type M), soret; rewrite !assemble_cons, !assemble_nil; cbn [fst snd].
    + rewrite (integral_mix _ _ _ _ (fun p _ => Hg p _ _)), (integral_mix _ _ _ _ (fun p _ => Hs p _ _ _ _)). ring.
    + rewrite (integral_mix _ _ _ _ (fun p _ => Hg p _ _)). ring.
    + rewrite (integral_mix (Dx z) (fun p => val (dcoord0 (q_x0 M p)) * dot (q_dim M) (fun i => D0 * exp (- ED / k_B / val (T p)) * grd (c1 p) i) (grd (ddiv (v p) (dcoord0 (q_x0 M p)))))
        (fun p => val (dcoord0 (q_x0 M p)) * dot (q_dim M) (fun i => D0 * exp (- ED / k_B / val (T p)) * grd (c2 p) i) (grd (ddiv (v p) (dcoord0 (q_x0 M p))))))
        by (intros p _; rewrite Hg; ring).
      match goal with |- _ + (integral M _ ?e + 0) = a * (_ + (integral M _ ?e1 + 0)) + b * (_ + (integral M _ ?e2 + 0)) =>
        rewrite (integral_mix (Dx z) e1 e2 e) by (intros p _; cbv beta; rewrite Hs; ring) end. ring.
    + match goal with |- integral M _ ?e + 0 = a * (integral M _ ?e1 + 0) + b * (integral M _ ?e2 + 0) =>
        rewrite (integral_mix (Dx z) e1 e2 e) by (intros p _; cbv beta; rewrite Hg; ring) end. ring.
    + match goal with |- integral M _ ?f + (integral M _ ?e + 0) = a * (integral M _ ?f1 + (integral M _ ?e1 + 0)) + b * (integral M _ ?f2 + (integral M _ ?e2 + 0)) =>
        rewrite (integral_mix (Dx z) e1 e2 e) by (intros p _; cbv beta; rewrite Hs; ring);
        rewrite (integral_mix (Dx z) f1 f2 f) by (intros p _; cbv beta; rewrite Hg1; ring) end. ring.
    + match goal with |- integral M _ ?e + 0 = a * (integral M _ ?e1 + 0) + b * (integral M _ ?e2 + 0) =>
        rewrite (integral_mix (Dx z) e1 e2 e) by (intros p _; cbv beta; rewrite Hg1; ring) end. ring.
Qed.

Lemma mix_dmul (u v w : field P) s : mix a b u v w -> mix a b (fun p => dmul (u p) (s p)) (fun p => dmul (v p) (s p)) (fun p => dmul (w p) (s p)).
Proof.
  intros H p. destruct (H p) as [Hv Hg]. cbn [dmul val grd]. split; [rewrite Hv; ring|]. intros i. rewrite Hv, Hg. ring.
Qed.
Variables (m1 m2 m : mobile P) (ms : list mat_obj) (T : temperature P).
Hypotheses (Hm : mix_problem a b m1 m2 m) (Hlin : linear_class (mb_class m) ms).

Lemma get_mix x f1 f2 : In x ms -> get_concentration m1 (attrs x) T = Ok f1 -> get_concentration m2 (attrs x) T = Ok f2 ->
  exists f, get_concentration m (attrs x) T = Ok f /\ mix a b (fst f1) (fst f2) (fst f) /\ mix a b (snd f1) (snd f2) (snd f).
Proof.
  intros Hx. destruct Hm as (C1 & C2 & _ & _ & Hs & Hp & _). unfold get_concentration, check_concentration. rewrite C1, C2.
  destruct (mb_class m) as [|S_ ms'].
  - cbn [bind]. intros H1 H2. apply Ok_inj in H1, H2. subst f1 f2. eexists. split; [reflexivity|]. split; assumption.
  - destruct (float_of (m_ES (attrs x))) as [ES|e] eqn:E1; cbn [bind]; [|discriminate].
    destruct (float_of (m_S0 (attrs x))) as [S0|e] eqn:E2; cbn [bind]; [|discriminate].
    intros H1 H2. apply Ok_inj in H1, H2. subst f1 f2. eexists. split; [reflexivity|].
    destruct Hlin as [Hl _]. unfold theta_concentration. rewrite E1, E2, (Hl x Hx). cbn [bind or_zero fst snd].
    split; [apply (mix_dmul _ _ _ (fun p => coefficient S0 ES (T_T T p)) Hs)|apply (mix_dmul _ _ _ (fun p => coefficient S0 ES (T_Tn T p)) Hp)].
Qed.
Lemma no_henry l z : (forall x, In x l -> m_law x = Sievert) -> law_marker Henry l z = 0.
Proof.
  unfold law_marker. induction l as [|x l IH]; intros H; [reflexivity|]. cbn [flat_map]. rewrite (H x (or_introl eq_refl)). cbn [law_eqb app].
  apply IH. intros y Hy. apply H. now right.
Qed.
Lemma solute_mix p : mobile_concentration M m p = a * mobile_concentration M m1 p + b * mobile_concentration M m2 p.
Proof.
  destruct Hm as (C1 & C2 & _ & _ & Hs & _). unfold mobile_concentration. rewrite C1, C2. destruct (Hs p) as [Hv _].
  destruct (mb_class m) as [|S_ ms']; [exact Hv|]. destruct Hlin as [_ Hl]. unfold theta_mobile_concentration.
  rewrite (no_henry ms' _ Hl), Hv. ring.
Qed.
Lemma material_mix dt soret x K1 K2 : In x ms -> material_form M m1 T dt soret x = Ok K1 -> material_form M m2 T dt soret x = Ok K2 ->
  exists K, material_form M m T dt soret x = Ok K /\ assemble M K = a * assemble M K1 + b * assemble M K2.
Proof.
  intros Hx. unfold material_form.
  destruct (get_concentration m1 (attrs x) T) as [f1|e] eqn:G1; cbn [bind]; [|discriminate].
  destruct (float_of (Some (m_D0 (attrs x)))) as [D0|e]; cbn [bind]; [|discriminate].
  destruct (float_of (Some (m_ED (attrs x)))) as [ED|e]; cbn [bind]; [|discriminate].
  match goal with |- bind ?q _ = _ -> _ => destruct q as [Q|e]; cbn [bind]; [|discriminate] end.
  intros H1. apply Ok_inj in H1. subst K1.
  destruct (get_concentration m2 (attrs x) T) as [f2|e] eqn:G2; cbn [bind]; [|discriminate].
  intros H2. apply Ok_inj in H2. subst K2.
  destruct (get_mix x f1 f2 Hx G1 G2) as (f & -> & Hf & Hn). cbn [bind]. eexists. split; [reflexivity|].
  rewrite !assemble_flat_map. apply sum_over_mix. intros z _.
  destruct Hm as (_ & _ & <- & <- & _). apply diffusion_mix; assumption.
Qed.
Lemma sources_mix : assemble M (create_mobile_source_form M m)
  = a * assemble M (create_mobile_source_form M m1) + b * assemble M (create_mobile_source_form M m2).
Proof.
  pose proof Hm as (_ & _ & T1 & T2 & _ & _ & Hs & _). unfold create_mobile_source_form.
  apply (flat_map_mix _ _ _ _ _ _ _ Hs). intros s t r (V1 & V2 & D1 & D2 & Hv). unfold mobile_source_terms.
  rewrite V1, V2, D1, D2, T1, T2, !assemble_map. apply sum_over_mix. intros z _. cbn [fst snd]. apply integral_mix. intros p _.
  destruct (s_decay s) as [l|]; [|rewrite Hv; ring]. unfold decay_form. rewrite solute_mix. ring.
Qed.
Lemma fluxes_mix dt : assemble M (create_fluxes_form M m T dt)
  = a * assemble M (create_fluxes_form M m1 T dt) + b * assemble M (create_fluxes_form M m2 T dt).
Proof.
  pose proof Hm as (_ & _ & T1 & T2 & _ & _ & _ & Hb). unfold create_fluxes_form.
  apply (flat_map_mix _ _ _ _ _ _ _ Hb). intros x y z [l f g h|l f g h Hf]; cbn [flux_terms]; [rewrite !assemble_nil; ring|].
  rewrite T1, T2, !assemble_map. apply sum_over_mix. intros s _. cbn [fst snd]. apply integral_mix. intros p _.
  destruct Hf; cbn [flux_form].
  - match goal with H : mix_data _ _ _ _ _ |- _ => rewrite H end. ring.
  - unfold recombination_form. cbn [power]. rewrite solute_mix. ring.
  - unfold dissociation_form. match goal with H : mix_data _ _ _ _ _ |- _ => rewrite H end. ring.
  - unfold mass_form. rewrite solute_mix. match goal with H : mix_data _ _ _ _ _ |- _ => rewrite H end. ring.
Qed.
Lemma problem_mix dt soret F1 F2 :
  define_variational_problem M m1 ms T dt [] soret = Ok F1 -> define_variational_problem M m2 ms T dt [] soret = Ok F2 ->
  exists F, define_variational_problem M m ms T dt [] soret = Ok F /\ assemble M F = a * assemble M F1 + b * assemble M F2.
Proof.
  unfold define_variational_problem, mobile_create_form, create_diffusion_form. cbn [sum_forms bind].
  destruct (sum_forms (material_form M m1 T dt soret) ms) as [G1|e] eqn:E1; cbn [bind]; [|discriminate].
  destruct (sum_forms (material_form M m2 T dt soret) ms) as [G2|e] eqn:E2; cbn [bind]; [|discriminate].
  intros H1 H2. apply Ok_inj in H1, H2. subst F1 F2.
  destruct (sum_forms_mix (material_form M m T dt soret) _ _ _ _ _ E1 E2 (fun x K1 K2 => material_mix dt soret x K1 K2)) as (G & -> & HG).
  cbn [bind]. eexists. split; [reflexivity|]. rewrite !assemble_app, !assemble_neg, !assemble_nil, HG, sources_mix, fluxes_mix. ring.
Qed.
End Superpose.

Section Heat.
Context {P : Type}.
Variables (M : mesh P) (a b : R).

Lemma heat_material_mix transient dt (T1 T2 T N1 N2 N v : field P) x K1 K2 :
  mix a b T1 T2 T -> mix a b N1 N2 N -> constant_thermal (attrs x) ->
  heat_material_form M transient dt T1 N1 v x = Ok K1 -> heat_material_form M transient dt T2 N2 v x = Ok K2 ->
  exists K, heat_material_form M transient dt T N v x = Ok K /\ assemble M K = a * assemble M K1 + b * assemble M K2.
Proof.
  intros HT HN ((k & Hk) & Hc & Hr). unfold heat_material_form. cbv zeta. rewrite Hk. cbn [value_at bind].
  destruct transient.
  - destruct (m_heat (attrs x)) as [[cp|f]|]; [|now destruct (Hc f)|discriminate]. cbn [value_at bind].
    destruct (m_rho (attrs x)) as [[rho|f]|]; [|now destruct (Hr f)|discriminate]. cbn [value_at bind].
    intros H1 H2. apply Ok_inj in H1, H2. subst K1 K2. eexists. split; [reflexivity|]. rewrite !assemble_app.
    match goal with |- ?x + ?y = a * (?x1 + ?y1) + b * (?x2 + ?y2) =>
      assert (E1 : x = a * x1 + b * x2); [|assert (E2 : y = a * y1 + b * y2); [|rewrite E1, E2; ring]] end.
    + rewrite !assemble_map. apply sum_over_mix. intros z _. cbn [fst snd]. apply integral_mix. intros p _.
      destruct (HT p) as [-> _], (HN p) as [-> _]. unfold Rdiv. ring.
    + rewrite !assemble_map. apply sum_over_mix. intros z _. destruct (q_type M); cbn [fst snd]; apply integral_mix; intros p _.
      * apply dot_mix. intros i. destruct (HT p) as [_ ->]. ring.
      * rewrite (dot_mix a b (q_dim M) (fun i => k * grd (T1 p) i) (fun i => k * grd (T2 p) i)); [ring|]. intros i. destruct (HT p) as [_ ->]. ring.
      * rewrite (dot_mix a b (q_dim M) (grd (T1 p)) (grd (T2 p))); [ring|]. intros i. now destruct (HT p) as [_ ->].
  - cbn [bind]. intros H1 H2. apply Ok_inj in H1, H2. subst K1 K2. eexists. split; [reflexivity|]. cbn [app].
    rewrite !assemble_map. apply sum_over_mix. intros z _. destruct (q_type M); cbn [fst snd]; apply integral_mix; intros p _.
    * apply dot_mix. intros i. destruct (HT p) as [_ ->]. ring.
    * rewrite (dot_mix a b (q_dim M) (fun i => k * grd (T1 p) i) (fun i => k * grd (T2 p) i)); [ring|]. intros i. destruct (HT p) as [_ ->]. ring.
    * rewrite (dot_mix a b (q_dim M) (grd (T1 p)) (grd (T2 p))); [ring|]. intros i. now destruct (HT p) as [_ ->].
Qed.
Lemma heat_mix transient dt (T1 T2 T N1 N2 N v : field P) ms s1 s2 s b1 b2 bs F1 F2 :
  mix a b T1 T2 T -> mix a b N1 N2 N -> (forall x, In x ms -> constant_thermal (attrs x)) ->
  Forall3 (mix_source a b) s1 s2 s -> Forall3 (mix_heat_bc a b) b1 b2 bs ->
  heat_form M transient dt T1 N1 v ms s1 b1 = Ok F1 -> heat_form M transient dt T2 N2 v ms s2 b2 = Ok F2 ->
  exists F, heat_form M transient dt T N v ms s bs = Ok F /\ assemble M F = a * assemble M F1 + b * assemble M F2.
Proof.
  intros HT HN Hc Hs Hb. unfold heat_form. cbv zeta.
  match goal with |- bind ?x _ = _ -> _ => destruct x as [G1|e] eqn:E1; cbn [bind]; [|discriminate] end.
  match goal with |- bind ?x _ = _ -> _ => destruct x as [H1|e] eqn:B1; cbn [bind]; [|discriminate] end.
  intros E. apply Ok_inj in E. subst F1.
  match goal with |- bind ?x _ = _ -> _ => destruct x as [G2|e] eqn:E2; cbn [bind]; [|discriminate] end.
  match goal with |- bind ?x _ = _ -> _ => destruct x as [H2|e] eqn:B2; cbn [bind]; [|discriminate] end.
  intros E. apply Ok_inj in E. subst F2.
  destruct (sum_forms_mix M a b (heat_material_form M transient dt T N v) _ _ _ _ _ E1 E2) as (G & -> & HG).
  { intros x K1 K2 Hx. apply heat_material_mix; auto. }
  cbn [bind].
  assert (HH : exists H, sum_forms (fun b0 => let! g := heat_flux_form (snd b0) T in
      Ok (map (fun surf => (Ds surf, fun p => - g p * val (v p))) (fst b0))) bs = Ok H /\
      assemble M H = a * assemble M H1 + b * assemble M H2).
  { clear E1 E2 HG. revert H1 H2 B1 B2. induction Hb as [|[l1 f1] [l2 f2] [l f] k1 k2 k (L1 & L2 & Hf) Hb IH]; intros H1 H2; cbn [sum_forms].
    - intros B1 B2. apply Ok_inj in B1, B2. subst. exists []. split; [reflexivity|]. rewrite assemble_nil. ring.
    - cbn [fst snd] in *. subst l1 l2.
      assert (Hg : exists g1 g2 g, heat_flux_form f1 T1 = Ok g1 /\ heat_flux_form f2 T2 = Ok g2 /\ heat_flux_form f T = Ok g /\
        forall p, g p = a * g1 p + b * g2 p).
      { destruct Hf as [u w z H|h u w z H]; do 3 eexists; (split; [reflexivity|]); (split; [reflexivity|]); (split; [reflexivity|]); intros p; cbn [flux_form].
        - apply H.
        - unfold convective_form. rewrite H. destruct (HT p) as [-> _]. ring. }
      destruct Hg as (g1 & g2 & g & -> & -> & -> & Hg). cbn [bind].
      match goal with |- bind ?x _ = _ -> _ => destruct x as [J1|e] eqn:B1; cbn [bind]; [|discriminate] end.
      intros E. apply Ok_inj in E. subst H1.
      match goal with |- bind ?x _ = _ -> _ => destruct x as [J2|e] eqn:B2; cbn [bind]; [|discriminate] end.
      intros E. apply Ok_inj in E. subst H2.
      destruct (IH J1 J2 eq_refl eq_refl) as (J & -> & HJ). cbn [bind]. eexists. split; [reflexivity|].
      rewrite !assemble_app, HJ, !assemble_map.
      match goal with |- ?x + _ = a * (?x1 + _) + b * (?x2 + _) => assert (E : x = a * x1 + b * x2); [|rewrite E; ring] end.
      apply sum_over_mix. intros z _. cbn [fst snd]. apply integral_mix. intros p _. rewrite Hg. ring. }
  destruct HH as (H & -> & HH). cbn [bind]. eexists. split; [reflexivity|]. rewrite !assemble_app, HG, HH.
  match goal with |- _ + (?x + _) = a * (_ + (?x1 + _)) + b * (_ + (?x2 + _)) => assert (E : x = a * x1 + b * x2); [|rewrite E; ring] end.
  apply (flat_map_mix M a b _ _ _ _ _ _ _ Hs). intros x y z (V1 & V2 & _ & _ & Hv). rewrite V1, V2, !assemble_map.
  apply sum_over_mix. intros w _. cbn [fst snd]. apply integral_mix. intros p _. rewrite Hv. ring.
Qed.

Lemma boundary_mix x y z i : mix_rows a b x y z ->
  match boundary_value x i, boundary_value y i, boundary_value z i with
  | Some g, Some h, Some k => k = a * g + b * h
  | None, None, None => True
  | _, _, _ => False
  end.
Proof.
  induction 1 as [|u v w x y z H Hr IH]; cbn [boundary_value]; [exact I|].
  destruct (boundary_value x i), (boundary_value y i), (boundary_value z i); try contradiction; [assumption|].
  clear IH Hr. induction H as [|[i1 g1] [i2 g2] [i3 g3] k1 k2 k3 (E1 & E2 & E3) H IH]; [exact I|].
  cbn [fst snd] in *. subst i1 i2. cbn [find fst]. destruct (Nat.eqb i3 i); [cbn; exact E3|exact IH].
Qed.
End Heat.
