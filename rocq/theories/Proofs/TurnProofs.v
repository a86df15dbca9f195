(** Residuals in turned axes (C87). *)
From Coq Require Import Reals ZArith List Bool Lra Lia.
From Verif Require Import Base.Exc Base.Dual Model.Materials Model.Laws Model.Theta Model.Exports Model.Forms Model.Quantities
  Spec.BalanceSpec Spec.TurnSpec Proofs.ThetaProofs Proofs.FormProofs Proofs.MergeProofs Proofs.NeutralProofs.
Import ListNotations.
Local Open Scope R_scope.
Local Open Scope list_scope.

Lemma rsum_swap {A B} (l : list A) (k : list B) (f : A -> B -> R) :
  rsum (map (fun x => rsum (map (f x) k)) l) = rsum (map (fun y => rsum (map (fun x => f x y) l)) k).
Proof.
  induction l as [|x l IH]; cbn [map].
  - rewrite rsum_nil. symmetry. apply rsum_map_zero. reflexivity.
  - rewrite rsum_cons, IH, <- rsum_map_plus. apply rsum_map_ext. intros y _. cbn [map]. now rewrite rsum_cons.
Qed.
Lemma rsum_pick (l : list nat) i (f : nat -> R) : NoDup l -> In i l ->
  rsum (map (fun j => (if Nat.eqb i j then 1 else 0) * f j) l) = f i.
Proof.
  induction 1 as [|j l Hj Hl IH]; [intros []|]. intros [->|Hi]; cbn [map]; rewrite rsum_cons.
  - rewrite Nat.eqb_refl, rsum_map_zero; [ring|]. intros k Hk. destruct (Nat.eqb_spec i k); [subst; contradiction|ring].
  - destruct (Nat.eqb_spec i j) as [->|_]; [contradiction|]. rewrite (IH Hi). ring.
Qed.
Lemma rsum_mult {A B} (l : list A) (k : list B) f g :
  rsum (map f l) * rsum (map g k) = rsum (map (fun x => rsum (map (fun y => f x * g y) k)) l).
Proof.
  rewrite Rmult_comm, <- rsum_map_scale. apply rsum_map_ext. intros x _. rewrite rsum_map_scale. ring.
Qed.
Lemma dot_turned d O g g' h h' : orthogonal d O -> turned d O g g' -> turned d O h h' -> dot d g' h' = dot d g h.
Proof.
  intros HO Hg Hh. unfold dot at 1.
  rewrite (rsum_map_ext _ (fun k => rsum (map (fun i => rsum (map (fun j => O k i * g i * (O k j * h j)) (seq 0 d))) (seq 0 d)))).
  2:{ intros k Hk. apply in_seq in Hk. rewrite (Hg k), (Hh k) by lia. unfold dot. apply rsum_mult. }
  rewrite rsum_swap. unfold dot. apply rsum_map_ext. intros i Hi. rewrite rsum_swap.
  rewrite (rsum_map_ext _ (fun j => (if Nat.eqb i j then 1 else 0) * (g i * h j))).
  - apply (rsum_pick _ i (fun j => g i * h j)); [apply seq_NoDup|exact Hi].
  - intros j Hj. rewrite (rsum_map_ext _ (fun k => (g i * h j) * (O k i * O k j))) by (intros; ring).
    rewrite rsum_map_scale, HO by (apply in_seq in Hi, Hj; lia). ring.
Qed.

Lemma turned_lin d O g g' h h' a b : turned d O g g' -> turned d O h h' ->
  turned d O (fun i => a * g i + b * h i) (fun i => a * g' i + b * h' i).
Proof.
  intros Hg Hh k Hk. rewrite (Hg k Hk), (Hh k Hk). unfold dot. rewrite <- !rsum_map_scale, <- rsum_map_plus.
  apply rsum_map_ext. intros. ring.
Qed.
Lemma turned_ext d O g g' h h' : turned d O g g' -> (forall i, h i = g i) -> (forall i, h' i = g' i) -> turned d O h h'.
Proof. intros H H1 H2 k Hk. rewrite H2, (H k Hk). unfold dot. apply rsum_map_ext. intros i _. now rewrite H1. Qed.
Lemma turned_scale d O g g' a : turned d O g g' -> turned d O (fun i => a * g i) (fun i => a * g' i).
Proof. intros H. apply (turned_ext _ _ _ _ _ _ (turned_lin d O g g' g g' a 0 H H)); intros; ring. Qed.
Definition turned_dual d O (x x' : dual) : Prop := val x' = val x /\ turned d O (grd x) (grd x').
Lemma turned_dmul d O x x' y y' : turned_dual d O x x' -> turned_dual d O y y' -> turned_dual d O (dmul x y) (dmul x' y').
Proof.
  intros [V1 G1] [V2 G2]. split; [cbn; now rewrite V1, V2|].
  apply (turned_ext _ _ _ _ _ _ (turned_lin d O _ _ _ _ (val y) (val x) G1 G2)); intros i; cbn; rewrite ?V1, ?V2; ring.
Qed.
Lemma turned_ddiv d O x x' y y' : turned_dual d O x x' -> turned_dual d O y y' -> turned_dual d O (ddiv x y) (ddiv x' y').
Proof.
  intros [V1 G1] [V2 G2]. split; [cbn; now rewrite V1, V2|].
  apply (turned_ext _ _ _ _ _ _ (turned_lin d O _ _ _ _ (val y / (val y * val y)) (- val x / (val y * val y)) G1 G2)); intros i; cbn;
    rewrite ?V1, ?V2; unfold Rdiv; ring.
Qed.
Lemma turned_dexp d O x x' : turned_dual d O x x' -> turned_dual d O (dexp x) (dexp x').
Proof. intros [V G]. split; [cbn; now rewrite V|]. cbn. rewrite V. now apply turned_scale. Qed.
Lemma turned_dsquare d O x x' : turned_dual d O x x' -> turned_dual d O (dsquare x) (dsquare x').
Proof. intros [V G]. split; [cbn; now rewrite V|]. cbn. rewrite V. now apply turned_scale. Qed.
Lemma turned_const d O c : turned_dual d O (dconst c) (dconst c).
Proof. split; [reflexivity|]. intros k Hk. cbn. unfold dot. symmetry. apply rsum_map_zero. intros. ring. Qed.
Lemma turned_coord d O x : keeps_axis d O -> turned_dual d O (dcoord0 x) (dcoord0 x).
Proof.
  intros H. split; [reflexivity|]. intros k Hk. unfold dot. cbn [dcoord0 grd].
  rewrite (rsum_map_ext _ (fun i => (if Nat.eqb 0 i then 1 else 0) * O k i)) by (intros [|i] _; cbn; ring).
  rewrite rsum_pick; [rewrite (H k Hk); now destruct k|apply seq_NoDup|apply in_seq; lia].
Qed.
Lemma turned_coefficient d O S0 ES T T' : turned_dual d O T T' -> turned_dual d O (coefficient S0 ES T) (coefficient S0 ES T').
Proof.
  intros H. unfold coefficient. apply turned_dmul; [apply turned_const|]. apply turned_dexp. apply turned_ddiv; [|exact H].
  apply turned_ddiv; apply turned_const.
Qed.

Lemma turned_div_r d O (v v' : dual) x : keeps_axis d O -> turned_dual d O v v' -> turned_dual d O (ddiv v (dcoord0 x)) (ddiv v' (dcoord0 x)).
Proof. intros Ha Hv. apply turned_ddiv; [exact Hv|]. now apply turned_coord. Qed.

Section Turn.
Context {P : Type}.
Variables (M : mesh P) (O : nat -> nat -> R).
Hypothesis HO : change_of_axes (q_type M) (q_dim M) O.
Notation d := (q_dim M).

Lemma diffusion_turned soret D0 ED Q (c n v T c' n' v' T' : field P) dt z :
  turned_field d O c c' -> turned_field d O n n' -> turned_field d O v v' -> turned_field d O T T' ->
  assemble M (diffusion_terms M soret D0 ED Q c' n' v' T' dt z) = assemble M (diffusion_terms M soret D0 ED Q c n v T dt z).
Proof.
  intros Hc Hn Hv HT. unfold diffusion_terms. cbv zeta. rewrite !assemble_app. f_equal.
  - destruct dt as [dt|]; [|reflexivity]. rewrite !assemble_cons, !assemble_nil. cbn [fst snd]. f_equal. apply integral_ext.
    intros p _. destruct (Hc p) as [-> _], (Hn p) as [-> _], (Hv p) as [-> _]. reflexivity.
  - pose proof HO as [Ho Ha].
    assert (Hdc : forall p k (g g' : nat -> R), turned d O g g' -> dot d (fun i => k * grd (c' p) i) g' = dot d (fun i => k * grd (c p) i) g).
    { intros p k g g' Hg. apply (dot_turned d O); [exact Ho| |exact Hg]. apply turned_scale. apply Hc. }
    assert (Hdt : forall p k (g g' : nat -> R), turned d O g g' -> dot d (fun i => k * grd (T' p) i) g' = dot d (fun i => k * grd (T p) i) g).
    { intros p k g g' Hg. apply (dot_turned d O); [exact Ho| |exact Hg]. apply turned_scale. apply HT. }
    assert (Hd1 : forall p (g g' : nat -> R), turned d O g g' -> dot d (grd (c' p)) g' = dot d (grd (c p)) g).
    { intros p g g' Hg. apply (dot_turned d O); [exact Ho| |exact Hg]. apply Hc. }
    destruct (q_type M); rewrite !assemble_cons; cbn [fst snd].
    + apply f_equal2.
      * apply integral_ext. intros p _. destruct (HT p) as [-> _]. apply Hdc. apply Hv.
      * destruct soret; [|reflexivity]. rewrite !assemble_cons, !assemble_nil. cbn [fst snd]. f_equal. apply integral_ext. intros p _.
        destruct (HT p) as [-> _], (Hc p) as [-> _]. apply Hdt. apply Hv.
    + assert (Hw : forall p, turned d O (grd (ddiv (v p) (dcoord0 (q_x0 M p)))) (grd (ddiv (v' p) (dcoord0 (q_x0 M p)))))
        by (intros p; apply turned_div_r; [apply Ha; discriminate|split; apply Hv]).
      apply f_equal2.
      * apply integral_ext. intros p _. destruct (HT p) as [-> _]. f_equal. apply Hdc. apply Hw.
      * destruct soret; [|reflexivity]. rewrite !assemble_cons, !assemble_nil. cbn [fst snd]. f_equal. apply integral_ext. intros p _.
        destruct (HT p) as [-> _], (Hc p) as [-> _]. f_equal. apply Hdt. apply Hw.
    + assert (Hw : forall p, turned d O (grd (ddiv (ddiv (v p) (dcoord0 (q_x0 M p))) (dcoord0 (q_x0 M p))))
                                        (grd (ddiv (ddiv (v' p) (dcoord0 (q_x0 M p))) (dcoord0 (q_x0 M p)))))
        by (intros p; apply turned_div_r; [apply Ha; discriminate|]; apply turned_div_r; [apply Ha; discriminate|split; apply Hv]).
      apply f_equal2.
      * apply integral_ext. intros p _. destruct (HT p) as [-> _]. f_equal. apply Hd1. apply Hw.
      * destruct soret; [|reflexivity]. rewrite !assemble_cons, !assemble_nil. cbn [fst snd]. f_equal. apply integral_ext. intros p _.
        destruct (HT p) as [-> _], (Hc p) as [-> _]. f_equal. apply Hdt. apply Hw.
Qed.

Variables (mb mb' : mobile P) (T T' : temperature P).
Hypotheses (Hmb : turned_mobile d O mb mb') (HT : turned_temperature d O T T').

Lemma get_turned m f : get_concentration mb m T = Ok f ->
  exists f', get_concentration mb' m T' = Ok f' /\ turned_field d O (fst f) (fst f') /\ turned_field d O (snd f) (snd f').
Proof.
  destruct Hmb as (C & Hs & Hp & _). destruct HT as [HT1 HT2]. unfold get_concentration, check_concentration. rewrite C.
  destruct (mb_class mb) as [|S_ ms'].
  - cbn [bind]. intros H. apply Ok_inj in H. subst f. eexists. split; [reflexivity|]. split; assumption.
  - destruct (float_of (m_ES m)) as [ES|e] eqn:E1; cbn [bind]; [|discriminate].
    destruct (float_of (m_S0 m)) as [S0|e] eqn:E2; cbn [bind]; [|discriminate].
    intros H. apply Ok_inj in H. subst f. eexists. split; [reflexivity|]. unfold theta_concentration. rewrite E1, E2. cbn [bind].
    destruct (m_law m); cbn [or_zero fst snd]; split; intros p; apply turned_dmul;
      try (apply turned_coefficient; (apply HT1 || apply HT2)); try (apply turned_dsquare); (apply Hs || apply Hp).
Qed.
Lemma solute_turned p : mobile_concentration M mb p = mobile_concentration M mb' p.
Proof.
  destruct Hmb as (C & Hs & _). unfold mobile_concentration. rewrite C. destruct (Hs p) as [E _].
  destruct (mb_class mb); now rewrite E.
Qed.
Lemma material_turned dt soret x F : material_form M mb T dt soret x = Ok F ->
  exists G, material_form M mb' T' dt soret x = Ok G /\ assemble M G = assemble M F.
Proof.
  unfold material_form. destruct (get_concentration mb (attrs x) T) as [f|e] eqn:E; cbn [bind]; [|discriminate].
  destruct (get_turned (attrs x) f E) as (f' & -> & H1 & H2). cbn [bind].
  destruct (float_of (Some (m_D0 (attrs x)))) as [D0|e]; cbn [bind]; [|discriminate].
  destruct (float_of (Some (m_ED (attrs x)))) as [ED|e]; cbn [bind]; [|discriminate].
  match goal with |- bind ?q _ = _ -> _ => destruct q as [Q|e]; cbn [bind]; [|discriminate] end.
  intros H. apply Ok_inj in H. subst F. eexists. split; [reflexivity|]. rewrite !assemble_flat_map. apply sum_over_ext. intros z _.
  destruct Hmb as (_ & _ & _ & Ht & _). destruct HT as [HT1 _]. now apply diffusion_turned.
Qed.
Lemma mobile_trapping_turned t i x F : mobile_trapping_terms mb T t i x = Ok F ->
  exists G, mobile_trapping_terms mb' T' t i x = Ok G /\ assemble M G = assemble M F.
Proof.
  unfold mobile_trapping_terms. fold (params_of t i).
  destruct (params_of t i) as [[[[[k0 Ek] p0] Ep] n]|e]; cbn [bind]; [|discriminate].
  destruct (get_concentration mb (attrs x) T) as [f|e] eqn:E; cbn [bind]; [|discriminate].
  destruct (get_turned (attrs x) f E) as (f' & -> & H1 & H2). cbn [bind].
  destruct (dx_id (m_id (attrs x))) as [z|e]; cbn [bind]; [|discriminate].
  intros H. apply Ok_inj in H. subst F. eexists. split; [reflexivity|]. rewrite !assemble_cons, !assemble_nil. cbn [fst snd].
  destruct Hmb as (_ & _ & _ & Ht & _). destruct HT as [HT1 _].
  apply f_equal2; [|apply f_equal2; [|reflexivity]]; apply integral_ext; intros p _; destruct (HT1 p) as [-> _], (Ht p) as [-> _], (H1 p) as [E1 _];
    rewrite ?E1; reflexivity.
Qed.
Lemma trapping_turned t i x F : trapping_terms mb T t i x = Ok F ->
  exists G, trapping_terms mb' T' t i x = Ok G /\ assemble M G = assemble M F.
Proof.
  unfold trapping_terms. fold (params_of t i). pose proof Hmb as (C & _). rewrite C.
  destruct (params_of t i) as [[[[[k0 Ek] p0] Ep] n]|e]; cbn [bind]; [|discriminate].
  match goal with |- bind ?q _ = _ -> _ => destruct q as [[]|e]; cbn [bind]; [|discriminate] end.
  destruct (get_concentration mb (attrs x) T) as [f|e] eqn:E; cbn [bind]; [|discriminate].
  destruct (get_turned (attrs x) f E) as (f' & -> & H1 & H2). cbn [bind].
  destruct (dx_id (m_id (attrs x))) as [z|e]; cbn [bind]; [|discriminate].
  intros H. apply Ok_inj in H. subst F. eexists. split; [reflexivity|]. rewrite !assemble_cons, !assemble_nil. cbn [fst snd].
  destruct HT as [HT1 _].
  apply f_equal2; [|apply f_equal2; [|reflexivity]]; apply integral_ext; intros p _; destruct (HT1 p) as [-> _], (H1 p) as [E1 _];
    rewrite ?E1; reflexivity.
Qed.
Lemma trap_turned ms dt t F : trap_create_form mb ms T dt t = Ok F ->
  exists G, trap_create_form mb' ms T' dt t = Ok G /\ assemble M G = assemble M F.
Proof.
  unfold trap_create_form, create_trapping_form.
  match goal with |- bind (bind ?x _) _ = _ -> _ => destruct x as [F0|e]; cbn [bind]; [|discriminate] end.
  match goal with |- bind (bind ?x _) _ = _ -> _ => destruct x as [F1|e] eqn:H1; cbn [bind]; [|discriminate] end.
  destruct (sum_forms_enum_same M _ (trapping_terms mb' T' t) _ _ _ H1) as (G1 & -> & HA).
  { intros j a K Ha HK. now apply trapping_turned. }
  cbn [bind]. match goal with |- bind ?x _ = _ -> _ => destruct x as [F2|e]; cbn [bind]; [|discriminate] end.
  intros H. apply Ok_inj in H. subst F. eexists. split; [reflexivity|]. rewrite !assemble_app, HA. reflexivity.
Qed.
Lemma flux_turned dt b : assemble M (flux_terms M mb' T' dt b) = assemble M (flux_terms M mb T dt b).
Proof.
  destruct Hmb as (_ & _ & Hp & Ht & _). destruct HT as [HT1 _].
  destruct b as [[|] surfaces f|s]; cbn [flux_terms]; [reflexivity| |].
  - rewrite !assemble_map. apply sum_over_ext. intros z _. cbn [fst snd]. apply integral_ext. intros p _.
    destruct (Ht p) as [-> _]. f_equal. destruct (HT1 p) as [E _]. destruct f; cbn [flux_form]; rewrite ?E, <- ?solute_turned; reflexivity.
  - rewrite !assemble_flat_map. apply sum_over_ext. intros a _. unfold surface_kinetics_terms. cbv zeta. rewrite !assemble_app. f_equal.
    + destruct dt as [dt|]; [|reflexivity]. rewrite !assemble_cons, !assemble_nil. cbn [fst snd]. do 2 f_equal.
      apply integral_ext. intros p _. rewrite <- solute_turned. destruct (Hp p) as [-> _], (Ht p) as [-> _]. reflexivity.
    + rewrite !assemble_cons, !assemble_nil. cbn [fst snd]. apply f_equal2; [|apply f_equal2; [|reflexivity]];
        apply integral_ext; intros p _; rewrite <- solute_turned; destruct (HT1 p) as [-> _], (Ht p) as [E _]; rewrite ?E; reflexivity.
Qed.
Lemma problem_turned ms dt traps soret F : define_variational_problem M mb ms T dt traps soret = Ok F ->
  exists G, define_variational_problem M mb' ms T' dt traps soret = Ok G /\ assemble M G = assemble M F.
Proof.
  unfold define_variational_problem, mobile_create_form, create_diffusion_form.
  match goal with |- bind (bind (bind ?x _) _) _ = _ -> _ => destruct x as [F1|e] eqn:H1; cbn [bind]; [|discriminate] end.
  destruct (sum_forms_same M _ (material_form M mb' T' dt soret) _ _ H1) as (G1 & -> & A1). { intros m K _. apply material_turned. }
  cbn [bind]. match goal with |- bind (bind (bind ?x _) _) _ = _ -> _ => destruct x as [F2|e] eqn:H2; cbn [bind]; [|discriminate] end.
  destruct (sum_forms_same M _ (fun t => sum_forms_enum (mobile_trapping_terms mb' T' t) 0 (t_materials t)) _ _ H2) as (G2 & -> & A2).
  { intros t K _ HK. apply (sum_forms_enum_same M _ (mobile_trapping_terms mb' T' t) _ _ _ HK). intros j a L _. apply mobile_trapping_turned. }
  cbn [bind]. match goal with |- bind ?x _ = _ -> _ => destruct x as [F3|e] eqn:H3; cbn [bind]; [|discriminate] end.
  destruct (sum_forms_same M _ (trap_create_form mb' ms T' dt) _ _ H3) as (G3 & -> & A3). { intros t K _. apply trap_turned. }
  cbn [bind]. intros H. apply Ok_inj in H. subst F. eexists. split; [reflexivity|]. rewrite !assemble_app, !assemble_neg, A1, A2, A3.
  destruct Hmb as (_ & _ & _ & Ht & Hsrc & Hb). f_equal. f_equal. f_equal.
  - unfold create_mobile_source_form. rewrite Hsrc, !assemble_flat_map. apply sum_over_ext. intros s _. unfold mobile_source_terms. cbv zeta.
    rewrite !assemble_map. apply sum_over_ext. intros z _. cbn [fst snd]. apply integral_ext. intros p _. destruct (Ht p) as [-> _].
    destruct (s_decay s); [|reflexivity]. now rewrite <- solute_turned.
  - unfold create_fluxes_form. rewrite Hb, !assemble_flat_map. apply sum_over_ext. intros b _. apply flux_turned.
Qed.
End Turn.

Section TurnHeat.
Context {P : Type}.
Variables (M : mesh P) (O : nat -> nat -> R).
Hypothesis HO : change_of_axes (q_type M) (q_dim M) O.
Notation d := (q_dim M).
Lemma heat_turned transient dt (T N v T' N' v' : field P) ms sources bcs F :
  turned_field d O T T' -> turned_field d O N N' -> turned_field d O v v' ->
  heat_form M transient dt T N v ms sources bcs = Ok F ->
  exists G, heat_form M transient dt T' N' v' ms sources bcs = Ok G /\ assemble M G = assemble M F.
Proof.
  intros HT HN Hv. unfold heat_form. cbv zeta.
  match goal with |- bind ?x _ = _ -> _ => destruct x as [F1|e] eqn:H1; cbn [bind]; [|discriminate] end.
  destruct (sum_forms_same M _ (heat_material_form M transient dt T' N' v') _ _ H1) as (G1 & -> & A1).
  { intros x K _. unfold heat_material_form. cbv zeta.
    destruct (value_at (m_thermal (attrs x))) as [k|e]; cbn [bind]; [|discriminate].
    assert (HK : forall F0 F0', assemble M F0' = assemble M F0 -> assemble M (F0' ++
      map (fun vol => match q_type M with
             | Cartesian => (Dx vol, fun p => dot d (fun i => k (val (T' p)) * grd (T' p) i) (grd (v' p)))
             | Cylindrical => (Dx vol, fun p => val (dcoord0 (q_x0 M p)) * dot d (fun i => k (val (T' p)) * grd (T' p) i) (grd (ddiv (v' p) (dcoord0 (q_x0 M p)))))
             | Spherical => (Dx vol, fun p => k (val (T' p)) * val (dcoord0 (q_x0 M p)) * val (dcoord0 (q_x0 M p))
                                   * dot d (grd (T' p)) (grd (ddiv (ddiv (v' p) (dcoord0 (q_x0 M p))) (dcoord0 (q_x0 M p)))))
             end) (ids (m_id (attrs x)))) = assemble M (F0 ++
      map (fun vol => match q_type M with
             | Cartesian => (Dx vol, fun p => dot d (fun i => k (val (T p)) * grd (T p) i) (grd (v p)))
             | Cylindrical => (Dx vol, fun p => val (dcoord0 (q_x0 M p)) * dot d (fun i => k (val (T p)) * grd (T p) i) (grd (ddiv (v p) (dcoord0 (q_x0 M p)))))
             | Spherical => (Dx vol, fun p => k (val (T p)) * val (dcoord0 (q_x0 M p)) * val (dcoord0 (q_x0 M p))
                                   * dot d (grd (T p)) (grd (ddiv (ddiv (v p) (dcoord0 (q_x0 M p))) (dcoord0 (q_x0 M p)))))
             end) (ids (m_id (attrs x))))).
    { intros F0 F0' E0. rewrite !assemble_app, E0, !assemble_map. f_equal. apply sum_over_ext. intros z _.
      destruct (q_type M); cbn [fst snd]; apply integral_ext; intros p _; destruct (HT p) as [E GT]; rewrite E; pose proof HO as [Ho Ha].
      - apply (dot_turned d O); [exact Ho|now apply turned_scale|apply Hv].
      - f_equal. apply (dot_turned d O); [exact Ho|now apply turned_scale|].
        apply turned_div_r; [apply Ha; discriminate|split; apply Hv].
      - f_equal. apply (dot_turned d O); [exact Ho|exact GT|].
        apply turned_div_r; [apply Ha; discriminate|].
        apply turned_div_r; [apply Ha; discriminate|split; apply Hv]. }
    destruct transient.
    - destruct (value_at (m_heat (attrs x))) as [cp|e]; cbn [bind]; [|discriminate].
      destruct (value_at (m_rho (attrs x))) as [rho|e]; cbn [bind]; [|discriminate].
      intros H. apply Ok_inj in H. subst K. eexists. split; [reflexivity|]. apply HK. rewrite !assemble_map. apply sum_over_ext. intros z _.
      cbn [fst snd]. apply integral_ext. intros p _. destruct (HT p) as [-> _], (HN p) as [-> _], (Hv p) as [-> _]. reflexivity.
    - cbn [bind]. intros H. apply Ok_inj in H. subst K. eexists. split; [reflexivity|]. now apply HK. }
  cbn [bind]. match goal with |- bind ?x _ = _ -> _ => destruct x as [F2|e] eqn:H2; cbn [bind]; [|discriminate] end.
  destruct (sum_forms_same M _ (fun b => let! g := heat_flux_form (snd b) T' in
                                Ok (map (fun surf => (Ds surf, fun p => - g p * val (v' p))) (fst b))) _ _ H2) as (G2 & -> & A2).
  { intros [l f] K _. cbn [fst snd].
    assert (Hf : forall g g', (forall p, g' p = g p) -> assemble M (map (fun surf => (Ds surf, fun p => - g' p * val (v' p))) l)
      = assemble M (map (fun surf => (Ds surf, fun p => - g p * val (v p))) l)).
    { intros g g' Hg. rewrite !assemble_map. apply sum_over_ext. intros z _. cbn [fst snd]. apply integral_ext. intros p _.
      rewrite Hg. destruct (Hv p) as [-> _]. reflexivity. }
    unfold heat_flux_form. destruct f; cbn [bind]; try discriminate; intros H; apply Ok_inj in H; subst K; eexists; (split; [reflexivity|]);
      apply Hf; intros p; cbn [flux_form]; destruct (HT p) as [E _]; rewrite ?E; reflexivity. }
  cbn [bind]. intros H. apply Ok_inj in H. subst F. eexists. split; [reflexivity|]. rewrite !assemble_app, A1, A2. f_equal. f_equal.
  rewrite !assemble_flat_map. apply sum_over_ext. intros s _. rewrite !assemble_map. apply sum_over_ext. intros z _. cbn [fst snd].
  apply integral_ext. intros p _. destruct (Hv p) as [-> _]. reflexivity.
Qed.
Lemma quantity_turned V x x' (q : dquantity P) : turned_context d O x x' -> compute M V x' q = compute M V x q.
Proof.
  intros (Hf & HT & Hn & ED & EC & EQ & ES).
  assert (Hi : forall m w, integral M m (fun p => val (x_function x' p) * w p) = integral M m (fun p => val (x_function x p) * w p)).
  { intros m w. apply integral_ext. intros p _. destruct (Hf p) as [-> _]. reflexivity. }
  assert (Hfl : forall prop w l z, flux_integral M x' prop w l z = flux_integral M x prop w l z).
  { intros prop w l z. unfold flux_integral. rewrite ES, EQ. destruct HO as [Ho _].
    assert (E1 : integral M (Ds z) (fun p => prop p * w p * dot d (grd (x_function x' p)) (x_n x' p))
               = integral M (Ds z) (fun p => prop p * w p * dot d (grd (x_function x p)) (x_n x p))).
    { apply integral_ext. intros p _. f_equal. apply (dot_turned d O); [exact Ho|apply Hf|apply Hn]. }
    rewrite E1. destruct (x_soret x && is_solute l)%bool; [|reflexivity]. f_equal. apply integral_ext. intros p _.
    destruct (Hf p) as [-> _], (HT p) as [-> GT]. f_equal. apply (dot_turned d O); [exact Ho|exact GT|apply Hn]. }
  unfold compute. destruct (d_kind q); try reflexivity; rewrite ?Hi; try reflexivity;
    try (unfold prop_of; rewrite ED, EC; match goal with |- bind ?x _ = bind ?x _ => destruct x; cbn [bind]; [now rewrite Hfl|reflexivity] end).
  - destruct (d_point q) as [[p s]|]; [|reflexivity]. f_equal. apply Hf.
  - f_equal. apply integral_ext. intros p _. apply Hf.
Qed.
End TurnHeat.
