(** C62: a trap with lists of parameters acts as one trap per material. *)
From Coq Require Import Reals ZArith List Bool Lra Lia.
From Verif Require Import Base.Exc Base.Dual Model.Materials Model.Theta Model.Forms Spec.BalanceSpec Spec.SplitSpec
  Proofs.FormProofs Proofs.ThetaProofs Proofs.SplitProofs Properties.FormProps Properties.TrapProps.
Import ListNotations.
Local Open Scope R_scope.
Local Open Scope list_scope.

(** The equation of the mobile species is the same. *)
Theorem C62_mobile {P} (M : mesh P) mb ms T dt soret traps1 traps2 es sol prev test F :
  create_diffusion_form M mb ms T dt (traps1 ++ conglomerated es sol prev test :: traps2) soret = Ok F ->
  exists G, create_diffusion_form M mb ms T dt (traps1 ++ separate M es sol prev test ++ traps2) soret = Ok G /\
    assemble M G = assemble M F.
Proof.
  unfold create_diffusion_form. destruct (sum_forms (material_form M mb T dt soret) ms) as [F0|x]; cbn [bind]; [|discriminate].
  rewrite !sum_forms_app. cbn [sum_forms].
  match goal with |- bind (bind ?a _) _ = _ -> _ => destruct a as [A1|x] end; cbn [bind]; [|discriminate].
  replace (sum_forms_enum (mobile_trapping_terms mb T (conglomerated es sol prev test)) 0
             (t_materials (conglomerated es sol prev test)))
    with (sum_forms (fun e => mobile_trapping_terms mb T (single e sol prev test) 0 (e_mat e)) es)
    by (symmetry; apply mobile_enum).
  match goal with |- bind (bind (bind ?a _) _) _ = _ -> _ => destruct a as [A2|x] eqn:E2 end; cbn [bind]; [|discriminate].
  match goal with |- bind (bind (bind ?a _) _) _ = _ -> _ => destruct a as [A3|x] end; cbn [bind]; [|discriminate].
  intros H. apply Ok_inj in H. subst F.
  unfold separate. rewrite sum_forms_map.
  destruct (sum_forms_step M _ (fun e => sum_forms_enum
      (mobile_trapping_terms mb T (single e (part M (e_mat e) sol) (part M (e_mat e) prev) test)) 0
      (t_materials (single e (part M (e_mat e) sol) (part M (e_mat e) prev) test))) (fun _ => 0) _ _ E2) as (G2 & HG2 & Hs).
  { intros e K He HK. destruct (mobile_terms_part M _ _ _ _ _ _ _ HK) as (L & HL & Heq).
    exists (L ++ []). cbn [t_materials single sum_forms_enum]. rewrite HL. cbn [bind]. split; [reflexivity|].
    rewrite app_nil_r, Heq. lra. }
  rewrite HG2. cbn [bind]. eexists. split; [reflexivity|].
  rewrite !assemble_app, !assemble_neg, !assemble_app, Hs.
  unfold sum_over. rewrite rsum_map_zero by reflexivity. lra.
Qed.
Print Assumptions C62_mobile.

(** The equation of the trap is the sum of the equations of the separate traps; [test] is the test function. *)
Theorem C62_trap {P} (M : mesh P) mb ms T dt es sol prev test F :
  identified ms es -> empty_outside M es sol -> empty_outside M es prev ->
  trap_create_form mb ms T dt (conglomerated es sol prev test) = Ok F ->
  exists G, sum_forms (trap_create_form mb ms T dt) (separate M es sol prev test) = Ok G /\
    assemble M G = assemble M F.
Proof.
  intros Hid Hsol Hprev HF. destruct (conglomerated_form _ _ _ _ _ _ _ _ _ HF) as (F1 & HF1 & Hdt).
  unfold separate. rewrite sum_forms_map.
  set (h := fun e : entry P => match dt with
    | Some dt => rate M dt (part M (e_mat e) sol) (part M (e_mat e) prev) test
    | None => 0 end).
  assert (Hone : forall e, In e es -> exists z, m_id (attrs (e_mat e)) = IdOne z).
  { intros e He. destruct (sum_forms_ok _ _ _ HF1 e He) as (K & HK).
    destruct (trap_terms_part M _ _ _ _ _ _ _ HK) as (Hz & _). exact Hz. }
  destruct (sum_forms_step M _ (fun e => trap_create_form mb ms T dt
      (single e (part M (e_mat e) sol) (part M (e_mat e) prev) test)) h _ _ HF1) as (G & HG & Hs).
  { intros e K He HK. destruct (trap_terms_part M _ _ _ _ _ _ _ HK) as (_ & L & HL & Heq).
    pose proof (single_form mb ms T dt _ _ _ _ _ HL) as HF'. unfold h. destruct dt as [dt|].
    - destruct HF' as (F' & -> & HA). eexists. split; [reflexivity|]. rewrite HA, Heq. ring.
    - destruct Hdt as (F0 & HF0 & _).
      assert (Hw : forall p, inside M (e_mat e) p = false -> val (part M (e_mat e) sol p) * val (test p) = 0)
        by (intros p Hp; unfold part; rewrite Hp; cbn; ring).
      destruct (absent_single M ms es e _ _ F0 Hid He Hone Hw HF0) as (Z0 & HZ0 & HA0).
      destruct (HF' Z0 HZ0) as (F' & -> & HA). eexists. split; [reflexivity|]. rewrite HA, Heq, HA0. ring. }
  exists G. split; [exact HG|]. rewrite Hs. clear G HG Hs. unfold h.
  destruct dt as [dt|].
  - rewrite Hdt, Rplus_comm. f_equal. unfold rate. rewrite sum_integral. apply integral_ext. intros p Hp.
    rewrite (sum_over_ext es _ (fun e => if inside M (e_mat e) p then (val (sol p) - val (prev p)) / dt * val (test p) else 0)).
    2:{ intros e _. unfold part. destruct (inside M (e_mat e) p); [reflexivity|]. cbn. unfold Rdiv. ring. }
    rewrite parts_sum by apply Hid. destruct (existsb _ es) eqn:Ex; [reflexivity|].
    assert (Hno : forall e, In e es -> inside M (e_mat e) p = false).
    { intros e He. apply not_true_iff_false. intros Hi. apply not_true_iff_false in Ex. apply Ex. apply existsb_exists. eauto. }
    cbn in Hp. rewrite (Hsol p Hp Hno), (Hprev p Hp Hno). unfold Rdiv. ring.
  - destruct Hdt as (F0 & HF0 & HA). rewrite HA, (fun H => absent_conglomerated M ms es _ F0 Hid H HF0).
    + unfold sum_over. rewrite rsum_map_zero by reflexivity. ring.
    + intros p Hc Hp. rewrite (Hsol p Hc Hp). ring.
Qed.
Print Assumptions C62_trap.

(** Each separate equation is the equation of the trap tested in the material of the separate trap. *)
Theorem C62_each {P} (M : mesh P) mb ms T dt es e sol prev test F :
  identified ms es -> In e es ->
  trap_create_form mb ms T dt (conglomerated es sol prev (part M (e_mat e) test)) = Ok F ->
  exists G, trap_create_form mb ms T dt (single e (part M (e_mat e) sol) (part M (e_mat e) prev) test) = Ok G /\
    assemble M G = assemble M F.
Proof.
  intros Hid He HF. destruct (conglomerated_form _ _ _ _ _ _ _ _ _ HF) as (F1 & HF1 & Hdt).
  assert (Hone : forall e, In e es -> exists z, m_id (attrs (e_mat e)) = IdOne z).
  { intros e' He'. destruct (sum_forms_ok _ _ _ HF1 e' He') as (K & HK).
    destruct (trap_terms_part M _ _ _ _ _ _ _ HK) as (Hz & _). exact Hz. }
  assert (HG : exists G, trapping_terms mb T (single e (part M (e_mat e) sol) (part M (e_mat e) prev) test) 0 (e_mat e) = Ok G /\
    assemble M G = assemble M F1).
  { apply in_split in He as (pre & suf & ->). destruct Hid as [Hnd _]. rewrite sum_forms_app in HF1. cbn [sum_forms] in HF1.
    match type of HF1 with bind ?x _ = _ => destruct x as [A|x'] eqn:HA end; cbn [bind] in HF1; [|discriminate].
    match type of HF1 with bind (bind ?x _) _ = _ => destruct x as [B|x'] eqn:HB end; cbn [bind] in HF1; [|discriminate].
    match type of HF1 with bind (bind ?x _) _ = _ => destruct x as [C|x'] eqn:HC end; cbn [bind] in HF1; [|discriminate].
    apply Ok_inj in HF1. subst F1. destruct (terms_here M _ _ _ _ _ _ _ HB) as (G & HG & HAG).
    exists G. split; [exact HG|]. rewrite flat_map_app in Hnd. cbn [flat_map] in Hnd.
    apply NoDup_app_split in Hnd as (_ & Hnd & Hd1). apply NoDup_app_split in Hnd as (_ & _ & Hd2).
    rewrite !assemble_app, HAG.
    rewrite (sum_forms_assemble M _ (fun _ => 0) pre A HA), (sum_forms_assemble M _ (fun _ => 0) suf C HC).
    - unfold sum_over. rewrite !rsum_map_zero by reflexivity. ring.
    - intros e' K He' HK. apply (terms_elsewhere M _ _ _ _ _ _ _ _ HK). intros z Hz Hz'.
      apply (Hd2 z Hz'). apply in_flat_map. eauto.
    - intros e' K He' HK. apply (terms_elsewhere M _ _ _ _ _ _ _ _ HK). intros z Hz Hz'.
      apply (Hd1 z); [apply in_flat_map; eauto|]. apply in_or_app. now left. }
  destruct HG as (G & HG & HAG). pose proof (single_form mb ms T dt _ _ _ _ _ HG) as HF'. destruct dt as [dt|].
  - destruct HF' as (F' & -> & HA). eexists. split; [reflexivity|]. rewrite HA, Hdt, HAG. f_equal.
    unfold rate. apply integral_ext. intros p _. unfold part. destruct (inside M (e_mat e) p); [reflexivity|].
    cbn. unfold Rdiv. ring.
  - destruct Hdt as (F0 & HF0 & HA0).
    assert (Hw : forall p, inside M (e_mat e) p = false -> val (part M (e_mat e) sol p) * val (test p) = 0)
      by (intros p Hp; unfold part; rewrite Hp; cbn; ring).
    destruct (absent_single M ms es e _ _ F0 Hid He Hone Hw HF0) as (Z0 & HZ0 & HZ).
    destruct (HF' Z0 HZ0) as (F' & -> & HA). eexists. split; [reflexivity|].
    rewrite HA, HA0, HZ, HAG, (fun H => absent_conglomerated M ms es _ F0 Hid H HF0); [reflexivity|].
    intros p _ Hp. unfold part. rewrite (Hp e He). cbn. ring.
Qed.
Print Assumptions C62_each.

(** Two materials with different parameters; mobile and trapped concentrations given at points 1 and 2. *)
Definition two_entries : list (entry nat) :=
  [mkEntry 6 0 2 0 (fun _ => 8) (mkMatObj 0 mat_1); mkEntry 5 0 3 0 (fun _ => 9) (mkMatObj 1 mat_2)].
Lemma two_identified : identified two_mats two_entries.
Proof.
  split.
  - cbn. constructor; [intros [H|[]]; discriminate|]. constructor; [intros []|constructor].
  - intros m e [<-|[<-|[]]] [<-|[<-|[]]]; (split; [cbn; intros H; try discriminate; reflexivity|]);
      intros z [<-|[]] [H|[]]; cbn in H; try discriminate; reflexivity.
Qed.
Definition contents (p : nat) : dual := dconst (match p with 1%nat => 4 | 2%nat => 7 | _ => 0 end).
Example C62_example : let M := mesh_ty Cartesian in
  identified two_mats two_entries /\ empty_outside M two_entries contents /\ empty_outside M two_entries ones /\
  (exists F, create_diffusion_form M rest_mobile two_mats T_rest (Some 2)
    ([rest_trap] ++ conglomerated two_entries contents ones ones :: []) false = Ok F) /\
  (exists F, trap_create_form rest_mobile two_mats T_rest (Some 2) (conglomerated two_entries contents ones ones) = Ok F /\
    assemble M F = - (1 / 4)) /\
  exists F, trap_create_form rest_mobile two_mats T_rest None (conglomerated two_entries contents ones ones) = Ok F /\
    assemble M F = - (5 / 2).
Proof.
  intros M. split; [exact two_identified|].
  assert (Hno : forall p, In p (q_cells M) -> (forall e, In e two_entries -> inside M (e_mat e) p = false) -> False).
  { intros p [<-|[<-|[]]] H; [specialize (H _ (or_introl eq_refl))|specialize (H _ (or_intror (or_introl eq_refl)))]; discriminate. }
  split; [intros p Hp H; destruct (Hno p Hp H)|]. split; [intros p Hp H; destruct (Hno p Hp H)|].
  split; [eexists; reflexivity|]. split; eexists; (split; [reflexivity|]);
    unfold M, assemble, integral, points; cbn; rewrite !exp_zero; field.
Qed.

(** Outside the claim: with one number for k_0 the densities after the first are not used. *)
Theorem C62_scalar_first {P} mb ms T dt k Ek p0 Ep d ds mats (sol prev test : field P) :
  trap_create_form mb ms T dt (mkTrap (Scalar k) Ek p0 Ep (d :: ds) mats sol prev test []) =
  trap_create_form mb ms T dt (mkTrap (Scalar k) Ek p0 Ep [d] mats sol prev test []).
Proof. reflexivity. Qed.
Print Assumptions C62_scalar_first.
Definition same_entries : list (entry nat) :=
  [mkEntry 6 0 2 0 (fun _ => 8) (mkMatObj 0 mat_1); mkEntry 6 0 2 0 (fun _ => 9) (mkMatObj 1 mat_2)].
Theorem C62_scalar_refuted :
  exists (M : mesh nat) mb ms T dt es k Ek p0 Ep sol prev test F G,
    identified ms es /\
    (forall e, In e es -> e_k0 e = k /\ e_Ek e = Ek /\ e_p0 e = p0 /\ e_Ep e = Ep) /\
    trap_create_form mb ms T dt (mkTrap (Scalar k) (Scalar Ek) (Scalar p0) (Scalar Ep) (map e_density es)
      (map e_mat es) sol prev test []) = Ok F /\
    trap_create_form mb ms T dt (conglomerated es sol prev test) = Ok G /\
    assemble M F <> assemble M G.
Proof.
  exists (mesh_ty Cartesian), rest_mobile, two_mats, T_rest, (Some 2), same_entries, 6, 0, 2, 0, ones, ones, ones.
  do 2 eexists. split.
  - split.
    + cbn. constructor; [intros [H|[]]; discriminate|]. constructor; [intros []|constructor].
    + intros m e [<-|[<-|[]]] [<-|[<-|[]]]; (split; [cbn; intros H; try discriminate; reflexivity|]);
        intros z [<-|[]] [H|[]]; cbn in H; try discriminate; reflexivity.
  - split; [intros e [<-|[<-|[]]]; repeat split; reflexivity|]. split; [reflexivity|]. split; [reflexivity|].
    unfold assemble, integral, points. cbn. rewrite !exp_zero. lra.
Qed.
Print Assumptions C62_scalar_refuted.
