(** Lemmas about the densities of extrinsic traps. *)
From Coq Require Import Reals List Lra Lia.
From Verif Require Import Base.Dual Model.Materials Model.Laws Model.Theta Model.Forms Model.ExtrinsicDensity Spec.ExtrinsicSpec
  Proofs.FormProofs Proofs.StabilityProofs Proofs.TrapDensityProofs.
Import ListNotations.
Local Open Scope R_scope.

Section ExtrinsicProofs.
Context {P : Type}.
Implicit Types (M : mesh P) (k : extrinsic P) (T n m : P -> R).

(** Both forms, in one. *)
Lemma density_residual M k dt T n n' v : assemble M (form_density k dt T n' n v)
  = integral M DxAll (fun p => ((n' p - n p) / dt - creation k p + loss k T p * n' p) * v p).
Proof.
  destruct k; unfold form_density, extrinsic_form, neutron_form; rewrite ?assemble_cons, ?assemble_nil;
    cbn [fst snd]; rewrite ?Rplus_0_r, <- ?integral_plus; apply integral_ext; intros p _;
    unfold as_field; cbn [dconst val creation loss]; unfold Rdiv; ring.
Qed.

(** A function of the space that is orthogonal to itself vanishes wherever the quadrature sees it. *)
Lemma step_uniform M V k T dt n n' c l a : weights M -> space V -> uniform M k T c l -> 0 < dt -> 0 <= l ->
  (forall p, In p (q_cells M) -> 0 < q_weight M p -> n p = a) ->
  solve_density M V k dt T n n' ->
  forall p, In p (q_cells M) -> 0 < q_weight M p -> n' p = (a + dt * c) / (1 + l * dt).
Proof.
  intros Hw [Hsub Hconst] Hu Hdt Hl Ha [HV Hn'] p Hp Hwp.
  assert (Hld : 0 <= l * dt) by (apply Rmult_le_pos; lra).
  set (b := (a + dt * c) / (1 + l * dt)).
  assert (Hv := Hn' _ (Hsub n' (fun _ => b) HV (Hconst b))). rewrite density_residual in Hv.
  assert (E : integral M DxAll (fun q => (/ dt + l) * ((n' q - b) * (n' q - b))) = 0).
  { rewrite <- Hv. unfold integral. f_equal. apply map_ext_in. intros q Hq. cbn [points] in Hq.
    destruct (Hw q Hq) as [Hq0|Hq0]; [|rewrite <- Hq0; ring].
    destruct (Hu q Hq) as [-> ->]. rewrite (Ha q Hq Hq0). f_equal.
    replace (/ dt + l) with ((1 + l * dt) / dt) by (field; lra).
    unfold b. field. split; lra. }
  assert (H0 := TrapDensityProofs.integral_null M (fun q => (/ dt + l) * ((n' q - b) * (n' q - b))) Hw).
  assert (Hi : 0 < / dt) by now apply Rinv_0_lt_compat.
  assert (Hz : (/ dt + l) * ((n' p - b) * (n' p - b)) = 0).
  { apply H0; try assumption. intros q _. cbv beta. apply Rmult_le_pos; [lra|]. apply Rle_0_sqr. }
  apply Rmult_integral in Hz. destruct Hz as [Hz|Hz]; [lra|]. apply Rmult_integral in Hz. destruct Hz; lra.
Qed.

Lemma missing_pos l dts : 0 <= l -> Forall (fun dt => 0 < dt) dts -> 0 < missing l dts.
Proof.
  intros Hl. induction 1 as [|dt dts Hdt _ IH]; cbn [missing]; [lra|]. apply Rmult_lt_0_compat; [|exact IH].
  apply Rinv_0_lt_compat. assert (0 <= l * dt) by (apply Rmult_le_pos; lra). lra.
Qed.
Lemma elapsed_pos dts : Forall (fun dt => 0 < dt) dts -> 0 <= elapsed dts.
Proof. induction 1; cbn [elapsed fold_right]; [lra|]. unfold elapsed in *. lra. Qed.
(** Bernoulli: the product of the 1 + l dt is at least 1 + l t. *)
Lemma missing_elapsed l dts : 0 <= l -> Forall (fun dt => 0 < dt) dts -> missing l dts * (1 + l * elapsed dts) <= 1.
Proof.
  intros Hl. induction 1 as [|dt dts Hdt Hd IH]; [cbn; lra|]. cbn [missing elapsed fold_right]. fold (elapsed dts).
  assert (He := elapsed_pos dts Hd). assert (Hm := missing_pos l dts Hl Hd).
  assert (H1 : 0 <= l * dt) by (apply Rmult_le_pos; lra). assert (H2 : 0 <= l * elapsed dts) by now apply Rmult_le_pos.
  apply Rle_trans with (missing l dts * (1 + l * elapsed dts)); [|exact IH].
  apply (Rmult_le_reg_l (1 + l * dt)); [lra|].
  replace ((1 + l * dt) * (/ (1 + l * dt) * missing l dts * (1 + l * (dt + elapsed dts))))
    with (missing l dts * (1 + l * (dt + elapsed dts))) by (field; lra).
  replace ((1 + l * dt) * (missing l dts * (1 + l * elapsed dts)))
    with (missing l dts * (1 + l * (dt + elapsed dts)) + missing l dts * (l * dt * (l * elapsed dts))) by ring.
  assert (0 <= missing l dts * (l * dt * (l * elapsed dts))); [|lra].
  apply Rmult_le_pos; [lra|]. now apply Rmult_le_pos.
Qed.
Lemma missing_app l dts dts' : missing l (dts ++ dts') = missing l dts * missing l dts'.
Proof. induction dts as [|dt dts IH]; cbn [app missing]; [ring|]. rewrite IH. ring. Qed.

Lemma run_uniform M V k T c l dts n n' : weights M -> space V -> uniform M k T c l -> 0 < l ->
  Forall (fun dt => 0 < dt) dts -> solve_densities M V k T dts n n' -> forall a,
  (forall p, In p (q_cells M) -> 0 < q_weight M p -> n p = a) ->
  forall p, In p (q_cells M) -> 0 < q_weight M p -> n' p = c / l + (a - c / l) * missing l dts.
Proof.
  intros Hw HV Hu Hl Hdts Hrun. induction Hrun as [n|dt dts n n' n'' Hs _ IH]; intros a Ha p Hp Hwp.
  - cbn [missing]. rewrite (Ha p Hp Hwp). ring.
  - inversion_clear Hdts as [|? ? Hdt Hd].
    rewrite (IH Hd _ (fun q Hq Hwq => step_uniform M V k T dt n n' c l a Hw HV Hu Hdt (Rlt_le _ _ Hl) Ha Hs q Hq Hwq) p Hp Hwp).
    cbn [missing]. assert (0 < l * dt) by now apply Rmult_lt_0_compat. field. lra.
Qed.

(** Two solutions of one step, from two densities. *)
Lemma step_contraction M V k T dt l n n' m m' : weights M -> space V -> 0 < dt ->
  (forall p, In p (q_cells M) -> l <= loss k T p) ->
  solve_density M V k dt T n n' -> solve_density M V k dt T m m' ->
  (1 + 2 * l * dt) * distance2 M n' m' <= distance2 M n m.
Proof.
  intros Hw [Hsub Hconst] Hdt Hl [HVn Hn] [HVm Hm].
  assert (Hv := Hsub _ _ HVn HVm). apply Hn in Hv as E1. apply Hm in Hv as E2.
  rewrite density_residual in E1, E2. unfold distance2.
  assert (E : integral M DxAll (fun p => (2 * dt) * (((n' p - n p) / dt - creation k p + loss k T p * n' p) * (n' p - m' p)
    + - (((m' p - m p) / dt - creation k p + loss k T p * m' p) * (n' p - m' p)))) = 0).
  { rewrite StabilityProofs.integral_scale, integral_plus, integral_opp, E1, E2. ring. }
  rewrite <- StabilityProofs.integral_scale.
  assert (Hd : 0 <= integral M DxAll (fun p => (n p - m p) * (n p - m p))
    - integral M DxAll (fun p => (1 + 2 * l * dt) * ((n' p - m' p) * (n' p - m' p)))
    + integral M DxAll (fun p => (2 * dt) * (((n' p - n p) / dt - creation k p + loss k T p * n' p) * (n' p - m' p)
    + - (((m' p - m p) / dt - creation k p + loss k T p * m' p) * (n' p - m' p))))); [|rewrite E in Hd; lra].
  rewrite integral_minus, <- integral_plus. apply TrapDensityProofs.integral_nonneg; [exact Hw|]. intros p Hp. cbv beta.
  assert (H := Hl p Hp). assert (Hs := Rle_0_sqr (n' p - m' p)). unfold Rsqr in Hs.
  assert (Hq := Rle_0_sqr ((n' p - m' p) - (n p - m p))). unfold Rsqr in Hq.
  assert (Hx : 0 <= (loss k T p - l) * (2 * dt) * ((n' p - m' p) * (n' p - m' p))).
  { apply Rmult_le_pos; [apply Rmult_le_pos; lra|exact Hs]. }
  match goal with |- 0 <= ?g => replace g with
    ((n' p - m' p - (n p - m p)) * (n' p - m' p - (n p - m p))
     + (loss k T p - l) * (2 * dt) * ((n' p - m' p) * (n' p - m' p))) by (field; lra) end.
  lra.
Qed.

Lemma run_contraction M V k T l dts n n' : weights M -> space V -> 0 <= l ->
  (forall p, In p (q_cells M) -> l <= loss k T p) -> Forall (fun dt => 0 < dt) dts ->
  solve_densities M V k T dts n n' -> forall m m', solve_densities M V k T dts m m' ->
  distance2 M n' m' <= missing (2 * l) dts * distance2 M n m.
Proof.
  intros Hw HV Hl Hloss Hdts Hn. induction Hn as [n|dt dts n n' n'' Hs _ IH]; intros m m'' Hm.
  - inversion Hm; subst. cbn [missing]. lra.
  - inversion Hm as [|? ? ? m' ? Hs' Hm']; subst. inversion_clear Hdts as [|? ? Hdt Hd].
    eapply Rle_trans; [exact (IH Hd m' m'' Hm')|]. cbn [missing].
    assert (H := step_contraction M V k T dt l n n' m m' Hw HV Hdt Hloss Hs Hs').
    assert (Hp := missing_pos (2 * l) dts ltac:(lra) Hd).
    assert (H1 : 0 <= 2 * l * dt) by (apply Rmult_le_pos; lra).
    rewrite (Rmult_comm (/ _)), Rmult_assoc. apply Rmult_le_compat_l; [lra|].
    apply (Rmult_le_reg_l (1 + 2 * l * dt)); [lra|]. rewrite <- Rmult_assoc, Rinv_r by lra. lra.
Qed.

(** A uniform solution always exists. *)
Lemma step_exists M V k T c l dt a : space V -> uniform M k T c l -> 0 < dt -> 0 < l ->
  solve_density M V k dt T (fun _ => a) (fun _ => (a + dt * c) / (1 + l * dt)).
Proof.
  intros [_ Hconst] Hu Hdt Hl. split; [apply Hconst|]. intros v _. rewrite density_residual.
  apply integral_zero. intros p Hp. cbn [points] in Hp. destruct (Hu p Hp) as [-> ->].
  assert (0 < l * dt) by now apply Rmult_lt_0_compat. field. split; lra.
Qed.
Lemma run_exists M V k T c l dts : space V -> uniform M k T c l -> 0 < l -> Forall (fun dt => 0 < dt) dts ->
  forall a, exists n, solve_densities M V k T dts (fun _ => a) n.
Proof.
  intros HV Hu Hl. induction 1 as [|dt dts Hdt _ IH]; intros a; [eexists; constructor|].
  destruct (IH ((a + dt * c) / (1 + l * dt))) as [n Hn]. exists n. econstructor; [|exact Hn].
  now apply step_exists.
Qed.
End ExtrinsicProofs.
