(** Implicit Euler steps of y' = g - l y against the solution. *)
From Coq Require Import Reals ZArith List Lra Lia.
From Verif Require Import Base.Dual Model.Materials Model.Laws Model.Theta Model.Forms Spec.PhysSpec Spec.BalanceSpec
  Spec.ExtrinsicSpec Spec.AccuracySpec Proofs.ThetaProofs Proofs.FormProofs Proofs.TrapProofs Proofs.ExtrinsicProofs.
Import ListNotations.
Local Open Scope R_scope.

(** * The exponential *)

Lemma exp_scaled_lim l t : derivable_pt_lim (fun t => exp (- (l * t))) t (- l * exp (- (l * t))).
Proof.
  replace (- l * exp (- (l * t))) with (exp (- (l * t)) * (- (l * 1))) by ring.
  apply (derivable_pt_lim_comp (fun t => - (l * t)) exp).
  - apply (derivable_pt_lim_opp (fun t => l * t)). apply (derivable_pt_lim_scal id). apply derivable_pt_lim_id.
  - apply derivable_pt_lim_exp.
Qed.

(** 1 - (1 + x) exp (-x) is between 0 and x^2 / 2. *)
Lemma euler_step x : 0 <= x -> exp (- x) <= / (1 + x) /\ / (1 + x) - exp (- x) <= x * x / 2 * / (1 + x).
Proof.
  intros Hx.
  assert (Hle : (1 + x) * exp (- x) <= 1).
  { rewrite exp_Ropp. apply (Rmult_le_reg_r (exp x)); [apply exp_pos|].
    rewrite Rmult_assoc, Rinv_l, Rmult_1_r, Rmult_1_l by (apply Rgt_not_eq, exp_pos).
    apply exp_ineq1_le. }
  assert (Hg : 0 <= x * x / 2 - 1 + (1 + x) * exp (- x)).
  { set (g := fun s => s * s / 2 - 1 + (1 + s) * exp (- s)).
    assert (Hd : forall s, derivable_pt_lim g s (s - s * exp (- s))).
    { intros s. unfold g.
      replace (s - s * exp (- s)) with ((1 * s + s * 1) * / 2 - 0 + ((0 + 1) * exp (- s) + (1 + s) * (exp (- s) * - 1)))
        by field.
      apply (derivable_pt_lim_plus (fun s => s * s / 2 - 1) (fun s => (1 + s) * exp (- s))).
      - apply (derivable_pt_lim_minus (fun s => s * s / 2) (fun _ => 1)); [|apply derivable_pt_lim_const].
        unfold Rdiv. replace ((1 * s + s * 1) * / 2) with ((1 * s + s * 1) * / 2 + s * s * 0) by ring.
        apply (derivable_pt_lim_mult (fun s => s * s) (fun _ => / 2)); [|apply derivable_pt_lim_const].
        apply (derivable_pt_lim_mult id id); apply derivable_pt_lim_id.
      - apply (derivable_pt_lim_mult (fun s => 1 + s) (fun s => exp (- s))).
        + apply (derivable_pt_lim_plus (fun _ => 1) id); [apply derivable_pt_lim_const|apply derivable_pt_lim_id].
        + apply (derivable_pt_lim_comp (fun s => - s) exp); [|apply derivable_pt_lim_exp].
          apply (derivable_pt_lim_opp id). apply derivable_pt_lim_id. }
    destruct Hx as [Hx| <-].
    - destruct (MVT_cor2 g (fun s => s - s * exp (- s)) 0 x Hx (fun s _ => Hd s)) as [s [E Hs]].
      assert (E0 : g 0 = 0) by (unfold g; rewrite Ropp_0, exp_0; lra).
      assert (Hs1 : exp (- s) <= 1) by (rewrite <- exp_0; left; apply exp_increasing; lra).
      assert (0 <= s - s * exp (- s)) by (assert (0 <= s * (1 - exp (- s))) by (apply Rmult_le_pos; lra); lra).
      assert (0 <= (s - s * exp (- s)) * (x - 0)) by (apply Rmult_le_pos; lra). fold (g x). lra.
    - rewrite Ropp_0, exp_0. lra. }
  assert (Hi : 0 < / (1 + x)) by (apply Rinv_0_lt_compat; lra).
  split; apply (Rmult_le_reg_r (1 + x)); try lra.
  - rewrite Rinv_l by lra. lra.
  - rewrite Rmult_assoc, Rinv_l, Rmult_1_r by lra. unfold Rminus at 1. rewrite Rmult_plus_distr_r, Rinv_l by lra. lra.
Qed.

(** The implicit steps lose less than the exponential, by at most l h / 2 of what they lose. *)
Lemma missing_exp l h dts : 0 < l -> Forall (fun dt => 0 < dt <= h) dts ->
  exp (- (l * elapsed dts)) <= missing l dts /\
  missing l dts - exp (- (l * elapsed dts)) <= l * h / 2 * (1 - missing l dts).
Proof.
  intros Hl. induction 1 as [|dt dts Hdt Hd [IH1 IH2]]; cbn [missing elapsed fold_right].
  { rewrite Rmult_0_r, Ropp_0, exp_0. lra. }
  fold (elapsed dts).
  assert (Hd' : Forall (fun dt => 0 < dt) dts) by (eapply Forall_impl; [|exact Hd]; intros a Ha; lra).
  assert (Ht := elapsed_pos dts Hd').
  assert (Hx : 0 < l * dt) by (apply Rmult_lt_0_compat; lra).
  destruct (euler_step (l * dt) (Rlt_le _ _ Hx)) as [H1 H2].
  replace (- (l * (dt + elapsed dts))) with (- (l * dt) + - (l * elapsed dts)) by ring. rewrite exp_plus.
  set (b := exp (- (l * dt))) in *. set (E := exp (- (l * elapsed dts))) in *. set (M := missing l dts) in *.
  assert (HE : 0 < E <= 1).
  { split; [apply exp_pos|]. unfold E. rewrite <- exp_0. destruct (Rmult_le_pos l (elapsed dts)) as [H|H]; [lra|lra| |].
    - left. apply exp_increasing. lra.
    - rewrite <- H, Ropp_0. lra. }
  assert (Hb : 0 < b) by apply exp_pos.
  assert (Ea : / (1 + l * dt) * (1 + l * dt) = 1) by (apply Rinv_l; lra).
  set (a := / (1 + l * dt)) in *. set (x := l * dt) in *.
  assert (Hxh : x <= l * h) by (unfold x; apply Rmult_le_compat_l; lra).
  assert (Ha : 0 < a) by lra.
  split; [apply Rmult_le_compat; lra|].
  assert (K1 : a * (M - E) <= a * (l * h / 2 * (1 - M))) by (apply Rmult_le_compat_l; lra).
  assert (K2 : (a - b) * E <= x * x / 2 * a * E) by (apply Rmult_le_compat_r; lra).
  assert (K3 : x * x / 2 * a * E <= l * h / 2 * (x * a)).
  { replace (x * x / 2 * a * E) with (x / 2 * (x * a) * E) by field.
    assert (Hxa : 0 <= x * a) by (apply Rmult_le_pos; lra).
    apply Rle_trans with (x / 2 * (x * a) * 1).
    - apply Rmult_le_compat_l; [apply Rmult_le_pos; lra|lra].
    - rewrite Rmult_1_r. apply Rmult_le_compat_r; lra. }
  assert (Exa : x * a = 1 - a) by lra. rewrite Exa in K3.
  replace (a * M - b * E) with (a * (M - E) + (a - b) * E) by ring.
  apply Rle_trans with (a * (l * h / 2 * (1 - M)) + l * h / 2 * (1 - a)); [lra|].
  right. ring.
Qed.

(** * The solution of the equation *)

Lemma evolves_exp g l y0 y t : 0 < l -> evolves g l y0 y -> 0 <= t -> y t = g / l + (y0 - g / l) * exp (- (l * t)).
Proof.
  intros Hl [E0 Hy] Ht.
  set (f := fun s => (y s - g / l) * exp (l * s)).
  assert (Hd : forall s, 0 <= s -> derivable_pt_lim f s 0).
  { intros s Hs. unfold f.
    replace 0 with ((g - l * y s - 0) * exp (l * s) + (y s - g / l) * (exp (l * s) * (l * 1))) by (field; lra).
    apply (derivable_pt_lim_mult (fun s => y s - g / l) (fun s => exp (l * s))).
    - apply (derivable_pt_lim_minus y (fun _ => g / l)); [now apply Hy|apply derivable_pt_lim_const].
    - apply (derivable_pt_lim_comp (fun s => l * s) exp); [|apply derivable_pt_lim_exp].
      apply (derivable_pt_lim_scal id). apply derivable_pt_lim_id. }
  assert (E : f t = f 0).
  { destruct Ht as [Ht| <-]; [|reflexivity].
    destruct (MVT_cor2 f (fun _ => 0) 0 t Ht (fun s Hs => Hd s (proj1 Hs))) as [s [E _]]. lra. }
  unfold f in E. rewrite E0, Rmult_0_r, exp_0, Rmult_1_r in E.
  rewrite exp_Ropp, <- E. field. split; [apply Rgt_not_eq, exp_pos|lra].
Qed.
Lemma evolves_solution g l y0 : 0 < l -> evolves g l y0 (fun t => g / l + (y0 - g / l) * exp (- (l * t))).
Proof.
  intros Hl. split; [rewrite Rmult_0_r, Ropp_0, exp_0; lra|]. intros t _.
  replace (g - l * (g / l + (y0 - g / l) * exp (- (l * t)))) with (0 + (y0 - g / l) * (- l * exp (- (l * t)))) by (field; lra).
  apply (derivable_pt_lim_plus (fun _ => g / l) (fun t => (y0 - g / l) * exp (- (l * t)))); [apply derivable_pt_lim_const|].
  apply (derivable_pt_lim_scal (fun t => exp (- (l * t)))). apply exp_scaled_lim.
Qed.

(** * A run *)

Lemma elapsed_app a b : elapsed (a ++ b) = elapsed a + elapsed b.
Proof. unfold elapsed. induction a as [|x a IH]; cbn; [ring|]. rewrite IH. ring. Qed.
Lemma elapsed_clock dt n : elapsed (map dt (seq 0 n)) = clock dt n.
Proof.
  induction n as [|n IH]; [reflexivity|]. rewrite seq_S, map_app, elapsed_app, IH. cbn. lra.
Qed.
Lemma clock_nonneg dt n : (forall k, 0 < dt k) -> 0 <= clock dt n.
Proof. intros H. induction n as [|n IH]; cbn; [lra|]. specialize (H n). lra. Qed.

Lemma steps_closed g l dt x n : 0 < l -> (forall k, 0 < dt k) ->
  (forall k, x (S k) * (1 + l * dt k) = x k + dt k * g) ->
  x n = g / l + (x 0%nat - g / l) * missing l (map dt (seq 0 n)).
Proof.
  intros Hl Hdt Hx. induction n as [|n IH]; [cbn; ring|].
  rewrite seq_S, map_app, missing_app. cbn [map missing Nat.add].
  assert (Hp : 0 < l * dt n) by (apply Rmult_lt_0_compat; [exact Hl|apply Hdt]).
  apply (Rmult_eq_reg_r (1 + l * dt n)); [|lra]. rewrite (Hx n), IH. field. split; lra.
Qed.

(** The steps stay on one side of the solution, and close to it. *)
Lemma steps_close g l h dt x y n : 0 < l -> (forall k, 0 < dt k <= h) ->
  (forall k, x (S k) * (1 + l * dt k) = x k + dt k * g) -> evolves g l (x 0%nat) y ->
  Rabs (x n - y (clock dt n)) <= l * h / 2 * Rabs (x n - x 0%nat) /\
  Rabs (x n - x 0%nat) <= Rabs (x 0%nat - g / l).
Proof.
  intros Hl Hdt Hx Hy.
  assert (Hdt0 : forall k, 0 < dt k) by (intros k; destruct (Hdt k); lra).
  assert (Hf : Forall (fun dt => 0 < dt <= h) (map dt (seq 0 n))).
  { apply Forall_forall. intros d Hd. apply in_map_iff in Hd. destruct Hd as [k [<- _]]. apply Hdt. }
  assert (Hf0 : Forall (fun dt => 0 < dt) (map dt (seq 0 n))) by (eapply Forall_impl; [|exact Hf]; intros a Ha; lra).
  destruct (missing_exp l h _ Hl Hf) as [H1 H2]. rewrite elapsed_clock in H1, H2.
  assert (Hm := missing_pos l _ (Rlt_le _ _ Hl) Hf0).
  assert (Hme := missing_elapsed l _ (Rlt_le _ _ Hl) Hf0). rewrite elapsed_clock in Hme.
  assert (Hc := clock_nonneg dt n Hdt0).
  rewrite (evolves_exp g l _ y _ Hl Hy Hc), (steps_closed g l dt x n Hl Hdt0 Hx).
  set (m := missing l (map dt (seq 0 n))) in *. set (e := exp (- (l * clock dt n))) in *.
  assert (Hm1 : m <= 1).
  { assert (0 <= m * (l * clock dt n)) by (apply Rmult_le_pos; [lra|apply Rmult_le_pos; lra]). lra. }
  replace (g / l + (x 0%nat - g / l) * m - (g / l + (x 0%nat - g / l) * e)) with ((x 0%nat - g / l) * (m - e)) by ring.
  replace (g / l + (x 0%nat - g / l) * m - x 0%nat) with ((x 0%nat - g / l) * (m - 1)) by ring.
  rewrite !Rabs_mult, (Rabs_pos_eq (m - e)), (Rabs_left1 (m - 1)) by lra.
  assert (Ha := Rabs_pos (x 0%nat - g / l)). split.
  - replace (l * h / 2 * (Rabs (x 0%nat - g / l) * - (m - 1))) with (Rabs (x 0%nat - g / l) * (l * h / 2 * (1 - m))) by ring.
    apply Rmult_le_compat_l; lra.
  - rewrite <- (Rmult_1_r (Rabs (x 0%nat - g / l))) at 2. apply Rmult_le_compat_l; lra.
Qed.

(** * The supply of a closed radioactive body *)

Section Supply.
Context {P : Type}.
Lemma produced M g l (ss : list (source P)) c : produces_and_decays M g l ss ->
  sum_over ss (source_rate M c) = g - l * total M c.
Proof.
  intros [st [de [-> [Hs [Hg [H1 [H2 H3]]]]]]]. unfold sum_over. rewrite map_app, rsum_app.
  fold (sum_over st (source_rate M c)). fold (sum_over de (source_rate M c)).
  rewrite (decay_total M l de c H1 H2 H3), <- Hg. unfold production.
  rewrite (sum_over_ext st _ (fun s => sum_over (ids (s_volume s)) (fun z => total_in M z (s_value s)))); [ring|].
  intros s Hin. unfold source_rate. rewrite (Hs s Hin). reflexivity.
Qed.
Lemma closed_supply M g l T c mb (traps : list (trap P)) : closed_and_radioactive M g l mb traps ->
  supply M T c mb traps = g - l * inventory M c traps.
Proof.
  intros [Hb [g0 [gs [Hm [Ht ->]]]]]. unfold supply, inventory. rewrite Hb, (produced M g0 l _ c Hm).
  assert (E : sum_over traps (fun t => sum_over (t_sources t) (source_rate M (fun p => val (t_solution t p))))
              = fold_right Rplus 0 gs - l * sum_over traps (fun t => total M (fun p => val (t_solution t p)))).
  { induction Ht as [|t g ts gs Hg _ IH].
    - unfold sum_over. cbn. ring.
    - unfold sum_over in *. cbn [map fold_right]. rewrite !rsum_cons, IH.
      change (rsum (map ?f (t_sources t))) with (sum_over (t_sources t) f). rewrite (produced M g l _ _ Hg). ring. }
  rewrite E. unfold sum_over at 2. cbn [map]. rewrite rsum_nil. ring.
Qed.
End Supply.
