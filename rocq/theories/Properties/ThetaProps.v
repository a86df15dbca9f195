(** C43 (theta <-> concentration) and C44 (continuity at interfaces). *)
From Coq Require Import Reals ZArith List Lra Psatz String.
From Verif Require Import Base.Exc Base.Dual Model.Materials Model.Laws Model.Theta Spec.PhysSpec
  Spec.ThetaSpec Proofs.LawProofs Proofs.ThetaProofs.
Import ListNotations.
Local Open Scope R_scope.

(** * C43 *)

(** An initial concentration, converted to theta and back by the equations, is unchanged. *)
Theorem C43_initial (m : mat) (T : dual) (S c theta : R) :
  0 < val T -> has_solubility m (val T) S -> 0 <= c ->
  theta_initialise m (val T) c = Ok theta ->
  forall u, val u = theta ->
  exists c_0 c_0_n, theta_concentration m T T u u = Ok (c_0, c_0_n) /\ val c_0 = c /\ val c_0_n = c.
Proof.
  intros HT [S0 [ES [HS [HE [Hpos HSv]]]]] Hc Hth u Hu.
  destruct (initialise_ok m (val T) c theta HT Hth) as [S0' [ES' [HS' [HE' Hv]]]].
  assert (S0' = S0) by congruence. assert (ES' = ES) by congruence. subst S0' ES'.
  destruct (theta_concentration_some m T T u u S0 ES HS HE) as [a [b Hab]].
  exists a, b. split; [exact Hab|].
  destruct (theta_concentration_val m T T u u a b HT HT Hab) as [S1 [E1 [HS1 [HE1 [Ha Hb]]]]].
  assert (S1 = S0) by congruence. assert (E1 = ES) by congruence. subst S1 E1.
  rewrite Ha, Hb, Hu, Hv. pose proof (arrhenius_pos S0 ES (val T) Hpos) as HA.
  destruct (m_law m).
  - cbn [conc_of]. split; field; lra.
  - now rewrite conc_of_sqrt.
Qed.
Print Assumptions C43_initial.

(** An imposed concentration is unchanged in Sieverts materials; in Henry materials DOLFIN_EPS times
    the solubility is added. *)
Theorem C43_boundary_partial (ms : list mat) (m : mat) (z : Z) (T : dual) (S c theta : R) :
  0 < val T -> owner ms m z -> has_solubility m (val T) S -> 0 <= c ->
  bc_theta ms z (val T) c = Ok theta ->
  forall u, val u = theta ->
  exists c_0 c_0_n, theta_concentration m T T u u = Ok (c_0, c_0_n) /\
    val c_0 = match m_law m with Sievert => c | Henry => c + 3e-16 * S end.
Proof.
  intros HT [Hnd [Hin Hz]] [S0 [ES [HS [HE [Hpos HSv]]]]] Hc Hth u Hu.
  destruct (bc_theta_ok ms m z (val T) c theta HT Hnd Hin Hz Hth) as [S0' [ES' [HS' [HE' Hv]]]].
  assert (S0' = S0) by congruence. assert (ES' = ES) by congruence. subst S0' ES'.
  destruct (theta_concentration_some m T T u u S0 ES HS HE) as [a [b Hab]].
  exists a, b. split; [exact Hab|].
  destruct (theta_concentration_val m T T u u a b HT HT Hab) as [S1 [E1 [HS1 [HE1 [Ha Hb]]]]].
  assert (S1 = S0) by congruence. assert (E1 = ES) by congruence. subst S1 E1.
  rewrite Ha, Hu, Hv. pose proof (arrhenius_pos S0 ES (val T) Hpos) as HA. rewrite HSv.
  destruct (m_law m).
  - cbn [conc_of]. field. lra.
  - cbn [conc_of].
    replace (sqrt (c / arrhenius S0 ES (val T) + DOLFIN_EPS) ^ 2)
      with (sqrt (c / arrhenius S0 ES (val T) + DOLFIN_EPS) * sqrt (c / arrhenius S0 ES (val T) + DOLFIN_EPS))
      by ring.
    rewrite sqrt_sqrt.
    + unfold DOLFIN_EPS. field. lra.
    + assert (0 <= c / arrhenius S0 ES (val T))
        by (apply Rmult_le_pos; [exact Hc|]; left; now apply Rinv_0_lt_compat).
      unfold DOLFIN_EPS. lra.
Qed.
Print Assumptions C43_boundary_partial.

(** Materials for the examples: S = 2 in material 1 (Sieverts), S = 8 in material 2 (Henry). *)
Definition sievert_mat : mat :=
  mkMaterial (IdOne 1) None (Const 1) (Const 0) (Some (Const 2)) (Some (Const 0)) None None None
    BNone None Sievert.
Definition henry_mat : mat :=
  mkMaterial (IdOne 2) None (Const 1) (Const 0) (Some (Const 8)) (Some (Const 0)) None None None
    BNone None Henry.
Definition T300 : dual := mkDual 300 (fun _ => 0).

Lemma T300_exp : exp (- 0 / k_B / 300) = 1.
Proof. replace (-0 / k_B / 300) with 0 by (pose proof k_B_pos; field; lra). apply exp_0. Qed.
Lemma arrhenius_300 A : arrhenius A 0 300 = A.
Proof. rewrite <- arrhenius_model by lra. rewrite T300_exp. ring. Qed.

Lemma sievert_solubility : has_solubility sievert_mat 300 2.
Proof. exists 2, 0. cbn. repeat split; [lra|]. now rewrite arrhenius_300. Qed.
Lemma henry_solubility : has_solubility henry_mat 300 8.
Proof. exists 8, 0. cbn. repeat split; [lra|]. now rewrite arrhenius_300. Qed.
Lemma two_owner_1 : owner [sievert_mat; henry_mat] sievert_mat 1.
Proof.
  repeat split; cbn; auto.
  constructor; [cbn; intros [H|[]]; discriminate|]. constructor; [intros []|constructor].
Qed.
Lemma two_owner_2 : owner [sievert_mat; henry_mat] henry_mat 2.
Proof.
  repeat split; cbn; auto.
  constructor; [cbn; intros [H|[]]; discriminate|]. constructor; [intros []|constructor].
Qed.

(** False in a Henry material: imposing 0 imposes 2.4e-15. *)
Theorem C43_boundary_refuted :
  exists ms m z T c theta c_0 c_0_n,
    owner ms m z /\ (exists S, has_solubility m (val T) S) /\ 0 <= c /\
    bc_theta ms z (val T) c = Ok theta /\
    theta_concentration m T T (dconst theta) (dconst theta) = Ok (c_0, c_0_n) /\ val c_0 <> c.
Proof.
  exists [sievert_mat; henry_mat], henry_mat, 2%Z, T300, 0.
  assert (Hb : bc_theta [sievert_mat; henry_mat] 2 (val T300) 0
               = Ok (sqrt (0 / (8 * exp (- 0 / k_B / 300)) + DOLFIN_EPS))) by reflexivity.
  destruct (C43_boundary_partial _ _ _ T300 8 0 _ ltac:(cbn; lra) two_owner_2 henry_solubility
              ltac:(lra) Hb (dconst _) eq_refl) as [a [b [Hab Ha]]].
  exists (sqrt (0 / (8 * exp (- 0 / k_B / 300)) + DOLFIN_EPS)), a, b.
  repeat split; try exact Hab; try apply two_owner_2.
  - exists 8. apply henry_solubility.
  - lra.
  - rewrite Ha. cbn [m_law henry_mat]. lra.
Qed.
Print Assumptions C43_boundary_refuted.

(** The concentration given to fluxes and decay, the one of the equations and the exported one are the
    same, wherever the material of the cell is unique. *)
Theorem C43_same_concentration (ms : list mat) (m : mat) (z : Z) (T u un : dual) (S : R) :
  0 < val T -> owner ms m z -> has_solubility m (val T) S ->
  arhenius_coeff (@m_S0 R prop) (@m_ES R prop) ms z (val T) = Ok S /\
  (exists c_0 c_0_n,
     theta_concentration m T T u un = Ok (c_0, c_0_n) /\
     theta_mobile_concentration ms z S (val u) = val c_0 /\
     (forall c, theta_post_processing ms z S (val u) = Ok c -> c = val c_0)) /\
  ((exists c, theta_post_processing ms z S (val u) = Ok c) <->
   forall m', In m' ms -> exists i, m_id m' = IdOne i).
Proof.
  intros HT [Hnd [Hin Hz]] [S0 [ES [HS [HE [Hpos HSv]]]]]. split; [|split].
  - unfold arhenius_coeff. rewrite (find_unique ms m z Hnd Hin Hz). cbn [bind]. rewrite HS, HE.
    cbn [float_of bind]. rewrite arrhenius_model by exact HT. congruence.
  - destruct (theta_concentration_some m T T u un S0 ES HS HE) as [a [b Hab]].
    exists a, b. split; [exact Hab|].
    destruct (theta_concentration_val m T T u un a b HT HT Hab) as [S1 [E1 [HS1 [HE1 [Ha Hb]]]]].
    assert (S1 = S0) by congruence. assert (E1 = ES) by congruence. subst S1 E1.
    rewrite Ha, <- HSv. split.
    + now apply mobile_concentration_owner.
    + intros c Hc. eapply post_processing_owner; eassumption.
  - apply post_processing_ok.
Qed.
Print Assumptions C43_same_concentration.

Example C43_example :
  theta_initialise henry_mat 300 32 = Ok 2 /\
  theta_mobile_concentration [sievert_mat; henry_mat] 2 8 2 = 32 /\
  theta_post_processing [sievert_mat; henry_mat] 2 8 2 = Ok 32 /\
  theta_post_processing [sievert_mat; henry_mat] 1 2 2 = Ok 4.
Proof.
  split; [|split; [|split]].
  - unfold theta_initialise. cbn [m_id m_S0 m_ES m_law henry_mat dx_id float_of bind]. cbv zeta.
    rewrite T300_exp. replace (32 / (8 * 1)) with (2 * 2) by lra. now rewrite sqrt_square by lra.
  - rewrite (mobile_concentration_owner _ henry_mat); [cbn; lra| | |]; apply two_owner_2.
  - cbn [theta_post_processing m_id m_law sievert_mat henry_mat dx_id bind Z.eqb Pos.eqb]. f_equal. lra.
  - cbn [theta_post_processing m_id m_law sievert_mat henry_mat dx_id bind Z.eqb Pos.eqb]. f_equal. lra.
Qed.

(** * C44: at a point where theta and T are the same on both sides. *)
Theorem C44_interface (m1 m2 : mat) (T u un c1 c2 x y : dual) (S1 S2 : R) :
  0 < val T -> 0 <= val u -> has_solubility m1 (val T) S1 -> has_solubility m2 (val T) S2 ->
  theta_concentration m1 T T u un = Ok (c1, x) -> theta_concentration m2 T T u un = Ok (c2, y) ->
  match m_law m1, m_law m2 with
  | Sievert, Sievert | Henry, Henry => val c1 / S1 = val c2 / S2
  | Sievert, Henry => (val c1 / S1) ^ 2 = val c2 / S2
  | Henry, Sievert => val c1 / S1 = (val c2 / S2) ^ 2
  end.
Proof.
  intros HT Hu [A1 [E1 [H1 [H1' [P1 V1]]]]] [A2 [E2 [H2 [H2' [P2 V2]]]]] Hc1 Hc2.
  destruct (theta_concentration_val m1 T T u un c1 x HT HT Hc1) as [B1 [F1 [K1 [K1' [W1 _]]]]].
  destruct (theta_concentration_val m2 T T u un c2 y HT HT Hc2) as [B2 [F2 [K2 [K2' [W2 _]]]]].
  assert (B1 = A1) by congruence. assert (F1 = E1) by congruence.
  assert (B2 = A2) by congruence. assert (F2 = E2) by congruence. subst B1 F1 B2 F2.
  rewrite W1, W2, V1, V2.
  pose proof (arrhenius_pos A1 E1 (val T) P1). pose proof (arrhenius_pos A2 E2 (val T) P2).
  destruct (m_law m1), (m_law m2); cbn [conc_of]; field; lra.
Qed.
Print Assumptions C44_interface.

(** The jump: two Sieverts materials of different solubilities have different concentrations. *)
Theorem C44_jump (m1 m2 : mat) (T u un c1 c2 x y : dual) (S1 S2 : R) :
  0 < val T -> 0 < val u -> m_law m1 = m_law m2 ->
  has_solubility m1 (val T) S1 -> has_solubility m2 (val T) S2 ->
  theta_concentration m1 T T u un = Ok (c1, x) -> theta_concentration m2 T T u un = Ok (c2, y) ->
  (val c1 = val c2 <-> S1 = S2).
Proof.
  intros HT Hu Hl [A1 [E1 [H1 [H1' [P1 V1]]]]] [A2 [E2 [H2 [H2' [P2 V2]]]]] Hc1 Hc2.
  destruct (theta_concentration_val m1 T T u un c1 x HT HT Hc1) as [B1 [F1 [K1 [K1' [W1 _]]]]].
  destruct (theta_concentration_val m2 T T u un c2 y HT HT Hc2) as [B2 [F2 [K2 [K2' [W2 _]]]]].
  assert (B1 = A1) by congruence. assert (F1 = E1) by congruence.
  assert (B2 = A2) by congruence. assert (F2 = E2) by congruence. subst B1 F1 B2 F2.
  rewrite W1, W2, <- V1, <- V2, <- Hl. destruct (m_law m1); cbn [conc_of]; split; intros H; subst; try congruence.
  - nra.
  - assert (0 < val u ^ 2) by nra. nra.
Qed.
Print Assumptions C44_jump.

Example C44_example : exists c1 c2 x y,
  theta_concentration sievert_mat T300 T300 (dconst 3) (dconst 3) = Ok (c1, x) /\
  theta_concentration henry_mat T300 T300 (dconst 3) (dconst 3) = Ok (c2, y) /\
  val c1 = 6 /\ val c2 = 72 /\ (val c1 / 2) ^ 2 = val c2 / 8.
Proof.
  do 4 eexists. split; [reflexivity|]. split; [reflexivity|].
  cbn [val dmul dsquare dconst Theta.coefficient dexp ddiv T300]. rewrite T300_exp.
  repeat split; lra.
Qed.
