(** C106: the time steps are accurate to first order. A quantity supplied at a constant rate that disappears in proportion
    to its amount - the density of an extrinsic or neutron-induced trap, the inventory of a closed body with sources and
    radioactive decay - stays, at all times, close to the solution of its equation, for any sequence of step sizes. *)
From Coq Require Import Reals ZArith List Lra Lia.
From Verif Require Import Base.Exc Base.Dual Model.Materials Model.Laws Model.Theta Model.Forms Model.ExtrinsicDensity
  Spec.PhysSpec Spec.BalanceSpec Spec.ExtrinsicSpec Spec.AccuracySpec Proofs.FormProofs Proofs.TrapProofs
  Proofs.ExtrinsicProofs Proofs.AccuracyProofs Properties.FormProps Properties.TrapProps Properties.ExtrinsicProps.
Import ListNotations.
Local Open Scope R_scope.

(** Densities: behind the solution, by at most l h / 2 of the density, hence by at most half of the traps created in one
    longest step - however long the run. *)
Theorem C106_density {P} (M : mesh P) V k T c l h dts n y : weights M -> space V -> uniform M k T c l -> 0 < l -> 0 <= c -> 0 < h ->
  Forall (fun dt => 0 < dt <= h) dts -> simulated_density M V k T true dts n -> evolves c l 0 y ->
  forall p, In p (q_cells M) -> 0 < q_weight M p ->
    n p <= y (elapsed dts) <= n p + l * h / 2 * n p /\ y (elapsed dts) - n p <= c * h / 2.
Proof.
  intros Hw HV Hu Hl Hc Hh Hd Hn Hy p Hp Hwp.
  assert (Hd0 : Forall (fun dt => 0 < dt) dts) by (eapply Forall_impl; [|exact Hd]; intros a Ha; lra).
  rewrite (C100_density M V k T c l dts n Hw HV Hu Hl Hd0 Hn p Hp Hwp).
  rewrite (evolves_exp c l 0 y _ Hl Hy (elapsed_pos dts Hd0)).
  destruct (missing_exp l h dts Hl Hd) as [H1 H2]. assert (Hm := missing_pos l dts (Rlt_le _ _ Hl) Hd0).
  assert (Hq : 0 <= c / l). { apply Rmult_le_pos; [exact Hc|]. left. now apply Rinv_0_lt_compat. }
  set (m := missing l dts) in *. set (e := exp (- (l * elapsed dts))) in *.
  assert (K1 : c / l * e <= c / l * m) by (apply Rmult_le_compat_l; lra).
  assert (K2 : c / l * (m - e) <= c / l * (l * h / 2 * (1 - m))) by (apply Rmult_le_compat_l; lra).
  split; [split; lra|].
  assert (K3 : c / l * (l * h / 2 * (1 - m)) <= c * h / 2).
  { replace (c / l * (l * h / 2 * (1 - m))) with (c * h / 2 * (1 - m)) by (field; lra).
    assert (0 <= c * h / 2) by (assert (0 <= c * h) by (apply Rmult_le_pos; lra); lra).
    assert (0 <= c * h / 2 * m) by (apply Rmult_le_pos; lra). lra. }
  lra.
Qed.
Print Assumptions C106_density.

(** Inventories: the distance to the solution is at most l h / 2 of the change since the start, hence at most half of what
    the first net rate supplies in one longest step. *)
Theorem C106_inventory {P} (M : mesh P) ms soret (s : nat -> step_state P) g l h y :
  q_type M = Cartesian -> covered M ms -> 0 < l ->
  (forall k, solved M ms soret (s k)) -> (forall k, chained (s k) (s (S k))) ->
  (forall k, closed_and_radioactive M g l (st_mb (s k)) (st_traps (s k))) -> (forall k, st_dt (s k) <= h) ->
  let before := inventory_before M (st_cn (s 0%nat)) (st_traps (s 0%nat)) in
  evolves g l before y ->
  forall n, let after := inventory M (st_c (s n)) (st_traps (s n)) in
    Rabs (after - y (clock (fun k => st_dt (s k)) (S n))) <= l * h / 2 * Rabs (after - before) /\
    Rabs (after - y (clock (fun k => st_dt (s k)) (S n))) <= Rabs (g - l * before) * h / 2.
Proof.
  intros Hty Hcov Hl Hs Hch Hcl Hh before Hy n after.
  set (x := fun k => match k with O => before | S k => inventory M (st_c (s k)) (st_traps (s k)) end).
  set (dt := fun k => st_dt (s k)).
  assert (Hdt : forall k, 0 < dt k) by (intros k; destruct (Hs k) as [_ [_ [_ [_ [_ [H _]]]]]]; exact H).
  assert (Hx : forall k, x (S k) * (1 + l * dt k) = x k + dt k * g).
  { intros k.
    assert (E : inventory M (st_c (s k)) (st_traps (s k))
      = inventory_before M (st_cn (s k)) (st_traps (s k))
        + st_dt (s k) * supply M (st_T (s k)) (st_c (s k)) (st_mb (s k)) (st_traps (s k))).
    { destruct (Hs k) as [Hc [HS [HT [Ht [Hsk [Hd [HF H0]]]]]]].
      apply (C37_balance M (st_mb (s k)) ms (st_T (s k)) (st_dt (s k)) (st_traps (s k)) soret (st_c (s k)) (st_cn (s k)) (st_form (s k)));
        assumption. }
    rewrite (closed_supply M g l _ _ _ _ (Hcl k)) in E.
    assert (Ek : inventory_before M (st_cn (s k)) (st_traps (s k)) = x k).
    { destruct k as [|k]; [reflexivity|]. apply (chained_inventory M ms soret (s k) (s (S k)) Hcov (Hs k) (Hs (S k)) (Hch k)). }
    rewrite Ek in E. unfold x at 1. unfold dt. lra. }
  destruct (steps_close g l h dt x y (S n) Hl (fun k => conj (Hdt k) (Hh k)) Hx Hy) as [H1 H2].
  change (x (S n)) with after in H1, H2. change (x 0%nat) with before in H1, H2.
  split; [exact H1|]. eapply Rle_trans; [exact H1|].
  assert (Hh0 : 0 < h) by (eapply Rlt_le_trans; [apply (Hdt 0%nat)|apply Hh]).
  replace (g - l * before) with (- l * (before - g / l)) by (field; lra).
  rewrite Rabs_mult, Rabs_Ropp, (Rabs_pos_eq l) by lra.
  assert (0 < l * h) by now apply Rmult_lt_0_compat.
  assert (l * h / 2 * Rabs (after - before) <= l * h / 2 * Rabs (before - g / l)) by (apply Rmult_le_compat_l; lra). lra.
Qed.
Print Assumptions C106_inventory.

(** Hence the steps converge: to be closer than [eps] to the solution at all times, no step may be longer than some [h]. *)
Theorem C106_converges {P} (M : mesh P) ms soret g l before eps : 0 < l -> 0 < eps ->
  q_type M = Cartesian -> covered M ms ->
  exists h, 0 < h /\ forall (s : nat -> step_state P) y,
    (forall k, solved M ms soret (s k)) -> (forall k, chained (s k) (s (S k))) ->
    (forall k, closed_and_radioactive M g l (st_mb (s k)) (st_traps (s k))) -> (forall k, st_dt (s k) <= h) ->
    inventory_before M (st_cn (s 0%nat)) (st_traps (s 0%nat)) = before -> evolves g l before y ->
    forall n, Rabs (inventory M (st_c (s n)) (st_traps (s n)) - y (clock (fun k => st_dt (s k)) (S n))) <= eps.
Proof.
  intros Hl He Hty Hcov. set (r := Rabs (g - l * before)). assert (Hr : 0 <= r) by apply Rabs_pos.
  exists (eps / (1 + r)). assert (Hh : 0 < eps / (1 + r)) by (apply Rdiv_lt_0_compat; lra).
  split; [exact Hh|]. intros s y Hs Hch Hcl Hdt <- Hy n.
  destruct (C106_inventory M ms soret s g l _ y Hty Hcov Hl Hs Hch Hcl Hdt Hy n) as [_ H].
  eapply Rle_trans; [exact H|]. fold r.
  assert (Er : eps / (1 + r) * (1 + r) = eps) by (field; lra).
  assert (0 <= eps / (1 + r) * r) by (apply Rmult_le_pos; lra). lra.
Qed.
Print Assumptions C106_converges.

(** The solution exists and is unique. *)
Theorem C106_solution g l y0 : 0 < l -> exists y, evolves g l y0 y /\
  forall z, evolves g l y0 z -> forall t, 0 <= t -> z t = y t.
Proof.
  intros Hl. exists (fun t => g / l + (y0 - g / l) * exp (- (l * t))). split; [now apply evolves_solution|].
  intros z Hz t Ht. now apply evolves_exp.
Qed.
Print Assumptions C106_solution.

(** A run that halves the hydrogen in every step of the time 1, with l = 1. *)
Definition halving_mobile (k : nat) : mobile nat :=
  mkMobile ClassMobile (fun _ => dconst ((/ 2) ^ S k)) (fun _ => dconst ((/ 2) ^ k)) ones
    [mkSource (IdMany [1; 2]%Z) (fun _ => 0) (Some 1)] [].
Definition halving (k : nat) : step_state nat :=
  mkStep (halving_mobile k) T_rest [] 1 (fun _ => (/ 2) ^ S k) (fun _ => (/ 2) ^ k)
    match define_variational_problem (mesh_ty Cartesian) (halving_mobile k) two_mats T_rest (Some 1) [] false with
    | Ok F => F
    | Err _ => []
    end.
Lemma halving_decays : decays_everywhere (mesh_ty Cartesian) 1 (mb_sources (halving_mobile 0)).
Proof.
  split; [now intros s [<-|[]]|]. split.
  - constructor; [intros [H|[]]; discriminate|]. constructor; [intros []|constructor].
  - intros p [<-|[<-|[]]]; cbn; auto.
Qed.
Lemma halving_solved k : solved (mesh_ty Cartesian) two_mats false (halving k).
Proof.
  assert (Ht : tests (mesh_ty Cartesian) (halving_mobile k) []).
  { split; [now apply cart_ones|]. split; [intros t []|intros s a []]. }
  assert (HF : define_variational_problem (mesh_ty Cartesian) (halving_mobile k) two_mats T_rest (Some 1) [] false
               = Ok (st_form (halving k))) by reflexivity.
  assert (Hc : concentrations (mesh_ty Cartesian) (halving_mobile k) T_rest two_mats (fun _ => (/ 2) ^ S k) (fun _ => (/ 2) ^ k)).
  { intros p _ m _ _. split; reflexivity. }
  assert (HT : positive_temperature (mesh_ty Cartesian) T_rest) by (intros p _; cbn; lra).
  split; [exact Hc|]. split; [exact I|]. split; [exact HT|]. split; [exact Ht|]. split; [intros s []|].
  split; [cbn; lra|]. split; [exact HF|].
  apply (C42_decay (mesh_ty Cartesian) (halving_mobile k) two_mats T_rest 1 [] false _ _ _ 1 (covered_ty _) Hc I HT Ht
           (or_introl eq_refl) ltac:(lra) ltac:(lra) eq_refl halving_decays ltac:(intros t []) HF).
  sums.
Qed.
Lemma halving_chained k : chained (halving k) (halving (S k)).
Proof. split; [exact I|]. split; [reflexivity|]. split; [reflexivity|constructor]. Qed.
Lemma halving_closed k : closed_and_radioactive (mesh_ty Cartesian) 0 1 (st_mb (halving k)) (st_traps (halving k)).
Proof.
  split; [reflexivity|]. exists 0, []. split; [|split; [constructor|cbn; ring]].
  exists [], (mb_sources (halving_mobile 0)). split; [reflexivity|]. split; [intros s []|]. split; [reflexivity|].
  exact halving_decays.
Qed.

(** Order 1 is all: the first step leaves half of the inventory, the solution at most 4/9. *)
Theorem C106_second_order_refuted :
  let M := mesh_ty Cartesian in
  (forall k, solved M two_mats false (halving k)) /\ (forall k, chained (halving k) (halving (S k))) /\
  (forall k, closed_and_radioactive M 0 1 (st_mb (halving k)) (st_traps (halving k))) /\ (forall k, st_dt (halving k) = 1) /\
  let before := inventory_before M (st_cn (halving 0)) (st_traps (halving 0)) in
  0 < before /\ inventory M (st_c (halving 0)) (st_traps (halving 0)) = before / 2 /\
  forall y, evolves 0 1 before y -> y (clock (fun k => st_dt (halving k)) 1) <= 4 / 9 * before.
Proof.
  intros M. split; [apply halving_solved|]. split; [apply halving_chained|]. split; [apply halving_closed|].
  split; [reflexivity|]. intros before.
  assert (E : before = 1 * wsum M (q_cells M) (fun _ => 1)) by (unfold before, M; sums).
  assert (Hb : 0 < before) by (rewrite E; unfold M; sums).
  split; [exact Hb|]. split; [unfold before, M; sums|]. intros y Hy.
  rewrite (evolves_exp 0 1 before y _ ltac:(lra) Hy) by (cbn; lra). cbn [clock st_dt halving].
  destruct (missing_exp 1 1 [/ 2; / 2] ltac:(lra) ltac:(repeat constructor; lra)) as [H _]. cbn [missing elapsed fold_right] in H.
  replace (/ (1 + 1 * / 2) * (/ (1 + 1 * / 2) * 1)) with (4 / 9) in H by field.
  replace (1 * (/ 2 + (/ 2 + 0))) with (1 * (0 + 1)) in H by field.
  assert (before * exp (- (1 * (0 + 1))) <= before * (4 / 9)) by (apply Rmult_le_compat_l; lra). lra.
Qed.
Print Assumptions C106_second_order_refuted.

(** The hypotheses of C106_density: the run of C100_example. *)
Example C106_example :
  weights one_point /\ space (fun _ : nat -> R => True) /\ uniform one_point neutron_x (fun _ => 300) 2 (/ 2) /\
  Forall (fun dt => 0 < dt <= 6) [2; 6] /\
  simulated_density one_point (fun _ => True) neutron_x (fun _ => 300) true [2; 6] (fun _ => 7 / 2) /\
  evolves 2 (/ 2) 0 (fun t => 2 / / 2 + (0 - 2 / / 2) * exp (- (/ 2 * t))).
Proof.
  destruct C100_example as [H1 [H2 [H3 [_ [_ H4]]]]]. split; [exact H1|]. split; [exact H2|]. split; [exact H3|].
  split; [repeat constructor; lra|]. split; [exact H4|]. apply evolves_solution. lra.
Qed.
