(** Termination of retries and of transient runs, in exact arithmetic. *)
From Coq Require Import ZArith QArith Qabs Qround Qminmax Qpower List Bool Lqa Lia String.
From Verif Require Import Base.Exc Base.Num Model.Stepsize Model.TimeLoop Spec.TimeSpec
  Proofs.NumQ Proofs.StepsizeProofs Proofs.TimeLoopProofs Proofs.TimeChain Proofs.TimeQ Proofs.TimeQ2.
Import ListNotations.
Local Open Scope Q_scope.

(** ** Powers *)
Fixpoint qpow (r : Q) (n : nat) : Q := match n with O => 1 | S k => r * qpow r k end.

Lemma qpow_pos r n : 0 < r -> 0 < qpow r n.
Proof. intros Hr. induction n as [|n IH]; cbn; [lra|]. now apply Qmult_pos. Qed.

Lemma qpow_bernoulli r n : 1 < r -> 1 + inject_Z (Z.of_nat n) * (r - 1) <= qpow r n.
Proof.
  intros Hr. induction n as [|n IH].
  - change (inject_Z (Z.of_nat 0)) with 0. cbn. lra.
  - rewrite Nat2Z.inj_succ. unfold Z.succ. rewrite inject_Z_plus. cbn [qpow].
    assert (Hn : 0 <= inject_Z (Z.of_nat n)).
    { change 0 with (inject_Z 0). rewrite <- Zle_Qle. lia. }
    change (inject_Z 1) with 1.
    set (z := inject_Z (Z.of_nat n)) in *. set (p := qpow r n) in *.
    assert (H1 : r * (1 + z * (r - 1)) <= r * p) by (rewrite (Qmult_comm r p), (Qmult_comm r); apply Qmult_le_compat_r; lra).
    assert (H2 : 0 <= z * ((r - 1) * (r - 1))).
    { apply Qmult_le_0_compat; [assumption|]. apply Qmult_le_0_compat; lra. }
    apply Qle_trans with (r * (1 + z * (r - 1))); [|assumption].
    setoid_replace (r * (1 + z * (r - 1))) with
      (1 + (z + 1) * (r - 1) + z * ((r - 1) * (r - 1))) by ring. lra.
Qed.

Lemma archimed (x d : Q) : 0 < d -> exists n, x < inject_Z (Z.of_nat n) * d.
Proof.
  intros Hd.
  assert (H : exists n, x / d < inject_Z (Z.of_nat n)).
  { exists (Z.to_nat (Z.max 0 (Qfloor (x / d) + 1))). rewrite Z2Nat.id by lia.
    apply Qlt_le_trans with (inject_Z (Qfloor (x / d) + 1)).
    - apply Qlt_floor.
    - rewrite <- Zle_Qle. lia. }
  destruct H as [n H]. exists n.
  setoid_replace x with ((x / d) * d) by (field; lra).
  rewrite (Qmult_comm (x / d)), (Qmult_comm (inject_Z _)).
  apply Qmult_lt_l; assumption.
Qed.

Lemma qpow_unbounded r x : 1 < r -> exists n, x < qpow r n.
Proof.
  intros Hr. destruct (archimed x (r - 1)) as [n Hn]; [lra|].
  exists n. pose proof (qpow_bernoulli r n Hr). lra.
Qed.

(** ** C08: retries *)
Lemma cap_le m t v w : cap (A:=Q) m t v = Ok w -> w <= v.
Proof.
  unfold cap. destruct (match m with MaxNone => _ | _ => _ end) as [[b|]|]; cbn; [| |discriminate].
  - destruct (Qltb b v) eqn:H; qb; injection 1 as <-; lra.
  - injection 1 as <-. lra.
Qed.

Lemma adapt_failed_value (s s' : stepsize Q) a t nb :
  adaptive_stepsize s = Some a -> 1 < change_ratio a ->
  adapt s t nb false = Ok s' ->
  (exists dm, dt_min a = Some dm /\ dm * change_ratio a <= value s) /\
  value s' <= (if hard nb then value s / (change_ratio a * change_ratio a) else value s).
Proof.
  intros Ha Hr H.
  destruct (adapt_failed_inv _ _ _ _ _ Ha H) as (dm & Hdm & Hle).
  split.
  { exists dm. split; [assumption|]. setoid_replace (value s) with ((value s / change_ratio a) * change_ratio a) by (field; lra).
    apply Qmult_le_compat_r; lra. }
  apply adapt_inv in H as (v & Hv & ->). rewrite Ha in Hv. cbn [assign value].
  eapply Qle_trans; [apply clamp_milestone_le|].
  unfold adapt_value in Hv. destruct (adapt_diverged a (value s)) as [v1|] eqn:E1; [|discriminate].
  cbn [bind] in Hv.
  assert (Hv1 : v1 = value s / change_ratio a).
  { unfold adapt_diverged in E1. rewrite Hdm in E1.
    destruct (py_div (value s) (change_ratio a)) as [w|] eqn:Ew; cbn in E1; [|discriminate].
    destruct (Qltb w dm); [discriminate|]. injection E1 as <-. now apply py_div_ok in Ew. }
  unfold hard. destruct (nb <? 5)%Z eqn:En.
  - cbn [bind] in Hv. apply cap_le in Hv. cbn in Hv.
    replace (5 <=? nb)%Z with false by (symmetry; apply Z.leb_gt; apply Z.ltb_lt in En; lia).
    rewrite Hv1 in Hv.
    setoid_replace (value s) with ((value s / change_ratio a) * change_ratio a) by (field; lra).
    exact Hv.
  - replace (5 <=? nb)%Z with true by (symmetry; apply Z.leb_le; apply Z.ltb_ge in En; lia).
    destruct (py_div v1 (change_ratio a)) as [w|] eqn:Ew; [|discriminate]. cbn [bind] in Hv.
    apply py_div_ok in Ew. apply cap_le in Hv. rewrite Ew, Hv1 in Hv.
    setoid_replace (value s / (change_ratio a * change_ratio a))
      with (value s / change_ratio a / change_ratio a) by (field; lra).
    exact Hv.
Qed.

Lemma cap_total m t v : total_max m -> exists w, cap (A:=Q) m t v = Ok w.
Proof.
  intros H. unfold cap. destruct m as [|x|f]; cbn; [eauto|eauto|].
  destruct (f t) as [[b|]|e] eqn:E; cbn; [eauto|eauto|]. exfalso. eapply H; eauto.
Qed.

Lemma adapt_failed_err (s : stepsize Q) a t nb dm e :
  adaptive_stepsize s = Some a -> 1 < change_ratio a -> dt_min a = Some dm ->
  total_max (max_stepsize a) -> adapt s t nb false = Err e ->
  e = ValueError "stepsize reached minimal value".
Proof.
  intros Ha Hr Hdm Hm. unfold adapt. rewrite Ha. unfold adapt_value, adapt_diverged. rewrite Hdm.
  assert (Hdiv : forall v, py_div v (change_ratio a) = Ok (v / change_ratio a)).
  { intros v. unfold py_div. cbn. destruct (Qeq_bool (change_ratio a) 0) eqn:E0; [|reflexivity].
    apply Qeq_bool_iff in E0. lra. }
  rewrite Hdiv. cbn [bind]. destruct (nltb (value s / change_ratio a) dm); cbn [bind].
  - now injection 1.
  - destruct (nb <? 5)%Z; [|rewrite Hdiv]; cbn [bind];
      match goal with |- context [cap ?m ?t ?v] => destruct (cap_total m t v Hm) as [w ->] end;
      discriminate.
Qed.

Section Retry.
Context {U X D : Type}.

Lemma loop_retries t et T Tn dens g p a dm n :
  1 < change_ratio a -> 0 < dm -> dt_min a = Some dm -> total_max (max_stepsize a) ->
  forall atts (s : stepsize Q), adaptive_stepsize s = Some a ->
  value s < dm * change_ratio a * qpow (change_ratio a * change_ratio a) n ->
  (forall x, In x atts -> at_conv x = false) ->
  (n < hard_count atts)%nat ->
  exists u s' evs, update_loop (U:=U) (X:=X) (D:=D) t et T Tn dens g p s atts =
    (u, s', evs, Raised (ValueError "stepsize reached minimal value")).
Proof.
  intros Hr Hdm0 Hdm Hmax atts. revert n.
  induction atts as [|x r IH]; intros n s Ha Hv Hf Hn.
  - cbn in Hn. lia.
  - cbn [update_loop]. unfold calls_adapt. rewrite Ha.
    rewrite (Hf x (or_introl eq_refl)).
    destruct (adapt s t (at_nb x) false) as [s1|e] eqn:E1.
    + destruct (adapt_failed_value _ _ _ _ _ Ha Hr E1) as [(dm' & Hdm' & Hge) Hle].
      rewrite Hdm in Hdm'. injection Hdm' as <-.
      set (rr := change_ratio a * change_ratio a) in *.
      assert (Hrr : 0 < rr) by (apply Qmult_pos; lra).
      assert (Hs1 : exists m, value s1 < dm * change_ratio a * qpow rr m /\ (m < hard_count r)%nat).
      { unfold hard_count in *. cbn in Hn. destruct (hard (at_nb x)).
        - destruct n as [|n].
          + cbn [qpow] in Hv. lra.
          + exists n. split; [|cbn in Hn; lia].
            eapply Qle_lt_trans; [exact Hle|]. cbn [qpow] in Hv.
            apply Qlt_shift_div_r; [assumption|]. 
            setoid_replace (dm * change_ratio a * qpow rr n * rr)
              with (dm * change_ratio a * (rr * qpow rr n)) by ring. exact Hv.
        - exists n. split; [|assumption]. lra. }
      destruct Hs1 as (m & Hv1 & Hm).
      destruct (IH m s1) as (u & s' & evs & ->); auto.
      * now rewrite (adapt_adaptive _ _ _ _ _ E1).
      * intros y Hy. apply Hf. cbn. auto.
      * eauto.
    + apply (adapt_failed_err _ _ _ _ _ _ Ha Hr Hdm Hmax) in E1. subst e. eauto.
Qed.

Lemma retries_end t et T Tn dens g p a dm (s : stepsize Q) :
  1 < change_ratio a -> 0 < dm -> dt_min a = Some dm -> total_max (max_stepsize a) ->
  adaptive_stepsize s = Some a ->
  exists n, forall atts, (forall x, In x atts -> at_conv x = false) -> (n < hard_count atts)%nat ->
  exists u s' evs, update_loop (U:=U) (X:=X) (D:=D) t et T Tn dens g p s atts =
    (u, s', evs, Raised (ValueError "stepsize reached minimal value")).
Proof.
  intros Hr Hdm0 Hdm Hmax Ha.
  destruct (qpow_unbounded (change_ratio a * change_ratio a) (value s / (dm * change_ratio a))) as [n Hn].
  { setoid_replace 1 with (1 * 1) by ring.
    apply Qlt_trans with (change_ratio a * 1); [lra|]. apply Qmult_lt_l; lra. }
  exists n. intros atts Hf Hc. eapply loop_retries; eauto.
  assert (Hd : 0 < dm * change_ratio a) by (apply Qmult_pos; lra).
  setoid_replace (value s) with ((value s / (dm * change_ratio a)) * (dm * change_ratio a)) by (field; lra).
  rewrite (Qmult_comm (dm * change_ratio a)). 
  rewrite (Qmult_comm _ (dm * change_ratio a)), (Qmult_comm _ (dm * change_ratio a)).
  apply Qmult_lt_l; assumption.
Qed.
End Retry.
