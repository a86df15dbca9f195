(** Rounding. *)
From Coq Require Import ZArith QArith Qabs Qround Qfield List Bool String Lqa Lia.
From Verif Require Import Base.Exc Base.Num Base.Key Model.Display Spec.DisplaySpec.
Import ListNotations.
Local Open Scope Q_scope.

Lemma floor_bounds q : inject_Z (Qfloor q) <= q /\ q < inject_Z (Qfloor q) + 1.
Proof.
  split; [apply Qfloor_le|]. pose proof (Qlt_floor q) as H. rewrite inject_Z_plus in H. exact H.
Qed.
Lemma nearest_error up q : inject_Z (nearest up q) - q <= 1 # 2 /\ q - inject_Z (nearest up q) <= 1 # 2.
Proof.
  unfold nearest. destruct (floor_bounds q) as [H1 H2]. set (n := Qfloor q) in *. cbv zeta.
  destruct (Qcompare (q - inject_Z n) (1 # 2)) eqn:E.
  - apply Qeq_alt in E. destruct (up n); rewrite ?inject_Z_plus; change (inject_Z 1) with 1; lra.
  - apply Qlt_alt in E. lra.
  - apply Qgt_alt in E. rewrite inject_Z_plus. change (inject_Z 1) with 1. lra.
Qed.
Lemma nearest_comp up a b : a == b -> nearest up a = nearest up b.
Proof.
  intros E. unfold nearest. rewrite (Qfloor_comp _ _ E). cbv zeta.
  now rewrite (Qcompare_comp (a - inject_Z (Qfloor b)) (b - inject_Z (Qfloor b)) ltac:(now rewrite E) (1 # 2) (1 # 2) ltac:(reflexivity)).
Qed.
Lemma nearest_range up q : (Qfloor q <= nearest up q <= Qfloor q + 1)%Z.
Proof. unfold nearest. cbv zeta. destruct (Qcompare _ _); [destruct (up _)| |]; lia. Qed.
Lemma nearest_mono up a b : a <= b -> (nearest up a <= nearest up b)%Z.
Proof.
  intros H. assert (Hf := Qfloor_resp_le _ _ H). pose proof (nearest_range up a). pose proof (nearest_range up b).
  destruct (Z.eq_dec (Qfloor a) (Qfloor b)) as [E|E]; [|lia].
  unfold nearest. cbv zeta. rewrite E. set (n := Qfloor b).
  destruct (Qcompare (a - inject_Z n) (1 # 2)) eqn:Ea; destruct (Qcompare (b - inject_Z n) (1 # 2)) eqn:Eb; try destruct (up n); try lia;
    rewrite <- ?Qeq_alt, <- ?Qlt_alt, <- ?Qgt_alt in *; lra.
Qed.
Lemma nearest_int up (z : Z) : nearest up (inject_Z z) = z.
Proof.
  unfold nearest. rewrite Qfloor_Z. cbv zeta.
  destruct (Qcompare (inject_Z z - inject_Z z) (1 # 2)) eqn:E; [apply Qeq_alt in E; lra|reflexivity|apply Qgt_alt in E; lra].
Qed.
Lemma tenths_int h : (h # 10) == inject_Z h / 10. Proof. unfold Qeq. cbn. lia. Qed.

(** In one go. *)
Definition shown up2 up1 (t F : Q) : Z := one_decimal up1 (nearest up2 (t / F * 100 * 100)).
Lemma shown_stands up2 up1 t F : stands_for (shown up2 up1 t F) t F.
Proof.
  unfold stands_for, shown, one_decimal. set (x := t / F).
  assert (Ex : x * 100 * 100 == x * 10000) by ring.
  destruct (nearest_error up2 (x * 100 * 100)) as [A B]. set (h := nearest up2 (x * 100 * 100)) in *.
  destruct (nearest_error up1 (h # 10)) as [C D]. set (n := nearest up1 (h # 10)) in *. clearbody n. rewrite tenths_int in C, D.
  apply Qabs_Qle_condition. assert (E : inject_Z h / 10 == inject_Z h * (1 # 10)) by (field; discriminate). rewrite E in C, D.
  assert (E' : inject_Z n / 10 == inject_Z n * (1 # 10)) by (field; discriminate). rewrite E'. split; lra.
Qed.
Lemma shown_mono up2 up1 a b F : 0 < F -> a <= b -> (shown up2 up1 a F <= shown up2 up1 b F)%Z.
Proof.
  intros HF H. unfold shown, one_decimal. apply nearest_mono. rewrite !tenths_int.
  apply Qmult_le_compat_r; [|discriminate]. rewrite <- Zle_Qle. apply nearest_mono.
  apply Qmult_le_compat_r; [|lra]. apply Qmult_le_compat_r; [|lra]. apply Qmult_le_compat_r; [exact H|]. apply Qlt_le_weak, Qinv_lt_0_compat. exact HF.
Qed.
Lemma shown_0 up2 up1 F : 0 < F -> shown up2 up1 0 F = 0%Z.
Proof.
  intros HF. unfold shown, one_decimal. rewrite (nearest_comp up2 _ (inject_Z 0)) by (field; lra). rewrite nearest_int.
  rewrite (nearest_comp up1 _ (inject_Z 0)) by reflexivity. apply nearest_int.
Qed.
Lemma shown_1 up2 up1 F : 0 < F -> shown up2 up1 F F = 1000%Z.
Proof.
  intros HF. unfold shown, one_decimal. rewrite (nearest_comp up2 _ (inject_Z 10000)) by (unfold inject_Z; field; lra). rewrite nearest_int.
  rewrite (nearest_comp up1 _ (inject_Z 1000)) by reflexivity. apply nearest_int.
Qed.
(** Just below the end. *)
Lemma shown_near up2 up1 t F : 0 < F -> t <= F -> F - t <= (1 # 100000) * F -> shown up2 up1 t F = 1000%Z.
Proof.
  intros HF Ht Hc. unfold shown, one_decimal.
  assert (E : nearest up2 (t / F * 100 * 100) = 10000%Z).
  { destruct (nearest_error up2 (t / F * 100 * 100)) as [A B]. set (h := nearest up2 (t / F * 100 * 100)) in *.
    assert (Hx : t / F <= 1) by (apply Qle_shift_div_r; lra).
    assert (Hy : 99999 # 100000 <= t / F) by (apply Qle_shift_div_l; lra).
    assert (inject_Z h < inject_Z 10001) by (unfold inject_Z at 2; lra). assert (inject_Z 9999 < inject_Z h) by (unfold inject_Z at 1; lra).
    rewrite <- Zlt_Qlt in *. lia. }
  rewrite E. rewrite (nearest_comp up1 _ (inject_Z 1000)) by reflexivity. apply nearest_int.
Qed.
Lemma text_shows n : (0 <= n)%Z -> shows (tenths_text n ++ " %")%string n.
Proof.
  intros Hn. unfold tenths_text. destruct (Z.ltb_spec n 0) as [|_]; [lia|]. rewrite Z.abs_eq by exact Hn.
  exists (n / 10)%Z, (n mod 10)%Z. pose proof (Z.mod_pos_bound n 10 ltac:(lia)). pose proof (Z.div_mod n 10 ltac:(lia)).
  pose proof (Z.div_pos n 10 Hn ltac:(lia)). split; [lia|]. cbn [append].
  assert (A : forall a b c : string, ((a ++ b) ++ c = a ++ (b ++ c))%string) by (induction a as [|x a IH]; intros; cbn; [|rewrite IH]; reflexivity).
  rewrite A. cbn [append]. reflexivity.
Qed.
