(** Facts about the rational instance of [Num]. *)
From Coq Require Import ZArith QArith Qabs List Bool Lqa Lia.
From Verif Require Import Base.Exc Base.Num Spec.TimeSpec.

Lemma Qltb_true a b : Qltb a b = true <-> (a < b)%Q.
Proof.
  unfold Qltb. rewrite negb_true_iff. split; intros H.
  - destruct (Qlt_le_dec a b) as [|L]; [assumption|].
    apply Qle_bool_iff in L. congruence.
  - destruct (Qle_bool b a) eqn:E; [|reflexivity].
    apply Qle_bool_iff in E. lra.
Qed.

Lemma Qltb_false a b : Qltb a b = false <-> (b <= a)%Q.
Proof.
  unfold Qltb. rewrite negb_false_iff. apply Qle_bool_iff.
Qed.

Lemma Qleb_true a b : Qle_bool a b = true <-> (a <= b)%Q.
Proof. apply Qle_bool_iff. Qed.

Lemma Qleb_false a b : Qle_bool a b = false <-> (b < a)%Q.
Proof.
  split; intros H.
  - destruct (Qlt_le_dec b a) as [|L]; [assumption|].
    apply Qle_bool_iff in L. congruence.
  - destruct (Qle_bool a b) eqn:E; [|reflexivity].
    apply Qle_bool_iff in E. lra.
Qed.

Lemma Qeqb_true a b : Qeq_bool a b = true <-> (a == b)%Q.
Proof. apply Qeq_bool_iff. Qed.

Lemma Qeqb_false a b : Qeq_bool a b = false <-> ~ (a == b)%Q.
Proof.
  split; intros H.
  - intros E. apply Qeq_bool_iff in E. congruence.
  - destruct (Qeq_bool a b) eqn:E; [|reflexivity].
    apply Qeq_bool_iff in E. contradiction.
Qed.

Lemma isclose_true (a b : Q) : isclose a b = true <-> close a b.
Proof. unfold isclose, close. cbn. apply Qle_bool_iff. Qed.

Lemma isclose_false (a b : Q) : isclose a b = false <-> ~ close a b.
Proof.
  rewrite <- isclose_true. destruct (isclose a b); split; congruence.
Qed.

Lemma close_refl a b : (a == b)%Q -> close a b.
Proof.
  intros E. unfold close. rewrite E.
  setoid_replace (b - b)%Q with 0%Q by ring.
  change (Qabs 0) with 0%Q. pose proof (Qabs_nonneg b). lra.
Qed.

Lemma Qmult_pos a b : (0 < a -> 0 < b -> 0 < a * b)%Q.
Proof. intros Ha Hb. apply Qlt_0_mult_pos || nra. Qed.

Lemma Qdiv_pos a b : (0 < a -> 0 < b -> 0 < a / b)%Q.
Proof.
  intros Ha Hb. unfold Qdiv. apply Qmult_pos; [assumption|].
  apply Qinv_lt_0_compat; assumption.
Qed.

(** Turn the boolean tests of the model into (in)equalities. *)
Ltac qb :=
  cbn [nltb nleb neqb nadd nsub nmul ndiv n0 nabs nrtol NumQ] in *;
  repeat match goal with
  | H : Qltb _ _ = true |- _ => apply Qltb_true in H
  | H : Qltb _ _ = false |- _ => apply Qltb_false in H
  | H : Qle_bool _ _ = true |- _ => apply Qleb_true in H
  | H : Qle_bool _ _ = false |- _ => apply Qleb_false in H
  | H : Qeq_bool _ _ = true |- _ => apply Qeqb_true in H
  | H : Qeq_bool _ _ = false |- _ => apply Qeqb_false in H
  | H : isclose _ _ = true |- _ => apply isclose_true in H
  | H : isclose _ _ = false |- _ => apply isclose_false in H
  | H : andb _ _ = true |- _ => apply andb_true_iff in H; destruct H
  | H : andb _ _ = false |- _ => apply andb_false_iff in H; destruct H
  | H : negb _ = true |- _ => apply negb_true_iff in H
  | H : negb _ = false |- _ => apply negb_false_iff in H
  | H : orb _ _ = true |- _ => apply orb_true_iff in H; destruct H
  | H : orb _ _ = false |- _ => apply orb_false_iff in H; destruct H
  end.
