(** Lemmas: decay over steps, and the inequality of Poincare for linear elements on a segment. *)
From Coq Require Import Reals ZArith List Arith Bool Lra Lia Psatz.
From Verif Require Import Base.Exc Base.Dual Model.Materials Model.Laws Model.Theta Model.Forms
  Spec.PhysSpec Spec.BalanceSpec Spec.NewtonSpec Spec.StabilitySpec Spec.MaximumSpec Spec.RelaxSpec
  Proofs.LawProofs Proofs.ThetaProofs Proofs.FormProofs Proofs.TrapProofs Proofs.StabilityProofs Proofs.MaximumProofs.
Import ListNotations.
Local Open Scope R_scope.

Lemma time_after_S dt k : time_after dt (S k) = time_after dt k + dt k.
Proof. unfold time_after. rewrite seq_S, map_app, rsum_app. cbn [map Nat.add]. rewrite rsum_cons, rsum_nil. ring. Qed.
Lemma time_after_nonneg dt k : (forall j, 0 < dt j) -> 0 <= time_after dt k.
Proof. intros H. induction k as [|k IH]; [right; reflexivity|]. rewrite time_after_S. specialize (H k). lra. Qed.
(** A quantity divided by at least 1 + l dt in every step. *)
Lemma decay_steps (a dt : nat -> R) l : 0 <= l -> (forall k, 0 < dt k) -> (forall k, 0 <= a k) ->
  (forall k, (1 + l * dt k) * a (S k) <= a k) -> forall k, (1 + l * time_after dt k) * a k <= a 0%nat.
Proof.
  intros Hl Hdt Ha Hs k. induction k as [|k IH]; [unfold time_after; cbn [seq map]; rewrite rsum_nil; lra|].
  rewrite time_after_S. eapply Rle_trans; [|exact IH]. assert (Ht := time_after_nonneg dt k Hdt).
  assert (H1 : 0 <= l * time_after dt k) by now apply Rmult_le_pos. specialize (Hs k). specialize (Ha (S k)).
  assert (H2 : 0 <= l * dt k) by (apply Rmult_le_pos; [exact Hl|left; apply Hdt]).
  apply Rle_trans with ((1 + l * time_after dt k) * ((1 + l * dt k) * a (S k))); [|apply Rmult_le_compat_l; lra].
  assert (0 <= l * time_after dt k * (l * dt k) * a (S k)) by (apply Rmult_le_pos; [now apply Rmult_le_pos|exact Ha]). nra.
Qed.

(** Cauchy-Schwarz for weighted sums. *)
Lemma cauchy (h g : nat -> R) l : (forall e, In e l -> 0 <= h e) ->
  sum_over l (fun e => h e * Rabs (g e)) ^ 2 <= sum_over l h * sum_over l (fun e => h e * g e ^ 2).
Proof.
  unfold sum_over. induction l as [|e l IH]; intros Hh; [cbn [map]; rewrite !rsum_nil; lra|]. cbn [map]. rewrite !rsum_cons.
  assert (He := Hh e (or_introl eq_refl)). assert (Hl : forall x, In x l -> 0 <= h x) by (intros; apply Hh; now right). specialize (IH Hl).
  set (A := rsum (map (fun e => h e * Rabs (g e)) l)) in *. set (H := rsum (map h l)) in *. set (G := rsum (map (fun e => h e * g e ^ 2) l)) in *.
  assert (HH : 0 <= H) by (apply rsum_map_nonneg; intros; now apply Hl).
  assert (HG : 0 <= G) by (apply rsum_map_nonneg; intros x Hx; apply Rmult_le_pos; [now apply Hl|apply pow2_ge_0]).
  assert (HA : 0 <= A) by (apply rsum_map_nonneg; intros x Hx; apply Rmult_le_pos; [now apply Hl|apply Rabs_pos]).
  rewrite <- (pow2_abs (g e)). set (b := Rabs (g e)) in *. assert (Hb : 0 <= b) by apply Rabs_pos.
  enough (2 * (b * A) <= b ^ 2 * H + G).
  { assert (0 <= h e * (b ^ 2 * H + G - 2 * (b * A))) by (apply Rmult_le_pos; lra). nra. }
  destruct HH as [HH|HH].
  - apply (Rmult_le_reg_l H); [exact HH|]. assert (0 <= (b * H - A) ^ 2) by apply pow2_ge_0. nra.
  - rewrite <- HH in IH. assert (A = 0) by nra. subst A. nra.
Qed.

Section Segment.
Variables (K : nat) (X : nat -> R) (rule : list (R * R)) (vol : nat -> Z) (left right : Z).
Hypotheses (HK : (0 < K)%nat) (HX : forall e, (e < K)%nat -> X e < X (S e)) (Hrule : exact_2 rule).
Local Notation M := (segment K X rule vol left right).

Lemma integral_all (f : pt -> R) : integral M DxAll f
  = sum_over (seq 0 K) (fun e => sum_over rule (fun q => length_of X e * snd q * f (Cell e (fst q) (snd q)))).
Proof.
  unfold integral, points. cbn [q_cells segment]. unfold sum_over. generalize (seq 0 K) as l. induction l as [|e l IH]; [reflexivity|].
  cbn [flat_map map]. rewrite map_app, rsum_app, rsum_cons, IH. f_equal. rewrite map_map. reflexivity.
Qed.
Lemma lengths : sum_over (seq 0 K) (length_of X) = X K - X 0%nat.
Proof.
  clear HK HX. unfold sum_over. induction K as [|k IH]; [cbn [seq map]; rewrite rsum_nil; ring|].
  rewrite seq_S, map_app, rsum_app, IH. cbn [map Nat.add]. rewrite rsum_cons, rsum_nil. unfold length_of. ring.
Qed.

Definition slope (y : nat -> R) (e : nat) : R := (y (S e) - y e) / length_of X e.
Definition variation (y : nat -> R) : R := sum_over (seq 0 K) (fun e => length_of X e * Rabs (slope y e)).
Lemma slope_step y e : (e < K)%nat -> length_of X e * Rabs (slope y e) = Rabs (y (S e) - y e).
Proof.
  intros He. assert (H := length_pos K X HX e He). unfold slope, Rdiv. rewrite Rabs_mult, (Rabs_pos_eq (/ _)).
  - field. lra.
  - left. now apply Rinv_0_lt_compat.
Qed.
(** The sum of the steps between two nodes. *)
Lemma variation_between y i n : (i + n <= K)%nat -> Rabs (y (i + n)%nat - y i) <= variation y.
Proof.
  intros Hn. assert (Hs : Rabs (y (i + n)%nat - y i) <= sum_over (seq i n) (fun e => length_of X e * Rabs (slope y e))).
  { induction n as [|n IH]; [rewrite Nat.add_0_r; unfold Rminus; rewrite Rplus_opp_r, Rabs_R0; unfold sum_over; cbn [seq map]; rewrite rsum_nil; lra|].
    unfold sum_over. rewrite seq_S, map_app, rsum_app. cbn [map]. rewrite rsum_cons, rsum_nil, slope_step by lia.
    replace (y (i + S n)%nat - y i) with ((y (S (i + n)) - y (i + n)%nat) + (y (i + n)%nat - y i)) by (rewrite Nat.add_succ_r; ring).
    eapply Rle_trans; [apply Rabs_triang|]. assert (H := IH ltac:(lia)). unfold sum_over in H. lra. }
  eapply Rle_trans; [exact Hs|]. unfold variation, sum_over.
  replace (seq 0 K) with (seq 0 i ++ seq i n ++ seq (i + n) (K - (i + n))).
  - rewrite !map_app, !rsum_app.
    assert (Hp : forall a m, (a + m <= K)%nat -> 0 <= rsum (map (fun e => length_of X e * Rabs (slope y e)) (seq a m))).
    { intros a m Ham. apply rsum_map_nonneg. intros e He. apply in_seq in He. apply Rmult_le_pos; [left; apply (length_pos K X HX); lia|apply Rabs_pos]. }
    assert (H1 := Hp 0%nat i ltac:(lia)). assert (H2 := Hp (i + n)%nat (K - (i + n))%nat ltac:(lia)). lra.
  - replace K with (i + (n + (K - (i + n))))%nat at 2 by lia. rewrite !seq_app. reflexivity.
Qed.
Lemma variation_nodes y i j : (i <= K)%nat -> (j <= K)%nat -> Rabs (y j - y i) <= variation y.
Proof.
  intros Hi Hj. destruct (Nat.le_ge_cases i j) as [H|H].
  - replace j with (i + (j - i))%nat by lia. apply variation_between. lia.
  - rewrite Rabs_minus_sym. replace i with (j + (i - j))%nat by lia. apply variation_between. lia.
Qed.
(** Poincare: the square of a function that vanishes at a node, everywhere. *)
Lemma poincare_point y i p : (i <= K)%nat -> y i = 0 -> point M p ->
  val (span (S K) (linear K X) y p) ^ 2 <= (X K - X 0%nat) * sum_over (seq 0 K) (fun e => length_of X e * slope y e ^ 2).
Proof.
  intros Hi Hy Hp. destruct (segment_point K X rule vol left right HK Hrule p Hp) as [He Hl].
  destruct (span_segment K X rule vol left right HK Hrule y p Hp) as [-> _].
  rewrite <- lengths. eapply Rle_trans; [|apply cauchy; intros e H; apply in_seq in H; left; apply (length_pos K X HX); lia].
  change (sum_over (seq 0 K) (fun e => length_of X e * Rabs (slope y e))) with (variation y).
  set (e := element K p) in *. set (s := local p) in *.
  assert (H1 := variation_nodes y i e Hi ltac:(lia)). assert (H2 := variation_nodes y i (S e) Hi ltac:(lia)). rewrite Hy, Rminus_0_r in H1, H2.
  rewrite <- pow2_abs. apply pow_incr. split; [apply Rabs_pos|].
  eapply Rle_trans; [apply Rabs_triang|]. rewrite !Rabs_mult, (Rabs_pos_eq (1 - s)), (Rabs_pos_eq s) by lra. nra.
Qed.
Lemma rule_one f : (forall q, In q rule -> f q = 1) -> sum_over rule (fun q => snd q * f q) = 1.
Proof. intros H. destruct Hrule as (_ & H1 & _). rewrite <- H1. apply rsum_map_ext. intros q Hq. rewrite (H q Hq). ring. Qed.
Lemma gradients y : sum_over (seq 0 K) (fun e => length_of X e * slope y e ^ 2)
  = integral M DxAll (fun p => dot 1 (grd (span (S K) (linear K X) y p)) (grd (span (S K) (linear K X) y p))).
Proof.
  rewrite integral_all. apply rsum_map_ext. intros e He. apply in_seq in He.
  transitivity (length_of X e * slope y e ^ 2 * sum_over rule (fun q => snd q * 1)); [rewrite (rule_one (fun _ => 1)) by reflexivity; ring|].
  unfold sum_over. rewrite <- rsum_map_scale. apply rsum_map_ext. intros q Hq. rewrite dot1.
  assert (Hp : point M (Cell e (fst q) (snd q))). { left. apply (proj2 (segment_cells K X rule vol left right HK (Cell e (fst q) (snd q)))). exists e, q. split; [lia|]. split; [exact Hq|reflexivity]. }
  destruct (span_segment K X rule vol left right HK Hrule y _ Hp) as [_ Hg]. rewrite (Hg 0%nat). cbn [element]. unfold slope. ring.
Qed.
Lemma volume : integral M DxAll (fun _ => 1) = X K - X 0%nat.
Proof.
  rewrite integral_all, <- lengths. apply rsum_map_ext. intros e _.
  transitivity (length_of X e * sum_over rule (fun q => snd q * 1)); [|rewrite (rule_one (fun _ => 1)) by reflexivity; ring].
  unfold sum_over. rewrite <- rsum_map_scale. apply rsum_map_ext. intros q _. ring.
Qed.
Lemma poincare v i : (forall p, In p (q_cells M) -> 0 <= q_weight M p) -> (i <= K)%nat -> pinned_field K X M i v ->
  integral M DxAll (fun p => val (v p) ^ 2) <= (X K - X 0%nat) ^ 2 * integral M DxAll (fun p => dot 1 (grd (v p)) (grd (v p))).
Proof.
  intros Hw Hi (y & Hy & Hv).
  assert (Hmono : forall e e', (forall p, In p (q_cells M) -> e p <= e' p) -> integral M DxAll e <= integral M DxAll e').
  { intros e e' H. unfold integral. apply rsum_map_le. intros p Hp. cbn [points] in Hp. apply Rmult_le_compat_l; [now apply Hw|now apply H]. }
  set (G := sum_over (seq 0 K) (fun e => length_of X e * slope y e ^ 2)).
  eapply Rle_trans; [apply (Hmono _ (fun _ => (X K - X 0%nat) * G * 1))|].
  { intros p Hp. destruct (Hv p (or_introl Hp)) as [-> _]. rewrite Rmult_1_r. apply (poincare_point y i p Hi Hy (or_introl Hp)). }
  rewrite integral_scale, volume. unfold G. rewrite gradients.
  right. rewrite (integral_ext M DxAll (fun p => dot 1 (grd (v p)) (grd (v p))) (fun p => dot 1 (grd (span (S K) (linear K X) y p)) (grd (span (S K) (linear K X) y p)))); [ring|].
  intros p Hp. cbn [points] in Hp. destruct (Hv p (or_introl Hp)) as [_ Hg]. now rewrite !dot1, Hg.
Qed.
End Segment.
