(** Lemmas: inequality of Cauchy and Schwarz, Taylor, accumulation of errors, and exact evolutions as solutions of
    time steps. *)
From Coq Require Import Reals ZArith List Arith Bool Lra Lia Psatz.
From Verif Require Import Base.Exc Base.Dual Model.Materials Model.Laws Model.Theta Model.Forms
  Spec.PhysSpec Spec.BalanceSpec Spec.StabilitySpec Spec.EulerSpec Spec.RelaxSpec Spec.ConvergeSpec
  Proofs.LawProofs Proofs.ThetaProofs Proofs.FormProofs Proofs.StabilityProofs Proofs.EulerProofs Proofs.RelaxProofs
  Properties.FormProps Properties.StabilityProps Properties.EulerProps.
Import ListNotations.
Local Open Scope R_scope.

(** ** A positive linear functional and its norm. *)
Section Functional.
Context {X : Type} (J : (X -> R) -> R).
Hypothesis J_lin : forall a b f g h, (forall x, h x = a * f x + b * g x) -> J h = a * J f + b * J g.
Hypothesis J_pos : forall f, (forall x, 0 <= f x) -> 0 <= J f.

Lemma J_quadratic f g s : 0 <= J (fun x => f x ^ 2) + 2 * s * J (fun x => f x * g x) + s ^ 2 * J (fun x => g x ^ 2).
Proof using J_lin J_pos.
  assert (E : J (fun x => (f x + s * g x) ^ 2) = J (fun x => f x ^ 2) + 2 * s * J (fun x => f x * g x) + s ^ 2 * J (fun x => g x ^ 2)).
  { rewrite (J_lin 1 1 (fun x => f x ^ 2 + 2 * s * (f x * g x)) (fun x => s ^ 2 * g x ^ 2)) by (intros; ring).
    rewrite (J_lin 1 (2 * s) (fun x => f x ^ 2) (fun x => f x * g x)) by (intros; ring).
    rewrite (J_lin (s ^ 2) 0 (fun x => g x ^ 2) (fun x => g x ^ 2) (fun x => s ^ 2 * g x ^ 2)) by (intros; ring). ring. }
  rewrite <- E. apply J_pos. intros x. apply pow2_ge_0.
Qed.
Lemma J_cauchy f g : J (fun x => f x * g x) ^ 2 <= J (fun x => f x ^ 2) * J (fun x => g x ^ 2).
Proof using J_lin J_pos.
  assert (Q := J_quadratic f g). assert (Hf : 0 <= J (fun x => f x ^ 2)) by (apply J_pos; intros; apply pow2_ge_0).
  assert (Hg : 0 <= J (fun x => g x ^ 2)) by (apply J_pos; intros; apply pow2_ge_0).
  set (a := J (fun x => f x ^ 2)) in *. set (b := J (fun x => g x ^ 2)) in *. set (c := J (fun x => f x * g x)) in *.
  destruct (Req_dec b 0) as [Hb|Hb].
  - destruct (Req_dec c 0) as [Hc|Hc]; [rewrite Hb, Hc; lra|]. exfalso. specialize (Q (- (a + 1) / (2 * c))). rewrite Hb in Q.
    replace (a + 2 * (- (a + 1) / (2 * c)) * c + (- (a + 1) / (2 * c)) ^ 2 * 0) with (-1) in Q by (field; exact Hc). lra.
  - specialize (Q (- c / b)). replace (a + 2 * (- c / b) * c + (- c / b) ^ 2 * b) with (a - c ^ 2 / b) in Q by (field; exact Hb).
    apply (Rmult_le_reg_r (/ b)); [apply Rinv_0_lt_compat; lra|]. replace (a * b * / b) with a by (field; exact Hb).
    unfold Rdiv in Q. lra.
Qed.
Lemma J_cauchy_sqrt f g : J (fun x => f x * g x) <= sqrt (J (fun x => f x ^ 2)) * sqrt (J (fun x => g x ^ 2)).
Proof using J_lin J_pos.
  assert (H := J_cauchy f g). assert (Hf : 0 <= J (fun x => f x ^ 2)) by (apply J_pos; intros; apply pow2_ge_0).
  assert (Hg : 0 <= J (fun x => g x ^ 2)) by (apply J_pos; intros; apply pow2_ge_0).
  rewrite <- sqrt_mult by assumption. eapply Rle_trans; [apply Rle_abs|]. rewrite <- sqrt_Rsqr_abs. apply sqrt_le_1_alt. unfold Rsqr. lra.
Qed.
Lemma J_triangle f g : sqrt (J (fun x => (f x + g x) ^ 2)) <= sqrt (J (fun x => f x ^ 2)) + sqrt (J (fun x => g x ^ 2)).
Proof using J_lin J_pos.
  assert (C := J_cauchy_sqrt f g). assert (Hf : 0 <= J (fun x => f x ^ 2)) by (apply J_pos; intros; apply pow2_ge_0).
  assert (Hg : 0 <= J (fun x => g x ^ 2)) by (apply J_pos; intros; apply pow2_ge_0).
  assert (E : J (fun x => (f x + g x) ^ 2) = J (fun x => f x ^ 2) + 2 * J (fun x => f x * g x) + J (fun x => g x ^ 2)).
  { rewrite (J_lin 1 1 (fun x => f x ^ 2 + 2 * (f x * g x)) (fun x => g x ^ 2)) by (intros; ring).
    rewrite (J_lin 1 2 (fun x => f x ^ 2) (fun x => f x * g x)) by (intros; ring). ring. }
  pose proof (sqrt_pos (J (fun x => f x ^ 2))). pose proof (sqrt_pos (J (fun x => g x ^ 2))).
  apply Rsqr_incr_0_var; [|lra]. rewrite Rsqr_sqrt by (apply J_pos; intros; apply pow2_ge_0).
  rewrite E. unfold Rsqr. pose proof (sqrt_sqrt _ Hf). pose proof (sqrt_sqrt _ Hg). nra.
Qed.
(** An implicit step: the distances after and before it. *)
Lemma J_step q d e : q <= 1 -> J (fun x => (d x - e x) * d x) <= q * J (fun x => d x ^ 2) ->
  (1 - q) * sqrt (J (fun x => d x ^ 2)) <= sqrt (J (fun x => e x ^ 2)).
Proof using J_lin J_pos.
  intros Hq H. assert (C := J_cauchy_sqrt e d). assert (Hd : 0 <= J (fun x => d x ^ 2)) by (apply J_pos; intros; apply pow2_ge_0).
  rewrite (J_lin 1 (-1) (fun x => d x ^ 2) (fun x => e x * d x)) in H by (intros; ring).
  pose proof (sqrt_pos (J (fun x => d x ^ 2))) as Hs. pose proof (sqrt_pos (J (fun x => e x ^ 2))).
  assert (Hss := sqrt_sqrt _ Hd). set (s := sqrt (J (fun x => d x ^ 2))) in *. set (r := sqrt (J (fun x => e x ^ 2))) in *.
  rewrite <- Hss in H. destruct Hs as [Hs|Hs]; [|rewrite <- Hs; lra].
  apply (Rmult_le_reg_r s); [exact Hs|]. lra.
Qed.
End Functional.

(** ** Taylor, to first order backwards. *)
Lemma backwards y y' B t h : smooth y y' B -> 0 <= t -> 0 < h -> Rabs (y t - (y (t + h) - h * y' (t + h))) <= h * h * B / 2.
Proof.
  intros Hs Ht Hh.
  assert (Side : forall sg, (sg = 1 \/ sg = -1) -> sg * (y t - (y (t + h) - h * y' (t + h))) <= h * h * B / 2).
  { intros sg Hsg.
    set (g := fun s => sg * (y s + (t + h - s) * y' (t + h)) - B / 2 * ((t + h - s) * (t + h - s))).
    set (g' := fun s => sg * (y' s - y' (t + h)) + B * (t + h - s)).
    assert (Hg : forall s, t <= s <= t + h -> derivable_pt_lim g s (g' s)).
    { intros s Hsr. destruct (Hs s ltac:(lra)) as [Hd _].
      assert (Hl : derivable_pt_lim (fun s => t + h - s) s (-1)).
      { replace (-1) with (0 - 1) by ring. apply (derivable_pt_lim_minus (fun _ => t + h) (fun s => s)); [apply derivable_pt_lim_const|apply derivable_pt_lim_id]. }
      assert (H1 : derivable_pt_lim (fun s => (t + h - s) * y' (t + h)) s (-1 * y' (t + h) + (t + h - s) * 0)).
      { apply (derivable_pt_lim_mult (fun s => t + h - s) (fun _ => y' (t + h))); [exact Hl|apply derivable_pt_lim_const]. }
      assert (H2 := derivable_pt_lim_mult _ _ s _ _ Hl Hl).
      assert (H3 := derivable_pt_lim_scal _ (B / 2) s _ H2).
      assert (H4 := derivable_pt_lim_scal _ sg s _ (derivable_pt_lim_plus _ _ s _ _ Hd H1)).
      assert (H5 := derivable_pt_lim_minus _ _ s _ _ H4 H3).
      refine (eq_ind _ (fun l => derivable_pt_lim g s l) H5 (g' s) _). unfold g'. field. }
    destruct (MVT_cor2 g g' t (t + h) ltac:(lra) Hg) as (c & Ec & Hc).
    assert (Hpos : 0 <= g' c).
    { unfold g'. destruct (Hs (t + h) ltac:(lra)) as [_ Hb]. specialize (Hb c ltac:(lra)).
      rewrite (Rabs_left1 (c - (t + h))) in Hb by lra. pose proof (Rle_abs (y' c - y' (t + h))). pose proof (Rle_abs (- (y' c - y' (t + h)))) as Hn. rewrite Rabs_Ropp in Hn. destruct Hsg as [-> | ->]; lra. }
    assert (0 <= g' c * (t + h - t)) by (apply Rmult_le_pos; lra). rewrite <- Ec in *.
    assert (Hgg : 0 <= g (t + h) - g t) by lra. unfold g in Hgg. nra. }
  apply Rabs_le. pose proof (Side 1 (or_introl eq_refl)). pose proof (Side (-1) (or_intror eq_refl)). lra.
Qed.

(** ** Accumulation. *)
Lemma growth_factor y : 0 <= y -> y <= 1 / 2 -> 1 <= (1 - y) * exp (2 * y).
Proof.
  intros H0 H1. assert (He := exp_ineq1_le (2 * y)). apply Rle_trans with ((1 - y) * (1 + 2 * y)); [nra|]. apply Rmult_le_compat_l; lra.
Qed.
Lemma accumulate (E dt : nat -> R) Lambda h C : 0 <= Lambda -> 0 <= C -> h * Lambda <= 2 -> (forall k, 0 < dt k <= h) -> (forall k, 0 <= E k) ->
  (forall k, (1 - dt k * Lambda / 4) * E (S k) <= E k + dt k * dt k * C) ->
  forall k, E k <= exp (Lambda * time_after dt k / 2) * (E 0%nat + time_after dt k * h * C).
Proof.
  intros HL HC Hh Hdt HE Hs k. induction k as [|k IH].
  - unfold time_after. cbn [seq map]. rewrite rsum_nil. replace (Lambda * 0 / 2) with 0 by field. rewrite exp_0. lra.
  - rewrite time_after_S. set (t := time_after dt k) in *. assert (Ht : 0 <= t) by (apply time_after_nonneg; intros j; apply Hdt).
    destruct (Hdt k) as [Hd Hdh]. set (d := dt k) in *. specialize (Hs k). fold d in Hs.
    assert (HdL : 0 <= d * Lambda / 4 <= 1 / 2). { assert (d * Lambda <= h * Lambda) by (now apply Rmult_le_compat_r). assert (0 <= d * Lambda) by (apply Rmult_le_pos; lra). lra. }
    assert (G := growth_factor (d * Lambda / 4) (proj1 HdL) (proj2 HdL)).
    replace (2 * (d * Lambda / 4)) with (Lambda * d / 2) in G by field.
    replace (Lambda * (t + d) / 2) with (Lambda * d / 2 + Lambda * t / 2) by field. rewrite exp_plus.
    assert (e1 := exp_pos (Lambda * d / 2)). assert (Hx : 1 <= exp (Lambda * t / 2)).
    { assert (He := exp_ineq1_le (Lambda * t / 2)). assert (0 <= Lambda * t) by (now apply Rmult_le_pos). lra. }
    set (a := exp (Lambda * d / 2)) in *. set (b := exp (Lambda * t / 2)) in *. set (y := d * Lambda / 4) in *.
    assert (H1 : E (S k) <= a * (E k + d * d * C)).
    { apply Rle_trans with (a * ((1 - y) * E (S k))); [|apply Rmult_le_compat_l; [now left|exact Hs]].
      specialize (HE (S k)). rewrite <- Rmult_assoc. rewrite <- (Rmult_1_l (E (S k))) at 1. apply Rmult_le_compat_r; [exact HE|lra]. }
    eapply Rle_trans; [exact H1|]. rewrite (Rmult_assoc a b). apply Rmult_le_compat_l; [now left|].
    assert (Hq : d * d * C <= b * (d * h * C)).
    { assert (H2 : d * d * C <= d * h * C) by (apply Rmult_le_compat_r; [exact HC|apply Rmult_le_compat_l; lra]).
      assert (0 <= d * h * C) by (apply Rmult_le_pos; [apply Rmult_le_pos; lra|exact HC]).
      rewrite <- (Rmult_1_l (d * d * C)). apply Rmult_le_compat; [lra| |exact Hx|exact H2]. apply Rmult_le_pos; [apply Rmult_le_pos; lra|exact HC]. }
    replace (b * (E 0%nat + (t + d) * h * C)) with (b * (E 0%nat + t * h * C) + b * (d * h * C)) by ring. lra.
Qed.

(** ** Sums over the components. *)
Section Mesh.
Context {P : Type}.
Implicit Types (M : mesh P).

Definition components M (n : nat) (f : nat * P -> R) : R := integral M DxAll (fun p => sum_over (seq 0 (S n)) (fun j => f (j, p))).
Lemma components_lin M n a b f g h : (forall x, h x = a * f x + b * g x) -> components M n h = a * components M n f + b * components M n g.
Proof.
  intros H. unfold components. rewrite <- !integral_scale, <- integral_plus. apply integral_ext. intros p _.
  rewrite <- !sum_over_scale, <- sum_over_plus. apply sum_over_ext. intros j _. apply H.
Qed.
Lemma components_pos M n f : positive_weights M -> (forall x, 0 <= f x) -> 0 <= components M n f.
Proof. intros Hw H. apply integral_nonneg; [exact Hw|]. intros p _. apply rsum_map_nonneg. intros j _. apply H. Qed.
Lemma components_norm M n (d : state P) : q_type M = Cartesian -> norm2 M n d = components M n (fun x => val (d (fst x) (snd x)) ^ 2).
Proof. intros Hty. unfold norm2. now rewrite integral_total by exact Hty. Qed.
Lemma sum_const {A} (l : list A) c : sum_over l (fun _ => c) = INR (length l) * c.
Proof. unfold sum_over. induction l as [|a l IH]; [cbn [map length INR]; rewrite rsum_nil; ring|]. cbn [map]. rewrite rsum_cons, IH. cbn [length]. rewrite S_INR. ring. Qed.
Lemma components_small M n f c : positive_weights M -> (forall j p, (j <= n)%nat -> In p (q_cells M) -> Rabs (f (j, p)) <= c) -> 0 <= c ->
  sqrt (components M n (fun x => f x ^ 2)) <= c * sqrt (INR (S n) * integral M DxAll (fun _ => 1)).
Proof.
  intros Hw Hf Hc. assert (Hv : 0 <= integral M DxAll (fun _ : P => 1)) by (apply integral_nonneg; [exact Hw|intros; lra]).
  rewrite <- (sqrt_pow2 c) at 1 by exact Hc. rewrite <- sqrt_mult; [|apply pow2_ge_0|apply Rmult_le_pos; [apply pos_INR|exact Hv]].
  apply sqrt_le_1_alt. unfold components. rewrite <- !integral_scale. apply integral_le; [exact Hw|]. intros p Hp. cbn [points] in Hp.
  apply Rle_trans with (sum_over (seq 0 (S n)) (fun _ => c ^ 2)).
  - apply rsum_map_le. intros j Hj. apply in_seq in Hj. specialize (Hf j p ltac:(lia) Hp). rewrite <- (pow2_abs (f (j, p))). apply pow_incr. split; [apply Rabs_pos|exact Hf].
  - rewrite sum_const, seq_length. right. ring.
Qed.

(** ** Nothing in a steady formulation depends on the previous solution. *)
Lemma steady_previous M pb u un un' v : equations M pb None u un v = equations M pb None u un' v.
Proof.
  unfold equations, define_variational_problem, mobile_create_form, create_diffusion_form.
  assert (E1 : sum_forms (material_form M (species pb u un v) (pb_T pb) None false) (pb_materials pb)
    = sum_forms (material_form M (species pb u un' v) (pb_T pb) None false) (pb_materials pb)).
  { induction (pb_materials pb) as [|m l IH]; [reflexivity|]. cbn [sum_forms]. rewrite IH. reflexivity. }
  rewrite E1. clear E1.
  assert (E2 : forall i, sum_forms (fun t => sum_forms_enum (mobile_trapping_terms (species pb u un v) (pb_T pb) t) 0 (t_materials t)) (put i (pb_traps pb) u un v)
    = sum_forms (fun t => sum_forms_enum (mobile_trapping_terms (species pb u un' v) (pb_T pb) t) 0 (t_materials t)) (put i (pb_traps pb) u un' v)).
  { induction (pb_traps pb) as [|t l IH]; intros i; [reflexivity|]. cbn [put sum_forms]. rewrite (IH (S i)). reflexivity. }
  rewrite (E2 1%nat). clear E2.
  assert (E3 : forall i, sum_forms (trap_create_form (species pb u un v) (pb_materials pb) (pb_T pb) None) (put i (pb_traps pb) u un v)
    = sum_forms (trap_create_form (species pb u un' v) (pb_materials pb) (pb_T pb) None) (put i (pb_traps pb) u un' v)).
  { induction (pb_traps pb) as [|t l IH]; intros i; [reflexivity|]. cbn [put sum_forms]. rewrite (IH (S i)). reflexivity. }
  rewrite (E3 1%nat). reflexivity.
Qed.
Lemma put_rates M dt (w wn v : state P) traps : forall i,
  sum_over (put i traps w wn v) (fun t => isum M (q_cells M) (fun p => quotient dt (fun p => val (t_solution t p)) (fun p => val (t_previous t p)) p * val (t_test t p)))
  = sum_over (seq i (length traps)) (fun j => integral M DxAll (fun p => (val (w j p) - val (wn j p)) / dt * val (v j p))).
Proof. induction traps as [|t l IH]; intros i; [reflexivity|]. cbn [put length seq]. rewrite !sum_over_cons, IH. reflexivity. Qed.
Lemma put_empty M ms (w wn wn' v : state P) traps : forall i,
  sum_over (put i traps w wn v) (empty_terms M ms) = sum_over (put i traps w wn' v) (empty_terms M ms).
Proof. induction traps as [|t l IH]; intros i; [reflexivity|]. cbn [put]. rewrite !sum_over_cons, IH. reflexivity. Qed.
Lemma put_materials (w wn v : state P) traps : forall i t, In t (put i traps w wn v) -> exists t', In t' traps /\ t_materials t = t_materials t'.
Proof.
  induction traps as [|x l IH]; intros i t; [intros []|]. cbn [put]. intros [<-|Ht]; [exists x; split; [now left|reflexivity]|].
  destruct (IH _ _ Ht) as (t' & H & E). exists t'. split; [now right|exact E].
Qed.

(** Previous values from which a step of length dt reproduces the rates. *)
Definition before (dt : R) (w : state P) (w' : nat -> P -> R) : state P := fun j p => mkDual (val (w j p) - dt * w' j p) (fun _ => 0).

Lemma evolution_step M pb D (V : state P -> Prop) (w : state P) (w' : nat -> P -> R) dt : physical M pb D -> 0 < dt ->
  (forall tr, In tr (pb_traps pb) -> steady_ids (pb_materials pb) tr) ->
  (forall v, V v -> exists F, equations M pb None w w v = Ok F /\
    total M (fun p => sum_over (seq 0 (S (length (pb_traps pb)))) (fun j => w' j p * val (v j p)))
    + (assemble M F - sum_over (put 1 (pb_traps pb) w w v) (empty_terms M (pb_materials pb))) = 0) ->
  solves M pb (Some dt) V w (before dt w w').
Proof.
  intros Hph Hdt Hids H v Hv. destruct (H v Hv) as (F & HF & Z). set (wn := before dt w w').
  rewrite (steady_previous M pb w w wn v) in HF.
  assert (B := C69_builds M (species pb w wn v) (pb_materials pb) (pb_T pb) dt (put 1 (pb_traps pb) w wn v) false
    ltac:(intros t Ht m Hm Hin; destruct (put_materials w wn v _ 1%nat t Ht) as (t' & Ht' & Em); rewrite Em in Hin; exact (Hids t' Ht' m Hm Hin))).
  destruct (proj2 B (ex_intro _ F HF)) as [G HG]. exists G. split; [exact HG|].
  pose proof Hph as (Hty & Hcov & _ & HT & _ & _ & _ & _ & Hbc).
  rewrite (C69_implicit_euler M (species pb w wn v) (pb_materials pb) (pb_T pb) dt (put 1 (pb_traps pb) w wn v) false
    (fun p => val (w 0%nat p)) (fun p => val (wn 0%nat p)) G F Hcov); try assumption; try exact I; [|intros p _ m _ _; split; reflexivity|now left].
  rewrite (put_empty M (pb_materials pb) w wn w v (pb_traps pb) 1%nat).
  assert (Et : time_terms M dt (fun p => val (w 0%nat p)) (fun p => val (wn 0%nat p)) (species pb w wn v) (put 1 (pb_traps pb) w wn v)
    = total M (fun p => sum_over (seq 0 (S (length (pb_traps pb)))) (fun j => w' j p * val (v j p)))).
  { unfold time_terms. rewrite put_rates. rewrite (sum_over_ext (mb_bcs _) _ (fun _ => 0)).
    2:{ intros b Hb. cbn [species mb_bcs] in Hb. specialize (Hbc b Hb). destruct b; [reflexivity|destruct Hbc]. }
    rewrite sum_const, integral_total by exact Hty. rewrite isum_cells. cbn [species mb_test].
    rewrite (integral_ext M DxAll (fun p => sum_over (seq 0 (S (length (pb_traps pb)))) (fun j => w' j p * val (v j p)))
      (fun p => quotient dt (fun p => val (w 0%nat p)) (fun p => val (wn 0%nat p)) p * val (v 0%nat p)
        + sum_over (seq 1 (length (pb_traps pb))) (fun j => (val (w j p) - val (wn j p)) / dt * val (v j p)))).
    - rewrite integral_plus, integral_sum. ring.
    - intros p _. cbn [seq]. rewrite sum_over_cons. unfold quotient, wn, before. cbn [val]. f_equal; [field; lra|].
      apply sum_over_ext. intros j _. field. lra. }
  rewrite Et. lra.
Qed.

(** ** Heat. *)
Lemma energy_integral M ms rho cp f : q_type M = Cartesian -> energy M rho cp ms f
  = sum_over ms (fun m => sum_over (ids (m_id (attrs m))) (fun z => integral M (Dx z) (fun p => rho m * cp m * f p))).
Proof.
  intros Hty. unfold energy. apply sum_over_ext. intros m _. apply sum_over_ext. intros z _. unfold total_in, wsum, integral, weight. rewrite Hty.
  cbn [points]. apply rsum_map_ext. intros. ring.
Qed.
Lemma energy_lin M ms rho cp a b f g h : q_type M = Cartesian -> (forall p, h p = a * f p + b * g p) ->
  energy M rho cp ms h = a * energy M rho cp ms f + b * energy M rho cp ms g.
Proof.
  intros Hty H. rewrite !energy_integral by exact Hty. rewrite <- !sum_over_scale, <- sum_over_plus. apply sum_over_ext. intros m _.
  rewrite <- !sum_over_scale, <- sum_over_plus. apply sum_over_ext. intros z _. rewrite <- !integral_scale, <- integral_plus. apply integral_ext.
  intros p _. rewrite H. ring.
Qed.
Lemma energy_mono M ms rho cp f g : q_type M = Cartesian -> positive_weights M -> (forall m, In m ms -> 0 <= rho m * cp m) ->
  (forall p, In p (q_cells M) -> f p <= g p) -> energy M rho cp ms f <= energy M rho cp ms g.
Proof.
  intros Hty Hw Hm H. rewrite !energy_integral by exact Hty. apply rsum_map_le. intros m Hin. apply rsum_map_le. intros z _. apply integral_le; [exact Hw|].
  intros p Hp. apply Rmult_le_compat_l; [now apply Hm|]. apply H. apply in_points_cells in Hp. apply Hp.
Qed.
Lemma energy_pos M ms rho cp f : q_type M = Cartesian -> positive_weights M -> (forall m, In m ms -> 0 <= rho m * cp m) ->
  (forall p, 0 <= f p) -> 0 <= energy M rho cp ms f.
Proof.
  intros Hty Hw Hm H. assert (E : energy M rho cp ms (fun _ => 0) = 0).
  { rewrite (energy_lin M ms rho cp 0 0 f f) by (try exact Hty; intros; ring). ring. }
  rewrite <- E. apply energy_mono; auto.
Qed.
Lemma energy_small M ms rho cp f c : q_type M = Cartesian -> positive_weights M -> (forall m, In m ms -> 0 <= rho m * cp m) ->
  (forall p, In p (q_cells M) -> Rabs (f p) <= c) -> 0 <= c ->
  sqrt (energy M rho cp ms (fun p => f p ^ 2)) <= c * sqrt (energy M rho cp ms (fun _ => 1)).
Proof.
  intros Hty Hw Hm Hf Hc. rewrite <- (sqrt_pow2 c) at 1 by exact Hc. rewrite <- sqrt_mult; [|apply pow2_ge_0|apply energy_pos; auto; intros; lra].
  apply sqrt_le_1_alt. replace (c ^ 2 * energy M rho cp ms (fun _ => 1)) with (energy M rho cp ms (fun _ => c ^ 2)).
  - apply energy_mono; auto. intros p Hp. rewrite <- (pow2_abs (f p)). apply pow_incr. split; [apply Rabs_pos|now apply Hf].
  - rewrite (energy_lin M ms rho cp (c ^ 2) 0 (fun _ => 1) (fun _ => 1)) by (try exact Hty; intros; ring). ring.
Qed.
Lemma heat_previous M dt dt' (T Tn Tn' v : field P) ms sources bcs :
  heat_form M false dt T Tn v ms sources bcs = heat_form M false dt' T Tn' v ms sources bcs.
Proof.
  unfold heat_form. assert (E : sum_forms (heat_material_form M false dt T Tn v) ms = sum_forms (heat_material_form M false dt' T Tn' v) ms).
  { induction ms as [|m l IH]; [reflexivity|]. cbn [sum_forms]. rewrite IH. reflexivity. }
  now rewrite E.
Qed.
Lemma heat_builds M dt (T Tn v : field P) ms rho cp sources bcs F : constant_heat rho cp ms ->
  heat_form M false dt T Tn v ms sources bcs = Ok F -> exists G, heat_form M true dt T Tn v ms sources bcs = Ok G.
Proof.
  intros Hh. unfold heat_form. destruct (sum_forms (heat_material_form M false dt T Tn v) ms) as [A|] eqn:EA; cbn [bind]; [|discriminate].
  destruct (sum_forms _ bcs) as [B|]; cbn [bind]; [|discriminate]. intros _.
  assert (E : exists A', sum_forms (heat_material_form M true dt T Tn v) ms = Ok A').
  { revert A EA. induction ms as [|m l IH]; intros A EA; [eexists; reflexivity|]. apply sum_forms_cons in EA as (F1 & F2 & H1 & H2 & ->).
    destruct (IH ltac:(intros x Hx; apply Hh; now right) F2 H2) as [A' EA']. cbn [sum_forms]. rewrite EA'.
    destruct (Hh m (or_introl eq_refl)) as [Hr Hc]. revert H1. unfold heat_material_form. rewrite Hr, Hc.
    destruct (value_at (m_thermal (attrs m))); cbn [bind value_at]; [|discriminate]. intros _. eexists. reflexivity. }
  destruct E as [A' ->]. cbn [bind]. eexists. reflexivity.
Qed.
Definition heat_before (dt : R) (T : field P) (T' : P -> R) : field P := fun p => mkDual (val (T p) - dt * T' p) (fun _ => 0).
Lemma heat_evolution_step M ms rho cp sources bcs (V : field P -> Prop) (T : field P) (T' : P -> R) dt : q_type M = Cartesian -> 0 < dt -> constant_heat rho cp ms ->
  (forall v, V v -> exists F, heat_form M false 1 T T v ms sources bcs = Ok F /\ energy M rho cp ms (fun p => T' p * val (v p)) + assemble M F = 0) ->
  heat_solves M ms sources bcs true dt V T (heat_before dt T T').
Proof.
  intros Hty Hdt Hh H v Hv. destruct (H v Hv) as (F & HF & Z). rewrite (heat_previous M 1 dt T T (heat_before dt T T') v) in HF.
  destruct (heat_builds M dt T (heat_before dt T T') v ms rho cp sources bcs F Hh HF) as [G HG]. exists G. split; [exact HG|].
  rewrite (heat_euler M dt T (heat_before dt T T') v ms (fun m _ => rho m) (fun m _ => cp m) sources bcs G F); [|intros m Hm; destruct (Hh m Hm) as [-> ->]|exact HG|exact HF].
  2:{ split; right; eexists; split; reflexivity. }
  enough (E : heat_time_terms M dt (fun m _ => rho m) (fun m _ => cp m) ms T (heat_before dt T T') v = energy M rho cp ms (fun p => T' p * val (v p))) by (rewrite E; lra).
  rewrite energy_integral by exact Hty. unfold heat_time_terms. apply sum_over_ext. intros m _. apply sum_over_ext. intros z _. rewrite isum_volume.
  apply integral_ext. intros p _. unfold quotient, heat_before. cbn [val]. field. lra.
Qed.
(** Two temperatures after a step. *)
Lemma heat_step M ms rho cp k sources bcs dt V (T Tn S Sn : field P) : q_type M = Cartesian -> positive_weights M ->
  constant_heat rho cp ms -> constant_conductivity k ms -> (forall m, In m ms -> 0 <= k m) -> 0 < dt ->
  (forall p, In p (q_facets M) -> 0 < val (T p) /\ 0 < val (S p)) ->
  (forall b, In b bcs -> forall p, In p (q_facets M) -> In (q_surface M p) (fst b) -> cooling (snd b) p) ->
  heat_solves M ms sources bcs true dt V T Tn -> heat_solves M ms sources bcs true dt V S Sn -> V (fun p => dsub (T p) (S p)) ->
  energy M rho cp ms (fun p => (val (T p) - val (S p) - (val (Tn p) - val (Sn p))) * (val (T p) - val (S p))) <= 0.
Proof.
  intros Hty Hw Hh Hk Hpos Hdt HT Hb H1 H2 HV. destruct (H1 _ HV) as (F1 & HF1 & Z1). destruct (H2 _ HV) as (F2 & HF2 & Z2).
  assert (H := heat_difference M ms rho cp k sources bcs true dt T Tn S Sn F1 F2 Hty Hw Hh Hk HT Hb HF1 HF2). rewrite Z1, Z2 in H. cbv zeta in H.
  set (e := fun p => _). enough (/ dt * energy M rho cp ms e <= 0).
  { destruct (Rle_lt_dec (energy M rho cp ms e) 0) as [Hz|Hz]; [exact Hz|]. exfalso.
    assert (0 < / dt * energy M rho cp ms e) by (apply Rmult_lt_0_compat; [now apply Rinv_0_lt_compat|exact Hz]). lra. }
  eapply Rle_trans; [|eapply Rle_trans; [exact H|lra]]. rewrite energy_integral by exact Hty. rewrite <- sum_over_scale. apply rsum_map_le. intros m Hm.
  rewrite <- sum_over_scale. apply rsum_map_le. intros z _. rewrite <- integral_scale. apply integral_le; [exact Hw|]. intros p _. cbn [dsub val grd]. unfold e.
  assert (0 <= k m * dot (q_dim M) (fun i => grd (T p) i - grd (S p) i) (fun i => grd (T p) i - grd (S p) i)) by (apply Rmult_le_pos; [now apply Hpos|apply dot_sq_nonneg]).
  unfold Rdiv. lra.
Qed.
End Mesh.
