(** Two solutions of the equations, tested with their difference. *)
From Coq Require Import Reals ZArith List Bool Lra Lia Psatz.
From Verif Require Import Base.Exc Base.Dual Model.Materials Model.Laws Model.Theta Model.Forms
  Spec.PhysSpec Spec.BalanceSpec Spec.StabilitySpec Proofs.LawProofs Proofs.ThetaProofs Proofs.FormProofs Proofs.TrapProofs.
Import ListNotations.
Local Open Scope R_scope.
Local Open Scope list_scope.

Lemma rsum_map_le {A} (f g : A -> R) l : (forall x, In x l -> f x <= g x) -> rsum (map f l) <= rsum (map g l).
Proof.
  induction l as [|a l IH]; intros H; cbn [map]; rewrite ?rsum_cons, ?rsum_nil; [lra|].
  assert (f a <= g a) by (apply H; now left). assert (rsum (map f l) <= rsum (map g l)) by (apply IH; intros; apply H; now right). lra.
Qed.
Lemma rsum_map_nonneg {A} (f : A -> R) l : (forall x, In x l -> 0 <= f x) -> 0 <= rsum (map f l).
Proof.
  intros H. rewrite <- (rsum_map_zero (fun _ : A => 0) l) by auto. now apply rsum_map_le.
Qed.
Lemma rsum_map_nonneg_zero {A} (f : A -> R) l : (forall x, In x l -> 0 <= f x) -> rsum (map f l) <= 0 -> forall x, In x l -> f x = 0.
Proof.
  induction l as [|a l IH]; intros H H0 x Hx; [destruct Hx|]. cbn [map] in H0. rewrite rsum_cons in H0.
  assert (0 <= f a) by (apply H; now left). assert (0 <= rsum (map f l)) by (apply rsum_map_nonneg; intros; apply H; now right).
  destruct Hx as [<-|Hx]; [lra|]. apply IH; [intros; apply H; now right|lra|exact Hx].
Qed.
Lemma dot_sq_nonneg d f : 0 <= dot d f f.
Proof. apply rsum_map_nonneg. intros i _. nra. Qed.
Lemma dot_sq_zero d f : dot d f f <= 0 -> forall i, (i < d)%nat -> f i = 0.
Proof.
  intros H i Hi. assert (f i * f i = 0).
  { apply (rsum_map_nonneg_zero (fun i => f i * f i) (seq 0 d)); [intros; nra|exact H|]. apply in_seq. lia. }
  nra.
Qed.
Lemma dot_scale d k f g : dot d (fun i => k * f i) g = k * dot d f g.
Proof. unfold dot. rewrite <- rsum_map_scale. apply rsum_map_ext. intros. ring. Qed.
Lemma dot_diff d f g h : dot d f h - dot d g h = dot d (fun i => f i - g i) h.
Proof.
  unfold dot. unfold Rminus at 1. rewrite <- rsum_map_opp, <- rsum_map_plus. apply rsum_map_ext. intros. ring.
Qed.

Section Stability.
Context {P : Type}.
Implicit Types (M : mesh P).

Lemma integral_le M m (e e' : P -> R) : positive_weights M ->
  (forall p, In p (points M m) -> e p <= e' p) -> integral M m e <= integral M m e'.
Proof.
  intros [Hc Hf] H. apply rsum_map_le. intros p Hp. apply Rmult_le_compat_l; [|now apply H].
  destruct m as [|z|z]; cbn [points] in Hp.
  - left. auto.
  - apply filter_In in Hp. left. apply Hc. tauto.
  - apply filter_In in Hp. apply Hf. tauto.
Qed.
Lemma integral_nonneg M m (e : P -> R) : positive_weights M -> (forall p, In p (points M m) -> 0 <= e p) -> 0 <= integral M m e.
Proof. intros Hw H. rewrite <- (integral_zero M m (fun _ => 0)) by auto. now apply integral_le. Qed.
Lemma integral_minus M m (e e' : P -> R) : integral M m e - integral M m e' = integral M m (fun p => e p - e' p).
Proof. unfold Rminus at 1. rewrite <- integral_opp, <- integral_plus. reflexivity. Qed.
Lemma integral_scale M m k (e : P -> R) : integral M m (fun p => k * e p) = k * integral M m e.
Proof. unfold integral. rewrite <- rsum_map_scale. apply rsum_map_ext. intros. ring. Qed.
Lemma integral_Dx M z (e : P -> R) : integral M (Dx z) e = integral M DxAll (fun p => if Z.eqb (q_volume M p) z then e p else 0).
Proof.
  unfold integral. cbn [points]. induction (q_cells M) as [|p l IH]; [reflexivity|]. cbn [filter map].
  rewrite rsum_cons, <- IH. destruct (Z.eqb (q_volume M p) z); cbn [map]; rewrite ?rsum_cons; [reflexivity|ring].
Qed.
Lemma integral_sum M {A} (l : list A) (e : A -> P -> R) :
  integral M DxAll (fun p => sum_over l (fun a => e a p)) = sum_over l (fun a => integral M DxAll (e a)).
Proof.
  induction l as [|a l IH]; [apply integral_zero; reflexivity|]. rewrite sum_over_cons, <- IH, <- integral_plus. reflexivity.
Qed.
Lemma integral_total M (e : P -> R) : q_type M = Cartesian -> total M e = integral M DxAll e.
Proof. intros H. unfold total, wsum, integral, weight. rewrite H. cbn [points]. apply rsum_map_ext. intros. ring. Qed.

(** mobile.py: terms of the materials. *)
Definition rate (dt : option R) (a b : R) : R := match dt with Some dt => (a - b) / dt | None => 0 end.
Lemma material_terms M pb D dt u un v F : physical M pb D ->
  sum_forms (material_form M (species pb u un v) (pb_T pb) dt false) (pb_materials pb) = Ok F ->
  assemble M F = integral M DxAll (fun p => rate dt (val (u 0%nat p)) (val (un 0%nat p)) * val (v 0%nat p)
                                       + D p * dot (q_dim M) (grd (u 0%nat p)) (grd (v 0%nat p))).
Proof.
  intros (Hty & [Hnd Hcov] & _ & HT & HD & _) HF.
  set (e := fun p => rate dt (val (u 0%nat p)) (val (un 0%nat p)) * val (v 0%nat p) + D p * dot (q_dim M) (grd (u 0%nat p)) (grd (v 0%nat p))).
  rewrite (sum_forms_assemble M _ (fun m => sum_over (ids (m_id (attrs m))) (fun z => total_in M z e)) (pb_materials pb) F HF).
  - rewrite <- sum_over_flat_map. fold (BalanceSpec.all_ids (pb_materials pb)).
    rewrite sum_materials_total; [now apply integral_total|exact Hnd|auto].
  - intros m G Hm. unfold material_form. unfold get_concentration, check_concentration.
    cbn [species mb_class mb_solution mb_previous mb_test bind].
    destruct (m_D0 (attrs m)) as [D0|f0] eqn:E0; cbn [float_of bind]; [|discriminate].
    destruct (m_ED (attrs m)) as [ED|f1] eqn:E1; cbn [float_of bind]; [|discriminate].
    intros HG. apply Ok_inj in HG. subst G. rewrite assemble_flat_map. apply sum_over_ext. intros z Hz.
    unfold diffusion_terms. cbv zeta. rewrite Hty. rewrite assemble_app, assemble_cons, assemble_nil. cbn [fst snd].
    assert (ET : total_in M z e = integral M (Dx z) e).
    { unfold total_in, wsum, integral, weight. rewrite Hty. apply rsum_map_ext. intros. ring. }
    rewrite ET. clear ET.
    match goal with |- assemble M ?G + _ = _ => assert (EA : assemble M G
      = integral M (Dx z) (fun p => rate dt (val (u 0%nat p)) (val (un 0%nat p)) * val (v 0%nat p))) end.
    { destruct dt as [dt|]; [rewrite assemble_cons, assemble_nil; cbn [fst snd rate]; ring|].
      rewrite assemble_nil, integral_zero; [reflexivity|]. intros. cbn [rate]. ring. }
    rewrite EA, Rplus_0_r, <- integral_plus. apply integral_ext. intros p Hp. apply in_points_cells in Hp as [Hp Hv].
    unfold e. f_equal. rewrite dot_scale. f_equal.
    destruct (HD p Hp m Hm) as (D0' & ED' & E0' & E1' & ->); [now rewrite Hv|]. rewrite E0 in E0'. rewrite E1 in E1'.
    injection E0' as <-. injection E1' as <-. apply arrhenius_model. apply HT. now left.
Qed.

(** Sources: decay removes more where there is more. *)
Lemma source_terms M pb u un w wn : positive_weights M -> (forall s, In s (pb_sources pb) -> physical_source s) ->
  0 <= assemble M (create_mobile_source_form M (species pb u un (diff u w)))
       - assemble M (create_mobile_source_form M (species pb w wn (diff u w))).
Proof.
  intros Hw Hs. unfold create_mobile_source_form. rewrite !assemble_flat_map. cbn [species mb_sources].
  rewrite sum_over_minus. apply rsum_map_nonneg. intros s Hin. unfold mobile_source_terms. cbv zeta. rewrite !assemble_map. cbn [fst snd].
  rewrite sum_over_minus. apply rsum_map_nonneg. intros z _. rewrite integral_minus. apply integral_nonneg; [exact Hw|].
  intros p _. cbn [species mb_test]. specialize (Hs s Hin). unfold physical_source in Hs. destruct (s_decay s) as [l|]; [|apply Req_le; ring].
  unfold decay_form, mobile_concentration. cbn [species mb_class mb_solution diff dsub val].
  assert (0 <= l * (val (u 0%nat p) - val (w 0%nat p)) ^ 2) by (apply Rmult_le_pos; [exact Hs|apply pow2_ge_0]). lra.
Qed.
Lemma flux_terms_diff M pb D dt u un w wn : physical M pb D -> nonnegative_at_boundary M u -> nonnegative_at_boundary M w ->
  0 <= assemble M (create_fluxes_form M (species pb u un (diff u w)) (pb_T pb) dt)
       - assemble M (create_fluxes_form M (species pb w wn (diff u w)) (pb_T pb) dt).
Proof.
  intros (_ & _ & Hw & HT & _ & _ & _ & _ & Hb) Hu Hu'. unfold create_fluxes_form. rewrite !assemble_flat_map. cbn [species mb_bcs].
  rewrite sum_over_minus. apply rsum_map_nonneg. intros b Hin. specialize (Hb b Hin).
  destruct b as [[|] surfaces f|s]; cbn [flux_terms physical_flux] in *; [rewrite assemble_nil; lra| |destruct Hb].
  rewrite !assemble_map, sum_over_minus. apply rsum_map_nonneg. intros z Hz. cbn [fst snd]. rewrite integral_minus. apply integral_nonneg; [exact Hw|].
  intros p Hp. apply in_points_facets in Hp as [Hp Hv]. unfold mobile_concentration. cbn [species mb_class mb_solution mb_test].
  rewrite !(flux_form_into f (T_T (pb_T pb)) _ _ p) with (1 := proj1 (HT p (or_intror Hp))) (2 := eq_refl).
  assert (Hd := Hb p Hp ltac:(now rewrite Hv) (val (u 0%nat p)) (val (w 0%nat p)) (Hu p Hp) (Hu' p Hp)).
  cbn [diff dsub val]. nra.
Qed.

(** One trap in one material. *)
Definition trap_of (t : trap P) (s sn v : field P) : trap P :=
  mkTrap (t_k0 t) (t_Ek t) (t_p0 t) (t_Ep t) (t_density t) (t_materials t) s sn v (t_sources t).
Lemma params_ok (t : trap P) i : forall x, (match t_k0 t with
               | PerMat k =>
                   let! k_0 := index k i in
                   let! E_k := arg_index (t_Ek t) i in
                   let! p_0 := arg_index (t_p0 t) i in
                   let! E_p := arg_index (t_Ep t) i in
                   let! density := index (t_density t) i in
                   Ok (k_0, E_k, p_0, E_p, density)
               | Scalar k_0 =>
                   let! E_k := arg_number (t_Ek t) in
                   let! p_0 := arg_number (t_p0 t) in
                   let! E_p := arg_number (t_Ep t) in
                   let! density := index (t_density t) 0 in
                   Ok (k_0, E_k, p_0, E_p, density)
               end) = Ok x -> let '(k_0, E_k, p_0, E_p, density) := x in trap_params t i k_0 E_k p_0 E_p density.
Proof.
  intros [[[[k_0 E_k] p_0] E_p] n] H. unfold arg_number, arg_index, trap_params in *. unfold index in *.
  destruct (t_k0 t) as [r|lk]; [left|right].
  - destruct (t_Ek t); cbn [bind] in H; [|discriminate]. destruct (t_p0 t); cbn [bind] in H; [|discriminate].
    destruct (t_Ep t); cbn [bind] in H; [|discriminate]. destruct (nth_error (t_density t) 0) eqn:E; cbn [bind] in H; [|discriminate].
    injection H as <- <- <- <- <-. auto.
  - destruct (nth_error lk i) eqn:E1; cbn [bind] in H; [|discriminate].
    destruct (t_Ek t) as [|lE]; cbn [bind] in H; [discriminate|]. destruct (nth_error lE i) eqn:E2; cbn [bind] in H; [|discriminate].
    destruct (t_p0 t) as [|lp]; cbn [bind] in H; [discriminate|]. destruct (nth_error lp i) eqn:E3; cbn [bind] in H; [|discriminate].
    destruct (t_Ep t) as [|lF]; cbn [bind] in H; [discriminate|]. destruct (nth_error lF i) eqn:E4; cbn [bind] in H; [|discriminate].
    destruct (nth_error (t_density t) i) eqn:E5; cbn [bind] in H; [|discriminate].
    injection H as <- <- <- <- <-. exists lk, lE, lp, lF. repeat split; assumption.
Qed.

Lemma exchange_bound a b L x y : 0 <= a -> 0 <= b -> a + b <= L -> - (L / 4 * (x ^ 2 + y ^ 2)) <= (a * x - b * y) * (x - y).
Proof.
  intros Ha Hb HL.
  assert (0 <= (x - y / 2) ^ 2) by apply pow2_ge_0. assert (0 <= (x / 2 - y) ^ 2) by apply pow2_ge_0.
  assert (0 <= x ^ 2) by apply pow2_ge_0. assert (0 <= y ^ 2) by apply pow2_ge_0.
  assert (0 <= a * (5 / 4 * x ^ 2 - x * y + y ^ 2 / 4)) by (apply Rmult_le_pos; [exact Ha|lra]).
  assert (0 <= b * (x ^ 2 / 4 - x * y + 5 / 4 * y ^ 2)) by (apply Rmult_le_pos; [exact Hb|lra]).
  assert (0 <= (L - (a + b)) * (x ^ 2 + y ^ 2)) by (apply Rmult_le_pos; [lra|lra]). lra.
Qed.

Lemma here_one M p z a : m_id a = IdOne z -> forall k, here M p (mkMatObj k a) = Z.eqb (q_volume M p) z.
Proof. intros E k. unfold here. cbn [attrs]. rewrite E. cbn [ids existsb]. apply orb_false_r. Qed.

Lemma pair_material M pb D L u un w wn t s sn s' sn' i m K1 K2 L1 L2 :
  physical M pb D -> 0 <= L ->
  (forall p, In p (q_cells M) -> In (q_volume M p) (ids (m_id (attrs m))) ->
   forall k_0 E_k p_0 E_p n, trap_params t i k_0 E_k p_0 E_p n ->
   let k := arrhenius k_0 E_k (val (T_T (pb_T pb) p)) in let d := arrhenius p_0 E_p (val (T_T (pb_T pb) p)) in
   0 <= k * (n p - val (s p)) /\ 0 <= k * val (w 0%nat p) + d /\ k * (n p - val (s p)) + (k * val (w 0%nat p) + d) <= L) ->
  let v := diff u w in let vt := fun p => dsub (s p) (s' p) in
  mobile_trapping_terms (species pb u un v) (pb_T pb) (trap_of t s sn vt) i m = Ok K1 ->
  mobile_trapping_terms (species pb w wn v) (pb_T pb) (trap_of t s' sn' vt) i m = Ok K2 ->
  trapping_terms (species pb u un v) (pb_T pb) (trap_of t s sn vt) i m = Ok L1 ->
  trapping_terms (species pb w wn v) (pb_T pb) (trap_of t s' sn' vt) i m = Ok L2 ->
  - integral M DxAll (fun p => L / 4 * ((if here M p m then 1 else 0) * (val (v 0%nat p) ^ 2 + val (vt p) ^ 2)))
  <= - (assemble M K1 - assemble M K2) + (assemble M L1 - assemble M L2).
Proof.
  intros Hph HL Hr v vt. unfold mobile_trapping_terms, trapping_terms, get_concentration, check_concentration.
  cbn [trap_of t_k0 t_Ek t_p0 t_Ep t_density t_solution t_test species mb_class mb_solution mb_previous mb_test bind fst snd].
  destruct (match t_k0 t with Scalar _ => _ | PerMat _ => _ end) as [[[[[k_0 E_k] p_0] E_p] n]|e] eqn:Epar; cbn [bind]; [|discriminate].
  apply (params_ok t i) in Epar. cbv beta iota in Epar.
  destruct (m_id (attrs m)) as [z|l] eqn:Eid; cbn [dx_id bind]; [|discriminate].
  intros H1 H2 H3 H4. apply Ok_inj in H1, H2, H3, H4. subst K1 K2 L1 L2.
  rewrite <- integral_opp. rewrite !assemble_cons, !assemble_nil. cbn [fst snd]. rewrite !Rplus_0_r, <- !integral_plus, !integral_minus.
  rewrite <- (integral_opp M (Dx z)), <- integral_plus, integral_Dx. destruct Hph as (_ & _ & Hw & HT & _).
  apply integral_le; [exact Hw|]. intros p Hp. cbn [points] in Hp.
  assert (Hh : here M p m = Z.eqb (q_volume M p) z) by (destruct m as [k a]; now apply here_one). rewrite Hh.
  destruct (Z.eqb_spec (q_volume M p) z) as [Ev|_]; [|lra].
  specialize (Hr p Hp ltac:(rewrite Ev; now left) _ _ _ _ _ Epar). cbv zeta in Hr.
  assert (HT' : 0 < val (T_T (pb_T pb) p)) by (apply HT; now left).
  pose proof (arrhenius_model k_0 E_k _ HT') as Ek. pose proof (arrhenius_model p_0 E_p _ HT') as Ep.
  rewrite <- Ek, <- Ep in Hr.
  set (ek := exp (- E_k / k_B / val (T_T (pb_T pb) p))) in *. set (ep := exp (- E_p / k_B / val (T_T (pb_T pb) p))) in *.
  destruct Hr as (Ha & Hb & Hl).
  pose proof (exchange_bound _ _ _ (val (v 0%nat p)) (val (vt p)) Ha Hb Hl) as HB.
  subst v vt. cbn [diff dsub val] in *.
  set (x1 := val (u 0%nat p)) in *. set (x2 := val (w 0%nat p)) in *. set (y1 := val (s p)) in *. set (y2 := val (s' p)) in *.
  clearbody ek ep x1 x2 y1 y2. set (N := n p) in *. clearbody N.
  match goal with H : ?l <= ?r |- ?l' <= ?r' => replace l' with l by ring; replace r' with r; [exact H|ring] end.
Qed.

Lemma sum_forms_enum_cons {A} (f : nat -> A -> res (form P)) i a l F : sum_forms_enum f i (a :: l) = Ok F ->
  exists F1 F2, f i a = Ok F1 /\ sum_forms_enum f (S i) l = Ok F2 /\ F = F1 ++ F2.
Proof.
  cbn [sum_forms_enum]. destruct (f i a) as [F1|e]; cbn [bind]; [|discriminate].
  destruct (sum_forms_enum f (S i) l) as [F2|e]; cbn [bind]; [|discriminate].
  intros H. apply Ok_inj in H. exists F1, F2. auto.
Qed.
Lemma sum_forms_cons {A} (f : A -> res (form P)) a l F : sum_forms f (a :: l) = Ok F ->
  exists F1 F2, f a = Ok F1 /\ sum_forms f l = Ok F2 /\ F = F1 ++ F2.
Proof.
  cbn [sum_forms]. destruct (f a) as [F1|e]; cbn [bind]; [|discriminate].
  destruct (sum_forms f l) as [F2|e]; cbn [bind]; [|discriminate].
  intros H. apply Ok_inj in H. exists F1, F2. auto.
Qed.

(** One trap in its materials. *)
Lemma pair_materials M pb D L u un w wn t s sn s' sn' : physical M pb D -> 0 <= L ->
  let v := diff u w in let vt := fun p => dsub (s p) (s' p) in
  forall l j K1 K2 L1 L2,
  (forall i m p, nth_error l i = Some m -> In p (q_cells M) -> In (q_volume M p) (ids (m_id (attrs m))) ->
   forall k_0 E_k p_0 E_p n, trap_params t (j + i) k_0 E_k p_0 E_p n ->
   let k := arrhenius k_0 E_k (val (T_T (pb_T pb) p)) in let d := arrhenius p_0 E_p (val (T_T (pb_T pb) p)) in
   0 <= k * (n p - val (s p)) /\ 0 <= k * val (w 0%nat p) + d /\ k * (n p - val (s p)) + (k * val (w 0%nat p) + d) <= L) ->
  sum_forms_enum (mobile_trapping_terms (species pb u un v) (pb_T pb) (trap_of t s sn vt)) j l = Ok K1 ->
  sum_forms_enum (mobile_trapping_terms (species pb w wn v) (pb_T pb) (trap_of t s' sn' vt)) j l = Ok K2 ->
  sum_forms_enum (trapping_terms (species pb u un v) (pb_T pb) (trap_of t s sn vt)) j l = Ok L1 ->
  sum_forms_enum (trapping_terms (species pb w wn v) (pb_T pb) (trap_of t s' sn' vt)) j l = Ok L2 ->
  - integral M DxAll (fun p => L / 4 * (INR (length (filter (here M p) l)) * (val (v 0%nat p) ^ 2 + val (vt p) ^ 2)))
  <= - (assemble M K1 - assemble M K2) + (assemble M L1 - assemble M L2).
Proof.
  intros Hph HL v vt. induction l as [|m l IH]; intros j K1 K2 L1 L2 Hr H1 H2 H3 H4.
  - cbn [sum_forms_enum] in *. apply Ok_inj in H1, H2, H3, H4. subst. rewrite !assemble_nil.
    rewrite integral_zero; [lra|]. intros p _. cbn [filter length INR]. ring.
  - apply sum_forms_enum_cons in H1 as (A1 & B1 & HA1 & HB1 & ->). apply sum_forms_enum_cons in H2 as (A2 & B2 & HA2 & HB2 & ->).
    apply sum_forms_enum_cons in H3 as (A3 & B3 & HA3 & HB3 & ->). apply sum_forms_enum_cons in H4 as (A4 & B4 & HA4 & HB4 & ->).
    rewrite !assemble_app.
    assert (H1 := IH (S j) B1 B2 B3 B4 ltac:(intros i m' p Hi; replace (S j + i)%nat with (j + S i)%nat by lia; now apply Hr) HB1 HB2 HB3 HB4).
    assert (H2 := pair_material M pb D L u un w wn t s sn s' sn' j m A1 A2 A3 A4 Hph HL
      ltac:(intros p Hp Hv k_0 E_k p_0 E_p n Hpar; apply (Hr 0%nat m p eq_refl Hp Hv); rewrite Nat.add_0_r; exact Hpar) HA1 HA2 HA3 HA4).
    cbv zeta in H2. fold v in H2. fold vt in H2.
    rewrite (integral_ext M DxAll _ (fun p => L / 4 * ((if here M p m then 1 else 0) * (val (v 0%nat p) ^ 2 + val (vt p) ^ 2))
      + L / 4 * (INR (length (filter (here M p) l)) * (val (v 0%nat p) ^ 2 + val (vt p) ^ 2)))).
    + rewrite integral_plus. lra.
    + intros p _. cbn [filter]. destruct (here M p m); cbn [length]; rewrite ?S_INR; ring.
Qed.

(** The whole equation of a trap. *)
Lemma trap_equation M pb D L dt u un w wn t s sn s' sn' K1 K2 L1 L2 : physical M pb D -> 0 <= L ->
  (forall s0, In s0 (t_sources t) -> physical_source s0) ->
  (forall p, In p (q_cells M) -> rates_at M (pb_T pb) t (fun p => val (s p)) (fun p => val (w 0%nat p)) p L) ->
  let v := diff u w in let vt := fun p => dsub (s p) (s' p) in
  sum_forms_enum (mobile_trapping_terms (species pb u un v) (pb_T pb) (trap_of t s sn vt)) 0 (t_materials t) = Ok K1 ->
  sum_forms_enum (mobile_trapping_terms (species pb w wn v) (pb_T pb) (trap_of t s' sn' vt)) 0 (t_materials t) = Ok K2 ->
  trap_create_form (species pb u un v) (pb_materials pb) (pb_T pb) (Some dt) (trap_of t s sn vt) = Ok L1 ->
  trap_create_form (species pb w wn v) (pb_materials pb) (pb_T pb) (Some dt) (trap_of t s' sn' vt) = Ok L2 ->
  integral M DxAll (fun p => (val (vt p) - (val (sn p) - val (sn' p))) / dt * val (vt p))
  - integral M DxAll (fun p => L / 4 * (INR (length (filter (here M p) (t_materials t))) * (val (v 0%nat p) ^ 2 + val (vt p) ^ 2)))
  <= - (assemble M K1 - assemble M K2) + (assemble M L1 - assemble M L2).
Proof.
  intros Hph HL Hs Hr v vt HK1 HK2. unfold trap_create_form, create_trapping_form.
  cbn [trap_of t_materials t_sources t_solution t_previous t_test bind].
  destruct (sum_forms_enum (trapping_terms (species pb u un v) _ _) 0 (t_materials t)) as [L1'|e] eqn:HL1; cbn [bind]; [|discriminate].
  destruct (sum_forms_enum (trapping_terms (species pb w wn v) _ _) 0 (t_materials t)) as [L2'|e] eqn:HL2; cbn [bind].
  2:{ destruct (sum_forms _ (t_sources t)); cbn [bind]; discriminate. }
  destruct (sum_forms (trap_source_terms (trap_of t s sn vt)) (t_sources t)) as [S1|e] eqn:HS1; cbn [bind]; [|discriminate].
  destruct (sum_forms (trap_source_terms (trap_of t s' sn' vt)) (t_sources t)) as [S2|e] eqn:HS2; cbn [bind]; [|discriminate].
  intros H1 H2. apply Ok_inj in H1, H2. subst L1 L2. rewrite !assemble_app, !assemble_cons, !assemble_nil. cbn [fst snd].
  assert (Hmat := pair_materials M pb D L u un w wn t s sn s' sn' Hph HL (t_materials t) 0%nat K1 K2 L1' L2').
  cbv zeta in Hmat. fold v in Hmat. fold vt in Hmat.
  specialize (Hmat ltac:(intros i m p Hi Hp Hv k_0 E_k p_0 E_p n Hpar; exact (Hr p Hp i m k_0 E_k p_0 E_p n Hi Hv Hpar)) HK1 HK2 HL1 HL2).
  assert (Hsrc : 0 <= assemble M S1 - assemble M S2).
  { destruct Hph as (_ & _ & Hw & _). clear - Hs HS1 HS2 Hw. revert S1 S2 HS1 HS2 Hs. induction (t_sources t) as [|a l IH]; intros S1 S2 HS1 HS2 Hs.
    - cbn [sum_forms] in *. apply Ok_inj in HS1, HS2. subst. lra.
    - apply sum_forms_cons in HS1 as (A1 & B1 & HA1 & HB1 & ->). apply sum_forms_cons in HS2 as (A2 & B2 & HA2 & HB2 & ->).
      rewrite !assemble_app. specialize (IH B1 B2 HB1 HB2 ltac:(intros; apply Hs; now right)).
      enough (0 <= assemble M A1 - assemble M A2) by lra. specialize (Hs a (or_introl eq_refl)). unfold physical_source in Hs.
      unfold trap_source_terms in HA1, HA2. destruct (dx_id (s_volume a)) as [z|e]; cbn [bind] in HA1, HA2; [|discriminate].
      apply Ok_inj in HA1, HA2. subst. rewrite !assemble_cons, !assemble_nil. cbn [fst snd trap_of t_solution t_test].
      rewrite !Rplus_0_r, integral_minus. apply integral_nonneg; [exact Hw|]. intros p _. destruct (s_decay a) as [r|]; [|apply Req_le; ring].
      unfold decay_form. subst vt. cbn [dsub val].
      assert (0 <= r * (val (s p) - val (s' p)) ^ 2) by (apply Rmult_le_pos; [exact Hs|apply pow2_ge_0]). lra. }
  assert (Htime : integral M DxAll (fun p => (val (s p) - val (sn p)) / dt * val (vt p)) - integral M DxAll (fun p => (val (s' p) - val (sn' p)) / dt * val (vt p))
    = integral M DxAll (fun p => (val (vt p) - (val (sn p) - val (sn' p))) / dt * val (vt p))).
  { rewrite integral_minus. apply integral_ext. intros p _. subst vt. cbn [dsub val]. unfold Rdiv. ring. }
  lra.
Qed.

(** All traps, from number i on. *)
Fixpoint penalty M (i : nat) (traps : list (trap P)) (v : state P) (p : P) : R :=
  match traps with
  | [] => 0
  | t :: r => INR (length (filter (here M p) (t_materials t))) * (val (v 0%nat p) ^ 2 + val (v i p) ^ 2) + penalty M (S i) r v p
  end.
Lemma trap_equations M pb D L dt u un w wn : physical M pb D -> 0 <= L -> let v := diff u w in
  forall traps i K1 K2 L1 L2,
  (forall t s, In t traps -> In s (t_sources t) -> physical_source s) ->
  (forall j t, nth_error traps j = Some t -> forall p, In p (q_cells M) ->
     rates_at M (pb_T pb) t (fun p => val (u (i + j)%nat p)) (fun p => val (w 0%nat p)) p L) ->
  sum_forms (fun t => sum_forms_enum (mobile_trapping_terms (species pb u un v) (pb_T pb) t) 0 (t_materials t)) (put i traps u un v) = Ok K1 ->
  sum_forms (fun t => sum_forms_enum (mobile_trapping_terms (species pb w wn v) (pb_T pb) t) 0 (t_materials t)) (put i traps w wn v) = Ok K2 ->
  sum_forms (trap_create_form (species pb u un v) (pb_materials pb) (pb_T pb) (Some dt)) (put i traps u un v) = Ok L1 ->
  sum_forms (trap_create_form (species pb w wn v) (pb_materials pb) (pb_T pb) (Some dt)) (put i traps w wn v) = Ok L2 ->
  integral M DxAll (fun p => sum_over (seq i (length traps)) (fun j => (val (v j p) - val (diff un wn j p)) / dt * val (v j p)))
  - integral M DxAll (fun p => L / 4 * penalty M i traps v p)
  <= - (assemble M K1 - assemble M K2) + (assemble M L1 - assemble M L2).
Proof.
  intros Hph HL v. induction traps as [|t traps IH]; intros i K1 K2 L1 L2 Hs Hr H1 H2 H3 H4; cbn [put] in *.
  - cbn [sum_forms] in *. apply Ok_inj in H1, H2, H3, H4. subst. rewrite !assemble_nil, !integral_zero; [lra| |].
    + intros p _. cbn [penalty]. ring.
    + reflexivity.
  - apply sum_forms_cons in H1 as (A1 & B1 & HA1 & HB1 & ->). apply sum_forms_cons in H2 as (A2 & B2 & HA2 & HB2 & ->).
    apply sum_forms_cons in H3 as (A3 & B3 & HA3 & HB3 & ->). apply sum_forms_cons in H4 as (A4 & B4 & HA4 & HB4 & ->).
    rewrite !assemble_app.
    assert (H1 := IH (S i) B1 B2 B3 B4 ltac:(intros t' s0 Ht' Hs0; exact (Hs t' s0 (or_intror Ht') Hs0))
      ltac:(intros j t' Hj; replace (S i + j)%nat with (i + S j)%nat by lia; now apply Hr) HB1 HB2 HB3 HB4).
    assert (H2 := trap_equation M pb D L dt u un w wn t (u i) (un i) (w i) (wn i) A1 A2 A3 A4 Hph HL
      ltac:(intros s0 Hs0; exact (Hs t s0 (or_introl eq_refl) Hs0))
      ltac:(specialize (Hr 0%nat t eq_refl); rewrite Nat.add_0_r in Hr; exact Hr) HA1 HA2 HA3 HA4).
    cbv zeta in H2. fold v in H2.
    rewrite (integral_ext M DxAll (fun p => sum_over (seq i (length (t :: traps))) _) (fun p => (val (v i p) - val (diff un wn i p)) / dt * val (v i p)
      + sum_over (seq (S i) (length traps)) (fun j => (val (v j p) - val (diff un wn j p)) / dt * val (v j p)))) by reflexivity.
    rewrite (integral_ext M DxAll (fun p => L / 4 * penalty M i (t :: traps) v p)
      (fun p => L / 4 * (INR (length (filter (here M p) (t_materials t))) * (val (v 0%nat p) ^ 2 + val (v i p) ^ 2)) + L / 4 * penalty M (S i) traps v p))
      by (intros; cbn [penalty]; ring).
    rewrite !integral_plus. change (fun p => dsub (u i p) (w i p)) with (v i) in H2. change (fun p => val (v i p)) with (fun p => val (v i p)) in H2.
    cbn [diff dsub val] in *. lra.
Qed.

Lemma penalty_bound M v p : forall traps i, (1 <= i)%nat ->
  penalty M i traps v p <= INR (attached M traps p) * (val (v 0%nat p) ^ 2 + sum_over (seq i (length traps)) (fun j => val (v j p) ^ 2)).
Proof.
  induction traps as [|t r IH]; intros i Hi; cbn [penalty attached fold_right].
  - cbn [INR]. lra.
  - specialize (IH (S i) ltac:(lia)). cbn [length seq]. rewrite sum_over_cons, plus_INR. fold (attached M r p).
    set (a := INR (length (filter (here M p) (t_materials t)))) in *. set (b := INR (attached M r p)) in *.
    assert (0 <= a) by apply pos_INR. assert (0 <= b) by apply pos_INR.
    set (x := val (v 0%nat p) ^ 2) in *. set (y := val (v i p) ^ 2) in *. set (S0 := sum_over (seq (S i) (length r)) _) in *.
    assert (0 <= y) by apply pow2_ge_0.
    assert (0 <= S0) by (apply rsum_map_nonneg; intros; apply pow2_ge_0). nra.
Qed.

(** All equations of a step. *)
Lemma step_difference M pb D L Lambda dt u un w wn F1 F2 : physical M pb D -> bounded_rates M pb u w L Lambda ->
  nonnegative_at_boundary M u -> nonnegative_at_boundary M w ->
  equations M pb (Some dt) u un (diff u w) = Ok F1 -> equations M pb (Some dt) w wn (diff u w) = Ok F2 ->
  let n := length (pb_traps pb) in
  integral M DxAll (fun p => sum_over (seq 0 (S n)) (fun j => (val (diff u w j p) - val (diff un wn j p)) / dt * val (diff u w j p)))
  + integral M DxAll (fun p => D p * dot (q_dim M) (grd (diff u w 0%nat p)) (grd (diff u w 0%nat p)))
  - Lambda / 4 * norm2 M n (diff u w) <= assemble M F1 - assemble M F2.
Proof.
  intros Hph (HL & HLam & Hr & HA) Hu Hw H1 H2 n. unfold equations, define_variational_problem, mobile_create_form, create_diffusion_form in H1, H2.
  set (v := diff u w) in *.
  destruct (sum_forms (material_form M (species pb u un v) _ _ _) _) as [A1|e] eqn:HA1; cbn [bind] in H1; [|discriminate].
  destruct (sum_forms (material_form M (species pb w wn v) _ _ _) _) as [A2|e] eqn:HA2; cbn [bind] in H2; [|discriminate].
  destruct (sum_forms (fun t => sum_forms_enum (mobile_trapping_terms (species pb u un v) _ t) 0 _) _) as [K1|e] eqn:HK1; cbn [bind] in H1; [|discriminate].
  destruct (sum_forms (fun t => sum_forms_enum (mobile_trapping_terms (species pb w wn v) _ t) 0 _) _) as [K2|e] eqn:HK2; cbn [bind] in H2; [|discriminate].
  destruct (sum_forms (trap_create_form (species pb u un v) _ _ _) _) as [L1|e] eqn:HL1; cbn [bind] in H1; [|discriminate].
  destruct (sum_forms (trap_create_form (species pb w wn v) _ _ _) _) as [L2|e] eqn:HL2; cbn [bind] in H2; [|discriminate].
  apply Ok_inj in H1, H2. subst F1 F2. rewrite !assemble_app, !assemble_neg.
  rewrite (material_terms M pb D (Some dt) u un v A1 Hph HA1), (material_terms M pb D (Some dt) w wn v A2 Hph HA2).
  pose proof Hph as (Hty & _ & Hpw & _ & _ & _ & Hs & Hst & _).
  assert (Hsrc := source_terms M pb u un w wn Hpw Hs). fold v in Hsrc.
  assert (Hfl := flux_terms_diff M pb D (Some dt) u un w wn Hph Hu Hw). fold v in Hfl.
  assert (Htr := trap_equations M pb D L dt u un w wn Hph HL (pb_traps pb) 1%nat K1 K2 L1 L2 Hst
     ltac:(intros j t Hj; exact (Hr j t Hj)) HK1 HK2 HL1 HL2). fold v in Htr. fold n in Htr.
  assert (Hpen : integral M DxAll (fun p => L / 4 * penalty M 1 (pb_traps pb) v p) <= Lambda / 4 * norm2 M n v).
  { unfold norm2. rewrite integral_total, <- integral_scale by exact Hty. apply integral_le; [exact Hpw|]. intros p Hp. cbn [points] in Hp.
    cbn [seq]. rewrite sum_over_cons. specialize (HA p Hp). pose proof (penalty_bound M v p (pb_traps pb) 1%nat (le_n _)) as HB.
    fold n in HB. set (E := val (v 0%nat p) ^ 2 + _) in *.
    assert (0 <= E) by (apply Rplus_le_le_0_compat; [apply pow2_ge_0|apply rsum_map_nonneg; intros; apply pow2_ge_0]).
    assert (L * penalty M 1 (pb_traps pb) v p <= L * (INR (attached M (pb_traps pb) p) * E)) by (now apply Rmult_le_compat_l).
    assert (L * INR (attached M (pb_traps pb) p) * E <= Lambda * E) by (now apply Rmult_le_compat_r). lra. }
  assert (Hmat : integral M DxAll (fun p => rate (Some dt) (val (u 0%nat p)) (val (un 0%nat p)) * val (v 0%nat p) + D p * dot (q_dim M) (grd (u 0%nat p)) (grd (v 0%nat p)))
     - integral M DxAll (fun p => rate (Some dt) (val (w 0%nat p)) (val (wn 0%nat p)) * val (v 0%nat p) + D p * dot (q_dim M) (grd (w 0%nat p)) (grd (v 0%nat p)))
     = integral M DxAll (fun p => (val (v 0%nat p) - val (diff un wn 0%nat p)) / dt * val (v 0%nat p))
       + integral M DxAll (fun p => D p * dot (q_dim M) (grd (v 0%nat p)) (grd (v 0%nat p)))).
  { rewrite integral_minus, <- integral_plus. apply integral_ext. intros p _. cbn [rate].
    assert (Ed := dot_diff (q_dim M) (grd (u 0%nat p)) (grd (w 0%nat p)) (grd (v 0%nat p))).
    change (fun i => grd (u 0%nat p) i - grd (w 0%nat p) i) with (grd (v 0%nat p)) in Ed. rewrite <- Ed.
    change (val (v 0%nat p)) with (val (u 0%nat p) - val (w 0%nat p)). cbn [diff dsub val]. unfold Rdiv. ring. }
  rewrite (integral_ext M DxAll (fun p => sum_over (seq 0 (S n)) _) (fun p => (val (v 0%nat p) - val (diff un wn 0%nat p)) / dt * val (v 0%nat p)
      + sum_over (seq 1 n) (fun j => (val (v j p) - val (diff un wn j p)) / dt * val (v j p)))) by reflexivity.
  rewrite integral_plus. lra.
Qed.

(** Steady state, every component tested with the same function: what the traps exchange with the
    mobile species cancels and their sources remain. *)
Definition everywhere (v : field P) : state P := fun _ => v.
Lemma steady_trap M pb u un v t s sn K L :
  (forall m, In m (pb_materials pb) -> mat_in m (t_materials t) = true) -> (forall s0, In s0 (t_sources t) -> s_decay s0 = None) ->
  let mb := species pb u un (everywhere v) in
  sum_forms_enum (mobile_trapping_terms mb (pb_T pb) (trap_of t s sn v)) 0 (t_materials t) = Ok K ->
  trap_create_form mb (pb_materials pb) (pb_T pb) None (trap_of t s sn v) = Ok L ->
  - assemble M K + assemble M L = sum_over (t_sources t) (fun s0 => match dx_id (s_volume s0) with Ok z => integral M (Dx z) (fun p => - s_value s0 p * val (v p)) | Err _ => 0 end).
Proof.
  intros Hm Hs mb HK. unfold trap_create_form, create_trapping_form. cbn [trap_of t_materials t_sources t_solution t_previous t_test].
  destruct (sum_forms (fun m => if mat_in m (t_materials t) then Ok [] else _) (pb_materials pb)) as [F0|e] eqn:H0; cbn [bind]; [|discriminate].
  destruct (sum_forms_enum (trapping_terms mb _ _) 0 (t_materials t)) as [L'|e] eqn:HL'; cbn [bind]; [|discriminate].
  destruct (sum_forms (trap_source_terms (trap_of t s sn v)) (t_sources t)) as [S1|e] eqn:HS1; cbn [bind]; [|discriminate].
  intros HL. apply Ok_inj in HL. subst L. rewrite !assemble_app.
  assert (E0 : assemble M F0 = 0).
  { rewrite (sum_forms_assemble M _ (fun _ => 0) _ _ H0); [apply rsum_map_zero; reflexivity|].
    intros m G Hin HG. rewrite (Hm m Hin) in HG. apply Ok_inj in HG. now subst. }
  assert (EK : assemble M K = assemble M L').
  { apply (sum_forms_enum_rel M _ _ _ _ _ _ HK HL'). intros j a K0 L0 _ H1 H2. apply (trapping_cancel M mb (pb_T pb) (trap_of t s sn v) j a K0 L0); auto. }
  rewrite E0, EK. replace (- assemble M L' + (0 + assemble M L' + assemble M S1)) with (assemble M S1) by ring.
  apply (sum_forms_assemble M _ _ _ _ HS1). intros s0 G Hin. unfold trap_source_terms. rewrite (Hs s0 Hin).
  destruct (dx_id (s_volume s0)) as [z|e]; cbn [bind]; [|discriminate]. intros HG. apply Ok_inj in HG. subst G.
  rewrite assemble_cons, assemble_nil. cbn [fst snd trap_of t_test]. ring.
Qed.
Lemma steady_traps M pb u un v : forall traps i K L,
  (forall t, In t traps -> (forall m, In m (pb_materials pb) -> mat_in m (t_materials t) = true) /\ (forall s0, In s0 (t_sources t) -> s_decay s0 = None)) ->
  let mb := species pb u un (everywhere v) in
  sum_forms (fun t => sum_forms_enum (mobile_trapping_terms mb (pb_T pb) t) 0 (t_materials t)) (put i traps u un (everywhere v)) = Ok K ->
  sum_forms (trap_create_form mb (pb_materials pb) (pb_T pb) None) (put i traps u un (everywhere v)) = Ok L ->
  - assemble M K + assemble M L = sum_over traps (fun t => sum_over (t_sources t) (fun s0 =>
      match dx_id (s_volume s0) with Ok z => integral M (Dx z) (fun p => - s_value s0 p * val (v p)) | Err _ => 0 end)).
Proof.
  induction traps as [|t traps IH]; intros i K L Ht mb HK HL; cbn [put] in *.
  - cbn [sum_forms] in *. apply Ok_inj in HK, HL. subst. rewrite !assemble_nil. unfold sum_over. cbn. ring.
  - apply sum_forms_cons in HK as (A1 & B1 & HA1 & HB1 & ->). apply sum_forms_cons in HL as (A2 & B2 & HA2 & HB2 & ->).
    rewrite !assemble_app, sum_over_cons. destruct (Ht t (or_introl eq_refl)) as [Hm Hs].
    assert (H1 := steady_trap M pb u un v t (u i) (un i) A1 A2 Hm Hs HA1 HA2).
    assert (H2 := IH (S i) B1 B2 ltac:(intros; apply Ht; now right) HB1 HB2). lra.
Qed.
Lemma steady_difference M pb D u un w wn F1 F2 : physical M pb D ->
  (forall t, In t (pb_traps pb) -> (forall m, In m (pb_materials pb) -> mat_in m (t_materials t) = true) /\ (forall s0, In s0 (t_sources t) -> s_decay s0 = None)) ->
  nonnegative_at_boundary M u -> nonnegative_at_boundary M w ->
  let v := everywhere (diff u w 0%nat) in
  equations M pb None u un v = Ok F1 -> equations M pb None w wn v = Ok F2 ->
  integral M DxAll (fun p => D p * dot (q_dim M) (grd (diff u w 0%nat p)) (grd (diff u w 0%nat p))) <= assemble M F1 - assemble M F2.
Proof.
  intros Hph Ht Hu Hw v H1 H2. unfold equations, define_variational_problem, mobile_create_form, create_diffusion_form in H1, H2.
  destruct (sum_forms (material_form M (species pb u un v) _ _ _) _) as [A1|e] eqn:HA1; cbn [bind] in H1; [|discriminate].
  destruct (sum_forms (material_form M (species pb w wn v) _ _ _) _) as [A2|e] eqn:HA2; cbn [bind] in H2; [|discriminate].
  destruct (sum_forms (fun t => sum_forms_enum (mobile_trapping_terms (species pb u un v) _ t) 0 _) _) as [K1|e] eqn:HK1; cbn [bind] in H1; [|discriminate].
  destruct (sum_forms (fun t => sum_forms_enum (mobile_trapping_terms (species pb w wn v) _ t) 0 _) _) as [K2|e] eqn:HK2; cbn [bind] in H2; [|discriminate].
  destruct (sum_forms (trap_create_form (species pb u un v) _ _ _) _) as [L1|e] eqn:HL1; cbn [bind] in H1; [|discriminate].
  destruct (sum_forms (trap_create_form (species pb w wn v) _ _ _) _) as [L2|e] eqn:HL2; cbn [bind] in H2; [|discriminate].
  apply Ok_inj in H1, H2. subst F1 F2. rewrite !assemble_app, !assemble_neg.
  rewrite (material_terms M pb D None u un v A1 Hph HA1), (material_terms M pb D None w wn v A2 Hph HA2).
  pose proof Hph as (Hty & _ & Hpw & _ & _ & _ & Hs & _ & _).
  assert (T1 := steady_traps M pb u un (diff u w 0%nat) (pb_traps pb) 1%nat K1 L1 Ht HK1 HL1).
  assert (T2 := steady_traps M pb w wn (diff u w 0%nat) (pb_traps pb) 1%nat K2 L2 Ht HK2 HL2).
  assert (Hsrc := source_terms M pb u un w wn Hpw Hs).
  assert (Hfl := flux_terms_diff M pb D None u un w wn Hph Hu Hw).
  change (species pb u un (diff u w)) with (species pb u un v) in Hsrc, Hfl.
  change (species pb w wn (diff u w)) with (species pb w wn v) in Hsrc, Hfl.
  assert (Hmat : integral M DxAll (fun p => rate None (val (u 0%nat p)) (val (un 0%nat p)) * val (v 0%nat p) + D p * dot (q_dim M) (grd (u 0%nat p)) (grd (v 0%nat p)))
     - integral M DxAll (fun p => rate None (val (w 0%nat p)) (val (wn 0%nat p)) * val (v 0%nat p) + D p * dot (q_dim M) (grd (w 0%nat p)) (grd (v 0%nat p)))
     = integral M DxAll (fun p => D p * dot (q_dim M) (grd (diff u w 0%nat p)) (grd (diff u w 0%nat p)))).
  { rewrite integral_minus. apply integral_ext. intros p _. cbn [rate].
    assert (Ed := dot_diff (q_dim M) (grd (u 0%nat p)) (grd (w 0%nat p)) (grd (v 0%nat p))).
    change (fun i => grd (u 0%nat p) i - grd (w 0%nat p) i) with (grd (diff u w 0%nat p)) in Ed. change (v 0%nat p) with (diff u w 0%nat p) in *. rewrite <- Ed. ring. }
  lra.
Qed.

(** The heat equation with constant properties. *)
Lemma heat_materials M ms rho cp k transient dt (T Tn v : field P) F : q_type M = Cartesian ->
  constant_heat rho cp ms -> constant_conductivity k ms ->
  sum_forms (heat_material_form M transient dt T Tn v) ms = Ok F ->
  assemble M F = sum_over ms (fun m => sum_over (ids (m_id (attrs m))) (fun z => integral M (Dx z) (fun p =>
    (if transient then rho m * cp m * ((val (T p) - val (Tn p)) / dt * val (v p)) else 0) + k m * dot (q_dim M) (grd (T p)) (grd (v p))))).
Proof.
  intros Hty Hh Hk HF. apply (sum_forms_assemble M _ _ _ _ HF). intros m G Hm. destruct (Hh m Hm) as [Hr Hc]. specialize (Hk m Hm).
  unfold heat_material_form. rewrite Hk, Hr, Hc, Hty. cbn [value_at bind].
  intros HG. destruct transient; cbn [bind] in HG; apply Ok_inj in HG; subst G; rewrite assemble_app, !assemble_map; cbn [fst snd].
  - rewrite <- sum_over_plus. apply sum_over_ext. intros z _. rewrite <- integral_plus. apply integral_ext. intros p _. rewrite dot_scale. unfold Rdiv. ring.
  - rewrite assemble_nil, Rplus_0_l. apply sum_over_ext. intros z _. apply integral_ext. intros p _. rewrite dot_scale. ring.
Qed.
Lemma heat_difference M ms rho cp k sources bcs transient dt (T Tn S Sn : field P) F1 F2 : q_type M = Cartesian -> positive_weights M ->
  constant_heat rho cp ms -> constant_conductivity k ms ->
  (forall p, In p (q_facets M) -> 0 < val (T p) /\ 0 < val (S p)) ->
  (forall b, In b bcs -> forall p, In p (q_facets M) -> In (q_surface M p) (fst b) -> cooling (snd b) p) ->
  let v := fun p => dsub (T p) (S p) in
  heat_form M transient dt T Tn v ms sources bcs = Ok F1 -> heat_form M transient dt S Sn v ms sources bcs = Ok F2 ->
  sum_over ms (fun m => sum_over (ids (m_id (attrs m))) (fun z => integral M (Dx z) (fun p =>
    (if transient then rho m * cp m * ((val (v p) - (val (Tn p) - val (Sn p))) / dt * val (v p)) else 0)
    + k m * dot (q_dim M) (grd (v p)) (grd (v p))))) <= assemble M F1 - assemble M F2.
Proof.
  intros Hty Hw Hh Hk Hpos Hb v. unfold heat_form.
  destruct (sum_forms (heat_material_form M transient dt T Tn v) ms) as [A1|e] eqn:HA1; cbn [bind]; [|discriminate].
  destruct (sum_forms (heat_material_form M transient dt S Sn v) ms) as [A2|e] eqn:HA2; cbn [bind].
  2:{ intros _. discriminate. }
  match goal with |- bind ?x _ = _ -> _ => destruct x as [B1|e] eqn:HB1 end; cbn [bind]; [|discriminate].
  intros E1. apply Ok_inj in E1. subst F1.
  match goal with |- bind ?x _ = _ -> _ => destruct x as [B2|e] eqn:HB2 end; cbn [bind]; [|discriminate].
  intros E2. apply Ok_inj in E2. subst F2. rewrite !assemble_app.
  rewrite (heat_materials M ms rho cp k transient dt T Tn v A1 Hty Hh Hk HA1), (heat_materials M ms rho cp k transient dt S Sn v A2 Hty Hh Hk HA2).
  assert (HB : 0 <= assemble M B1 - assemble M B2).
  { clear - Hw Hpos Hb HB1 HB2. revert B1 B2 HB1 HB2. induction bcs as [|b l IH]; intros B1 B2 HB1 HB2.
    - cbn [sum_forms] in *. apply Ok_inj in HB1, HB2. subst. lra.
    - apply sum_forms_cons in HB1 as (C1 & D1 & HC1 & HD1 & ->). apply sum_forms_cons in HB2 as (C2 & D2 & HC2 & HD2 & ->).
      rewrite !assemble_app. specialize (IH ltac:(intros b' Hin; apply Hb; now right) D1 D2 HD1 HD2).
      enough (0 <= assemble M C1 - assemble M C2) by lra.
      assert (HG : exists f, snd b = f /\ C1 = map (fun surf => (Ds surf, fun p => - flux_form f T (fun _ => 0) p * val (v p))) (fst b) /\
        C2 = map (fun surf => (Ds surf, fun p => - flux_form f S (fun _ => 0) p * val (v p))) (fst b)).
      { exists (snd b). unfold heat_flux_form in HC1, HC2. destruct (snd b); cbn [bind] in HC1, HC2; try discriminate;
          apply Ok_inj in HC1, HC2; subst; auto. }
      destruct HG as (f & Ef & -> & ->). rewrite !assemble_map, sum_over_minus. apply rsum_map_nonneg. intros z Hz. cbn [fst snd].
      rewrite integral_minus. apply integral_nonneg; [exact Hw|]. intros p Hp. apply in_points_facets in Hp as [Hp Hs].
      destruct (Hpos p Hp) as [H1 H2].
      rewrite (flux_form_into f T (fun _ => 0) (fun _ => 0) p H1 eq_refl), (flux_form_into f S (fun _ => 0) (fun _ => 0) p H2 eq_refl).
      assert (Hc := Hb b (or_introl eq_refl) p Hp ltac:(now rewrite Hs) (val (T p)) (val (S p)) H1 H2). rewrite Ef in Hc. subst v. cbn [dsub val]. nra. }
  match goal with |- ?l <= ?x + (?g + ?b) - (?y + (?g + ?c)) => assert (E : x - y = l) end; [|lra].
  rewrite sum_over_minus. apply sum_over_ext. intros m _. rewrite sum_over_minus. apply sum_over_ext. intros z _.
  rewrite integral_minus. apply integral_ext. intros p _.
  assert (Ed := dot_diff (q_dim M) (grd (T p)) (grd (S p)) (grd (v p))).
  change (fun i => grd (T p) i - grd (S p) i) with (grd (v p)) in Ed. rewrite <- Ed.
  change (val (v p)) with (val (T p) - val (S p)). destruct transient; unfold Rdiv; ring.
Qed.
End Stability.
