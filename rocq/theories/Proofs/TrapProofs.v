(** Trap equations at a point, heat equation, decay. *)
From Coq Require Import Reals ZArith List Bool Lra Lia Psatz.
From Verif Require Import Base.Exc Base.Dual Model.Materials Model.Laws Model.Theta Model.Forms
  Spec.PhysSpec Spec.BalanceSpec Proofs.LawProofs Proofs.ThetaProofs Proofs.FormProofs.
Import ListNotations.
Local Open Scope R_scope.
Local Open Scope list_scope.

Section Traps.
Context {P : Type}.
Implicit Types (M : mesh P) (F G : form P).

Lemma residual_app M p F G r :
  residual M p (F ++ G) r -> exists a b, residual M p F a /\ residual M p G b /\ r = a + b.
Proof.
  revert r. induction F as [|[m e] F IH]; intros r H; cbn [app] in H.
  - exists 0, r. repeat split; [constructor|exact H|ring].
  - inversion H as [|m' e' F' r' Ha Hr|m' e' F' r' Ha Hr]; subst.
    + destruct (IH _ Hr) as [a [b [H1 [H2 ->]]]]. exists (e p + a), b. repeat split; [now constructor|exact H2|ring].
    + destruct (IH _ Hr) as [a [b [H1 [H2 ->]]]]. exists a, b. repeat split; [now constructor|exact H2].
Qed.
Lemma residual_nil_inv M p r : residual M p [] r -> r = 0.
Proof. now inversion 1. Qed.
Lemma residual_one M p m (e : P -> R) r :
  residual M p [(m, e)] r -> applies M m p -> r = e p.
Proof.
  intros H Ha. inversion H as [|m' e' F' r' Ha' Hr|m' e' F' r' Ha' Hr]; subst; [|contradiction].
  apply residual_nil_inv in Hr. subst. ring.
Qed.
Lemma residual_two M p m (e e' : P -> R) r :
  residual M p [(m, e); (m, e')] r -> (applies M m p /\ r = e p + e' p) \/ (~ applies M m p /\ r = 0).
Proof.
  intros H. change [(m, e); (m, e')] with ([(m, e)] ++ [(m, e')]) in H.
  apply residual_app in H. destruct H as [a [b [H1 [H2 ->]]]].
  inversion H1 as [|m1 e1 F1 r1 Ha1 Hr1|m1 e1 F1 r1 Ha1 Hr1]; subst;
    inversion H2 as [|m2 e2 F2 r2 Ha2 Hr2|m2 e2 F2 r2 Ha2 Hr2]; subst; try contradiction;
    apply residual_nil_inv in Hr1, Hr2; subst.
  - left. split; [exact Ha1|ring].
  - right. split; [exact Ha1|ring].
Qed.
Lemma residual_total M p F : exists r, residual M p F r.
Proof.
  induction F as [|[m e] F [r IH]]; [exists 0; constructor|].
  assert (D : applies M m p \/ ~ applies M m p).
  { destruct m as [|z|z]; cbn [applies]; [auto| |];
      [destruct (Z.eq_dec (q_volume M p) z)|destruct (Z.eq_dec (q_surface M p) z)]; auto. }
  destruct D as [D|D]; [exists (e p + r)|exists r]; now constructor.
Qed.

(** The terms of one material. *)
Lemma trapping_terms_residual mb T M t i m L p r c c_n :
  trapping_terms mb T t i m = Ok L -> residual M p L r ->
  concentration_at mb T (attrs m) p c c_n -> 0 < val (T_T T p) -> 0 < val (T_Tn T p) ->
  exists z, m_id (attrs m) = IdOne z /\
  ((q_volume M p <> z /\ r = 0) \/
   (q_volume M p = z /\ exists k_0 E_k p_0 E_p n, trap_params t i k_0 E_k p_0 E_p n /\
      r = (- arrhenius k_0 E_k (val (T_T T p)) * c * (n p - val (t_solution t p))
           + arrhenius p_0 E_p (val (T_T T p)) * val (t_solution t p)) * val (t_test t p))).
Proof.
  intros HL Hr Hc HT HTn. unfold trapping_terms in HL.
  match type of HL with bind ?x _ = _ => destruct x as [[[[[k_0 E_k] p_0] E_p] n]|e] eqn:Hp end;
    cbn [bind] in HL; [|discriminate].
  assert (Hpar : trap_params t i k_0 E_k p_0 E_p n).
  { unfold index, arg_number, arg_index, trap_params in *.
    destruct (t_k0 t) as [k|lk].
    - left. destruct (t_Ek t); cbn [bind] in Hp; [|discriminate].
      destruct (t_p0 t); cbn [bind] in Hp; [|discriminate].
      destruct (t_Ep t); cbn [bind] in Hp; [|discriminate].
      destruct (nth_error (t_density t) 0); cbn [bind] in Hp; [|discriminate].
      apply Ok_inj in Hp. injection Hp as -> -> -> -> ->. auto.
    - right. unfold index in Hp. destruct (nth_error lk i) eqn:E1; cbn [bind] in Hp; [|discriminate].
      destruct (t_Ek t) as [|lE]; cbn [bind] in Hp; [discriminate|].
      destruct (nth_error lE i) eqn:E2; cbn [bind] in Hp; [|discriminate].
      destruct (t_p0 t) as [|lp]; cbn [bind] in Hp; [discriminate|].
      destruct (nth_error lp i) eqn:E3; cbn [bind] in Hp; [|discriminate].
      destruct (t_Ep t) as [|lF]; cbn [bind] in Hp; [discriminate|].
      destruct (nth_error lF i) eqn:E4; cbn [bind] in Hp; [|discriminate].
      destruct (nth_error (t_density t) i) eqn:E5; cbn [bind] in Hp; [|discriminate].
      apply Ok_inj in Hp. injection Hp as <- <- <- <- <-. exists lk, lE, lp, lF. auto 10. }
  clear Hp.
  match type of HL with bind ?x _ = _ => destruct x as [[]|e] end; cbn [bind] in HL; [|discriminate].
  destruct (get_concentration mb (attrs m) T) as [[f fn]|e] eqn:Hg; cbn [bind] in HL; [|discriminate].
  destruct (m_id (attrs m)) as [z|l] eqn:Hid; cbn [dx_id bind] in HL; [|discriminate].
  apply Ok_inj in HL. subst L. cbn [fst snd] in Hr.
  exists z. split; [reflexivity|].
  apply residual_two in Hr. cbn [applies] in Hr. destruct Hr as [[Hz ->]|[Hz ->]]; [|left; auto].
  right. split; [exact Hz|]. exists k_0, E_k, p_0, E_p, n. split; [exact Hpar|].
  assert (Hfc : val (f p) = c).
  { unfold get_concentration, check_concentration in Hg. unfold concentration_at in Hc.
    destruct (mb_class mb) as [|S_ ms'].
    - cbn [bind] in Hg. apply Ok_inj in Hg. injection Hg as <- <-. now destruct Hc as [-> _].
    - destruct Hc as [S0 [ES [HS [HE [-> _]]]]]. rewrite HS, HE in Hg. cbn [float_of bind] in Hg.
      apply Ok_inj in Hg. assert (H1 := f_equal fst Hg). cbn [fst] in H1. subst f.
      destruct (theta_concentration_some (attrs m) (T_T T p) (T_Tn T p) (mb_solution mb p) (mb_previous mb p) S0 ES HS HE)
        as [u [un Hu]]. rewrite Hu. cbn [or_zero fst].
      destruct (theta_concentration_val _ _ _ _ _ _ _ HT HTn Hu) as [S0' [ES' [HS' [HE' [-> _]]]]].
      rewrite HS in HS'. rewrite HE in HE'. injection HS' as <-. injection HE' as <-. auto. }
  rewrite Hfc.
  replace (- k_0 * exp (- E_k / k_B / val (T_T T p))) with (- (k_0 * exp (- E_k / k_B / val (T_T T p)))) by ring.
  rewrite !arrhenius_model by exact HT. ring.
Qed.

(** Away from the materials of the trap. *)
Lemma trapping_none mb T M t i l F p r :
  sum_forms_enum (trapping_terms mb T t) i l = Ok F -> residual M p F r ->
  ~ In (q_volume M p) (BalanceSpec.all_ids l) -> r = 0.
Proof.
  revert i F r. induction l as [|m l IH]; intros i F r; cbn [sum_forms_enum].
  - intros H. apply Ok_inj in H. subst F. intros H _. now apply residual_nil_inv in H.
  - destruct (trapping_terms mb T t i m) as [L|e] eqn:HL; cbn [bind]; [|discriminate].
    destruct (sum_forms_enum (trapping_terms mb T t) (S i) l) as [F'|e] eqn:HF'; cbn [bind]; [|discriminate].
    intros H Hr Hz. apply Ok_inj in H. subst F. apply residual_app in Hr. destruct Hr as [a [b [Ha [Hb ->]]]].
    cbn [BalanceSpec.all_ids flat_map] in Hz.
    rewrite (IH (S i) F' b HF' Hb) by (intros K; apply Hz, in_or_app; now right).
    enough (a = 0) by lra.
    unfold trapping_terms in HL.
    match type of HL with bind ?x _ = _ => destruct x as [[[[[k_0 E_k] p_0] E_p] n]|e] end; cbn [bind] in HL; [|discriminate].
    match type of HL with bind ?x _ = _ => destruct x as [[]|e] end; cbn [bind] in HL; [|discriminate].
    destruct (get_concentration mb (attrs m) T) as [[f fn]|e]; cbn [bind] in HL; [|discriminate].
    destruct (m_id (attrs m)) as [z|w]; cbn [dx_id bind] in HL; [|discriminate].
    apply Ok_inj in HL. subst L. apply residual_two in Ha. cbn [applies] in Ha.
    destruct Ha as [[E _]|[_ ->]]; [|reflexivity]. exfalso. apply Hz. cbn [ids app]. now left.
Qed.

(** In the i-th material of the trap. *)
Lemma trapping_one mb T M t j i l F p r m c c_n :
  sum_forms_enum (trapping_terms mb T t) j l = Ok F -> residual M p F r ->
  NoDup (BalanceSpec.all_ids l) -> nth_error l i = Some m -> In (q_volume M p) (ids (m_id (attrs m))) ->
  concentration_at mb T (attrs m) p c c_n -> 0 < val (T_T T p) -> 0 < val (T_Tn T p) ->
  exists k_0 E_k p_0 E_p n, trap_params t (j + i) k_0 E_k p_0 E_p n /\
    r = (- arrhenius k_0 E_k (val (T_T T p)) * c * (n p - val (t_solution t p))
         + arrhenius p_0 E_p (val (T_T T p)) * val (t_solution t p)) * val (t_test t p).
Proof.
  revert j i F r. induction l as [|a l IH]; intros j i F r; cbn [sum_forms_enum].
  - intros _ _ _ H. destruct i; discriminate.
  - destruct (trapping_terms mb T t j a) as [L|e] eqn:HL; cbn [bind]; [|discriminate].
    destruct (sum_forms_enum (trapping_terms mb T t) (S j) l) as [F'|e] eqn:HF'; cbn [bind]; [|discriminate].
    intros H Hr Hnd Hi Hz Hc HT HTn. apply Ok_inj in H. subst F.
    apply residual_app in Hr. destruct Hr as [x [y [Hx [Hy ->]]]].
    cbn [BalanceSpec.all_ids flat_map] in Hnd. apply NoDup_app_split in Hnd. destruct Hnd as [_ [Hnd Hdis]].
    destruct i as [|i]; cbn [nth_error] in Hi.
    + injection Hi as ->. rewrite (trapping_none mb T M t (S j) l F' p y HF' Hy) by (apply Hdis; exact Hz).
      destruct (trapping_terms_residual mb T M t j m L p x c c_n HL Hx Hc HT HTn)
        as [z [Hid [[Hne _]|[Heq [k_0 [E_k [p_0 [E_p [n [Hpar ->]]]]]]]]]].
      * rewrite Hid in Hz. cbn [ids] in Hz. destruct Hz as [Hz|[]]. congruence.
      * exists k_0, E_k, p_0, E_p, n. rewrite Nat.add_0_r. split; [exact Hpar|ring].
    + destruct (IH (S j) i F' y HF' Hy Hnd Hi Hz Hc HT HTn) as [k_0 [E_k [p_0 [E_p [n [Hpar ->]]]]]].
      exists k_0, E_k, p_0, E_p, n. rewrite Nat.add_succ_r. split; [exact Hpar|].
      enough (x = 0) by lra.
      assert (Hza : ~ In (q_volume M p) (ids (m_id (attrs a)))).
      { intros K. apply (Hdis _ K). apply in_flat_map. exists m. split; [|exact Hz]. eapply nth_error_In, Hi. }
      refine (trapping_none mb T M t j [a] L p x _ Hx _).
      * cbn [sum_forms_enum]. rewrite HL. cbn [bind]. now rewrite app_nil_r.
      * cbn [BalanceSpec.all_ids flat_map]. now rewrite app_nil_r.
Qed.

Lemma trap_params_fun t i k_0 E_k p_0 E_p n k_0' E_k' p_0' E_p' (n' : P -> R) :
  trap_params t i k_0 E_k p_0 E_p n -> trap_params t i k_0' E_k' p_0' E_p' n' ->
  k_0 = k_0' /\ E_k = E_k' /\ p_0 = p_0' /\ E_p = E_p' /\ n = n'.
Proof.
  intros [H|H] [K|K].
  - destruct H as [? [? [? [? ?]]]], K as [? [? [? [? ?]]]]. repeat split; congruence.
  - destruct H as [? _], K as [? [? [? [? [? _]]]]]. congruence.
  - destruct K as [? _], H as [? [? [? [? [? _]]]]]. congruence.
  - destruct H as [a [b [d [e [? [? [? [? [? [? [? [? ?]]]]]]]]]]]], K as [a' [b' [d' [e' [? [? [? [? [? [? [? [? ?]]]]]]]]]]]].
    assert (a = a') by congruence. assert (b = b') by congruence. assert (d = d') by congruence.
    assert (e = e') by congruence. subst. repeat split; congruence.
Qed.

(** Steady state: the term of the materials without the trap. *)
Lemma outside_residual M t ms l F p r :
  sum_forms (fun m => if mat_in m l then Ok []
                      else let! id := dx_id (m_id (attrs m)) in
                           Ok [(Dx id, fun p => val (t_solution t p) * val (t_test t p))]) ms = Ok F ->
  residual M p F r ->
  (forall m, In m ms -> mat_in m l = false -> ~ In (q_volume M p) (ids (m_id (attrs m)))) -> r = 0.
Proof.
  revert F r. induction ms as [|m ms IH]; intros F r; cbn [sum_forms].
  - intros H. apply Ok_inj in H. subst F. intros H _. now apply residual_nil_inv in H.
  - destruct (mat_in m l) eqn:Hm.
    + cbn [bind]. match goal with |- bind ?x _ = _ -> _ => destruct x as [F'|e] eqn:HF' end; cbn [bind]; [|discriminate].
      intros H Hr Ho. apply Ok_inj in H. subst F. cbn [app] in Hr. apply (IH F' r ltac:(first [reflexivity|exact HF']) Hr).
      intros m' Hin. apply Ho. now right.
    + destruct (m_id (attrs m)) as [z|w] eqn:Hid; cbn [dx_id bind]; [|discriminate].
      match goal with |- bind ?x _ = _ -> _ => destruct x as [F'|e] eqn:HF' end; cbn [bind]; [|discriminate].
      intros H Hr Ho. apply Ok_inj in H. subst F. apply residual_app in Hr. destruct Hr as [a [b [Ha [Hb ->]]]].
      rewrite (IH F' b ltac:(first [reflexivity|exact HF']) Hb) by (intros m' Hin; apply Ho; now right).
      inversion Ha as [|m' e' F1 r' Ha' Hr'|m' e' F1 r' Ha' Hr']; subst.
      * exfalso. apply (Ho m (or_introl eq_refl) Hm). rewrite Hid. cbn [ids applies] in *. now left.
      * apply residual_nil_inv in Hr'. subst. ring.
Qed.
Lemma outside_residual_one M t ms l F p r m :
  sum_forms (fun m => if mat_in m l then Ok []
                      else let! id := dx_id (m_id (attrs m)) in
                           Ok [(Dx id, fun p => val (t_solution t p) * val (t_test t p))]) ms = Ok F ->
  residual M p F r -> NoDup (BalanceSpec.all_ids ms) ->
  In m ms -> mat_in m l = false -> In (q_volume M p) (ids (m_id (attrs m))) ->
  r = val (t_solution t p) * val (t_test t p).
Proof.
  intros HF Hr Hnd Hin Hm Hz. revert F r HF Hr. induction ms as [|a ms IH]; intros F r; [destruct Hin|]. cbn [sum_forms].
  cbn [BalanceSpec.all_ids flat_map] in Hnd. apply NoDup_app_split in Hnd. destruct Hnd as [_ [Hnd Hdis]].
  assert (Hrest : In (q_volume M p) (ids (m_id (attrs a))) -> forall F r,
     sum_forms (fun m => if mat_in m l then Ok []
                      else let! id := dx_id (m_id (attrs m)) in
                           Ok [(Dx id, fun p => val (t_solution t p) * val (t_test t p))]) ms = Ok F ->
     residual M p F r -> r = 0).
  { intros K F0 r0 HF0 Hr0. apply (outside_residual M t ms l F0 p r0 HF0 Hr0). intros m' Hm' _ K'.
    apply (Hdis _ K). apply in_flat_map. eauto. }
  destruct (mat_in a l) eqn:Ha.
  - cbn [bind]. match goal with |- bind ?x _ = _ -> _ => destruct x as [F'|e] eqn:HF' end; cbn [bind]; [|discriminate].
    intros H Hr. apply Ok_inj in H. subst F. cbn [app] in Hr.
    destruct Hin as [->|Hin]; [congruence|]. apply (IH Hnd Hin F' r ltac:(first [reflexivity|exact HF']) Hr).
  - destruct (m_id (attrs a)) as [z|w] eqn:Hid; cbn [dx_id bind]; [|discriminate].
    match goal with |- bind ?x _ = _ -> _ => destruct x as [F'|e] eqn:HF' end; cbn [bind]; [|discriminate].
    intros H Hr. apply Ok_inj in H. subst F. apply residual_app in Hr. destruct Hr as [x [y [Hx [Hy ->]]]].
    cbn [ids] in Hrest, Hdis.
    destruct Hin as [->|Hin].
    + rewrite Hid in Hz. cbn [ids] in Hz. rewrite (Hrest Hz F' y ltac:(first [reflexivity|exact HF']) Hy). destruct Hz as [Hz|[]].
      apply residual_one in Hx; [|cbn [applies]; congruence]. rewrite Hx. ring.
    + rewrite (IH Hnd Hin F' y ltac:(first [reflexivity|exact HF']) Hy).
      inversion Hx as [|m' e' F1 r' Ha' Hr'|m' e' F1 r' Ha' Hr']; subst.
      * exfalso. cbn [applies] in Ha'. apply (Hdis z); [now left|]. apply in_flat_map. exists m. rewrite <- Ha'. auto.
      * apply residual_nil_inv in Hr'. subst. ring.
Qed.

(** Bounds on the solution of one implicit step, and occupancy. *)
Lemma implicit_bounds dt k c n w x y :
  0 < dt -> 0 <= k -> 0 <= c -> 0 <= w -> 0 <= x <= n ->
  (y - x) / dt + (- k * c * (n - y) + w * y) = 0 -> 0 <= y <= n.
Proof.
  intros Hdt Hk Hc Hw Hx He.
  assert (Hkc : 0 <= k * c) by nra.
  assert (E : y * (1 + dt * (k * c + w)) = x + dt * (k * c) * n).
  { assert (E : (y - x) = - dt * (- k * c * (n - y) + w * y)).
    { apply (Rmult_eq_reg_r (/ dt)); [|apply Rinv_neq_0_compat; lra].
      replace (- dt * (- k * c * (n - y) + w * y) * / dt) with (- (- k * c * (n - y) + w * y)) by (field; lra).
      unfold Rdiv in He. lra. }
    nra. }
  assert (Hd : 0 <= dt * (k * c + w)) by (apply Rmult_le_pos; lra).
  assert (Hpos : 0 < 1 + dt * (k * c + w)) by lra.
  split.
  - apply (Rmult_le_reg_r (1 + dt * (k * c + w))); [exact Hpos|]. rewrite E, Rmult_0_l.
    assert (0 <= dt * (k * c) * n) by (apply Rmult_le_pos; [apply Rmult_le_pos; lra|lra]). lra.
  - apply (Rmult_le_reg_r (1 + dt * (k * c + w))); [exact Hpos|]. rewrite E.
    assert (0 <= n * (dt * w)) by (apply Rmult_le_pos; [lra|apply Rmult_le_pos; lra]). nra.
Qed.

Lemma extrinsic_bounds dt phi na nb a b x y :
  0 < dt -> 0 <= phi -> 0 < na -> 0 < nb -> 0 <= a -> 0 <= b -> 0 <= x <= Rmax na nb ->
  (y - x) / dt + - phi * ((1 - y / na) * a + (1 - y / nb) * b) = 0 -> 0 <= y <= Rmax na nb.
Proof.
  intros Hdt Hphi Hna Hnb Ha Hb Hx He. set (N := Rmax na nb) in *.
  assert (HNa : na <= N) by apply Rmax_l. assert (HNb : nb <= N) by apply Rmax_r.
  assert (Ea : 0 <= dt * phi * (a / na)).
  { apply Rmult_le_pos; [nra|]. apply Rmult_le_pos; [lra|]. left. now apply Rinv_0_lt_compat. }
  assert (Eb : 0 <= dt * phi * (b / nb)).
  { apply Rmult_le_pos; [nra|]. apply Rmult_le_pos; [lra|]. left. now apply Rinv_0_lt_compat. }
  set (A := dt * phi * (a / na)) in *. set (B := dt * phi * (b / nb)) in *.
  assert (E : y * (1 + A + B) = x + A * na + B * nb).
  { unfold A, B. assert (E : y - x = dt * (phi * ((1 - y / na) * a + (1 - y / nb) * b))).
    { apply (Rmult_eq_reg_r (/ dt)); [|apply Rinv_neq_0_compat; lra].
      replace (dt * (phi * ((1 - y / na) * a + (1 - y / nb) * b)) * / dt)
        with (phi * ((1 - y / na) * a + (1 - y / nb) * b)) by (field; lra).
      unfold Rdiv in *. lra. }
    replace (x + dt * phi * (a / na) * na + dt * phi * (b / nb) * nb) with (x + dt * phi * a + dt * phi * b) by (field; lra).
    replace y with (x + dt * (phi * ((1 - y / na) * a + (1 - y / nb) * b))) at 1 by lra.
    assert (E' : y = x + dt * (phi * ((1 - y / na) * a + (1 - y / nb) * b))) by lra.
    clear - E' Hna Hnb.
    replace ((x + dt * (phi * ((1 - y / na) * a + (1 - y / nb) * b))) * (1 + dt * phi * (a / na) + dt * phi * (b / nb)))
      with ((x + dt * (phi * ((1 - y / na) * a + (1 - y / nb) * b)))
            + (x + dt * (phi * ((1 - y / na) * a + (1 - y / nb) * b))) * (dt * phi * (a / na) + dt * phi * (b / nb))) by ring.
    rewrite <- E' at 2. unfold Rdiv. ring. }
  split.
  - apply (Rmult_le_reg_r (1 + A + B)); [lra|]. rewrite E. nra.
  - apply (Rmult_le_reg_r (1 + A + B)); [lra|]. rewrite E. nra.
Qed.

Lemma neutron_bounds dt g nm a x y :
  0 < dt -> 0 <= g -> 0 < nm -> 0 <= a -> 0 <= x <= nm ->
  (y - x) / dt + - g * (1 - y / nm) + a * y = 0 -> 0 <= y <= nm.
Proof.
  intros Hdt Hg Hnm Ha Hx He.
  apply (implicit_bounds dt (g / nm) 1 nm a x y); try assumption; try lra.
  - apply Rmult_le_pos; [lra|]. left. now apply Rinv_0_lt_compat.
  - rewrite <- He. field. lra.
Qed.

(** Heat equation. *)
Lemma heat_material M transient dt T T_n v m F :
  is_weight M v -> off_axis M ->
  heat_material_form M transient dt T T_n v m = Ok F ->
  (transient = true -> exists rho cp, value_at (m_rho (attrs m)) = Ok rho /\ value_at (m_heat (attrs m)) = Ok cp /\
     assemble M F = sum_over (ids (m_id (attrs m))) (fun z => total_in M z (fun p =>
        rho (val (T p)) * cp (val (T p)) * (val (T p) - val (T_n p)) / dt))) /\
  (transient = false -> assemble M F = 0).
Proof.
  intros Hv Hr. unfold heat_material_form.
  destruct (value_at (m_thermal (attrs m))) as [k|e]; cbn [bind]; [|discriminate].
  match goal with |- bind ?x _ = _ -> _ => destruct x as [F0|e] eqn:HF0 end; cbn [bind]; [|discriminate].
  intros HF. apply Ok_inj in HF. subst F.
  match goal with |- context [F0 ++ ?G] => assert (Hz : assemble M G = 0) end.
  { rewrite assemble_map. apply rsum_map_zero. intros z _.
    assert (Hr' : q_type M = Cartesian \/ forall p, In p (points M (Dx z)) -> q_x0 M p <> 0).
    { destruct Hr as [Hr|Hr]; [now left|right]. intros p Hp. apply in_points_cells in Hp. apply Hr. tauto. }
    destruct (q_type M) eqn:Hty; cbn [fst snd].
    - apply integral_zero. intros p Hp. apply dot_zero. intros i _. right. now apply (weight_cart M).
    - destruct Hr' as [Hr'|Hr']; [discriminate|].
      apply integral_zero. intros p Hp. rewrite dot_zero; [ring|]. intros i _. right. apply (weight_cyl M); auto.
    - destruct Hr' as [Hr'|Hr']; [discriminate|].
      apply integral_zero. intros p Hp. rewrite dot_zero; [ring|]. intros i _. right. apply (weight_sph M); auto. }
  split; intros Ht; subst transient.
  - destruct (value_at (m_heat (attrs m))) as [cp|e]; cbn [bind] in HF0; [|discriminate].
    destruct (value_at (m_rho (attrs m))) as [rho|e]; cbn [bind] in HF0; [|discriminate].
    exists rho, cp. split; [reflexivity|]. split; [reflexivity|]. eapply eq_trans; [apply assemble_app|].
    rewrite Hz, Rplus_0_r.
    apply Ok_inj in HF0. subst F0. rewrite assemble_map. apply sum_over_ext.
    intros z _. cbn [fst snd]. apply total_in_integral. intros p _. apply (Hv p).
  - eapply eq_trans; [apply assemble_app|]. rewrite Hz, Rplus_0_r. apply Ok_inj in HF0. now subst F0.
Qed.

Lemma heat_balance M transient dt T T_n v ms sources bcs F :
  is_weight M v -> off_axis M -> (forall p, In p (q_facets M) -> 0 < val (T p)) ->
  heat_form M transient dt T T_n v ms sources bcs = Ok F ->
  exists F1, sum_forms (heat_material_form M transient dt T T_n v) ms = Ok F1 /\
    assemble M F = assemble M F1 - heat_supply M T sources bcs.
Proof.
  intros Hv Hr HT. unfold heat_form.
  destruct (sum_forms (heat_material_form M transient dt T T_n v) ms) as [F1|e]; cbn [bind]; [|discriminate].
  match goal with |- bind ?x _ = _ -> _ => destruct x as [H|e] eqn:HH end; cbn [bind]; [|discriminate].
  intros HF. apply Ok_inj in HF. subst F. exists F1. split; [reflexivity|].
  eapply eq_trans; [apply assemble_app|].
  match goal with |- _ + assemble M (?G ++ ?H) = _ =>
    replace (assemble M (G ++ H)) with (assemble M G + assemble M H) by (symmetry; apply assemble_app) end.
  assert (Hv' : forall p, In p (q_cells M) -> val (v p) = weight M p) by (intros p _; apply (Hv p)).
  rewrite (sum_forms_assemble M _ (fun b => - sum_over (fst b) (fun z => total_on M z (fun p => flux_into (snd b) (val (T p)) 0 p))) _ _ HH).
  - rewrite assemble_flat_map.
    rewrite (sum_over_ext sources _ (fun s => - sum_over (ids (s_volume s)) (fun z => total_in M z (s_value s)))).
    + rewrite !sum_over_opp. unfold heat_supply. ring.
    + intros s _. rewrite assemble_map. cbn [fst snd]. rewrite <- sum_over_opp. apply sum_over_ext. intros z _.
      rewrite (total_in_integral M z (fun p => - s_value s p) (fun p => val (v p)) Hv').
      unfold total_in. rewrite wsum_opp. reflexivity.
  - intros [l g] G Hin. cbn [fst snd].
    assert (Hg : forall h, heat_flux_form g T = Ok h -> h = flux_form g T (fun _ => 0)).
    { intros h. destruct g; cbn [heat_flux_form]; try discriminate; intros E; apply Ok_inj in E; now subst. }
    destruct (heat_flux_form g T) as [h|e]; cbn [bind]; [|discriminate].
    specialize (Hg h eq_refl). subst h. intros HG. apply Ok_inj in HG. subst G.
    rewrite assemble_map. cbn [fst snd]. rewrite <- sum_over_opp. apply sum_over_ext. intros z _.
    rewrite <- (total_on_integral M z _ (fun p => val (v p))) by (intros p _; apply (Hv p)).
    rewrite <- integral_opp. apply integral_ext. intros p Hp. apply in_points_facets in Hp.
    rewrite (flux_form_into g T (fun _ => 0)); [ring| |reflexivity]. apply HT. tauto.
Qed.

(** Decay. *)
Lemma decay_total M l (ss : list (source P)) (c : P -> R) :
  (forall s, In s ss -> s_decay s = Some l) ->
  NoDup (flat_map (fun s => ids (s_volume s)) ss) ->
  (forall p, In p (q_cells M) -> In (q_volume M p) (flat_map (fun s => ids (s_volume s)) ss)) ->
  sum_over ss (source_rate M c) = - l * total M c.
Proof.
  intros Hd Hnd Hc.
  rewrite (sum_over_ext ss _ (fun s => sum_over (ids (s_volume s)) (fun z => total_in M z (fun p => - l * c p)))).
  - rewrite <- sum_over_flat_map, sum_materials_total by assumption. unfold total. apply wsum_scale.
  - intros s Hs. unfold source_rate. rewrite (Hd s Hs). apply sum_over_ext. intros z _.
    apply wsum_ext. intros. ring.
Qed.
End Traps.
