(** Every term of the formulations has the unit of the equation. *)
From Coq Require Import Reals ZArith List Bool String Lra Lia.
From Verif Require Import Base.Exc Base.Dual Model.Materials Model.Exports Model.Laws Model.Theta Model.Forms Model.Quantities
  Spec.BalanceSpec Spec.EulerSpec Spec.QuantitySpec Spec.UnitSpec Proofs.FormProofs.
Import ListNotations.
Local Open Scope string_scope.
Local Open Scope R_scope.
Local Open Scope list_scope.

Lemma dot_rel d k (a b a' b' : nat -> R) : (forall i, a' i * b' i = k * (a i * b i)) -> dot d a' b' = k * dot d a b.
Proof. intros H. unfold dot. rewrite <- rsum_map_scale. apply rsum_map_ext. intros i _. apply H. Qed.
Lemma prod_dot k1 k2 k d s s' (a b a' b' : nat -> R) : s' = k1 * s -> k1 * k2 = k ->
  (forall i, a' i * b' i = k2 * (a i * b i)) -> s' * dot d a' b' = k * (s * dot d a b).
Proof. intros -> <- H. rewrite (dot_rel d k2 a b a' b' H). ring. Qed.
Lemma power_scale u x e : 0 < u_c u -> (match e with EInt _ => True | EReal _ => 0 <= x end) ->
  power (u_c u * x) e = concentration_power u e * power x e.
Proof.
  intros Hu Hx. destruct e as [n|y]; cbn.
  - apply Rpow_mult_distr.
  - destruct (Req_EM_T x 0) as [->|Hn].
    + rewrite Rmult_0_r. destruct (Req_EM_T 0 0); [ring|congruence].
    + destruct (Req_EM_T (u_c u * x) 0) as [e|_].
      * apply Rmult_integral in e. lra.
      * symmetry. apply Rpower_mult_distr; lra.
Qed.
Lemma concentration_power_neq u e : 0 < u_c u -> concentration_power u e <> 0.
Proof. intros H. destruct e; cbn; [apply pow_nonzero; lra|]. unfold Rpower. apply Rgt_not_eq, exp_pos. Qed.
Lemma float_of_scale k o : float_of (option_map (scale_prop k) o) = let! r := float_of o in Ok (k * r).
Proof. destruct o as [[r|f]|]; reflexivity. Qed.
Lemma float_of_scale_some k p : float_of (Some (scale_prop k p)) = let! r := float_of (Some p) in Ok (k * r).
Proof. destruct p; reflexivity. Qed.
Lemma law_ids_map u ms l z : law_marker l (map (scale_mat u) ms) z = law_marker l ms z.
Proof.
  unfold law_marker. f_equal. rewrite !flat_map_concat_map, map_map. f_equal.
Qed.

Section Scaling.
Context {P : Type}.
Variable u : units.
Hypothesis Hu : positive_units u.
Local Notation x := (u_x u).
Let Hc : 0 < u_c u. Proof. apply Hu. Qed.
Let Hx : 0 < u_x u. Proof. apply Hu. Qed.
Let Ht : 0 < u_t u. Proof. apply Hu. Qed.
Let Hth : 0 < u_th u. Proof. apply Hu. Qed.
Let He : 0 < u_e u. Proof. apply Hu. Qed.
Let Hm : 0 < u_m u. Proof. apply Hu. Qed.

(** a' is a in the new units: value times k, gradient times k / length. *)
Definition sd (k : R) (a a' : dual) : Prop := val a' = k * val a /\ forall i, grd a' i = k / x * grd a i.
Lemma sd_rescale k (f : field P) p : sd k (f p) (rescale u k f p).
Proof. split; reflexivity. Qed.
Lemma sd_eq k k' a a' : k = k' -> sd k a a' -> sd k' a a'.
Proof. now intros ->. Qed.
Lemma sd_const k c c' : c' = k * c -> sd k (dconst c) (dconst c').
Proof. intros ->. split; cbn; [reflexivity|]. intros _. ring. Qed.
Lemma sd_mul k l a a' b b' : sd k a a' -> sd l b b' -> sd (k * l) (dmul a b) (dmul a' b').
Proof. intros [H1 H2] [H3 H4]. split; cbn; [rewrite H1, H3; ring|]. intros i. rewrite H1, H2, H3, H4. unfold Rdiv. ring. Qed.
Lemma sd_div k l a a' b b' : l <> 0 -> sd k a a' -> sd l b b' -> sd (k / l) (ddiv a b) (ddiv a' b').
Proof.
  intros Hl [H1 H2] [H3 H4]. split; cbn.
  - rewrite H1, H3. unfold Rdiv. rewrite Rinv_mult. ring.
  - intros i. rewrite H1, H2, H3, H4. unfold Rdiv. rewrite !Rinv_mult. generalize (/ val b). intros b1. field. split; [lra|assumption].
Qed.
Lemma sd_exp a a' : sd 1 a a' -> sd 1 (dexp a) (dexp a').
Proof. intros [H1 H2]. rewrite Rmult_1_l in H1. split; cbn; rewrite H1; [ring|]. intros i. rewrite H2. ring. Qed.
Lemma sd_square k a a' : sd k a a' -> sd (k ^ 2) (dsquare a) (dsquare a').
Proof. intros [H1 H2]. split; cbn; [rewrite H1; ring|]. intros i. rewrite H1, H2. unfold Rdiv. ring. Qed.
Lemma sd_coord a : sd x (dcoord0 a) (dcoord0 (x * a)).
Proof. split; [reflexivity|]. intros [|i]; cbn; field; lra. Qed.
Lemma sd_coefficient k pre pre' E T T' : pre' = k * pre -> sd 1 T T' -> sd k (coefficient pre E T) (coefficient pre' E T').
Proof.
  intros Hp HT. unfold coefficient. apply (sd_eq (k * 1)); [ring|]. apply sd_mul; [now apply sd_const|].
  apply sd_exp. apply (sd_eq (1 / 1 / 1)); [field|]. apply sd_div; [lra| |assumption].
  apply sd_div; [lra| |]; apply sd_const; ring.
Qed.

(** * Forms *)
Variables (w : R) (M M' : mesh P).
Hypothesis HM : rescaled_mesh u w M M'.
Definition unit_on (k : R) (m : measure) : R := match m with Ds _ => k * x | _ => k end.
Definition sc (k : R) (i i' : measure * (P -> R)) : Prop :=
  fst i' = fst i /\ forall p, In p (points M (fst i)) -> snd i' p = unit_on k (fst i) * snd i p.
Definition scf (k : R) : form P -> form P -> Prop := Forall2 (sc k).
Definition rsc (k : R) (r r' : res (form P)) : Prop :=
  match r, r' with Ok F, Ok F' => scf k F F' | Err e, Err e' => e = e' | _, _ => False end.

Lemma same_points m : points M' m = points M m.
Proof. destruct HM as (H1 & H2 & H3 & H4 & _). destruct m; cbn; rewrite ?H1, ?H2, ?H3, ?H4; reflexivity. Qed.
Lemma integral_scale m k (e e' : P -> R) :
  (forall p, In p (points M m) -> e' p = k * e p) ->
  integral M' m e' = (match m with Ds _ => w | _ => w * x end) * k * integral M m e.
Proof.
  intros H. unfold integral. rewrite same_points, <- rsum_map_scale. apply rsum_map_ext. intros p Hp. rewrite (H p Hp).
  destruct HM as (_ & _ & _ & _ & _ & _ & _ & H8 & H9).
  destruct m; cbn in Hp; try (apply filter_In in Hp; destruct Hp as [Hp _]); rewrite ?(H8 p Hp), ?(H9 p Hp); ring.
Qed.
Lemma scf_assemble k F F' : scf k F F' -> assemble M' F' = w * x * k * assemble M F.
Proof.
  induction 1 as [|i i' F F' [H1 H2] _ IH].
  - unfold assemble. cbn. ring.
  - rewrite !assemble_cons, IH, H1. rewrite (integral_scale (fst i) (unit_on k (fst i)) (snd i) (snd i')) by assumption.
    destruct (fst i); cbn; ring.
Qed.
Lemma rsc_proportional k r r' : rsc k r r' -> proportional M M' (w * x * k) r r'.
Proof. destruct r, r'; cbn; auto. apply scf_assemble. Qed.
Lemma scf_app k F F' G G' : scf k F F' -> scf k G G' -> scf k (F ++ G) (F' ++ G').
Proof. apply Forall2_app. Qed.
Lemma scf_nil k : scf k [] [].
Proof. constructor. Qed.
Lemma scf_neg k F F' : scf k F F' -> scf k (neg F) (neg F').
Proof.
  induction 1 as [|i i' F F' [H1 H2] _ IH]; [constructor|]. constructor; [|assumption]. split; cbn; [assumption|].
  intros p Hp. rewrite (H2 p Hp). ring.
Qed.
Lemma scf_flat_map {A B} k (g : A -> B) (f : A -> form P) (f' : B -> form P) l :
  (forall a, In a l -> scf k (f a) (f' (g a))) -> scf k (flat_map f l) (flat_map f' (map g l)).
Proof.
  induction l as [|a l IH]; cbn; intros H; [constructor|]. apply scf_app; [apply H; now left|]. apply IH. intros b Hb. apply H. now right.
Qed.
Lemma scf_flat_map_id {A} k (f f' : A -> form P) l :
  (forall a, In a l -> scf k (f a) (f' a)) -> scf k (flat_map f l) (flat_map f' l).
Proof. intros H. rewrite <- (map_id l) at 2. now apply scf_flat_map. Qed.
Lemma scf_map {A} k (f f' : A -> measure * (P -> R)) l :
  (forall a, In a l -> sc k (f a) (f' a)) -> scf k (map f l) (map f' l).
Proof. induction l as [|a l IH]; cbn; intros H; constructor; [apply H; now left|]. apply IH. intros b Hb. apply H. now right. Qed.
Lemma rsc_ok k F F' : scf k F F' -> rsc k (Ok F) (Ok F').
Proof. auto. Qed.
Lemma rsc_bind2 k r r' s s' : rsc k r r' -> rsc k s s' ->
  rsc k (let! F := r in let! G := s in Ok (F ++ G)) (let! F := r' in let! G := s' in Ok (F ++ G)).
Proof.
  destruct r as [F|e], r' as [F'|e'], s as [G|f], s' as [G'|f']; cbn; try tauto; intros H1 H2.
  now apply scf_app.
Qed.
Lemma rsc_sum_forms {A B} k (g : A -> B) (f : A -> res (form P)) (f' : B -> res (form P)) l :
  (forall a, In a l -> rsc k (f a) (f' (g a))) -> rsc k (sum_forms f l) (sum_forms f' (map g l)).
Proof.
  induction l as [|a l IH]; cbn; intros H; [constructor|]. apply rsc_bind2; [apply H; now left|]. apply IH. intros b Hb. apply H. now right.
Qed.
Lemma rsc_sum_forms_enum {A B} k (g : A -> B) (f : nat -> A -> res (form P)) (f' : nat -> B -> res (form P)) l : forall i,
  (forall i a, rsc k (f i a) (f' i (g a))) -> rsc k (sum_forms_enum f i l) (sum_forms_enum f' i (map g l)).
Proof. induction l as [|a l IH]; cbn; intros i H; [constructor|]. apply rsc_bind2; [apply H|]. now apply IH. Qed.
Lemma sc_same k m (e e' : P -> R) : (forall p, In p (points M m) -> e' p = unit_on k m * e p) -> sc k (m, e) (m, e').
Proof. split; [reflexivity|assumption]. Qed.

(** * Hydrogen transport *)
Local Ltac nz := repeat split; first [assumption | lra | apply pow_nonzero; lra | unfold k_B; lra].
Variables (S' : P -> R) (mb : mobile P).
Local Notation mb' := (scale_mobile u S' mb).
Hypothesis HS : rescaled_solubility u M mb S'.
Local Notation kc := (u_c u / u_t u).

Lemma get_concentration_scale m T :
  match get_concentration mb m T, get_concentration mb' (scale_mat u m) (scale_temp u T) with
  | Ok c, Ok c' => forall p, sd (u_c u) (fst c p) (fst c' p) /\ sd (u_c u) (snd c p) (snd c' p)
  | Err e, Err e' => e = e'
  | _, _ => False
  end.
Proof.
  unfold get_concentration, check_concentration. cbn [mb_class scale_mobile].
  destruct (mb_class mb) as [|S_ ms] eqn:Ecl; cbn [scale_class bind].
  - intros p. cbn [fst snd mb_solution mb_previous scale_mobile]. rewrite Ecl. cbn [unknown]. split; apply sd_rescale.
  - unfold theta_concentration. cbn [m_ES m_S0 m_law scale_mat]. rewrite float_of_scale.
    destruct (float_of (m_ES m)) as [ES|e]; cbn [bind]; [|reflexivity].
    destruct (float_of (m_S0 m)) as [S1|e] eqn:E0; cbn [bind]; [|reflexivity].
    intros p. cbn [mb_solution mb_previous scale_mobile fst snd]. rewrite Ecl. cbn [unknown].
    assert (HT := sd_rescale 1 (T_T T) p). assert (HTn := sd_rescale 1 (T_Tn T) p).
    assert (Hs := sd_rescale (u_th u) (mb_solution mb) p). assert (Hp := sd_rescale (u_th u) (mb_previous mb) p).
    destruct (m_law m); cbn [or_zero fst snd].
    + split; (apply (sd_eq (u_th u * (u_c u / u_th u))); [field; lra|]); apply sd_mul; try assumption;
        apply sd_coefficient; try assumption; reflexivity.
    + split; (apply (sd_eq (u_th u ^ 2 * (u_c u / u_th u ^ 2))); [field; lra|]); apply sd_mul; try (now apply sd_square);
        apply sd_coefficient; try assumption; reflexivity.
Qed.

Lemma mobile_concentration_scale p : mobile_concentration M' mb' p = u_c u * mobile_concentration M mb p.
Proof.
  unfold mobile_concentration, rescaled_solubility in *. cbn [mb_class mb_solution scale_mobile].
  destruct (mb_class mb) as [|S_ ms]; cbn [scale_class unknown].
  - reflexivity.
  - unfold theta_mobile_concentration. rewrite !law_ids_map.
    destruct HM as (_ & _ & H3 & _). rewrite H3. cbn [val rescale].
    assert (K : forall l, law_marker l ms (q_volume M p) = 0 \/ S' p = solubility u l * S_ p).
    { intros l. unfold law_marker. destruct (existsb (fun m => law_eqb (m_law m) l && existsb (Z.eqb (q_volume M p)) (ids (m_id m)))%bool ms) eqn:E.
      - right. apply existsb_exists in E as (m & Hin & E). apply andb_true_iff in E as [E1 E2].
        apply existsb_exists in E2 as (z & Hz & E2). apply Z.eqb_eq in E2. subst z.
        rewrite (HS p m Hin Hz). destruct (m_law m), l; cbn in E1; congruence.
      - left.
        assert (G : forall r, In r (flat_map (fun m => if law_eqb (m_law m) l then map (fun i => if Z.eqb i (q_volume M p) then 1 else 0) (ids (m_id m)) else []) ms) -> r = 0).
        { intros r Hr. apply in_flat_map in Hr as (m & Hin & Hr). destruct (law_eqb (m_law m) l) eqn:El; [|contradiction].
          apply in_map_iff in Hr as (z & <- & Hz). destruct (Z.eqb_spec z (q_volume M p)) as [->|]; [|reflexivity].
          exfalso. assert (E' : existsb (fun m => law_eqb (m_law m) l && existsb (Z.eqb (q_volume M p)) (ids (m_id m)))%bool ms = true).
          { apply existsb_exists. exists m. split; [assumption|]. rewrite El. cbn. apply existsb_exists. exists (q_volume M p). split; [assumption|apply Z.eqb_refl]. }
          congruence. }
        rewrite <- (map_id (flat_map _ _)). now apply rsum_map_zero. }
    unfold pressure in *.
    assert (A : law_marker Henry ms (q_volume M p) * ((u_th u * val (mb_solution mb p)) ^ 2 * S' p)
                = u_c u * (law_marker Henry ms (q_volume M p) * (val (mb_solution mb p) ^ 2 * S_ p))).
    { destruct (K Henry) as [->| ->]; [ring|]. unfold solubility, pressure. field. lra. }
    assert (B : law_marker Sievert ms (q_volume M p) * (u_th u * val (mb_solution mb p) * S' p)
                = u_c u * (law_marker Sievert ms (q_volume M p) * (val (mb_solution mb p) * S_ p))).
    { destruct (K Sievert) as [->| ->]; [ring|]. unfold solubility. field. lra. }
    rewrite A, B. ring.
Qed.

Lemma type_dim : q_type M' = q_type M /\ q_dim M' = q_dim M /\ forall p, q_x0 M' p = x * q_x0 M p.
Proof. destruct HM as (_ & _ & _ & _ & H5 & H6 & H7 & _). auto. Qed.

Lemma diffusion_terms_scale soret D0 ED Q c cn c' cn' v T dt z :
  (forall p, sd (u_c u) (c p) (c' p) /\ sd (u_c u) (cn p) (cn' p)) ->
  scf kc (diffusion_terms M soret D0 ED Q c cn v T dt z)
    (diffusion_terms M' soret (x ^ 2 / u_t u * D0) ED Q c' cn' (rescale u 1 v) (rescale u 1 T) (option_map (Rmult (u_t u)) dt) z).
Proof.
  intros Hcc. unfold diffusion_terms. destruct type_dim as (-> & -> & Hx0).
  assert (Hr : forall p, sd x (dcoord0 (q_x0 M p)) (dcoord0 (q_x0 M' p))) by (intros p; rewrite Hx0; apply sd_coord).
  assert (Hv : forall p, sd 1 (v p) (rescale u 1 v p)) by (intros p; apply sd_rescale).
  assert (Hv1 : forall p, sd (1 / x) (ddiv (v p) (dcoord0 (q_x0 M p))) (ddiv (rescale u 1 v p) (dcoord0 (q_x0 M' p)))).
  { intros p. apply sd_div; [lra|apply Hv|apply Hr]. }
  assert (Hv2 : forall p, sd (1 / x / x) (ddiv (ddiv (v p) (dcoord0 (q_x0 M p))) (dcoord0 (q_x0 M p)))
                  (ddiv (ddiv (rescale u 1 v p) (dcoord0 (q_x0 M' p))) (dcoord0 (q_x0 M' p)))).
  { intros p. apply sd_div; [lra|apply Hv1|apply Hr]. }
  apply scf_app.
  - destruct dt as [dt|]; cbn [option_map]; [|constructor]. constructor; [|constructor]. apply sc_same. intros p _. cbn [unit_on].
    destruct (Hcc p) as [[-> _] [-> _]]. cbn [val rescale]. unfold Rdiv. rewrite Rinv_mult. ring.
  - assert (HT : forall p, val (rescale u 1 T p) = val (T p)) by (intros p; cbn; ring).
    assert (G : forall f f' : P -> R, (forall p, f' p = kc * f p) -> forall s s', (forall p, s' p = kc * s p) ->
      scf kc ((Dx z, f) :: if soret then [(Dx z, s)] else []) ((Dx z, f') :: if soret then [(Dx z, s')] else [])).
    { intros f f' H1 s s' H2. constructor; [now apply sc_same|]. destruct soret; [|constructor]. constructor; [now apply sc_same|constructor]. }
    destruct (q_type M).
    + apply G; intros p; apply dot_rel; intros i; rewrite HT; cbn [grd rescale].
      * destruct (Hcc p) as [[_ ->] _]. generalize (exp (- ED / k_B / val (T p))). intros. field. lra.
      * destruct (Hcc p) as [[-> _] _]. unfold Rdiv. generalize (exp (- ED * / k_B * / val (T p))) (/ (k_B * val (T p) ^ 2)). intros. field. lra.
    + apply G; intros p; apply (prod_dot x (kc / x));
        [apply (proj1 (Hr p)) | field; lra | intros i; rewrite HT, (proj2 (Hv1 p)); cbn [grd rescale]
        |apply (proj1 (Hr p)) | field; lra | intros i; rewrite HT, (proj2 (Hv1 p)); cbn [grd rescale]].
      * destruct (Hcc p) as [[_ ->] _]. generalize (exp (- ED / k_B / val (T p))). intros. field. lra.
      * destruct (Hcc p) as [[-> _] _]. unfold Rdiv. generalize (exp (- ED * / k_B * / val (T p))) (/ (k_B * val (T p) ^ 2)). intros. field. lra.
    + apply G; intros p; apply (prod_dot (x ^ 4 / u_t u) (u_c u / x ^ 4));
        [rewrite (proj1 (Hr p)), HT; unfold Rdiv; ring | field; lra | intros i; rewrite (proj2 (Hv2 p))
        |rewrite (proj1 (Hr p)), HT; unfold Rdiv; ring | field; lra | intros i; rewrite HT, (proj2 (Hv2 p)); cbn [grd rescale]].
      * destruct (Hcc p) as [[_ ->] _]. field. lra.
      * destruct (Hcc p) as [[-> _] _]. unfold Rdiv. generalize (/ (k_B * val (T p) ^ 2)). intros. field. lra.
Qed.

Lemma material_form_scale T dt soret m :
  rsc kc (material_form M mb T dt soret m)
    (material_form M' mb' (scale_temp u T) (option_map (Rmult (u_t u)) dt) soret (scale_obj u m)).
Proof.
  unfold material_form. cbn [attrs scale_obj]. assert (G := get_concentration_scale (attrs m) T).
  destruct (get_concentration mb (attrs m) T) as [c|e], (get_concentration mb' (scale_mat u (attrs m)) (scale_temp u T)) as [c'|e'];
    cbn [bind]; try contradiction; [|exact G].
  cbn [m_D0 m_ED m_Q m_id scale_mat]. rewrite float_of_scale_some.
  destruct (float_of (Some (m_D0 (attrs m)))) as [D0|e]; cbn [bind]; [|reflexivity].
  destruct (float_of (Some (m_ED (attrs m)))) as [ED|e]; cbn [bind]; [|reflexivity].
  destruct (if soret then value_at (m_Q (attrs m)) else Ok (fun _ => 0)) as [Q|e]; cbn [bind]; [|reflexivity].
  apply rsc_ok, scf_flat_map_id. intros z _. cbn [mb_test scale_mobile T_T scale_temp]. now apply diffusion_terms_scale.
Qed.

(** The parameters of a trap in one material. *)
Definition trap_prm (t : trap P) (i : nat) : res (R * R * R * R * (P -> R)) :=
  match t_k0 t with
  | PerMat k => let! k_0 := index k i in let! E_k := arg_index (t_Ek t) i in let! p_0 := arg_index (t_p0 t) i in
      let! E_p := arg_index (t_Ep t) i in let! density := index (t_density t) i in Ok (k_0, E_k, p_0, E_p, density)
  | Scalar k_0 => let! E_k := arg_number (t_Ek t) in let! p_0 := arg_number (t_p0 t) in
      let! E_p := arg_number (t_Ep t) in let! density := index (t_density t) 0 in Ok (k_0, E_k, p_0, E_p, density)
  end.
Lemma index_map {A B} (f : A -> B) l i : index (map f l) i = let! a := index l i in Ok (f a).
Proof. unfold index. rewrite nth_error_map. destruct (nth_error l i); reflexivity. Qed.
Lemma arg_index_scale k a i : arg_index (scale_arg k a) i = let! r := arg_index a i in Ok (k * r).
Proof. destruct a; cbn; [reflexivity|]. apply index_map. Qed.
Lemma arg_number_scale k a : arg_number (scale_arg k a) = let! r := arg_number a in Ok (k * r).
Proof. destruct a; reflexivity. Qed.
Lemma trap_prm_scale t i : trap_prm (scale_trap u t) i =
  let! q := trap_prm t i in
  let '(k_0, E_k, p_0, E_p, density) := q in Ok (/ (u_c u * u_t u) * k_0, E_k, / u_t u * p_0, E_p, times (u_c u) density).
Proof.
  unfold trap_prm. cbn [t_k0 t_Ek t_p0 t_Ep t_density scale_trap]. destruct (t_k0 t) as [k0|k0]; cbn [scale_arg].
  - rewrite arg_number_scale, index_map. destruct (arg_number (t_Ek t)); cbn [bind]; [|reflexivity].
    destruct (arg_number (t_p0 t)); cbn [bind]; [|reflexivity]. destruct (arg_number (t_Ep t)); cbn [bind]; [|reflexivity].
    destruct (index (t_density t) 0); reflexivity.
  - rewrite !index_map, arg_index_scale. destruct (index k0 i); cbn [bind]; [|reflexivity].
    destruct (arg_index (t_Ek t) i); cbn [bind]; [|reflexivity]. destruct (arg_index (t_p0 t) i); cbn [bind]; [|reflexivity].
    destruct (arg_index (t_Ep t) i); cbn [bind]; [|reflexivity]. destruct (index (t_density t) i); reflexivity.
Qed.
Lemma trapping_scale T k_0 E_k p_0 E_p density (c c' s v : field P) (t : trap P) id :
  (forall p, sd (u_c u) (c p) (c' p)) ->
  scf kc
    [(Dx id, fun p => - k_0 * exp (- E_k / k_B / val (T_T T p)) * val (c p) * (density p - val (s p)) * val (v p));
     (Dx id, fun p => p_0 * exp (- E_p / k_B / val (T_T T p)) * val (s p) * val (v p))]
    [(Dx id, fun p => - (/ (u_c u * u_t u) * k_0) * exp (- E_k / k_B / val (T_T (scale_temp u T) p)) * val (c' p)
                      * (times (u_c u) density p - val (rescale u (u_c u) s p)) * val (rescale u 1 v p));
     (Dx id, fun p => / u_t u * p_0 * exp (- E_p / k_B / val (T_T (scale_temp u T) p)) * val (rescale u (u_c u) s p) * val (rescale u 1 v p))].
Proof.
  intros H. assert (HT : forall p, val (T_T (scale_temp u T) p) = val (T_T T p)) by (intros p; cbn; ring).
  constructor; [|constructor; [|constructor]]; apply sc_same; intros p _; rewrite HT; cbn [unit_on].
  - rewrite (proj1 (H p)). unfold times. cbn [val rescale]. generalize (exp (- E_k / k_B / val (T_T T p))). intros. field. lra.
  - cbn [val rescale]. generalize (exp (- E_p / k_B / val (T_T T p))). intros. field. lra.
Qed.
Lemma mobile_trapping_scale T t i m :
  rsc kc (mobile_trapping_terms mb T t i m) (mobile_trapping_terms mb' (scale_temp u T) (scale_trap u t) i (scale_obj u m)).
Proof.
  unfold mobile_trapping_terms. fold (trap_prm t i). fold (trap_prm (scale_trap u t) i). rewrite trap_prm_scale.
  destruct (trap_prm t i) as [[[[[k_0 E_k] p_0] E_p] density]|e]; cbn [bind]; [|reflexivity].
  assert (G := get_concentration_scale (attrs m) T). cbn [attrs scale_obj].
  destruct (get_concentration mb (attrs m) T) as [c|e], (get_concentration mb' (scale_mat u (attrs m)) (scale_temp u T)) as [c'|e'];
    cbn [bind]; try contradiction; [|exact G].
  cbn [m_id scale_mat]. destruct (dx_id (m_id (attrs m))) as [id|e]; cbn [bind]; [|reflexivity].
  apply rsc_ok. cbn [mb_test scale_mobile t_solution scale_trap]. apply trapping_scale; [assumption|]. intros p. apply G.
Qed.
Lemma trapping_terms_scale T t i m :
  rsc kc (trapping_terms mb T t i m) (trapping_terms mb' (scale_temp u T) (scale_trap u t) i (scale_obj u m)).
Proof.
  unfold trapping_terms. fold (trap_prm t i). fold (trap_prm (scale_trap u t) i). rewrite trap_prm_scale.
  destruct (trap_prm t i) as [[[[[k_0 E_k] p_0] E_p] density]|e]; cbn [bind]; [|reflexivity].
  assert (G := get_concentration_scale (attrs m) T). cbn [attrs scale_obj m_law scale_mat mb_class scale_mobile].
  destruct (mb_class mb) as [|S_ ms] eqn:Ecl; cbn [scale_class]; [|destruct (m_law (attrs m))]; cbn [bind];
    try reflexivity;
    (destruct (get_concentration mb (attrs m) T) as [c|e], (get_concentration mb' (scale_mat u (attrs m)) (scale_temp u T)) as [c'|e'];
    cbn [bind]; try contradiction; [|exact G];
    cbn [m_id scale_mat]; destruct (dx_id (m_id (attrs m))) as [id|e]; cbn [bind]; [|reflexivity];
    apply rsc_ok; cbn [t_test t_solution scale_trap]; apply trapping_scale; [assumption|]; intros p; apply G).
Qed.

Lemma mat_in_scale m l : mat_in (scale_obj u m) (map (scale_obj u) l) = mat_in m l.
Proof. unfold mat_in. induction l as [|a l IH]; [reflexivity|]. cbn [map existsb]. now rewrite IH. Qed.

Lemma trap_create_form_scale ms T dt t : (dt = None -> empty_outside M ms t) ->
  rsc kc (trap_create_form mb ms T dt t)
    (trap_create_form mb' (map (scale_obj u) ms) (scale_temp u T) (option_map (Rmult (u_t u)) dt) (scale_trap u t)).
Proof.
  intros Hout. unfold trap_create_form. apply rsc_bind2.
  - unfold create_trapping_form. apply rsc_bind2.
    + destruct dt as [dt|]; cbn [option_map].
      * apply rsc_ok. constructor; [|constructor]. apply sc_same. intros p _. cbn [unit_on t_solution t_previous t_test scale_trap val rescale].
        unfold Rdiv. rewrite Rinv_mult. ring.
      * apply rsc_sum_forms. intros m Hin. cbn [t_materials scale_trap]. rewrite mat_in_scale.
        destruct (mat_in m (t_materials t)) eqn:Em; [constructor|]. cbn [attrs scale_obj m_id scale_mat].
        destruct (m_id (attrs m)) as [z|l] eqn:Ei; cbn [dx_id bind]; [|reflexivity].
        apply rsc_ok. constructor; [|constructor]. apply sc_same. intros p Hp. cbn in Hp. apply filter_In in Hp as [Hp Hz].
        apply Z.eqb_eq in Hz. cbn [unit_on t_solution t_test scale_trap val rescale].
        rewrite (Hout eq_refl m p Hin Em Hp); [ring|]. rewrite Ei. cbn. now left.
    + cbn [t_materials scale_trap]. apply rsc_sum_forms_enum. intros i m. apply trapping_terms_scale.
  - cbn [t_sources scale_trap]. apply rsc_sum_forms. intros s _. unfold trap_source_terms. cbn [s_volume scale_source].
    destruct (dx_id (s_volume s)) as [z|e]; cbn [bind]; [|reflexivity].
    apply rsc_ok. constructor; [|constructor]. apply sc_same. intros p _. cbn [unit_on t_test scale_trap s_decay scale_source s_value].
    destruct (s_decay s) as [l|]; cbn [option_map]; unfold decay_form, times; cbn [val rescale t_solution scale_trap]; unfold Rdiv; ring.
Qed.

Lemma mobile_source_scale : scf kc (create_mobile_source_form M mb) (create_mobile_source_form M' mb').
Proof.
  unfold create_mobile_source_form. cbn [mb_sources scale_mobile]. apply scf_flat_map. intros s _. unfold mobile_source_terms.
  cbn [s_volume scale_source]. apply scf_map. intros z _. apply sc_same. intros p _. cbn [unit_on s_decay scale_source s_value mb_test scale_mobile].
  destruct (s_decay s) as [l|]; cbn [option_map]; unfold decay_form, times; rewrite ?mobile_concentration_scale; cbn [val rescale]; unfold Rdiv; ring.
Qed.

Lemma flux_form_scale phi f T (c : P -> R) p : (match f with RecombinationFlux _ _ (EReal _) => 0 <= c p | _ => True end) ->
  forall c', c' p = u_c u * c p -> flux_form (scale_flux u phi f) (rescale u 1 T) c' p = phi * flux_form f T c p.
Proof.
  intros Hpos c' Hc'. assert (HT : val (rescale u 1 T p) = val (T p)) by (cbn; ring).
  destruct f; cbn [flux_form scale_flux]; rewrite ?HT, ?Hc'; unfold times.
  - reflexivity.
  - unfold recombination_form. rewrite power_scale by (assumption || (destruct order; [exact I|exact Hpos])).
    assert (Hn := concentration_power_neq u order Hc). generalize (exp (- E_Kr p / k_B / val (T p))). intros. field. exact Hn.
  - unfold dissociation_form, pressure. generalize (exp (- E_Kd p / k_B / val (T p))). intros. field. nz.
  - unfold mass_form. field. lra.
  - unfold convective_form. ring.
  - f_equal. f_equal. field. lra.
Qed.

Lemma fluxes_scale T dt : near_surface_ok mb -> powers_defined M mb (mobile_concentration M mb) ->
  scf kc (create_fluxes_form M mb T dt) (create_fluxes_form M' mb' (scale_temp u T) (option_map (Rmult (u_t u)) dt)).
Proof.
  intros Hns Hpow. unfold create_fluxes_form. cbn [mb_bcs scale_mobile]. apply scf_flat_map. intros b Hin. destruct b as [fT surfs f|s].
  - cbn [flux_terms scale_bc]. destruct fT; [constructor|]. apply scf_map. intros z _. apply sc_same. intros p Hp.
    cbn [unit_on mb_test scale_mobile T_T scale_temp]. rewrite (flux_form_scale _ f (T_T T) (mobile_concentration M mb) p).
    + cbn [val rescale]. unfold hydrogen_flux. field. lra.
    + destruct f as [| ? ? [|]| | | |]; try exact I. apply Hpow.
      * eexists. split; [exact Hin|exact I].
      * cbn in Hp. apply filter_In in Hp. apply Hp.
    + apply mobile_concentration_scale.
  - cbn [flux_terms scale_bc sk_adsorbed scale_sk]. assert (Hmc : mb_class mb = ClassMobile).
    { destruct Hns as [H|H]; [exact H|]. exfalso. exact (H s Hin). }
    apply scf_flat_map. intros a _. unfold surface_kinetics_terms. cbn [a_surface scale_adsorbed a_solution a_previous a_test sk_k_sb sk_k_bs sk_J_vs sk_lambda_IS sk_n_surf sk_n_IS scale_sk].
    assert (HT : forall p, val (T_T (scale_temp u T) p) = val (T_T T p)) by (intros p; cbn; ring).
    assert (H1 : forall p, val (rescale u (u_c u * x) (a_solution a) p) / (u_c u * x) = val (a_solution a p)) by (intros p; cbn; field; lra).
    assert (H2 : forall p, mobile_concentration M' mb' p / u_c u = mobile_concentration M mb p) by (intros p; rewrite mobile_concentration_scale; field; lra).
    apply scf_app.
    + destruct dt as [dt|]; cbn [option_map]; [|constructor]. constructor; [|constructor; [|constructor]]; apply sc_same; intros p _; cbn [unit_on].
      * cbn [val rescale]. unfold Rdiv. rewrite Rinv_mult. ring.
      * rewrite mobile_concentration_scale. cbn [val rescale mb_previous mb_test scale_mobile]. rewrite Hmc. cbn [unknown].
        unfold Rdiv. rewrite Rinv_mult. ring.
    + constructor; [|constructor; [|constructor]]; apply sc_same; intros p _; cbn [unit_on]; rewrite !HT, !H1, !H2; cbn [mb_test scale_mobile];
        unfold hydrogen_flux; rewrite mobile_concentration_scale; cbn [val rescale]; unfold Rdiv; rewrite !Rinv_mult;
        generalize (/ sk_n_IS s) (/ sk_n_surf s); intros; field; lra.
Qed.

Lemma define_scale ms T dt traps soret :
  near_surface_ok mb -> powers_defined M mb (mobile_concentration M mb) ->
  (dt = None -> forall t, In t traps -> empty_outside M ms t) ->
  rsc kc (define_variational_problem M mb ms T dt traps soret)
    (define_variational_problem M' mb' (map (scale_obj u) ms) (scale_temp u T) (option_map (Rmult (u_t u)) dt) (map (scale_trap u) traps) soret).
Proof.
  intros H1 H2 H3. unfold define_variational_problem. apply rsc_bind2.
  - unfold mobile_create_form. assert (G : rsc kc (create_diffusion_form M mb ms T dt traps soret)
      (create_diffusion_form M' mb' (map (scale_obj u) ms) (scale_temp u T) (option_map (Rmult (u_t u)) dt) (map (scale_trap u) traps) soret)).
    { unfold create_diffusion_form.
      assert (A := rsc_sum_forms kc (scale_obj u) (material_form M mb T dt soret) _ ms (fun m _ => material_form_scale T dt soret m)).
      assert (B : rsc kc (sum_forms (fun t => sum_forms_enum (mobile_trapping_terms mb T t) 0 (t_materials t)) traps)
        (sum_forms (fun t => sum_forms_enum (mobile_trapping_terms mb' (scale_temp u T) t) 0 (t_materials t)) (map (scale_trap u) traps))).
      { apply rsc_sum_forms. intros t _. cbn [t_materials scale_trap]. apply rsc_sum_forms_enum. intros i m. apply mobile_trapping_scale. }
      revert A B.
      generalize (sum_forms (material_form M mb T dt soret) ms)
        (sum_forms (material_form M' mb' (scale_temp u T) (option_map (Rmult (u_t u)) dt) soret) (map (scale_obj u) ms))
        (sum_forms (fun t => sum_forms_enum (mobile_trapping_terms mb T t) 0 (t_materials t)) traps)
        (sum_forms (fun t => sum_forms_enum (mobile_trapping_terms mb' (scale_temp u T) t) 0 (t_materials t)) (map (scale_trap u) traps)).
      intros [F|e] [F'|e'] [G|f] [G'|f']; cbn; try tauto. intros A B. apply scf_app; [assumption|]. now apply scf_neg. }
    revert G. generalize (create_diffusion_form M mb ms T dt traps soret)
      (create_diffusion_form M' mb' (map (scale_obj u) ms) (scale_temp u T) (option_map (Rmult (u_t u)) dt) (map (scale_trap u) traps) soret).
    intros [F|e] [F'|e']; cbn; try tauto. intros A. apply scf_app; [assumption|]. apply scf_app; [apply mobile_source_scale|]. now apply fluxes_scale.
  - apply rsc_sum_forms. intros t Hin. apply trap_create_form_scale. intros E. now apply H3.
Qed.

(** * Heat *)
Local Notation kh := (u_e u / (u_t u * x ^ 3)).
Lemma value_at_scale k o : match value_at o, value_at (option_map (scale_prop k) o) with
  | Ok f, Ok f' => forall r, f' r = k * f r | Err e, Err e' => e = e' | _, _ => False end.
Proof. destruct o as [[r|f]|]; cbn; auto. Qed.

Lemma heat_material_scale tr dt T Tn v m :
  rsc kh (heat_material_form M tr dt T Tn v m)
    (heat_material_form M' tr (u_t u * dt) (rescale u 1 T) (rescale u 1 Tn) (rescale u 1 v) (scale_obj u m)).
Proof.
  unfold heat_material_form. cbn [attrs scale_obj m_thermal m_heat m_rho m_id scale_mat].
  assert (G1 := value_at_scale (u_e u / (u_t u * x)) (m_thermal (attrs m))).
  assert (G2 := value_at_scale (u_e u / u_m u) (m_heat (attrs m))).
  assert (G3 := value_at_scale (u_m u / x ^ 3) (m_rho (attrs m))).
  assert (HT : forall p, val (rescale u 1 T p) = val (T p)) by (intros p; cbn; ring).
  destruct (value_at (m_thermal (attrs m))) as [k|e], (value_at (option_map _ (m_thermal (attrs m)))) as [k'|e'];
    cbn [bind]; try contradiction; [|exact G1].
  destruct type_dim as (-> & -> & Hx0).
  assert (Hr : forall p, sd x (dcoord0 (q_x0 M p)) (dcoord0 (q_x0 M' p))) by (intros p; rewrite Hx0; apply sd_coord).
  assert (Hv : forall p, sd 1 (v p) (rescale u 1 v p)) by (intros p; apply sd_rescale).
  assert (Hv1 : forall p, sd (1 / x) (ddiv (v p) (dcoord0 (q_x0 M p))) (ddiv (rescale u 1 v p) (dcoord0 (q_x0 M' p)))).
  { intros p. apply sd_div; [lra|apply Hv|apply Hr]. }
  assert (Hv2 : forall p, sd (1 / x / x) (ddiv (ddiv (v p) (dcoord0 (q_x0 M p))) (dcoord0 (q_x0 M p)))
                  (ddiv (ddiv (rescale u 1 v p) (dcoord0 (q_x0 M' p))) (dcoord0 (q_x0 M' p)))).
  { intros p. apply sd_div; [lra|apply Hv1|apply Hr]. }
  assert (D : scf kh
     (map (fun vol => match q_type M with
             | Cartesian => (Dx vol, fun p => dot (q_dim M) (fun i => k (val (T p)) * grd (T p) i) (grd (v p)))
             | Cylindrical => (Dx vol, fun p => val (dcoord0 (q_x0 M p)) * dot (q_dim M) (fun i => k (val (T p)) * grd (T p) i) (grd (ddiv (v p) (dcoord0 (q_x0 M p)))))
             | Spherical => (Dx vol, fun p => k (val (T p)) * val (dcoord0 (q_x0 M p)) * val (dcoord0 (q_x0 M p))
                                   * dot (q_dim M) (grd (T p)) (grd (ddiv (ddiv (v p) (dcoord0 (q_x0 M p))) (dcoord0 (q_x0 M p)))))
             end) (ids (m_id (attrs m))))
     (map (fun vol => match q_type M with
             | Cartesian => (Dx vol, fun p => dot (q_dim M) (fun i => k' (val (rescale u 1 T p)) * grd (rescale u 1 T p) i) (grd (rescale u 1 v p)))
             | Cylindrical => (Dx vol, fun p => val (dcoord0 (q_x0 M' p)) * dot (q_dim M) (fun i => k' (val (rescale u 1 T p)) * grd (rescale u 1 T p) i) (grd (ddiv (rescale u 1 v p) (dcoord0 (q_x0 M' p)))))
             | Spherical => (Dx vol, fun p => k' (val (rescale u 1 T p)) * val (dcoord0 (q_x0 M' p)) * val (dcoord0 (q_x0 M' p))
                                   * dot (q_dim M) (grd (rescale u 1 T p)) (grd (ddiv (ddiv (rescale u 1 v p) (dcoord0 (q_x0 M' p))) (dcoord0 (q_x0 M' p)))))
             end) (ids (m_id (attrs m))))).
  { apply scf_map. intros z _. destruct (q_type M); apply sc_same; intros p _; cbn [unit_on].
    - apply dot_rel. intros i. rewrite HT, G1. cbn [grd rescale]. field. lra.
    - apply (prod_dot x (u_e u / (u_t u * x ^ 4))); [apply (proj1 (Hr p))|field; lra|].
      intros i. rewrite HT, G1, (proj2 (Hv1 p)). cbn [grd rescale]. field. lra.
    - apply (prod_dot (u_e u * x / u_t u) (1 / x ^ 4)); [rewrite (proj1 (Hr p)), HT, G1; field; lra|field; lra|].
      intros i. rewrite (proj2 (Hv2 p)). cbn [grd rescale]. field. lra. }
  destruct tr; cbn [bind]; [|apply rsc_ok, scf_app; [constructor|exact D]].
  destruct (value_at (m_heat (attrs m))) as [cp|e], (value_at (option_map _ (m_heat (attrs m)))) as [cp'|e'];
    cbn [bind]; try contradiction; [|exact G2].
  destruct (value_at (m_rho (attrs m))) as [rho|e], (value_at (option_map _ (m_rho (attrs m)))) as [rho'|e'];
    cbn [bind]; try contradiction; [|exact G3].
  apply rsc_ok, scf_app; [|exact D]. apply scf_map. intros z _. apply sc_same. intros p _. cbn [unit_on].
  rewrite !HT, G2, G3. cbn [val rescale]. unfold Rdiv. rewrite !Rinv_mult. generalize (/ dt). intros. field. lra.
Qed.

Lemma heat_form_scale tr dt T Tn v ms sources bcs :
  rsc kh (heat_form M tr dt T Tn v ms sources bcs)
    (heat_form M' tr (u_t u * dt) (rescale u 1 T) (rescale u 1 Tn) (rescale u 1 v) (map (scale_obj u) ms)
       (map (scale_source u (u_e u / x ^ 3)) sources) (map (fun b => (fst b, scale_flux u (heat_flux u) (snd b))) bcs)).
Proof.
  unfold heat_form.
  assert (A := rsc_sum_forms kh (scale_obj u) (heat_material_form M tr dt T Tn v) _ ms (fun m _ => heat_material_scale tr dt T Tn v m)).
  assert (B : rsc kh (sum_forms (fun b : list Z * flux P => let! g := heat_flux_form (snd b) T in Ok (map (fun surf => (Ds surf, fun p => - g p * val (v p))) (fst b))) bcs)
    (sum_forms (fun b : list Z * flux P => let! g := heat_flux_form (snd b) (rescale u 1 T) in Ok (map (fun surf => (Ds surf, fun p => - g p * val (rescale u 1 v p))) (fst b)))
       (map (fun b => (fst b, scale_flux u (heat_flux u) (snd b))) bcs))).
  { apply rsc_sum_forms. intros [zs f] _. cbn [fst snd].
    assert (K : forall r, heat_flux_form f T = Ok r -> rsc kh (let! g := heat_flux_form f T in Ok (map (fun surf => (Ds surf, fun p => - g p * val (v p))) zs))
      (Ok (map (fun surf => (Ds surf, fun p => - flux_form (scale_flux u (heat_flux u) f) (rescale u 1 T) (fun _ => 0) p * val (rescale u 1 v p))) zs))).
    { intros r Hr. rewrite Hr. cbn [bind]. apply rsc_ok, scf_map. intros z _. apply sc_same. intros p _. cbn [unit_on].
      assert (Hr' : r p = flux_form f T (fun _ => 0) p) by (destruct f; cbn in Hr; inversion Hr; reflexivity).
      rewrite (flux_form_scale _ f T (fun _ => 0) p); [|destruct f as [| ? ? [|]| | | |]; try exact I; apply Rle_refl|cbn; ring].
      rewrite Hr'. cbn [val rescale]. unfold heat_flux. field. lra. }
    destruct f; cbn [heat_flux_form scale_flux bind] in *; try reflexivity; exact (K _ eq_refl). }
  revert A B.
  generalize (sum_forms (heat_material_form M tr dt T Tn v) ms)
    (sum_forms (heat_material_form M' tr (u_t u * dt) (rescale u 1 T) (rescale u 1 Tn) (rescale u 1 v)) (map (scale_obj u) ms))
    (sum_forms (fun b : list Z * flux P => let! g := heat_flux_form (snd b) T in Ok (map (fun surf => (Ds surf, fun p => - g p * val (v p))) (fst b))) bcs)
    (sum_forms (fun b : list Z * flux P => let! g := heat_flux_form (snd b) (rescale u 1 T) in Ok (map (fun surf => (Ds surf, fun p => - g p * val (rescale u 1 v p))) (fst b)))
       (map (fun b => (fst b, scale_flux u (heat_flux u) (snd b))) bcs)).
  intros [F|e] [F'|e'] [G|f] [G'|f']; cbn [bind rsc]; try tauto. intros A B.
  apply scf_app; [assumption|]. apply scf_app; [|assumption].
  apply scf_flat_map. intros s _. cbn [s_volume scale_source s_value]. apply scf_map. intros z _. apply sc_same. intros p _.
  cbn [unit_on val rescale]. unfold times. field. lra.
Qed.

(** * Trap densities *)
Lemma extrinsic_scale dt phi na nb ea eb fa fb n np v :
  scf kc (extrinsic_form dt phi na nb ea eb fa fb n np v)
    (extrinsic_form (u_t u * dt) (times (hydrogen_flux u) phi) (times (u_c u) na) (times (u_c u) nb) ea eb (times (/ x) fa) (times (/ x) fb)
       (rescale u (u_c u) n) (rescale u (u_c u) np) (rescale u 1 v)).
Proof.
  unfold extrinsic_form, times, hydrogen_flux. constructor; [|constructor; [|constructor]]; apply sc_same; intros p _; cbn [unit_on val rescale];
    unfold Rdiv; rewrite !Rinv_mult.
  - ring.
  - generalize (/ na p) (/ nb p). intros. field. lra.
Qed.
Lemma neutron_scale dt phi K nmax A0 EA T n np v :
  scf kc (neutron_form dt phi K nmax A0 EA T n np v)
    (neutron_form (u_t u * dt) (times (/ u_t u) phi) (times (u_c u) K) (times (u_c u) nmax) (times (/ u_t u) A0) EA (rescale u 1 T)
       (rescale u (u_c u) n) (rescale u (u_c u) np) (rescale u 1 v)).
Proof.
  unfold neutron_form, times. constructor; [|constructor; [|constructor; [|constructor]]]; apply sc_same; intros p _; cbn [unit_on val rescale];
    unfold Rdiv; rewrite !Rinv_mult.
  - ring.
  - generalize (/ nmax p). intros. field. lra.
  - replace (/ (1 * val (T p))) with (/ val (T p)) by (f_equal; ring). replace (/ 1) with 1 by field. rewrite Rmult_1_l. rewrite Rmult_1_l.
    generalize (exp (- EA p * (/ k_B * / val (T p)))). intros. field. lra.
Qed.
End Scaling.

(** * Derived quantities *)
Section Quantities.
Context {P : Type}.
Variable u : units.
Hypothesis Hu : positive_units u.
Local Notation x := (u_x u).
Variables (M M' : mesh P).
Hypothesis HM : rescaled_mesh u (powerRZ (u_x u) (Z.of_nat (q_dim M) - 1)) M M'.

Lemma factor_pos v : 0 < factor u v.
Proof.
  destruct Hu as (H1 & H2 & H3 & H4 & H5 & H6). unfold factor. apply Rmult_lt_0_compat; [apply Rmult_lt_0_compat|]; try (now apply powerRZ_lt).
  destruct (u_base v); [lra|apply Rdiv_lt_0_compat; assumption|]. apply Rmult_lt_0_compat; [assumption|now apply pow_lt].
Qed.
Lemma factor_times_metres v n : factor u (times_metres v n) = factor u v * powerRZ x n.
Proof. destruct Hu as (_ & H2 & _). unfold factor, times_metres. cbn. rewrite powerRZ_add by lra. ring. Qed.
Lemma rdiv_scale k l a b : l <> 0 -> rdiv (k * a) (l * b) = let! r := rdiv a b in Ok (k / l * r).
Proof.
  intros Hl. unfold rdiv. destruct (Req_EM_T b 0) as [->|Hb], (Req_EM_T (l * _) 0) as [E|E]; try reflexivity.
  - exfalso. apply E. ring.
  - exfalso. apply Rmult_integral in E. tauto.
  - cbn [bind]. f_equal. field. tauto.
Qed.
Lemma map_res_values k l ds :
  map_res (fun d => match nth_error (map (Rmult k) l) d with Some v => Ok v | None => Err (IndexError "index out of bounds") end) ds
  = let! vs := map_res (fun d => match nth_error l d with Some v => Ok v | None => Err (IndexError "index out of bounds") end) ds in Ok (map (Rmult k) vs).
Proof.
  induction ds as [|d ds IH]; [reflexivity|]. cbn [map_res]. rewrite nth_error_map. destruct (nth_error l d); [|reflexivity].
  cbn [option_map bind]. rewrite IH.
  destruct (map_res (fun d => match nth_error l d with Some v => Ok v | None => Err (IndexError "index out of bounds") end) ds); reflexivity.
Qed.
Lemma fold_scale op k : (forall a b, op (k * a) (k * b) = k * op a b) -> forall l a, fold_left op (map (Rmult k) l) (k * a) = k * fold_left op l a.
Proof. intros H. induction l as [|b l IH]; intros a; [reflexivity|]. cbn. rewrite H. apply IH. Qed.
Lemma extremum_scale op l V es : (forall a b, op (factor u (field_unit l) * a) (factor u (field_unit l) * b) = factor u (field_unit l) * op a b) ->
  extremum op (scale_space u l V) es = let! r := extremum op V es in Ok (factor u (field_unit l) * r).
Proof.
  intros H. unfold extremum. change (subd_dofs (scale_space u l V) es) with (subd_dofs V es).
  destruct (subd_dofs V es) as [ds|e]; [|reflexivity]. cbn [bind]. unfold values_at. cbn [fe_vector scale_space]. rewrite map_res_values.
  destruct (map_res (fun d => match nth_error (fe_vector V) d with Some v => Ok v | None => Err (IndexError "index out of bounds") end) ds) as [[|v vs]|e]; cbn [bind map np_extremum]; [reflexivity| |reflexivity]. now rewrite fold_scale.
Qed.
Lemma Rmax_scale k a b : 0 < k -> Rmax (k * a) (k * b) = k * Rmax a b.
Proof. intros. now rewrite RmaxRmult by lra. Qed.
Lemma Rmin_scale k a b : 0 < k -> Rmin (k * a) (k * b) = k * Rmin a b.
Proof.
  intros H. unfold Rmin. destruct (Rle_dec a b), (Rle_dec (k * a) (k * b)); try reflexivity; exfalso.
  - apply n. apply Rmult_le_compat_l; lra.
  - apply n. apply Rmult_le_reg_l with k; assumption.
Qed.
(** Element of the coordinates. *)
Lemma one_r_scale k p : one_r_r2 M' k p = powerRZ x (extra_metres k) * one_r_r2 M k p.
Proof.
  destruct HM as (_ & _ & _ & _ & _ & _ & H7 & _). unfold one_r_r2. rewrite H7.
  destruct k; cbn; change (Pos.to_nat 1) with 1%nat; change (Pos.to_nat 2) with 2%nat; ring.
Qed.
Local Notation d := (Z.of_nat (q_dim M)).
Lemma volume_integral_scale k l z f f' : (forall p, f' p = factor u (field_unit l) * f p) ->
  integral M' (Dx z) (fun p => f' p * one_r_r2 M' k p)
  = factor u (times_metres (field_unit l) (d + extra_metres k)) * integral M (Dx z) (fun p => f p * one_r_r2 M k p).
Proof.
  intros H. destruct Hu as (_ & Hx & _).
  rewrite (integral_scale u _ M M' HM (Dx z) (factor u (field_unit l) * powerRZ x (extra_metres k)) (fun p => f p * one_r_r2 M k p)).
  2: { intros p _. rewrite one_r_scale, H. ring. }
  rewrite factor_times_metres. replace (powerRZ x (d + extra_metres k)) with (powerRZ x (d - 1) * x * powerRZ x (extra_metres k)); [ring|].
  rewrite powerRZ_add by lra. f_equal. replace (powerRZ x d) with (powerRZ x (d - 1 + 1)) by (f_equal; lia). rewrite powerRZ_add by lra. f_equal. now rewrite powerRZ_1.
Qed.
Lemma surface_integral_scale k g z f f' : (forall p, f' p = g * f p) ->
  integral M' (Ds z) (fun p => f' p * one_r_r2 M' k p)
  = g * powerRZ x (d - 1 + extra_metres k) * integral M (Ds z) (fun p => f p * one_r_r2 M k p).
Proof.
  intros H. destruct Hu as (_ & Hx & _).
  rewrite (integral_scale u _ M M' HM (Ds z) (g * powerRZ x (extra_metres k)) (fun p => f p * one_r_r2 M k p)).
  2: { intros p _. rewrite one_r_scale, H. ring. }
  rewrite powerRZ_add by lra. ring.
Qed.
Lemma flux_integral_scale k l z (c : context P) prop : prop_of c l = Ok prop ->
  exists prop', prop_of (scale_context u l c) l = Ok prop' /\
    flux_integral M' (scale_context u l c) prop' (one_r_r2 M' k) l z
    = factor u (times_metres (flux_unit l) (d - 1 + extra_metres k)) * flux_integral M c prop (one_r_r2 M k) l z.
Proof.
  intros Hp. destruct Hu as (Hc & Hx & Ht & Hth & He & _).
  assert (K : exists g, prop_of (scale_context u l c) l = Ok (times g prop) /\ g * (factor u (field_unit l) / x) = factor u (flux_unit l)).
  { unfold prop_of in *. destruct (label_eqb l (LStr "0")) eqn:E0; [|destruct (label_eqb l (LStr "solute")) eqn:E1; [|destruct (label_eqb l (LInt 0)) eqn:E2; [|destruct (label_eqb l (LStr "T")) eqn:E3; [|discriminate]]]];
      inversion Hp; subst prop; (eexists; split; [reflexivity|]);
      (destruct l as [s|i]; cbn in E0; try discriminate E0; try (cbn in E1; try discriminate E1); try (cbn in E2; try discriminate E2); try (cbn in E3; try discriminate E3));
      match goal with H : String.eqb s _ = true |- _ => apply String.eqb_eq in H; subst s | H : Z.eqb i _ = true |- _ => apply Z.eqb_eq in H; subst i end;
      unfold factor; cbn; change (Pos.to_nat 1) with 1%nat; change (Pos.to_nat 2) with 2%nat; change (Pos.to_nat 3) with 3%nat; field; lra. }
  destruct K as (g & Hp' & Hg). exists (times g prop). split; [exact Hp'|]. unfold flux_integral. cbn [x_function x_Q x_T x_n x_soret scale_context].
  assert (Hd : q_dim M' = q_dim M) by apply HM. rewrite Hd.
  assert (A : integral M' (Ds z) (fun p => times g prop p * one_r_r2 M' k p * dot (q_dim M) (grd (rescale u (factor u (field_unit l)) (x_function c) p)) (x_n c p))
    = factor u (times_metres (flux_unit l) (d - 1 + extra_metres k)) * integral M (Ds z) (fun p => prop p * one_r_r2 M k p * dot (q_dim M) (grd (x_function c p)) (x_n c p))).
  { rewrite (integral_scale u _ M M' HM (Ds z) (factor u (flux_unit l) * powerRZ x (extra_metres k)) (fun p => prop p * one_r_r2 M k p * dot (q_dim M) (grd (x_function c p)) (x_n c p))).
    - rewrite factor_times_metres, (powerRZ_add x (d - 1)) by lra. ring.
    - intros p _. rewrite one_r_scale. rewrite (dot_rel _ (factor u (field_unit l) / x) (grd (x_function c p)) (x_n c p)) by (intros i; cbn [grd rescale]; ring).
      unfold times. rewrite <- Hg. ring. }
  assert (B : integral M' (Ds z) (fun p => times g prop p * one_r_r2 M' k p * val (rescale u (factor u (field_unit l)) (x_function c) p) * x_Q c p
       / (k_B * val (rescale u 1 (x_T c) p) ^ 2) * dot (q_dim M) (grd (rescale u 1 (x_T c) p)) (x_n c p))
    = factor u (times_metres (flux_unit l) (d - 1 + extra_metres k)) * integral M (Ds z) (fun p => prop p * one_r_r2 M k p * val (x_function c p) * x_Q c p
       / (k_B * val (x_T c p) ^ 2) * dot (q_dim M) (grd (x_T c p)) (x_n c p))).
  { rewrite (integral_scale u _ M M' HM (Ds z) (factor u (flux_unit l) * powerRZ x (extra_metres k))
       (fun p => prop p * one_r_r2 M k p * val (x_function c p) * x_Q c p / (k_B * val (x_T c p) ^ 2) * dot (q_dim M) (grd (x_T c p)) (x_n c p))).
    - rewrite factor_times_metres, (powerRZ_add x (d - 1)) by lra. ring.
    - intros p _. rewrite one_r_scale. rewrite (dot_rel _ (1 / x) (grd (x_T c p)) (x_n c p)) by (intros i; cbn [grd rescale]; ring).
      unfold times. cbn [val rescale]. rewrite Rmult_1_l. rewrite <- Hg. unfold Rdiv. ring. }
  rewrite A, B. destruct (x_soret c && is_solute l)%bool; ring.
Qed.

Lemma compute_scale V (c : context P) q :
  field_of_class (d_kind q) (d_field q) ->
  compute M' (scale_space u (d_field q) V) (scale_context u (d_field q) c) q
  = let! v := compute M V c q in Ok (factor u (expected_unit (d_kind q) (d_field q) d) * v).
Proof.
  intros Hf. assert (HF := factor_pos (field_unit (d_field q))). destruct Hu as (_ & Hx & _).
  assert (Hval : forall p, val (rescale u (factor u (field_unit (d_field q))) (x_function c) p) = factor u (field_unit (d_field q)) * val (x_function c p)) by reflexivity.
  assert (K1 : factor u (field_unit (LStr "T")) = 1) by (unfold factor; cbn; ring).
  unfold compute. cbn [x_function scale_context].
  assert (Hav : forall k, rdiv (integral M' (Dx (d_id q)) (fun p => val (rescale u (factor u (field_unit (d_field q))) (x_function c) p) * one_r_r2 M' k p)) (integral M' (Dx (d_id q)) (fun p => 1 * one_r_r2 M' k p))
    = let! v := rdiv (integral M (Dx (d_id q)) (fun p => val (x_function c p) * one_r_r2 M k p)) (integral M (Dx (d_id q)) (fun p => 1 * one_r_r2 M k p)) in Ok (factor u (field_unit (d_field q)) * v)).
  { intros k. rewrite (volume_integral_scale k (d_field q) (d_id q) (fun p => val (x_function c p))) by exact Hval.
    rewrite (volume_integral_scale k (LStr "T") (d_id q) (fun _ => 1) (fun _ => 1)) by (intros; rewrite K1; ring).
    assert (0 < powerRZ x (d + extra_metres k)) by now apply powerRZ_lt. rewrite !factor_times_metres, K1. rewrite rdiv_scale by lra.
    destruct (rdiv _ _); cbn [bind]; [|reflexivity]. f_equal. field. lra. }
  assert (Hsv : forall k, rdiv (integral M' (Ds (d_id q)) (fun p => val (rescale u (factor u (field_unit (d_field q))) (x_function c) p) * one_r_r2 M' k p)) (integral M' (Ds (d_id q)) (fun p => 1 * one_r_r2 M' k p))
    = let! v := rdiv (integral M (Ds (d_id q)) (fun p => val (x_function c p) * one_r_r2 M k p)) (integral M (Ds (d_id q)) (fun p => 1 * one_r_r2 M k p)) in Ok (factor u (field_unit (d_field q)) * v)).
  { intros k. rewrite (surface_integral_scale k (factor u (field_unit (d_field q))) (d_id q) (fun p => val (x_function c p))) by exact Hval.
    rewrite (surface_integral_scale k 1 (d_id q) (fun _ => 1) (fun _ => 1)) by (intros; ring).
    assert (0 < powerRZ x (d - 1 + extra_metres k)) by now apply powerRZ_lt. rewrite rdiv_scale by lra.
    destruct (rdiv _ _); cbn [bind]; [|reflexivity]. f_equal. field. lra. }
  assert (Htv : forall k, integral M' (Dx (d_id q)) (fun p => val (rescale u (factor u (field_unit (d_field q))) (x_function c) p) * one_r_r2 M' k p) * angle q
     = factor u (times_metres (field_unit (d_field q)) (d + extra_metres k)) * (integral M (Dx (d_id q)) (fun p => val (x_function c p) * one_r_r2 M k p) * angle q)).
  { intros k. rewrite (volume_integral_scale k (d_field q) (d_id q) (fun p => val (x_function c p))) by exact Hval. ring. }
  assert (Hts : forall k, integral M' (Ds (d_id q)) (fun p => val (rescale u (factor u (field_unit (d_field q))) (x_function c) p) * one_r_r2 M' k p) * angle q
     = factor u (times_metres (field_unit (d_field q)) (d - 1 + extra_metres k)) * (integral M (Ds (d_id q)) (fun p => val (x_function c p) * one_r_r2 M k p) * angle q)).
  { intros k. rewrite (surface_integral_scale k (factor u (field_unit (d_field q))) (d_id q) (fun p => val (x_function c p))) by exact Hval.
    rewrite factor_times_metres. ring. }
  assert (Hfl : forall k, (let! prop := prop_of (scale_context u (d_field q) c) (d_field q) in Ok (flux_integral M' (scale_context u (d_field q) c) prop (one_r_r2 M' k) (d_field q) (d_id q) * angle q))
     = let! v := (let! prop := prop_of c (d_field q) in Ok (flux_integral M c prop (one_r_r2 M k) (d_field q) (d_id q) * angle q)) in
       Ok (factor u (times_metres (flux_unit (d_field q)) (d - 1 + extra_metres k)) * v)).
  { intros k. destruct (prop_of c (d_field q)) as [pr|e] eqn:Ep.
    - destruct (flux_integral_scale k (d_field q) (d_id q) c pr Ep) as (pr' & -> & E). cbn [bind]. rewrite E. f_equal. ring.
    - unfold prop_of in *. repeat (destruct (label_eqb (d_field q) _); [discriminate|]). cbn [bind]. congruence. }
  destruct (d_kind q) eqn:Ek; cbn [expected_unit is_flux bind];
    rewrite ?Hav, ?Hsv, ?Htv, ?Hts, ?Hfl; try reflexivity;
    try (apply extremum_scale; intros; (apply Rmax_scale || apply Rmin_scale); exact HF).
  - destruct (d_point q) as [[p s]|]; reflexivity.
  - f_equal. assert (E := surface_integral_scale AdsorbedHydrogen (factor u (field_unit (d_field q))) (d_id q) (fun p => val (x_function c p)) _ Hval).
    cbn [one_r_r2 extra_metres coordinates_of] in E. rewrite factor_times_metres. replace (d - 1 + 0)%Z with (d - 1)%Z in E by lia.
    etransitivity; [|etransitivity; [exact E|]].
    + apply integral_ext. intros. ring.
    + f_equal. apply integral_ext. intros. ring.
Qed.
End Quantities.
