(** C75: the equations are linear in the test functions; what the nodal equations say about the whole. *)
From Coq Require Import Reals ZArith List Bool String Lra Lia.
From Verif Require Import Base.Exc Base.Dual Model.Materials Model.Laws Model.Theta Model.Forms
  Model.NonlinearProblem Spec.PhysSpec Spec.BalanceSpec Spec.WeakSpec
  Proofs.ThetaProofs Proofs.FormProofs Proofs.BudgetProofs Proofs.WeakProofs Properties.FormProps.
Import ListNotations.
Local Open Scope R_scope.
Local Open Scope list_scope.

(** The residual of a combination of test functions is the combination of the residuals, and an exception does
    not depend on the test functions. *)
Theorem C75_linear {P} (M : mesh P) mb ms T dt traps soret :
  (forall v w e, define_variational_problem M (retest_mobile mb v) ms T dt (retest_traps traps v) soret = Err e ->
     define_variational_problem M (retest_mobile mb w) ms T dt (retest_traps traps w) soret = Err e) /\
  (forall l v r (rs : test_functions P -> R), combination l v ->
     weak_residual M mb ms T dt traps soret v r ->
     (forall q, In q l -> weak_residual M mb ms T dt traps soret (snd q) (rs (snd q))) ->
     r = rsum (map (fun q => fst q * rs (snd q)) l)).
Proof.
  destruct (lr_problem M mb ms T dt soret traps) as [[e0 H]|[G [H HG]]]; cbv beta in H.
  - split; [intros v w e; rewrite !H; auto|].
    intros l v r rs _ [F [HF _]]. rewrite H in HF. discriminate HF.
  - split; [intros v w e; rewrite H; discriminate|].
    intros l v r rs Hc [F [HF <-]] Hrs. rewrite H in HF. injection HF as <-. rewrite (HG l v Hc).
    f_equal. apply map_ext_in. intros q Hq. destruct (Hrs q Hq) as [F [HF <-]]. rewrite H in HF. injection HF as <-.
    reflexivity.
Qed.
Print Assumptions C75_linear.

(** The same for the heat equation and the densities of extrinsic and neutron induced traps. *)
Theorem C75_heat {P} (M : mesh P) transient dt T T_n ms sources bcs l v F :
  combination_field l v ->
  heat_form M transient dt T T_n v ms sources bcs = Ok F ->
  exists Fs : list (form P),
    Forall2 (fun q G => heat_form M transient dt T T_n (snd q) ms sources bcs = Ok G) l Fs /\
    assemble M F = rsum (map (fun x => fst (fst x) * assemble M (snd x)) (combine l Fs)).
Proof.
  intros Hc HF. destruct (lr_heat M transient dt T T_n ms sources bcs) as [[e0 H]|[G [H HG]]]; cbv beta in H.
  - specialize (H (only v)). cbn in H. rewrite H in HF. discriminate HF.
  - exists (map (fun q => G (only (snd q))) l). split.
    + clear - H. induction l as [|q l IH]; cbn; constructor; [apply (H (only (snd q)))|exact IH].
    + pose proof (H (only v)) as Hv. cbn in Hv. rewrite Hv in HF. injection HF as <-.
      rewrite (HG _ _ (combination_only l v Hc)), map_map. cbn. clear.
      unfold rsum. induction l as [|q l IH]; cbn; [reflexivity|]. now rewrite IH.
Qed.
Print Assumptions C75_heat.
Theorem C75_density {P} (M : mesh P) dt phi_0 n_amax n_bmax eta_a eta_b f_a f_b phi K n_max A_0 E_A T n n_prev l v :
  combination_field l v ->
  assemble M (extrinsic_form dt phi_0 n_amax n_bmax eta_a eta_b f_a f_b n n_prev v)
  = rsum (map (fun q => fst q * assemble M (extrinsic_form dt phi_0 n_amax n_bmax eta_a eta_b f_a f_b n n_prev (snd q))) l) /\
  assemble M (neutron_form dt phi K n_max A_0 E_A T n n_prev v)
  = rsum (map (fun q => fst q * assemble M (neutron_form dt phi K n_max A_0 E_A T n n_prev (snd q))) l).
Proof.
  intros Hc. apply combination_only in Hc. split.
  - pose proof (lin_extrinsic M dt phi_0 n_amax n_bmax eta_a eta_b f_a f_b n n_prev _ _ Hc) as H.
    rewrite map_map in H. exact H.
  - pose proof (lin_neutron M dt phi K n_max A_0 E_A T n n_prev _ _ Hc) as H.
    rewrite map_map in H. exact H.
Qed.
Print Assumptions C75_density.

Lemma find_mentioned (b : list (nat * R)) i :
  existsb (fun q => Nat.eqb (fst q) i) b = match find (fun q => Nat.eqb (fst q) i) b with Some _ => true | None => false end.
Proof. induction b as [|q b IH]; [reflexivity|]. cbn. destruct (Nat.eqb (fst q) i); [reflexivity|exact IH]. Qed.
Lemma value_mentioned bcs i : mentioned bcs i = match boundary_value bcs i with Some _ => true | None => false end.
Proof.
  unfold mentioned. induction bcs as [|b r IH]; [reflexivity|]. cbn [existsb boundary_value]. rewrite IH, find_mentioned.
  destruct (boundary_value r i); [apply orb_true_r|]. now destruct (find _ b).
Qed.
Lemma value_imposed bcs i g : imposed bcs i g -> boundary_value bcs i = Some g.
Proof.
  intros (l1 & b & l2 & -> & Hin & Hu & Hl). induction l1 as [|c l1 IH]; cbn [app boundary_value]; [|now rewrite IH].
  rewrite value_mentioned in Hl. destruct (boundary_value l2 i); [discriminate|].
  destruct (find (fun q => Nat.eqb (fst q) i) b) as [[j h]|] eqn:E.
  - apply find_some in E as [E1 E2]. apply Nat.eqb_eq in E2. cbn in E2. subst j. cbn. now rewrite (Hu h E1).
  - apply (find_none _ _ E) in Hin. cbn in Hin. rewrite Nat.eqb_refl in Hin. discriminate.
Qed.
(** The specification decides: a mentioned degree of freedom with one value per condition has an imposed value. *)
Lemma mentioned_imposed bcs i : (forall b, In b bcs -> NoDup (map fst b)) -> mentioned bcs i = true -> exists g, imposed bcs i g.
Proof.
  induction bcs as [|b r IH]; [discriminate|]. intros Hd H. destruct (mentioned r i) eqn:E.
  - destruct (IH (fun c Hc => Hd c (or_intror Hc)) eq_refl) as (g & l1 & c & l2 & -> & Hc). exists g, (b :: l1), c, l2. now split.
  - unfold mentioned in H, E. cbn [existsb] in H. rewrite E, orb_false_r in H. apply existsb_exists in H as ([j g] & Hg & Hj).
    apply Nat.eqb_eq in Hj. cbn in Hj. subst j. exists g, [], b, r. repeat split; [exact Hg| |exact E].
    intros g' Hg'. specialize (Hd b (or_introl eq_refl)). clear -Hd Hg Hg'. induction b as [|[k h] b IH]; [contradiction|].
    cbn in Hd. inversion Hd as [|? ? N D]. subst. destruct Hg as [Hg|Hg], Hg' as [Hg'|Hg'].
    + congruence.
    + injection Hg as -> ->. elim N. change i with (fst (i, g')). now apply in_map.
    + injection Hg' as -> ->. elim N. change i with (fst (i, g)). now apply in_map.
    + now apply IH.
Qed.

Lemma nodal_sum bcs N a r x eps :
  (forall i, (i < N)%nat -> Rabs (problem_F bcs r x i) <= eps) ->
  Rabs (rsum (map (fun i => a i * r i) (seq 0 N)) - reactions bcs N a r)
  <= eps * rsum (map (fun i => Rabs (a i)) (seq 0 N)).
Proof.
  unfold reactions. intros H.
  assert (G : forall l, (forall i, In i l -> (i < N)%nat) ->
    Rabs (rsum (map (fun i => a i * r i) l)
          - rsum (map (fun i => if mentioned bcs i then a i * r i else 0) l))
    <= eps * rsum (map (fun i => Rabs (a i)) l)).
  { induction l as [|i l IH]; intros Hl.
    - cbn. replace (0 - 0) with 0 by ring. rewrite Rabs_R0. lra.
    - cbn [map]. rewrite !rsum_cons.
      set (A := rsum (map (fun i => a i * r i) l)) in *. set (B := rsum (map (fun i => if mentioned bcs i then a i * r i else 0) l)) in *.
      specialize (IH (fun j Hj => Hl j (or_intror Hj))).
      specialize (H i (Hl i (or_introl eq_refl))). unfold problem_F in H.
      assert (He : 0 <= eps) by (eapply Rle_trans; [apply Rabs_pos|exact H]).
      set (C := rsum (map (fun i => Rabs (a i)) l)) in *.
      assert (Hi : 0 <= eps * Rabs (a i)) by (apply Rmult_le_pos; [exact He|apply Rabs_pos]).
      rewrite (value_mentioned bcs i). destruct (boundary_value bcs i).
      + replace (a i * r i + A - (a i * r i + B)) with (A - B) by ring. rewrite Rmult_plus_distr_l. lra.
      + replace (a i * r i + A - (0 + B)) with (a i * r i + (A - B)) by ring.
        eapply Rle_trans; [apply Rabs_triang|]. rewrite Rabs_mult.
        assert (Rabs (a i) * Rabs (r i) <= eps * Rabs (a i)).
        { rewrite Rmult_comm. apply Rmult_le_compat_r; [apply Rabs_pos|exact H]. }
        rewrite Rmult_plus_distr_l. lra. }
  apply G. intros i Hi. apply in_seq in Hi. lia.
Qed.


Lemma nodal_residual {P} (M : mesh P) mb ms T dt traps soret c c_n N a basis v r :
  covered M ms -> concentrations M mb T ms c c_n -> solubility_field M mb T ms -> positive_temperature M T ->
  off_axis M -> whole M v -> spanned N a basis v -> (0 < N)%nat ->
  (forall i, (i < N)%nat -> weak_residual M mb ms T dt traps soret (basis i) (r i)) ->
  rsum (map (fun i => a i * r i) (seq 0 N))
  = match dt with
    | Some dt => (inventory M c traps - inventory_before M c_n traps) / dt
                 + sum_over (mb_bcs mb) (surface_rate M dt c (fun p => val (mb_previous mb p)))
    | None => sum_over traps (outside M ms)
    end - supply M T c mb traps.
Proof.
  intros Hcov Hc HS HT Hr Hv Hsp HN Hres.
  destruct (lr_problem M mb ms T dt soret traps) as [[e0 H]|[G [H HG]]]; cbv beta in H.
  - destruct (Hres 0%nat HN) as [F [HF _]]. rewrite H in HF. discriminate HF.
  - pose proof (balance M (retest_mobile mb v) ms T dt (retest_traps traps v) soret c c_n (G v) Hcov Hc HS HT
                  (whole_tests M mb traps v Hv) Hr (H v)) as E.
    rewrite inventory_retest, before_retest, supply_retest, outside_retest in E.
    assert (S_ : forall d, sum_over (mb_bcs (retest_mobile mb v)) (surface_rate M d c (fun p => val (mb_previous (retest_mobile mb v) p)))
                 = sum_over (mb_bcs mb) (surface_rate M d c (fun p => val (mb_previous mb p)))) by (intros; apply surface_retest).
    assert (E' : assemble M (G v) = rsum (map (fun i => a i * r i) (seq 0 N))).
    { rewrite (HG _ _ Hsp), map_map. cbn [fst snd]. f_equal. apply map_ext_in. intros i Hi. apply in_seq in Hi.
      destruct (Hres i) as [F [HF <-]]; [lia|]. rewrite H in HF. injection HF as <-. reflexivity. }
    rewrite <- E', E. destruct dt as [d|]; [rewrite S_|]; reflexivity.
Qed.

(** A vector on which every entry of Problem.F is at most eps in absolute value (what the Newton solver stops
    on; eps = 0 for an exact solution): the Dirichlet values are met within eps, and hydrogen is conserved up to
    eps times the sum of the |a_i|, what enters at the constrained nodes being the reactions there. *)
Theorem C75_balance {P} (M : mesh P) mb ms T dt traps soret c c_n N a basis v bcs r x eps :
  covered M ms -> concentrations M mb T ms c c_n -> solubility_field M mb T ms -> positive_temperature M T ->
  off_axis M -> whole M v -> spanned N a basis v -> (0 < N)%nat ->
  (forall i, (i < N)%nat -> weak_residual M mb ms T (Some dt) traps soret (basis i) (r i)) ->
  (forall i, (i < N)%nat -> Rabs (problem_F bcs r x i) <= eps) ->
  (forall i g, (i < N)%nat -> imposed bcs i g -> Rabs (x i - g) <= eps) /\
  Rabs ((inventory M c traps - inventory_before M c_n traps) / dt
        + sum_over (mb_bcs mb) (surface_rate M dt c (fun p => val (mb_previous mb p)))
        - supply M T c mb traps - reactions bcs N a r)
  <= eps * rsum (map (fun i => Rabs (a i)) (seq 0 N)).
Proof.
  intros Hcov Hc HS HT Hr Hv Hsp HN Hres Heps. split.
  - intros i g Hi Hg. specialize (Heps i Hi). unfold problem_F in Heps. rewrite (value_imposed _ _ _ Hg) in Heps. exact Heps.
  - rewrite <- (nodal_residual M mb ms T (Some dt) traps soret c c_n N a basis v r) by assumption.
    apply (nodal_sum bcs N a r x eps Heps).
Qed.
Print Assumptions C75_balance.

(** The same in steady state. *)
Theorem C75_steady {P} (M : mesh P) mb ms T traps soret c c_n N a basis v bcs r x eps :
  covered M ms -> concentrations M mb T ms c c_n -> solubility_field M mb T ms -> positive_temperature M T ->
  off_axis M -> whole M v -> spanned N a basis v -> (0 < N)%nat ->
  (forall i, (i < N)%nat -> weak_residual M mb ms T None traps soret (basis i) (r i)) ->
  (forall i, (i < N)%nat -> Rabs (problem_F bcs r x i) <= eps) ->
  Rabs (sum_over traps (outside M ms) - supply M T c mb traps - reactions bcs N a r)
  <= eps * rsum (map (fun i => Rabs (a i)) (seq 0 N)).
Proof.
  intros Hcov Hc HS HT Hr Hv Hsp HN Hres Heps.
  rewrite <- (nodal_residual M mb ms T None traps soret c c_n N a basis v r) by assumption.
  apply (nodal_sum bcs N a r x eps Heps).
Qed.
Print Assumptions C75_steady.

(** Over a run: the drift of the inventory is at most the sum of dt * eps times the sum of the |a_i|. *)
Theorem C75_run {P} (M : mesh P) ms soret N a basis v (s : nat -> nodal_step P) :
  covered M ms -> off_axis M -> whole M v -> spanned N a basis v -> (0 < N)%nat ->
  (forall k, nodal_solved M ms soret N basis (s k)) ->
  (forall k, chained (ns_state (s k)) (ns_state (s (S k)))) ->
  forall n,
    Rabs (inventory M (st_c (ns_state (s n))) (st_traps (ns_state (s n)))
          - inventory_before M (st_cn (ns_state (s 0%nat))) (st_traps (ns_state (s 0%nat)))
          - sum_over (seq 0 (S n)) (fun k =>
              let st := ns_state (s k) in
              st_dt st * (supply M (st_T st) (st_c st) (st_mb st) (st_traps st)
                          + reactions (ns_bcs (s k)) N a (ns_r (s k)))))
    <= sum_over (seq 0 (S n)) (fun k => st_dt (ns_state (s k)) * ns_eps (s k))
       * rsum (map (fun i => Rabs (a i)) (seq 0 N)).
Proof.
  intros Hcov Hr Hv Hsp HN Hs Hch.
  set (A := rsum (map (fun i => Rabs (a i)) (seq 0 N))).
  set (I := fun k => inventory M (st_c (ns_state (s k))) (st_traps (ns_state (s k)))).
  set (J := fun k => inventory_before M (st_cn (ns_state (s k))) (st_traps (ns_state (s k)))).
  set (Q := fun k => supply M (st_T (ns_state (s k))) (st_c (ns_state (s k))) (st_mb (ns_state (s k))) (st_traps (ns_state (s k)))
                     + reactions (ns_bcs (s k)) N a (ns_r (s k))).
  assert (Hstep : forall k, Rabs (I k - J k - st_dt (ns_state (s k)) * Q k) <= st_dt (ns_state (s k)) * ns_eps (s k) * A).
  { intros k. destruct (Hs k) as (Hc & HS & HT & Hsk & Hdt & Hres & Heps).
    destruct (C75_balance M _ ms _ _ _ soret _ _ N a basis v (ns_bcs (s k)) (ns_r (s k)) (ns_x (s k)) (ns_eps (s k))
                Hcov Hc HS HT Hr Hv Hsp HN Hres Heps) as [_ E].
    rewrite (rsum_map_zero _ (surface_rate M (st_dt (ns_state (s k))) (st_c (ns_state (s k))) _)) in E || idtac.
    assert (Z : sum_over (mb_bcs (st_mb (ns_state (s k)))) (surface_rate M (st_dt (ns_state (s k))) (st_c (ns_state (s k)))
                  (fun p => val (mb_previous (st_mb (ns_state (s k))) p))) = 0).
    { apply rsum_map_zero. intros b Hb. destruct b as [ft l f|sk]; [reflexivity|]. exfalso. apply (Hsk sk Hb). }
    rewrite Z in E. fold (I k) in E. fold (J k) in E. fold A in E.
    set (d := st_dt (ns_state (s k))) in *.
    replace (I k - J k - d * Q k) with (d * ((I k - J k) / d + 0 - supply M (st_T (ns_state (s k))) (st_c (ns_state (s k))) (st_mb (ns_state (s k))) (st_traps (ns_state (s k))) - reactions (ns_bcs (s k)) N a (ns_r (s k)))).
    - rewrite Rabs_mult, (Rabs_right d) by lra. rewrite Rmult_assoc. apply Rmult_le_compat_l; [lra|exact E].
    - unfold Q. field. lra. }
  assert (Hc : forall k, J (S k) = I k).
  { intros k. apply (chained_before M ms); auto; apply Hs. }
  intros n. induction n as [|n IH].
  - unfold sum_over. cbn [seq map]. rewrite !rsum_cons, !rsum_nil, !Rplus_0_r. apply Hstep.
  - fold (I n) in IH. fold (J 0%nat) in IH |- *. fold (I (S n)).
    assert (E : seq 0 (S (S n)) = seq 0 (S n) ++ [S n]) by (rewrite (seq_S (S n) 0); reflexivity).
    rewrite E. unfold sum_over in *. rewrite !(map_app _ (seq 0 (S n))), !rsum_app.
    cbn [map]. rewrite !rsum_cons, !rsum_nil. fold (Q (S n)).
    specialize (Hstep (S n)). rewrite Hc in Hstep. cbv zeta in IH |- *.
    set (X := rsum (map _ (seq 0 (S n)))) in *. set (Y := rsum (map (fun k => st_dt (ns_state (s k)) * ns_eps (s k)) (seq 0 (S n)))) in *.
    set (d := st_dt (ns_state (s (S n)))) in *.
    change (supply M (st_T (ns_state (s (S n)))) (st_c (ns_state (s (S n)))) (st_mb (ns_state (s (S n)))) (st_traps (ns_state (s (S n))))
            + reactions (ns_bcs (s (S n))) N a (ns_r (s (S n)))) with (Q (S n)).
    replace (I (S n) - J 0%nat - (X + (d * Q (S n) + 0)))
      with ((I n - J 0%nat - X) + (I (S n) - I n - d * Q (S n))) by ring.
    eapply Rle_trans; [apply Rabs_triang|]. lra.
Qed.
Print Assumptions C75_run.

(** Elements whose functions reproduce 1 and the first coordinate x0 (Lagrange elements of degree one: all the
    coefficients are 1, or the coordinates X of the nodes) contain the volume element in Cartesian and
    cylindrical coordinates. *)
Theorem C75_elements {P} (M : mesh P) N X basis :
  q_type M <> Spherical ->
  spanned N (fun _ => 1) basis (everywhere (fun _ => dconst 1)) ->
  spanned N X basis (everywhere (fun p => dcoord0 (q_x0 M p))) ->
  exists a v, whole M v /\ spanned N a basis v.
Proof.
  intros Hs H1 HX. destruct (q_type M) eqn:Hty; [| |congruence].
  - exists (fun _ => 1), (everywhere (fun _ => dconst 1)). split; [|exact H1].
    unfold whole, is_weight, weight. rewrite Hty. cbn. repeat split.
  - exists X, (everywhere (fun p => dcoord0 (q_x0 M p))). split; [|exact HX].
    unfold whole, is_weight, weight. rewrite Hty. cbn. repeat split.
Qed.
Print Assumptions C75_elements.

(** ** Examples: one cell [1, 2], Simpson's rule, the two affine functions. *)
Definition simpson_x (p : nat) : R := match p with 0%nat | 3%nat => 1 | 1%nat => 3 / 2 | _ => 2 end.
Definition simpson (ty : mesh_type) : mesh nat :=
  mkMesh [0; 1; 2]%nat [3; 4]%nat (fun p => match p with 0%nat | 2%nat => 1 / 6 | 1%nat => 2 / 3 | _ => 1 end)
    (fun _ => 1%Z) (fun p => match p with 3%nat => 1%Z | _ => 2%Z end) simpson_x 1 ty.
Definition affine (y0 y1 : R) : field nat :=
  fun p => mkDual (y0 * (2 - simpson_x p) + y1 * (simpson_x p - 1))
                  (fun i => match i with O => y1 - y0 | S _ => 0 end).
Definition hat (i : nat) : test_functions nat :=
  everywhere (match i with O => affine 1 0 | _ => affine 0 1 end).
Definition mat_s : mat :=
  mkMaterial (IdOne 1) None (Const 1) (Const 0) None None None None None BNone None Sievert.
Definition mats_s : list mat_obj := [mkMatObj 0 mat_s].
Definition T_s : temperature nat := mkTemp (fun _ => dconst 400) (fun _ => dconst 400).
Definition mobile_s (c c_n : field nat) : mobile nat := mkMobile ClassMobile c c_n (fun _ => dconst 0) [] [].

Lemma hat_one ty : spanned 2 (fun _ => 1) hat (everywhere (fun _ => dconst 1)) /\
  spanned 2 (fun i => match i with O => 1 | _ => 2 end) hat (everywhere (fun p => dcoord0 (q_x0 (simpson ty) p))).
Proof.
  split; (split; [|split]); intros; intros p; cbn; (split; [ring|intros [|k]; cbn; ring]).
Qed.
Lemma covered_s ty : covered (simpson ty) mats_s.
Proof. split; [constructor; [intros []|constructor]|]. intros p _. cbn. auto. Qed.
Lemma D_s t : exp (- 0 / k_B / t) = 1.
Proof. replace (- 0 / k_B / t) with 0 by (unfold Rdiv; ring). apply exp_0. Qed.

(** A Dirichlet condition at the first node: 2 there, 13/8 at the other; 13/16 enters. *)
Example C75_example :
  let M := simpson Cartesian in
  let mb := mobile_s (affine 2 (13 / 8)) (affine 1 1) in
  let bcs := [[(0%nat, 2)]] in
  let r i := match i with O => 13 / 16 | _ => 0 end in
  let x i := match i with O => 2 | _ => 13 / 8 end in
  covered M mats_s /\ concentrations M mb T_s mats_s (fun p => val (affine 2 (13 / 8) p)) (fun p => val (affine 1 1 p)) /\
  solubility_field M mb T_s mats_s /\ positive_temperature M T_s /\ off_axis M /\
  whole M (everywhere (fun _ => dconst 1)) /\ spanned 2 (fun _ => 1) hat (everywhere (fun _ => dconst 1)) /\
  (forall i, (i < 2)%nat -> weak_residual M mb mats_s T_s (Some 1) [] false (hat i) (r i)) /\
  (forall i, (i < 2)%nat -> Rabs (problem_F bcs r x i) <= 0) /\
  reactions bcs 2 (fun _ => 1) r = 13 / 16.
Proof.
  intros M mb bcs r x. split; [apply covered_s|]. split; [intros p _ m _ _; split; reflexivity|].
  split; [exact I|]. split; [intros p _; cbn; lra|]. split; [left; reflexivity|].
  split; [split; [|split]; [intros p; split; reflexivity|reflexivity|reflexivity]|].
  split; [apply (hat_one Cartesian)|]. split; [|split].
  - intros i Hi. eexists. split; [reflexivity|]. destruct i as [|[|i]]; [| |lia];
      unfold assemble, integral, rsum, dot; cbn; rewrite !D_s; unfold r, rsum; cbn; lra.
  - intros i Hi. destruct i as [|[|i]]; [| |lia]; unfold problem_F, r, x; cbn.
    + replace (2 - 2) with 0 by ring. rewrite Rabs_R0. lra.
    + rewrite Rabs_R0. lra.
  - unfold reactions, r, rsum. cbn. lra.
Qed.

(** In spherical coordinates r^2 is not a combination of these functions: the equations of both nodes hold, there
    is no source and no flux, and the inventory changes. *)
Theorem C75_spherical_refuted :
  let M := simpson Spherical in
  let c := affine 1 2 in
  let c_n := affine (1 - 71 / 9) (2 + 46 / 9) in
  let mb := mobile_s c c_n in
  spanned 2 (fun _ => 1) hat (everywhere (fun _ => dconst 1)) /\
  spanned 2 (fun i => match i with O => 1 | _ => 2 end) hat (everywhere (fun p => dcoord0 (q_x0 M p))) /\
  (forall i, (i < 2)%nat -> weak_residual M mb mats_s T_s (Some 1) [] false (hat i) 0) /\
  supply M T_s (fun p => val (c p)) mb [] = 0 /\
  inventory M (fun p => val (c p)) [] - inventory_before M (fun p => val (c_n p)) [] = - 1 / 108.
Proof.
  intros M c c_n mb. split; [apply (hat_one Spherical)|]. split; [apply (hat_one Spherical)|]. split; [|split].
  - intros i Hi. eexists. split; [reflexivity|]. destruct i as [|[|i]]; [| |lia];
      unfold assemble, integral, rsum, dot; cbn; rewrite !D_s; unfold rsum; cbn; field.
  - unfold supply, sum_over, rsum. cbn. ring.
  - unfold inventory, inventory_before, total, wsum, weight, sum_over, rsum, c, c_n. cbn. field.
Qed.
Print Assumptions C75_spherical_refuted.

(** Two conditions mention the first node: the value of the last one is imposed. *)
Example C75_imposed_example :
  let bcs := [[(0%nat, 5); (1%nat, 3)]; [(0%nat, 2)]] in
  imposed bcs 0 2 /\ imposed bcs 1 3 /\ (forall r x, Rabs (problem_F bcs r x 0) <= 0 -> x 0%nat = 2).
Proof.
  intros bcs. assert (H : imposed bcs 0 2).
  { exists [[(0%nat, 5); (1%nat, 3)]], [(0%nat, 2)], []. split; [reflexivity|]. split; [now left|].
    split; [intros g [E|[]]; now injection E|reflexivity]. }
  split; [exact H|]. split.
  { exists [], [(0%nat, 5); (1%nat, 3)], [[(0%nat, 2)]]. split; [reflexivity|]. split; [right; now left|].
    split; [intros g [E|[E|[]]]; [discriminate|now injection E]|reflexivity]. }
  intros r x Hr. unfold problem_F in Hr. rewrite (value_imposed _ _ _ H) in Hr. pose proof (Rabs_pos (x 0%nat - 2)).
  assert (E : x 0%nat - 2 = 0); [|lra]. destruct (Req_dec (x 0%nat - 2) 0) as [E|E]; [exact E|]. apply Rabs_pos_lt in E. lra.
Qed.

(** C75_run: at rest, with a Dirichlet condition and a tolerance. *)
Definition rest_step : nodal_step nat :=
  mkNodal (mkStep (mobile_s (affine 2 2) (affine 2 2)) T_s [] 1 (fun p => val (affine 2 2 p))
             (fun p => val (affine 2 2 p)) [])
    [[(0%nat, 2)]] (fun _ => 0) (fun _ => 2) (1 / 1000).
Example C75_run_example :
  nodal_solved (simpson Cartesian) mats_s false 2 hat rest_step /\ chained (ns_state rest_step) (ns_state rest_step) /\
  inventory (simpson Cartesian) (st_c (ns_state rest_step)) [] = 2.
Proof.
  split; [|split].
  - repeat split.
    + cbn; lra.
    + cbn; lra.
    + intros s [].
    + cbn; lra.
    + intros i Hi. eexists. split; [reflexivity|]. destruct i as [|[|i]]; [| |lia];
        unfold assemble, integral, rsum, dot; cbn; rewrite !D_s; unfold rsum; cbn; lra.
    + intros i Hi. destruct i as [|[|i]]; [| |lia]; unfold problem_F; cbn;
        [replace (2 - 2) with 0 by ring|]; rewrite Rabs_R0; lra.
  - repeat split. constructor.
  - unfold inventory, total, wsum, weight, sum_over, rsum. cbn. lra.
Qed.

(** C75_heat, C75_density: 1 is the sum of the two affine functions. *)
Example C75_heat_example :
  combination_field [(1, affine 1 0); (1, affine 0 1)] (affine 1 1) /\
  (exists F, heat_form (simpson Cylindrical) true 1 (affine 300 400) (affine 300 300) (affine 1 1)
               [mkMatObj 0 (mkMaterial (IdOne 1) None (Const 1) (Const 0) None None (Some (Const 3))
                              (Some (Const 5)) (Some (Const 7)) BNone None Sievert)]
               [mkSource (IdOne 1) (fun _ => 2) None]
               [([1%Z], ConvectiveFlux (fun _ => 4) (fun _ => 350))] = Ok F /\ assemble (simpson Cylindrical) F <> 0).
Proof.
  split.
  - intros p. cbn. split; [ring|]. intros [|i]; cbn; ring.
  - eexists. split; [reflexivity|]. unfold assemble, integral, rsum, dot; cbn; unfold rsum; cbn.
    unfold convective_form. lra.
Qed.
