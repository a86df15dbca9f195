(** C37-C42, C47: what the variational formulations conserve, and bounds on their solutions. *)
From Coq Require Import Reals ZArith List Bool Lra Lia Psatz.
From Verif Require Import Base.Exc Base.Dual Model.Materials Model.Laws Model.Theta Model.Forms
  Spec.PhysSpec Spec.BalanceSpec Proofs.LawProofs Proofs.ThetaProofs Proofs.FormProofs Proofs.TrapProofs.
Import ListNotations.
Local Open Scope R_scope.
Local Open Scope list_scope.

(** * C37 *)

(** The equations tested with 1: mobile and trapped hydrogen change by the sources and the fluxes. *)
Theorem C37_balance {P} (M : mesh P) mb ms T dt traps soret c c_n F :
  q_type M = Cartesian -> covered M ms -> concentrations M mb T ms c c_n -> solubility_field M mb T ms ->
  positive_temperature M T -> tests M mb traps -> no_surface_kinetics mb -> 0 < dt ->
  define_variational_problem M mb ms T (Some dt) traps soret = Ok F ->
  assemble M F = (inventory M c traps - inventory_before M c_n traps) / dt - supply M T c mb traps /\
  (assemble M F = 0 <->
   inventory M c traps = inventory_before M c_n traps + dt * supply M T c mb traps).
Proof.
  intros Hty Hcov Hc HS HT Ht Hsk Hdt HF.
  assert (E := balance M mb ms T (Some dt) traps soret c c_n F Hcov Hc HS HT Ht (or_introl Hty) HF).
  cbv beta iota in E.
  assert (Z : sum_over (mb_bcs mb) (surface_rate M dt c (fun p => val (mb_previous mb p))) = 0).
  { apply rsum_map_zero. intros b Hb. destruct b as [ft l f|s]; [reflexivity|]. exfalso. apply (Hsk s Hb). }
  rewrite Z, Rplus_0_r in E. split; [exact E|]. rewrite E. clear E Z.
  set (I := inventory M c traps). set (J := inventory_before M c_n traps). set (S := supply M T c mb traps).
  split; intros H.
  - assert (K : (I - J) / dt = S) by lra. rewrite <- K. field. lra.
  - rewrite H. field. lra.
Qed.
Print Assumptions C37_balance.

(** In steady state the sources and the fluxes cancel, where each trap is confined to its materials. *)
Theorem C37_steady {P} (M : mesh P) mb ms T traps soret c c_n F :
  q_type M = Cartesian -> covered M ms -> concentrations M mb T ms c c_n -> solubility_field M mb T ms ->
  positive_temperature M T -> tests M mb traps ->
  define_variational_problem M mb ms T None traps soret = Ok F ->
  assemble M F = sum_over traps (outside M ms) - supply M T c mb traps.
Proof.
  intros Hty Hcov Hc HS HT Ht HF.
  exact (balance M mb ms T None traps soret c c_n F Hcov Hc HS HT Ht (or_introl Hty) HF).
Qed.
Print Assumptions C37_steady.

(** Locally: with any common test function, adding a trap takes from the mobile equation exactly what
    the trapping terms add to the equation of the trap. *)
Theorem C37_exchange {P} (M : mesh P) mb ms T dt t traps soret F F' G :
  (forall p, In p (q_cells M) -> val (t_test t p) = val (mb_test mb p)) ->
  create_diffusion_form M mb ms T (Some dt) (t :: traps) soret = Ok F ->
  create_diffusion_form M mb ms T (Some dt) traps soret = Ok F' ->
  create_trapping_form mb ms T (Some dt) t = Ok G ->
  assemble M F' - assemble M F
  = assemble M G - integral M DxAll (fun p => (val (t_solution t p) - val (t_previous t p)) / dt * val (mb_test mb p)).
Proof.
  intros Ht. unfold create_diffusion_form, create_trapping_form. cbn [sum_forms].
  destruct (sum_forms (material_form M mb T (Some dt) soret) ms) as [F1|e]; cbn [bind]; [|discriminate].
  destruct (sum_forms_enum (mobile_trapping_terms mb T t) 0 (t_materials t)) as [K|e] eqn:HK; cbn [bind]; [|discriminate].
  match goal with |- bind (bind ?x _) _ = _ -> _ => destruct x as [F2|e] eqn:HF2 end; cbn [bind]; [|discriminate].
  destruct (sum_forms_enum (trapping_terms mb T t) 0 (t_materials t)) as [L|e] eqn:HL; cbn [bind]; [|discriminate].
  intros HF HF' HG. apply Ok_inj in HF, HF', HG. subst F F' G.
  rewrite !assemble_app, !assemble_neg, !assemble_app, assemble_cons, assemble_nil. cbn [fst snd].
  rewrite (sum_forms_enum_rel M _ _ _ _ _ _ HK HL).
  - rewrite (integral_ext M DxAll _ (fun p => (val (t_solution t p) - val (t_previous t p)) / dt * val (mb_test mb p))).
    + ring.
    + intros p Hp. rewrite Ht; [reflexivity|exact Hp].
  - intros j m K' L' _ HK' HL'. exact (trapping_cancel M mb T t j m K' L' Ht HK' HL').
Qed.
Print Assumptions C37_exchange.

(** Over any number of steps, each solved and starting from the fields of the one before. *)
Theorem C37_run {P} (M : mesh P) ms soret (s : nat -> step_state P) :
  q_type M = Cartesian -> covered M ms ->
  (forall k, solved M ms soret (s k)) -> (forall k, chained (s k) (s (S k))) ->
  forall n,
    inventory M (st_c (s n)) (st_traps (s n))
    = inventory_before M (st_cn (s 0%nat)) (st_traps (s 0%nat))
      + sum_over (seq 0 (S n)) (fun k => st_dt (s k) * supply M (st_T (s k)) (st_c (s k)) (st_mb (s k)) (st_traps (s k))).
Proof.
  intros Hty Hcov Hs Hch n.
  assert (Hstep : forall k, inventory M (st_c (s k)) (st_traps (s k))
     = inventory_before M (st_cn (s k)) (st_traps (s k))
       + st_dt (s k) * supply M (st_T (s k)) (st_c (s k)) (st_mb (s k)) (st_traps (s k))).
  { intros k. destruct (Hs k) as [Hc [HS [HT [Ht [Hsk [Hdt [HF H0]]]]]]].
    apply (C37_balance M (st_mb (s k)) ms (st_T (s k)) (st_dt (s k)) (st_traps (s k)) soret (st_c (s k)) (st_cn (s k)) (st_form (s k)));
      assumption. }
  induction n as [|n IH].
  - unfold sum_over. cbn [seq map]. rewrite rsum_cons, rsum_nil, Rplus_0_r. apply Hstep.
  - rewrite Hstep, (chained_inventory M ms soret (s n) (s (S n)) Hcov (Hs n) (Hs (S n)) (Hch n)), IH.
    assert (E : seq 0 (S (S n)) = seq 0 (S n) ++ [S n]) by (rewrite (seq_S (S n) 0); reflexivity).
    rewrite E. unfold sum_over. rewrite (map_app _ (seq 0 (S n))), rsum_app. cbn [map]. rewrite !rsum_cons, rsum_nil.
    ring.
Qed.
Print Assumptions C37_run.

Ltac sums := unfold supply, inventory, inventory_before, stock, stock_before, surface_rate, source_rate, flux_rate,
  total, total_in, total_on, wsum, sum_over, rsum, weight; cbn; lra.

(** ** An example: two cells in two materials, two boundary points. *)
Definition mat_1 : mat :=
  mkMaterial (IdOne 1) None (Const 1) (Const (1/10)) (Some (Const 2)) (Some (Const 0)) (Some (Const 3))
    (Some (Const 5)) (Some (Const 7)) BNone None Sievert.
Definition mat_2 : mat :=
  mkMaterial (IdOne 2) None (Const 4) (Const (2/10)) (Some (Const 3)) (Some (Const 0)) (Some (Const 3))
    (Some (Const 11)) (Some (Const 13)) BNone None Sievert.
Definition two_mats : list mat_obj := [mkMatObj 0 mat_1; mkMatObj 1 mat_2].
Definition mesh_ty (ty : mesh_type) : mesh nat :=
  mkMesh [1; 2]%nat [3; 4]%nat (fun _ => 1 / 2)
    (fun p => match p with 1%nat | 3%nat => 1%Z | _ => 2%Z end)
    (fun p => match p with 3%nat => 1%Z | _ => 2%Z end) (fun p => INR p) 1 ty.
Definition ones : field nat := fun _ => dconst 1.
Definition T400 : temperature nat := mkTemp (fun _ => dconst 400) (fun _ => dconst 300).
Definition trap_1 (test : field nat) (ss : list (source nat)) : trap nat :=
  mkTrap (Scalar 6) (Scalar (1/10)) (Scalar 8) (Scalar (2/10)) [fun _ => 9] [mkMatObj 0 mat_1]
    (fun _ => dconst 5) (fun _ => dconst 4) test ss.
Definition mobile_1 (cl : mobile_class nat) (test : field nat) (ss : list (source nat)) (bcs : list (bc nat)) : mobile nat :=
  mkMobile cl (fun p => mkDual (INR p) (fun _ => 1)) (fun _ => dconst 1) test ss bcs.
Definition bcs_1 : list (bc nat) :=
  [BFlux false [1%Z] (RecombinationFlux (fun _ => 2) (fun _ => 1/10) (EInt 2)); BFlux true [1%Z] (FluxBC (fun _ => 1));
   BFlux false [2%Z] (MassFlux (fun _ => 3) (fun _ => 4))].
Definition sources_1 : list (source nat) :=
  [mkSource (IdMany [1; 2]%Z) (fun _ => 3) None; mkSource (IdOne 2) (fun _ => 0) (Some 2)].

Lemma covered_ty ty : covered (mesh_ty ty) two_mats.
Proof.
  split.
  - cbn. constructor; [intros [H|[]]; discriminate|]. constructor; [intros []|constructor].
  - intros p H. assert (Hp : p = 1%nat \/ p = 2%nat \/ p = 3%nat \/ p = 4%nat).
    { cbn in H. lia. }
    destruct Hp as [ -> | [ -> | [ -> | -> ] ] ]; cbn; auto.
Qed.
Lemma T400_pos M : positive_temperature M T400.
Proof. intros p _. cbn. lra. Qed.

Lemma cart_ones M : q_type M = Cartesian -> is_weight M ones.
Proof.
  intros H p. unfold weight. rewrite H. split; [reflexivity|]. intros i. reflexivity.
Qed.
Lemma concentrations_mobile M test ss bcs :
  concentrations M (mobile_1 ClassMobile test ss bcs) T400 two_mats (fun p => INR p) (fun _ => 1).
Proof. intros p _ m _ _. split; reflexivity. Qed.

Example C37_example :
  let M := mesh_ty Cartesian in
  let mb := mobile_1 ClassMobile ones sources_1 bcs_1 in
  let traps := [trap_1 ones [mkSource (IdOne 1) (fun _ => 2) None]] in
  q_type M = Cartesian /\ covered M two_mats /\
  concentrations M mb T400 two_mats (fun p => INR p) (fun _ => 1) /\ solubility_field M mb T400 two_mats /\
  positive_temperature M T400 /\ tests M mb traps /\ no_surface_kinetics mb /\
  (exists F, define_variational_problem M mb two_mats T400 (Some 2) traps false = Ok F) /\
  (exists F, define_variational_problem M mb two_mats T400 None traps false = Ok F) /\
  inventory M (fun p => INR p) traps = 13 / 2 /\ inventory_before M (fun _ => 1) traps = 5.
Proof.
  intros M mb traps. split; [reflexivity|]. split; [apply covered_ty|]. split; [apply concentrations_mobile|].
  split; [exact I|]. split; [apply T400_pos|]. split; [|split; [|split; [|split; [|split]]]].
  - split; [now apply cart_ones|split].
    + intros t [<-|[]] p _. reflexivity.
    + intros s a [H|[H|[H|[]]]]; discriminate.
  - intros s [H|[H|[H|[]]]]; discriminate.
  - eexists. reflexivity.
  - eexists. reflexivity.
  - subst M traps. sums.
  - subst M traps. sums.
Qed.

(** The chemical potential: the solubilities are 2 and 3 (E_S = 0). *)
Lemma arrhenius_0 A T : arrhenius A 0 T = A.
Proof. unfold arrhenius. replace (0 / (boltzmann * T)) with 0 by (unfold Rdiv; ring). rewrite exp_0. field. Qed.
Definition S_field (p : nat) : R := match p with 1%nat | 3%nat => 2 | _ => 3 end.
Definition theta_class : mobile_class nat := ClassTheta S_field [mat_1; mat_2].
Definition theta_c (u : R) (p : nat) : R := u * S_field p.
Lemma mats_of p m : In p [1; 2; 3; 4]%nat -> In m two_mats ->
  In (q_volume (mesh_ty Cartesian) p) (ids (m_id (attrs m))) ->
  m_law (attrs m) = Sievert /\ m_S0 (attrs m) = Some (Const (S_field p)) /\ m_ES (attrs m) = Some (Const 0).
Proof.
  intros Hp [<-|[<-|[]]] Hz; cbn in Hp, Hz; destruct Hp as [<-|[<-|[<-|[<-|[]]]]]; cbn in Hz;
    destruct Hz as [Hz|[]]; try discriminate Hz; repeat split; reflexivity.
Qed.
Lemma concentrations_theta test ss bcs :
  concentrations (mesh_ty Cartesian) (mobile_1 theta_class test ss bcs) T400 two_mats
    (fun p => theta_c (INR p) p) (theta_c 1).
Proof.
  intros p Hp m Hm Hz. assert (Hp' : In p [1; 2; 3; 4]%nat) by (cbn in Hp |- *; lia).
  destruct (mats_of p m Hp' Hm Hz) as [Hl [HS HE]]. cbn [concentration_at mobile_1 mb_class theta_class].
  exists (S_field p), 0. rewrite Hl, !arrhenius_0. repeat split; assumption.
Qed.
Lemma solubility_theta test ss bcs :
  solubility_field (mesh_ty Cartesian) (mobile_1 theta_class test ss bcs) T400 two_mats.
Proof.
  cbn [solubility_field mobile_1 mb_class theta_class]. split; [reflexivity|]. intros p Hp m Hm Hz.
  assert (Hp' : In p [1; 2; 3; 4]%nat) by (cbn in Hp |- *; lia).
  destruct (mats_of p m Hp' Hm Hz) as [Hl [HS HE]]. exists (S_field p), 0. rewrite arrhenius_0. auto.
Qed.
Example C37_example_theta :
  let M := mesh_ty Cartesian in
  let mb := mobile_1 theta_class ones sources_1 bcs_1 in
  concentrations M mb T400 two_mats (fun p => theta_c (INR p) p) (theta_c 1) /\
  solubility_field M mb T400 two_mats /\
  (exists F, define_variational_problem M mb two_mats T400 (Some 2) [trap_1 ones []] false = Ok F).
Proof. intros M mb. split; [apply concentrations_theta|]. split; [apply solubility_theta|]. eexists. reflexivity. Qed.

(** The hypotheses of C37_run: a closed system at rest. *)
Definition rest_trap : trap nat :=
  mkTrap (Scalar 6) (Scalar (1/10)) (Scalar 8) (Scalar (2/10)) [fun _ => 9] [mkMatObj 0 mat_1]
    (fun _ => dconst 4) (fun _ => dconst 4) ones [].
Definition rest_mobile : mobile nat :=
  mkMobile ClassMobile (fun _ => dconst 1) (fun _ => dconst 1) ones [] [].
Definition T_rest : temperature nat := mkTemp (fun _ => dconst 400) (fun _ => dconst 400).
Definition rest_form : form nat :=
  match define_variational_problem (mesh_ty Cartesian) rest_mobile two_mats T_rest (Some 2) [rest_trap] false with
  | Ok F => F
  | Err _ => []
  end.
Definition rest : step_state nat :=
  mkStep rest_mobile T_rest [rest_trap] 2 (fun _ => 1) (fun _ => 1) rest_form.
Example C37_run_example : solved (mesh_ty Cartesian) two_mats false rest /\ chained rest rest.
Proof.
  assert (Ht : tests (mesh_ty Cartesian) rest_mobile [rest_trap]).
  { split; [now apply cart_ones|]. split.
    - intros t [<-|[]] p _. reflexivity.
    - intros s a []. }
  assert (HF : define_variational_problem (mesh_ty Cartesian) rest_mobile two_mats T_rest (Some 2) [rest_trap] false
               = Ok rest_form) by reflexivity.
  assert (Hc : concentrations (mesh_ty Cartesian) rest_mobile T_rest two_mats (fun _ => 1) (fun _ => 1)).
  { intros p _ m _ _. split; reflexivity. }
  assert (HT : positive_temperature (mesh_ty Cartesian) T_rest) by (intros p _; cbn; lra).
  split.
  - split; [exact Hc|]. split; [exact I|]. split; [exact HT|]. split; [exact Ht|]. split; [intros s []|].
    split; [cbn; lra|]. split; [exact HF|].
    destruct (C37_balance (mesh_ty Cartesian) rest_mobile two_mats T_rest 2 [rest_trap] false (fun _ => 1) (fun _ => 1)
                rest_form eq_refl (covered_ty _) Hc I HT Ht ltac:(intros s []) ltac:(lra) HF) as [E _].
    cbn [st_form rest]. rewrite E. sums.
  - split; [exact I|]. split; [reflexivity|]. split; [reflexivity|].
    constructor; [reflexivity|constructor].
Qed.

(** * C39 *)

(** Surface kinetics with the concentration as unknown: bulk, adsorbed and near-surface hydrogen change
    by the flux from the vacuum, the sources and the other fluxes. *)
Theorem C39_balance_partial {P} (M : mesh P) mb ms T dt traps soret c c_n F :
  mb_class mb = ClassMobile ->
  covered M ms -> concentrations M mb T ms c c_n -> positive_temperature M T -> tests M mb traps ->
  off_axis M -> 0 < dt ->
  define_variational_problem M mb ms T (Some dt) traps soret = Ok F ->
  assemble M F
  = ((inventory M c traps + sum_over (mb_bcs mb) (stock M c))
     - (inventory_before M c_n traps + sum_over (mb_bcs mb) (stock_before M c_n))) / dt
    - supply M T c mb traps.
Proof.
  intros Hcl Hcov Hc HT Ht Hr Hdt HF.
  assert (HS : solubility_field M mb T ms) by (unfold solubility_field; now rewrite Hcl).
  assert (E := balance M mb ms T (Some dt) traps soret c c_n F Hcov Hc HS HT Ht Hr HF).
  cbv beta iota in E. rewrite E.
  enough (Z : sum_over (mb_bcs mb) (surface_rate M dt c (fun p => val (mb_previous mb p)))
              = / dt * (sum_over (mb_bcs mb) (stock M c) - sum_over (mb_bcs mb) (stock_before M c_n))).
  { rewrite Z. unfold Rdiv. ring. }
  rewrite sum_over_minus, <- sum_over_scale. apply sum_over_ext. intros b _.
  destruct b as [ft l f|s]; cbn [surface_rate stock stock_before]; [ring|].
  rewrite sum_over_minus, <- sum_over_scale. apply sum_over_ext. intros a _.
  unfold total_on. rewrite wsum_minus, <- wsum_scale. apply wsum_ext. intros p Hp. apply filter_In in Hp.
  destruct Hp as [Hp _]. destruct Hcov as [_ Hcov]. specialize (Hcov p (or_intror Hp)). apply in_flat_map in Hcov.
  destruct Hcov as [m [Hm Hz]]. specialize (Hc p (or_intror Hp) m Hm Hz). unfold concentration_at in Hc.
  rewrite Hcl in Hc. destruct Hc as [_ ->]. unfold Rdiv. ring.
Qed.
Print Assumptions C39_balance_partial.

(** The exchange between the surface and the subsurface has opposite contributions for both, whatever the
    rates, and in both formulations. *)
Theorem C39_exchange {P} (M : mesh P) s solute solute_prev test T a F :
  (forall p, In p (q_facets M) -> val (a_test a p) = val (test p)) ->
  surface_kinetics_terms s solute solute_prev test T None a = F ->
  assemble M F = - integral M (Ds (a_surface a)) (fun p => sk_J_vs s (val (T p)) (val (a_solution a p)) (solute p) p * val (test p)).
Proof.
  intros Ht <-. unfold surface_kinetics_terms. cbv zeta. cbn [app].
  rewrite !assemble_cons, assemble_nil. cbn [fst snd]. rewrite Rplus_0_r, <- integral_plus, <- integral_opp.
  apply integral_ext. intros p Hp. apply in_points_facets in Hp. rewrite Ht by tauto. ring.
Qed.
Print Assumptions C39_exchange.

Definition sk_1 (test : field nat) : surface_kinetics nat :=
  mkSK (fun _ _ _ _ => 2) (fun _ _ _ _ => 3) (fun _ _ _ _ => 1) (1 / 2) 10 20
    [mkAds 1 (fun _ => dconst 4) (fun _ => dconst 3) test].
Example C39_example :
  let M := mesh_ty Cartesian in
  let mb := mobile_1 ClassMobile ones [] [BSurf (sk_1 ones)] in
  concentrations M mb T400 two_mats (fun p => INR p) (fun _ => 1) /\ tests M mb [trap_1 ones []] /\ off_axis M /\
  (exists F, define_variational_problem M mb two_mats T400 (Some 2) [trap_1 ones []] false = Ok F) /\
  sum_over (mb_bcs mb) (stock M (fun p => INR p)) = 11 / 4 /\
  sum_over (mb_bcs mb) (stock_before M (fun _ => 1)) = 7 / 4.
Proof.
  intros M mb. split; [apply concentrations_mobile|]. split; [|split; [|split; [|split]]].
  - split; [now apply cart_ones|split].
    + intros t [<-|[]] p _. reflexivity.
    + intros s a [[= <-]|[]] [<-|[]] p _ _. reflexivity.
  - left. reflexivity.
  - eexists. reflexivity.
  - subst M mb. sums.
  - subst M mb. sums.
Qed.

(** False with chemical_pot: the near-surface term is given theta instead of the concentration of the
    previous step.  Here nothing happens (equal states, no flux), solubility 2, and the residual of the
    balance is not zero. *)
Definition still_sk : surface_kinetics nat :=
  mkSK (fun _ _ _ _ => 0) (fun _ _ _ _ => 0) (fun _ _ _ _ => 0) 1 10 20
    [mkAds 1 (fun _ => dconst 4) (fun _ => dconst 4) ones].
Definition still_mobile : mobile nat :=
  mkMobile theta_class (fun _ => dconst 1) (fun _ => dconst 1) ones [] [BSurf still_sk].
Lemma still_concentrations : concentrations (mesh_ty Cartesian) still_mobile T_rest two_mats (theta_c 1) (theta_c 1).
Proof.
  intros p Hp m Hm Hz. assert (Hp' : In p [1; 2; 3; 4]%nat) by (cbn in Hp |- *; lia).
  destruct (mats_of p m Hp' Hm Hz) as [Hl [HS HE]]. cbn [concentration_at still_mobile mb_class theta_class].
  exists (S_field p), 0. rewrite Hl, !arrhenius_0. repeat split; assumption.
Qed.
Theorem C39_balance_refuted :
  exists (M : mesh nat) mb ms T dt c c_n F,
    covered M ms /\ concentrations M mb T ms c c_n /\ solubility_field M mb T ms /\
    positive_temperature M T /\ tests M mb [] /\ off_axis M /\ 0 < dt /\
    define_variational_problem M mb ms T (Some dt) [] false = Ok F /\
    assemble M F
    <> ((inventory M c [] + sum_over (mb_bcs mb) (stock M c))
        - (inventory_before M c_n [] + sum_over (mb_bcs mb) (stock_before M c_n))) / dt
       - supply M T c mb [].
Proof.
  assert (HT : positive_temperature (mesh_ty Cartesian) T_rest) by (intros p _; cbn; lra).
  assert (HS : solubility_field (mesh_ty Cartesian) still_mobile T_rest two_mats).
  { cbn [solubility_field still_mobile mb_class theta_class]. split; [reflexivity|]. intros p Hp m Hm Hz.
    assert (Hp' : In p [1; 2; 3; 4]%nat) by (cbn in Hp |- *; lia).
    destruct (mats_of p m Hp' Hm Hz) as [Hl [H0 HE]]. exists (S_field p), 0. rewrite arrhenius_0. auto. }
  assert (Ht : tests (mesh_ty Cartesian) still_mobile []).
  { split; [now apply cart_ones|split].
    - intros t [].
    - intros s a [[= <-]|[]] [<-|[]] p _ _. reflexivity. }
  assert (HF : exists F, define_variational_problem (mesh_ty Cartesian) still_mobile two_mats T_rest (Some 1) [] false = Ok F)
    by (eexists; reflexivity).
  destruct HF as [F HF].
  exists (mesh_ty Cartesian), still_mobile, two_mats, T_rest, 1, (theta_c 1), (theta_c 1), F.
  split; [apply covered_ty|]. split; [apply still_concentrations|]. split; [exact HS|]. split; [exact HT|].
  split; [exact Ht|]. split; [now left|]. split; [lra|]. split; [exact HF|].
  rewrite (balance (mesh_ty Cartesian) still_mobile two_mats T_rest (Some 1) [] false (theta_c 1) (theta_c 1) F
             (covered_ty _) still_concentrations HS HT Ht (or_introl eq_refl) HF).
  unfold theta_c, S_field. sums.
Qed.
Print Assumptions C39_balance_refuted.

(** * C47 *)

(** Cylindrical and spherical coordinates: tested with the volume element (r, r^2) the same balance holds
    for the inventories weighted by it. *)
Theorem C47_balance {P} (M : mesh P) mb ms T dt traps soret c c_n F :
  (forall p, In p (q_cells M) -> q_x0 M p <> 0) ->
  covered M ms -> concentrations M mb T ms c c_n -> solubility_field M mb T ms ->
  positive_temperature M T -> tests M mb traps -> no_surface_kinetics mb -> 0 < dt ->
  define_variational_problem M mb ms T (Some dt) traps soret = Ok F ->
  assemble M F = (inventory M c traps - inventory_before M c_n traps) / dt - supply M T c mb traps.
Proof.
  intros Hr Hcov Hc HS HT Ht Hsk Hdt HF.
  assert (E := balance M mb ms T (Some dt) traps soret c c_n F Hcov Hc HS HT Ht (or_intror Hr) HF).
  cbv beta iota in E. rewrite E.
  assert (Z : sum_over (mb_bcs mb) (surface_rate M dt c (fun p => val (mb_previous mb p))) = 0).
  { apply rsum_map_zero. intros b Hb. destruct b as [ft l f|s]; [reflexivity|]. exfalso. apply (Hsk s Hb). }
  rewrite Z. ring.
Qed.
Print Assumptions C47_balance.

(** For every test function w: testing with r w (r^2 w) gives the integrals of the divergence form,
    flux . grad w, with the volume element r (r^2). *)
Definition volume_element {P} (M : mesh P) (p : P) : dual :=
  match q_type M with
  | Cartesian => dconst 1
  | Cylindrical => dcoord0 (q_x0 M p)
  | Spherical => dmul (dcoord0 (q_x0 M p)) (dcoord0 (q_x0 M p))
  end.
Theorem C47_divergence {P} (M : mesh P) soret D_0 E_D Q (c c_n w v T : field P) dt z :
  off_axis M -> (forall p, In p (q_cells M) -> 0 < val (T p)) ->
  (forall p, v p = dmul (volume_element M p) (w p)) ->
  assemble M (diffusion_terms M soret D_0 E_D Q c c_n v T (Some dt) z)
  = total_in M z (fun p =>
      (val (c p) - val (c_n p)) / dt * val (w p)
      + dot (q_dim M) (fun i => arrhenius D_0 E_D (val (T p)) *
                         (grd (c p) i + if soret then Q (val (T p)) * val (c p) / (boltzmann * val (T p) ^ 2) * grd (T p) i
                                        else 0)) (grd (w p))).
Proof.
  intros Hr HT Hv.
  assert (Hdot : forall d (f g h : nat -> R), (forall i, g i = h i) -> dot d f g = dot d f h).
  { intros d f g h H. unfold dot. apply rsum_map_ext. intros i _. now rewrite H. }
  assert (Hsplit : forall d a (f g h : nat -> R), dot d (fun i => a * (f i + g i)) h = dot d (fun i => a * f i) h + dot d (fun i => a * g i) h).
  { intros d a f g h. unfold dot. rewrite <- rsum_map_plus. apply rsum_map_ext. intros. ring. }
  assert (Hscale : forall d a (f h : nat -> R), dot d (fun i => a * f i) h = a * dot d f h).
  { intros d a f h. unfold dot. rewrite <- rsum_map_scale. apply rsum_map_ext. intros. ring. }
  assert (Hzero : forall d a (h : nat -> R), dot d (fun _ => a * 0) h = 0).
  { intros d a h. apply dot_zero. intros. left. ring. }
  assert (Hkb : k_B = boltzmann) by (unfold k_B, boltzmann; lra).
  assert (Hw : forall p, val (v p) = weight M p * val (w p)).
  { intros p. rewrite Hv. unfold volume_element, weight. destruct (q_type M); cbn [dmul val dcoord0 dconst]; ring. }
  assert (Hg : forall p, In p (points M (Dx z)) -> forall i,
     match q_type M with
     | Cartesian => grd (v p) i
     | Cylindrical => grd (ddiv (v p) (dcoord0 (q_x0 M p))) i
     | Spherical => grd (ddiv (ddiv (v p) (dcoord0 (q_x0 M p))) (dcoord0 (q_x0 M p))) i
     end = grd (w p) i).
  { intros p Hp i. apply in_points_cells in Hp. rewrite Hv. unfold volume_element.
    destruct (q_type M) eqn:Hty.
    - cbn [dmul grd dconst val]. ring.
    - destruct Hr as [Hr|Hr]; [congruence|]. specialize (Hr p (proj1 Hp)).
      destruct i; cbn [ddiv dmul grd dcoord0 val]; field; exact Hr.
    - destruct Hr as [Hr|Hr]; [congruence|]. specialize (Hr p (proj1 Hp)).
      destruct i; cbn [ddiv dmul grd dcoord0 val]; field; exact Hr. }
  unfold diffusion_terms. cbv zeta. cbn [app].
  set (R0 := fun p => (val (c p) - val (c_n p)) / dt * val (w p)).
  assert (H0 : integral M (Dx z) (fun p => (val (c p) - val (c_n p)) / dt * val (v p)) = total_in M z R0).
  { unfold integral, total_in, wsum. apply rsum_map_ext. intros p _. rewrite Hw. unfold R0. ring. }
  assert (Hint : forall (e g : P -> R), (forall p, In p (points M (Dx z)) -> e p = weight M p * g p) ->
     integral M (Dx z) e = total_in M z g).
  { intros e g H. unfold integral, total_in, wsum. apply rsum_map_ext. intros p Hp. rewrite H; [ring|exact Hp]. }
  set (G1 := fun p => dot (q_dim M) (fun i => arrhenius D_0 E_D (val (T p)) * grd (c p) i) (grd (w p))).
  set (G2 := fun p => dot (q_dim M) (fun i => arrhenius D_0 E_D (val (T p)) *
               (Q (val (T p)) * val (c p) / (boltzmann * val (T p) ^ 2) * grd (T p) i)) (grd (w p))).
  transitivity (total_in M z R0 + total_in M z G1 + (if soret then total_in M z G2 else 0)).
  2:{ unfold total_in. destruct soret; [rewrite <- !wsum_plus|rewrite Rplus_0_r, <- wsum_plus];
      apply wsum_ext; intros p _; unfold R0, G1, G2.
      - rewrite Hsplit. ring.
      - rewrite (Hsplit _ _ (grd (c p)) (fun _ => 0)), Hzero. ring. }
  rewrite assemble_cons. cbn [fst snd]. rewrite H0.
  destruct (q_type M) eqn:Hty; rewrite assemble_cons; cbn [fst snd].
  - rewrite (Hint _ G1).
    2:{ intros p Hp. unfold weight, G1. rewrite Hty. rewrite (Hdot _ _ _ _ (Hg p Hp)).
        rewrite !Hscale, arrhenius_model by (apply HT; apply in_points_cells in Hp; tauto). ring. }
    destruct soret; rewrite ?assemble_cons, assemble_nil; cbn [fst snd]; [|ring].
    rewrite (Hint _ G2); [ring|]. intros p Hp. unfold weight, G2. rewrite Hty, (Hdot _ _ _ _ (Hg p Hp)), !Hscale.
    rewrite <- Hkb, <- arrhenius_model by (apply HT; apply in_points_cells in Hp; tauto). unfold Rdiv. ring.
  - rewrite (Hint _ G1).
    2:{ intros p Hp. unfold weight, G1. rewrite Hty. rewrite (Hdot _ _ _ _ (Hg p Hp)).
        rewrite !Hscale, arrhenius_model by (apply HT; apply in_points_cells in Hp; tauto). reflexivity. }
    destruct soret; rewrite ?assemble_cons, assemble_nil; cbn [fst snd]; [|ring].
    rewrite (Hint _ G2); [ring|]. intros p Hp. unfold weight, G2. rewrite Hty, (Hdot _ _ _ _ (Hg p Hp)), !Hscale.
    rewrite <- Hkb, <- arrhenius_model by (apply HT; apply in_points_cells in Hp; tauto).
    cbn [dcoord0 val]. unfold Rdiv. ring.
  - rewrite (Hint _ G1).
    2:{ intros p Hp. unfold weight, G1. rewrite Hty. rewrite (Hdot _ _ _ _ (Hg p Hp)).
        rewrite !Hscale, arrhenius_model by (apply HT; apply in_points_cells in Hp; tauto).
        cbn [dcoord0 val]. ring. }
    destruct soret; rewrite ?assemble_cons, assemble_nil; cbn [fst snd]; [|ring].
    rewrite (Hint _ G2); [ring|]. intros p Hp. unfold weight, G2. rewrite Hty, (Hdot _ _ _ _ (Hg p Hp)), !Hscale.
    rewrite <- Hkb, <- arrhenius_model by (apply HT; apply in_points_cells in Hp; tauto).
    cbn [dcoord0 val]. unfold Rdiv. ring.
Qed.
Print Assumptions C47_divergence.

Definition radius (ty : mesh_type) : field nat :=
  fun p => match ty with
           | Cartesian => dconst 1
           | Cylindrical => dcoord0 (INR p)
           | Spherical => dmul (dcoord0 (INR p)) (dcoord0 (INR p))
           end.
Example C47_example : forall ty,
  let M := mesh_ty ty in
  let mb := mobile_1 ClassMobile (radius ty) sources_1 bcs_1 in
  let traps := [trap_1 (radius ty) [mkSource (IdOne 1) (fun _ => 2) None]] in
  (forall p, In p (q_cells M) -> q_x0 M p <> 0) /\ covered M two_mats /\
  concentrations M mb T400 two_mats (fun p => INR p) (fun _ => 1) /\ positive_temperature M T400 /\
  tests M mb traps /\ no_surface_kinetics mb /\
  (exists F, define_variational_problem M mb two_mats T400 (Some 2) traps false = Ok F).
Proof.
  intros ty M mb traps. split; [|split; [apply covered_ty|split; [apply concentrations_mobile|split; [apply T400_pos|]]]].
  - intros p [<-|[<-|[]]]; cbn; lra.
  - split; [|split].
    + split; [|split].
      * intros p. unfold weight. destruct ty; cbn; (split; [ring|]); intros i; destruct i; cbn; ring.
      * intros t [<-|[]] p _. unfold weight. destruct ty; cbn; ring.
      * intros s a [H|[H|[H|[]]]]; discriminate.
    + intros s [H|[H|[H|[]]]]; discriminate.
    + destruct ty; eexists; reflexivity.
Qed.
