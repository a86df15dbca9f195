(** C73: the hydrogen budget read from the exported totals closes. *)
From Coq Require Import Reals ZArith List Bool String Lra Lia.
From Verif Require Import Base.Exc Base.Key Base.Dual Model.Materials Model.Exports Model.Laws Model.Theta Model.Forms
  Model.Quantities Model.Fields Model.PostProcess Spec.PhysSpec Spec.BalanceSpec Spec.QuantitySpec Spec.BudgetSpec
  Proofs.ThetaProofs Proofs.FormProofs Proofs.KeyProofs Proofs.FieldProofs Proofs.QuantityProofs Proofs.BudgetProofs
  Properties.FormProps Properties.QuantityProps.
Import ListNotations.
Local Open Scope R_scope.
Local Open Scope list_scope.

(** The exported mobile concentration has in each volume the total of the concentration of the equations, also
    when the unknown is the chemical potential. *)
Theorem C73_concentration {P} (M : mesh P) W mb ms T c c_n cm z :
  covered M ms -> concentrations M mb T ms c c_n -> solubility_field M mb T ms -> has_weights M W ->
  mobile_post_processing M W mb cm -> total_in M z (fun p => val (cm p)) = total_in M z c.
Proof. exact (post_total M W mb ms T c c_n cm z). Qed.
Print Assumptions C73_concentration.

Definition volume_total (k : qkind) : Prop := k = TotalVolume \/ k = TotalVolumeCylindrical \/ k = TotalVolumeSpherical.

(** The totals printed for the field "retention" in volumes that cover the mesh add up to the inventory, times the
    angles. *)
Theorem C73_inventory {P} (M : mesh P) W k az pol ids l ms s vs :
  volume_total k -> allowed_mesh k (q_type M) = true ->
  covered M ms -> concentrations M (st_mb s) (st_T s) ms (st_c s) (st_cn s) -> solubility_field M (st_mb s) (st_T s) ms ->
  has_weights M W -> NoDup l -> (forall p, In p (q_cells M) -> In (q_volume M p) l) -> l <> [] ->
  prints_retention M W k az pol ids l s vs ->
  exists A, rsum vs = A * inventory M (st_c s) (st_traps s) /\
    angular k (requested az (documented_azimuth k)) (requested pol (documented_polar k)) A.
Proof.
  intros Hk Ha Hcov Hc HS HW Hn Hl Hne (V & x & cm & u & qs & Hpost & Hids & Hlen & Hu & Hq & Hv).
  destruct (C49_additive M V (about x u) k (LStr "retention") l az pol qs vs Hk Ha Hq Hv Hn Hl Hne) as (A & E & HA).
  exists A. split; [|exact HA]. rewrite E. f_equal. cbn [about x_function]. unfold total at 1.
  rewrite (wsum_ext M (q_cells M) (fun p => val (u p))
             (fun p => val (cm p) + sum_over (st_traps s) (fun t => val (t_solution t p)))).
  2:{ intros p _. rewrite (retention_field _ _ _ _ Hids Hu p), Hlen, traps_of. reflexivity. }
  rewrite wsum_plus. unfold inventory. f_equal.
  - change (total M (fun p => val (cm p)) = total M (st_c s)).
    rewrite <- (sum_materials_total M l (fun p => val (cm p)) Hn Hl), <- (sum_materials_total M l (st_c s) Hn Hl).
    apply sum_over_ext. intros z _.
    apply (post_total M W (st_mb s) ms (st_T s) (st_c s) (st_cn s) cm z Hcov Hc HS HW Hpost).
  - apply (total_sum M (st_traps s) (fun t p => val (t_solution t p))).
Qed.
Print Assumptions C73_inventory.

(** One step: the printed totals change by what the sources and the fluxes bring during the step, less what the
    surfaces with kinetics take. *)
Theorem C73_step {P} (M : mesh P) W k az pol ids ids' l ms soret a b va vb :
  volume_total k -> allowed_mesh k (q_type M) = true -> off_axis M -> covered M ms ->
  concentrations M (st_mb a) (st_T a) ms (st_c a) (st_cn a) -> solubility_field M (st_mb a) (st_T a) ms ->
  solved_step M ms soret b -> chained a b ->
  has_weights M W -> NoDup l -> (forall p, In p (q_cells M) -> In (q_volume M p) l) -> l <> [] ->
  prints_retention M W k az pol ids l a va -> prints_retention M W k az pol ids' l b vb ->
  exists A,
    rsum vb = rsum va + A * (st_dt b * (supply M (st_T b) (st_c b) (st_mb b) (st_traps b)
      - sum_over (mb_bcs (st_mb b)) (surface_rate M (st_dt b) (st_c b) (fun p => val (mb_previous (st_mb b) p))))) /\
    angular k (requested az (documented_azimuth k)) (requested pol (documented_polar k)) A.
Proof.
  intros Hk Hal Hoff Hcov Hca HSa (Hcb & HSb & HT & Ht & Hdt & HF & H0) Hch HW Hn Hl Hne Ha Hb.
  destruct (C73_inventory M W k az pol ids l ms a va Hk Hal Hcov Hca HSa HW Hn Hl Hne Ha) as (A & EA & HA).
  destruct (C73_inventory M W k az pol ids' l ms b vb Hk Hal Hcov Hcb HSb HW Hn Hl Hne Hb) as (B & EB & HB).
  assert (U : B = A).
  { revert HA HB. unfold angular. destruct (coordinates_of k); [congruence| |].
    - intros H1 H2. exact (is_integral_unique _ _ _ _ _ H2 H1).
    - intros (x & y & -> & Hx & Hy) (x' & y' & -> & Hx' & Hy').
      rewrite (is_integral_unique _ _ _ _ _ Hx Hx'), (is_integral_unique _ _ _ _ _ Hy Hy'). reflexivity. }
  subst B. exists A. split; [|exact HA]. rewrite EA, EB, <- (chained_before M ms a b Hcov Hca Hcb Hch), <- Rmult_plus_distr_l.
  f_equal.
  assert (E := balance M (st_mb b) ms (st_T b) (Some (st_dt b)) (st_traps b) soret (st_c b) (st_cn b) (st_form b)
                 Hcov Hcb HSb HT Ht Hoff HF).
  cbv beta iota in E. rewrite H0 in E.
  set (I := inventory M (st_c b) (st_traps b)) in *. set (J := inventory_before M (st_cn b) (st_traps b)) in *.
  set (S := supply M (st_T b) (st_c b) (st_mb b) (st_traps b)) in *.
  set (R := sum_over (mb_bcs (st_mb b)) _) in *.
  assert (G : S - R = (I - J) / st_dt b) by lra. rewrite G. field. lra.
Qed.
Print Assumptions C73_step.

(** A run of any length without surface kinetics: what is printed after step n is what is printed after step 0 plus
    what the sources and the fluxes brought since. *)
Theorem C73_run {P} (M : mesh P) W k az pol ids l ms soret (s : nat -> step_state P) (v : nat -> list R) :
  volume_total k -> allowed_mesh k (q_type M) = true -> off_axis M -> covered M ms ->
  (forall n, solved_step M ms soret (s n)) -> (forall n, chained (s n) (s (S n))) ->
  (forall n, no_surface_kinetics (st_mb (s n))) ->
  has_weights M W -> NoDup l -> (forall p, In p (q_cells M) -> In (q_volume M p) l) -> l <> [] ->
  (forall n, prints_retention M W k az pol ids l (s n) (v n)) ->
  exists A,
    angular k (requested az (documented_azimuth k)) (requested pol (documented_polar k)) A /\
    forall n, rsum (v n) = rsum (v 0%nat) + A * sum_over (seq 1 n) (fun i =>
      st_dt (s i) * supply M (st_T (s i)) (st_c (s i)) (st_mb (s i)) (st_traps (s i))).
Proof.
  intros Hk Hal Hoff Hcov Hs Hch Hns HW Hn Hl Hne Hp.
  assert (ST : forall n, exists A,
    rsum (v (S n)) = rsum (v n) + A * (st_dt (s (S n)) * supply M (st_T (s (S n))) (st_c (s (S n))) (st_mb (s (S n))) (st_traps (s (S n)))) /\
    angular k (requested az (documented_azimuth k)) (requested pol (documented_polar k)) A).
  { intros n. destruct (Hs n) as (Hca & HSa & _).
    destruct (C73_step M W k az pol ids ids l ms soret (s n) (s (S n)) (v n) (v (S n)) Hk Hal Hoff Hcov Hca HSa (Hs (S n)) (Hch n)
                HW Hn Hl Hne (Hp n) (Hp (S n))) as (A & E & HA).
    exists A. split; [|exact HA]. rewrite E.
    assert (Z : sum_over (mb_bcs (st_mb (s (S n)))) (surface_rate M (st_dt (s (S n))) (st_c (s (S n)))
                  (fun p => val (mb_previous (st_mb (s (S n))) p))) = 0).
    { apply rsum_map_zero. intros b Hb. destruct b as [ft l' f|sk]; [reflexivity|]. exfalso. apply (Hns (S n) sk Hb). }
    rewrite Z, Rminus_0_r. reflexivity. }
  destruct (ST 0%nat) as (A & _ & HA). exists A. split; [exact HA|].
  assert (U : forall B, angular k (requested az (documented_azimuth k)) (requested pol (documented_polar k)) B -> B = A).
  { intros B. revert HA. unfold angular. destruct (coordinates_of k); [congruence| |].
    - intros H1 H2. exact (is_integral_unique _ _ _ _ _ H2 H1).
    - intros (x & y & -> & Hx & Hy) (x' & y' & -> & Hx' & Hy').
      rewrite (is_integral_unique _ _ _ _ _ Hx Hx'), (is_integral_unique _ _ _ _ _ Hy Hy'). reflexivity. }
  induction n as [|n IH].
  - unfold sum_over. cbn [seq map]. change (rsum []) with 0. ring.
  - destruct (ST n) as (B & E & HB). rewrite (U B HB) in E. rewrite E, IH.
    assert (Q : seq 1 (S n) = seq 1 n ++ [S n]) by (rewrite (seq_S n 1); reflexivity).
    rewrite Q. unfold sum_over. rewrite (map_app _ (seq 1 n)), rsum_app. cbn [map]. rewrite rsum_cons, rsum_nil. ring.
Qed.
Print Assumptions C73_run.

(** What a surface with kinetics takes during a step in Cartesian coordinates: the change of what AdsorbedHydrogen
    prints, and the change in the layer of thickness lambda_IS, which no quantity prints. *)
Theorem C73_layer {P} (M : mesh P) V x s dt c before (qs : list (dquantity P)) after_ before_ :
  q_type M = Cartesian -> 0 < dt ->
  Forall2 (fun a q => make_quantity AdsorbedHydrogen (LStr "adsorbed") (IdInt (a_surface a)) None None = Ok q) (sk_adsorbed s) qs ->
  Forall2 (fun aq v => compute M V (about x (a_solution (fst aq))) (snd aq) = Ok v) (combine (sk_adsorbed s) qs) after_ ->
  Forall2 (fun aq v => compute M V (about x (a_previous (fst aq))) (snd aq) = Ok v) (combine (sk_adsorbed s) qs) before_ ->
  dt * surface_rate M dt c before (BSurf s)
  = rsum after_ - rsum before_
    + sk_lambda_IS s * sum_over (sk_adsorbed s) (fun a => total_on M (a_surface a) (fun p => c p - before p)).
Proof.
  intros Hty Hdt. cbn [surface_rate]. revert qs after_ before_.
  induction (sk_adsorbed s) as [|a l IH]; intros qs va vb Hq Ha Hb; inversion Hq as [|a' q l' qs' Hq1 Hq2]; subst; cbn [combine] in Ha, Hb;
    inversion Ha as [|x1 v1 l1 r1 A1 A2]; subst; inversion Hb as [|x2 v2 l2 r2 B1 B2]; subst.
  - unfold sum_over. cbn [map]. change (rsum []) with 0. ring.
  - specialize (IH qs' r1 r2 Hq2 A2 B2). rewrite !sum_over_cons, !rsum_cons.
    rewrite Rmult_plus_distr_l, IH. cbn [make_quantity set_id range_arg azimuth_bounds polar_bounds bind class_field] in Hq1.
    injection Hq1 as <-. cbn [fst snd] in A1, B1. unfold compute in A1, B1. cbn [d_kind d_id about x_function] in A1, B1.
    injection A1 as <-. injection B1 as <-.
    assert (G : dt * total_on M (a_surface a) (fun p => (val (a_solution a p) - val (a_previous a p)) / dt
                   + sk_lambda_IS s * (c p - before p) / dt)
       = integral M (Ds (a_surface a)) (fun p => val (a_solution a p)) - integral M (Ds (a_surface a)) (fun p => val (a_previous a p))
         + sk_lambda_IS s * total_on M (a_surface a) (fun p => c p - before p)).
    { unfold total_on. rewrite <- !wsum_scale. unfold Rminus. rewrite <- integral_opp, <- integral_plus.
      unfold integral, wsum, points. rewrite <- rsum_map_plus. apply rsum_map_ext. intros p _.
      unfold weight. rewrite Hty. field. lra. }
    rewrite G. ring.
Qed.
Print Assumptions C73_layer.

(** An example: a cylinder with a uniform source of 3 in both materials, steps of 2: the mobile concentration grows
    by 6 at each step from 1, the trapped one stays at 4. *)
Definition fed_trap : trap nat :=
  mkTrap (Scalar 6) (Scalar (1/10)) (Scalar 8) (Scalar (2/10)) [fun _ => 9] [mkMatObj 0 mat_1]
    (fun _ => dconst 4) (fun _ => dconst 4) (radius Cylindrical) [].
Definition fed_mobile (n : nat) : mobile nat :=
  mkMobile ClassMobile (fun _ => dconst (1 + 6 * INR n)) (fun _ => dconst (1 + 6 * (INR n - 1))) (radius Cylindrical)
    [mkSource (IdMany [1; 2]%Z) (fun _ => 3) None] [].
Definition fed_form (n : nat) : form nat :=
  match define_variational_problem (mesh_ty Cylindrical) (fed_mobile n) two_mats T_rest (Some 2) [fed_trap] false with
  | Ok F => F
  | Err _ => []
  end.
Definition fed (n : nat) : step_state nat :=
  mkStep (fed_mobile n) T_rest [fed_trap] 2 (fun _ => 1 + 6 * INR n) (fun _ => 1 + 6 * (INR n - 1)) (fed_form n).
Definition fed_prints (n : nat) : list R := [1 / 2 * (5 + 6 * INR n) * (2 * PI); (5 + 6 * INR n) * (2 * PI)].
Definition any_test : (nat -> R) -> Prop := fun _ => True.

Lemma fed_solved n : solved_step (mesh_ty Cylindrical) two_mats false (fed n).
Proof.
  assert (Ht : tests (mesh_ty Cylindrical) (fed_mobile n) [fed_trap]).
  { split; [|split].
    - intros p. split; [reflexivity|]. intros [|i]; reflexivity.
    - intros t [<-|[]] p _. reflexivity.
    - intros s a []. }
  assert (HF : define_variational_problem (mesh_ty Cylindrical) (fed_mobile n) two_mats T_rest (Some 2) [fed_trap] false
               = Ok (fed_form n)) by reflexivity.
  assert (Hc : concentrations (mesh_ty Cylindrical) (fed_mobile n) T_rest two_mats (fun _ => 1 + 6 * INR n) (fun _ => 1 + 6 * (INR n - 1))).
  { intros p _ m _ _. split; reflexivity. }
  assert (HT : positive_temperature (mesh_ty Cylindrical) T_rest) by (intros p _; cbn; lra).
  assert (Hx : forall p, In p (q_cells (mesh_ty Cylindrical)) -> q_x0 (mesh_ty Cylindrical) p <> 0).
  { intros p [<-|[<-|[]]]; cbn; lra. }
  split; [exact Hc|]. split; [exact I|]. split; [exact HT|]. split; [exact Ht|]. split; [cbn; lra|]. split; [exact HF|].
  cbn [fed st_form].
  rewrite (C47_balance (mesh_ty Cylindrical) (fed_mobile n) two_mats T_rest 2 [fed_trap] false
             (fun _ => 1 + 6 * INR n) (fun _ => 1 + 6 * (INR n - 1)) (fed_form n) Hx (covered_ty _) Hc I HT Ht
             ltac:(intros s []) ltac:(lra) HF).
  generalize (INR n). intros r.
  unfold supply, inventory, inventory_before, source_rate, flux_rate, total, total_in, total_on, wsum, sum_over, rsum, weight.
  cbn. lra.
Qed.

Example C73_example :
  let M := mesh_ty Cylindrical in
  volume_total TotalVolumeCylindrical /\ allowed_mesh TotalVolumeCylindrical (q_type M) = true /\ off_axis M /\ covered M two_mats /\
  (forall n, solved_step M two_mats false (fed n)) /\ (forall n, chained (fed n) (fed (S n))) /\
  (forall n, no_surface_kinetics (st_mb (fed n))) /\ has_weights M any_test /\ NoDup [1; 2]%Z /\
  (forall p, In p (q_cells M) -> In (q_volume M p) [1; 2]%Z) /\
  (forall n, prints_retention M any_test TotalVolumeCylindrical None None [1]%Z [1; 2]%Z (fed n) (fed_prints n)) /\
  (forall n, st_dt (fed n) * supply M (st_T (fed n)) (st_c (fed n)) (st_mb (fed n)) (st_traps (fed n)) = 9).
Proof.
  intros M. split; [right; now left|]. split; [reflexivity|]. split.
  { right. intros p [<-|[<-|[]]]; cbn; lra. }
  split; [apply covered_ty|]. split; [apply fed_solved|]. split.
  { intros n. split; [exact I|]. split; [intros p; cbn [fed st_mb fed_mobile mb_previous mb_solution val dconst]; rewrite S_INR; ring|].
    split; [reflexivity|]. constructor; [|constructor]. intros p. reflexivity. }
  split; [intros n s []|]. split; [intros z; exact I|]. split.
  { constructor; [intros [H|[]]; discriminate|]. constructor; [intros []|constructor]. }
  split. { intros p [<-|[<-|[]]]; cbn; auto. }
  split.
  - intros n. exists (mkFe [] [] [] []), (mkCtx (fun _ => dconst 0) (fun _ => 1) (fun _ => 1) (fun _ => 0) (fun _ => dconst 300) (fun _ _ => 1) false),
      (mb_solution (fed_mobile n)),
      (fun p => dadd (dadd (dconst 0) (mb_solution (fed_mobile n) p)) (t_solution fed_trap p)),
      (map (fun z => mkDq TotalVolumeCylindrical (LStr "retention") z (0, 2 * PI) (0, 0) true None) [1; 2]%Z).
    assert (HP := PI_RGT_0).
    assert (HM : forall z, make_quantity TotalVolumeCylindrical (LStr "retention") (IdInt z) None None
       = Ok (mkDq TotalVolumeCylindrical (LStr "retention") z (0, 2 * PI) (0, 0) true (@None (nat * string)))).
    { intros z. unfold make_quantity. cbn [set_id bind is_volume azimuth_bounds polar_bounds range_arg]. unfold set_range. cbn [fst snd].
      destruct (Rlt_dec 0 0) as [H|_]; [lra|]. destruct (Rgt_dec (2 * PI) (2 * PI)) as [H|_]; [lra|]. reflexivity. }
    split; [reflexivity|]. split; [constructor; [intros []|constructor]|]. split; [reflexivity|]. split; [reflexivity|].
    split.
    + constructor; [apply HM|]. constructor; [apply HM|]. constructor.
    + unfold fed_prints.
      constructor; [|constructor; [|constructor]]; unfold compute, integral, points, angle, one_r_r2, rsum; cbn; f_equal;
        generalize (INR n); intros r; field.
  - intros n. subst M. unfold supply, source_rate, total_in, wsum, sum_over, rsum, weight. cbn. lra.
Qed.

(** The hypotheses of C73_concentration with the chemical potential: the projection of theta S. *)
Example C73_theta_example :
  let M := mesh_ty Cartesian in
  let mb := mobile_1 theta_class ones sources_1 bcs_1 in
  covered M two_mats /\ concentrations M mb T400 two_mats (fun p => theta_c (INR p) p) (theta_c 1) /\
  solubility_field M mb T400 two_mats /\ has_weights M any_test /\
  mobile_post_processing M any_test mb (fun p => dconst (theta_c (INR p) p)) /\
  total_in M 2 (fun p => theta_c (INR p) p) = 3.
Proof.
  intros M mb. split; [apply covered_ty|]. split; [apply concentrations_theta|]. split; [apply solubility_theta|].
  split; [intros z; exact I|]. split.
  - intros v _. eexists. split; [reflexivity|].
    unfold assemble, integral, points, rsum, theta_c, S_field. cbn. lra.
  - subst M. unfold total_in, wsum, rsum, weight, theta_c. cbn. lra.
Qed.

(** The hypotheses of C73_layer: one surface with kinetics, 5 adsorbed before and 7 after. *)
Definition layer_sk : surface_kinetics nat :=
  mkSK (fun _ _ _ _ => 0) (fun _ _ _ _ => 0) (fun _ _ _ _ => 0) 3 1 1
    [mkAds 1 (fun _ => dconst 7) (fun _ => dconst 5) ones].
Example C73_layer_example :
  let M := mesh_ty Cartesian in
  let x := mkCtx (fun _ : nat => dconst 0) (fun _ => 1) (fun _ => 1) (fun _ => 0) (fun _ => dconst 300) (fun _ _ => 1) false in
  exists qs,
  Forall2 (fun a q => make_quantity AdsorbedHydrogen (LStr "adsorbed") (IdInt (a_surface a)) None None = Ok q) (sk_adsorbed layer_sk) qs /\
  Forall2 (fun aq v => compute M (mkFe [] [] [] []) (about x (a_solution (fst aq))) (snd aq) = Ok v) (combine (sk_adsorbed layer_sk) qs) [7 / 2] /\
  Forall2 (fun aq v => compute M (mkFe [] [] [] []) (about x (a_previous (fst aq))) (snd aq) = Ok v) (combine (sk_adsorbed layer_sk) qs) [5 / 2] /\
  2 * surface_rate M 2 (fun _ => 4) (fun _ => 2) (BSurf layer_sk) = 7 / 2 - 5 / 2 + 3.
Proof.
  intros M x. exists [mkDq AdsorbedHydrogen (LStr "adsorbed") 1 (0, 0) (0, 0) true None]. split; [|split; [|split]].
  - constructor; [reflexivity|constructor].
  - constructor; [|constructor]. unfold compute, integral, points, rsum. cbn. f_equal. lra.
  - constructor; [|constructor]. unfold compute, integral, points, rsum. cbn. f_equal. lra.
  - subst M. unfold surface_rate, total_on, wsum, sum_over, rsum, weight. cbn. lra.
Qed.
