(** C48, C49, C51, C58, C59: derived quantities. *)
From Coq Require Import Reals ZArith List Bool String Lra Lia.
From Verif Require Import Base.Exc Base.Key Base.Dual Model.Exports Model.Laws Model.Forms Model.Quantities
  Model.Fields Spec.BalanceSpec Spec.QuantitySpec Proofs.FormProofs Proofs.KeyProofs Proofs.FieldProofs Proofs.QuantityProofs.
Import ListNotations.
Local Open Scope R_scope.
Local Open Scope list_scope.

(** * C48 *)

Lemma range_default k az r : azimuth_bounds k <> None ->
  range_arg (azimuth_bounds k) az = Ok r -> r = requested az (documented_azimuth k).
Proof.
  destruct k; cbn [azimuth_bounds range_arg documented_azimuth]; try congruence; intros _ H;
    apply set_range_ok in H; destruct H as [-> _]; destruct az; reflexivity.
Qed.
Lemma range_default_polar k pol r : polar_bounds k <> None ->
  range_arg (polar_bounds k) pol = Ok r -> r = requested pol (documented_polar k).
Proof.
  destruct k; cbn [polar_bounds range_arg documented_polar]; try congruence; intros _ H;
    apply set_range_ok in H; destruct H as [-> _]; destruct pol; reflexivity.
Qed.

(** Part of C48: totals and fluxes are the integral of the angular element over the requested ranges times the
    integral over the mesh.  Missing: SurfaceFluxSpherical, see C48_solid_angle_refuted. *)
Theorem C48_solid_angle_partial {P} (M : mesh P) V x k field id az pol q v :
  (is_total k || is_flux k = true)%bool -> k <> SurfaceFluxSpherical ->
  make_quantity k field id az pol = Ok q -> allowed_mesh k (q_type M) = true -> compute M V x q = Ok v ->
  exists A, angular k (requested az (documented_azimuth k)) (requested pol (documented_polar k)) A /\
    v = A * measure_of M k (d_id q) (integrand M x q).
Proof.
  intros Hk Hns Hq Ha Hv. destruct (make_quantity_fields _ _ _ _ _ _ Hq) as (K & _ & _ & Hr & Hr').
  assert (Hav : is_average k = false) by (destruct k; cbn in *; congruence).
  exists (angle q). split.
  - assert (G := angle_angular q). rewrite K in G. specialize (G Hns Hav). revert G. unfold angular.
    destruct (coordinates_of k) eqn:C; [auto| |].
    + rewrite (range_default k az (d_azimuth q)); [auto| |exact Hr].
      destruct k; cbn in *; congruence.
    + rewrite (range_default k az (d_azimuth q)), (range_default_polar k pol (d_polar q)); auto;
        destruct k; cbn in *; congruence.
  - rewrite <- K. apply (compute_value M V); rewrite ?K; assumption.
Qed.
Print Assumptions C48_solid_angle_partial.

(** SurfaceFluxSpherical integrates sin over its azimuth_range and 1 over its polar_range. *)
Theorem C48_spherical_flux_partial {P} (M : mesh P) V x field id az pol q v :
  make_quantity SurfaceFluxSpherical field id az pol = Ok q -> q_type M = Spherical -> compute M V x q = Ok v ->
  exists A, angular SurfaceFluxSpherical (requested pol (- PI, PI)) (requested az (0, PI)) A /\
    v = A * total_on M (d_id q) (flux_density M x (d_field q)).
Proof.
  intros Hq Ha Hv. destruct (make_quantity_fields _ _ _ _ _ _ Hq) as (K & _ & _ & Hr & Hr').
  exists (angle q). split.
  - change (0, PI) with (documented_azimuth SurfaceFluxSpherical).
    change (- PI, PI) with (documented_polar SurfaceFluxSpherical).
    rewrite <- (range_default SurfaceFluxSpherical az (d_azimuth q)),
      <- (range_default_polar SurfaceFluxSpherical pol (d_polar q)); try (cbn; congruence); try assumption.
    unfold angle, angular. rewrite K. cbn [coordinates_of]. eexists _, _. split; [reflexivity|].
    split; [apply is_integral_one|]. rewrite Rplus_comm. apply is_integral_sin.
  - assert (G := compute_value M V x q v). unfold measure_of, integrand in G. rewrite K in G.
    apply G; [now rewrite Ha|reflexivity|exact Hv].
Qed.
Print Assumptions C48_spherical_flux_partial.

(** With the names of the documentation, C48 is false of SurfaceFluxSpherical: the documented element
    r^2 sin(theta) dtheta dphi, theta the polar angle, integrates to 0 over the default ranges. *)
Definition sphere : mesh nat := mkMesh [0%nat] [1%nat] (fun _ => 1) (fun _ => 1%Z) (fun _ => 1%Z) (fun _ => 1) 1 Spherical.
Definition sphere_ctx : context nat :=
  mkCtx (fun _ => mkDual 3 (fun _ => 1)) (fun _ => 1) (fun _ => 1) (fun _ => 0) (fun _ => dconst 300) (fun _ _ => 1) false.
Definition no_space : fespace := mkFe [] [] [] [].
Theorem C48_solid_angle_refuted :
  exists (M : mesh nat) V x q v A,
    make_quantity SurfaceFluxSpherical (LStr "solute") (IdInt 1) None None = Ok q /\
    q_type M = Spherical /\ compute M V x q = Ok v /\
    angular SurfaceFluxSpherical (0, PI) (- PI, PI) A /\ A = 0 /\
    v = 4 * PI /\ v <> A * total_on M (d_id q) (flux_density M x (d_field q)).
Proof.
  assert (HPI := PI_RGT_0).
  exists sphere, no_space, sphere_ctx. eexists. exists (4 * PI), 0.
  split.
  { unfold make_quantity, set_id, bind, range_arg, set_range, azimuth_bounds, polar_bounds. cbn [fst snd].
    destruct (Rlt_dec 0 0); [lra|]. destruct (Rgt_dec PI PI); [lra|]. destruct (Rlt_dec (- PI) (- PI)); [lra|].
    reflexivity. }
  split; [reflexivity|]. split.
  { unfold compute, prop_of, flux_integral, angle, integral, dot. cbn.
    f_equal. rewrite cos_PI, cos_0. ring. }
  split.
  { exists (PI - 0), (cos (- PI) - cos PI). split; [rewrite cos_neg; ring|].
    split; [apply is_integral_one|apply is_integral_sin]. }
  repeat split; lra.
Qed.
Print Assumptions C48_solid_angle_refuted.

(** Adjacent ranges add up, in azimuth and in polar angle. *)
Theorem C48_additive {P} (M : mesh P) V x k field id a b c pol q q1 q2 v v1 v2 :
  azimuth_bounds k <> None -> allowed_mesh k (q_type M) = true ->
  make_quantity k field id (Some (a, c)) pol = Ok q -> compute M V x q = Ok v ->
  make_quantity k field id (Some (a, b)) pol = Ok q1 -> compute M V x q1 = Ok v1 ->
  make_quantity k field id (Some (b, c)) pol = Ok q2 -> compute M V x q2 = Ok v2 ->
  v = v1 + v2.
Proof.
  intros Hb Ha H H' H1 H1' H2 H2'.
  destruct (make_quantity_fields _ _ _ _ _ _ H) as (K & F & I & R & S).
  destruct (make_quantity_fields _ _ _ _ _ _ H1) as (K1 & F1 & I1 & R1 & S1).
  destruct (make_quantity_fields _ _ _ _ _ _ H2) as (K2 & F2 & I2 & R2 & S2).
  apply (range_default k _ _ Hb) in R. apply (range_default k _ _ Hb) in R1. apply (range_default k _ _ Hb) in R2.
  assert (Hk : (is_total k || is_flux k = true)%bool) by (destruct k; cbn in *; congruence).
  apply (compute_value M V x q v) in H'; [|rewrite K; assumption|rewrite K; assumption].
  apply (compute_value M V x q1 v1) in H1'; [|rewrite K1; assumption|rewrite K1; assumption].
  apply (compute_value M V x q2 v2) in H2'; [|rewrite K2; assumption|rewrite K2; assumption].
  assert (E1 : d_id q1 = d_id q) by congruence. assert (E2 : d_id q2 = d_id q) by congruence.
  assert (P1 : d_polar q1 = d_polar q) by congruence. assert (P2 : d_polar q2 = d_polar q) by congruence.
  assert (N1 : d_field q1 = d_field q) by congruence. assert (N2 : d_field q2 = d_field q) by congruence.
  unfold integrand, angle in *. rewrite K1, E1, N1, P1, R1 in H1'. rewrite K2, E2, N2, P2, R2 in H2'.
  rewrite K, R in H'. rewrite H', H1', H2'.
  destruct k; cbn [azimuth_bounds requested fst snd] in *; try congruence; try ring.
Qed.
Print Assumptions C48_additive.
Theorem C48_additive_polar {P} (M : mesh P) V x k field id a b c az q q1 q2 v v1 v2 :
  polar_bounds k <> None -> allowed_mesh k (q_type M) = true ->
  make_quantity k field id az (Some (a, c)) = Ok q -> compute M V x q = Ok v ->
  make_quantity k field id az (Some (a, b)) = Ok q1 -> compute M V x q1 = Ok v1 ->
  make_quantity k field id az (Some (b, c)) = Ok q2 -> compute M V x q2 = Ok v2 ->
  v = v1 + v2.
Proof.
  intros Hb Ha H H' H1 H1' H2 H2'.
  destruct (make_quantity_fields _ _ _ _ _ _ H) as (K & F & I & S & R).
  destruct (make_quantity_fields _ _ _ _ _ _ H1) as (K1 & F1 & I1 & S1 & R1).
  destruct (make_quantity_fields _ _ _ _ _ _ H2) as (K2 & F2 & I2 & S2 & R2).
  apply (range_default_polar k _ _ Hb) in R. apply (range_default_polar k _ _ Hb) in R1.
  apply (range_default_polar k _ _ Hb) in R2.
  assert (Hk : (is_total k || is_flux k = true)%bool) by (destruct k; cbn in *; congruence).
  apply (compute_value M V x q v) in H'; [|rewrite K; assumption|rewrite K; assumption].
  apply (compute_value M V x q1 v1) in H1'; [|rewrite K1; assumption|rewrite K1; assumption].
  apply (compute_value M V x q2 v2) in H2'; [|rewrite K2; assumption|rewrite K2; assumption].
  assert (E1 : d_id q1 = d_id q) by congruence. assert (E2 : d_id q2 = d_id q) by congruence.
  assert (P1 : d_azimuth q1 = d_azimuth q) by congruence. assert (P2 : d_azimuth q2 = d_azimuth q) by congruence.
  assert (N1 : d_field q1 = d_field q) by congruence. assert (N2 : d_field q2 = d_field q) by congruence.
  unfold integrand, angle in *. rewrite K1, E1, N1, P1, R1 in H1'. rewrite K2, E2, N2, P2, R2 in H2'.
  rewrite K, R in H'. rewrite H', H1', H2'.
  destruct k; cbn [polar_bounds requested fst snd] in *; try congruence; try ring.
Qed.
Print Assumptions C48_additive_polar.

(** By default the whole cylinder (2 pi) or sphere (4 pi) is counted. *)
Theorem C48_full {P} (M : mesh P) V x k field id q v :
  (is_total k || is_flux k = true)%bool -> allowed_mesh k (q_type M) = true ->
  make_quantity k field id None None = Ok q -> compute M V x q = Ok v ->
  v = full_angle k * measure_of M k (d_id q) (integrand M x q).
Proof.
  intros Hk Ha Hq Hv. destruct (make_quantity_fields _ _ _ _ _ _ Hq) as (K & _ & _ & R & S).
  apply (compute_value M V x q v) in Hv; [|rewrite K; assumption|rewrite K; assumption].
  rewrite Hv, K. f_equal. unfold angle, full_angle. rewrite K.
  assert (A : azimuth_bounds k <> None -> d_azimuth q = documented_azimuth k)
    by (intros Hb; exact (range_default k None _ Hb R)).
  assert (B : polar_bounds k <> None -> d_polar q = documented_polar k)
    by (intros Hb; exact (range_default_polar k None _ Hb S)).
  destruct k; cbn [coordinates_of] in *; try reflexivity; try discriminate Hk;
    rewrite ?A, ?B by (cbn; discriminate); cbn [documented_azimuth documented_polar fst snd];
    rewrite ?cos_PI, ?cos_0; ring.
Qed.
Print Assumptions C48_full.

(** Part of C48: an ordered range is accepted exactly when it is in the documented bounds. *)
Theorem C48_bounds_partial {P} k field z r :
  ordered r ->
  (azimuth_bounds k <> None ->
   ((exists q : dquantity P, make_quantity k field (IdInt z) (Some r) None = Ok q) <-> inside r (documented_azimuth k))) /\
  (polar_bounds k <> None ->
   ((exists q : dquantity P, make_quantity k field (IdInt z) None (Some r) = Ok q) <-> inside r (documented_polar k))).
Proof.
  intros Ho. assert (HPI := PI_RGT_0).
  assert (D : forall b, fst b <= snd b -> set_range b b = Ok b)
    by (intros b Hb; apply set_range_ok; split; [reflexivity|split; lra]).
  assert (G : forall b, (exists x, set_range b r = Ok x) <-> inside r b).
  { intros b. unfold ordered in Ho. split.
    - intros [y Hy]. apply set_range_ok in Hy. destruct Hy as (_ & H1 & H2). split; lra.
    - intros [H1 H2]. exists r. apply set_range_ok. split; [reflexivity|]. split; lra. }
  split; intros Hb.
  - assert (E : azimuth_bounds k = Some (documented_azimuth k)) by (destruct k; cbn in *; congruence).
    rewrite <- (G (documented_azimuth k)). unfold make_quantity. cbn [set_id bind]. rewrite E. cbn [range_arg].
    assert (Pd : exists p, range_arg (polar_bounds k) None = Ok p).
    { unfold range_arg. destruct k; cbn [polar_bounds]; try (eexists; reflexivity);
        eexists; apply D; cbn; lra. }
    destruct Pd as [p Hp]. rewrite Hp. split.
    + intros [q Hq]. destruct (set_range (documented_azimuth k) r) as [y|]; [now exists y|discriminate].
    + intros [y ->]. cbn [bind]. eexists. reflexivity.
  - assert (E : polar_bounds k = Some (documented_polar k)) by (destruct k; cbn in *; congruence).
    rewrite <- (G (documented_polar k)). unfold make_quantity. cbn [set_id bind]. rewrite E. cbn [range_arg].
    assert (Pd : exists p, range_arg (azimuth_bounds k) None = Ok p).
    { unfold range_arg. destruct k; cbn [azimuth_bounds]; try (eexists; reflexivity);
        eexists; apply D; cbn; lra. }
    destruct Pd as [p Hp]. rewrite Hp. cbn [bind]. split.
    + intros [q Hq]. destruct (set_range (documented_polar k) r) as [y|]; [now exists y|discriminate].
    + intros [y ->]. cbn [bind]. eexists. reflexivity.
Qed.
Print Assumptions C48_bounds_partial.

(** In general it is false: only one side of each end is checked, so a reversed range out of the bounds is
    accepted (and makes the volume of a cylinder negative). *)
Definition cylinder : mesh nat := mkMesh [0%nat] [1%nat] (fun _ => 1) (fun _ => 1%Z) (fun _ => 1%Z) (fun _ => 1) 1 Cylindrical.
Definition ones_ctx : context nat :=
  mkCtx (fun _ => dconst 1) (fun _ => 1) (fun _ => 1) (fun _ => 0) (fun _ => dconst 300) (fun _ _ => 1) false.
Theorem C48_bounds_refuted :
  exists r (q : dquantity nat) v, make_quantity TotalVolumeCylindrical (LStr "solute") (IdInt 1) (Some r) None = Ok q /\
    ~ inside r (documented_azimuth TotalVolumeCylindrical) /\
    compute cylinder no_space ones_ctx q = Ok v /\ v < 0.
Proof.
  assert (H4 := PI_4). exists (10, 1). eexists. exists (-9). split.
  - unfold make_quantity, set_id, bind, range_arg, set_range, azimuth_bounds, polar_bounds. cbn [fst snd].
    destruct (Rlt_dec 10 0); [lra|]. destruct (Rgt_dec 1 (2 * PI)) as [H|H]; [|reflexivity].
    exfalso. assert (Q := PI2_3_2). unfold PI2 in Q. lra.
  - split; [|split; [|lra]].
    + intros [H _]. cbn in H. lra.
    + unfold compute, integral, angle. cbn. f_equal. ring.
Qed.
Print Assumptions C48_bounds_refuted.

(** A quarter of a sphere, in two pieces. *)
Example C48_example :
  exists (q q1 q2 : dquantity nat),
    make_quantity TotalVolumeSpherical (LStr "solute") (IdInt 1) (Some (0, PI)) (Some (0, PI / 2)) = Ok q /\
    make_quantity TotalVolumeSpherical (LStr "solute") (IdInt 1) (Some (0, PI / 3)) (Some (0, PI / 2)) = Ok q1 /\
    make_quantity TotalVolumeSpherical (LStr "solute") (IdInt 1) (Some (PI / 3, PI)) (Some (0, PI / 2)) = Ok q2 /\
    compute sphere no_space sphere_ctx q = Ok (3 * PI) /\
    ordered (0, PI / 3) /\ inside (0, PI / 3) (documented_azimuth TotalVolumeSpherical).
Proof.
  assert (HPI := PI_RGT_0). eexists _, _, _.
  assert (G : forall a b c d, 0 <= a -> b <= 2 * PI -> 0 <= c -> d <= PI ->
    make_quantity TotalVolumeSpherical (LStr "solute") (IdInt 1) (Some (a, b)) (Some (c, d))
    = Ok (mkDq (P:=nat) TotalVolumeSpherical (LStr "solute") 1 (a, b) (c, d) true None)).
  { intros a b c d Ha Hb Hc Hd.
    unfold make_quantity, set_id, bind, range_arg, set_range, azimuth_bounds, polar_bounds. cbn [fst snd].
    destruct (Rlt_dec a 0); [lra|]. destruct (Rgt_dec b (2 * PI)); [lra|].
    destruct (Rlt_dec c 0); [lra|]. destruct (Rgt_dec d PI); [lra|]. reflexivity. }
  split; [apply G; lra|]. split; [apply G; lra|]. split; [apply G; lra|]. split.
  - unfold compute, integral, angle. cbn. f_equal. rewrite cos_0, cos_PI2. ring.
  - unfold ordered, inside. cbn [fst snd documented_azimuth]. lra.
Qed.

(** * C49 *)

(** An average is between any bounds of the field on its volume or surface. *)
Theorem C49_average {P} (M : mesh P) V x q v lo hi :
  is_average (d_kind q) = true -> proper M -> compute M V x q = Ok v ->
  (forall p, located M (d_kind q) (d_id q) p -> lo <= val (x_function x p) <= hi) ->
  lo <= v <= hi.
Proof. exact (average_bounds M V x q v lo hi). Qed.
Print Assumptions C49_average.

Theorem C49_constant {P} (M : mesh P) V x q v c :
  is_average (d_kind q) = true -> proper M -> compute M V x q = Ok v ->
  (forall p, located M (d_kind q) (d_id q) p -> val (x_function x p) = c) -> v = c.
Proof.
  intros Hk HM Hv Hc. assert (G := average_bounds M V x q v c c Hk HM Hv). 
  destruct G as [G1 G2]; [intros p Hp; rewrite (Hc p Hp); lra|lra].
Qed.
Print Assumptions C49_constant.

(** MaximumVolume and MinimumVolume return the largest and smallest nodal value of the volume. *)
Theorem C49_extrema {P} (M : mesh P) V x q v :
  compute M V x q = Ok v ->
  (d_kind q = MaximumVolume -> is_largest (nodal_value V (d_id q)) v) /\
  (d_kind q = MinimumVolume -> is_smallest (nodal_value V (d_id q)) v).
Proof.
  intros Hv. unfold compute in Hv. split; intros K; rewrite K in Hv.
  - apply extremum_max in Hv. destruct Hv as [H1 H2].
    split; [now apply entity_nodal|]. intros w Hw. apply H2. now apply entity_nodal.
  - apply extremum_min in Hv. destruct Hv as [H1 H2].
    split; [now apply entity_nodal|]. intros w Hw. apply H2. now apply entity_nodal.
Qed.
Print Assumptions C49_extrema.

(** On a piecewise linear field, MinimumVolume <= AverageVolume <= MaximumVolume. *)
Theorem C49_between {P} (M : mesh P) V x q qmin qmax v lo hi :
  (d_kind q = AverageVolume \/ d_kind q = AverageVolumeCylindrical \/ d_kind q = AverageVolumeSpherical) ->
  d_kind qmin = MinimumVolume -> d_kind qmax = MaximumVolume -> d_id qmin = d_id q -> d_id qmax = d_id q ->
  proper M -> linear_on M V (fun p => val (x_function x p)) ->
  compute M V x q = Ok v -> compute M V x qmin = Ok lo -> compute M V x qmax = Ok hi ->
  lo <= v <= hi.
Proof.
  intros Hk Kmin Kmax Imin Imax HM HL Hv Hlo Hhi.
  assert (A := proj2 (C49_extrema M V x qmin lo Hlo) Kmin). rewrite Imin in A.
  assert (B := proj1 (C49_extrema M V x qmax hi Hhi) Kmax). rewrite Imax in B.
  apply (average_bounds M V x q v lo hi); auto.
  - destruct Hk as [->|[->| ->]]; reflexivity.
  - intros p Hp. assert (Hp' : In p (q_cells M) /\ q_volume M p = d_id q)
      by (revert Hp; unfold located; destruct Hk as [->|[->| ->]]; exact (fun H => H)).
    destruct Hp' as [Hp1 Hp2]. destruct (HL p Hp1) as (c & dofs & H1 & H2 & H3 & H4).
    apply (convex_bounds V dofs); [exact H4|]. intros d Hd.
    assert (N : nodal_value V (d_id q) (nth d (fe_vector V) 0)).
    { exists c, dofs, d. rewrite <- Hp2. repeat split; auto. apply nth_error_nth'. auto. }
    split; [apply A|apply B]; exact N.
Qed.
Print Assumptions C49_between.

(** The total is the average times the volume or area (times the angle). *)
Definition average_of (k : qkind) : option qkind :=
  match k with
  | TotalVolume => Some AverageVolume
  | TotalVolumeCylindrical => Some AverageVolumeCylindrical
  | TotalVolumeSpherical => Some AverageVolumeSpherical
  | TotalSurface => Some AverageSurface
  | TotalSurfaceCylindrical => Some AverageSurfaceCylindrical
  | _ => None
  end.
Theorem C49_total {P} (M : mesh P) V x q qa v a :
  average_of (d_kind q) = Some (d_kind qa) -> d_id qa = d_id q -> allowed_mesh (d_kind q) (q_type M) = true ->
  compute M V x q = Ok v -> compute M V x qa = Ok a ->
  v = angle q * (a * measure_of M (d_kind q) (d_id q) (fun _ => 1)).
Proof.
  intros Hk Hi Ha Hv Hav.
  assert (Ht : is_total (d_kind q) = true) by (destruct (d_kind q); cbn in *; congruence).
  assert (Hf : is_flux (d_kind q) = false) by (destruct (d_kind q); cbn in *; congruence).
  apply (compute_value M V x q v) in Hv; [|exact Ha|now rewrite Ht].
  unfold integrand in Hv. rewrite Hf in Hv. rewrite Hv. f_equal.
  rewrite compute_average in Hav by (destruct (d_kind q), (d_kind qa); cbn in *; congruence).
  apply rdiv_ok in Hav. destruct Hav as [Hd ->]. rewrite Hi in *.
  assert (Hw : forall p, one_r_r2 M (d_kind qa) p = weight M p).
  { intros p. unfold one_r_r2, weight.
    destruct (d_kind q), (d_kind qa), (q_type M); cbn in *; congruence. }
  assert (Ev : over_volume (d_kind qa) = over_volume (d_kind q))
    by (destruct (d_kind q), (d_kind qa); cbn in *; congruence).
  unfold measure_of, avg_measure in *. rewrite Ev in *.
  destruct (over_volume (d_kind q)).
  - rewrite !(total_in_integral M (d_id q) _ (one_r_r2 M (d_kind qa))) in * by auto. field. exact Hd.
  - rewrite !(total_on_integral M (d_id q) _ (one_r_r2 M (d_kind qa))) in * by auto. field. exact Hd.
Qed.
Print Assumptions C49_total.

(** Totals over distinct volumes covering the mesh add up to the integral over the mesh. *)
Theorem C49_additive {P} (M : mesh P) V x k field (l : list Z) az pol qs vs :
  (k = TotalVolume \/ k = TotalVolumeCylindrical \/ k = TotalVolumeSpherical) ->
  allowed_mesh k (q_type M) = true ->
  Forall2 (fun z q => make_quantity k field (IdInt z) az pol = Ok q) l qs ->
  Forall2 (fun q v => compute M V x q = Ok v) qs vs ->
  NoDup l -> (forall p, In p (q_cells M) -> In (q_volume M p) l) -> l <> [] ->
  exists A, rsum vs = A * total M (fun p => val (x_function x p)) /\
    angular k (requested az (documented_azimuth k)) (requested pol (documented_polar k)) A.
Proof.
  intros Hk Ha Hq Hc Hn Hcov Hne.
  assert (Ht : (is_total k || is_flux k = true)%bool) by (destruct Hk as [->|[->| ->]]; reflexivity).
  assert (Hs : k <> SurfaceFluxSpherical) by (destruct Hk as [->|[->| ->]]; discriminate).
  rewrite <- (sum_materials_total M l _ Hn Hcov).
  assert (G : forall B, (forall z q v, make_quantity k field (IdInt z) az pol = Ok q -> compute M V x q = Ok v ->
      v = B * total_in M z (fun p => val (x_function x p))) ->
      rsum vs = B * sum_over l (fun z => total_in M z (fun p => val (x_function x p)))).
  { intros B HB. clear Hn Hcov Hne. revert vs Hc. induction Hq as [|z q l' qs' Hz Hq IH]; intros vs Hc;
      inversion Hc as [|q' v qs'' vs' H1 H2]; subst.
    - unfold sum_over. cbn. ring.
    - rewrite rsum_cons, sum_over_cons, (IH vs' H2), (HB z q v Hz H1). ring. }
  assert (Ga : forall z q v, make_quantity k field (IdInt z) az pol = Ok q -> compute M V x q = Ok v ->
     exists A, angular k (requested az (documented_azimuth k)) (requested pol (documented_polar k)) A /\
       v = A * total_in M z (fun p => val (x_function x p))).
  { intros z q v Hz Hv. destruct (C48_solid_angle_partial M V x k field (IdInt z) az pol q v Ht Hs Hz Ha Hv) as (A & HA & E).
    exists A. split; [exact HA|]. rewrite E. destruct (make_quantity_fields _ _ _ _ _ _ Hz) as (K & _ & I & _).
    injection I as I. rewrite <- I. unfold measure_of, integrand. rewrite K.
    destruct Hk as [->|[->| ->]]; reflexivity. }
  assert (U : forall A B, angular k (requested az (documented_azimuth k)) (requested pol (documented_polar k)) A ->
     angular k (requested az (documented_azimuth k)) (requested pol (documented_polar k)) B -> A = B).
  { intros A B. unfold angular. destruct (coordinates_of k); [congruence|apply is_integral_unique|].
    intros (a & b & -> & Ha1 & Hb1) (a' & b' & -> & Ha2 & Hb2).
    rewrite (is_integral_unique _ _ _ _ _ Ha1 Ha2), (is_integral_unique _ _ _ _ _ Hb1 Hb2). reflexivity. }
  destruct l as [|z l']; [congruence|]. inversion Hq as [|z' q l'' qs' Hz Hq']; subst.
  inversion Hc as [|q' v qs'' vs' H1 H2]; subst.
  destruct (Ga z q v Hz H1) as (A & HA & _). exists A. split; [|exact HA].
  apply G. intros z0 q0 v0 Hz0 Hv0. destruct (Ga z0 q0 v0 Hz0 Hv0) as (A0 & HA0 & ->).
  now rewrite (U A0 A).
Qed.
Print Assumptions C49_additive.

(** The total of the retention is the total of the solute plus the totals of the traps. *)
Definition with_function {P} (x : context P) (u : field P) : context P :=
  mkCtx u (x_D x) (x_cond x) (x_Q x) (x_T x) (x_n x) (x_soret x).
Definition field_add {P} (u v : field P) : field P := fun p => dadd (u p) (v p).
Definition field_zero {P} : field P := fun _ => dconst 0.
Theorem C49_retention {P} (M : mesh P) V x q (mobile : field P) (trap : nat -> field P) ids u v v0 vs :
  is_total (d_kind q) = true -> NoDup ids ->
  dict_get (label_to_function field_zero field_add mobile trap ids) (KS "retention") = Some u ->
  compute M V (with_function x u) q = Ok v -> compute M V (with_function x mobile) q = Ok v0 ->
  Forall2 (fun i w => compute M V (with_function x (trap i)) q = Ok w) (seq 1 (List.length ids)) vs ->
  v = v0 + rsum vs.
Proof.
  intros Hk Hn Hu Hv Hv0 Hvs.
  set (I := fun f : field P => (if over_volume (d_kind q)
     then integral M (Dx (d_id q)) (fun p => val (f p) * one_r_r2 M (d_kind q) p)
     else integral M (Ds (d_id q)) (fun p => val (f p) * one_r_r2 M (d_kind q) p)) * angle q).
  assert (HI : forall f w, compute M V (with_function x f) q = Ok w -> w = I f).
  { intros f w Hw. unfold I, compute in *.
    destruct (d_kind q); try discriminate Hk; cbn [over_volume with_function x_function] in *;
      now injection Hw as <-. }
  assert (Hadd : forall f g, I (field_add f g) = I f + I g).
  { intros f g. unfold I. rewrite <- Rmult_plus_distr_r. f_equal.
    destruct (over_volume (d_kind q)); rewrite <- integral_plus; apply integral_ext; intros p _;
      unfold field_add; cbn [val dadd]; ring. }
  assert (Hz : I field_zero = 0).
  { unfold I. replace (if over_volume (d_kind q) then _ else _) with 0; [ring|].
    destruct (over_volume (d_kind q)); symmetry; apply integral_zero; intros p _; unfold field_zero; cbn [val dconst]; ring. }
  assert (Hu' : u = fold_left field_add (mobile :: map trap (seq 1 (List.length ids))) field_zero).
  { unfold label_to_function in Hu.
    destruct (label_get trap ids 1 [(KS "solute", mobile); (KS "0", mobile); (KI 0, mobile);
       (KS "retention", fold_left field_add (mobile :: map trap (seq 1 (List.length ids))) field_zero)]
       (KS "retention") Hn) as [_ H].
    rewrite H in Hu.
    - cbn [dict_get key_eqb String.eqb Ascii.eqb Bool.eqb] in Hu. injection Hu as <-. reflexivity.
    - intros z _ [E|E]; [discriminate|]. injection E as E. symmetry in E. revert E. apply str_not. reflexivity. }
  rewrite (HI _ _ Hv), (HI _ _ Hv0), Hu'. cbn [fold_left].
  assert (F : forall l f, I (fold_left field_add (map trap l) f) = I f + rsum (map (fun i => I (trap i)) l)).
  { induction l as [|i l IH]; intros f; cbn [map fold_left].
    - rewrite rsum_nil. ring.
    - rewrite IH, Hadd, rsum_cons. ring. }
  rewrite F, Hadd, Hz, Rplus_0_l. f_equal.
  clear Hu Hu' Hn. revert vs Hvs. generalize (seq 1 (List.length ids)). induction l as [|i l IH]; intros vs Hvs;
    inversion Hvs as [|i' w l' vs' H1 H2]; subst; [reflexivity|].
  cbn [map]. rewrite !rsum_cons, (IH _ H2), (HI _ _ H1). reflexivity.
Qed.
Print Assumptions C49_retention.

(** Two cells of length 1 in two volumes, nodes 2, 4, 10, one point per cell. *)
Definition bar : mesh nat :=
  mkMesh [0; 1]%nat [2; 3]%nat (fun _ => 1) (fun p => if Nat.eqb p 0 then 1 else 2)%Z
    (fun p => if Nat.eqb p 2 then 1 else 2)%Z (fun p => INR p) 1 Cartesian.
Definition bar_fe : fespace := mkFe [1; 2]%Z [1; 0; 2]%Z [[0; 1]; [1; 2]]%nat [2; 4; 10].
Definition bar_ctx : context nat :=
  mkCtx (fun p => dconst (if Nat.eqb p 0 then 3 else if Nat.eqb p 1 then 7 else if Nat.eqb p 2 then 2 else 10))
    (fun _ => 1) (fun _ => 1) (fun _ => 0) (fun _ => dconst 300) (fun _ _ => 1) false.
Definition on_bar (k : qkind) (z : Z) : dquantity nat := mkDq k (LStr "solute") z (0, 0) (0, 0) true None.
Example C49_example :
  proper bar /\ linear_on bar bar_fe (fun p => val (x_function bar_ctx p)) /\
  compute bar bar_fe bar_ctx (on_bar AverageVolume 2) = Ok 7 /\
  compute bar bar_fe bar_ctx (on_bar MaximumVolume 2) = Ok 10 /\
  compute bar bar_fe bar_ctx (on_bar MinimumVolume 2) = Ok 4 /\
  compute bar bar_fe bar_ctx (on_bar TotalVolume 2) = Ok 7.
Proof.
  split.
  { split; intros p; cbn; [lra|apply pos_INR]. }
  split.
  { intros p [<-|[<-|[]]].
    - exists 0%nat, [0; 1]%nat. split; [reflexivity|]. split; [reflexivity|].
      split; [intros d [<-|[<-|[]]]; cbn; lia|].
      exists [1 / 2; 1 / 2]. split; [reflexivity|]. split; [intros l [<-|[<-|[]]]; lra|]. split; cbn; lra.
    - exists 1%nat, [1; 2]%nat. split; [reflexivity|]. split; [reflexivity|].
      split; [intros d [<-|[<-|[]]]; cbn; lia|].
      exists [1 / 2; 1 / 2]. split; [reflexivity|]. split; [intros l [<-|[<-|[]]]; lra|]. split; cbn; lra. }
  split; [|split; [|split]].
  - unfold compute, rdiv, integral. cbn. destruct (Req_EM_T (1 * (1 * 1) + 0) 0); [lra|]. f_equal. field.
  - unfold compute, extremum. cbn. f_equal. unfold Rmax.
    repeat match goal with |- context [Rle_dec ?a ?b] => destruct (Rle_dec a b) end; lra.
  - unfold compute, extremum. cbn. f_equal. unfold Rmin.
    repeat match goal with |- context [Rle_dec ?a ?b] => destruct (Rle_dec a b) end; lra.
  - unfold compute, integral, angle. cbn. f_equal. ring.
Qed.
Example C49_retention_example :
  exists u, dict_get (label_to_function field_zero field_add (fun _ : nat => dconst 3) (fun i _ => dconst (INR i)) [5; 7]%Z)
    (KS "retention") = Some u /\ NoDup [5; 7]%Z /\
  compute bar bar_fe (with_function bar_ctx u) (on_bar TotalVolume 2) = Ok 6 /\
  compute bar bar_fe (with_function bar_ctx (fun _ => dconst 3)) (on_bar TotalVolume 2) = Ok 3.
Proof.
  eexists. split; [reflexivity|]. split.
  - repeat constructor; cbn; intuition discriminate.
  - split; unfold compute, integral, angle; cbn; f_equal; ring.
Qed.

(** * C51 *)

Definition is_total_surface (k : qkind) : bool :=
  match k with TotalSurface | TotalSurfaceCylindrical | TotalSurfaceSpherical => true | _ => false end.

(** Part of C51: the unit is right except for TotalSurface of a concentration and for AdsorbedHydrogen
    in 2D and 3D. *)
Theorem C51_units_partial {P} (q : dquantity P) dim :
  field_of_class (d_kind q) (d_field q) -> possible_dim (d_kind q) dim ->
  (is_total_surface (d_kind q) = true -> d_field q = LStr "T") ->
  (d_kind q = AdsorbedHydrogen -> dim = 1%Z) ->
  d_show q = true ->
  exists s u, title q dim = (quantity_title q ++ " (" ++ s ++ ")")%string /\
    read_unit s = Some u /\ u = expected_unit (d_kind q) (d_field q) dim.
Proof.
  intros Hf Hd Hs Ha Hsh. unfold title. rewrite Hsh. eexists _, _. split; [reflexivity|]. split; [|reflexivity].
  assert (C : (is_T (d_field q) = true /\ d_field q = LStr "T") \/
              (d_field q = LStr "adsorbed") \/
              (is_T (d_field q) = false /\ d_field q <> LStr "T" /\
               field_unit (d_field q) = mkUnit Atoms (-3) 0 /\ flux_unit (d_field q) = mkUnit Atoms (-2) (-1)) ).
  { destruct (d_field q) as [s|z]; [|right; right; repeat split; discriminate].
    destruct (string_dec s "T") as [->|N]; [left; split; reflexivity|].
    destruct (string_dec s "adsorbed") as [->|N']; [right; left; reflexivity|].
    right; right. split; [|split; [congruence|]].
    - unfold is_T. cbn [label_eqb]. now apply String.eqb_neq.
    - assert (G : forall t : string, t <> "T"%string -> t <> "adsorbed"%string ->
         field_unit (LStr t) = mkUnit Atoms (-3) 0 /\ flux_unit (LStr t) = mkUnit Atoms (-2) (-1)); [|auto].
      clear. intros t H1 H2. unfold field_unit, flux_unit. split.
      + repeat (match goal with
          | |- context [match ?t with EmptyString => _ | String _ _ => _ end] => is_var t; destruct t
          | |- context [match ?a with Ascii.Ascii _ _ _ _ _ _ _ _ => _ end] => is_var a; destruct a
          | |- context [if ?b then _ else _] => is_var b; destruct b
          end; try reflexivity; try (exfalso; now apply H1); try (exfalso; now apply H2)).
      + repeat (match goal with
          | |- context [match ?t with EmptyString => _ | String _ _ => _ end] => is_var t; destruct t
          | |- context [match ?a with Ascii.Ascii _ _ _ _ _ _ _ _ => _ end] => is_var a; destruct a
          | |- context [if ?b then _ else _] => is_var b; destruct b
          end; try reflexivity; try (exfalso; now apply H1); try (exfalso; now apply H2)). }
  unfold export_unit, expected_unit.
  destruct C as [[T E]|[E|(T & N & Fu & Xu)]].
  - rewrite T, E in *. 
    destruct (d_kind q); cbn [possible_dim coordinates_of field_of_class] in *; try discriminate Hf;
      try reflexivity; repeat (destruct Hd as [->|Hd]; [reflexivity|]); subst dim; reflexivity.
  - rewrite E in *.
    destruct (d_kind q); cbn [possible_dim coordinates_of field_of_class] in *; try congruence;
      rewrite (Ha eq_refl); reflexivity.
  - rewrite T, ?Fu, ?Xu.
    destruct (d_kind q); cbn [possible_dim coordinates_of field_of_class is_total_surface] in *; try congruence;
      try (exfalso; apply N; now apply Hs); try (rewrite Hf in Fu; discriminate Fu);
      try reflexivity; repeat (destruct Hd as [->|Hd]; [reflexivity|]); subst dim; reflexivity.
Qed.
Print Assumptions C51_units_partial.

(** In general it is false: the total of a concentration on a surface has one metre too many in every
    coordinate system and dimension, and adsorbed hydrogen integrated on an edge or a face is still in H m-2. *)
Theorem C51_units_refuted :
  (forall k l dim, is_total_surface k = true -> l = LStr "solute" -> possible_dim k dim ->
     exists u, read_unit (export_unit k l dim) = Some u /\
       u = times_metres (expected_unit k l dim) 1 /\ u <> expected_unit k l dim) /\
  (forall dim, (dim = 2 \/ dim = 3)%Z ->
     exists u, read_unit (export_unit AdsorbedHydrogen (LStr "adsorbed") dim) = Some u /\
       u <> expected_unit AdsorbedHydrogen (LStr "adsorbed") dim).
Proof.
  split.
  - intros k l dim Hk -> Hd.
    destruct k; try discriminate Hk; cbn [possible_dim coordinates_of] in Hd;
      repeat (destruct Hd as [->|Hd]; [eexists; repeat split; discriminate|]); subst dim;
      eexists; repeat split; discriminate.
  - intros dim [->| ->]; eexists; split; try reflexivity; discriminate.
Qed.
Print Assumptions C51_units_refuted.
(** Powers of the metre that are 0 or 1 are not written out. *)
Theorem C51_plain_units k l dim : possible_dim k dim ->
  String.index 0 "m0" (export_unit k l dim) = None /\ String.index 0 "m1" (export_unit k l dim) = None.
Proof.
  intros Hd. unfold export_unit.
  destruct k; try destruct (is_T l); cbn [possible_dim coordinates_of] in Hd; try (split; reflexivity);
    repeat (destruct Hd as [->|Hd]; [split; reflexivity|]); subst dim; split; reflexivity.
Qed.
Print Assumptions C51_plain_units.
Example C51_example :
  title (mkDq (P:=nat) SurfaceFlux (LStr "solute") 3 (0, 0) (0, 0) true None) 2 = "solute flux surface 3 (H m-1 s-1)"%string /\
  read_unit "H m-1 s-1" = Some (mkUnit Atoms (-1) (-1)) /\
  expected_unit SurfaceFlux (LStr "solute") 2 = mkUnit Atoms (-1) (-1) /\
  export_unit TotalSurface (LStr "solute") 2 = "H m-1"%string /\
  expected_unit TotalSurface (LStr "solute") 2 = mkUnit Atoms (-2) 0.
Proof. repeat split; reflexivity. Qed.

(** * C58 *)

(** J = integral(+ prop grad(u).n ds) for SurfaceFlux (surface_flux.py L26), integral(- prop grad(u).n ds) for
    SurfaceFluxCylindrical and SurfaceFluxSpherical (L95, L189). *)
Definition documented_sign (k : qkind) : R :=
  match k with SurfaceFluxCylindrical | SurfaceFluxSpherical => -1 | _ => 1 end.

(** Part of C58: true of SurfaceFlux, HydrogenFlux and ThermalFlux. *)
Theorem C58_flux_partial {P} (M : mesh P) V x k field id q v :
  (k = SurfaceFlux \/ k = HydrogenFlux \/ k = ThermalFlux) -> q_type M = Cartesian ->
  make_quantity k field id None None = Ok q -> compute M V x q = Ok v ->
  v = documented_sign k * total_on M (d_id q) (flux_density M x (class_field k field)).
Proof.
  intros Hk HM Hq Hv.
  assert (G : v = full_angle k * measure_of M k (d_id q) (integrand M x q)).
  { apply (C48_full M V x k field id q v); auto; destruct Hk as [->|[->| ->]]; rewrite ?HM; reflexivity. }
  destruct (make_quantity_fields _ _ _ _ _ _ Hq) as (K & F & _).
  rewrite G. unfold measure_of, integrand. rewrite K, F. destruct Hk as [->|[->| ->]]; reflexivity.
Qed.
Print Assumptions C58_flux_partial.
(** All the classes have the same sign: the value is the flux entering the domain, the opposite of the
    outward flux - D (grad c + Q c / (k_B T^2) grad T) . n. *)
Theorem C58_inward {P} (M : mesh P) V x k field id q v :
  is_flux k = true -> allowed_mesh k (q_type M) = true ->
  make_quantity k field id None None = Ok q -> compute M V x q = Ok v ->
  v = - (full_angle k * total_on M (d_id q) (fun p => - flux_density M x (class_field k field) p)).
Proof.
  intros Hk HM Hq Hv.
  assert (G : v = full_angle k * measure_of M k (d_id q) (integrand M x q)).
  { apply (C48_full M V x k field id q v); auto. rewrite Hk. apply orb_true_r. }
  destruct (make_quantity_fields _ _ _ _ _ _ Hq) as (K & F & _).
  unfold total_on. rewrite wsum_opp, G. unfold measure_of, integrand. rewrite K, F, Hk.
  assert (E : over_volume k = false) by (destruct k; cbn in *; congruence). rewrite E. cbv iota.
  change (fun p => flux_density M x (class_field k field) p) with (flux_density M x (class_field k field)).
  unfold total_on. ring.
Qed.
Print Assumptions C58_inward.
(** So the documented formula is false of the cylindrical and spherical classes. *)
Theorem C58_flux_refuted :
  exists (M : mesh nat) V x q v, q_type M = Cylindrical /\
    make_quantity SurfaceFluxCylindrical (LStr "solute") (IdInt 1) None None = Ok q /\ compute M V x q = Ok v /\
    v <> documented_sign SurfaceFluxCylindrical *
         (2 * PI * total_on M (d_id q) (flux_density M x (d_field q))).
Proof.
  assert (HPI := PI_RGT_0). exists cylinder, no_space, sphere_ctx. eexists. exists (2 * PI). split; [reflexivity|]. split.
  { unfold make_quantity, set_id, bind, range_arg, set_range, azimuth_bounds, polar_bounds. cbn [fst snd].
    destruct (Rlt_dec 0 0); [lra|]. destruct (Rgt_dec (2 * PI) (2 * PI)); [lra|]. reflexivity. }
  split.
  - unfold compute, prop_of, flux_integral, angle, integral, dot. cbn. f_equal. ring.
  - cbn. unfold total_on, wsum, dot. cbn. lra.
Qed.
Print Assumptions C58_flux_refuted.
Example C58_example :
  exists (M : mesh nat) q, q_type M = Cartesian /\
    make_quantity HydrogenFlux (LStr "") (IdInt 2) None None = Ok q /\
    compute M no_space sphere_ctx q = Ok 1.
Proof.
  exists bar. eexists. split; [reflexivity|]. split; [reflexivity|].
  unfold compute, prop_of, flux_integral, angle, integral, dot. cbn. f_equal. ring.
Qed.

(** * C59 *)

(** Part of C59: when each facet of the surface has its nodes in the cell of the same number, MaximumSurface
    and MinimumSurface bound the values on the surface. *)
Theorem C59_surface_partial {P} (M : mesh P) V x q v facet_dofs :
  (forall f, nth_error (fe_facet_markers V) f = Some (d_id q) ->
     exists dofs, nth_error (fe_cell_dofs V) f = Some dofs /\ incl (facet_dofs f) dofs) ->
  compute M V x q = Ok v ->
  (d_kind q = MaximumSurface -> forall w, facet_value V facet_dofs (d_id q) w -> w <= v) /\
  (d_kind q = MinimumSurface -> forall w, facet_value V facet_dofs (d_id q) w -> v <= w).
Proof.
  intros H Hv. unfold compute in Hv.
  assert (G : forall w, facet_value V facet_dofs (d_id q) w -> entity_value V (subset (fe_facet_markers V) (d_id q)) w).
  { intros w (f & d & Hf & Hd & Hn). destruct (H f Hf) as (dofs & Hc & Hi).
    exists f, dofs, d. rewrite subset_in. auto. }
  split; intros K w Hw; rewrite K in Hv.
  - apply extremum_max in Hv. apply Hv, G, Hw.
  - apply extremum_min in Hv. apply Hv, G, Hw.
Qed.
Print Assumptions C59_surface_partial.
(** The number of a facet is used as the number of a cell: on the bar, MaximumSurface on the left end
    returns the value of the next node, and the right end has no cell of its number. *)
Theorem C59_surface_refuted :
  exists (M : mesh nat) V x facet_dofs,
    (forall w, facet_value V facet_dofs 1 w <-> w = 2) /\
    compute M V x (on_bar MaximumSurface 1) = Ok 4 /\
    compute M V x (on_bar MaximumSurface 2) = Err (RuntimeError "cell_dofs").
Proof.
  exists bar, bar_fe, bar_ctx, (fun f => [f]). split; [|split].
  - intros w. split.
    + intros (f & d & Hf & [<-|[]] & Hn). destruct f as [|[|[|f]]]; cbn in Hf; try discriminate.
      * cbn in Hn. congruence.
      * destruct f; discriminate.
    + intros ->. exists 0%nat, 0%nat. cbn. auto.
  - unfold compute, extremum. cbn. f_equal. unfold Rmax.
    repeat match goal with |- context [Rle_dec ?a ?b] => destruct (Rle_dec a b) end; lra.
  - reflexivity.
Qed.
Print Assumptions C59_surface_refuted.
Example C59_example :
  (forall f, nth_error (fe_facet_markers bar_fe) f = Some 1%Z ->
     exists dofs, nth_error (fe_cell_dofs bar_fe) f = Some dofs /\ incl [f] dofs) /\
  compute bar bar_fe bar_ctx (on_bar MinimumSurface 1) = Ok 2 /\ facet_value bar_fe (fun f => [f]) 1 2.
Proof.
  split; [|split].
  - intros f Hf. destruct f as [|[|[|f]]]; cbn in Hf; try discriminate.
    + exists [0; 1]%nat. split; [reflexivity|]. intros d [<-|[]]. now left.
    + destruct f; discriminate.
  - unfold compute, extremum. cbn. f_equal. unfold Rmin.
    repeat match goal with |- context [Rle_dec ?a ?b] => destruct (Rle_dec a b) end; lra.
  - exists 0%nat, 0%nat. cbn. auto.
Qed.
