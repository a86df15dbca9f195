(** C78: a quantity that is computed without warning is the physical one. *)
From Coq Require Import Reals ZArith List Bool String Lra Lia.
From Verif Require Import Base.Exc Base.Key Base.Dual Model.Exports Model.Laws Model.Forms Model.Quantities
  Model.Fields Spec.BalanceSpec Spec.QuantitySpec Proofs.FormProofs Proofs.MergeProofs Proofs.QuantityProofs Properties.QuantityProps.
From Verif Require Model.Bcs Spec.NeedSpec.
Import ListNotations.
Local Open Scope R_scope.
Local Open Scope list_scope.

(** The coordinates of the mesh. *)
Definition coords_of (ty : mesh_type) : Bcs.coords :=
  match ty with Cartesian => Bcs.Cartesian | Cylindrical => Bcs.Cylindrical | Spherical => Bcs.Spherical end.
(** A surface of a spherical mesh is a sphere. *)
Definition one_radius {P} (M : mesh P) (z : Z) : Prop :=
  q_type M = Spherical -> exists r, r <> 0 /\ forall p, In p (q_facets M) -> q_surface M p = z -> q_x0 M p = r.

Lemma suited_allowed k ty : NeedSpec.made_for k (coords_of ty) -> allowed_mesh k ty = true.
Proof. destruct k, ty; cbn; intros H; try reflexivity; congruence. Qed.

(** Averages. *)
Theorem C78_suited_average {P} (M : mesh P) V x q v :
  NeedSpec.made_for (d_kind q) (coords_of (q_type M)) -> is_average (d_kind q) = true -> one_radius M (d_id q) ->
  compute M V x q = Ok v ->
  measure_of M (d_kind q) (d_id q) (fun _ => 1) <> 0 /\
  v = measure_of M (d_kind q) (d_id q) (fun p => val (x_function x p)) / measure_of M (d_kind q) (d_id q) (fun _ => 1).
Proof.
  intros Hm Hk Hr. pose proof (suited_allowed _ _ Hm) as Ha. rewrite compute_average by exact Hk. rewrite rdiv_ok. intros [Hd ->].
  assert (Hc : exists k, k <> 0 /\ forall p, located M (d_kind q) (d_id q) p -> weight M p = k * one_r_r2 M (d_kind q) p).
  { destruct (d_kind q) eqn:E; try discriminate Hk;
      try (exists 1; split; [lra|]; intros p _; unfold weight, one_r_r2; destruct (q_type M); cbn in Ha; try discriminate Ha; ring).
    destruct (q_type M) eqn:Et; cbn in Ha; try discriminate Ha.
    - exists 1. split; [lra|]. intros p _. unfold weight, one_r_r2. rewrite Et. ring.
    - destruct (Hr Et) as (r & Hr0 & Hr1). exists (r ^ 2). split; [now apply pow_nonzero|]. intros p [Hp Hz].
      unfold weight, one_r_r2. rewrite Et, (Hr1 p Hp Hz). ring. }
  destruct Hc as (k & Hk0 & Hw).
  assert (Hint : forall f, measure_of M (d_kind q) (d_id q) f = k * integral M (avg_measure (d_kind q) (d_id q)) (fun p => f p * one_r_r2 M (d_kind q) p)).
  { intros f. rewrite <- integral_scale. unfold measure_of, avg_measure in *. unfold located in Hw. destruct (over_volume (d_kind q)).
    - unfold total_in, wsum, integral, points. apply rsum_map_ext. intros p Hp. apply filter_In in Hp. destruct Hp as [Hp Hz]. apply Z.eqb_eq in Hz.
      rewrite Hw by auto. ring.
    - unfold total_on, wsum, integral, points. apply rsum_map_ext. intros p Hp. apply filter_In in Hp. destruct Hp as [Hp Hz]. apply Z.eqb_eq in Hz.
      rewrite Hw by auto. ring. }
  rewrite !Hint. split; [now apply Rmult_integral_contrapositive_currified|]. field. split; assumption.
Qed.
(** Totals and fluxes: the integral over the mesh times the integral of the angular element over the requested ranges. *)
Theorem C78_suited_total {P} (M : mesh P) V x k field id az pol q v :
  NeedSpec.made_for k (coords_of (q_type M)) -> (is_total k || is_flux k = true)%bool -> k <> SurfaceFluxSpherical ->
  make_quantity k field id az pol = Ok q -> compute M V x q = Ok v ->
  exists A, angular k (requested az (documented_azimuth k)) (requested pol (documented_polar k)) A /\
    v = A * measure_of M k (d_id q) (integrand M x q).
Proof.
  intros Hm Hk Hs Hq Hv. apply (C48_solid_angle_partial M V x k field id az pol q v); auto. now apply suited_allowed.
Qed.

(** The other classes are wrong: two points of radii 1 and 2 in the volume 1 and on the surface 1. *)
Definition two_radii (ty : mesh_type) : mesh nat :=
  mkMesh [1; 2]%nat [1; 2]%nat (fun _ => 1) (fun _ => 1%Z) (fun _ => 1%Z) (fun p => INR p) 1 ty.
Definition radius_ctx : context nat :=
  mkCtx (fun p => mkDual (INR p) (fun _ => 1)) (fun _ => 1) (fun _ => 1) (fun _ => 0) (fun _ => dconst 300) (fun _ _ => 1) false.
Theorem C78_unsuited_average k ty field q :
  is_average k = true -> ~ NeedSpec.made_for k (coords_of ty) -> make_quantity k field (IdInt 1) None None = Ok q ->
  exists v, compute (two_radii ty) no_space radius_ctx q = Ok v /\
    v <> measure_of (two_radii ty) k 1 (fun p => val (x_function radius_ctx p)) / measure_of (two_radii ty) k 1 (fun _ => 1).
Proof.
  intros Hk Hm Hq. destruct (make_quantity_fields _ _ _ _ _ _ Hq) as (K & _ & Hi & _). injection Hi as Hi.
  rewrite compute_average by now rewrite K. rewrite K, Hi.
  destruct k; try discriminate Hk; destruct ty; cbn in Hm; try (exfalso; apply Hm; congruence);
    unfold avg_measure, integral, measure_of, total_in, total_on, wsum, points, one_r_r2, weight, radius_ctx; cbn [over_volume two_radii q_cells q_facets q_volume q_surface q_weight q_x0 q_type filter Z.eqb Pos.eqb map x_function val INR];
    rewrite ?rsum_cons, ?rsum_nil; cbn [INR]; eexists; (split; [apply rdiv_ok; split; [lra|reflexivity]|]); intros H;
    match type of H with ?a / ?b = ?c / ?d =>
      assert (H' : a * d = c * b) by (apply (f_equal (fun y => y * (b * d))) in H; revert H; unfold Rdiv; intros H;
        replace (a * / b * (b * d)) with (a * d) in H by (field; lra); replace (c * / d * (b * d)) with (c * b) in H by (field; lra); exact H) end; lra.
Qed.

(** Example: on a sphere of radius 2 AverageSurface is the average, and on the cylinder TotalVolumeCylindrical the total. *)
Definition ball : mesh nat := mkMesh [1; 2]%nat [3]%nat (fun _ => 1) (fun _ => 1%Z) (fun _ => 1%Z) (fun p => match p with 3%nat => 2 | _ => INR p end) 1 Spherical.
Example C78_suited_average_example :
  exists q, make_quantity AverageSurface (LStr "solute") (IdInt 1) None None = Ok q /\
    NeedSpec.made_for (d_kind q) (coords_of (q_type ball)) /\ is_average (d_kind q) = true /\ one_radius ball (d_id q) /\
    compute ball no_space radius_ctx q = Ok 3.
Proof.
  eexists. split; [reflexivity|]. split; [discriminate|]. split; [reflexivity|]. split.
  - intros _. exists 2. split; [lra|]. intros p [<-|[]] _. reflexivity.
  - rewrite compute_average by reflexivity. apply rdiv_ok. cbn. split; [lra|field].
Qed.
Example C78_suited_total_example :
  exists q, make_quantity TotalVolumeCylindrical (LStr "solute") (IdInt 1) (Some (0, PI)) None = Ok q /\
    NeedSpec.made_for TotalVolumeCylindrical (coords_of (q_type (two_radii Cylindrical))) /\
    compute (two_radii Cylindrical) no_space radius_ctx q = Ok (5 * PI).
Proof.
  assert (Hpi : 0 < PI) by apply PI_RGT_0. assert (H2 : ~ PI > 2 * PI) by lra. assert (H0 : ~ 0 < 0) by lra. eexists. split.
  { unfold make_quantity, set_id, bind, range_arg, set_range, azimuth_bounds, polar_bounds. cbn [fst snd].
    destruct (Rlt_dec 0 0); [contradiction|]. destruct (Rgt_dec PI (2 * PI)); [contradiction|]. reflexivity. }
  split; [reflexivity|]. unfold compute, integral, angle. cbn. f_equal. ring.
Qed.
Print Assumptions C78_suited_average.
Print Assumptions C78_suited_total.
Print Assumptions C78_unsuited_average.
