(** C89: the derived quantities of the parts of a domain, or of the species, add up to those of the whole. *)
From Coq Require Import Reals ZArith List Bool Lra Lia String.
From Verif Require Import Base.Exc Base.Key Base.Dual Model.Exports Model.Laws Model.Materials Model.Theta Model.Fields Model.Forms Model.Quantities
  Spec.BalanceSpec Spec.QuantitySpec Spec.AgreeSpec Proofs.ThetaProofs Proofs.FormProofs Proofs.FieldProofs Proofs.QuantityProofs
  Proofs.AgreeProofs Properties.QuantityProps.
Import ListNotations.
Local Open Scope R_scope.
Local Open Scope string_scope.
Local Open Scope list_scope.

Section Props.
Context {P : Type}.
Implicit Types (M : mesh P) (x : context P) (q : dquantity P).

(** Totals, fluxes and adsorbed amounts of two volumes or surfaces add up to those of their union. *)
Theorem C89_union_sum M M' V V' z1 z2 z x q v1 v2 :
  united z1 z2 z M M' -> sort_of (d_kind q) = Sum ->
  compute M V x (on z1 q) = Ok v1 -> compute M V x (on z2 q) = Ok v2 -> compute M' V' x (on z q) = Ok (v1 + v2).
Proof. exact (union_sum M M' V V' z1 z2 z x q v1 v2). Qed.

(** The average over the union is the mean of the two averages, weighted by their extents. *)
Theorem C89_union_mean M M' V V' z1 z2 z x q v1 v2 e1 e2 :
  united z1 z2 z M M' -> sort_of (d_kind q) = Mean -> proper M ->
  compute M V x (on z1 q) = Ok v1 -> compute M V x (on z2 q) = Ok v2 ->
  (let unit_total := as_kind (total_of (d_kind q)) (mkDq (d_kind q) (d_field q) z (0, 1) (0, PI / 2) (d_show q) (d_point q)) in
   compute M V (reading (fun _ => dconst 1) x) (on z1 unit_total) = Ok e1 /\
   compute M V (reading (fun _ => dconst 1) x) (on z2 unit_total) = Ok e2) ->
  e1 + e2 <> 0 /\ compute M' V' x (on z q) = Ok ((e1 * v1 + e2 * v2) / (e1 + e2)).
Proof. exact (union_mean M M' V V' z1 z2 z x q v1 v2 e1 e2). Qed.

(** The maximum (minimum) over the union is the larger (smaller) of the two. *)
Theorem C89_union_extremum M V V' z1 z2 z x q v1 v2 :
  united_space z1 z2 z V V' ->
  compute M V x (on z1 q) = Ok v1 -> compute M V x (on z2 q) = Ok v2 ->
  (sort_of (d_kind q) = Largest -> compute M V' x (on z q) = Ok (Rmax v1 v2)) /\
  (sort_of (d_kind q) = Smallest -> compute M V' x (on z q) = Ok (Rmin v1 v2)).
Proof. exact (union_extremum M V V' z1 z2 z x q v1 v2). Qed.

(** The total, average or point value of "retention" is the sum of the ones of "solute" and of the traps. *)
Theorem C89_retention M V x q (mobile : P -> dual) (trap : nat -> P -> dual) (ids : list Z) f u us :
  NoDup ids ->
  is_total (d_kind q) = true \/ is_average (d_kind q) = true \/ d_kind q = PointValue ->
  let d := label_to_function fzero fplus mobile trap ids in
  dict_get d (KS "retention") = Some f ->
  (exists g, dict_get d (KS "solute") = Some g /\ compute M V (reading g x) q = Ok u) ->
  Forall2 (fun z v => exists g, dict_get d (KI z) = Some g /\ compute M V (reading g x) q = Ok v) ids us ->
  compute M V (reading f x) q = Ok (fold_right Rplus u us).
Proof. exact (retention_sum M V x q mobile trap ids f u us). Qed.

(** HydrogenFlux is SurfaceFlux("solute") and ThermalFlux is SurfaceFlux("T"), whatever the argument given as field; the three names of the
    mobile species are the same quantity. *)
Theorem C89_same_flux M V x field id q :
  (make_quantity HydrogenFlux field id None None = Ok q ->
   forall l, solute_label l -> exists q', make_quantity SurfaceFlux l id None None = Ok q' /\ compute M V x q = compute M V x q') /\
  (make_quantity ThermalFlux field id None None = Ok q ->
   exists q', make_quantity SurfaceFlux (LStr "T") id None None = Ok q' /\ compute M V x q = compute M V x q').
Proof. exact (same_flux M V x field id q). Qed.

(** On a spherical mesh AverageSurface (the only average of surfaces there) is the mean by area of a surface at one radius. *)
Theorem C89_spherical_average M V x q v t e r :
  d_kind q = TotalSurfaceSpherical -> (forall p, In p (q_facets M) -> q_surface M p = d_id q -> q_x0 M p = r) ->
  compute M V x (as_kind AverageSurface q) = Ok v ->
  compute M V x q = Ok t -> compute M V (reading (fun _ => dconst 1) x) q = Ok e -> t = v * e.
Proof. exact (spherical_average M V x q v t e r). Qed.
End Props.
Print Assumptions C89_union_sum.
Print Assumptions C89_union_mean.
Print Assumptions C89_union_extremum.
Print Assumptions C89_retention.
Print Assumptions C89_same_flux.
Print Assumptions C89_spherical_average.

(** It is not when a surface has parts at two radii: the inner and the outer face of a hollow sphere, of radii 1 and 2, with the same id.
    The field is 0 inside and 1 outside: the mean by area is 4 / 5, AverageSurface gives 1 / 2. *)
Definition shell : mesh nat := mkMesh [] [1; 2]%nat (fun _ => 1) (fun _ => 1%Z) (fun _ => 1%Z) (fun p => INR p) 1 Spherical.
Definition shell_ctx : context nat :=
  mkCtx (fun p => dconst (INR p - 1)) (fun _ => 1) (fun _ => 1) (fun _ => 0) (fun _ => dconst 300) (fun _ _ => 1) false.
Theorem C89_spherical_average_refuted :
  exists (M : mesh nat) V x q v t e, proper M /\ q_type M = Spherical /\ allowed_mesh AverageSurface (q_type M) = true /\
    make_quantity TotalSurfaceSpherical (LStr "solute") (IdInt 1) None None = Ok q /\
    compute M V x (as_kind AverageSurface q) = Ok v /\
    compute M V x q = Ok t /\ compute M V (reading (fun _ => dconst 1) x) q = Ok e /\ t <> v * e.
Proof.
  assert (HPI := PI_RGT_0).
  exists shell, bar_fe, shell_ctx. eexists _, (1 / 2), (4 * (4 * PI)), (5 * (4 * PI)).
  split; [split; intros p; cbn; [lra|apply pos_INR]|]. split; [reflexivity|]. split; [reflexivity|]. split.
  { unfold make_quantity, set_id, bind, range_arg, set_range, azimuth_bounds, polar_bounds. cbn [fst snd].
    destruct (Rlt_dec 0 0); [lra|]. destruct (Rgt_dec (2 * PI) (2 * PI)); [lra|]. destruct (Rgt_dec PI PI); [lra|]. reflexivity. }
  split; [|split; [|split]].
  - unfold compute, rdiv, integral. cbn. destruct (Req_EM_T _ 0); [lra|]. f_equal. field.
  - unfold compute, integral, angle. cbn. rewrite cos_0, cos_PI. f_equal. ring.
  - unfold compute, integral, angle. cbn. rewrite cos_0, cos_PI. f_equal. ring.
  - lra.
Qed.
Print Assumptions C89_spherical_average_refuted.

(** ** Examples: the two halves of a bar, of unequal extents, and the whole. *)
Definition uneven : mesh nat :=
  mkMesh [0; 1]%nat [2; 3]%nat (fun p => if Nat.eqb p 0 then 1 else 3) (fun p => if Nat.eqb p 0 then 1 else 2)%Z
    (fun p => if Nat.eqb p 2 then 1 else 2)%Z (fun p => INR p) 1 Cartesian.
Definition whole : mesh nat :=
  mkMesh [0; 1]%nat [2; 3]%nat (fun p => if Nat.eqb p 0 then 1 else 3) (fun _ => 5%Z) (fun _ => 5%Z) (fun p => INR p) 1 Cartesian.
Definition whole_fe : fespace := mkFe [5; 5]%Z [5; 0; 5]%Z [[0; 1]; [1; 2]]%nat [2; 4; 10].
Definition steep : context nat :=
  mkCtx (fun p => mkDual (if Nat.eqb p 0 then 3 else if Nat.eqb p 1 then 7 else if Nat.eqb p 2 then 2 else 10) (fun _ => INR p))
    (fun _ => 1) (fun _ => 1) (fun _ => 0) (fun _ => dconst 300) (fun _ _ => 1) false.
Ltac decide_r := repeat match goal with
  | |- context [Rle_dec ?a ?b] => destruct (Rle_dec a b)
  | |- context [Req_EM_T ?a ?b] => destruct (Req_EM_T a b)
  end; try (exfalso; lra).
Example C89_union_example :
  united 1 2 5 uneven whole /\ united_space 1 2 5 bar_fe whole_fe /\ proper uneven /\
  (compute uneven bar_fe steep (on 1 (on_bar TotalVolume 5)) = Ok 3 /\ compute uneven bar_fe steep (on 2 (on_bar TotalVolume 5)) = Ok 21 /\
   compute whole whole_fe steep (on 5 (on_bar TotalVolume 5)) = Ok 24) /\
  (compute uneven bar_fe steep (on 1 (on_bar SurfaceFlux 5)) = Ok 6 /\ compute uneven bar_fe steep (on 2 (on_bar SurfaceFlux 5)) = Ok 9 /\
   compute whole whole_fe steep (on 5 (on_bar SurfaceFlux 5)) = Ok 15) /\
  (compute uneven bar_fe steep (on 1 (on_bar AverageVolume 5)) = Ok 3 /\ compute uneven bar_fe steep (on 2 (on_bar AverageVolume 5)) = Ok 7 /\
   compute whole whole_fe steep (on 5 (on_bar AverageVolume 5)) = Ok 6) /\
  (compute uneven bar_fe steep (on 1 (on_bar MaximumVolume 5)) = Ok 4 /\ compute uneven bar_fe steep (on 2 (on_bar MaximumVolume 5)) = Ok 10 /\
   compute whole whole_fe steep (on 5 (on_bar MaximumVolume 5)) = Ok 10).
Proof.
  split.
  { split; try reflexivity; [lia|..]; intros p [<-|[<-|[]]]; unfold stands; cbn; intuition lia. }
  split.
  { split; try reflexivity; repeat constructor; unfold stands; intuition lia. }
  split; [split; intros p; cbn; [destruct (Nat.eqb p 0); lra|apply pos_INR]|].
  split; [|split; [|split]]; (split; [|split]).
  1-3: unfold compute, integral, angle; cbn; f_equal; ring.
  1-3: unfold compute, flux_integral, integral, angle, dot; cbn; f_equal; lra.
  1-3: unfold compute, rdiv, integral; cbn; decide_r; f_equal; field.
  all: unfold compute, extremum; cbn; f_equal; unfold Rmax; decide_r; lra.
Qed.
Example C89_retention_example : let d := label_to_function fzero fplus (fun _ : nat => dconst 3) (fun i _ => dconst (INR i)) [5; 7]%Z in
  NoDup [5; 7]%Z /\ (exists f, dict_get d (KS "retention") = Some f /\ compute uneven bar_fe (reading f steep) (on_bar AverageVolume 2) = Ok 6) /\
  (exists g, dict_get d (KS "solute") = Some g /\ compute uneven bar_fe (reading g steep) (on_bar AverageVolume 2) = Ok 3) /\
  Forall2 (fun z v => exists g, dict_get d (KI z) = Some g /\ compute uneven bar_fe (reading g steep) (on_bar AverageVolume 2) = Ok v)
    [5; 7]%Z [1; 2].
Proof.
  split; [repeat constructor; cbn; intuition discriminate|]. split; [|split].
  - eexists. split; [reflexivity|]. unfold compute, rdiv, integral; cbn; decide_r; f_equal; field.
  - eexists. split; [reflexivity|]. unfold compute, rdiv, integral; cbn; decide_r; f_equal; field.
  - repeat constructor; eexists; (split; [reflexivity|]); unfold compute, rdiv, integral; cbn; decide_r; f_equal; field.
Qed.
Example C89_flux_example :
  exists q, make_quantity HydrogenFlux (LStr "T") (IdInt 2) None None = Ok q /\ compute uneven bar_fe steep q = Ok 9.
Proof. eexists. split; [reflexivity|]. unfold compute, flux_integral, integral, angle, dot; cbn; f_equal; lra. Qed.
Example C89_spherical_example :
  let M := mkMesh [] [1; 2]%nat (fun _ => 1) (fun _ => 1%Z) (fun p => Z.of_nat p) (fun p => INR p) 1 Spherical in
  (forall p, In p (q_facets M) -> q_surface M p = 2%Z -> q_x0 M p = 2) /\
  compute M bar_fe shell_ctx (on_bar AverageSurface 2) = Ok 1.
Proof.
  split.
  - intros p [<-|[<-|[]]]; cbn; [discriminate|lra].
  - unfold compute, rdiv, integral; cbn; decide_r; f_equal; field.
Qed.
