(** C87: the equations do not depend on the position and orientation of the axes. *)
From Coq Require Import Reals ZArith List Bool Lra Lia String.
From Verif Require Import Base.Exc Base.Dual Model.Materials Model.Laws Model.Theta Model.Exports Model.Forms Model.Quantities
  Spec.BalanceSpec Spec.TurnSpec Proofs.ThetaProofs Proofs.FormProofs Proofs.TurnProofs
  Properties.FormProps Properties.TrapProps Properties.NeutralProps.
Import ListNotations.
Local Open Scope R_scope.
Local Open Scope list_scope.

Section Props.
Context {P : Type}.
Implicit Types (M : mesh P).

(** Rotations and mirrors: the fields have the same values and their gradients turned components. *)
Theorem C87_rotation M O mb mb' T T' ms dt traps soret F :
  change_of_axes (q_type M) (q_dim M) O -> turned_mobile (q_dim M) O mb mb' -> turned_temperature (q_dim M) O T T' ->
  define_variational_problem M mb ms T dt traps soret = Ok F ->
  exists G, define_variational_problem M mb' ms T' dt traps soret = Ok G /\ assemble M G = assemble M F.
Proof. intros HO Hm HT. exact (problem_turned M O HO mb mb' T T' Hm HT ms dt traps soret F). Qed.

(** In Cartesian coordinates the origin plays no role. *)
Theorem C87_translation M x0 mb T ms dt traps soret transient tau (u un v : field P) sources bcs :
  q_type M = Cartesian ->
  define_variational_problem (moved M x0) mb ms T dt traps soret = define_variational_problem M mb ms T dt traps soret /\
  heat_form (moved M x0) transient tau u un v ms sources bcs = heat_form M transient tau u un v ms sources bcs /\
  (forall F, assemble (moved M x0) F = assemble M F) /\
  (forall V x q, In (d_kind q) cartesian_kinds -> compute (moved M x0) V x q = compute M V x q).
Proof.
  destruct M as [cells facets w vol surf x dim ty]. cbn [q_type]. intros ->. split; [reflexivity|]. split; [reflexivity|]. split; [reflexivity|].
  intros V y q H. unfold compute. cbv zeta. cbn [In cartesian_kinds] in H. repeat destruct H as [<-|H]; try reflexivity. contradiction.
Qed.

Theorem C87_heat M O transient dt (T N v T' N' v' : field P) ms sources bcs F :
  change_of_axes (q_type M) (q_dim M) O ->
  turned_field (q_dim M) O T T' -> turned_field (q_dim M) O N N' -> turned_field (q_dim M) O v v' ->
  heat_form M transient dt T N v ms sources bcs = Ok F ->
  exists G, heat_form M transient dt T' N' v' ms sources bcs = Ok G /\ assemble M G = assemble M F.
Proof. intros HO. exact (heat_turned M O HO transient dt T N v T' N' v' ms sources bcs F). Qed.

(** The derived quantities: fluxes read gradients and normals, both turned. *)
Theorem C87_quantities M V O x x' (q : dquantity P) :
  change_of_axes (q_type M) (q_dim M) O -> turned_context (q_dim M) O x x' ->
  compute M V x' q = compute M V x q.
Proof. intros HO H. exact (quantity_turned M O HO V x x' q H). Qed.
End Props.
Print Assumptions C87_rotation.
Print Assumptions C87_translation.
Print Assumptions C87_heat.
Print Assumptions C87_quantities.

(** ** Examples: a quarter turn in the plane (theta, Soret, trap, source, fluxes), and the mirror z -> -z. *)
Definition quarter (k i : nat) : R := match k, i with 0%nat, 1%nat => -1 | 1%nat, 0%nat => 1 | _, _ => 0 end.
Definition mirror_z (k i : nat) : R := match k, i with 0%nat, 0%nat => 1 | 1%nat, 1%nat => -1 | _, _ => 0 end.
Definition plane (ty : mesh_type) : mesh nat :=
  mkMesh (q_cells (mesh_ty ty)) (q_facets (mesh_ty ty)) (q_weight (mesh_ty ty)) (q_volume (mesh_ty ty)) (q_surface (mesh_ty ty)) (q_x0 (mesh_ty ty)) 2 ty.
Definition vec (a b : R) (i : nat) : R := match i with 0%nat => a | 1%nat => b | _ => 0 end.
Definition turned_load (a b : R) : mobile nat :=
  mkMobile (ClassTheta (fun p => INR p) (map attrs Q_mats)) (fun p => mkDual (INR p) (vec a b)) (fun _ => dconst 1)
    (fun p => mkDual 1 (vec (2 * a) (2 * b))) sources_1 bcs_1.
Definition turned_T (a b : R) : temperature nat := mkTemp (fun p => mkDual (300 + INR p) (vec a b)) (fun _ => dconst 300).
Lemma quarter_orthogonal : orthogonal 2 quarter.
Proof. intros [|[|i]] [|[|j]] Hi Hj; try lia; unfold rsum; cbn; ring. Qed.
Lemma mirror_orthogonal : orthogonal 2 mirror_z /\ keeps_axis 2 mirror_z.
Proof. split; [intros [|[|i]] [|[|j]] Hi Hj; try lia; unfold rsum; cbn; ring|]. intros [|[|k]] Hk; try lia; reflexivity. Qed.
Lemma turned_vec O a b a' b' : a' = O 0%nat 0%nat * a + O 0%nat 1%nat * b -> b' = O 1%nat 0%nat * a + O 1%nat 1%nat * b -> turned 2 O (vec a b) (vec a' b').
Proof. intros -> -> [|[|k]] Hk; try lia; unfold dot, rsum; cbn; ring. Qed.
Lemma turned_dconst O k : turned 2 O (grd (dconst k)) (grd (dconst k)).
Proof. intros i Hi. unfold dot, rsum; cbn. ring. Qed.
Example C87_example :
  change_of_axes Cartesian 2 quarter /\ turned_mobile 2 quarter (turned_load 3 4) (turned_load (-4) 3) /\
  turned_temperature 2 quarter (turned_T 3 4) (turned_T (-4) 3) /\
  (exists F, define_variational_problem (plane Cartesian) (turned_load 3 4) Q_mats (turned_T 3 4) (Some 2) [trap_1 ones []] true = Ok F) /\
  change_of_axes Cylindrical 2 mirror_z /\ turned_mobile 2 mirror_z (turned_load 3 4) (turned_load 3 (-4)) /\
  turned_temperature 2 mirror_z (turned_T 3 4) (turned_T 3 (-4)) /\
  (exists F, define_variational_problem (plane Cylindrical) (turned_load 3 4) Q_mats (turned_T 3 4) (Some 2) [trap_1 ones []] true = Ok F).
Proof.
  split; [split; [exact quarter_orthogonal|congruence]|].
  split; [split; [reflexivity|]; repeat (split; [intros p; split; [reflexivity|]; (apply turned_dconst || (apply turned_vec; cbn; ring))|]); split; reflexivity|].
  split; [split; intros p; (split; [reflexivity|]; (apply turned_dconst || (apply turned_vec; cbn; ring)))|].
  split; [eexists; reflexivity|].
  split; [split; [apply mirror_orthogonal|intros _; apply mirror_orthogonal]|].
  split; [split; [reflexivity|]; repeat (split; [intros p; split; [reflexivity|]; (apply turned_dconst || (apply turned_vec; cbn; ring))|]); split; reflexivity|].
  split; [split; intros p; (split; [reflexivity|]; (apply turned_dconst || (apply turned_vec; cbn; ring)))|].
  eexists; reflexivity.
Qed.
Example C87_heat_example :
  (exists F, heat_form (plane Cylindrical) true 2 (T_T (turned_T 3 4)) (T_Tn (turned_T 3 4)) ones Q_mats [mkSource (IdOne 1) (fun _ => 3) None]
    [([1; 2]%Z, ConvectiveFlux (fun _ => 3) (fun _ => 10)); ([1]%Z, FluxBC (fun _ => 2))] = Ok F) /\
  turned_context 2 quarter
    (mkCtx (fun p : nat => mkDual 1 (vec 3 4)) (fun _ => 2) (fun _ => 2) (fun _ => 5) (T_T (turned_T 3 4)) (fun _ => vec 1 0) true)
    (mkCtx (fun p => mkDual 1 (vec (-4) 3)) (fun _ => 2) (fun _ => 2) (fun _ => 5) (T_T (turned_T (-4) 3)) (fun _ => vec 0 1) true).
Proof.
  split; [eexists; reflexivity|].
  split; [intros p; split; [reflexivity|apply turned_vec; cbn; ring]|]. split; [intros p; split; [reflexivity|apply turned_vec; cbn; ring]|].
  split; [intros p; apply turned_vec; cbn; ring|]. now repeat split.
Qed.
