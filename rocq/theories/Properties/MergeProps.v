(** C84: traps of the same kind act as one trap with all their sites. *)
From Coq Require Import Reals ZArith List Bool Lra Lia.
From Verif Require Import Base.Exc Base.Dual Model.Materials Model.Laws Model.Theta Model.Forms
  Spec.BalanceSpec Spec.MergeSpec Proofs.ThetaProofs Proofs.FormProofs Proofs.SplitProofs Proofs.MergeProofs
  Properties.FormProps Properties.TrapProps.
Import ListNotations.
Local Open Scope R_scope.
Local Open Scope list_scope.

Section Props.
Context {P : Type}.
Implicit Types (M : mesh P).

(** The problem with the two traps and the problem with one trap holding the sites and the hydrogen of both. *)
Theorem C84_together M mb ms T dt soret l1 t u l2 F :
  same_kind t u -> define_variational_problem M mb ms T dt (l1 ++ t :: u :: l2) soret = Ok F ->
  exists G, define_variational_problem M mb ms T dt (l1 ++ together t u :: l2) soret = Ok G /\ assemble M G = assemble M F.
Proof.
  intros Hk. unfold define_variational_problem, mobile_create_form, create_diffusion_form.
  rewrite !sum_forms_app. cbn [sum_forms].
  destruct (sum_forms (material_form M mb T dt soret) ms) as [F0|e]; cbn [bind]; [|discriminate].
  match goal with |- bind (bind (bind (bind ?x _) _) _) _ = _ -> _ => destruct x as [A1|e] end; cbn [bind]; [|discriminate].
  match goal with |- bind (bind (bind (bind (bind ?x _) _) _) _) _ = _ -> _ => destruct x as [A2|e] eqn:H2 end; cbn [bind]; [|discriminate].
  match goal with |- bind (bind (bind (bind (bind (bind ?x _) _) _) _) _) _ = _ -> _ => destruct x as [A3|e] eqn:H3 end; cbn [bind]; [|discriminate].
  match goal with |- bind (bind (bind (bind (bind (bind ?x _) _) _) _) _) _ = _ -> _ => destruct x as [A4|e] end; cbn [bind]; [|discriminate].
  destruct (mobile_enum_together M mb T t u A2 A3 Hk H2 H3) as (N & -> & HN). cbn [bind].
  match goal with |- bind (bind ?x _) _ = _ -> _ => destruct x as [B1|e] end; cbn [bind]; [|discriminate].
  destruct (trap_create_form mb ms T dt t) as [B2|e] eqn:D2; cbn [bind]; [|discriminate].
  destruct (trap_create_form mb ms T dt u) as [B3|e] eqn:D3; cbn [bind]; [|discriminate].
  match goal with |- bind (bind (bind (bind ?x _) _) _) _ = _ -> _ => destruct x as [B4|e] end; cbn [bind]; [|discriminate].
  destruct (trap_together M mb ms T dt t u B2 B3 Hk D2 D3) as (N' & -> & HN'). cbn [bind].
  intros H. apply Ok_inj in H. subst F. eexists. split; [reflexivity|].
  rewrite !assemble_app, !assemble_neg, !assemble_app, HN, HN'. lra.
Qed.

(** A part of a trap solves its equation when the trap does, and holds its share of the exchange with the mobile
    species: a trap may be divided at will. *)
Theorem C84_fraction M mb ms T dt a t K : trap_create_form mb ms T dt t = Ok K ->
  exists N, trap_create_form mb ms T dt (fraction a t) = Ok N /\ assemble M N = a * assemble M K.
Proof. apply trap_fraction. Qed.
Theorem C84_divided M mb ms T dt soret l1 a t l2 F :
  define_variational_problem M mb ms T dt (l1 ++ t :: l2) soret = Ok F ->
  exists G, define_variational_problem M mb ms T dt (l1 ++ fraction a t :: fraction (1 - a) t :: l2) soret = Ok G /\
    assemble M G = assemble M F.
Proof.
  unfold define_variational_problem, mobile_create_form, create_diffusion_form.
  rewrite !sum_forms_app. cbn [sum_forms].
  destruct (sum_forms (material_form M mb T dt soret) ms) as [F0|e]; cbn [bind]; [|discriminate].
  match goal with |- bind (bind (bind (bind ?x _) _) _) _ = _ -> _ => destruct x as [A1|e] end; cbn [bind]; [|discriminate].
  match goal with |- bind (bind (bind (bind (bind ?x _) _) _) _) _ = _ -> _ => destruct x as [A2|e] eqn:H2 end; cbn [bind]; [|discriminate].
  match goal with |- bind (bind (bind (bind (bind ?x _) _) _) _) _ = _ -> _ => destruct x as [A4|e] end; cbn [bind]; [|discriminate].
  destruct (mobile_enum_fraction M mb T a t A2 H2) as (N & -> & HN). cbn [bind].
  destruct (mobile_enum_fraction M mb T (1 - a) t A2 H2) as (N' & -> & HN'). cbn [bind].
  match goal with |- bind (bind ?x _) _ = _ -> _ => destruct x as [B1|e] end; cbn [bind]; [|discriminate].
  destruct (trap_create_form mb ms T dt t) as [B2|e] eqn:D2; cbn [bind]; [|discriminate].
  match goal with |- bind (bind (bind ?x _) _) _ = _ -> _ => destruct x as [B4|e] end; cbn [bind]; [|discriminate].
  destruct (trap_fraction M mb ms T dt a t B2 D2) as (Q & -> & HQ). cbn [bind].
  destruct (trap_fraction M mb ms T dt (1 - a) t B2 D2) as (Q' & -> & HQ'). cbn [bind].
  intros H. apply Ok_inj in H. subst F. eexists. split; [reflexivity|].
  rewrite !assemble_app, !assemble_neg, !assemble_app, HN, HN', HQ, HQ'. lra.
Qed.
End Props.
Print Assumptions C84_together.
Print Assumptions C84_fraction.
Print Assumptions C84_divided.

(** ** Example: two traps with lists of parameters in two materials. *)
Definition kind (n : R) (sol prev : field nat) (ss : list (source nat)) : trap nat :=
  mkTrap (PerMat [6; 5]) (PerMat [0; 0]) (PerMat [2; 3]) (PerMat [0; 0]) [fun _ => n; fun p => n + INR p] two_mats sol prev ones ss.
Example C84_example : let M := mesh_ty Cartesian in
  let t := kind 8 (fun _ => dconst 4) ones [mkSource (IdOne 1) (fun _ => 2) None] in let u := kind 20 ones ones [] in
  same_kind t u /\
  (forall p, val (t_solution (together t u) p) = 5) /\
  (exists F, define_variational_problem M rest_mobile two_mats T_rest (Some 2) ([rest_trap] ++ t :: u :: []) false = Ok F) /\
  exists F, trap_create_form rest_mobile two_mats T_rest (Some 2) u = Ok F /\ assemble M F <> 0.
Proof.
  intros M t u. split; [repeat split; try reflexivity; intros s [[<-|[]]|[]]; reflexivity|]. split; [intros p; cbn; lra|].
  split; [eexists; reflexivity|]. eexists. split; [reflexivity|].
  unfold assemble, integral, points. cbn. rewrite !exp_zero. lra.
Qed.

(** The hypothesis on decay is needed: a decay source is not shared; two traps of the same kind of which one decays are not one trap. *)
Theorem C84_decay_needed : exists (M : mesh nat) mb ms T dt t u K L N,
  t_k0 u = t_k0 t /\ t_Ek u = t_Ek t /\ t_p0 u = t_p0 t /\ t_Ep u = t_Ep t /\ t_materials u = t_materials t /\ t_test u = t_test t /\
  trap_create_form mb ms T dt t = Ok K /\ trap_create_form mb ms T dt u = Ok L /\
  trap_create_form mb ms T dt (together t u) = Ok N /\ assemble M N <> assemble M K + assemble M L.
Proof.
  exists (mesh_ty Cartesian), rest_mobile, two_mats, T_rest, (Some 2),
    (kind 8 ones ones [mkSource (IdOne 1) (fun _ => 0) (Some 1)]), (kind 8 ones ones []).
  do 3 eexists. do 6 (split; [reflexivity|]). do 3 (split; [reflexivity|]).
  unfold assemble, integral, points. cbn. unfold decay_form. cbn. rewrite !exp_zero. lra.
Qed.
Print Assumptions C84_decay_needed.
