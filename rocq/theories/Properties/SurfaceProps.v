(** C71: surfaces with kinetics. *)
From Coq Require Import Reals ZArith List Bool Lra Lia Psatz.
From Verif Require Import Base.Exc Base.Dual Model.Materials Model.Laws Model.Theta Model.Forms
  Spec.PhysSpec Spec.BalanceSpec Spec.SurfaceSpec Proofs.LawProofs Proofs.ThetaProofs Proofs.FormProofs Proofs.SurfaceProofs
  Properties.FormProps.
Import ListNotations.
Local Open Scope R_scope.
Local Open Scope list_scope.

(** The test function of an adsorbed species selects its equation: the adsorbed concentration changes by what
    comes from the subsurface, minus what goes there, plus the flux from the vacuum. *)
Theorem C71_adsorbed {P} (M : mesh P) mb ms T dt traps soret c c_n F s a B1 B2 A1 A2 p :
  covered M ms -> concentrations M mb T ms c c_n -> solubility_field M mb T ms ->
  one_of mb s a B1 B2 A1 A2 -> only_adsorbed mb traps B1 B2 A1 A2 -> vertex M (a_surface a) p -> val (a_test a p) <> 0 ->
  sk_n_IS s <> 0 -> sk_n_surf s <> 0 ->
  define_variational_problem M mb ms T dt traps soret = Ok F ->
  let Tp := val (T_T T p) in let c_s := val (a_solution a p) in
  assemble M F = 0 <->
  match dt with Some dt => (c_s - val (a_previous a p)) / dt | None => 0 end
  = to_surface s Tp c_s (c p) p - to_bulk s Tp c_s (c p) p + sk_J_vs s Tp c_s (c p) p.
Proof.
  intros Hcov Hc HS Hone [Hv [Ht [Hb Ha]]] Hp Htest HI Hn HF Tp c_s.
  assert (Hin : In p (q_facets M)).
  { assert (H : In p (filter (fun q => Z.eqb (q_surface M q) (a_surface a)) (q_facets M))) by (rewrite (proj1 Hp); now left).
    apply filter_In in H. tauto. }
  assert (Hcp : mobile_concentration M mb p = c p) by (apply (mobile_concentration_val M mb T ms c c_n); auto).
  rewrite (only_fluxes M mb ms T dt traps soret F Hv Ht HF), (one_adsorbed M mb T dt s a B1 B2 A1 A2 Hone Hv Hb Ha).
  assert (E : assemble M (surface_kinetics_terms s (mobile_concentration M mb) (fun p => val (mb_previous mb p)) (mb_test mb) (T_T T) dt a)
              = q_weight M p * val (a_test a p) *
                (match dt with Some dt => (c_s - val (a_previous a p)) / dt | None => 0 end
                 - (to_surface s Tp c_s (c p) p - to_bulk s Tp c_s (c p) p + sk_J_vs s Tp c_s (c p) p))).
  { unfold surface_kinetics_terms. cbv zeta. rewrite assemble_app, !assemble_cons, assemble_nil. cbn [fst snd].
    rewrite (integral_zero M _ (fun p => _ * val (mb_test mb p))) by (intros q _; rewrite (proj1 (Hv q)); ring).
    rewrite (integral_vertex M _ p _ Hp). unfold to_surface, to_bulk, Tp, c_s. rewrite Hcp.
    replace ((sk_n_IS s - c p) / sk_n_IS s) with (1 - c p / sk_n_IS s) by (field; exact HI).
    replace ((sk_n_surf s - val (a_solution a p)) / sk_n_surf s) with (1 - val (a_solution a p) / sk_n_surf s) by (field; exact Hn).
    destruct dt as [dt|]; rewrite ?assemble_cons, assemble_nil; cbn [fst snd].
    - rewrite (integral_zero M _ (fun p => _ / dt * val (mb_test mb p))) by (intros q _; rewrite (proj1 (Hv q)); ring).
      rewrite (integral_vertex M _ p _ Hp). ring.
    - ring. }
  rewrite E. split; intros H; [|rewrite H; ring].
  apply Rmult_integral in H. destruct H as [H|H]; [|lra]. apply Rmult_integral in H. destruct H; [now apply (proj2 Hp) in H|contradiction].
Qed.
Print Assumptions C71_adsorbed.

(** Coverage: with rates that are not negative, a concentration between 0 and n_IS and a vacuum flux that does
    not fill a full surface nor empty an empty one, the coverage stays between 0 and n_surf, whatever the stepsize. *)
Theorem C71_coverage {P} (M : mesh P) mb ms T dt traps soret c c_n F s a B1 B2 A1 A2 p :
  covered M ms -> concentrations M mb T ms c c_n -> solubility_field M mb T ms ->
  one_of mb s a B1 B2 A1 A2 -> only_adsorbed mb traps B1 B2 A1 A2 -> vertex M (a_surface a) p -> val (a_test a p) <> 0 ->
  0 < sk_n_IS s -> 0 < sk_n_surf s -> 0 < dt ->
  define_variational_problem M mb ms T (Some dt) traps soret = Ok F -> assemble M F = 0 ->
  let Tp := val (T_T T p) in
  (forall x, 0 <= sk_k_sb s Tp x (c p) p) -> (forall x, 0 <= sk_k_bs s Tp x (c p) p) ->
  (forall x, sk_n_surf s < x -> sk_J_vs s Tp x (c p) p <= 0) -> (forall x, x < 0 -> 0 <= sk_J_vs s Tp x (c p) p) ->
  0 <= c p <= sk_n_IS s ->
  0 <= val (a_previous a p) <= sk_n_surf s ->
  0 <= val (a_solution a p) <= sk_n_surf s.
Proof.
  intros Hcov Hc HS Hone Honly Hp Htest HI Hn Hdt HF E Tp Hsb Hbs Hmax Hmin Hcp Hprev.
  apply (C71_adsorbed M mb ms T (Some dt) traps soret c c_n F s a B1 B2 A1 A2 p) in E; try assumption; try lra.
  fold Tp in E. set (c_s := val (a_solution a p)) in *. unfold to_surface, to_bulk in E.
  specialize (Hsb c_s). specialize (Hbs c_s). specialize (Hmax c_s). specialize (Hmin c_s).
  set (J := sk_J_vs s Tp c_s (c p) p) in *. set (k := sk_k_sb s Tp c_s (c p) p) in *. set (l := sk_k_bs s Tp c_s (c p) p) in *.
  assert (Hfree : 0 <= (sk_n_IS s - c p) / sk_n_IS s) by (apply Rmult_le_pos; [lra|apply Rlt_le, Rinv_0_lt_compat, HI]).
  assert (Hi : 0 < / sk_n_surf s) by now apply Rinv_0_lt_compat.
  assert (Hd : (c_s - val (a_previous a p)) = dt * (l * c p * ((sk_n_surf s - c_s) / sk_n_surf s) - k * c_s * ((sk_n_IS s - c p) / sk_n_IS s) + J)).
  { rewrite <- E. field. lra. }
  assert (Hlc : 0 <= l * c p) by (apply Rmult_le_pos; lra).
  split.
  - destruct (Rle_or_lt 0 c_s) as [H|H]; [exact H|exfalso]. specialize (Hmin H).
    assert (A : 0 <= l * c p * ((sk_n_surf s - c_s) / sk_n_surf s)) by (apply Rmult_le_pos; [exact Hlc|]; apply Rmult_le_pos; lra).
    assert (B : 0 <= k * (- c_s) * ((sk_n_IS s - c p) / sk_n_IS s)) by (apply Rmult_le_pos; [apply Rmult_le_pos; lra|exact Hfree]).
    assert (C : 0 <= dt * (l * c p * ((sk_n_surf s - c_s) / sk_n_surf s) - k * c_s * ((sk_n_IS s - c p) / sk_n_IS s) + J))
      by (apply Rmult_le_pos; lra).
    lra.
  - destruct (Rle_or_lt c_s (sk_n_surf s)) as [H|H]; [exact H|exfalso]. specialize (Hmax H).
    assert (A : 0 <= l * c p * ((c_s - sk_n_surf s) / sk_n_surf s)) by (apply Rmult_le_pos; [exact Hlc|]; apply Rmult_le_pos; lra).
    assert (B : 0 <= k * c_s * ((sk_n_IS s - c p) / sk_n_IS s)) by (apply Rmult_le_pos; [apply Rmult_le_pos; lra|exact Hfree]).
    assert (A' : l * c p * ((c_s - sk_n_surf s) / sk_n_surf s) = - (l * c p * ((sk_n_surf s - c_s) / sk_n_surf s))) by (field; lra).
    assert (C : 0 <= dt * - (l * c p * ((sk_n_surf s - c_s) / sk_n_surf s) - k * c_s * ((sk_n_IS s - c p) / sk_n_IS s) + J))
      by (apply Rmult_le_pos; lra).
    lra.
Qed.
Print Assumptions C71_coverage.

(** Steady state: the coverage the rates impose. *)
Theorem C71_steady {P} (M : mesh P) mb ms T traps soret c c_n F s a B1 B2 A1 A2 p :
  covered M ms -> concentrations M mb T ms c c_n -> solubility_field M mb T ms ->
  one_of mb s a B1 B2 A1 A2 -> only_adsorbed mb traps B1 B2 A1 A2 -> vertex M (a_surface a) p -> val (a_test a p) <> 0 ->
  0 < sk_n_IS s -> 0 < sk_n_surf s ->
  define_variational_problem M mb ms T None traps soret = Ok F -> assemble M F = 0 ->
  let c_s := val (a_solution a p) in
  let from_bulk := sk_k_bs s (val (T_T T p)) c_s (c p) p * c p in
  let k_sb := sk_k_sb s (val (T_T T p)) c_s (c p) p in
  let J := sk_J_vs s (val (T_T T p)) c_s (c p) p in
  from_bulk + k_sb * sk_n_surf s * (1 - c p / sk_n_IS s) <> 0 ->
  c_s / sk_n_surf s = (from_bulk + J) / (from_bulk + k_sb * sk_n_surf s * (1 - c p / sk_n_IS s)).
Proof.
  intros Hcov Hc HS Hone Honly Hp Htest HI Hn HF E c_s fb k J Hnz.
  apply (C71_adsorbed M mb ms T None traps soret c c_n F s a B1 B2 A1 A2 p) in E; try assumption; try lra.
  unfold to_surface, to_bulk in E. fold c_s in E. fold k in E. fold fb in E. fold J in E.
  assert (E' : (fb + J) * sk_n_surf s = c_s * (fb + k * sk_n_surf s * (1 - c p / sk_n_IS s))).
  { apply (Rmult_eq_reg_r (/ sk_n_surf s)); [|apply Rinv_neq_0_compat; lra].
    transitivity (fb + J); [field; lra|]. apply (Rplus_eq_reg_r (- (fb * c_s / sk_n_surf s) - k * c_s * ((sk_n_IS s - c p) / sk_n_IS s))).
    transitivity (fb * ((sk_n_surf s - c_s) / sk_n_surf s) - k * c_s * ((sk_n_IS s - c p) / sk_n_IS s) + J).
    - field. lra.
    - rewrite <- E. field. lra. }
  apply (Rmult_eq_reg_r (sk_n_surf s)); [|lra].
  replace (c_s / sk_n_surf s * sk_n_surf s) with c_s by (field; lra).
  replace ((fb + J) / (fb + k * sk_n_surf s * (1 - c p / sk_n_IS s)) * sk_n_surf s)
    with ((fb + J) * sk_n_surf s / (fb + k * sk_n_surf s * (1 - c p / sk_n_IS s))) by (unfold Rdiv; ring).
  rewrite E'. unfold Rdiv. now rewrite Rmult_assoc, Rinv_r, Rmult_1_r.
Qed.
Print Assumptions C71_steady.

(** For the other species the condition is a flux: what the surface gives, minus what it takes, minus what the
    layer of thickness lambda_IS stores.  (Steady state, or concentration as the unknown.) *)
Theorem C71_bulk {P} (M : mesh P) mb ms T dt traps soret c c_n F s B1 B2 :
  covered M ms -> concentrations M mb T ms c c_n -> solubility_field M mb T ms ->
  mb_class mb = ClassMobile \/ dt = None ->
  mb_bcs mb = B1 ++ BSurf s :: B2 -> (forall a, In a (sk_adsorbed s) -> null (a_test a)) ->
  sk_n_IS s <> 0 -> sk_n_surf s <> 0 ->
  define_variational_problem M mb ms T dt traps soret = Ok F ->
  exists F', define_variational_problem M (with_bcs mb (B1 ++ map (equivalent_flux dt (T_T T) s c c_n) (sk_adsorbed s) ++ B2))
               ms T dt traps soret = Ok F' /\ assemble M F' = assemble M F.
Proof.
  intros Hcov Hc HS Hcl HB Ha HI Hn HF.
  destruct (pieces_bcs M mb (B1 ++ map (equivalent_flux dt (T_T T) s c c_n) (sk_adsorbed s) ++ B2) ms T dt traps soret F HF)
    as [F' [HF' E]]. exists F'. split; [exact HF'|].
  enough (Z : assemble M (create_fluxes_form M (with_bcs mb (B1 ++ map (equivalent_flux dt (T_T T) s c c_n) (sk_adsorbed s) ++ B2)) T dt)
              = assemble M (create_fluxes_form M mb T dt)) by lra.
  unfold create_fluxes_form. cbn [with_bcs mb_bcs]. rewrite HB, !assemble_flat_map, !sum_over_app, sum_over_cons.
  assert (Eb : forall b, flux_terms M (with_bcs mb (B1 ++ map (equivalent_flux dt (T_T T) s c c_n) (sk_adsorbed s) ++ B2)) T dt b
               = flux_terms M mb T dt b) by reflexivity.
  rewrite !(sum_over_ext _ (fun a => assemble M (flux_terms M (with_bcs mb _) T dt a)) (fun b => assemble M (flux_terms M mb T dt b)))
    by (intros b _; now rewrite Eb).
  f_equal. f_equal. rewrite sum_over_map. cbn [flux_terms]. rewrite assemble_flat_map. apply sum_over_ext. intros a Hin.
  rewrite (surface_terms_bulk M s _ _ c c_n); [|auto|exact HI|exact Hn| |].
  - unfold equivalent_flux. cbn [flux_terms map]. rewrite assemble_cons, assemble_nil. cbn [fst snd flux_form]. now rewrite Rplus_0_r.
  - intros p Hp. apply (mobile_concentration_val M mb T ms c c_n); auto.
  - intros Hdt p Hp. destruct Hcl as [Hcl|Hcl]; [|contradiction].
    destruct Hcov as [_ Hcov]. specialize (Hcov p (or_intror Hp)). apply in_flat_map in Hcov. destruct Hcov as [m [Hm Hz]].
    specialize (Hc p (or_intror Hp) m Hm Hz). unfold concentration_at in Hc. rewrite Hcl in Hc. symmetry. tauto.
Qed.
Print Assumptions C71_bulk.

(** ** Examples *)
Definition zeros : field nat := fun _ => dconst 0.
Lemma null_zeros : null zeros.
Proof. intros p. split; [reflexivity|]. intros i. reflexivity. Qed.
Definition sk_2 (k : R) (J : R -> R) (c_s prev : R) (test : field nat) : surface_kinetics nat :=
  mkSK (fun _ _ _ _ => k * 2) (fun _ _ _ _ => k * 3) (fun _ x _ _ => J x) (1 / 2) 10 20
    [mkAds 1 (fun _ => dconst c_s) (fun _ => dconst prev) test; mkAds 2 (fun _ => dconst 1) (fun _ => dconst 1) zeros].
Definition problem_2 k J c_s prev dt :=
  define_variational_problem (mesh_ty Cartesian) (mobile_1 ClassMobile zeros [] (bcs_1 ++ [BSurf (sk_2 k J c_s prev ones)])) two_mats T400 dt
    [trap_1 zeros []] false.
Lemma setting_2 k J c_s prev :
  let M := mesh_ty Cartesian in let s := sk_2 k J c_s prev ones in
  let a := mkAds 1 (fun _ => dconst c_s) (fun _ => dconst prev) ones in
  let a2 := mkAds 2 (fun _ => dconst 1) (fun _ => dconst 1) zeros in
  let mb := mobile_1 ClassMobile zeros [] (bcs_1 ++ [BSurf s]) in
  covered M two_mats /\ concentrations M mb T400 two_mats (fun p => INR p) (fun _ => 1) /\ solubility_field M mb T400 two_mats /\
  one_of mb s a bcs_1 [] [] [a2] /\ only_adsorbed mb [trap_1 zeros []] bcs_1 [] [] [a2] /\ vertex M (a_surface a) 3%nat /\
  val (a_test a 3%nat) <> 0 /\ (forall dt, exists F, problem_2 k J c_s prev dt = Ok F).
Proof.
  intros M s a a2 mb. split; [apply covered_ty|]. split; [apply concentrations_mobile|]. split; [exact I|]. split; [split; reflexivity|].
  split; [|split; [|split]].
  - split; [exact null_zeros|]. split; [intros t [<-|[]]; exact null_zeros|]. split.
    + intros b. rewrite app_nil_r. unfold bcs_1. intros [<-|[<-|[<-|[]]]]; exact I.
    + intros b [<-|[]]. exact null_zeros.
  - split; [reflexivity|]. cbn. lra.
  - cbn. lra.
  - intros [dt|]; eexists; reflexivity.
Qed.
Lemma solved_2 k J c_s prev dt F : problem_2 k J c_s prev dt = Ok F ->
  match dt with Some dt => (c_s - prev) / dt | None => 0 end
  = k * 3 * 3 * ((10 - c_s) / 10) - k * 2 * c_s * ((20 - 3) / 20) + J c_s ->
  assemble (mesh_ty Cartesian) F = 0.
Proof.
  intros HF E. destruct (setting_2 k J c_s prev) as [H1 [H2 [H3 [H4 [H5 [H6 [H7 H8]]]]]]]. cbv zeta in *.
  assert (HI : sk_n_IS (sk_2 k J c_s prev ones) <> 0) by (cbn; lra).
  assert (Hn : sk_n_surf (sk_2 k J c_s prev ones) <> 0) by (cbn; lra).
  apply (C71_adsorbed _ _ _ _ _ _ _ _ _ F _ _ _ _ _ _ 3%nat H1 H2 H3 H4 H5 H6 H7 HI Hn HF).
  unfold to_surface, to_bulk. cbn [sk_2 sk_k_bs sk_k_sb sk_J_vs sk_n_surf sk_n_IS a_solution a_previous dconst val T400 T_T INR].
  replace (1 + 1 + 1) with 3 by ring. exact E.
Qed.
(** One solved step, from 3 to 115/32 adsorbed atoms for 10 sites. *)
Example C71_example :
  exists F, problem_2 1 (fun x => 1 - x / 10) (115 / 32) 3 (Some 2) = Ok F /\ assemble (mesh_ty Cartesian) F = 0 /\
    (forall x, 10 < x -> 1 - x / 10 <= 0) /\ (forall x, x < 0 -> 0 <= 1 - x / 10) /\ 0 <= INR 3 <= 20 /\ 0 <= 3 <= 10.
Proof.
  destruct (setting_2 1 (fun x => 1 - x / 10) (115 / 32) 3) as [H1 [H2 [H3 [H4 [H5 [H6 [H7 H8]]]]]]]. cbv zeta in *.
  destruct (H8 (Some 2)) as [F HF]. exists F. split; [exact HF|].
  split; [|repeat split; intros; try lra; cbn; lra].
  apply (solved_2 _ _ _ _ _ _ HF). cbv beta iota. lra.
Qed.
Example C71_steady_example :
  exists F, problem_2 1 (fun x => 1 - x / 10) (100 / 27) 3 None = Ok F /\ assemble (mesh_ty Cartesian) F = 0 /\
    1 * 3 * INR 3 + 1 * 2 * 10 * (1 - INR 3 / 20) <> 0.
Proof.
  destruct (setting_2 1 (fun x => 1 - x / 10) (100 / 27) 3) as [H1 [H2 [H3 [H4 [H5 [H6 [H7 H8]]]]]]]. cbv zeta in *.
  destruct (H8 None) as [F HF]. exists F. split; [exact HF|].
  split; [|cbn; lra].
  apply (solved_2 _ _ _ _ _ _ HF). cbv beta iota. lra.
Qed.
Example C71_bulk_example :
  let M := mesh_ty Cartesian in let s := sk_2 1 (fun _ => 1) 4 3 zeros in
  let mb := mobile_1 ClassMobile ones sources_1 (bcs_1 ++ [BSurf s]) in
  covered M two_mats /\ concentrations M mb T400 two_mats (fun p => INR p) (fun _ => 1) /\ solubility_field M mb T400 two_mats /\
  (forall a, In a (sk_adsorbed s) -> null (a_test a)) /\
  exists F, define_variational_problem M mb two_mats T400 (Some 2) [trap_1 ones []] false = Ok F.
Proof.
  intros M s mb. split; [apply covered_ty|]. split; [apply concentrations_mobile|]. split; [exact I|]. split.
  - intros a [<-|[<-|[]]]; exact null_zeros.
  - eexists. reflexivity.
Qed.

(** A number given as the flux from the vacuum fills the surface beyond its sites. *)
Theorem C71_overfull_refuted :
  exists (M : mesh nat) mb ms T dt c c_n F s a B1 B2 A1 A2 p,
    covered M ms /\ concentrations M mb T ms c c_n /\ solubility_field M mb T ms /\
    one_of mb s a B1 B2 A1 A2 /\ only_adsorbed mb [trap_1 zeros []] B1 B2 A1 A2 /\ vertex M (a_surface a) p /\ val (a_test a p) <> 0 /\
    0 < sk_n_IS s /\ 0 < sk_n_surf s /\ 0 < dt /\
    define_variational_problem M mb ms T (Some dt) [trap_1 zeros []] false = Ok F /\ assemble M F = 0 /\
    (forall T' x y q, sk_J_vs s T' x y q = 50) /\
    0 <= c p <= sk_n_IS s /\ 0 <= val (a_previous a p) <= sk_n_surf s /\ sk_n_surf s < val (a_solution a p).
Proof.
  destruct (setting_2 1 (fun _ => 50) (605 / 31) 3) as [H1 [H2 [H3 [H4 [H5 [H6 [H7 H8]]]]]]]. cbv zeta in *.
  destruct (H8 (Some 2)) as [F HF].
  do 7 eexists. exists F. do 6 eexists. exists 3%nat.
  split; [exact H1|]. split; [exact H2|]. split; [exact H3|]. split; [exact H4|]. split; [exact H5|]. split; [exact H6|].
  split; [exact H7|]. split; [cbn; lra|]. split; [cbn; lra|]. split; [|split; [exact HF|split]].
  - lra.
  - apply (solved_2 _ _ _ _ _ _ HF). cbv beta iota. lra.
  - split; [reflexivity|]. cbn. lra.
Qed.
Print Assumptions C71_overfull_refuted.
