(** C85: a state at equilibrium stays as it is. *)
From Coq Require Import Reals ZArith List Bool Lra Lia.
From Verif Require Import Base.Exc Base.Dual Model.Materials Model.Laws Model.Theta Model.Forms
  Spec.PhysSpec Spec.BalanceSpec Spec.NeutralSpec Spec.VariableSpec Spec.RestSpec Proofs.LawProofs Proofs.ThetaProofs
  Proofs.FormProofs Proofs.VariableProofs Proofs.RestProofs Properties.FormProps Properties.TrapProps Properties.NeutralProps
  Properties.VariableProps.
Import ListNotations.
Local Open Scope R_scope.
Local Open Scope list_scope.

Section Props.
Context {P : Type}.
Implicit Types (M : mesh P).

(** A state without flux, with traps and surfaces in equilibrium, solves the equations of a steady problem and of
    a step of any size, for all test functions. *)
Theorem C85_rest M mb ms T dt traps soret F :
  mb_class mb = ClassMobile -> positive_temperature M T -> mb_sources mb = [] ->
  at_rest_state M soret T ms (mb_solution mb) (mb_previous mb) (mb_bcs mb) traps ->
  define_variational_problem M mb ms T dt traps soret = Ok F -> assemble M F = 0.
Proof. intros Hcl HT Hs Hr. exact (rest_residual M mb T ms Hcl HT dt traps soret F Hs Hr). Qed.

(** With conservation of chemical potential: theta and T uniform (any solubilities, Sieverts and Henry). *)
Theorem C85_uniform_theta M mb ms T dt traps soret c c_n S_ ms' F :
  mb_class mb = ClassTheta S_ ms' -> covered M ms -> solubility_field M mb T ms ->
  concentration_fields M mb T ms c c_n -> positive_temperature M T -> no_surface_kinetics mb ->
  (forall t m, In t traps -> In m (t_materials t) -> In m ms) -> mb_sources mb = [] ->
  (forall p i, In p (q_cells M) -> (i < q_dim M)%nat -> grd (mb_solution mb p) i = 0 /\ grd (T_T T p) i = 0) ->
  (forall p, val (c_n p) = val (c p)) ->
  (forall t, In t traps -> trap_balanced M T c t /\ absent_elsewhere M ms t /\ t_sources t = [] /\
     (forall p, val (t_previous t p) = val (t_solution t p))) ->
  (forall p, In p (q_facets M) -> net_flux M T c (mb_bcs mb) p = 0) ->
  define_variational_problem M mb ms T dt traps soret = Ok F -> assemble M F = 0.
Proof.
  intros Hcl Hcov HS Hc HT Hsk Htm Hsrc Hu Hn Ht Hnet HF.
  destruct (variable_problem M mb T ms c c_n S_ ms' Hcl Hcov HS Hc HT dt traps soret F Hsk Htm HF) as (G & HG & <-).
  apply (C85_rest M (of_concentration mb c c_n) ms T dt traps soret G); try assumption; [reflexivity|].
  split; [exact Hn|]. split; [exact (uniform_theta M mb T ms c c_n Hc Hu soret)|]. split; [exact Ht|]. split; [exact Hnet|].
  intros s Hs. now destruct (Hsk s).
Qed.

(** Thermal diffusion: the profile C exp(Q / (k_B T)) carries no flux, whatever the temperature. *)
Definition soret_profile (C Q : R) (T : temperature P) (p : P) : dual :=
  dmul (dconst C) (dexp (ddiv (dconst (Q / boltzmann)) (T_T T p))).
Theorem C85_soret_profile M T ms C Q :
  positive_temperature M T -> (forall m, In m ms -> m_Q (attrs m) = Some (Const Q)) ->
  no_flux M true T ms (soret_profile C Q T).
Proof.
  intros HT HQ p Hp m Hm _ i _ Q' [H|(f & H & _)]; rewrite (HQ m Hm) in H; [|discriminate]. injection H as <-.
  destruct (HT p (or_introl Hp)) as [HTp _]. unfold soret_profile, dmul, dexp, ddiv, dconst. cbn [val grd].
  pose proof k_B_pos as Hk. rewrite k_B_boltzmann in Hk. field. lra.
Qed.

(** The trap is in equilibrium exactly when its occupancy is n k c / (k c + p). *)
Theorem C85_occupancy : forall k c n p ct : R, k * c + p <> 0 -> (k * c * (n - ct) = p * ct <-> ct = n * (k * c) / (k * c + p)).
Proof.
  intros k c n p ct H. split; intros E.
  - apply (Rmult_eq_reg_r (k * c + p)); [|exact H]. unfold Rdiv. rewrite Rmult_assoc, Rinv_l, Rmult_1_r by exact H. lra.
  - subst ct. field. exact H.
Qed.

(** Recombination and dissociation on the same surface are in equilibrium at c = sqrt(Kd P / Kr). *)
Theorem C85_sieverts_surface M T c surfaces Kr_0 E_Kr Kd_0 E_Kd Pr :
  (forall p, In p (q_facets M) -> 0 < Kr_0 p /\ 0 <= Kd_0 p * Pr p /\
     val (c p) = sqrt (arrhenius (Kd_0 p) (E_Kd p) (val (T_T T p)) * Pr p / arrhenius (Kr_0 p) (E_Kr p) (val (T_T T p)))) ->
  forall p, In p (q_facets M) ->
  net_flux M T c [BFlux false surfaces (RecombinationFlux Kr_0 E_Kr (EInt 2)); BFlux false surfaces (DissociationFlux Kd_0 E_Kd Pr)] p = 0.
Proof.
  intros Hc p Hp. unfold net_flux. rewrite !sum_over_cons. unfold sum_over at 3. cbn [map]. rewrite rsum_nil.
  destruct (Hc p Hp) as (Hr & Hd & E). set (A := arrhenius (Kr_0 p) (E_Kr p) (val (T_T T p))) in *.
  set (B := arrhenius (Kd_0 p) (E_Kd p) (val (T_T T p))) in *.
  assert (HA : 0 < A) by (unfold A, arrhenius; apply Rdiv_lt_0_compat; [exact Hr|apply exp_pos]).
  assert (HB : 0 <= B * Pr p).
  { unfold B, arrhenius. unfold Rdiv. rewrite Rmult_assoc, (Rmult_comm (/ _)), <- Rmult_assoc. apply Rmult_le_pos; [exact Hd|]. left. apply Rinv_0_lt_compat, exp_pos. }
  assert (HQ : 0 <= B * Pr p / A) by (unfold Rdiv; apply Rmult_le_pos; [exact HB|left; now apply Rinv_0_lt_compat]).
  assert (Hcc : val (c p) * val (c p) = B * Pr p / A) by (rewrite E; apply sqrt_sqrt, HQ).
  rewrite Rplus_0_r. set (f1 := flux_into _ _ _ _). set (f2 := flux_into _ _ _ _).
  assert (Hf : f1 + f2 = 0).
  { unfold f1, f2. cbn [flux_into]. fold A. fold B.
    replace (power (val (c p)) (EInt 2)) with (val (c p) * val (c p)) by (cbn; ring). rewrite Hcc. field. lra. }
  clearbody f1 f2. induction surfaces as [|z l IH]; [unfold sum_over; cbn; lra|]. rewrite !sum_over_cons.
  set (s1 := sum_over l _) in *. set (s2 := sum_over l _) in *. clearbody s1 s2.
  destruct (Z.eqb z (q_surface M p)); lra.
Qed.

(** A uniform temperature, with no net heat flux, solves the heat problem, steady or transient. *)
Theorem C85_heat M transient dt (T T_n v : field P) ms bcs F :
  (forall p, In p (q_facets M) -> 0 < val (T p)) ->
  (forall p i, In p (q_cells M) -> (i < q_dim M)%nat -> grd (T p) i = 0) -> (forall p, val (T_n p) = val (T p)) ->
  (forall p, In p (q_facets M) -> net_heat M T bcs p = 0) ->
  heat_form M transient dt T T_n v ms [] bcs = Ok F -> assemble M F = 0.
Proof. exact (heat_rest M transient dt T T_n v ms bcs F). Qed.
End Props.
Print Assumptions C85_rest.
Print Assumptions C85_uniform_theta.
Print Assumptions C85_soret_profile.
Print Assumptions C85_occupancy.
Print Assumptions C85_sieverts_surface.
Print Assumptions C85_heat.

(** ** Examples. A trap and gas in equilibrium with a uniform concentration; surface kinetics on the other side. *)
Definition c_eq : field nat := fun p => dconst (sqrt (arrhenius 3 (1/10) 400 * 5 / arrhenius 2 (1/5) 400)).
Definition ct_eq : field nat := fun p => match p with
  | 1%nat | 3%nat => dconst (9 * (arrhenius 6 (1/10) 400 * val (c_eq p)) / (arrhenius 6 (1/10) 400 * val (c_eq p) + arrhenius 8 (1/5) 400))
  | _ => dconst 0 end.
Definition trap_eq : trap nat :=
  mkTrap (Scalar 6) (Scalar (1/10)) (Scalar 8) (Scalar (1/5)) [fun _ => 9] [mkMatObj 0 mat_1] ct_eq ct_eq ones [].
Definition sk_eq : surface_kinetics nat :=
  mkSK (fun _ _ c_m _ => c_m * (1 - 4 / 10)) (fun _ c_s c_m _ => 4 * (1 - c_m / 20)) (fun _ _ _ _ => 0) 1 10 20
    [mkAds 2 (fun _ => dconst 4) (fun _ => dconst 4) ones].
Definition bcs_eq : list (bc nat) :=
  [BFlux false [1%Z] (RecombinationFlux (fun _ => 2) (fun _ => 1/5) (EInt 2)); BFlux false [1%Z] (DissociationFlux (fun _ => 3) (fun _ => 1/10) (fun _ => 5))].
Definition mobile_eq : mobile nat := mkMobile ClassMobile c_eq c_eq (fun p => mkDual (INR p) (fun _ => 7)) [] (bcs_eq ++ [BSurf sk_eq]).
Lemma arr_pos A E T : 0 < A -> 0 < arrhenius A E T.
Proof. intros. apply Rdiv_lt_0_compat; [assumption|apply exp_pos]. Qed.
Lemma c_eq_pos p : 0 < val (c_eq p).
Proof.
  apply sqrt_lt_R0. unfold Rdiv. apply Rmult_lt_0_compat; [apply Rmult_lt_0_compat; [apply arr_pos; lra|lra]|].
  apply Rinv_0_lt_compat, arr_pos. lra.
Qed.
Example C85_example : let M := mesh_ty Spherical in
  positive_temperature M T_rest /\ at_rest_state M false T_rest two_mats c_eq c_eq (mb_bcs mobile_eq) [trap_eq] /\
  exists F, define_variational_problem M mobile_eq two_mats T_rest (Some 2) [trap_eq] false = Ok F.
Proof.
  intros M. split; [intros p _; cbn; lra|]. split; [|eexists; reflexivity].
  split; [reflexivity|]. split; [intros p _ m _ _ i _; reflexivity|]. split; [|split].
  - intros t [<-|[]]. split; [|split; [|split; [reflexivity|intros p; reflexivity]]].
    + intros i m k_0 E_k p_0 E_p n p Hi Hpar Hp Hv.
      destruct i as [|i]; [|destruct i; discriminate]. injection Hi as <-.
      destruct Hpar as [(H1 & H2 & H3 & H4 & H5)|(? & ? & ? & ? & H & _)]; [|discriminate].
      cbn in H1, H2, H3, H4, H5. injection H1 as <-. injection H2 as <-. injection H3 as <-. injection H4 as <-. injection H5 as <-.
      destruct Hp as [<-|[<-|[]]]; [|cbn in Hv; destruct Hv as [H|[]]; discriminate].
      cbn [T_rest T_T val dconst t_solution trap_eq ct_eq].
      pose proof (arr_pos 6 (1/10) 400 ltac:(lra)) as HA. pose proof (arr_pos 8 (1/5) 400 ltac:(lra)) as HB. pose proof (c_eq_pos 1) as Hc.
      apply C85_occupancy; [|reflexivity]. pose proof (Rmult_lt_0_compat _ _ HA Hc). lra.
    + intros m p [<-|[<-|[]]] Hin Hp Hv; cbn in Hin; [discriminate|]. destruct Hp as [<-|[<-|[]]]; [cbn in Hv; destruct Hv as [H|[]]; discriminate|reflexivity].
  - intros p Hp. assert (E : net_flux M T_rest c_eq (mb_bcs mobile_eq) p = net_flux M T_rest c_eq bcs_eq p)
      by (unfold net_flux, sum_over, rsum; cbn [mb_bcs mobile_eq bcs_eq app map fold_right]; lra).
    rewrite E. apply (C85_sieverts_surface M T_rest c_eq [1%Z] _ _ _ _ _); [|exact Hp].
    intros q _. split; [lra|]. split; [lra|]. reflexivity.
  - intros s [H|[H|[H|[]]]]; try discriminate. injection H as <-. intros a p [<-|[]] Hp E. cbv zeta. split; [reflexivity|].
    split; [reflexivity|]. cbn [sk_eq sk_k_bs sk_k_sb sk_n_surf sk_n_IS a_solution val dconst]. unfold Rdiv. ring.
Qed.
(** A Soret profile in a temperature gradient; theta uniform with a Sieverts and a Henry material; a sample in
    air of its own temperature. *)
Definition Q3_mats : list mat_obj :=
  [mkMatObj 0 (with_Q mat_1 (Some (Const 3)) None); mkMatObj 1 (with_Q mat_2 (Some (Const 3)) None)].
Definition T_uni : temperature nat := mkTemp (fun _ => dconst 400) (fun _ => dconst 400).
Definition theta_uni : mobile nat :=
  mkMobile (ClassTheta (S_mixed (T_T T_uni)) (map attrs mixed)) (fun _ => dconst 5) (fun _ => dconst 5) ones [] [BFlux true [1%Z] (FluxBC (fun _ => 3))].
Example C85_other_examples : let M := mesh_ty Cylindrical in
  let c := c_mixed (T_T T_uni) (mb_solution theta_uni) in
  (positive_temperature M T_grad /\ at_rest_state M true T_grad Q3_mats (soret_profile 2 3 T_grad) (soret_profile 2 3 T_grad) [] [] /\
   exists F, define_variational_problem M (mkMobile ClassMobile (soret_profile 2 3 T_grad) (soret_profile 2 3 T_grad) ones [] []) Q3_mats T_grad None [] true = Ok F) /\
  (covered M mixed /\ solubility_field M theta_uni T_uni mixed /\ concentration_fields M theta_uni T_uni mixed c c /\
   (forall p, In p (q_facets M) -> net_flux M T_uni c (mb_bcs theta_uni) p = 0) /\
   exists F, define_variational_problem M theta_uni mixed T_uni (Some 2) [] true = Ok F) /\
  (forall p, In p (q_facets M) -> net_heat M (fun _ => dconst 400) [([1; 2]%Z, ConvectiveFlux (fun p => INR p) (fun _ => 400))] p = 0) /\
  exists F, heat_form M true 2 (fun _ => dconst 400) (fun _ => dconst 400) ones two_mats [] [([1; 2]%Z, ConvectiveFlux (fun p => INR p) (fun _ => 400))] = Ok F.
Proof.
  intros M c.
  assert (HTg : positive_temperature M T_grad) by (intros p Hp; cbn [T_grad T_T T_Tn val]; pose proof (pos_INR p); lra).
  split; [|split; [|split; [|eexists; reflexivity]]].
  - split; [exact HTg|]. split; [|eexists; reflexivity]. split; [reflexivity|]. split.
    { apply C85_soret_profile; [exact HTg|]. intros m [<-|[<-|[]]]; reflexivity. }
    split; [intros t []|]. split; [|intros s []]. intros p _. unfold net_flux, sum_over. reflexivity.
  - assert (Hp4 : forall p, In p (q_cells M) \/ In p (q_facets M) -> p = 1%nat \/ p = 2%nat \/ p = 3%nat \/ p = 4%nat) by (intros p H; cbn in H; lia).
    split; [exact (covered_ty Cylindrical)|]. split; [split; [reflexivity|]|split; [|split; [|eexists; reflexivity]]].
    + intros p Hp m Hm Hz. apply Hp4 in Hp as [ -> | [ -> | [ -> | -> ] ] ]; destruct Hm as [<-|[<-|[]]]; cbn in Hz; destruct Hz as [Hz|[]]; try discriminate;
        eexists _, _; (split; [reflexivity|]); (split; [reflexivity|]); reflexivity.
    + intros p Hp m Hm Hz. apply Hp4 in Hp as [ -> | [ -> | [ -> | -> ] ] ]; destruct Hm as [<-|[<-|[]]]; cbn in Hz; destruct Hz as [Hz|[]]; try discriminate;
        eexists _, _; (split; [reflexivity|]); (split; [reflexivity|]); split; (split; [reflexivity|intros i; reflexivity]).
    + intros p _. unfold net_flux, sum_over, rsum. cbn. lra.
  - intros p Hp. unfold net_heat, sum_over, rsum. cbn [map fold_right fst snd flux_into val dconst].
    destruct (Z.eqb 1 _), (Z.eqb 2 _); ring.
Qed.
