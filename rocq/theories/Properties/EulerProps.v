(** C69: steady states are the equilibria of time stepping, which is the implicit Euler method. *)
From Coq Require Import Reals ZArith List Bool Lra Lia Psatz.
From Verif Require Import Base.Exc Base.Dual Model.Materials Model.Laws Model.Theta Model.Forms
  Spec.PhysSpec Spec.BalanceSpec Spec.StabilitySpec Spec.EulerSpec Proofs.LawProofs Proofs.ThetaProofs Proofs.FormProofs
  Proofs.StabilityProofs Proofs.EulerProofs Properties.FormProps Properties.StabilityProps.
Import ListNotations.
Local Open Scope R_scope.
Local Open Scope list_scope.

Section Props.
Context {P : Type}.
Implicit Types (M : mesh P).

(** The transient residual is the steady one, at the new fields, plus the difference quotients; a steady
    formulation moreover empties the traps where they are not. *)
Theorem C69_implicit_euler M mb ms T dt traps soret c c_n F1 F0 : covered M ms -> concentrations M mb T ms c c_n -> solubility_field M mb T ms ->
  positive_temperature M T -> near_surface_ok mb ->
  define_variational_problem M mb ms T (Some dt) traps soret = Ok F1 -> define_variational_problem M mb ms T None traps soret = Ok F0 ->
  assemble M F1 = assemble M F0 + (time_terms M dt c c_n mb traps - sum_over traps (empty_terms M ms)).
Proof. exact (euler M mb ms T dt traps soret c c_n F1 F0). Qed.

(** Both formulations can be built from the same inputs. *)
Theorem C69_builds M mb ms T dt traps soret : (forall t, In t traps -> steady_ids ms t) ->
  (exists F, define_variational_problem M mb ms T (Some dt) traps soret = Ok F) <-> (exists F, define_variational_problem M mb ms T None traps soret = Ok F).
Proof.
  intros Hids.
  assert (Hm : forall d d', (exists F, sum_forms (material_form M mb T d soret) ms = Ok F) -> exists F, sum_forms (material_form M mb T d' soret) ms = Ok F).
  { intros d d'. clear Hids. induction ms as [|m l IH]; intros [F H]; [eexists; reflexivity|]. cbn [sum_forms] in H |- *. unfold material_form in H at 1. unfold material_form at 1.
    destruct (get_concentration mb (attrs m) T); cbn [bind] in H |- *; [|discriminate]. destruct (float_of (Some (m_D0 (attrs m)))); cbn [bind] in H |- *; [|discriminate].
    destruct (float_of (Some (m_ED (attrs m)))); cbn [bind] in H |- *; [|discriminate]. destruct (if soret then _ else _); cbn [bind] in H |- *; [|discriminate].
    destruct (sum_forms _ l) as [G|]; cbn [bind] in H; [|discriminate]. destruct (IH (ex_intro _ G eq_refl)) as [G' ->]. eexists. reflexivity. }
  assert (Ht : forall d d', (exists F, sum_forms (trap_create_form mb ms T d) traps = Ok F) -> exists F, sum_forms (trap_create_form mb ms T d') traps = Ok F).
  { intros d d'. induction traps as [|t l IH]; intros [F H]; [eexists; reflexivity|]. cbn [sum_forms] in H |- *.
    destruct (trap_create_form mb ms T d t) as [K|] eqn:E; cbn [bind] in H; [|discriminate].
    assert (E' : exists K', trap_create_form mb ms T d' t = Ok K').
    { revert E. unfold trap_create_form, create_trapping_form.
      assert (Ha : forall x, exists F0, (match x with
        | Some dt0 => Ok [(DxAll, fun p => (val (t_solution t p) - val (t_previous t p)) / dt0 * val (t_test t p))]
        | None => sum_forms (fun m => if mat_in m (t_materials t) then Ok [] else let! id := dx_id (m_id (attrs m)) in Ok [(Dx id, fun p => val (t_solution t p) * val (t_test t p))]) ms
        end) = Ok F0).
      { intros [x|]; [eexists; reflexivity|]. assert (Hi := Hids t (or_introl eq_refl)). clear - Hi. unfold steady_ids in Hi.
        induction ms as [|m l IH]; [eexists; reflexivity|]. cbn [sum_forms].
        destruct IH as [G HG]; [intros; apply Hi; [now right|assumption]|]. rewrite HG.
        destruct (mat_in m (t_materials t)) eqn:Em; cbn [bind]; [eexists; reflexivity|].
        destruct (Hi m (or_introl eq_refl) Em) as [z ->]. eexists. reflexivity. }
      destruct (Ha d) as [F0 ->]. destruct (Ha d') as [F0' ->]. cbn [bind].
      destruct (sum_forms_enum (trapping_terms mb T t) 0 (t_materials t)); cbn [bind]; [|discriminate].
      destruct (sum_forms (trap_source_terms t) (t_sources t)); cbn [bind]; [|discriminate]. intros _. eexists. reflexivity. }
    destruct E' as [K' ->]. cbn [bind].
    destruct (sum_forms _ l) as [G|]; cbn [bind] in H; [|discriminate].
    destruct IH as [G' ->]; [intros; apply Hids; now right|eexists; reflexivity|]. eexists. reflexivity. }
  assert (Hall : forall d d', (exists F, define_variational_problem M mb ms T d traps soret = Ok F) -> exists F, define_variational_problem M mb ms T d' traps soret = Ok F).
  { intros d d' [F H]. revert H. unfold define_variational_problem, mobile_create_form, create_diffusion_form.
    destruct (sum_forms (material_form M mb T d soret) ms) as [A|] eqn:EA; cbn [bind]; [|discriminate]. destruct (Hm d d' (ex_intro _ A EA)) as [A' ->]. cbn [bind].
    destruct (sum_forms _ traps) as [B|]; cbn [bind]; [|discriminate].
    destruct (sum_forms (trap_create_form mb ms T d) traps) as [C|] eqn:EC; cbn [bind]; [|discriminate]. destruct (Ht d d' (ex_intro _ C EC)) as [C' ->]. cbn [bind].
    intros _. eexists. reflexivity. }
  split; apply Hall.
Qed.

(** When nothing has changed, the transient residual is the steady one, whatever the stepsize. *)
Theorem C69_rest M mb ms T dt traps soret c c_n F1 F0 : covered M ms -> concentrations M mb T ms c c_n -> solubility_field M mb T ms ->
  positive_temperature M T -> near_surface_ok mb -> at_rest mb T traps -> (forall t, In t traps -> empty_outside M ms t) ->
  define_variational_problem M mb ms T (Some dt) traps soret = Ok F1 -> define_variational_problem M mb ms T None traps soret = Ok F0 ->
  assemble M F1 = assemble M F0.
Proof.
  intros Hcov Hc HS HT Hn (R1 & R2 & R3 & R4) He H1 H0.
  rewrite (euler M mb ms T dt traps soret c c_n F1 F0 Hcov Hc HS HT Hn H1 H0).
  assert (Ec : forall p, In p (q_cells M) \/ In p (q_facets M) -> c p = c_n p).
  { intros p Hp. assert (Hz := proj2 Hcov p Hp). apply in_flat_map in Hz. destruct Hz as (m & Hm & Hz). specialize (Hc p Hp m Hm Hz).
    unfold concentration_at in Hc. destruct (mb_class mb); [destruct Hc as [-> ->]; now rewrite R1|].
    destruct Hc as (S0 & ES & _ & _ & -> & ->). now rewrite R1, R2. }
  assert (Z : time_terms M dt c c_n mb traps = 0).
  { unfold time_terms. rewrite isum_cells, (integral_zero M DxAll (fun p => quotient dt c c_n p * val (mb_test mb p))) by (intros p Hp; unfold quotient; rewrite (Ec p (or_introl Hp)); unfold Rdiv; ring).
    unfold sum_over at 1. rewrite rsum_map_zero by (intros t Ht; rewrite isum_cells; apply integral_zero; intros p _; unfold quotient; rewrite (R3 t Ht); unfold Rdiv; ring).
    unfold sum_over. rewrite rsum_map_zero; [ring|]. intros b Hb. destruct b as [|s]; [reflexivity|]. cbn [surface_quotient]. unfold sum_over.
    apply rsum_map_zero. intros a Ha. rewrite isum_surface. apply integral_zero. intros p Hp. apply in_points_facets in Hp. destruct Hp as [Hp _].
    unfold quotient. rewrite (R4 s a Hb Ha), (Ec p (or_intror Hp)). unfold Rdiv. ring. }
  assert (E : sum_over traps (empty_terms M ms) = 0).
  { unfold sum_over. apply rsum_map_zero. intros t Ht. unfold empty_terms, sum_over. apply rsum_map_zero. intros m Hm. apply filter_In in Hm. destruct Hm as [Hm Hin].
    apply negb_true_iff in Hin. apply rsum_map_zero. intros z Hz. rewrite isum_volume. apply integral_zero. intros p Hp. apply in_points_cells in Hp.
    destruct Hp as [Hp Ez]. rewrite (He t Ht m p Hm Hin Hp) by (now rewrite Ez). ring. }
  rewrite Z, E. ring.
Qed.

(** Concentration formulation: a steady solution solves every time step that starts from it, and (C68) is
    the only physical solution when the stepsize is small compared with the trapping rates. *)
Theorem C69_fixed_point M pb dt V u : covered M (pb_materials pb) -> positive_temperature M (pb_T pb) ->
  (forall v t, In t (put 1 (pb_traps pb) u u v) -> empty_outside M (pb_materials pb) t /\ steady_ids (pb_materials pb) t) ->
  (forall s a, In (BSurf s) (pb_bcs pb) -> In a (sk_adsorbed s) -> forall p, val (a_previous a p) = val (a_solution a p)) ->
  (solves M pb None V u u <-> solves M pb (Some dt) V u u).
Proof.
  intros Hcov HT He Hsk.
  assert (Hall : forall v F1 F0, equations M pb (Some dt) u u v = Ok F1 -> equations M pb None u u v = Ok F0 ->
    define_variational_problem M (species pb u u v) (pb_materials pb) (mkTemp (T_T (pb_T pb)) (T_T (pb_T pb))) (Some dt) (put 1 (pb_traps pb) u u v) false = Ok F1 ->
    define_variational_problem M (species pb u u v) (pb_materials pb) (mkTemp (T_T (pb_T pb)) (T_T (pb_T pb))) None (put 1 (pb_traps pb) u u v) false = Ok F0 ->
    assemble M F1 = assemble M F0).
  { intros v F1 F0 _ _ H1 H0.
    apply (C69_rest M (species pb u u v) (pb_materials pb) (mkTemp (T_T (pb_T pb)) (T_T (pb_T pb))) dt (put 1 (pb_traps pb) u u v) false (fun p => val (u 0%nat p)) (fun p => val (u 0%nat p)) F1 F0);
      try assumption; try exact I.
    - intros p _ m _ _. split; reflexivity.
    - intros p Hp. destruct (HT p Hp). cbn. split; assumption.
    - now left.
    - split; [reflexivity|]. split; [reflexivity|]. split; [|exact Hsk].
      intros t Ht p. clear - Ht. revert Ht. generalize 1%nat. induction (pb_traps pb) as [|x l IH]; intros k; [intros []|]. cbn [put]. intros [<-|Ht]; [reflexivity|now apply IH in Ht].
    - intros t Ht. now apply (He v). }
  assert (Same : forall v d, equations M pb d u u v =
    define_variational_problem M (species pb u u v) (pb_materials pb) (mkTemp (T_T (pb_T pb)) (T_T (pb_T pb))) d (put 1 (pb_traps pb) u u v) false).
  { intros v d. reflexivity. }
  assert (B : forall v, (exists F, equations M pb (Some dt) u u v = Ok F) <-> exists F, equations M pb None u u v = Ok F).
  { intros v. unfold equations. apply C69_builds. intros t Ht. now apply (He v). }
  split; intros H v Hv; destruct (H v Hv) as (F & HF & Z).
  - destruct (proj2 (B v) (ex_intro _ F HF)) as [G HG]. exists G. split; [exact HG|]. rewrite (Hall v G F HG HF); [exact Z| |]; now rewrite <- Same.
  - destruct (proj1 (B v) (ex_intro _ F HF)) as [G HG]. exists G. split; [exact HG|]. rewrite <- (Hall v F G HF HG); [exact Z| |]; now rewrite <- Same.
Qed.

Theorem C69_stays M pb D L Lambda dt V u w : physical M pb D -> bounded_rates M pb w u L Lambda -> 0 < dt -> dt * Lambda < 4 ->
  (forall v t, In t (put 1 (pb_traps pb) u u v) -> empty_outside M (pb_materials pb) t /\ steady_ids (pb_materials pb) t) ->
  nonnegative_at_boundary M u -> nonnegative_at_boundary M w ->
  solves M pb None V u u -> solves M pb (Some dt) V w u -> V (diff w u) ->
  forall p j, In p (q_cells M) -> (j <= length (pb_traps pb))%nat -> val (w j p) = val (u j p).
Proof.
  intros Hph Hb Hdt Hl He Hu Hw Hsu Hsw HV p j Hp Hj.
  assert (Hsk : forall s a, In (BSurf s) (pb_bcs pb) -> In a (sk_adsorbed s) -> forall p, val (a_previous a p) = val (a_solution a p)).
  { intros s a Hs. destruct Hph as (_ & _ & _ & _ & _ & _ & _ & _ & Hbc). destruct (Hbc _ Hs). }
  assert (Hcov : covered M (pb_materials pb)) by apply Hph. assert (HT : positive_temperature M (pb_T pb)) by apply Hph.
  apply (proj1 (C69_fixed_point M pb dt V u Hcov HT He Hsk)) in Hsu.
  apply (C68_unique M pb D L Lambda dt V w u u); assumption.
Qed.

(** Heat transfer: the same, whatever the properties. *)
Theorem C69_heat M dt T T_n v ms rho cp sources bcs F1 F0 :
  (forall m, In m ms -> is_property (m_rho (attrs m)) (rho m) /\ is_property (m_heat (attrs m)) (cp m)) ->
  heat_form M true dt T T_n v ms sources bcs = Ok F1 -> heat_form M false dt T T_n v ms sources bcs = Ok F0 ->
  assemble M F1 = assemble M F0 + heat_time_terms M dt rho cp ms T T_n v /\
  ((forall p, val (T_n p) = val (T p)) -> assemble M F1 = assemble M F0).
Proof.
  intros Hp H1 H0. assert (E := heat_euler M dt T T_n v ms rho cp sources bcs F1 F0 Hp H1 H0). split; [exact E|]. intros Hr. rewrite E.
  assert (Z : heat_time_terms M dt rho cp ms T T_n v = 0); [|rewrite Z; ring].
  unfold heat_time_terms, sum_over. apply rsum_map_zero. intros m _. apply rsum_map_zero. intros z _. rewrite isum_volume. apply integral_zero.
  intros p _. unfold quotient. rewrite Hr. unfold Rdiv. ring.
Qed.
End Props.
Print Assumptions C69_implicit_euler.
Print Assumptions C69_builds.
Print Assumptions C69_rest.
Print Assumptions C69_fixed_point.
Print Assumptions C69_stays.
Print Assumptions C69_heat.

(** ** Examples *)
Example C69_example :
  let M := mesh_ty Cartesian in
  let mb := mobile_1 ClassMobile ones sources_1 (BSurf (sk_1 ones) :: bcs_1) in
  let t := trap_1 ones [] in
  covered M two_mats /\ concentrations M mb T400 two_mats (fun p => INR p) (fun _ => 1) /\ solubility_field M mb T400 two_mats /\
  positive_temperature M T400 /\ near_surface_ok mb /\ steady_ids two_mats t /\
  (exists F, define_variational_problem M mb two_mats T400 (Some 2) [t] false = Ok F) /\
  (exists F, define_variational_problem M mb two_mats T400 None [t] false = Ok F) /\
  time_terms M 2 (fun p => INR p) (fun _ => 1) mb [t] = 5 / 4 /\ empty_terms M two_mats t = 5 / 2.
Proof.
  cbv zeta. split; [apply covered_ty|]. split; [apply concentrations_mobile|]. split; [exact I|]. split; [apply T400_pos|]. split; [now left|].
  split. { intros m [<-|[<-|[]]] _; eexists; reflexivity. }
  split; [eexists; reflexivity|]. split; [eexists; reflexivity|].
  unfold time_terms, empty_terms, surface_quotient, isum, quotient, sum_over, rsum. cbn. split; lra.
Qed.
(** The steady state of the source problem of C68 is kept by the time steps. *)
Example C69_fixed_example : solves (mesh_ty Cartesian) pb_source (Some 3) pinned ramp ramp.
Proof.
  apply (C69_fixed_point (mesh_ty Cartesian) pb_source 3 pinned ramp); [apply covered_ty|apply T400_pos|intros v t []|intros s a []|].
  apply C68_steady_example.
Qed.
(** Both trap equilibria of C68 are steady. *)
Example C69_trap_example : solves (mesh_ty Cartesian) pb_trap None flat (level 1 1) (level 1 1) /\
  bounded_rates (mesh_ty Cartesian) pb_trap (level 1 1) (level 2 (4 / 3)) 4 4.
Proof.
  split; [|apply rates_ok].
  apply (C69_fixed_point (mesh_ty Cartesian) pb_trap (1 / 4) flat (level 1 1)); [apply covered_ty|apply T400_pos| |intros s a []|apply C68_example].
  intros v t [<-|[]]. split.
  - intros m p [<-|[<-|[]]]; cbn; discriminate.
  - intros m [<-|[<-|[]]]; cbn; discriminate.
Qed.
Example C69_heat_example : forall m, In m two_mats ->
  is_property (m_rho (attrs m)) (fun _ => match uid m with O => 7 | _ => 13 end) /\ is_property (m_heat (attrs m)) (fun _ => match uid m with O => 5 | _ => 11 end).
Proof. intros m [<-|[<-|[]]]; split; right; eexists; split; reflexivity. Qed.

(** Trapped hydrogen outside the materials of the trap stays in a transient run, a steady one removes it. *)
Theorem C69_outside_refuted : exists (M : mesh nat) pb u v F1 F0, covered M (pb_materials pb) /\ positive_temperature M (pb_T pb) /\
  (forall dt, equations M pb (Some dt) u u v = Ok (F1 dt) /\ assemble M (F1 dt) = 0) /\ equations M pb None u u v = Ok F0 /\ assemble M F0 <> 0.
Proof.
  pose (pb := mkProblem two_mats T400 [] [] [mkTrap (Scalar 0) (Scalar 0) (Scalar 0) (Scalar 0) [fun _ : nat => 2] [mkMatObj 0 mat_1] ones ones ones []]).
  exists (mesh_ty Cartesian), pb, (level 1 1), (level 1 1). eexists (fun dt => _), _.
  split; [apply covered_ty|]. split; [apply T400_pos|]. split; [|split; [reflexivity|]].
  - intros dt. split; [reflexivity|]. unfold assemble, integral, rsum, dot, pb. cbn. unfold Rdiv. ring.
  - unfold assemble, integral, rsum, dot, pb. cbn. lra.
Qed.
Print Assumptions C69_outside_refuted.
(** With chemical_pot, SurfaceKinetics reads theta as the previous concentration: a simulation at rest
    does not stay at rest. *)
Theorem C69_chemical_pot_refuted : exists (M : mesh nat) mb ms T c F1 F0, covered M ms /\ concentrations M mb T ms c c /\
  positive_temperature M T /\ at_rest mb T [] /\
  define_variational_problem M mb ms T (Some 1) [] false = Ok F1 /\ define_variational_problem M mb ms T None [] false = Ok F0 /\
  assemble M F0 = 0 /\ assemble M F1 <> 0.
Proof.
  exists (mesh_ty Cartesian), still_mobile, two_mats, T_rest, (theta_c 1). eexists _, _.
  split; [apply covered_ty|]. split; [apply still_concentrations|]. split; [intros p _; cbn; lra|].
  split. { split; [reflexivity|]. split; [reflexivity|]. split; [intros t []|]. intros s a [[= <-]|[]] [<-|[]] p. reflexivity. }
  split; [reflexivity|]. split; [reflexivity|].
  split; unfold assemble, integral, rsum, dot, theta_c, S_field; cbn.
  - unfold Rdiv. rewrite ?Rmult_0_l, ?Rmult_0_r, ?Ropp_0, ?Rmult_0_l, ?Rmult_0_r. lra.
  - assert (E : theta_mobile_concentration [mat_1; mat_2] 1 2 1 = 2) by (unfold theta_mobile_concentration, law_marker; cbn; ring).
    rewrite E. intros H. apply (Rmult_eq_compat_l 2) in H. match type of H with ?l = _ => assert (E' : l = 1); [|lra] end. unfold Rdiv. field. unfold k_B. lra.
Qed.
Print Assumptions C69_chemical_pot_refuted.
