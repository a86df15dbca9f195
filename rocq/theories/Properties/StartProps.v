(** C76: with the chemical potential the solubility is that of the current temperature.  C77: every step starts
    from the concentration at the end of the previous one, the first step from the prescribed concentration. *)
From Coq Require Import Reals Lra ZArith QArith Qreals List Bool String Floats FunctionalExtensionality.
From Verif Require Import Base.Exc Base.Num Base.Dual Model.Stepsize Model.TimeLoop Model.SympyAst Model.Materials
  Model.Laws Model.Theta Model.Simulation Model.StartTemperature Spec.TimeSpec Spec.PhysSpec Spec.ThetaSpec Spec.SympySpec
  Spec.StartSpec Proofs.LawProofs Proofs.ThetaProofs Proofs.TimeChain Proofs.TimeQ2 Properties.SteadyProps.
Import ListNotations.
Local Open Scope R_scope.

Section Runs.
Context {P V D E : Type}.
Variable temp : temperature (A:=Q) (P -> R).
Variable dens_solve : D -> D -> Q -> (P -> R) -> D.
Variable post : Q -> (P -> R) -> (P -> R) -> E -> res E.
Variables zero ini stationary file : P -> R.
Local Notation T0 := (fst (created temp zero ini stationary file)).
Local Notation Tn0 := (snd (created temp zero ini stationary file)).

Local Lemma used_current (frozen : bool) ms m z p (T0 T : P -> R) S :
  (frozen = true -> T0 p = T p) -> 0 < T p -> owner ms m z -> has_solubility m (T p) S ->
  used_solubility frozen T0 T ms z p = Ok S.
Proof.
  intros Hf HT [Hnd [Hin Hz]] [S0 [ES [HS [HE [Hpos HSv]]]]].
  assert (Ht : (if frozen then T0 else T) p = T p) by (destruct frozen; auto).
  unfold used_solubility. rewrite Ht. unfold arhenius_coeff. rewrite (find_unique ms m z Hnd Hin Hz). cbn [bind].
  rewrite HS, HE. cbn [float_of bind]. now rewrite HSv, <- arrhenius_model.
Qed.

(** The temperature of a run whose is_steady_state is true does not change. *)
Local Lemma run_steady (m : meaning R) env time (T : temp_spec (V:=V)) F s u un d dn e sched st' evs stt :
  same_temperature m env time T temp -> Simulation.is_steady_state T = true ->
  run_transient temp dens_solve post F (start s T0 Tn0 u un d dn e) sched = (st', evs, stt) ->
  (forall c, In c (solves evs) -> sv_T c = T0) /\ (forall q, In q (posts evs) -> snd q = T0).
Proof.
  intros Hsame Hst H.
  assert (Hcases : (exists e0, SympyAst.is_steady_state e0 = true /\
                      temp = TempExpr (fun t p => SympySpec.value_at m (env p) (time t) e0)) \/
                   (exists solve, temp = TempHeat false solve) \/ temp = TempXDMF).
  { clear H. destruct Hsame as [e0|tr i solve|]; cbn in Hst.
    - left. eauto.
    - destruct tr; [discriminate|]. right. left. eauto.
    - auto. }
  destruct Hcases as [(e0 & He & Ht)|Hfr].
  - assert (Hn : forall t, (fun p => SympySpec.value_at m (env p) (time t) e0) = T0).
    { intros t. rewrite Ht. cbn. apply functional_extensionality. intros p. now apply C54_steady. }
    destruct (run_temperature_expr _ _ _ _ _ _ _ _ _ _ _ _ _ _ _ _ _ Ht H) as (HT & _ & _).
    assert (HT' : forall c, In c (solves evs) -> sv_T c = T0) by (intros c Hc; rewrite (HT c Hc); apply Hn).
    split; [exact HT'|].
    destruct (run_posts _ _ _ _ _ _ _ _ _ _ _ _ _ _ _ _ H) as (tl & Hp & _).
    intros q Hq. assert (Hi : In q (map (fun c => (sv_t c, at_u (sv_out c), sv_T c))
                            (filter (fun c => at_conv (sv_out c)) (solves evs)))) by (rewrite Hp; apply in_or_app; now left).
    apply in_map_iff in Hi as (c & <- & Hc). apply filter_In in Hc. cbn. now apply HT'.
  - destruct (C54_run_frozen _ _ _ _ temp _ _ _ _ _ _ _ _ _ _ _ _ _ _ _ Hfr H) as [Hs Hp].
    split; [intros c Hc; now apply Hs|exact Hp].
Qed.

(** materials.S is the solubility at the temperature of every solve and of every post-processing. *)
Theorem C76_solubility (m : meaning R) env time (T : temp_spec (V:=V)) F s u un d dn e sched st' evs stt :
  same_temperature m env time T temp ->
  run_transient temp dens_solve post F (start s T0 Tn0 u un d dn e) sched = (st', evs, stt) ->
  forall ms mat z p S, owner ms mat z ->
  (forall c, In c (solves evs) -> 0 < sv_T c p -> has_solubility mat (sv_T c p) S ->
     used_solubility (Simulation.is_steady_state T) T0 (sv_T c) ms z p = Ok S) /\
  (forall q, In q (posts evs) -> 0 < snd q p -> has_solubility mat (snd q p) S ->
     used_solubility (Simulation.is_steady_state T) T0 (snd q) ms z p = Ok S).
Proof.
  intros Hsame H ms mat z p S Ho.
  split; intros c Hc Hpos HS; apply (used_current _ _ mat); auto; intros Hst;
    destruct (run_steady _ _ _ _ _ _ _ _ _ _ _ _ _ _ _ Hsame Hst H) as [H1 H2].
  - now rewrite (H1 c Hc).
  - now rewrite (H2 c Hc).
Qed.

(** The previous concentration in the equations, from the values of a solve. *)
Local Lemma previous_value m T Tn u un c cn x :
  0 < val T -> 0 < val Tn -> theta_concentration m T Tn u un = Ok (c, cn) ->
  concentration_of m (val Tn) (val un) x -> val cn = x.
Proof.
  intros HT HTn H (S0 & ES & HS & HE & _ & ->).
  destruct (theta_concentration_val m T Tn u un c cn HT HTn H) as (S1 & E1 & HS1 & HE1 & _ & ->).
  assert (S1 = S0) by congruence. assert (E1 = ES) by congruence. subst.
  destruct (m_law m); cbn [conc_of]; ring.
Qed.

Local Lemma chain_pair {B} (Q : B -> B -> Prop) l1 a b l2 : chain Q (l1 ++ a :: b :: l2) -> Q a b.
Proof.
  induction l1 as [|x r IH]; [now intros [H _]|]. intros H. apply IH.
  destruct r; destruct H as [_ H]; exact H.
Qed.

Local Lemma heat_cases F s u un d dn e sched st' evs stt l1 a b l2 :
  no_transient_heat temp ->
  run_transient temp dens_solve post F (start s T0 Tn0 u un d dn e) sched = (st', evs, stt) ->
  solves evs = l1 ++ a :: b :: l2 ->
  if at_conv (sv_out a) then sv_Tn b = sv_T a /\ sv_prev b = at_u (sv_out a)
  else sv_Tn b = sv_Tn a /\ sv_prev b = sv_prev a.
Proof.
  intros Hnt H Heq.
  pose proof (run_chain_start _ _ _ _ _ _ _ _ _ _ _ _ _ _ _ _ H) as Hch. rewrite Heq in Hch.
  apply chain_pair in Hch. destruct Hch as [Hr|Hn].
  - destruct Hr as (Hc & _ & Hp & _ & _ & HTn & _). rewrite Hc. auto.
  - destruct Hn as (Hc & _ & Hp & _ & Htu & _). rewrite Hc. split; [|exact Hp].
    assert (Hfr : (exists solve, temp = TempHeat false solve) \/ temp = TempXDMF -> sv_Tn b = sv_T a).
    { intros Hf. destruct (C54_run_frozen _ _ _ _ temp _ _ _ _ _ _ _ _ _ _ _ _ _ _ _ Hf H) as [Hs _].
      destruct (Hs a) as [Ha _]; [rewrite Heq; apply in_or_app; right; now left|].
      destruct (Hs b) as [_ Hb]; [rewrite Heq; apply in_or_app; right; right; now left|].
      rewrite Ha, Hb. destruct Hf as [[solve Ht]|Ht]; rewrite Ht; reflexivity. }
    revert Htu Hfr Hnt. destruct temp as [f|tr solve|]; intros Htu Hfr Hnt.
    + cbn in Htu. injection Htu as _ Htu. auto.
    + destruct tr; [now destruct (Hnt solve)|]. apply Hfr. left. now exists solve.
    + apply Hfr. now right.
Qed.

(** Part of C77: temperatures other than that of a transient HeatTransferProblem.  Missing: there it is false, see
    the refutations below. *)
Theorem C77_first_partial F s u un d dn e sched st' evs stt c r m p comp :
  no_transient_heat temp ->
  run_transient temp dens_solve post F (start s T0 Tn0 u un d dn e) sched = (st', evs, stt) ->
  solves evs = c :: r ->
  0 < T0 p -> 0 <= comp -> (exists S, has_solubility m (T0 p) S) ->
  theta_initialise m (T0 p) comp = Ok (un p) ->
  concentration_of m (sv_Tn c p) (sv_prev c p) comp /\
  (forall T Tn sol prev c_0 c_0_n, 0 < val T -> val Tn = sv_Tn c p -> val prev = sv_prev c p ->
     theta_concentration m T Tn sol prev = Ok (c_0, c_0_n) -> val c_0_n = comp).
Proof.
  intros Hnt H Heq Hpos Hc HS Hth.
  destruct (run_first_solve _ _ _ _ _ _ _ _ _ _ _ H Heq) as (_ & Hp & _ & _ & _ & Htu).
  cbn [st_un st_T st_Tn start] in Hp, Htu.
  assert (HTn : sv_Tn c = T0).
  { revert Htu Hnt. clear. destruct temp as [f|tr solve|]; intros Htu Hnt; cbn in Htu |- *.
    - congruence.
    - destruct tr; [now destruct (Hnt solve)|]. cbn in Htu |- *; congruence.
    - congruence. }
  assert (Hcon : concentration_of m (sv_Tn c p) (sv_prev c p) comp).
  { rewrite HTn, Hp. destruct HS as (S & S0 & ES & HS0 & HE & HSp & _).
    destruct (initialise_ok m (T0 p) comp (un p) Hpos Hth) as (S0' & ES' & HS0' & HE' & Hv).
    assert (S0' = S0) by congruence. assert (ES' = ES) by congruence. subst S0' ES'.
    exists S0, ES. repeat (split; [assumption|]). cbv zeta.
    pose proof (arrhenius_pos S0 ES (T0 p) HSp) as HA. rewrite Hv. destruct (m_law m).
    - field. lra.
    - rewrite sqrt_sqrt; [field; lra|]. apply Rmult_le_pos; [exact Hc|]. left. now apply Rinv_0_lt_compat. }
  split; [exact Hcon|].
  intros T Tn sol prev c_0 c_0_n HT HTn' Hprev Hok.
  apply (previous_value m T Tn sol prev c_0 c_0_n comp HT); [rewrite HTn', HTn; exact Hpos|exact Hok|].
  now rewrite HTn', Hprev.
Qed.

Theorem C77_chain_partial F s u un d dn e sched st' evs stt l1 a b l2 m p x :
  no_transient_heat temp ->
  run_transient temp dens_solve post F (start s T0 Tn0 u un d dn e) sched = (st', evs, stt) ->
  solves evs = l1 ++ a :: b :: l2 ->
  (if at_conv (sv_out a) then concentration_of m (sv_T a p) (at_u (sv_out a) p) x
   else concentration_of m (sv_Tn a p) (sv_prev a p) x) ->
  concentration_of m (sv_Tn b p) (sv_prev b p) x /\
  (forall T Tn sol prev c_0 c_0_n, 0 < val T -> 0 < val Tn -> val Tn = sv_Tn b p -> val prev = sv_prev b p ->
     theta_concentration m T Tn sol prev = Ok (c_0, c_0_n) -> val c_0_n = x).
Proof.
  intros Hnt H Heq Hx.
  assert (Hcon : concentration_of m (sv_Tn b p) (sv_prev b p) x).
  { pose proof (heat_cases _ _ _ _ _ _ _ _ _ _ _ _ _ _ _ Hnt H Heq) as Hc.
    destruct (at_conv (sv_out a)); destruct Hc as [-> ->]; exact Hx. }
  split; [exact Hcon|].
  intros T Tn sol prev c_0 c_0_n HT HTn HTn' Hprev Hok.
  apply (previous_value m T Tn sol prev c_0 c_0_n x HT HTn Hok). now rewrite HTn', Hprev.
Qed.
End Runs.
Print Assumptions C76_solubility.
Print Assumptions C77_first_partial.
Print Assumptions C77_chain_partial.

(** * Transient heat transfer *)

(** A Sieverts material with S = exp(-300 k_B / (k_B T)). *)
Definition warm_mat : mat :=
  mkMaterial (IdOne 1) None (Const 1) (Const 0) (Some (Const 1)) (Some (Const (300 * k_B))) None None None
    BNone None Sievert.
(** The temperature of a point: 300 at the start and at t = 1, 600 from t = 2 on. *)
Definition warming {X} (cold hot : X) (_ _ : X) (t _ : Q) : X := if Qle_bool t 1 then cold else hot.
(** Two steps of size 1 in which the solver converges to [v]. *)
Definition warm_run {X U} (temp : temperature (A:=Q) X) (T0 Tn0 : X) (u0 v : U) :=
  run_transient temp (fun (_ _ : unit) _ _ => tt) (fun _ (_ : U) _ (_ : unit) => Ok tt) 2%Q
    (start (mk_stepsize 1%Q None None None MaxNone None None) T0 Tn0 u0 u0 tt tt tt)
    [[mkAttempt v 3%Z true]; [mkAttempt v 3%Z true]].
Local Lemma warm_heat {X U} (cold hot T0 Tn0 : X) (u0 v : U) : exists st' evs a b,
  warm_run (TempHeat true (warming cold hot)) T0 Tn0 u0 v = (st', evs, Done) /\ solves evs = [a; b] /\
  at_conv (sv_out a) = true /\ sv_T a = cold /\ at_u (sv_out a) = v /\ sv_T b = hot /\ sv_Tn b = hot /\ sv_prev b = v.
Proof. do 4 eexists. split; [vm_compute; reflexivity|]. split; [vm_compute; reflexivity|]. repeat split. Qed.
Local Lemma warm_expr {X U} (f : Q -> X) (T0 Tn0 : X) (u0 v : U) : exists st' evs a b t1 t2,
  warm_run (TempExpr f) T0 Tn0 u0 v = (st', evs, Done) /\ solves evs = [a; b] /\ (t1 == 1)%Q /\ (t2 == 2)%Q /\
  at_conv (sv_out a) = true /\ sv_T a = f t1 /\ sv_Tn a = T0 /\ at_u (sv_out a) = v /\ sv_T b = f t2 /\ sv_Tn b = f t1.
Proof.
  do 6 eexists. split; [vm_compute; reflexivity|]. split; [vm_compute; reflexivity|]. cbn [sv_T sv_Tn sv_out at_conv at_u].
  split; [|split]; [| |repeat split]; reflexivity.
Qed.

(** C77 is false with a transient HeatTransferProblem: the first step ends with chemical potential 1 at 300, the
    second starts with chemical potential 1 at 600, so with another concentration. *)
Theorem C77_heat_refuted :
  exists temp T0 Tn0 u0 st' evs a b,
    (exists solve, temp = TempHeat true solve) /\
    warm_run temp T0 Tn0 u0 (fun _ : unit => 1) = (st', evs, Done) /\ solves evs = [a; b] /\ at_conv (sv_out a) = true /\
    exists x y, concentration_of warm_mat (sv_T a tt) (at_u (sv_out a) tt) x /\
      (forall T Tn sol prev c_0 c_0_n, val T = sv_T b tt -> val Tn = sv_Tn b tt -> val prev = sv_prev b tt ->
         theta_concentration warm_mat T Tn sol prev = Ok (c_0, c_0_n) -> val c_0_n = y) /\
      x < y.
Proof.
  destruct (warm_heat (fun _ : unit => 300) (fun _ => 600) (fun _ => 0) (fun _ => 300) (fun _ : unit => 1) (fun _ => 1))
    as (st' & evs & a & b & Hrun & Hs & Hc & HTa & Hua & HTb & HTnb & Hpb).
  exists (TempHeat true (warming (fun _ => 300) (fun _ => 600))), (fun _ => 0), (fun _ => 300), (fun _ => 1), st', evs, a, b.
  split; [eexists; reflexivity|]. split; [exact Hrun|]. split; [exact Hs|]. split; [exact Hc|].
  rewrite HTa, Hua, HTb, HTnb, Hpb. clear.
  exists (1 * arrhenius 1 (300 * k_B) 300), (1 * arrhenius 1 (300 * k_B) 600).
  split; [|split].
  - exists 1, (300 * k_B). cbn. repeat split; lra.
  - intros T Tn sol prev c_0 c_0_n HT HTn Hp Hok. cbn in HT, HTn, Hp.
    apply (previous_value warm_mat T Tn sol prev c_0 c_0_n); [lra|lra|exact Hok|].
    rewrite HTn, Hp. exists 1, (300 * k_B). cbn. repeat split; lra.
  - rewrite !Rmult_1_l. rewrite <- !arrhenius_model by lra. rewrite !Rmult_1_l. apply exp_increasing.
    replace (- (300 * k_B) / k_B / 300) with (-1) by (pose proof k_B_pos; field; lra).
    replace (- (300 * k_B) / k_B / 600) with (- / 2) by (pose proof k_B_pos; field; lra). lra.
Qed.

(** Theta.initialise divides by the solubility at the temperature 0, because T is only computed in the first step: in
    binary64 the chemical potential is infinite (NaN where the concentration is 0), for every exp with
    exp(-infinity) = 0. *)
Theorem C77_initial_heat_refuted :
  forall (exp : float -> float), exp neg_infinity = 0%float ->
  forall solve ini stationary file,
  let T := fst (created (A:=float) (TempHeat true solve) 0%float ini stationary file) in
  theta_sievert PrimFloat.opp exp 8.6e-5%float 1%float 0.1%float T 1%float = infinity /\
  theta_sievert PrimFloat.opp exp 8.6e-5%float 1%float 0.1%float T 0%float = nan.
Proof.
  intros exp H solve ini stationary file T. subst T. cbn [created fst]. unfold theta_sievert.
  replace (ndiv (ndiv (- 0.1)%float 8.6e-5%float) 0%float) with neg_infinity by (vm_compute; reflexivity).
  rewrite H. split; vm_compute; reflexivity.
Qed.
Print Assumptions C77_heat_refuted.
Print Assumptions C77_initial_heat_refuted.

(** * Examples *)

(** Temperature(value=300) and Temperature(value=300 + 300*t): one is frozen, the other is not; both satisfy the
    hypotheses of C76_solubility and C77. *)
Local Open Scope string_scope.
Definition real_meaning : meaning R :=
  {| m_int := IZR; m_rat := fun p q => IZR p / IZR (Zpos q); m_float := fun _ _ => 0;
     m_sum := fold_right Rplus 0; m_prod := fold_right Rmult 1; m_pow := fun _ b => b; m_fun := fun _ _ => 0;
     m_rel := fun _ _ b => b; m_bool := fun _ _ => 0; m_piece := fun _ b => b |}.
Definition constant_T : expr := SympyAst.EInt 300.
Definition rising_T : expr := SympyAst.EAdd [SympyAst.EInt 300; SympyAst.EMul [SympyAst.EInt 300; ESym "t"]].
Definition temp_of (e : expr) : temperature (A:=Q) (unit -> R) :=
  TempExpr (fun t (p : unit) => SympySpec.value_at real_meaning (fun _ => 0) (Q2R t) e).
Definition warm_start e := warm_run (temp_of e) (fst (created (temp_of e) (fun _ => 0) (fun _ => 0) (fun _ => 0) (fun _ => 0)))
  (snd (created (temp_of e) (fun _ => 0) (fun _ => 0) (fun _ => 0) (fun _ => 0))) (fun _ : unit => 1) (fun _ => 1).

Local Lemma rising_run : exists st' evs a b, warm_start rising_T = (st', evs, Done) /\ solves evs = [a; b] /\
  sv_T a tt = 600 /\ sv_T b tt = 900 /\ sv_Tn a tt = 300 /\ sv_Tn b tt = 600 /\ at_conv (sv_out a) = true /\
  at_u (sv_out a) tt = 1.
Proof.
  unfold warm_start.
  destruct (warm_expr (fun t (p : unit) => SympySpec.value_at real_meaning (fun _ => 0) (Q2R t) rising_T)
      (fst (created (temp_of rising_T) (fun _ => 0) (fun _ => 0) (fun _ => 0) (fun _ => 0)))
      (snd (created (temp_of rising_T) (fun _ => 0) (fun _ => 0) (fun _ => 0) (fun _ => 0)))
      (fun _ : unit => 1) (fun _ => 1))
      as (st' & evs & a & b & t1 & t2 & Hrun & Hs & H1 & H2 & Hc & Ha & HTn & Hu & Hb & Hbn).
  exists st', evs, a, b. split; [exact Hrun|]. split; [exact Hs|].
  rewrite Ha, HTn, Hb, Hbn, Hu. clear Hrun Hs Ha HTn Hb Hbn Hu. apply Qeq_eqR in H1, H2.
  assert (HQ0 : Q2R n0 = 0) by (unfold Q2R; cbn; field).
  assert (HQ1 : Q2R 1 = 1) by (unfold Q2R; cbn; field).
  assert (HQ2 : Q2R 2 = 2) by (unfold Q2R; cbn; field).
  cbn [fst snd created temp_of SympySpec.value_at rising_T map real_meaning m_sum m_prod m_int fold_right String.eqb
    Ascii.eqb Bool.eqb].
  rewrite HQ0, H1, H2, HQ1, HQ2. repeat split; try assumption; try lra.
Qed.

Example C76_example :
  SympyAst.is_steady_state constant_T = true /\ SympyAst.is_steady_state rising_T = false /\
  (forall e, same_temperature (V:=unit) real_meaning (fun (_ : unit) _ => 0) Q2R
     (TGiven (SympyAst.is_steady_state e)) (temp_of e)) /\
  (exists st' evs, warm_start constant_T = (st', evs, Done) /\
     map (fun c => sv_T c tt) (solves evs) = [300; 300]) /\
  (exists st' evs a b, warm_start rising_T = (st', evs, Done) /\ solves evs = [a; b] /\
     sv_T a tt = 600 /\ sv_T b tt = 900 /\ sv_Tn a tt = 300 /\ sv_Tn b tt = 600) /\
  owner [warm_mat] warm_mat 1 /\ (forall T, 0 < T -> has_solubility warm_mat T (arrhenius 1 (300 * k_B) T)) /\
  theta_initialise warm_mat 300 (arrhenius 1 (300 * k_B) 300) = Ok 1.
Proof.
  split; [reflexivity|]. split; [reflexivity|]. split; [intros e; constructor|].
  split.
  { unfold warm_start.
    destruct (warm_expr (fun t (p : unit) => SympySpec.value_at real_meaning (fun _ => 0) (Q2R t) constant_T)
      (fst (created (temp_of constant_T) (fun _ => 0) (fun _ => 0) (fun _ => 0) (fun _ => 0)))
      (snd (created (temp_of constant_T) (fun _ => 0) (fun _ => 0) (fun _ => 0) (fun _ => 0)))
      (fun _ : unit => 1) (fun _ => 1)) as (st' & evs & a & b & t1 & t2 & Hrun & Hs & _ & _ & _ & Ha & _ & _ & Hb & _).
    exists st', evs. split; [exact Hrun|]. rewrite Hs. cbn [map]. now rewrite Ha, Hb. }
  split.
  { destruct rising_run as (st' & evs & a & b & H). exists st', evs, a, b. tauto. }
  split. { split; [|split; [now left|now left]]. cbn. constructor; [easy|constructor]. }
  split. { intros T HT. exists 1, (300 * k_B). cbn. repeat split; lra. }
  unfold theta_initialise. cbn. rewrite arrhenius_model by lra. f_equal.
  apply Rinv_r. pose proof (arrhenius_pos 1 (300 * k_B) 300). lra.
Qed.

Example C77_example :
  no_transient_heat (temp_of rising_T) /\
  exists st' evs a b, warm_start rising_T = (st', evs, Done) /\ solves evs = [a; b] /\ at_conv (sv_out a) = true /\
    concentration_of warm_mat (sv_T a tt) (at_u (sv_out a) tt) (arrhenius 1 (300 * k_B) 600).
Proof.
  split; [discriminate|]. destruct rising_run as (st' & evs & a & b & Hrun & Hs & HTa & _ & _ & _ & Hc & Hu).
  exists st', evs, a, b. repeat (split; [assumption|]). rewrite HTa, Hu.
  exists 1, (300 * k_B). split; [reflexivity|]. split; [reflexivity|]. split; [lra|]. cbn. ring.
Qed.
