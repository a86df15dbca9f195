(** C22: initialising a simulation again. *)
From Coq Require Import ZArith QArith List Bool String Lia.
From Verif Require Import Base.Exc Base.Num Base.Key Model.Stepsize Model.TimeLoop Model.Materials Model.Mesh1D
  Model.Sources Model.Bcs Model.Fields Model.Paths Model.Exports Model.TxtTimes Model.TxtRows Model.Simulation
  Spec.TimeSpec Spec.ExportSpec Spec.MeshSpec Spec.FieldSpec Spec.SimSpec
  Proofs.NumQ Proofs.KeyProofs Proofs.SourceProofs Proofs.FieldProofs Proofs.StepsizeProofs Proofs.TimeLoopProofs
  Proofs.ExportProofs Proofs.ExportTrack Proofs.ExportRuns Proofs.TxtRuns Proofs.SimProofs Proofs.RerunProofs.
From Verif Require Proofs.TimeWitness Properties.FieldProps Properties.ExportProps Properties.SimProps.
Import ListNotations.
Local Open Scope string_scope.
Local Notation length := List.length.

Section Rerun.
Context {P S V F W C : Type}.
Local Notation material := (material (A:=Q) P).
Local Notation sim := (@sim Q P S V F W C).
Local Notation exports := (exports (A:=Q) F W C).
Variable s_field : S -> key.
Variable s_decay : S -> bool.
Variable s_list : S -> bool.
Variable same : material -> material -> bool.
Variables eps half : Q.
Variable dofs : bool -> list Q.
Variable argsort : list Q -> list nat.
Variable dx_list : res unit.
Variable reconvert : V -> res V.
Local Notation initialise := (initialise s_field s_decay s_list same eps half dofs argsort dx_list reconvert).

Ltac step H x E := apply bind_ok in H; destruct H as (x & E & H).

(** After initialise and a run, which may have changed the value of the stepsize and filled the exports,
    initialise succeeds again and gives the same problem, stepsize, traps and sources; the exports are empty
    again and have the same settings.  An initial temperature has to survive being converted twice. *)
Theorem C22_rerun_partial (s s1 : sim) p1 dt ex :
  initialise s = Ok (s1, p1) -> used_dt (sm_dt s1) dt -> used_exports (sm_exports s1) ex ->
  (forall v, sm_T s1 = Some (THeat true (IniExpression v)) -> reconvert v = Ok v) ->
  exists s2 p2, initialise (after_run s1 dt ex) = Ok (s2, p2) /\
    same_problem p1 p2 /\ same_sim s1 s2 /\ exports_as_new (sm_exports s1) (sm_exports s2).
Proof.
  intros H Hdt Hex Hrec. unfold Simulation.initialise in H.
  step H r0 E. step H T E0. step H att E1. step H bcs E2. step H r3 E3. step H mk E4. step H T1 E5. step H w1 E6.
  step H r7 E7. step H r8 E8. step H h E9. destruct h as [[[ids ini] mss] c]. step H e E10. injection H as <- <-.
  cbn [sm_dt sm_exports sm_T] in Hdt, Hex, Hrec.
  assert (ET : sm_T s = Some T) by (unfold get_T in E0; destruct (sm_T s); congruence).
  unfold initialise_h in E9. step E9 q1 E11. step E9 q2 E12. step E9 q3 E13. step E9 q4 E14. step E9 q5 E15.
  step E9 q6 E16. step E9 q7 E17. step E9 q8 E18. injection E9 as <- <- <- <-.
  set (ids := assign_traps_ids (map tr_id (sm_traps s))) in *.
  (* traps *)
  pose proof (make_traps_materials_spec same (sm_materials s) (sm_traps s)) as Hm. rewrite E13 in Hm.
  assert (Hids : length ids = length (sm_traps s)).
  { unfold ids, assign_traps_ids. rewrite assign_length. apply map_length. }
  destruct (settle_ok same dx_list _ _ _ Hm ids Hids) as (Hl & Hi & Hmk & Hs & Hmob).
  (* exports *)
  destruct e as [dt1 w]. cbn [fst snd] in *.
  destruct (initialise_exports_ok (sm_exports s)) as (Hil & Hinb & _ & Hiq & _).
  destruct Hex as [Hexl Hexq]. rewrite Hil in Hexl. pose proof (used_init _ _ Hexl) as Hexl0.
  set (s' := after_run _ dt ex).
  destruct (export_loop_again dofs argsort s s' (ex_list (sm_exports s)) eq_refl eq_refl eq_refl eq_refl eq_refl eq_refl) with (1 := fun i => qstatic_trans _ _ _ (Hiq i) (Hexq i) : used_quantity _ _) (2 := E10) as [Hreg Hagain].
  (* time *)
  assert (Hdt1 : initial_dt s' = dt1 /\ check_time s' = Ok tt).
  { unfold initial_dt, check_time, s', after_run. cbn [sm_transient sm_dt sm_final].
    unfold check_time in E. unfold initial_dt in Hreg. destruct (sm_transient s) eqn:Et; cbn [negb andb] in *.
    - destruct (sm_final s); [|discriminate]. destruct (sm_dt s) as [d|]; [|discriminate].
      cbn [option_map is_some negb] in *.
      destruct (register_value _ _ _ Hreg) as (d1 & -> & Hv); [reflexivity|].
      destruct dt as [d'|]; cbn in Hdt; [|tauto]. destruct Hdt as (H1 & H2 & H3). split; [|reflexivity].
      cbn [option_map]. f_equal. unfold initialise_value, assign. destruct d1, d'; cbn in *. congruence.
    - destruct (sm_dt s); [discriminate|]. cbn [is_some andb] in *.
      assert (dt1 = None) as ->.
      { clear - Hreg. revert Hreg. induction (ex_list (sm_exports s)) as [|e r IH]; cbn [register_times]; [now intros [= <-]|].
        destruct e as [d|x|x]; [assumption..|]. destruct (tx_times x) as [[|t q]|]; [assumption|discriminate|assumption]. }
      destruct dt; cbn in Hdt; [tauto|]. split; reflexivity. }
  destruct Hdt1 as [Hdt1 Hct].
  assert (Hreg' : register_times (initial_dt s') (ex_list ex) = Ok dt1).
  { rewrite Hdt1, (register_used _ _ Hexl0). now apply register_again in Hreg. }
  specialize (Hagain (ex_list ex) (initial_dt s') dt1 Hexl0 Hreg').
  (* sources *)
  apply sources_again in E1 as (att' & Eatt & Hatt).
  (* temperature *)
  assert (HT : create_T reconvert (fst T1) (sm_materials s) = Ok T1 /\ is_heat_problem (fst T1) = is_heat_problem T /\
               temp_kind_of (fst T1) = temp_kind_of T /\ is_steady_state (fst T1) = is_steady_state T).
  { clear - E5 Hrec. destruct T as [b| |[|] i]; cbn [create_T] in E5.
    - injection E5 as <-. auto.
    - injection E5 as <-. auto.
    - destruct i as [| |v|v]; [discriminate|..]; [| |step E5 v' Ev]; step E5 r Er; injection E5 as <-;
        cbn [fst create_T] in *; try rewrite (Hrec _ eq_refl); cbn [bind]; rewrite Er; auto.
    - destruct i; step E5 r Er; injection E5 as <-; cbn [fst create_T] in *; rewrite Er; auto. }
  destruct HT as (HT & Hheat & Hkind & Hsteady).
  assert (Hall : initialise s' = Ok (mkSim (sm_transient s) (sm_final s) (sm_chem s) (sm_soret s) (sm_dg s) dt1 (Some (fst T1))
        (sm_sources s) (sm_bcs s) (sm_mesh s) (sm_materials s) (settle (sm_traps s) ids q3) (sm_inis s)
        (initialise_exports ex) (sm_filters s) att',
      mkProblem att' (fst bcs) (snd bcs) mk (snd T1) ids q2 q3 q8 (w1 ++ w)%list)).
  { unfold Simulation.initialise. rewrite Hct. cbn [bind].
    change (get_T s') with (Ok (fst T1)). cbn [bind].
    change (sm_traps s') with (settle (sm_traps s) ids q3). rewrite Hl, Hheat.
    change (sm_sources s') with (sm_sources s). change (sm_attached s') with att. rewrite Eatt. cbn [bind].
    change (sm_mesh s') with (sm_mesh s). change (sm_bcs s') with (sm_bcs s). rewrite E2. cbn [bind].
    rewrite E3. cbn [bind]. change (sm_materials s') with (sm_materials s). rewrite E4. cbn [bind].
    rewrite HT. cbn [bind]. rewrite Hkind, E6. cbn [bind]. rewrite E7. cbn [bind].
    change (sm_chem s') with (sm_chem s). unfold project_solubility. rewrite Hsteady.
    unfold project_solubility in E8. rewrite E8. cbn [bind].
    unfold initialise_h. change (sm_traps s') with (settle (sm_traps s) ids q3). rewrite Hi.
    change (sm_materials s') with (sm_materials s). change (sm_chem s') with (sm_chem s).
    change (sm_inis s') with (sm_inis s). change (sm_soret s') with (sm_soret s).
    change (sm_transient s') with (sm_transient s).
    replace (assign_traps_ids (map Some ids)) with ids by (unfold ids; symmetry; apply FieldProps.C33_ids_stable).
    rewrite E11. cbn [bind]. rewrite E12. cbn [bind]. rewrite Hmk. cbn [bind]. rewrite E14. cbn [bind].
    rewrite E15. cbn [bind]. rewrite Hmob, E16. cbn [bind].
    rewrite (trapping_forms_ext same s_list dx_list _ _ _ _ _ _ Hatt), E17. cbn [bind].
    rewrite Hl, E18. cbn [bind].
    change (sm_exports s') with ex. rewrite Hagain. cbn [bind fst snd]. rewrite Hs. reflexivity. }
  eexists _, _. split; [exact Hall|]. split; [|split].
  - unfold same_problem; cbn. auto 12.
  - unfold same_sim; cbn. auto 20.
  - cbn [sm_exports]. destruct (initialise_exports_ok ex) as (Hil' & _ & _ & Hiq' & Hres).
    unfold exports_as_new. rewrite Hil, Hil'. split; [now apply as_new_init|]. split.
    + intros i. exact (qstatic_trans _ _ _ (Hexq i) (Hiq' i)).
    + intros d i Hd Hi'. apply in_map_iff in Hd as (e0 & He0 & Hin). destruct e0 as [d0|x|x]; try discriminate.
      injection He0 as <-. cbn [set_data dq_data dq_t dq_list] in *. split; [reflexivity|]. split; [reflexivity|].
      exact (Hres i (EDerived d0) Hin Hi').
Qed.
End Rerun.

(** A run between the two initialise. *)
Section Run.
Context {P S V F W C U X D : Type}.
Local Notation material := (material (A:=Q) P).
Local Notation sim := (@sim Q P S V F W C).
Variable s_field : S -> key.
Variable s_decay : S -> bool.
Variable s_list : S -> bool.
Variable same : material -> material -> bool.
Variables eps half : Q.
Variable dofs : bool -> list Q.
Variable argsort : list Q -> list nat.
Variable dx_list : res unit.
Variable reconvert : V -> res V.
Local Notation initialise := (initialise s_field s_decay s_list same eps half dofs argsort dx_list reconvert).
(** See Model/TimeLoop.v and Model/Exports.v. *)
Variable temp : temperature (A:=Q) X.
Variable dens_solve : D -> D -> Q -> X -> D.
Variable is_function : F -> bool.
Variable project : F -> F.
Hypothesis project_function : forall f, is_function (project f) = true.
Variable ltf : U -> X -> dict F.

(** Whatever the solver does in a transient run, and however it ends (finished, stopped by an exception or
    still running), the simulation can be initialised again and gives the same problem. *)
Theorem C22_rerun_after_run_partial (s s1 : sim) p1 ft dt1 T0 Tn0 (u0 un0 : U) d0 dn0 sched st' evs stt :
  initialise s = Ok (s1, p1) -> sm_dt s1 = Some dt1 ->
  run_transient temp dens_solve (post_processing is_function project ltf) ft
    (TimeLoop.start dt1 T0 Tn0 u0 un0 d0 dn0 (set_final (sm_exports s1) ft, [])) sched = (st', evs, stt) ->
  (forall v, sm_T s1 = Some (THeat true (IniExpression v)) -> reconvert v = Ok v) ->
  exists s2 p2, initialise (after_run s1 (Some (st_dt st')) (fst (st_exp st'))) = Ok (s2, p2) /\
    same_problem p1 p2 /\ same_sim s1 s2 /\ exports_as_new (sm_exports s1) (sm_exports s2) /\
    ex_nb (sm_exports s2) = (ex_nb (sm_exports s1) + Z.of_nat (length (visited evs)))%Z.
Proof.
  intros Hi Hd Hr Hrec.
  pose proof (run_settings _ _ _ _ _ _ _ _ _ Hr) as Hs.
  destruct (run_calls is_function project ltf _ _ _ _ _ _ _ _ _ Hr eq_refl) as [Hc Hlen].
  pose proof (calls_static is_function project project_function _ _ _ _ Hc) as [Hex Hq].
  destruct (C22_rerun_partial s_field s_decay s_list same eps half dofs argsort dx_list reconvert
              s s1 p1 (Some (st_dt st')) (fst (st_exp st')) Hi) as (s2 & p2 & H2 & Hp & Hss & Hen); [|split|assumption|].
  - rewrite Hd. exact Hs.
  - exact Hex.
  - exact Hq.
  - exists s2, p2. split; [assumption|]. split; [assumption|]. split; [assumption|]. split; [assumption|].
    apply calls_final in Hc as [_ Hnb].
    assert (He : sm_exports s2 = initialise_exports (fst (st_exp st'))).
    { unfold Simulation.initialise in H2. repeat (apply bind_ok in H2; destruct H2 as (? & _ & H2)).
      destruct x9 as [[[? ?] ?] ?]. apply bind_ok in H2 as (? & _ & H2). injection H2 as <- _. reflexivity. }
    rewrite He. destruct (initialise_exports_ok (fst (st_exp st'))) as (_ & -> & _). rewrite Hnb. cbn [set_final ex_nb].
    rewrite map_length. now rewrite <- (ExportProps.posts_length evs).
Qed.
End Run.

(** * What is missing: state of the exports that initialise does not reset *)
Section Witness.
Local Open Scope Q_scope.
Import ExportProps.
Local Notation exports := (exports (A:=Q) Q Q Q).
(** initialise and run once more, with the exports as the previous run left them. *)
Definition again (ft : Q) (s : stepsize Q) (ex : exports) (sched : list (list (attempt unit))) :=
  run_exports (TempExpr (fun t => 300 + 10 * t)) (fun (_ _ : unit) _ _ => tt) (fun _ => true) (fun f => f)
    demo_ltf 300 300 tt tt tt tt ft s ex sched.
Definition exports_of {X D} (r : TimeLoop.state (A:=Q) unit X D (export_state (A:=Q) Q Q Q) * list (event (A:=Q) unit X D) * status) := fst (st_exp (fst (fst r))).
Definition log_of {X D} (r : TimeLoop.state (A:=Q) unit X D (export_state (A:=Q) Q Q Q) * list (event (A:=Q) unit X D) * status) := snd (st_exp (fst (fst r))).
Definition rerun_list : list (export (A:=Q) Q Q Q) :=
  [EXdmf (mkXdmf (LStr "T") (Every 2) true None false); EDerived (demo_dq [0]%nat (Some 1%Z))].
Definition new_exports : exports := mkExports rerun_list demo_store [] None 0.
Definition first := again 3 (fixed 1 None) new_exports (repeat [TimeWitness.ok 3] 3).
Definition second := again 3 (fixed 1 None) (exports_of first) (repeat [TimeWitness.ok 3] 3).

(** Three steps with XDMFExport(mode=2): the first run writes steps 0 and 2 into a new file, the second run
    writes step 1 only, and appends to the file of the first run.  The DerivedQuantities are computed at
    other times. *)
Theorem C22_exports_refuted :
  snd first = Done /\ snd second = Done /\
  visited (snd (fst first)) = visited (snd (fst second)) /\
  steps_written 0 (log_of first) = [0; 2]%nat /\ steps_written 0 (log_of second) = [1]%nat /\
  (exists t f, hd_error (written_by 0 (log_of first)) = Some (0%nat, t, WXdmf t f true false)) /\
  (exists t f, hd_error (written_by 0 (log_of second)) = Some (1%nat, t, WXdmf t f true true)) /\
  q_t (ex_store (exports_of first) 0%nat) = [1; 3] /\ q_t (ex_store (exports_of second) 0%nat) = [2].
Proof.
  split; [vm_compute; reflexivity|]. split; [vm_compute; reflexivity|]. split; [vm_compute; reflexivity|].
  split; [vm_compute; reflexivity|]. split; [vm_compute; reflexivity|].
  split. { eexists _, _. vm_compute. reflexivity. }
  split. { eexists _, _. vm_compute. reflexivity. }
  split; vm_compute; reflexivity.
Qed.

(** Switching to a stationary simulation: Exports.final_time keeps its value, so a DerivedQuantities, which
    writes at once in a new stationary simulation (t = 0), writes nothing. *)
Definition steady_list : list (export (A:=Q) Q Q Q) := [EDerived (mkDerived [0%nat] (Some "out/d.csv") 1 None false [] [])].
Definition steady_exports (final : option Q) : exports := mkExports steady_list demo_store [] final 0.
Theorem C22_final_time_refuted :
  let after := exports_of (again 3 (fixed 1 None) (steady_exports None) (repeat [TimeWitness.ok 3] 3)) in
  ex_final after = Some 3 /\ ex_final (initialise_exports after) = Some 3 /\
  (exists ex rows, write (fun _ => true) (fun f => f) (initialise_exports (steady_exports None)) (demo_ltf tt 300) 0 =
     Ok (ex, [(0%nat, WCsv "out/d.csv" rows)])) /\
  (exists ex, write (fun _ => true) (fun f => f) (initialise_exports after) (demo_ltf tt 300) 0 = Ok (ex, [])).
Proof.
  cbv zeta. split; [vm_compute; reflexivity|]. split; [vm_compute; reflexivity|]. split.
  - eexists _, _. vm_compute. reflexivity.
  - eexists. vm_compute. reflexivity.
Qed.

(** C22_rerun_after_run_partial applies to [SimProps.good]. *)
Definition good_run (s : @Simulation.sim Q Q key Q unit Q Q) :=
  run_transient (TempExpr (fun t => 300 + 10 * t)) (fun (_ _ : unit) _ _ => tt)
    (post_processing (fun _ => true) (fun f => f) (fun (_ : unit) (_ : Q) => [(LStr "solute", FFun tt)])) 10
    (TimeLoop.start (match sm_dt s with Some d => d | None => SimProps.ex_dt end) 300 300 tt tt tt tt (set_final (sm_exports s) 10, []))
    (repeat [mkAttempt tt 3%Z true] 14).
Definition good1 := match SimProps.ex_initialise SimProps.good with Ok r => fst r | Err _ => SimProps.good end.
Definition good2 := match SimProps.ex_initialise (after_run good1 (Some (st_dt (fst (fst (good_run good1))))) (fst (st_exp (fst (fst (good_run good1)))))) with
  Ok r => fst r | Err _ => SimProps.good end.
Example C22_example :
  (exists p1, SimProps.ex_initialise SimProps.good = Ok (good1, p1)) /\ sm_T good1 = Some (THeat true (IniExpression 300)) /\
  snd (good_run good1) = Done /\ length (visited (snd (fst (good_run good1)))) = 10%nat /\
  option_map (@milestones Q) (sm_dt good2) = Some (Some [2; 4; 5]) /\ ex_nb (sm_exports good2) = 10%Z.
Proof.
  split. { unfold good1. destruct (SimProps.ex_initialise SimProps.good) as [[a b]|e] eqn:E; [exists b; reflexivity|].
           exfalso. revert E. vm_compute. discriminate. }
  split; [vm_compute; reflexivity|]. split; [vm_compute; reflexivity|]. split; [vm_compute; reflexivity|].
  split; vm_compute; reflexivity.
Qed.
End Witness.

Print Assumptions C22_rerun_partial.
Print Assumptions C22_rerun_after_run_partial.
Print Assumptions C22_exports_refuted.
Print Assumptions C22_final_time_refuted.
