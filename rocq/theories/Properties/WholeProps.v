(** C110: initialise() followed by run(), in terms of what the user set. *)
From Coq Require Import ZArith QArith List Bool String Lia Lqa Sorted.
From Verif Require Import Base.Exc Base.Num Base.Key Model.Materials Model.Mesh1D Model.Sources
  Model.Bcs Model.Fields Model.Exports Model.TxtTimes Model.TxtRows Model.Steady Model.Simulation Model.Stepsize Model.TimeLoop Model.Run
  Spec.TimeSpec Spec.ExportSpec Spec.SteadySpec
  Proofs.NumQ Proofs.StepsizeProofs Proofs.TimeLoopProofs Proofs.TimeChain Proofs.TimeQ Proofs.TimeQ2 Proofs.TimeRuns Proofs.MaterialProofs Proofs.TxtRuns Proofs.SimProofs.
From Verif Require Properties.ExportProps Properties.SteadyRunProps Properties.SimProps Properties.AcceptedProps Properties.SteadyProps.
Import ListNotations.
Local Open Scope Q_scope.
Local Notation length := List.length.

Section Whole.
Context {P S V F W C U X D : Type}.
Local Notation material := (material (A:=Q) P).
Local Notation sim := (@sim Q P S V F W C).
Variable s_field : S -> key.
Variable s_decay : S -> bool.
Variable s_list : S -> bool.
Variable same : material -> material -> bool.
Variable eps : Q.
Variable dofs : bool -> list Q.
Variable argsort : list Q -> list nat.
Variable dx_list : res unit.
Variable reconvert : V -> res V.
Variable field_at : Q -> X.
Variable heat_solve : X -> X -> Q -> Q -> X.
Variable dens_solve : D -> D -> Q -> X -> D.
Variable is_function : F -> bool.
Variable project : F -> F.
Hypothesis project_function : forall f, is_function (project f) = true.
Variable ltf : U -> X -> dict F.
Local Notation initialise := (initialise s_field s_decay s_list same eps (1 # 2) dofs argsort dx_list reconvert).
Local Notation run := (run field_at heat_solve dens_solve is_function project ltf).
Local Notation simulate := (simulate field_at heat_solve dens_solve is_function project ltf initialise).
Local Notation run_exports := (ExportProps.run_exports (V:=W) (C:=C)).
Local Notation st_exports st := (fst (st_exp st)).
Local Notation st_log st := (snd (st_exp st)).
Local Notation miles dt := (match milestones dt with Some l => l | None => [] end).

(** The times that must be visited: the milestones of the stepsize and the times of the TXTExports. *)
Definition asked (s : sim) (t : Q) : Prop :=
  (exists dt, sm_dt s = Some dt /\ In t (miles dt)) \/
  (exists x times, In (ETxt x) (ex_list (sm_exports s)) /\ tx_times x = Some times /\ In t times).


Lemma create_T_kind (T : temp_spec (V:=V)) ms T1 : create_T (A:=Q) (P:=P) reconvert T ms = Ok T1 ->
  temperature_of (A:=Q) (X:=X) field_at heat_solve (fst T1) = temperature_of field_at heat_solve T.
Proof using Type.
  unfold create_T. destruct T as [b| |[|] [| |v|v]]; intros H; try (injection H as <-; reflexivity); try discriminate H;
    repeat (match type of H with bind _ _ = _ => apply bind_ok in H; destruct H as (? & ? & H) end);
    injection H as <-; reflexivity.
Qed.

Lemma simulate_transient (s : sim) f sched u cv st' evs stt : simulate s f sched u cv = Ok (EndTransient st' evs stt) ->
  sm_transient s = true /\ exists ft dt dt1 T, sm_final s = Some ft /\ sm_dt s = Some dt /\ sm_T s = Some T /\
    register_times (F:=F) (V:=W) (Some (initialise_value dt)) (ex_list (sm_exports s)) = Ok (Some dt1) /\
    run_exports (temperature_of (V:=V) field_at heat_solve T) dens_solve is_function project ltf
      (f_T f) (f_Tn f) (f_u f) (f_un f) (f_d f) (f_dn f) ft dt1 (sm_exports s) sched = (st', evs, stt).
Proof using Type.
  intros H. unfold Run.simulate in H. apply bind_ok in H as ([s1 p] & Hi & H).
  apply AcceptedProps.initialise_inv in Hi.
  destruct Hi as (T & att & bcs & mk & T1 & w1 & ids & ini & mss & c & e & Etime & ET & _ & _ & _ & ET1 & _ & _ & Ee & -> & _).
  destruct e as [dt1 w2]. apply AcceptedProps.export_loop_times in Ee.
  unfold Run.run in H. cbn [sm_transient sm_final sm_dt sm_T sm_exports fst] in H.
  destruct (sm_transient s) eqn:Et; [|discriminate H].
  unfold check_time in Etime. rewrite Et in Etime. unfold initial_dt in Ee. rewrite Et in Ee.
  destruct (sm_final s) as [ft|]; [|discriminate Etime]. destruct (sm_dt s) as [dt|]; [|discriminate Etime].
  cbn [option_map] in Ee. pose proof (register_times_ok _ _ _ Ee) as (dt' & -> & H1 & H2 & H3 & _).
  split; [reflexivity|]. exists ft, dt, dt', T. split; [reflexivity|]. split; [reflexivity|].
  unfold get_T in ET. destruct (sm_T s) as [T0|]; [|discriminate ET]. injection ET as ->.
  split; [reflexivity|]. split; [exact Ee|].
  unfold ExportProps.run_exports, start. rewrite <- (create_T_kind _ _ _ ET1).
  replace (initialise_value dt') with dt'.
  2: { assert (Hv : value dt' = initial_value dt') by (rewrite H2, H1; reflexivity).
       unfold initialise_value, assign. rewrite <- Hv at 1. rewrite Hv at 1. destruct dt' as [i v a m]. cbn in Hv |- *. now rewrite Hv. }
  destruct (run_transient _ _ _ _ _ _) as [[a b] c0]. now injection H as <- <- <-.
Qed.

(** run() never meets a missing final_time, stepsize or temperature after an accepted initialise(), and it
    is transient exactly if the settings say so. *)
Theorem C110_dispatch (s s1 : sim) p f sched u cv : initialise s = Ok (s1, p) ->
  exists e, run s1 f sched u cv = Ok e /\
    match e with EndTransient _ _ _ => sm_transient s = true | EndSteady _ => sm_transient s = false end.
Proof using Type.
  intros Hi. pose proof (AcceptedProps.C109_time _ _ _ _ _ _ _ _ _ _ _ _ Hi) as [_ Ht].
  pose proof Hi as Hi'. apply AcceptedProps.initialise_inv in Hi'.
  destruct Hi' as (T & att & bcs & mk & T1 & w1 & ids & ini & mss & c & e & Etime & _ & _ & _ & _ & _ & _ & _ & _ & Es & _).
  unfold Run.run. assert (Htr : sm_transient s1 = sm_transient s) by now rewrite Es.
  assert (Hf : sm_final s1 = sm_final s) by now rewrite Es. assert (HT : sm_T s1 = Some (fst T1)) by now rewrite Es.
  rewrite Htr, Hf, HT. destruct (sm_transient s) eqn:Et; [|eexists; split; reflexivity].
  destruct (Ht eq_refl) as (dt & dt1 & _ & -> & _). unfold check_time in Etime. rewrite Et in Etime.
  destruct (sm_final s); [|discriminate Etime].
  destruct (run_transient _ _ _ _ _ _) as [[a b] c0]. eexists. split; reflexivity.
Qed.

(** A transient simulation: the first time is the initial stepsize, whatever an earlier run left in the
    stepsize; no time is beyond final_time; if the run ends, it ends at the final time; the times increase. *)
Theorem C110_times (s : sim) f sched u cv st' evs stt : simulate s f sched u cv = Ok (EndTransient st' evs stt) ->
  exists ft dt, sm_final s = Some ft /\ sm_dt s = Some dt /\
    (forall t0 tl, visited evs = t0 :: tl -> t0 == initial_value dt) /\
    (initial_value dt <= ft -> 0 <= ft ->
       (forall t, In t (visited evs) -> t <= ft) /\ (forall c, In c (solves evs) -> sv_t c <= ft) /\ st_t st' <= ft) /\
    (0 < ft -> stt = Done ->
       (exists pre, visited evs = pre ++ [st_t st']) /\ (ft <= st_t st' \/ close (st_t st') ft) /\
       (initial_value dt <= ft -> (forall t, In t (visited evs) -> t < ft -> ~ close t ft) -> st_t st' == ft)) /\
    (positive_settings dt -> 0 < initial_value dt -> initial_value dt <= ft -> chain Qlt (0 :: visited evs)).
Proof using Type.
  intros H. apply simulate_transient in H as (_ & ft & dt & dt1 & T & Hf & Hd & _ & Hreg & H).
  exists ft, dt. split; [exact Hf|]. split; [exact Hd|].
  apply register_times_ok in Hreg as (dt' & [= <-] & H1 & H2 & H3 & _). cbn in H1, H2, H3.
  unfold ExportProps.run_exports in H. split; [|split; [|split]].
  - intros t0 tl Hv. apply run_steps in H as (st0 & e0 & e1 & Hs & -> & Hcase).
    inversion Hs as [|a atts st1 ev1 ev2 st2 Hr Hi Hs' Ea Eb Ec]; subst.
    + destruct Hcase as [(_ & _ & _ & ->)|[(_ & _ & _ & ->)|(Hn & _ & atts & Hi)]]; [discriminate Hv..|].
      apply iterate_not_done in Hi as (? & ? & ? & ? & ? & ? & ? & _ & _ & _ & Hv0 & _); [|exact Hn].
      cbn [app] in Hv. rewrite Hv0 in Hv. discriminate Hv.
    + destruct (iterate_visited _ _ _ _ _ _ _ _ Hi) as [Hv1 Ht1].
      rewrite <- app_assoc, visited_app, Hv1 in Hv. cbn in Hv. injection Hv as <- _. rewrite Ht1. cbn. rewrite H1. lra.
  - intros Hi Hft. destruct (run_no_overshoot _ _ _ ft dt1 _ _ _ _ _ _ _ _ _ _ _ ltac:(rewrite H1; exact Hi) H) as (K1 & K2 & K3). auto.
  - intros Hft ->. destruct (run_reaches_final _ _ _ ft dt1 _ _ _ _ _ _ _ _ _ _ H Hft) as (K1 & K2 & K3).
    split; [exact K2|]. split; [exact K1|]. now rewrite H1 in K3.
  - intros Hp Hpos Hle. refine (proj1 (run_increasing _ _ _ ft dt1 _ _ _ _ _ _ _ _ _ _ _ _ _ _ H)); rewrite ?H1; try assumption.
    unfold positive_settings in *. now rewrite H3.
Qed.

(** Every milestone and every time of a TXTExport is visited (the conditions are those of C03 and C18: not
    before the first step, not after final_time, no visited time just below one of these times), and a
    TXTExport has a column for it. *)
Theorem C110_asked (s : sim) f sched u cv st' evs ft dt t :
  simulate s f sched u cv = Ok (EndTransient st' evs Done) -> sm_final s = Some ft -> sm_dt s = Some dt ->
  StronglySorted Qle (miles dt) -> 0 < initial_value dt -> asked s t -> initial_value dt <= t -> t <= ft ->
  (forall t' m, In t' (visited evs) -> m = ft \/ asked s m -> t' < m -> ~ close t' m) ->
  (exists t', In t' (visited evs) /\ t' == t) /\
  forall i x times, nth_error (ex_list (sm_exports s)) i = Some (ETxt x) -> tx_times x = Some times -> In t times ->
    ExportProps.exported_once is_function project ltf st' evs i x t.
Proof using project_function.
  intros H Hft Hdt Hsort Hpos Ha Hle Htf Hnear.
  apply simulate_transient in H as (_ & ft' & dt' & dt1 & T & Hf' & Hd' & _ & Hreg & H).
  rewrite Hft in Hf'. injection Hf' as <-. rewrite Hdt in Hd'. injection Hd' as <-.
  apply register_times_ok in Hreg as (dt' & [= <-] & H1 & H2 & H3 & H4 & H5 & H6 & H7 & H8). cbn [initialise_value assign initial_value milestones] in H1, H4, H6, H7.
  assert (Hm : exists m, In m (miles dt1) /\ m == t).
  { destruct Ha as [(d & Hd & Hin)|(x & times & K1 & K2 & K3)].
    - rewrite Hdt in Hd. injection Hd as <-. exists t. split; [now apply H4|lra].
    - destruct (H5 x times t K1 K2 K3) as (m & Hm & Hq). now exists m. }
  destruct Hm as (m & Hm & Hq).
  assert (Hv : exists t', In t' (visited evs) /\ t' == t).
  { destruct (milestones dt1) as [l|] eqn:El; [|destruct Hm].
    assert (Hs1 : StronglySorted Qle l). { apply H7. destruct (milestones dt); [exact Hsort|exact I]. }
    destruct (run_milestone _ _ _ ft dt1 l _ _ _ _ _ _ _ _ _ _ m (milestones_set _ _ El Hs1)
                ltac:(rewrite H1; exact Hpos) ltac:(rewrite H1; lra) ltac:(lra) Hm H) as (t' & Hin & Hq').
    - intros t' m' Hin [<-|Hm'] Hlt; [apply Hnear; auto|]. apply Hnear; [exact Hin| |exact Hlt].
      right. destruct (H6 m' Hm') as [K|(x & times & K1 & K2 & K3)]; [left; exists dt; now split|right; now exists x, times].
    - exists t'. split; [exact Hin|]. now rewrite Hq'. }
  split; [exact Hv|]. intros i x times Hx Hti Hin. destruct Hv as (t' & Hin' & Hq').
  eapply ExportProps.exported_once_intro; [exact project_function|exact H|exact Hx|exact Hti|exact Hin|lra|exact Hin'|exact Hq'].
Qed.

(** Each solve of a transient simulation sees the temperature of the class the user chose: a given
    temperature at its own time; the solution of the heat problem, then also as the previous temperature; a
    temperature from a file or of a stationary heat problem as it was after initialise. *)
Theorem C110_temperature (s : sim) f sched u cv st' evs stt : simulate s f sched u cv = Ok (EndTransient st' evs stt) ->
  (forall b, sm_T s = Some (TGiven b) -> forall c, In c (solves evs) -> sv_T c = field_at (sv_t c)) /\
  (forall i, sm_T s = Some (THeat true i) -> forall c, In c (solves evs) -> sv_Tn c = sv_T c) /\
  (sm_T s = Some TXdmf \/ (exists i, sm_T s = Some (THeat false i)) ->
     forall c, In c (solves evs) -> sv_T c = f_T f /\ sv_Tn c = f_Tn f).
Proof using Type.
  intros H. apply simulate_transient in H as (_ & ft & dt & dt1 & T & _ & _ & HT & _ & H). split; [|split].
  - intros b Hb. rewrite HT in Hb. injection Hb as ->.
    exact (proj1 (run_temperature_expr _ _ _ ft field_at dt1 _ _ _ _ _ _ _ _ _ _ _ eq_refl H)).
  - intros i Hb. rewrite HT in Hb. injection Hb as ->.
    exact (run_temperature_heat _ _ _ ft heat_solve dt1 _ _ _ _ _ _ _ _ _ _ _ eq_refl H).
  - intros Hb. refine (proj1 (SteadyProps.C54_run_frozen _ _ _ _ _ _ _ ft dt1 _ _ _ _ _ _ _ _ _ _ _ _ H)).
    rewrite HT in Hb. destruct Hb as [[= ->]|[i [= ->]]]; [now right|left; now exists heat_solve].
Qed.

(** Exports of a new transient simulation: XDMFExport with mode n at every n-th step; the table of a
    DerivedQuantities has one row per computation. *)
Theorem C110_exports (s : sim) f sched u cv st' evs stt :
  simulate s f sched u cv = Ok (EndTransient st' evs stt) -> ex_nb (sm_exports s) = 0%Z ->
  map fst (st_log st') = visited evs /\
  (forall i x n, nth_error (ex_list (sm_exports s)) i = Some (EXdmf x) -> set_mode (MInt n) = Ok (xd_mode x) ->
     steps_written i (st_log st') = multiples_below n (length (visited evs))) /\
  (forall i dq, nth_error (ex_list (sm_exports s)) i = Some (EDerived dq) -> ExportProps.own_quantities (ex_list (sm_exports s)) i dq ->
     dq_list dq <> [] -> visited evs <> [] ->
     exists dq' rows, nth_error (ex_list (st_exports st')) i = Some (EDerived dq') /\
       dq_data dq' = Header (titles (ex_store (sm_exports s)) dq) :: map mk_row rows /\
       Forall2 (row_ok is_function project (ex_store (sm_exports s)) dq)
         (computed (dq_compute dq) 0 (fields_of ltf (posts evs))) rows /\
       map fst rows = computed (dq_compute dq) 0 (visited evs)).
Proof using project_function.
  intros H Hnb. apply simulate_transient in H as (_ & ft & dt & dt1 & T & _ & _ & _ & _ & H).
  split; [|split].
  - exact (proj2 (ExportProps.run_exports_calls _ _ _ _ _ _ _ _ _ _ _ _ _ _ _ _ _ _ H)).
  - intros i x n Hx Hm.
    exact (proj1 (proj2 (ExportProps.C14_every_nth_step _ _ _ _ project_function _ _ _ _ _ _ _ _ _ _ _ _ _ _ _ _ _ H Hnb Hx Hm))).
  - intros i dq Hx Hown Hne Hv.
    destruct (ExportProps.C16_table_is_rectangular _ _ _ _ project_function _ _ _ _ _ _ _ _ _ _ _ _ _ _ _ _ H Hnb Hx Hown Hne Hv)
      as (dq' & rows & K1 & K2 & K3 & _ & K5 & _). now exists dq', rows.
Qed.

(** A steady simulation: one solve, and every export is written once, at time 0, with the result, whether or
    not the solve converged. *)
Theorem C110_steady (s : sim) f sched u cv o e' : simulate s f sched u cv = Ok (EndSteady o) ->
  SteadyRunProps.fresh (sm_exports s) -> output o = Some e' ->
  sm_transient s = false /\ map fst (snd e') = [0] /\
  (match o with Completed _ => cv = true | Diverged _ _ => cv = false | Steady.Raised _ => False end) /\
  (forall i x, nth_error (ex_list (sm_exports s)) i = Some (EXdmf x) ->
     exists g, xdmf_writes is_function project x (ltf u (f_T f)) g /\
       written_by i (snd e') = [(0%nat, 0, WXdmf 0 g (xd_checkpoint x) (xd_append x))]) /\
  (forall i dq fn, nth_error (ex_list (sm_exports s)) i = Some (EDerived dq) -> ExportProps.own_quantities (ex_list (sm_exports s)) i dq ->
     dq_list dq <> [] -> dq_filename dq = Some fn ->
     exists r, row_ok is_function project (ex_store (sm_exports s)) dq (0, ltf u (f_T f)) r /\
       written_by i (snd e') = [(0%nat, 0, WCsv fn [Header (titles (ex_store (sm_exports s)) dq); mk_row r])]) /\
  (forall i x, nth_error (ex_list (sm_exports s)) i = Some (ETxt x) ->
     (tx_times x = None /\ exists name c, tx_filename x = Some name /\ col_ok is_function project x (0, ltf u (f_T f)) c /\
        written_by i (snd e') = [(0%nat, 0, WTxt name "x,t=steady" [tx_x x; c])]) \/ tx_times x = Some []).
Proof using project_function.
  intros H Hfr Ho. unfold Run.simulate in H. apply bind_ok in H as ([s1 p] & Hi & H).
  pose proof (AcceptedProps.C109_time _ _ _ _ _ _ _ _ _ _ _ _ Hi) as [Htm _].
  apply AcceptedProps.initialise_inv in Hi.
  destruct Hi as (T & att & bcs & mk & T1 & w1 & ids & ini & mss & c & e & Etime & ET & _ & _ & _ & ET1 & _ & _ & Ee & -> & _).
  destruct e as [dt1 w2]. apply AcceptedProps.export_loop_times in Ee.
  unfold Run.run in H. cbn [sm_transient sm_final sm_dt sm_T sm_exports fst] in H.
  destruct (sm_transient s) eqn:Et.
  { exfalso. destruct (sm_final s) as [ft|]; [|discriminate H]. destruct dt1 as [d1|]; [|discriminate H].
    destruct (run_transient _ _ _ _ _ _) as [[a b] c0]. discriminate H. }
  assert (Hoe : o = steady (V:=W) (C:=C) is_function project ltf u cv (f_T f) (sm_exports s)).
  { unfold steady. now injection H as <-. }
  pose proof Ho as Ho'. rewrite Hoe in Ho.
  destruct (SteadyRunProps.C61_written_once _ _ project_function _ _ _ _ _ _ Hfr Ho) as (K1 & K2 & K3 & K4).
  split; [reflexivity|]. split; [exact K1|]. split.
  { rewrite Hoe in Ho' |- *. unfold steady, run_steady in *. destruct (post_processing _ _ _ _ _ _ _) as [e0|x]; [|discriminate Ho'].
    now destruct cv. }
  split; [intros i x Hx; exact (proj2 (K2 i x Hx))|]. split; [exact K3|].
  intros i x Hx. destruct (tx_times x) as [[|t0 ts]|] eqn:Ex; [now right| |left; split; [reflexivity|exact (K4 i x Hx Ex)]].
  exfalso. unfold initial_dt in Ee. rewrite Et in Ee.
  unfold check_time in Etime. rewrite Et in Etime. destruct (sm_dt s) as [d|]; [discriminate Etime|].
  destruct (SteadyRunProps.C61_times_raise (V:=W) _ i x (t0 :: ts) Hx Ex ltac:(discriminate)) as (m & Hm).
  rewrite Hm in Ee. discriminate Ee.
Qed.
End Whole.

(** [SimProps.good] (stepsize 1 left at 1/2 by an earlier run, milestone 4, TXTExport at 2 and 5, final_time 10)
    run to the end, and a steady simulation with the same materials. *)
Section Example.
Import SimProps.
Definition ex_simulate (s : @sim Q Q key Q unit Q Q) (n : nat) :=
  simulate (fun t => 300 + 10 * t) (fun _ T _ _ => T) (fun (_ _ : unit) _ _ => tt) (fun _ => true) (fun f => f)
    (fun (_ : unit) (_ : Q) => [(LStr "solute"%string, FFun tt)]) ex_initialise s (mkFields 300 300 tt tt tt tt)
    (repeat [mkAttempt tt 3%Z true] n) tt false.
Definition ex_visited {U X D} (r : res (ended (A:=Q) (F:=unit) (W:=Q) (C:=Q) (U:=U) (X:=X) (D:=D))) : list Q :=
  match r with Ok (EndTransient _ evs _) => map Qred (visited evs) | _ => [] end.
Definition ex_steady : @sim Q Q key Q unit Q Q :=
  mkSim false None true false false None (Some (TGiven true)) [KI 0] [mk_bc 1 Dirichlet (KS "solute"%string) [1]%Z]
    (mkMeshSpec Cartesian 1 (Some ex_mesh)) [ex_left Sievert; ex_right] [] []
    (mkExports [EDerived (mkDerived [0%nat] (Some "out/f.csv"%string) 1 None true [] []);
                EXdmf (mkXdmf (LStr "solute"%string) (Every 2) true None false)] (fun _ => ex_quantity HydrogenFlux 1) [] None 0)
    (fun _ => false) (fun _ => []).
Example C110_example :
  (exists st' evs, ex_simulate good 10 = Ok (EndTransient st' evs Done)) /\
  ex_visited (ex_simulate good 10) = [1; 2; 3; 4; 5; 6; 7; 8; 9; 10] /\
  asked good 4 /\ asked good 5 /\ ex_nb (sm_exports good) = 0%Z /\
  (exists o e', ex_simulate ex_steady 0 = Ok (EndSteady o) /\ output o = Some e' /\
     SteadyRunProps.fresh (sm_exports ex_steady) /\
     written_by 1 (snd e') = [(0%nat, 0, WXdmf 0 (FFun tt) true false)]).
Proof.
  split. { destruct (ex_simulate good 10) as [[st' evs [|e|]|o]|e] eqn:E; [now exists st', evs|exfalso..];
           assert (K : match ex_simulate good 10 with Ok (EndTransient _ _ Done) => true | _ => false end = true)
             by (vm_compute; reflexivity); rewrite E in K; discriminate K. }
  split; [vm_compute; reflexivity|]. split; [left; exists ex_dt; split; [reflexivity|now left]|].
  split; [right; eexists _, [2; 5]; split; [right; left; reflexivity|split; [reflexivity|right; now left]]|].
  split; [reflexivity|]. eexists _, _. split; [vm_compute; reflexivity|]. split; [reflexivity|].
  split; [split; reflexivity|reflexivity].
Qed.
End Example.

Print Assumptions C110_dispatch.
Print Assumptions C110_times.
Print Assumptions C110_asked.
Print Assumptions C110_temperature.
Print Assumptions C110_exports.
Print Assumptions C110_steady.
