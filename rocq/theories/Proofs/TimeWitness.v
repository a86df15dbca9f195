(** Concrete runs: witnesses of refutations and non-vacuity. *)
From Coq Require Import ZArith QArith Qabs List Bool Lqa Lia String Floats.
From Verif Require Import Base.Exc Base.Num Model.Stepsize Model.TimeLoop Spec.TimeSpec
  Proofs.NumQ Proofs.StepsizeProofs Proofs.TimeLoopProofs Proofs.TimeQ.
Import ListNotations.
Local Open Scope Q_scope.
Local Notation length := List.length.

(** Arguments of Stepsize and the bounds they stand for. *)
Lemma mk_stepsize_adaptive (d0 r : Q) ts sm mx dm ml a :
  adaptive_stepsize (mk_stepsize d0 (Some r) ts sm mx dm ml) = Some a ->
  change_ratio a = r /\ dt_min a = dm.
Proof. cbn. intros [= <-]. auto. Qed.

Lemma truthy_none : truthy (A:=Q) None = false. Proof. reflexivity. Qed.

Lemma user_bound_ok (d0 r : Q) ts sm mx dm ml a t b :
  adaptive_stepsize (mk_stepsize d0 (Some r) ts sm mx dm ml) = Some a ->
  user_bound ts sm mx t b -> bound_at (max_stepsize a) t b.
Proof.
  cbn. intros [= <-]. cbn. unfold user_bound.
  destruct ts as [ts|], sm as [sm|]; cbn; try tauto.
  intros (Hz & Hle & ->).
  destruct (Qeq_bool ts 0) eqn:E1, (Qeq_bool sm 0) eqn:E2; cbn;
    rewrite ?Qeq_bool_iff in *; try (apply Qle_bool_iff in Hle; now rewrite Hle).
  exfalso. apply Hz. auto.
Qed.

Lemma user_positive (d0 r : Q) ts sm mx dm ml :
  0 < r -> (forall x, sm = Some x -> 0 < x) -> (forall t b, bound_at mx t b -> 0 < b) ->
  positive_settings (mk_stepsize d0 (Some r) ts sm mx dm ml).
Proof.
  intros Hr Hs Hm. unfold positive_settings, mk_stepsize.
  cbn [adaptive_stepsize change_ratio max_stepsize]. split; [assumption|].
  intros t b. destruct (truthy ts || truthy sm); [|apply Hm]. unfold bound_at, stop_lambda.
  destruct ts as [ts|]; [|discriminate]. intros H. injection H as H. destruct (Qle_bool ts t); [eauto|discriminate].
Qed.

(** A run where only the clock matters. *)
Definition run0 {A} {N : Num A} (F : A) (s : stepsize A) (sched : list (list (attempt unit))) :=
  run_transient (TempExpr (fun _ => tt)) (fun (_ _ : unit) _ _ => tt)
    (fun _ (_ : unit) _ _ => Ok tt) F (start s tt tt tt tt tt tt tt) sched.

Definition ok (nb : Z) : attempt unit := mkAttempt tt nb true.
Definition ko (nb : Z) : attempt unit := mkAttempt tt nb false.

Definition vis {A} (r : state (A:=A) unit unit unit unit * list (event (A:=A) unit unit unit) * status) :=
  visited (snd (fst r)).
Definition sts {A} (r : state (A:=A) unit unit unit unit * list (event (A:=A) unit unit unit) * status) :=
  snd r.
Definition slv {A} (r : state (A:=A) unit unit unit unit * list (event (A:=A) unit unit unit) * status) :=
  solves (snd (fst r)).

(** C03: exact arithmetic, three milestones. *)
Definition w3 : stepsize Q := mk_stepsize (1 # 2) None None None MaxNone None
  (Some [1 - (1 # 1000000); 1; 1 + (1 # 10)]).
Lemma w3_vis : sts (run0 2 w3 (repeat [ok 3] 4)) = Done /\
  forallb (fun t => negb (Qeq_bool t (1 + (1 # 10)))) (vis (run0 2 w3 (repeat [ok 3] 4))) = true.
Proof. vm_compute. split; reflexivity. Qed.

(** C03: binary64, the documented use. *)
Definition w3f : stepsize float :=
  mk_stepsize 1.9%float None None None MaxNone None (Some [5.7%float; 6%float]).
Lemma w3f_vis : sts (run0 10%float w3f (repeat [ok 3] 6)) = Done /\
  forallb (fun t => negb (isclose t 6%float)) (vis (run0 10%float w3f (repeat [ok 3] 6))) = true.
Proof. vm_compute. split; reflexivity. Qed.

(** C04: the first step is not bounded. *)
Definition w4 : stepsize Q := mk_stepsize 5 (Some 2) None None (MaxConst 1) None None.
Lemma w4_first : map (fun c => sv_dt c) (slv (run0 10 w4 [[ok 3]])) = [5].
Proof. vm_compute. reflexivity. Qed.

(** C05: slow converged steps. *)
Definition w5 : stepsize Q := mk_stepsize 1 (Some 2) None None MaxNone (Some (1 # 2)) None.
Lemma w5_slow : map (fun c => Qred (sv_dt c)) (slv (run0 10 w5 (repeat [ok 7] 4))) = [1; 1#2; 1#4; 1#8].
Proof. vm_compute. reflexivity. Qed.
(** C05: one failed step divides by the square of the ratio. *)
Lemma w5_fail : map (fun c => Qred (sv_dt c)) (slv (run0 10 w5 [[ko 7; ok 3]])) = [1; 1#4].
Proof. vm_compute. reflexivity. Qed.

(** C06: retry with a smaller stepsize, clock advanced by the first one. *)
Definition w6 : stepsize Q := mk_stepsize 1 (Some 2) None None MaxNone (Some (1 # 100)) None.
Lemma w6_run : map (fun c => (sv_t c, Qred (sv_dt c), at_conv (sv_out c))) (slv (run0 10 w6 [[ko 7; ok 3]]))
  = [(1, 1, false); (1, 1 # 4, true)] /\ vis (run0 10 w6 [[ko 7; ok 3]]) = [1].
Proof. vm_compute. split; reflexivity. Qed.

(** C08: failures after less than five iterations never end. *)
Lemma quick_fail_loop (t et : Q) T Tn dens g p (s : stepsize Q) n :
  adaptive_stepsize s = Some (mkAdaptive 2 MaxNone (Some (1 # 2))) -> milestones s = None -> 1 <= value s ->
  exists u s' evs, update_loop (U:=unit) (X:=unit) (D:=unit) t et T Tn dens g p s (repeat (ko 3) n)
    = (u, s', evs, Pending) /\ length (solves evs) = n.
Proof.
  revert s. induction n as [|n IH]; intros s Ha Hm Hv.
  - cbn. eauto.
  - cbn [repeat update_loop]. unfold calls_adapt. rewrite Ha. cbn [at_conv at_nb ko].
    assert (Had : exists s1, adapt s t 3 false = Ok s1 /\ 1 <= value s1 /\
              adaptive_stepsize s1 = Some (mkAdaptive 2 MaxNone (Some (1 # 2))) /\ milestones s1 = None).
    { unfold adapt. rewrite Ha. unfold adapt_value, adapt_diverged, py_div, cap.
      cbn [dt_min change_ratio max_stepsize neqb n0 NumQ ndiv nmul nltb bind].
      change (Qeq_bool 2 0) with false. cbn [bind].
      assert (Hd : (1 # 2) <= value s / 2) by (apply Qle_shift_div_l; lra).
      destruct (Qltb (value s / 2) (1 # 2)) eqn:El; [apply Qltb_true in El; lra|].
      cbn [bind]. change (3 <? 5)%Z with true. cbn [bind].
      unfold clamp_milestone, next_milestone. rewrite Hm.
      eexists. split; [reflexivity|]. cbn [assign value adaptive_stepsize milestones].
      repeat split; auto. setoid_replace (value s / 2 * 2) with (value s) by field. exact Hv. }
    destruct Had as (s1 & -> & Hv1 & Ha1 & Hm1).
    destruct (IH s1 Ha1 Hm1 Hv1) as (u & s' & evs & -> & Hlen).
    do 3 eexists. split; [reflexivity|]. cbn. now rewrite Hlen.
Qed.

Definition w8 : stepsize Q := mk_stepsize 1 (Some 2) None None MaxNone (Some (1 # 2)) None.
Lemma w8_run n : exists st' evs, run0 10 w8 [repeat (ko 3) n] = (st', evs, Pending) /\
  length (solves evs) = n.
Proof.
  unfold run0, run_transient.
  replace (running 10 (start w8 tt tt tt tt tt tt tt)) with true by reflexivity.
  unfold iterate. cbn zeta. cbn [temp_update]. unfold update.
  cbn [st_t st_dt st_T st_Tn st_u st_un st_dens st_densn st_expr st_exp start].
  destruct (quick_fail_loop (nadd n0 (value (initialise_value w8))) (nadd n0 (value (initialise_value w8)))
              tt tt tt tt tt (initialise_value w8) n) as (u & s' & evs & -> & Hlen);
    [reflexivity|reflexivity|cbn; lra|].
  do 2 eexists. split; [reflexivity|assumption].
Qed.

(** C08: without adaptive stepsize every failure is retried identically. *)
Lemma fixed_fail_loop (t et : Q) T Tn dens g p (s : stepsize Q) n :
  adaptive_stepsize s = None -> milestones s = None ->
  exists u evs, update_loop (U:=unit) (X:=unit) (D:=unit) t et T Tn dens g p s (repeat (ko 30) n)
    = (u, s, evs, Pending) /\ length (solves evs) = n.
Proof.
  intros Ha Hm. induction n as [|n IH].
  - cbn. eauto.
  - cbn [repeat update_loop]. unfold calls_adapt. rewrite Ha, Hm. cbn [at_conv ko].
    destruct IH as (u & evs & -> & Hlen). do 2 eexists. split; [reflexivity|]. cbn. now rewrite Hlen.
Qed.

Definition w8b : stepsize Q := mk_stepsize 1 None None None MaxNone None None.
Lemma w8b_run n : exists st' evs, run0 10 w8b [repeat (ko 30) n] = (st', evs, Pending) /\
  length (solves evs) = n.
Proof.
  unfold run0, run_transient.
  replace (running 10 (start w8b tt tt tt tt tt tt tt)) with true by reflexivity.
  unfold iterate. cbn zeta. cbn [temp_update]. unfold update.
  cbn [st_t st_dt st_T st_Tn st_u st_un st_dens st_densn st_expr st_exp start].
  destruct (fixed_fail_loop (nadd n0 (value (initialise_value w8b))) (nadd n0 (value (initialise_value w8b)))
              tt tt tt tt tt (initialise_value w8b) n) as (u & evs & -> & Hlen);
    [reflexivity|reflexivity|].
  do 2 eexists. split; [reflexivity|assumption].
Qed.

(** C10: converged but slow steps shrink geometrically. *)
Definition zeno (st : state (A:=Q) unit unit unit unit) : Prop :=
  0 < value (st_dt st) /\ st_t st + 2 * value (st_dt st) == 2 /\
  adaptive_stepsize (st_dt st) = Some (mkAdaptive 2 MaxNone None) /\ milestones (st_dt st) = None.

Lemma zeno_running st : zeno st -> running (U:=unit) (X:=unit) (D:=unit) (E:=unit) 10 st = true.
Proof.
  intros (H1 & H2 & _). apply running_true. split; [lra|].
  unfold close. rewrite Qabs_neg by lra. rewrite (Qabs_pos 10) by lra. lra.
Qed.

Lemma zeno_run n : forall st, zeno st ->
  exists st' evs, run_transient (TempExpr (fun _ => tt)) (fun (_ _ : unit) _ _ => tt)
    (fun _ (_ : unit) _ (_ : unit) => Ok tt) 10 st (repeat [ok 5] n) = (st', evs, Pending) /\
    length (visited evs) = n.
Proof.
  induction n as [|n IH]; intros st Hz; cbn [repeat run_transient]; rewrite (zeno_running st Hz).
  - eauto.
  - unfold iterate. cbn zeta. cbn [temp_update]. unfold update.
    cbn [st_t st_dt st_T st_Tn st_u st_un st_dens st_densn st_expr st_exp].
    cbn [update_loop at_conv at_nb ok nadd NumQ].
    destruct Hz as (H1 & H2 & Ha & Hm).
    assert (Had : adapt (st_dt st) (st_t st + value (st_dt st)) 5 true
                  = Ok (assign (st_dt st) (value (st_dt st) / 2))).
    { unfold adapt. rewrite Ha. unfold adapt_value, py_div, cap. cbn.
      unfold clamp_milestone, next_milestone. now rewrite Hm. }
    unfold calls_adapt. rewrite Ha, Had. cbn [st_u st_T st_exp st_dt].
    match goal with |- context [run_transient _ _ _ _ ?S (repeat _ n)] => destruct (IH S) as (st' & evs & Hr & Hlen) end.
    + unfold clamp_final. cbn [nltb nadd nsub NumQ].
      assert (Hd : value (st_dt st) / 2 == value (st_dt st) * (1 # 2)) by (field).
      destruct (Qltb 10 _) eqn:El.
      { apply Qltb_true in El. cbn [assign value] in El. rewrite Hd in El. lra. }
      unfold zeno. cbn [st_dt st_t assign value adaptive_stepsize milestones].
      repeat split; auto.
      * rewrite Hd. lra.
      * rewrite Hd. lra.
    + rewrite Hr. do 2 eexists. split; [reflexivity|].
      cbn. now rewrite Hlen.
Qed.

Definition w10 : stepsize Q := mk_stepsize 1 (Some 2) None None MaxNone None None.
Lemma w10_run n : exists st' evs, run0 10 w10 (repeat [ok 5] n) = (st', evs, Pending) /\
  length (visited evs) = n.
Proof.
  apply zeno_run. unfold zeno. cbn. repeat split; lra.
Qed.

(** C12: with a transient heat problem the previous temperature is the current one. *)
Definition heat12 (Tn T t dt : Q) : Q := Tn + t.
Definition w12 := run_transient (TempHeat true heat12) (fun (_ _ : unit) _ _ => tt)
  (fun _ (_ : unit) _ _ => Ok tt) 2 (start w8b 300 300 tt tt tt tt tt) [[ok 3]; [ok 3]].
Lemma w12_run : map (fun c => (sv_T c, sv_Tn c)) (solves (snd (fst w12))) = [(301, 301); (303, 303)].
Proof. vm_compute. reflexivity. Qed.

(** C13: adaptive stepsize: the density is integrated over the next stepsize. *)
Lemma w13_run : density_dts (snd (fst (run0 10 w10 [[ok 3]; [ok 3]]))) = [2; 4] /\
  accepted_dts (snd (fst (run0 10 w10 [[ok 3]; [ok 3]]))) = [1; 2].
Proof. vm_compute. split; reflexivity. Qed.
