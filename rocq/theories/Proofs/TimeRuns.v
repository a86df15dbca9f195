(** Runs with a fixed stepsize end. *)
From Coq Require Import ZArith QArith Qabs Qround Qminmax List Bool Lqa Lia String Sorting.Sorted.
From Verif Require Import Base.Exc Base.Num Model.Stepsize Model.TimeLoop Spec.TimeSpec
  Proofs.NumQ Proofs.StepsizeProofs Proofs.TimeLoopProofs Proofs.TimeChain Proofs.TimeQ Proofs.TimeQ2
  Proofs.TimeTerm.
Import ListNotations.
Local Open Scope Q_scope.
Local Notation length := List.length.

Section Runs.
Context {U X D E : Type}.
Variable temp : temperature (A:=Q) X.
Variable dens_solve : D -> D -> Q -> X -> D.
Variable post : Q -> U -> X -> E -> res E.
Variable F : Q.

Local Notation state := (state (A:=Q) U X D E).
Local Notation event := (event (A:=Q) U X D).
Local Notation iterate := (iterate temp dens_solve post F).
Local Notation run := (run_transient temp dens_solve post F).
Local Notation running := (running (U:=U) (X:=X) (D:=D) (E:=E) F).
Local Notation steps := (steps temp dens_solve post F).

(** ** A step bounded below bounds the number of steps *)
Lemma gaps_count d : forall l x, chain (fun a b => a + d <= b) (x :: l) ->
  forall M, (forall t, In t (x :: l) -> t <= M) -> x + inject_Z (Z.of_nat (length l)) * d <= M.
Proof.
  induction l as [|y r IH]; intros x Hc M HM.
  - change (inject_Z (Z.of_nat (length (@nil Q)))) with 0. specialize (HM x (or_introl eq_refl)). lra.
  - cbn in Hc. destruct Hc as [Hxy Hc].
    specialize (IH y Hc M (fun t Ht => HM t (or_intror Ht))).
    cbn [length]. rewrite Nat2Z.inj_succ. unfold Z.succ. rewrite inject_Z_plus.
    change (inject_Z 1) with 1. lra.
Qed.

Lemma run_steps_bound s d T Tn u un dd dn e sched st' evs stt :
  initial_value s <= F -> 0 <= F ->
  run (start s T Tn u un dd dn e) sched = (st', evs, stt) ->
  chain (fun a b => a + d <= b) (0 :: visited evs) ->
  inject_Z (Z.of_nat (length (visited evs))) * d <= F.
Proof.
  intros Hd HF H Hc. destruct (run_no_overshoot _ _ _ _ _ _ _ _ _ _ _ _ _ _ _ _ Hd H) as [Hv _].
  assert (Hx : 0 + inject_Z (Z.of_nat (length (visited evs))) * d <= F).
  { apply gaps_count; [assumption|]. intros t [<-|Ht]; auto. }
  lra.
Qed.

(** ** Stepsizes that are not adaptive *)
Definition hop (s : stepsize Q) (t : Q) : stepsize Q :=
  if calls_adapt s then assign s (clamp_milestone s t (value s)) else s.

Lemma clamp_idem (s : stepsize Q) t v :
  clamp_milestone (assign s (clamp_milestone s t v)) t (clamp_milestone s t v) = clamp_milestone s t v.
Proof.
  change (clamp_milestone s t (clamp_milestone s t v) = clamp_milestone s t v).
  unfold clamp_milestone at 1 3. destruct (next_milestone s t) as [m|] eqn:Em.
  - unfold clamp_milestone. rewrite Em. cbn [nltb nadd nsub NumQ].
    destruct (Qltb m (t + v) && negb (isclose t m)) eqn:E1.
    + destruct (Qltb m (t + (m - t))) eqn:E2; [|reflexivity].
      apply Qltb_true in E2. lra.
    + now rewrite E1.
  - unfold clamp_milestone. now rewrite Em.
Qed.

Lemma hop_idem s t : hop (hop s t) t = hop s t.
Proof.
  unfold hop. destruct (calls_adapt s) eqn:Eca; [|now rewrite Eca].
  assert (E' : calls_adapt (assign s (clamp_milestone s t (value s))) = true) by exact Eca.
  rewrite E'. unfold assign at 1. cbn [initial_value adaptive_stepsize milestones value].
  rewrite clamp_idem. reflexivity.
Qed.

Lemma loop_fixed t et T Tn dens g p (s : stepsize Q) atts :
  adaptive_stepsize s = None -> (exists a, In a atts /\ at_conv a = true) ->
  exists u evs, update_loop (U:=U) (X:=X) (D:=D) t et T Tn dens g p s atts = (u, hop s t, evs, Done).
Proof.
  intros Ha [x [Hin Hx]]. revert s Ha Hin. induction atts as [|a r IH]; intros s Ha Hin; [destruct Hin|].
  cbn [update_loop].
  assert (Had : (if calls_adapt s then adapt s t (at_nb a) (at_conv a) else Ok s) = Ok (hop s t)).
  { unfold hop. destruct (calls_adapt s); [|reflexivity]. unfold adapt. now rewrite Ha. }
  rewrite Had. destruct (at_conv a) eqn:Ec; [eauto|].
  destruct Hin as [->|Hin]; [congruence|].
  destruct (IH (hop s t)) as (u & evs & Hl); auto.
  - unfold hop. destruct (calls_adapt s); auto.
  - rewrite Hl, hop_idem. eauto.
Qed.

Hypothesis post_ok : forall t u T e, exists e', post t u T e = Ok e'.

Lemma iterate_fixed st atts :
  adaptive_stepsize (st_dt st) = None -> (exists a, In a atts /\ at_conv a = true) ->
  exists st' evs, iterate st atts = (st', evs, Done) /\
    st_t st' = st_t st + value (st_dt st) /\
    st_dt st' = clamp_final F (st_t st') (hop (st_dt st) (st_t st')) /\
    visited evs = [st_t st'].
Proof.
  intros Ha Hex. unfold TimeLoop.iterate. cbn zeta.
  destruct (temp_update temp _ _ (st_T st) (st_Tn st)) as [T Tn].
  unfold update. cbn [st_t st_dt st_T st_Tn st_u st_un st_dens st_densn st_expr st_exp].
  cbn [nadd NumQ].
  destruct (loop_fixed (st_t st + value (st_dt st)) (st_t st + value (st_dt st)) T Tn (st_dens st)
              (st_u st) (st_un st) (st_dt st) atts Ha Hex) as (u & evs & Hl).
  rewrite Hl. cbn [st_u st_T st_exp st_dt].
  destruct (post_ok (st_t st + value (st_dt st)) u T (st_exp st)) as [e' ->].
  eexists. eexists. split; [reflexivity|]. split; [reflexivity|]. split; [reflexivity|].
  pose proof (loop_events _ _ _ _ _ _ _ _ _ _ _ _ _ Hl) as (Hv & _).
  rewrite !visited_app, Hv. reflexivity.
Qed.

(** *** No milestones *)
Definition on_track (d0 : Q) (k : nat) (st : state) : Prop :=
  st_t st == inject_Z (Z.of_nat k) * d0 /\
  (   value (st_dt st) == d0 /\ (inject_Z (Z.of_nat k) + 1) * d0 <= F
   \/ value (st_dt st) == F - st_t st /\ st_t st <= F /\ F < (inject_Z (Z.of_nat k) + 1) * d0).

Definition kth (d0 : Q) (k : nat) : Q := Qmin (inject_Z (Z.of_nat k) * d0) F.

Lemma inject_S k : inject_Z (Z.of_nat (S k)) == inject_Z (Z.of_nat k) + 1.
Proof. rewrite Nat2Z.inj_succ. unfold Z.succ. rewrite inject_Z_plus. reflexivity. Qed.

Lemma fixed_run d0 : 0 < d0 ->
  forall sched k st,
  solvable sched ->
  adaptive_stepsize (st_dt st) = None -> milestones (st_dt st) = None ->
  (running st = true -> on_track d0 k st) ->
  F <= inject_Z (Z.of_nat (k + length sched)) * d0 ->
  exists st' evs, run st sched = (st', evs, Done) /\
    forall i t, nth_error (visited evs) i = Some t -> t == kth d0 (S (k + i)).
Proof.
  intros Hd0. induction sched as [|atts r IH]; intros k st Hsol Ha Hm Htr HF.
  - rewrite Nat.add_0_r in HF. cbn [run_transient]. destruct (running st) eqn:Er.
    + exfalso. destruct (Htr eq_refl) as [Ht _]. apply running_true in Er as [Hlt _]. lra.
    + do 2 eexists. split; [reflexivity|]. intros i t Hi. destruct i; discriminate.
  - cbn [run_transient]. destruct (running st) eqn:Er.
    2:{ do 2 eexists. split; [reflexivity|]. intros i t Hi. destruct i; discriminate. }
    specialize (Htr eq_refl). destruct Htr as [Ht Hv].
    destruct (iterate_fixed st atts Ha (Hsol _ (or_introl eq_refl))) as (st1 & e1 & Hi & Ht1 & Hdt1 & Hvis).
    rewrite Hi.
    assert (Hhop : hop (st_dt st) (st_t st1) = st_dt st).
    { unfold hop, calls_adapt. now rewrite Ha, Hm. }
    rewrite Hhop in Hdt1.
    pose proof (inject_S k) as HSk.
    destruct (IH (S k) st1) as (st' & e2 & Hrun & Hnth).
    + intros a Hin. apply Hsol. cbn. auto.
    + rewrite Hdt1, clamp_final_adaptive. assumption.
    + rewrite Hdt1, clamp_final_milestones. assumption.
    + intros Hr1. apply running_true in Hr1 as [Hlt1 _].
      destruct Hv as [[Hv Hle]|[Hv [Hle Hgt]]].
      * assert (Ht1' : st_t st1 == inject_Z (Z.of_nat (S k)) * d0) by (rewrite Ht1, HSk, Ht, Hv; ring).
        split; [assumption|].
        rewrite Hdt1. unfold clamp_final. cbn [nltb nadd nsub NumQ].
        destruct (Qltb F (st_t st1 + value (st_dt st))) eqn:Ec.
        -- apply Qltb_true in Ec. right. cbn [assign value]. split; [reflexivity|]. split; [lra|].
           setoid_replace ((inject_Z (Z.of_nat (S k)) + 1) * d0)
             with (inject_Z (Z.of_nat (S k)) * d0 + d0) by ring. lra.
        -- apply Qltb_false in Ec. left. split; [assumption|].
           setoid_replace ((inject_Z (Z.of_nat (S k)) + 1) * d0)
             with (inject_Z (Z.of_nat (S k)) * d0 + d0) by ring. lra.
      * exfalso. rewrite Ht1 in Hlt1. lra.
    + replace (S k + length r)%nat with (k + length (atts :: r))%nat by (cbn; lia). assumption.
    + rewrite Hrun. do 2 eexists. split; [reflexivity|].
      intros i t. rewrite visited_app, Hvis. destruct i as [|i]; cbn [nth_error app].
      * intros [= <-]. rewrite Nat.add_0_r. unfold kth. rewrite Ht1.
        destruct Hv as [[Hv Hle]|[Hv [Hle Hgt]]].
        -- rewrite Q.min_l; rewrite HSk; [rewrite Ht, Hv; ring|assumption].
        -- rewrite Q.min_r; [rewrite Hv; ring|rewrite HSk; lra].
      * intros Hi2. rewrite (Hnth i t Hi2). replace (S k + i)%nat with (k + S i)%nat by lia. reflexivity.
Qed.

Lemma run_fixed s T Tn u un d dn e sched :
  adaptive_stepsize s = None -> milestones s = None ->
  0 < initial_value s -> initial_value s <= F ->
  solvable sched -> F <= inject_Z (Z.of_nat (length sched)) * initial_value s ->
  exists st' evs, run (start s T Tn u un d dn e) sched = (st', evs, Done) /\
    forall i t, nth_error (visited evs) i = Some t ->
      t == Qmin (inject_Z (Z.of_nat (S i)) * initial_value s) F.
Proof.
  intros Ha Hm Hd0 HdF Hsol HF.
  destruct (fixed_run (initial_value s) Hd0 sched 0 (start s T Tn u un d dn e)) as (st' & evs & Hr & Hn); auto.
  - intros _. split; [reflexivity|]. left. split; [reflexivity|].
    change (inject_Z (Z.of_nat 0)) with 0. lra.
  - eauto.
Qed.

(** *** With milestones *)
Definition ahead_count (t : Q) (l : list Q) : nat := length (filter (fun m => Qltb t m) l).

Lemma ahead_count_le t t' l : t <= t' -> (ahead_count t' l <= ahead_count t l)%nat.
Proof.
  intros H. unfold ahead_count. induction l as [|m r IH]; cbn; [lia|].
  destruct (Qltb t' m) eqn:E1, (Qltb t m) eqn:E2; cbn; try lia.
  apply Qltb_true in E1. apply Qltb_false in E2. lra.
Qed.

Lemma ahead_count_lt t t' l m : t <= t' -> In m l -> t < m -> m <= t' ->
  (ahead_count t' l < ahead_count t l)%nat.
Proof.
  intros H Hin H1 H2. unfold ahead_count. induction l as [|x r IH]; [destruct Hin|]. cbn.
  destruct Hin as [->|Hin].
  - rewrite (proj2 (Qltb_true t m) H1), (proj2 (Qltb_false t' m) H2). cbn.
    pose proof (ahead_count_le t t' r H). unfold ahead_count in *. lia.
  - specialize (IH Hin).
    destruct (Qltb t' x) eqn:E1, (Qltb t x) eqn:E2; cbn; try lia.
    apply Qltb_true in E1. apply Qltb_false in E2. lra.
Qed.

Definition ends (st : state) : Prop :=
  exists n, forall sched, solvable sched -> (n <= length sched)%nat ->
    exists st' evs, run st sched = (st', evs, Done).

(** The next time and stepsize of a run with a fixed stepsize do not depend on the solver. *)
Definition nt (st : state) : Q := st_t st + value (st_dt st).
Definition ns (st : state) : stepsize Q := clamp_final F (nt st) (hop (st_dt st) (nt st)).

Definition ends_at (t : Q) (s : stepsize Q) : Prop :=
  exists n, forall (st : state) sched, st_t st = t -> st_dt st = s ->
    solvable sched -> (n <= length sched)%nat ->
    exists st' evs, run st sched = (st', evs, Done).

Lemma ends_stopped t s : (F <= t \/ close t F) -> ends_at t s.
Proof.
  intros H. exists 0%nat. intros st sched Ht Hs Hsol _.
  assert (Hr : running st = false) by (apply running_false; now rewrite Ht).
  destruct sched; cbn; rewrite Hr; eauto.
Qed.

Lemma ends_next t s :
  adaptive_stepsize s = None ->
  ends_at (t + value s) (clamp_final F (t + value s) (hop s (t + value s))) -> ends_at t s.
Proof.
  intros Ha [n Hn]. exists (S n). intros st sched Ht Hs Hsol Hlen.
  destruct sched as [|atts r]; [cbn in Hlen; lia|]. cbn [run_transient].
  destruct (running st); [|eauto].
  rewrite <- Hs in Ha.
  destruct (iterate_fixed st atts Ha (Hsol _ (or_introl eq_refl))) as (st1 & e1 & Hi & Ht1 & Hdt1 & Hvis).
  rewrite Hi. destruct (Hn st1 r) as (st' & e2 & Hr).
  - now rewrite Ht1, Ht, Hs.
  - now rewrite Hdt1, Ht1, Ht, Hs.
  - intros a Hin. apply Hsol. cbn. auto.
  - cbn in Hlen. lia.
  - rewrite Hr. eauto.
Qed.

Lemma clamp_milestone_cases (s : stepsize Q) l t v :
  milestones s = Some l ->
  clamp_milestone s t v = v \/
  exists m, In m l /\ t < m /\ clamp_milestone s t v = m - t.
Proof.
  intros Hm. unfold clamp_milestone, next_milestone. rewrite Hm.
  destruct (first_after t l) as [m|] eqn:Efa; [|auto].
  destruct (nltb m (nadd t v) && negb (isclose t m)); [|auto].
  right. exists m. apply first_after_some in Efa. cbn in Efa. cbn.
  destruct Efa as [E1 E2]. repeat split; auto.
Qed.

Lemma fixed_ends_milestones l :
  forall k t (s : stepsize Q), adaptive_stepsize s = None -> milestones s = Some l ->
  ahead_count t l = k -> 0 < value s -> ends_at t s.
Proof.
  induction k as [k IHk] using lt_wf_ind. intros t s Ha Hm Hk Hv.
  destruct (archimed (F - t) (value s) Hv) as [j Hj].
  assert (Hj' : F - t <= inject_Z (Z.of_nat j) * value s) by lra. clear Hj.
  revert t s Ha Hm Hk Hv Hj'. induction j as [|j IHj]; intros t s Ha Hm Hk Hv Hj.
  - apply ends_stopped. left. change (inject_Z (Z.of_nat 0)) with 0 in Hj. lra.
  - apply ends_next; [assumption|].
    set (t1 := t + value s). set (s1 := hop s t1).
    assert (Ha1 : adaptive_stepsize s1 = None) by (unfold s1, hop; destruct (calls_adapt s); assumption).
    assert (Hm1 : milestones s1 = Some l) by (unfold s1, hop; destruct (calls_adapt s); assumption).
    assert (Hv1 : value s1 = value s \/ exists m, In m l /\ t1 < m /\ value s1 = m - t1).
    { unfold s1, hop. destruct (calls_adapt s); [|auto].
      apply (clamp_milestone_cases s l t1 (value s) Hm). }
    assert (Hle : (ahead_count t1 l <= k)%nat).
    { rewrite <- Hk. apply ahead_count_le. unfold t1. lra. }
    destruct (Qlt_le_dec t1 F) as [HF|HF]; [|apply ends_stopped; auto].
    destruct (Qlt_le_dec F (t1 + value s1)) as [HF2|HF2].
    { (* clamped on final_time: one more step *)
      unfold clamp_final. cbn [nltb nadd nsub NumQ]. rewrite (proj2 (Qltb_true _ _) HF2).
      apply ends_next; [assumption|]. apply ends_stopped. left. cbn [assign value]. lra. }
    unfold clamp_final. cbn [nltb nadd nsub NumQ]. rewrite (proj2 (Qltb_false _ _) HF2).
    destruct Hv1 as [Hv1|(m & Hin & Hlt & Hv1)].
    + destruct (Nat.eq_dec (ahead_count t1 l) k) as [Heq|Hne].
      * apply IHj; auto.
        -- now rewrite Hv1.
        -- rewrite Hv1. pose proof (inject_S j) as HS. rewrite HS in Hj. unfold t1. lra.
      * apply (IHk (ahead_count t1 l)); auto; [lia|]. now rewrite Hv1.
    + apply ends_next; [assumption|].
      set (t2 := t1 + value s1).
      assert (Ht2 : t2 == m) by (unfold t2; rewrite Hv1; ring).
      set (s2 := clamp_final F t2 (hop s1 t2)).
      destruct (Qlt_le_dec t2 F) as [HF3|HF3]; [|apply ends_stopped; auto].
      assert (Hlt2 : (ahead_count t2 l < k)%nat).
      { eapply Nat.lt_le_trans; [|exact Hle]. apply (ahead_count_lt t1 t2 l m); lra || auto. }
      apply (IHk (ahead_count t2 l) Hlt2); auto.
      * unfold s2. rewrite clamp_final_adaptive. unfold hop. destruct (calls_adapt s1); assumption.
      * unfold s2. rewrite clamp_final_milestones. unfold hop. destruct (calls_adapt s1); assumption.
      * assert (Hv1p : 0 < value s1) by (rewrite Hv1; lra).
        assert (Hh : 0 < value (hop s1 t2)).
        { unfold hop. destruct (calls_adapt s1); [|lra]. cbn [assign value].
          destruct (clamp_milestone_cases s1 l t2 (value s1) Hm1) as [->|(m' & _ & Hm' & ->)]; lra. }
        unfold s2, clamp_final. cbn [nltb nadd nsub NumQ].
        destruct (Qltb F (t2 + value (hop s1 t2))); cbn [assign value]; [lra|assumption].
Qed.

Lemma run_fixed_milestones s l T Tn u un d dn e :
  adaptive_stepsize s = None -> milestones s = Some l -> 0 < initial_value s ->
  exists n, forall sched, solvable sched -> (n <= length sched)%nat ->
    exists st' evs, run (start s T Tn u un d dn e) sched = (st', evs, Done).
Proof.
  intros Ha Hm Hd.
  destruct (fixed_ends_milestones l _ 0 (initialise_value s) Ha Hm eq_refl Hd) as [n Hn].
  exists n. intros sched Hsol Hlen. apply Hn; auto.
Qed.

End Runs.
