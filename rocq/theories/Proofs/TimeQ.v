(** Proofs about transient runs in exact arithmetic. *)
From Coq Require Import ZArith QArith Qabs Qround List Bool Lqa Lia Sorting.Sorted Sorting.Permutation.
From Verif Require Import Base.Exc Base.Num Model.Stepsize Model.TimeLoop Spec.TimeSpec
  Proofs.NumQ Proofs.StepsizeProofs Proofs.TimeLoopProofs.
Import ListNotations.
Local Open Scope Q_scope.

Lemma set_milestones_in (ms : list Q) l m :
  set_milestones (Some ms) = Some l -> (In m ms <-> In m l) /\ StronglySorted Qle l.
Proof.
  destruct ms as [|x r].
  - cbn. injection 1 as <-. split; [tauto|constructor].
  - cbn [set_milestones]. injection 1 as <-. split.
    + split; apply Permutation_in; [|symmetry]; apply (py_sorted_perm (x :: r)).
    + apply (py_sorted_sorted (x :: r)).
Qed.

Section Runs.
Context {U X D E : Type}.
Variable temp : temperature (A:=Q) X.
Variable dens_solve : D -> D -> Q -> X -> D.
Variable post : Q -> U -> X -> E -> res E.
Variable F : Q.

Local Notation state := (state (A:=Q) U X D E).
Local Notation event := (event (A:=Q) U X D).
Local Notation iterate := (iterate temp dens_solve post F).
Local Notation run := (run_transient temp dens_solve post F).
Local Notation running := (running (U:=U) (X:=X) (D:=D) (E:=E) F).
Local Notation steps := (steps temp dens_solve post F).

Lemma clamp_final_le t (s : stepsize Q) : t + value (clamp_final F t s) <= F.
Proof.
  unfold clamp_final. destruct (nltb F (nadd t (value s))) eqn:H; qb.
  - rewrite assign_value. lra.
  - lra.
Qed.

Lemma clamp_final_value_le t (s : stepsize Q) : value (clamp_final F t s) <= value s.
Proof.
  unfold clamp_final. destruct (nltb F (nadd t (value s))) eqn:H; qb.
  - rewrite assign_value. lra.
  - lra.
Qed.

Lemma clamp_final_adaptive t (s : stepsize Q) :
  adaptive_stepsize (clamp_final F t s) = adaptive_stepsize s.
Proof. unfold clamp_final. now destruct (nltb F (nadd t (value s))). Qed.
Lemma clamp_final_milestones t (s : stepsize Q) :
  milestones (clamp_final F t s) = milestones s.
Proof. unfold clamp_final. now destruct (nltb F (nadd t (value s))). Qed.

Lemma running_true st : running st = true <-> st_t st < F /\ ~ close (st_t st) F.
Proof.
  unfold TimeLoop.running. rewrite andb_true_iff, negb_true_iff. cbn [nltb NumQ].
  now rewrite Qltb_true, isclose_false.
Qed.

Lemma running_false st : running st = false <-> F <= st_t st \/ close (st_t st) F.
Proof.
  unfold TimeLoop.running. rewrite andb_false_iff, negb_false_iff. cbn [nltb NumQ].
  now rewrite Qltb_false, isclose_true.
Qed.

(** ** C01 *)
Lemma iterate_head_le st atts st' evs :
  iterate st atts = (st', evs, Done) -> st_t st' + value (st_dt st') <= F.
Proof.
  intros H. apply iterate_done in H as (T & Tn & u & s & e0 & e & d & _ & Hl & _ & _ & -> & ->).
  cbn. apply clamp_final_le.
Qed.

Lemma iterate_solves_t st atts st' evs stt c :
  iterate st atts = (st', evs, stt) -> In c (solves evs) ->
  sv_t c = nadd (st_t st) (value (st_dt st)).
Proof.
  intros H Hin. destruct (match stt with Done => true | _ => false end) eqn:Es.
  - destruct stt; try discriminate.
    apply iterate_done in H as (T & Tn & u & s & e0 & e & d & _ & Hl & _ & _ & -> & ->).
    apply loop_events in Hl as (_ & _ & Hc). rewrite solves_app in Hin. cbn in Hin.
    rewrite app_nil_r in Hin. now apply Hc in Hin.
  - assert (Hn : stt <> Done) by (intros ->; discriminate).
    apply iterate_not_done in H as (T & Tn & u & s & e0 & stt0 & tl & _ & Hl & -> & _ & Ht & _); [|assumption].
    apply loop_events in Hl as (_ & _ & Hc). rewrite solves_app, Ht, app_nil_r in Hin.
    now apply Hc in Hin.
Qed.

Lemma steps_le st evs st' :
  st_t st + value (st_dt st) <= F -> steps st evs st' ->
  st_t st' + value (st_dt st') <= F /\
  (forall t, In t (visited evs) -> t <= F) /\
  (forall c, In c (solves evs) -> sv_t c <= F) /\
  (st_t st <= F -> st_t st' <= F).
Proof.
  intros H0 Hs. induction Hs as [st|st atts st1 e1 e2 st2 Hr Hi Hs IH].
  - cbn. intuition.
  - destruct (iterate_visited _ _ _ _ _ _ _ _ Hi) as [Hv Ht]. cbn in Ht.
    pose proof (iterate_head_le _ _ _ _ Hi) as H1.
    destruct (IH H1) as (Ha & Hb & Hc & Hd).
    assert (Hle : st_t st1 <= F) by (rewrite Ht; assumption).
    repeat split; auto.
    + intros t Hin. rewrite visited_app, Hv in Hin. cbn in Hin.
      destruct Hin as [<-|Hin]; auto.
    + intros c Hin. rewrite solves_app in Hin. apply in_app_or in Hin as [Hin|Hin]; auto.
      rewrite (iterate_solves_t _ _ _ _ _ _ Hi Hin). cbn. assumption.
Qed.

Lemma run_no_overshoot s T Tn u un d dn e sched st' evs stt :
  initial_value s <= F ->
  run (start s T Tn u un d dn e) sched = (st', evs, stt) ->
  (forall t, In t (visited evs) -> t <= F) /\
  (forall c, In c (solves evs) -> sv_t c <= F) /\
  (0 <= F -> st_t st' <= F).
Proof.
  intros Hd H.
  assert (H0 : st_t (start s T Tn u un d dn e) + value (st_dt (start s T Tn u un d dn e)) <= F).
  { cbn. rewrite Qplus_0_l. assumption. }
  pose proof H as H'. apply run_steps in H' as (st0 & e0 & e1 & Hs & -> & Hcase).
  destruct (steps_le _ _ _ H0 Hs) as (Ha & Hb & Hc & Hd').
  rewrite visited_app, solves_app.
  destruct Hcase as [(_ & _ & <- & ->)|[(_ & _ & <- & ->)|(Hn & Hr & atts & Hi)]].
  - cbn. rewrite !app_nil_r. cbn in Hd'. auto.
  - cbn. rewrite !app_nil_r. cbn in Hd'. auto.
  - pose proof (iterate_not_done _ _ _ _ _ _ _ _ _ Hi Hn) as
      (T' & Tn' & u' & s' & e0' & stt0 & tl & _ & Hl & _ & Hv & Ht & Hst).
    rewrite Hv, app_nil_r. split; [assumption|]. split.
    + intros c Hin. apply in_app_or in Hin as [Hin|Hin]; [auto|].
      rewrite (iterate_solves_t _ _ _ _ _ _ Hi Hin). exact Ha.
    + intros _. rewrite Hst. exact Ha.
Qed.

(** ** C02 *)
Lemma run_done_not_running st sched st' evs :
  run st sched = (st', evs, Done) -> running st' = false.
Proof.
  intros H. apply run_steps in H as (st0 & e0 & e1 & Hs & -> & Hcase).
  destruct Hcase as [(_ & Hr & <- & ->)|[(? & _)|(Hn & _)]]; [assumption|discriminate|now elim Hn].
Qed.

Lemma steps_last st evs st' : steps st evs st' ->
  (evs = [] /\ st' = st) \/ exists pre, visited evs = pre ++ [st_t st'].
Proof.
  induction 1 as [st|st atts st1 e1 e2 st2 Hr Hi Hs IH]; [auto|].
  right. destruct (iterate_visited _ _ _ _ _ _ _ _ Hi) as [Hv Ht].
  rewrite visited_app, Hv. destruct IH as [[-> ->]|[pre ->]].
  - now exists [].
  - now exists (st_t st1 :: pre).
Qed.

Lemma run_done_steps st sched st' evs :
  run st sched = (st', evs, Done) -> steps st evs st' /\ running st' = false.
Proof.
  intros H. apply run_steps in H as (st0 & e0 & e1 & Hs & -> & Hcase).
  destruct Hcase as [(_ & Hr & <- & ->)|[(? & _)|(Hn & _)]]; [|discriminate|now elim Hn].
  rewrite app_nil_r. auto.
Qed.

Lemma not_close_0 : 0 < F -> ~ close 0 F.
Proof.
  intros HF. unfold close. setoid_replace (0 - F) with (- F) by ring.
  rewrite Qabs_opp, (Qabs_pos F) by lra. lra.
Qed.

Lemma run_reaches_final s T Tn u un d dn e sched st' evs :
  run (start s T Tn u un d dn e) sched = (st', evs, Done) ->
  0 < F ->
  (F <= st_t st' \/ close (st_t st') F) /\
  (exists pre, visited evs = pre ++ [st_t st']) /\
  (initial_value s <= F -> (forall t, In t (visited evs) -> t < F -> ~ close t F) -> st_t st' == F).
Proof.
  intros H HF. apply run_done_steps in H as [Hs Hr].
  apply running_false in Hr as Hr'. split; [assumption|].
  assert (Hlast : exists pre, visited evs = pre ++ [st_t st']).
  { destruct (steps_last _ _ _ Hs) as [[-> ->]|]; [|assumption].
    exfalso. cbn in Hr'. destruct Hr' as [|Hc]; [lra|]. revert Hc. now apply not_close_0. }
  split; [assumption|].
  intros Hd Hnear.
  assert (H0 : st_t (start s T Tn u un d dn e) + value (st_dt (start s T Tn u un d dn e)) <= F).
  { cbn. rewrite Qplus_0_l. assumption. }
  destruct (steps_le _ _ _ H0 Hs) as (_ & Hb & _ & _).
  destruct Hlast as [pre Hv].
  assert (Hin : In (st_t st') (visited evs)) by (rewrite Hv; apply in_or_app; cbn; auto).
  specialize (Hb _ Hin).
  destruct Hr' as [Hge|Hc]; [lra|].
  destruct (Qlt_le_dec (st_t st') F) as [Hlt|Hge]; [|lra].
  exfalso. eapply Hnear; eauto.
Qed.

(** ** C09 *)
Definition good (st : state) : Prop :=
  positive_settings (st_dt st) /\ (running st = true -> 0 < value (st_dt st)).

Lemma loop_pos t et T Tn dens g p s atts u s' evs stt :
  update_loop (U:=U) (X:=X) (D:=D) t et T Tn dens g p s atts = (u, s', evs, stt) ->
  positive_settings s -> 0 < value s ->
  (positive_settings s' /\ 0 < value s') /\ (forall c, In c (solves evs) -> 0 < sv_dt c).
Proof.
  intros Hl Hp Hv.
  destruct (loop_inv t et T Tn dens g p (fun s => positive_settings s /\ 0 < value s)
              s atts u s' evs stt) as [Ha Hb]; auto.
  - intros s1 s2 nb c [H1 H2] Had. split; [|eapply adapt_pos; eauto].
    unfold positive_settings in *. now rewrite (adapt_adaptive _ _ _ _ _ Had).
  - split; [exact Ha|]. intros c Hc. destruct (Hb c Hc) as (s1 & [_ H1] & <-). exact H1.
Qed.

Lemma iterate_good st atts st' evs :
  good st -> running st = true -> st_t st + value (st_dt st) <= F ->
  iterate st atts = (st', evs, Done) ->
  good st' /\ st_t st < st_t st' /\ (forall c, In c (solves evs) -> 0 < sv_dt c).
Proof.
  intros [Hp Hpos] Hr Hle H. specialize (Hpos Hr).
  apply iterate_done in H as (T & Tn & u & s & e0 & e & d & _ & Hl & _ & _ & -> & ->).
  destruct (loop_pos _ _ _ _ _ _ _ _ _ _ _ _ _ Hl Hp Hpos) as [[Hp' Hv'] Hc].
  split; [|split].
  - split; cbn.
    + unfold positive_settings in *. now rewrite clamp_final_adaptive.
    + intros Hr'. apply running_true in Hr' as [Hlt _]. cbn in Hlt.
      unfold clamp_final. cbn. destruct (Qltb _ _) eqn:Ec; cbn; [lra|assumption].
  - cbn. lra.
  - intros c Hin. rewrite solves_app in Hin. cbn in Hin. rewrite app_nil_r in Hin. auto.
Qed.

Lemma steps_increasing st evs st' :
  good st -> st_t st + value (st_dt st) <= F -> steps st evs st' ->
  chain Qlt (st_t st :: visited evs) /\ (forall c, In c (solves evs) -> 0 < sv_dt c) /\ good st' /\
  st_t st' + value (st_dt st') <= F.
Proof.
  intros Hg Hle Hs. induction Hs as [st|st atts st1 e1 e2 st2 Hr Hi Hs IH].
  - cbn. intuition.
  - destruct (iterate_good _ _ _ _ Hg Hr Hle Hi) as (Hg1 & Hlt & Hc).
    pose proof (iterate_head_le _ _ _ _ Hi) as Hle1.
    destruct (IH Hg1 Hle1) as (Hch & Hc2 & Hg2 & Hle2).
    destruct (iterate_visited _ _ _ _ _ _ _ _ Hi) as [Hv Ht].
    rewrite visited_app, Hv. split.
    + cbn. split; [assumption|]. exact Hch.
    + split; [|split; assumption].
      intros c Hin. rewrite solves_app in Hin. apply in_app_or in Hin as [|]; auto.
Qed.

Lemma good_start s T Tn u un d dn e :
  positive_settings s -> 0 < initial_value s -> good (start s T Tn u un d dn e).
Proof.
  intros Hp Hd. split; cbn; [|auto]. exact Hp.
Qed.

Lemma run_increasing s T Tn u un d dn e sched st' evs stt :
  positive_settings s -> 0 < initial_value s -> initial_value s <= F ->
  run (start s T Tn u un d dn e) sched = (st', evs, stt) ->
  chain Qlt (0 :: visited evs) /\ (forall c, In c (solves evs) -> 0 < sv_dt c).
Proof.
  intros Hp Hd HF H.
  assert (H0 : st_t (start s T Tn u un d dn e) + value (st_dt (start s T Tn u un d dn e)) <= F).
  { cbn. rewrite Qplus_0_l. assumption. }
  pose proof (good_start s T Tn u un d dn e Hp Hd) as Hg.
  apply run_steps in H as (st0 & e0 & e1 & Hs & -> & Hcase).
  destruct (steps_increasing _ _ _ Hg H0 Hs) as (Ha & Hb & Hg' & Hle').
  rewrite visited_app, solves_app.
  destruct Hcase as [(_ & _ & _ & ->)|[(_ & _ & _ & ->)|(Hn & Hr & atts & Hi)]].
  - cbn. rewrite !app_nil_r. auto.
  - cbn. rewrite !app_nil_r. auto.
  - pose proof (iterate_not_done _ _ _ _ _ _ _ _ _ Hi Hn) as
      (T' & Tn' & u' & s' & e0' & stt0 & tl & _ & Hl & -> & Hv & Ht & Hst).
    rewrite Hv, app_nil_r. split; [assumption|].
    intros c Hin. apply in_app_or in Hin as [Hin|Hin]; [auto|].
    rewrite solves_app, Ht, app_nil_r in Hin.
    destruct Hg' as [Hp' Hpos]. specialize (Hpos Hr).
    destruct (loop_pos _ _ _ _ _ _ _ _ _ _ _ _ _ Hl Hp' Hpos) as [_ Hc]. auto.
Qed.

(** ** C03 *)
(** Milestone [m] is not jumped over by the next step. *)
Definition ahead (m : Q) (st : state) : Prop := st_t st < m -> st_t st + value (st_dt st) <= m.

Lemma iterate_ahead m ms st atts st' evs :
  milestones (st_dt st) = Some ms -> StronglySorted Qle ms -> In m ms ->
  iterate st atts = (st', evs, Done) ->
  (forall m', In m' ms -> st_t st' < m' -> ~ close (st_t st') m') ->
  ahead m st' /\ milestones (st_dt st') = Some ms.
Proof.
  intros Hm Hsort Hin H Hnear.
  apply iterate_done in H as (T & Tn & u & s & e0 & e & d & _ & Hl & _ & _ & -> & ->).
  cbn in *.
  pose proof (loop_settings _ _ _ _ _ _ _ _ _ _ _ _ _ Hl) as (_ & Hms & _).
  split; [|now rewrite clamp_final_milestones, Hms].
  pose proof (loop_last_adapt _ _ _ _ _ _ _ _ _ _ _ _ Hl) as Hlast.
  unfold calls_adapt in Hlast. rewrite Hm in Hlast.
  assert (Hlast' : exists s0 nb, milestones s0 = Some ms /\
             adapt s0 (st_t st + value (st_dt st)) nb true = Ok s).
  { destruct (adaptive_stepsize (st_dt st)); destruct Hlast as (s0 & nb & _ & Hm0 & Had);
      exists s0, nb; (split; [exact Hm0|exact Had]). }
  destruct Hlast' as (s0 & nb & Hm0 & Had).
  intros Hlt. cbn in Hlt |- *.
  destruct (next_milestone s0 (st_t st + value (st_dt st))) as [nm|] eqn:En.
  - pose proof En as En'. unfold next_milestone in En'. rewrite Hm0 in En'.
    destruct (first_after_some _ _ _ En') as [Hinm Hltm].
    pose proof (first_after_least _ _ _ Hsort En' m Hin Hlt) as Hnm.
    pose proof (adapt_milestone _ _ _ _ _ _ Had En (Hnear nm Hinm Hltm)) as Hle.
    pose proof (clamp_final_value_le (st_t st + value (st_dt st)) s). cbn in *. lra.
  - unfold next_milestone in En. rewrite Hm0 in En.
    pose proof (first_after_none _ _ En m Hin). lra.
Qed.

Lemma steps_milestone m ms st evs st' :
  milestones (st_dt st) = Some ms -> StronglySorted Qle ms -> In m ms ->
  ahead m st -> st_t st < m ->
  steps st evs st' ->
  (forall t m', In t (visited evs) -> In m' ms -> t < m' -> ~ close t m') ->
  m <= st_t st' -> exists t, In t (visited evs) /\ t == m.
Proof.
  intros Hm Hsort Hin Ha Hlt Hs Hnear Hge.
  induction Hs as [st|st atts st1 e1 e2 st2 Hr Hi Hs IH].
  - lra.
  - destruct (iterate_visited _ _ _ _ _ _ _ _ Hi) as [Hv Ht]. cbn in Ht.
    rewrite visited_app, Hv in *.
    destruct (iterate_ahead m ms _ _ _ _ Hm Hsort Hin Hi) as [Ha1 Hm1].
    { intros m' Hm'. apply Hnear; cbn; auto. }
    specialize (Ha Hlt).
    destruct (Qlt_le_dec (st_t st1) m) as [Hl1|Hg1].
    + destruct IH as (t & Hin' & Heq); auto.
      { intros t m' Hin'. apply Hnear. cbn. auto. }
      exists t. cbn. auto.
    + exists (st_t st1). cbn. split; [auto|]. rewrite Ht in *. lra.
Qed.

Lemma run_milestone s ms T Tn u un d dn e sched st' evs m :
  milestones s = set_milestones (Some ms) ->
  0 < initial_value s -> initial_value s <= m -> m <= F -> In m ms ->
  run (start s T Tn u un d dn e) sched = (st', evs, Done) ->
  (forall t m', In t (visited evs) -> In m' (F :: ms) -> t < m' -> ~ close t m') ->
  exists t, In t (visited evs) /\ t == m.
Proof.
  intros Hms Hd0 Hdm HmF Hin H Hnear.
  apply run_done_steps in H as [Hs Hr].
  assert (Hl : exists l, set_milestones (Some ms) = Some l) by (destruct ms; cbn; eauto).
  destruct Hl as [l Hl]. rewrite Hl in Hms.
  destruct (set_milestones_in ms l m Hl) as [Hiff Hsort].
  eapply (steps_milestone m l (start s T Tn u un d dn e)); [exact Hms|exact Hsort|apply Hiff; exact Hin| | |exact Hs| |].
  - intros _. cbn. lra.
  - cbn. lra.
  - intros t m' Hin1 Hin2. apply Hnear; [assumption|].
    right. apply (set_milestones_in ms l m' Hl). exact Hin2.
  - apply running_false in Hr as [Hge|Hc]; [lra|].
    destruct (Qlt_le_dec (st_t st') F) as [Hlt|Hge]; [|lra].
    exfalso. destruct (steps_last _ _ _ Hs) as [[-> ->]|[pre Hv]].
    + cbn in Hc. revert Hc. apply not_close_0. lra.
    + apply (Hnear (st_t st') F); cbn; auto. rewrite Hv. apply in_or_app. cbn. auto.
Qed.

(** A milestone that is jumped over: some milestone up to it is close above the time of the last visit. *)
Lemma iterate_near m ms st atts st' evs :
  milestones (st_dt st) = Some ms -> StronglySorted Qle ms -> In m ms ->
  iterate st atts = (st', evs, Done) ->
  st_t st' < m -> m < st_t st' + value (st_dt st') ->
  exists m', In m' ms /\ st_t st' < m' /\ m' <= m /\ close (st_t st') m'.
Proof.
  intros Hm Hsort Hin H Hlt Hjump.
  apply iterate_done in H as (T & Tn & u & s & e0 & e & d & _ & Hl & _ & _ & -> & ->).
  cbn in *.
  pose proof (loop_last_adapt _ _ _ _ _ _ _ _ _ _ _ _ Hl) as Hlast.
  unfold calls_adapt in Hlast. rewrite Hm in Hlast.
  assert (Hlast' : exists s0 nb, milestones s0 = Some ms /\
             adapt s0 (st_t st + value (st_dt st)) nb true = Ok s).
  { destruct (adaptive_stepsize (st_dt st)); destruct Hlast as (s0 & nb & _ & Hm0 & Had);
      exists s0, nb; (split; [exact Hm0|exact Had]). }
  destruct Hlast' as (s0 & nb & Hm0 & Had).
  destruct (next_milestone s0 (st_t st + value (st_dt st))) as [nm|] eqn:En.
  - pose proof En as En'. unfold next_milestone in En'. rewrite Hm0 in En'.
    destruct (first_after_some _ _ _ En') as [Hinm Hltm].
    pose proof (first_after_least _ _ _ Hsort En' m Hin Hlt) as Hnm.
    exists nm. split; [exact Hinm|]. split; [exact Hltm|]. split; [exact Hnm|].
    destruct (Qlt_le_dec ((1 # 100000) * Qabs nm) (Qabs ((st_t st + value (st_dt st)) - nm))) as [Hfar|Hc]; [|exact Hc].
    assert (Hnc : ~ close (st_t st + value (st_dt st)) nm) by (unfold close; lra).
    pose proof (adapt_milestone _ _ _ _ _ _ Had En Hnc) as Hle.
    pose proof (clamp_final_value_le (st_t st + value (st_dt st)) s). cbn in *. lra.
  - unfold next_milestone in En. rewrite Hm0 in En.
    pose proof (first_after_none _ _ En m Hin). lra.
Qed.

Lemma steps_missed m ms st evs st' :
  milestones (st_dt st) = Some ms -> StronglySorted Qle ms -> In m ms ->
  ahead m st -> st_t st < m ->
  steps st evs st' ->
  m <= st_t st' ->
  (exists t, In t (visited evs) /\ t == m) \/
  (exists pre t t' tl m', visited evs = pre ++ t :: t' :: tl /\ t < m /\ m < t' /\
     In m' ms /\ t < m' /\ m' <= m /\ close t m').
Proof.
  intros Hm Hsort Hin Ha Hlt Hs Hge.
  induction Hs as [st|st atts st1 e1 e2 st2 Hr Hi Hs IH].
  - lra.
  - destruct (iterate_visited _ _ _ _ _ _ _ _ Hi) as [Hv Ht]. cbn in Ht.
    rewrite visited_app, Hv in *. specialize (Ha Hlt).
    assert (Hm1 : milestones (st_dt st1) = Some ms).
    { pose proof Hi as Hi'. apply iterate_done in Hi' as (T & Tn & u & s & e0 & e & d & _ & Hl & _ & _ & -> & _).
      cbn. rewrite clamp_final_milestones.
      pose proof (loop_settings _ _ _ _ _ _ _ _ _ _ _ _ _ Hl) as (_ & Hms & _). now rewrite Hms. }
    destruct (Qlt_le_dec (st_t st1) m) as [Hl1|Hg1].
    + destruct (Qlt_le_dec m (st_t st1 + value (st_dt st1))) as [Hj|Hle].
      * right. destruct (iterate_near m ms _ _ _ _ Hm Hsort Hin Hi Hl1 Hj) as (m' & H1 & H2 & H3 & H4).
        inversion Hs as [x Hx|x a y f1 f2 z Hrx Hix Hsx]; subst; [lra|].
        destruct (iterate_visited _ _ _ _ _ _ _ _ Hix) as [Hv2 Ht2]. cbn in Ht2.
        exists [], (st_t st1), (st_t y), (visited f2), m'. rewrite visited_app, Hv2. cbn.
        split; [reflexivity|]. split; [exact Hl1|]. split; [rewrite Ht2; exact Hj|]. auto.
      * destruct IH as [(t & Hin' & Heq)|(pre & t & t' & tl & m' & Hvv & Hrest)]; auto.
        { intros _. exact Hle. }
        { left. exists t. cbn. auto. }
        { right. exists (st_t st1 :: pre), t, t', tl, m'. cbn. rewrite Hvv. split; [reflexivity|exact Hrest]. }
    + left. exists (st_t st1). cbn. split; [auto|]. rewrite Ht in *. lra.
Qed.

Lemma run_missed s ms T Tn u un d dn e sched st' evs m :
  milestones s = set_milestones (Some ms) ->
  0 < initial_value s -> initial_value s <= m -> m <= F -> In m ms ->
  run (start s T Tn u un d dn e) sched = (st', evs, Done) ->
  (exists t, In t (visited evs) /\ t == m) \/
  (exists pre t t' tl m', visited evs = pre ++ t :: t' :: tl /\ t < m /\ m < t' /\
     In m' ms /\ t < m' /\ m' <= m /\ close t m') \/
  (exists pre t, visited evs = pre ++ [t] /\ t < m /\ close t F).
Proof.
  intros Hms Hd0 Hdm HmF Hin H.
  apply run_done_steps in H as [Hs Hr].
  assert (Hl : exists l, set_milestones (Some ms) = Some l) by (destruct ms; cbn; eauto).
  destruct Hl as [l Hl]. rewrite Hl in Hms.
  destruct (set_milestones_in ms l m Hl) as [Hiff Hsort].
  destruct (Qlt_le_dec (st_t st') m) as [Hlt|Hge].
  - right. right. apply running_false in Hr as [Hge|Hc]; [lra|].
    destruct (steps_last _ _ _ Hs) as [[-> ->]|[pre Hv]].
    + exfalso. cbn in Hc. revert Hc. apply not_close_0. lra.
    + exists pre, (st_t st'). auto.
  - destruct (steps_missed m l (start s T Tn u un d dn e) evs st') as [Hv|Hv]; auto.
    + now apply Hiff.
    + intros _. cbn. lra.
    + cbn. lra.
    + right. left. destruct Hv as (pre & t & t' & tl & m' & H1 & H2 & H3 & H4 & H5).
      exists pre, t, t', tl, m'. do 3 (split; [assumption|]). split; [|assumption].
      now apply (set_milestones_in ms l m' Hl).
Qed.

End Runs.
