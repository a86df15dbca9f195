(** Milestones of runs with a fixed stepsize on a grid. *)
From Coq Require Import ZArith QArith Qabs List Bool Lqa Lia Sorting.Sorted.
From Verif Require Import Base.Exc Base.Num Model.Stepsize Model.TimeLoop Spec.TimeSpec
  Proofs.NumQ Proofs.StepsizeProofs Proofs.TimeLoopProofs Proofs.TimeQ Proofs.TimeRuns.
Import ListNotations.
Local Open Scope Q_scope.

Lemma multiple_sub h a b : multiple h a -> multiple h b -> multiple h (a - b).
Proof.
  intros [i Hi] [j Hj]. exists (i - j)%Z. rewrite Hi, Hj. unfold Z.sub.
  rewrite inject_Z_plus, inject_Z_opp. ring.
Qed.
Lemma multiple_add h a b : multiple h a -> multiple h b -> multiple h (a + b).
Proof. intros [i Hi] [j Hj]. exists (i + j)%Z. rewrite Hi, Hj, inject_Z_plus. ring. Qed.
Lemma multiple_gap h a b : 0 < h -> multiple h a -> multiple h b -> a < b -> a + h <= b.
Proof.
  intros Hh [i Hi] [j Hj] Hlt. rewrite Hi, Hj in *.
  assert (Hij : (i < j)%Z).
  { destruct (Z_lt_le_dec i j) as [|Hle]; [assumption|]. exfalso.
    rewrite Zle_Qle in Hle. assert (inject_Z j * h <= inject_Z i * h) by (apply Qmult_le_compat_r; lra). lra. }
  assert (H1 : inject_Z (i + 1) <= inject_Z j) by (rewrite <- Zle_Qle; lia).
  rewrite inject_Z_plus in H1.
  assert ((inject_Z i + inject_Z 1) * h <= inject_Z j * h) by (apply Qmult_le_compat_r; lra).
  change (inject_Z 1) with 1 in H. lra.
Qed.

Section Runs.
Context {U X D E : Type}.
Variable temp : temperature (A:=Q) X.
Variable dens_solve : D -> D -> Q -> X -> D.
Variable post : Q -> U -> X -> E -> res E.
Variable F : Q.

Local Notation state := (state (A:=Q) U X D E).
Local Notation iterate := (iterate temp dens_solve post F).
Local Notation run := (run_transient temp dens_solve post F).
Local Notation steps := (steps temp dens_solve post F).

Lemma iterate_grid h l st atts st' evs :
  multiple h F -> (forall m, In m l -> multiple h m) ->
  adaptive_stepsize (st_dt st) = None -> milestones (st_dt st) = Some l ->
  multiple h (st_t st) -> multiple h (value (st_dt st)) ->
  iterate st atts = (st', evs, Done) ->
  adaptive_stepsize (st_dt st') = None /\ milestones (st_dt st') = Some l /\
  multiple h (st_t st') /\ multiple h (value (st_dt st')).
Proof.
  intros HF Hl Ha Hm Ht Hv H.
  apply iterate_done in H as (T & Tn & u & s & e0 & e & d & _ & Hloop & _ & _ & -> & ->).
  cbn [st_t st_dt]. cbn [nadd NumQ] in *. set (t1 := st_t st + value (st_dt st)) in *.
  assert (Ht1 : multiple h t1) by (apply multiple_add; assumption).
  destruct (loop_inv t1 t1 T Tn (st_dens st) (st_u st) (st_un st)
              (fun s => adaptive_stepsize s = None /\ milestones s = Some l /\ multiple h (value s))
              (st_dt st) atts u s e0 Done) as [(Ha' & Hm' & Hv') _].
  - intros s1 s2 nb c (Ha1 & Hm1 & Hv1) Had.
    rewrite (adapt_adaptive _ _ _ _ _ Had), (adapt_milestones _ _ _ _ _ Had).
    split; [assumption|]. split; [assumption|].
    apply adapt_inv in Had as (v & Hva & ->). rewrite Ha1 in Hva. subst v. cbn [assign value].
    destruct (clamp_milestone_cases s1 l t1 (value s1) Hm1) as [->|(m & Hin & _ & ->)]; [assumption|].
    apply multiple_sub; auto.
  - auto.
  - exact Hloop.
  - rewrite clamp_final_adaptive, clamp_final_milestones. repeat split; auto.
    unfold clamp_final. cbn [nltb nadd nsub NumQ]. destruct (Qltb F (t1 + value s)); cbn; [|assumption].
    apply multiple_sub; assumption.
Qed.

Lemma steps_grid h l st evs st' :
  multiple h F -> (forall m, In m l -> multiple h m) ->
  adaptive_stepsize (st_dt st) = None -> milestones (st_dt st) = Some l ->
  multiple h (st_t st) -> multiple h (value (st_dt st)) ->
  steps st evs st' -> forall t, In t (visited evs) -> multiple h t.
Proof.
  intros HF Hl Ha Hm Ht Hv Hs. induction Hs as [st|st atts st1 e1 e2 st2 Hr Hi Hs IH].
  - intros t [].
  - destruct (iterate_grid _ _ _ _ _ _ HF Hl Ha Hm Ht Hv Hi) as (Ha1 & Hm1 & Ht1 & Hv1).
    destruct (iterate_visited _ _ _ _ _ _ _ _ Hi) as [Hvis _].
    intros t Hin. rewrite visited_app, Hvis in Hin. destruct Hin as [<-|Hin]; [assumption|].
    now apply IH.
Qed.

Lemma run_milestone_grid h s ms T Tn u un d dn e sched st' evs m :
  0 < h -> adaptive_stepsize s = None -> milestones s = set_milestones (Some ms) ->
  (forall x, In x (initial_value s :: F :: ms) -> 0 < x /\ multiple h x /\ (1 # 100000) * x < h) ->
  initial_value s <= m -> m <= F -> In m ms ->
  run (start s T Tn u un d dn e) sched = (st', evs, Done) ->
  exists t, In t (visited evs) /\ t == m.
Proof.
  intros Hh Ha Hms Hall Hdm HmF Hin H.
  eapply (run_milestone temp dens_solve post F s ms); eauto.
  - apply Hall. cbn. auto.
  - intros t m' Hvis Hm' Hlt Hc.
    assert (Hl : exists l, set_milestones (Some ms) = Some l) by (destruct ms; cbn; eauto).
    destruct Hl as [l Hl].
    apply run_done_steps in H as [Hs _].
    assert (Ht : multiple h t).
    { eapply (steps_grid h l (start s T Tn u un d dn e)); try exact Hs; auto.
      - apply Hall. cbn. auto.
      - intros x Hx. apply Hall. right. right. now apply (set_milestones_in ms l x Hl).
      - cbn. now rewrite Hms.
      - exists 0%Z. cbn. ring.
      - cbn. apply Hall. cbn. auto. }
    assert (Hm2 : 0 < m' /\ multiple h m' /\ (1 # 100000) * m' < h) by (apply Hall; cbn in *; tauto).
    destruct Hm2 as (Hp & Hm2 & Hb).
    pose proof (multiple_gap h t m' Hh Ht Hm2 Hlt).
    unfold close in Hc. rewrite (Qabs_pos m') in Hc by lra.
    rewrite Qabs_Qminus, (Qabs_pos (m' - t)) in Hc by lra. lra.
Qed.
End Runs.
