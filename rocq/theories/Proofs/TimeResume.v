(** Calling run() again: interrupted runs, finished runs, raised final times. *)
From Coq Require Import ZArith QArith Qabs Qminmax List Bool Lqa Lia String.
From Verif Require Import Base.Exc Base.Num Model.Stepsize Model.TimeLoop Spec.TimeSpec
  Proofs.NumQ Proofs.StepsizeProofs Proofs.TimeLoopProofs Proofs.TimeQ Proofs.TimeFloor.
Import ListNotations.
Local Open Scope Q_scope.

Section Resume.
Context {U X D E : Type}.
Variable temp : temperature (A:=Q) X.
Variable dens_solve : D -> D -> Q -> X -> D.
Variable post : Q -> U -> X -> E -> res E.

Local Notation state := (state (A:=Q) U X D E).

Lemma run_stopped F st sched : running F st = false ->
  run_transient temp dens_solve post F st sched = (st, [], Done).
Proof. intros H. destruct sched; cbn; now rewrite H. Qed.

(** With solvable steps a run is cut only between two steps. *)
Lemma iterate_solvable F st atts st' evs :
  (exists a, In a atts /\ at_conv a = true) ->
  iterate temp dens_solve post F st atts <> (st', evs, Pending).
Proof.
  intros Ha H. pose proof (iterate_not_done _ _ _ _ _ _ _ _ _ H ltac:(discriminate))
    as (T & Tn & u & s & e0 & stt0 & tl & Htu & Hl & _).
  pose proof (loop_not_pending _ _ _ _ _ _ _ _ _ _ _ _ _ Hl Ha) as Hn.
  unfold iterate in H. rewrite Htu in H.
  unfold update in H. cbn [st_t st_dt st_T st_Tn st_u st_un st_dens st_densn st_expr st_exp] in H.
  rewrite Hl in H. destruct stt0; cbn in H; [|discriminate|now elim Hn].
  destruct (post _ _ _ _); discriminate.
Qed.

Lemma run_resume F s2 : forall s1 st st1 e1,
  solvable s1 ->
  run_transient temp dens_solve post F st s1 = (st1, e1, Pending) ->
  run_transient temp dens_solve post F st (s1 ++ s2) =
  (let '(st2, e2, k) := run_transient temp dens_solve post F st1 s2 in (st2, e1 ++ e2, k)).
Proof.
  induction s1 as [|atts r IH]; intros st st1 e1 Hs H.
  - cbn in H. destruct (running F st); [|discriminate]. injection H as <- <-.
    cbn [app]. destruct (run_transient _ _ _ F st s2) as [[? ?] ?]. reflexivity.
  - cbn in H. cbn [app run_transient]. destruct (running F st); [|discriminate].
    destruct (iterate temp dens_solve post F st atts) as [[sta ea] ka] eqn:Ei.
    destruct ka; try discriminate.
    + destruct (run_transient temp dens_solve post F sta r) as [[stb eb] kb] eqn:Er.
      injection H as <- <- ->. apply IH in Er; [|intros a Ha; apply Hs; now right].
      rewrite Er. destruct (run_transient temp dens_solve post F stb s2) as [[? ?] ?].
      now rewrite app_assoc.
    + exfalso. revert Ei. apply iterate_solvable. apply Hs. now left.
Qed.

(** ** A final time reached exactly leaves the stepsize 0 *)
Lemma last_zero F st evs st' :
  good F st -> st_t st + value (st_dt st) <= F ->
  steps temp dens_solve post F st evs st' ->
  evs = [] \/ (positive_settings (st_dt st') /\ (st_t st' == F -> value (st_dt st') == 0)).
Proof.
  intros Hg Hle Hs. induction Hs as [st|st atts st1 e1 e2 st2 Hr Hi Hs IH]; [auto|]. right.
  destruct (iterate_good temp dens_solve post F _ _ _ _ Hg Hr Hle Hi) as (Hg1 & _ & _).
  pose proof (iterate_head_le temp dens_solve post F _ _ _ _ Hi) as Hle1.
  destruct (IH Hg1 Hle1) as [He|]; [|assumption].
  subst e2. inversion Hs; subst.
  - destruct Hg as [Hp Hpos]. specialize (Hpos Hr).
    apply iterate_done in Hi as (T & Tn & u & s & e0 & e & d & _ & Hl & _ & _ & -> & _).
    destruct (loop_pos _ _ _ _ _ _ _ _ _ _ _ _ _ Hl Hp Hpos) as [[Hp' Hv'] _].
    split; cbn.
    + unfold positive_settings in *. now rewrite clamp_final_adaptive.
    + intros Ht. unfold clamp_final. cbn. destruct (Qltb _ _) eqn:Ec; cbn; [rewrite Ht; ring|].
      apply Qltb_false in Ec. lra.
  - exfalso. match goal with H : _ ++ _ = [] |- _ => apply app_eq_nil in H as [H _]; subst end.
    match goal with H : iterate _ _ _ _ _ _ = (_, [], Done) |- _ =>
      apply iterate_done in H as (? & ? & ? & ? & ? & ? & ? & _ & _ & _ & _ & _ & Hx) end.
    symmetry in Hx. apply app_eq_nil in Hx as [_ Hx]. discriminate.
Qed.

(** ** A stepsize 0 stays 0 *)
Lemma adapt_zero (s s' : stepsize Q) t nb c :
  positive_settings s -> value s == 0 -> adapt s t nb c = Ok s' -> value s' == 0.
Proof.
  intros Hp Hv H. apply adapt_inv in H as (v & Hva & ->). rewrite assign_value.
  assert (V0 : v == 0).
  { unfold positive_settings in Hp. destruct (adaptive_stepsize s) as [a|]; [|now subst].
    destruct Hp as [Hr Hb]. unfold adapt_value in Hva.
    assert (H1 : exists v1, (if c then Ok (value s) else adapt_diverged a (value s)) = Ok v1 /\ v1 == 0).
    { destruct c; [eauto|]. unfold adapt_diverged in *. destruct (dt_min a); [|discriminate].
      destruct (py_div (value s) (change_ratio a)) as [x|] eqn:Ex; [|discriminate].
      apply py_div_ok in Ex. cbn [bind] in Hva |- *. destruct (nltb x q); [discriminate|].
      exists x. split; [reflexivity|]. subst x. rewrite Hv. unfold Qdiv. ring. }
    destruct H1 as (v1 & E1 & Z1). rewrite E1 in Hva. cbn [bind] in Hva.
    assert (H2 : exists v2, (if (nb <? 5)%Z then Ok (nmul v1 (change_ratio a)) else py_div v1 (change_ratio a)) = Ok v2
                 /\ v2 == 0).
    { destruct (nb <? 5)%Z; [eexists; split; [reflexivity|]; cbn; rewrite Z1; ring|].
      destruct (py_div v1 (change_ratio a)) as [x|] eqn:Ex; [|discriminate].
      apply py_div_ok in Ex. exists x. split; [reflexivity|]. subst x. rewrite Z1. unfold Qdiv. ring. }
    destruct H2 as (v2 & E2 & Z2). rewrite E2 in Hva. cbn [bind] in Hva.
    unfold cap in Hva. destruct (max_stepsize a) as [|x|f] eqn:Em; cbn in Hva.
    - congruence.
    - injection Hva as <-. specialize (Hb t x eq_refl). destruct (Qltb x v2) eqn:El; [qb; lra|assumption].
    - destruct (f t) as [[b|]|] eqn:Ef; cbn in Hva; try discriminate; injection Hva as <-; [|assumption].
      specialize (Hb t b Ef). destruct (Qltb b v2) eqn:El; [qb; lra|assumption]. }
  unfold clamp_milestone. destruct (next_milestone s t) as [m|] eqn:En; [|assumption].
  cbn [nltb nadd nsub NumQ]. destruct (Qltb m (t + v) && negb (isclose t m)) eqn:Ec; [|assumption].
  exfalso. apply andb_true_iff in Ec as [Ec _]. apply Qltb_true in Ec.
  unfold next_milestone in En. destruct (milestones s); [|discriminate].
  apply first_after_some in En as [_ En]. lra.
Qed.

(** The run cannot leave the time [t0]. *)
Definition stuck (t0 : Q) (st : state) : Prop :=
  st_t st == t0 /\ positive_settings (st_dt st) /\ value (st_dt st) == 0.

Lemma loop_zero t et T Tn dens g p s atts u s' evs stt :
  update_loop (U:=U) (X:=X) (D:=D) t et T Tn dens g p s atts = (u, s', evs, stt) ->
  positive_settings s -> value s == 0 ->
  (positive_settings s' /\ value s' == 0) /\ (forall c, In c (solves evs) -> sv_dt c == 0).
Proof.
  intros Hl Hp Hv.
  destruct (loop_inv t et T Tn dens g p (fun s => positive_settings s /\ value s == 0)
              s atts u s' evs stt) as [Ha Hb]; auto.
  - intros s1 s2 nb c [H1 H2] Had. split; [|eapply adapt_zero; eauto].
    unfold positive_settings in *. now rewrite (adapt_adaptive _ _ _ _ _ Had).
  - split; [exact Ha|]. intros c Hc. destruct (Hb c Hc) as (s1 & [_ H1] & <-). exact H1.
Qed.

Lemma iterate_stuck F t0 st atts st' evs :
  t0 <= F -> stuck t0 st -> iterate temp dens_solve post F st atts = (st', evs, Done) ->
  stuck t0 st' /\ (forall c, In c (solves evs) -> sv_dt c == 0).
Proof.
  intros HF (Ht & Hp & Hv) H.
  apply iterate_done in H as (T & Tn & u & s & e0 & e & d & _ & Hl & _ & _ & -> & ->).
  destruct (loop_zero _ _ _ _ _ _ _ _ _ _ _ _ _ Hl Hp Hv) as [[Hp' Hv'] Hc].
  split.
  - split; [|split]; cbn.
    + rewrite Ht, Hv. ring.
    + unfold positive_settings in *. now rewrite clamp_final_adaptive.
    + unfold clamp_final. cbn. destruct (Qltb _ _) eqn:Ec; cbn; [|assumption].
      apply Qltb_true in Ec. lra.
  - intros c Hin. rewrite solves_app in Hin. cbn in Hin. rewrite app_nil_r in Hin. auto.
Qed.

Lemma steps_stuck F t0 st evs st' :
  t0 <= F -> stuck t0 st -> steps temp dens_solve post F st evs st' ->
  stuck t0 st' /\ (forall t, In t (visited evs) -> t == t0) /\ (forall c, In c (solves evs) -> sv_dt c == 0).
Proof.
  intros HF Hg Hs. induction Hs as [st|st atts st1 e1 e2 st2 Hr Hi Hs IH].
  - cbn. intuition.
  - destruct (iterate_stuck _ _ _ _ _ _ HF Hg Hi) as [Hg1 Hc].
    destruct (IH Hg1) as (Hg2 & Hv2 & Hc2).
    destruct (iterate_visited _ _ _ _ _ _ _ _ Hi) as [Hv Ht].
    split; [assumption|]. rewrite visited_app, solves_app, Hv. split.
    + intros t [<-|Hin]; [apply Hg1|auto].
    + intros c Hin. apply in_app_or in Hin as [|]; auto.
Qed.

Lemma run_stuck F t0 st sched st' evs stt :
  t0 < F -> ~ close t0 F -> stuck t0 st ->
  run_transient temp dens_solve post F st sched = (st', evs, stt) ->
  stt <> Done /\ (forall t, In t (visited evs) -> t == t0) /\ (forall c, In c (solves evs) -> sv_dt c == 0).
Proof.
  intros HF Hn Hg H. apply run_steps in H as (s0 & e0 & e1 & Hs & -> & Hcase).
  assert (HF' : t0 <= F) by lra.
  destruct (steps_stuck _ _ _ _ _ HF' Hg Hs) as (Hg' & Ha & Hb).
  assert (Hrun : running F s0 = true).
  { apply running_true. destruct Hg' as [Ht _]. split; [lra|]. unfold close in *. now rewrite Ht. }
  destruct Hcase as [(_ & Hx & _)|[(-> & _ & _ & ->)|(Hk & _ & atts & Hi)]]; [congruence| |].
  - split; [discriminate|]. rewrite app_nil_r. auto.
  - split; [assumption|]. rewrite visited_app, solves_app.
    pose proof (iterate_not_done _ _ _ _ _ _ _ _ _ Hi Hk) as
      (T' & Tn' & u' & s' & e0' & stt0 & tl & _ & Hl & -> & Hv & Ht & Hst).
    rewrite Hv, app_nil_r. split; [assumption|].
    intros c Hin. apply in_app_or in Hin as [|Hin]; [auto|].
    rewrite solves_app, Ht, app_nil_r in Hin.
    destruct Hg' as (_ & Hp & Hz). eapply loop_zero; eauto.
Qed.

End Resume.
