(** C111: the stepsizes of a run. *)
From Coq Require Import ZArith QArith Qminmax List Bool Lqa Lia String Sorted.
From Verif Require Import Base.Exc Base.Num Model.Stepsize Model.TimeLoop Spec.TimeSpec Spec.AdaptSpec
  Proofs.NumQ Proofs.StepsizeProofs Proofs.TimeLoopProofs Proofs.TimeChain Proofs.TimeQ Proofs.TimeQ2 Proofs.TimeWitness Proofs.TxtRuns Proofs.MaterialProofs.
From Verif Require Properties.TimeProps.
Import ListNotations.
Local Open Scope Q_scope.
Local Notation length := List.length.

Section Sequence.
Context {U X D EX : Type}.
Variable temp : temperature (A:=Q) X.
Variable dens_solve : D -> D -> Q -> X -> D.
Variable post : Q -> U -> X -> EX -> res EX.
Variables (T0 Tn0 : X) (u0 un0 : U) (d0 dn0 : D) (e0 : EX).
Variables (init : Q) (ratio t_stop stop_max : option Q) (mx : maxspec Q) (dtmin : option Q) (miles : option (list Q)).
Local Notation S := (mk_stepsize init ratio t_stop stop_max mx dtmin miles).
Local Notation run := (TimeProps.run temp dens_solve post T0 Tn0 u0 un0 d0 dn0 e0).

Lemma truthy_nonzero (o : option Q) : truthy o = true <-> nonzero o.
Proof.
  unfold truthy, nonzero. destruct o as [x|]; [|split; [discriminate|intros (? & ? & _); discriminate]].
  cbn [neqb NumQ n0]. rewrite negb_true_iff. split.
  - intros H. exists x. split; [reflexivity|]. intros E0. apply Qeq_bool_iff in E0. congruence.
  - intros (y & [= <-] & H). destruct (Qeq_bool x 0) eqn:E; [|reflexivity]. apply Qeq_bool_iff in E. contradiction.
Qed.

Lemma cap_least r v w t : ratio = Some r -> forall a, adaptive_stepsize S = Some a -> cap (max_stepsize a) t v = Ok w ->
  (w == v \/ limit t_stop stop_max mx t w) /\ w <= v /\ forall b, limit t_stop stop_max mx t b -> w <= b.
Proof.
  intros Hr a Ha H. cbn in Ha. rewrite Hr in Ha. injection Ha as <-. cbn [max_stepsize] in H.
  assert (HL : (truthy t_stop || truthy stop_max)%bool = true <-> nonzero t_stop \/ nonzero stop_max)
    by (rewrite orb_true_iff, !truthy_nonzero; reflexivity).
  assert (Hb : forall o, match (if (truthy t_stop || truthy stop_max)%bool then MaxFun (stop_lambda t_stop stop_max) else mx) with
                | MaxNone => Ok None | MaxConst x => Ok (Some x) | MaxFun f => f t end = Ok o ->
             forall b, limit t_stop stop_max mx t b <-> o = Some b).
  { clear H. intros o Ho b. unfold limit. destruct (truthy t_stop || truthy stop_max)%bool eqn:E.
    - unfold stop_lambda in Ho. destruct t_stop as [ts|]; [|discriminate Ho]. cbn [nleb NumQ] in Ho. injection Ho as <-. split.
      + intros [(_ & ts' & [= <-] & Hle & ->)|(N1 & N2 & _)]; [|exfalso; tauto].
        apply Qle_bool_iff in Hle. now rewrite Hle.
      + intros He. left. split; [apply HL; reflexivity|]. exists ts. destruct (Qle_bool ts t) eqn:Eq; [|discriminate He].
        apply Qle_bool_iff in Eq. auto.
    - assert (Hn : ~ nonzero t_stop /\ ~ nonzero stop_max) by (split; intros K; assert (K' : false = true) by (apply HL; auto); discriminate K').
      destruct Hn as [N1 N2]. split.
      + intros [([K|K] & _)|(_ & _ & K)]; [contradiction..|]. unfold bound_at in K.
        destruct mx as [|x|g]; [contradiction|injection Ho as <-; now subst|congruence].
      + intros ->. right. split; [exact N1|]. split; [exact N2|]. unfold bound_at.
        destruct mx as [|x|g]; [discriminate Ho|now injection Ho|exact Ho]. }
  unfold cap in H. apply bind_ok in H as (o & Ho & H). specialize (Hb o Ho).
  destruct o as [b|].
  - injection H as <-. cbn [nltb NumQ]. destruct (Qltb b v) eqn:E.
    + apply Qltb_true in E. split; [right; now apply Hb|]. split; [lra|]. intros b' Hb'. apply Hb in Hb'. injection Hb' as <-. lra.
    + apply Qltb_false in E. split; [left; lra|]. split; [lra|]. intros b' Hb'. apply Hb in Hb'. injection Hb' as <-. exact E.
  - injection H as <-. split; [left; lra|]. split; [lra|]. intros b' Hb'. apply Hb in Hb'. discriminate.
Qed.

Lemma clamp_least (s : stepsize Q) t v : milestones s = set_milestones miles ->
  let w := clamp_milestone s t v in
  (w == v \/ exists m, upcoming miles t m /\ ~ close t m /\ w == m - t) /\ w <= v /\
  forall m, upcoming miles t m -> ~ close t m -> w <= m - t.
Proof.
  intros Hm w. unfold w, clamp_milestone, next_milestone. rewrite Hm.
  destruct miles as [ms|]; cbn [set_milestones].
  2: { split; [left; lra|]. split; [lra|]. intros m (l & Hl & _). discriminate Hl. }
  assert (Hs : exists l, match ms with [] => Some ms | _ :: _ => Some (py_sorted ms) end = Some l /\
                 (forall m, In m l <-> In m ms) /\ StronglySorted Qle l).
  { destruct ms as [|a r]; [exists []; split; [reflexivity|split; [reflexivity|constructor]]|].
    exists (py_sorted (a :: r)). split; [reflexivity|]. split; [intros m; apply sorted_in|]. apply py_sorted_sorted. }
  destruct Hs as (l & Hl & Hin & Hsort). rewrite Hl.
  destruct (first_after t l) as [m|] eqn:Ef.
  - destruct (first_after_some _ _ _ Ef) as [Hml Hlt]. pose proof (first_after_least _ _ _ Hsort Ef) as Hleast.
    assert (Hup : upcoming (Some ms) t m).
    { exists ms. split; [reflexivity|]. split; [now apply Hin|]. split; [exact Hlt|]. intros m' K1 K2. apply Hleast; [now apply Hin|exact K2]. }
    assert (Huniq : forall m', upcoming (Some ms) t m' -> m' == m).
    { intros m' (l' & [= <-] & K1 & K2 & K3). assert (m <= m') by (apply Hleast; [now apply Hin|exact K2]).
      assert (m' <= m) by (apply K3; [now apply Hin|exact Hlt]). lra. }
    cbn [nltb nadd nsub NumQ]. destruct (Qltb m (t + v)) eqn:E1.
    + apply Qltb_true in E1. destruct (isclose t m) eqn:E2; cbn [andb negb].
      * apply isclose_true in E2. split; [left; lra|]. split; [lra|]. intros m' K1 K2. exfalso. apply K2.
        specialize (Huniq m' K1). unfold close in *. now rewrite Huniq.
      * split; [right; exists m; split; [exact Hup|]; split; [|lra]|].
        { intros K. apply isclose_true in K. congruence. }
        split; [lra|]. intros m' K1 K2. specialize (Huniq m' K1). lra.
    + apply Qltb_false in E1. cbn [andb]. split; [left; lra|]. split; [lra|]. intros m' K1 K2. specialize (Huniq m' K1). lra.
  - split; [left; lra|]. split; [lra|]. intros m (l' & [= <-] & K1 & K2 & _).
    assert (m <= t) by (apply (first_after_none _ _ Ef); now apply Hin). lra.
Qed.

(** What adapt gives for a Stepsize with these arguments. *)
Lemma scaled_unique c nb v w w' : scaled ratio c nb v w -> scaled ratio c nb v w' -> w == w'.
Proof.
  unfold scaled. destruct ratio as [r|]; [|intros -> ->; reflexivity].
  intros [[H1 ->]|[H1 ->]] [[H2 ->]|[H2 ->]]; try lia; reflexivity.
Qed.
Lemma adapted_stage (s s' : stepsize Q) t nb c : same S s -> adapted s t nb c s' ->
  exists w, scaled ratio c nb (value s) w /\
    (value s' == w \/ (ratio <> None /\ exists b, limit t_stop stop_max mx t b /\ b == value s') \/
     exists m, upcoming miles t m /\ ~ close t m /\ value s' == m - t) /\
    value s' <= w /\ (ratio <> None -> forall b, limit t_stop stop_max mx t b -> value s' <= b) /\
    (forall m, upcoming miles t m -> ~ close t m -> value s' <= m - t).
Proof.
  intros [Hs1 Hs2] Ha. unfold adapted in Ha. destruct (calls_adapt s) eqn:Ec.
  - apply adapt_inv in Ha as (v & Hv & ->). cbn [assign value].
    destruct (clamp_least s t v Hs2) as (K1 & K2 & K3).
    rewrite Hs1 in Hv. destruct (adaptive_stepsize S) as [a|] eqn:Ea.
    + assert (Er : exists r, ratio = Some r) by (cbn in Ea; destruct ratio as [r|]; [now exists r|discriminate Ea]).
      destruct Er as [r Er].
      unfold adapt_value in Hv. apply bind_ok in Hv as (v1 & Hv1 & Hv). apply bind_ok in Hv as (v2 & Hv2 & Hv).
      destruct (cap_least r v2 v t Er a Ea Hv) as (L1 & L2 & L3).
      assert (Hra : change_ratio a = r). { cbn in Ea. rewrite Er in Ea. now injection Ea as <-. }
      assert (Hw : scaled (Some r) c nb (value s) v2).
      { unfold scaled. rewrite Hra in Hv2.
        assert (H1 : v1 = (if c then value s else value s / r)).
        { destruct c; [now injection Hv1|]. unfold adapt_diverged in Hv1. destruct (dt_min a) as [dm|]; [|discriminate Hv1].
          apply bind_ok in Hv1 as (z & Hz & Hv1). unfold py_div in Hz. rewrite Hra in Hz.
          destruct (nltb z dm); [discriminate Hv1|]. injection Hv1 as <-.
          destruct (neqb r n0); [discriminate Hz|]. now injection Hz. }
        rewrite <- H1. destruct (nb <? 5)%Z eqn:En.
        - apply Z.ltb_lt in En. injection Hv2 as <-. left. split; [exact En|reflexivity].
        - apply Z.ltb_ge in En. unfold py_div in Hv2. destruct (neqb r n0); [discriminate Hv2|]. injection Hv2 as <-.
          right. split; [exact En|reflexivity]. }
      rewrite <- Er in Hw. exists v2. split; [exact Hw|]. split.
      * destruct K1 as [K1|K1]; [|right; right; exact K1]. rewrite K1. destruct L1 as [L1|L1]; [left; exact L1|].
        right. left. split; [now rewrite Er|]. exists v. split; [exact L1|]. now rewrite K1.
      * split; [lra|]. split; [|exact K3]. intros _ b Hb. specialize (L3 b Hb). lra.
    + assert (Er : ratio = None). { cbn in Ea. destruct ratio; [discriminate Ea|reflexivity]. }
      exists v. subst v. split; [rewrite Er; cbn; reflexivity|]. split; [destruct K1 as [K1|K1]; [left; exact K1|right; right; exact K1]|].
      split; [exact K2|]. split; [intros K; now rewrite Er in K|exact K3].
  - subst s'. unfold calls_adapt in Ec. rewrite Hs1, Hs2 in Ec. cbn in Ec.
    assert (Er : ratio = None) by (destruct ratio; [discriminate Ec|reflexivity]).
    assert (Em : miles = None). { rewrite Er in Ec. destruct miles as [[|? ?]|]; [discriminate Ec..|reflexivity]. }
    exists (value s). rewrite Er, Em. split; [cbn; reflexivity|]. split; [left; reflexivity|]. split; [lra|].
    split; [intros K; now elim K|]. intros m (l & Hl & _). discriminate Hl.
Qed.

(** The stepsize of the first solve is the initial one; the stepsize of every later solve is the least of
    the candidates given by the outcome of the solve before.  The time is that of the failed solve, or the
    previous time plus the stepsize. *)
Theorem C111_sequence F sched st' evs stt : run F S sched = (st', evs, stt) ->
  (forall c r, solves evs = c :: r -> sv_dt c = init /\ sv_t c == init) /\
  chain (fun c1 c2 =>
    least (candidate ratio t_stop stop_max mx miles F (sv_t c1) (sv_dt c1) (at_nb (sv_out c1)) (at_conv (sv_out c1))) (sv_dt c2) /\
    sv_t c2 == (if at_conv (sv_out c1) then sv_t c1 + sv_dt c2 else sv_t c1)) (solves evs).
Proof.
  intros H. split.
  - intros c r Hc. destruct (run_first_solve _ _ _ _ _ _ _ _ _ _ _ H Hc) as (_ & _ & Hd & Ht & _).
    split; [exact Hd|]. rewrite Ht. cbn. lra.
  - eapply chain_impl; [|exact (run_chain_start _ _ _ _ _ _ _ _ _ _ _ _ _ _ _ _ H)].
    intros c1 c2 [Hr|Hn].
    + destruct Hr as (Hc & _ & _ & Ht & _ & _ & _ & s1 & s2 & Hs & Hv & Had & Hv2). rewrite Hc.
      destruct (adapted_stage _ _ _ _ _ Hs Had) as (w & Hw & K1 & K2 & K3 & K4). rewrite Hv, Hv2 in *.
      split; [|rewrite Ht; reflexivity]. split.
      * destruct K1 as [K1|[(Kr & b & Kb & K1)|(m & Km & Kc & K1)]].
        -- exists w. split; [now apply ByChange|now rewrite K1].
        -- exists b. split; [now apply ByLimit|exact K1].
        -- exists (m - sv_t c1). split; [now apply ByMilestone|now rewrite K1].
      * intros x [w' Hw'|b Kr Kb|m Km Kc|K]; [|now apply K3|now apply K4|discriminate K].
        rewrite (scaled_unique _ _ _ _ _ Hw' Hw). exact K2.
    + destruct Hn as (Hc & _ & _ & Ht & _ & s1 & s2 & Hs & Hv & Had & Hv2 & _). rewrite Hc.
      destruct (adapted_stage _ _ _ _ _ Hs Had) as (w & Hw & K1 & K2 & K3 & K4). rewrite Hv in *.
      split; [|rewrite Ht; reflexivity].
      unfold clamp_final in Hv2. cbn [nltb nadd nsub NumQ] in Hv2. destruct (Qltb F (sv_t c1 + value s2)) eqn:Ef.
      * apply Qltb_true in Ef. cbn [assign value] in Hv2. split.
        -- exists (F - sv_t c1). split; [now apply ByFinal|now rewrite Hv2].
        -- rewrite Hv2. intros x [w' Hw'|b Kr Kb|m Km Kc|K].
           ++ rewrite (scaled_unique _ _ _ _ _ Hw' Hw). lra.
           ++ specialize (K3 Kr b Kb). lra.
           ++ specialize (K4 m Km Kc). lra.
           ++ lra.
      * apply Qltb_false in Ef. rewrite Hv2. split.
        -- destruct K1 as [K1|[(Kr & b & Kb & K1)|(m & Km & Kc & K1)]].
           ++ exists w. split; [now apply ByChange|now rewrite K1].
           ++ exists b. split; [now apply ByLimit|exact K1].
           ++ exists (m - sv_t c1). split; [now apply ByMilestone|now rewrite K1].
        -- intros x [w' Hw'|b Kr Kb|m Km Kc|K]; [|now apply K3|now apply K4|lra].
           rewrite (scaled_unique _ _ _ _ _ Hw' Hw). exact K2.
Qed.

(** *** Exceptions *)
Local Notation raising c e :=
  (raises ratio t_stop stop_max mx dtmin (sv_t c) (sv_dt c) (at_nb (sv_out c)) (at_conv (sv_out c)) e).

Lemma cap_err r a v t e : ratio = Some r -> adaptive_stepsize S = Some a ->
  cap (max_stepsize a) t v = Err e <->
  (t_stop = None /\ nonzero stop_max /\ e = TypeError "'>=' not supported between instances of 'float' and 'NoneType'"%string \/
   ~ nonzero t_stop /\ ~ nonzero stop_max /\ exists f, mx = MaxFun f /\ f t = Err e).
Proof.
  intros Hr Ha. cbn in Ha. rewrite Hr in Ha. injection Ha as <-. cbn [max_stepsize]. unfold cap.
  assert (HL : (truthy t_stop || truthy stop_max)%bool = true <-> nonzero t_stop \/ nonzero stop_max)
    by (rewrite orb_true_iff, !truthy_nonzero; reflexivity).
  destruct (truthy t_stop || truthy stop_max)%bool eqn:E.
  - assert (K : nonzero t_stop \/ nonzero stop_max) by (now apply HL). unfold stop_lambda.
    destruct t_stop as [ts|]; cbn [bind].
    + split; [intros H; destruct (nleb ts t), stop_max; discriminate H|].
      intros [(H & _)|(N1 & N2 & _)]; [discriminate H|exfalso; tauto].
    + split; [intros [= <-]; left; split; [reflexivity|]; split; [|reflexivity]|intros [(_ & _ & ->)|(N1 & N2 & _)]; [reflexivity|exfalso; tauto]].
      destruct K as [(x & K & _)|K]; [discriminate K|exact K].
  - assert (N : ~ nonzero t_stop /\ ~ nonzero stop_max) by (split; intros K; assert (K' : false = true) by (apply HL; auto); discriminate K').
    destruct N as [N1 N2]. split.
    + destruct mx as [|x|f]; cbn [bind]; [discriminate..|]. destruct (f t) as [o|e'] eqn:Ef; cbn [bind]; [destruct o; discriminate|].
      intros [= <-]. right. split; [exact N1|]. split; [exact N2|]. now exists f.
    + intros [(_ & K & _)|(_ & _ & f & -> & Hf)]; [contradiction|]. now rewrite Hf.
Qed.

Lemma neqb_zero (x : Q) : neqb x n0 = true <-> x == 0.
Proof. apply Qeq_bool_iff. Qed.

(** When adapt raises. *)
Lemma adapt_raises (s : stepsize Q) t nb c e : same S s ->
  (if calls_adapt s then adapt s t nb c else Ok s) = Err e <-> raises ratio t_stop stop_max mx dtmin t (value s) nb c e.
Proof.
  intros [Hs1 Hs2]. unfold calls_adapt, adapt. rewrite Hs1.
  destruct (adaptive_stepsize S) as [a|] eqn:Ea.
  2: { assert (Er : ratio = None) by (cbn in Ea; destruct ratio; [discriminate Ea|reflexivity]). split.
       - destruct (milestones s); cbn [bind]; discriminate.
       - intros [r K|r dm K|r K|r e' K]; rewrite Er in K; discriminate K. }
  assert (Er : exists r, ratio = Some r) by (cbn in Ea; destruct ratio as [r|]; [now exists r|discriminate Ea]).
  destruct Er as [r Er].
  assert (Hra : change_ratio a = r /\ dt_min a = dtmin). { cbn in Ea. rewrite Er in Ea. now injection Ea as <-. }
  destruct Hra as [Hra Hda].
  assert (Hc : forall e v, cap (max_stepsize a) t v = Err e <-> _) by (intros e' v; exact (cap_err r a v t e' Er Ea)).
  assert (HB : (let! v := adapt_value a t nb c (value s) in Ok (assign s (clamp_milestone s t v))) = Err e <->
               adapt_value a t nb c (value s) = Err e).
  { destruct (adapt_value a t nb c (value s)); cbn [bind]; split; intros H; try discriminate H; injection H as <-; reflexivity. }
  rewrite HB. clear HB. unfold adapt_value, adapt_diverged. rewrite Hra, Hda.
  assert (Hs : forall v1, (c = false -> exists dm, dtmin = Some dm /\ ~ r == 0 /\ dm <= value s / r) ->
     ((let! v2 := if (nb <? 5)%Z then Ok (nmul v1 r) else py_div v1 r in cap (max_stepsize a) t v2) = Err e <->
      raises ratio t_stop stop_max mx dtmin t (value s) nb c e)).
  { intros v1 Hd. split.
    - destruct (nb <? 5)%Z eqn:En; cbn [bind].
      + apply Z.ltb_lt in En. intros H. apply Hc in H. eapply InLimit; eauto.
      + apply Z.ltb_ge in En. unfold py_div. destruct (neqb r n0) eqn:Ez; cbn [bind].
        * intros [= <-]. apply neqb_zero in Ez. eapply ByZero; eauto. destruct c; [right; auto|].
          destruct (Hd eq_refl) as (dm & _ & K & _). contradiction.
        * intros H. apply Hc in H. eapply InLimit; eauto. left. intros K. apply neqb_zero in K. congruence.
    - intros [r' K1 K2 K3|r' dm K1 K2 K3 K4 K5|r' K1 K2 K3|r' e' K1 K2 K3 K4].
      + destruct (Hd K2) as (dm & K & _). congruence.
      + destruct (Hd K2) as (dm' & K & _ & K'). rewrite K1 in Er. injection Er as <-. rewrite K3 in K. injection K as <-. lra.
      + rewrite K1 in Er. injection Er as <-. destruct K3 as [[K3 _]|[_ K3]].
        * destruct (Hd K3) as (dm & _ & K & _). contradiction.
        * apply Z.ltb_ge in K3. rewrite K3. apply neqb_zero in K2. unfold py_div. now rewrite K2.
      + rewrite K1 in Er. injection Er as <-. destruct (nb <? 5)%Z eqn:En; cbn [bind]; [now apply Hc|].
        apply Z.ltb_ge in En. destruct K2 as [K2|K2]; [|lia]. unfold py_div.
        destruct (neqb r' n0) eqn:Ez; [apply neqb_zero in Ez; contradiction|]. cbn [bind]. now apply Hc. }
  destruct c; cbn [bind].
  - rewrite <- (Hs (value s)) by discriminate. reflexivity.
  - destruct dtmin as [dm|] eqn:Ed; cbn [bind].
    + unfold py_div at 1. destruct (neqb r n0) eqn:Ez; cbn [bind].
      * apply neqb_zero in Ez. split; [intros [= <-]; eapply ByZero; eauto; left; split; [reflexivity|discriminate]|].
        intros [r' K1 K2 K3|r' dm' K1 K2 K3 K4 K5|r' K1 K2 K3|r' e' K1 K2 K3 K4]; rewrite K1 in Er; injection Er as <-;
          [discriminate K3|contradiction|reflexivity|]. destruct (K3 eq_refl) as (? & _ & K & _). contradiction.
      * assert (Hz : ~ r == 0) by (intros K; apply neqb_zero in K; congruence).
        change (ndiv (value s) r) with (value s / r). cbn [nltb NumQ]. destruct (Qltb (value s / r) dm) eqn:El; cbn [bind].
        -- apply Qltb_true in El. split; [intros [= <-]; eapply BelowMinimum; eauto|].
           intros [r' K1 K2 K3|r' dm' K1 K2 K3 K4 K5|r' K1 K2 K3|r' e' K1 K2 K3 K4]; rewrite K1 in Er; injection Er as <-;
             [discriminate K3|reflexivity|contradiction|]. destruct (K3 eq_refl) as (dm' & [= <-] & _ & K). lra.
        -- apply Qltb_false in El. rewrite <- (Hs (value s / r)); [reflexivity|]. intros _. exists dm. auto.
    + split; [intros [= <-]; eapply NoMinimum; eauto|].
      intros [r' K1 K2 K3|r' dm' K1 K2 K3 K4 K5|r' K1 K2 K3|r' e' K1 K2 K3 K4]; [reflexivity|discriminate K3| |].
      * destruct K3 as [[_ K3]|[K3 _]]; [now elim K3|discriminate K3].
      * destruct (K3 eq_refl) as (? & K & _). discriminate K.
Qed.

Lemma loop_raised t (T Tn : X) (dens : D) (g p : U) s atts u s' evs stt : same S s ->
  update_loop t t T Tn dens g p s atts = (u, s', evs, stt) ->
  (forall e, stt = Raised e -> exists pre c, solves evs = pre ++ [c] /\ raising c e) /\
  (forall pre c tl e, solves evs = pre ++ c :: tl -> raising c e -> tl = [] /\ stt = Raised e).
Proof.
  revert s u s' evs stt. induction atts as [|a rest IH]; cbn [update_loop]; intros s u s' evs stt Hs H.
  - injection H as <- <- <- <-. split; [discriminate|]. intros pre c tl e K. destruct pre; discriminate K.
  - set (call := mkSolve g p t (value s) T Tn dens a) in *.
    pose proof (adapt_raises s t (at_nb a) (at_conv a)) as Ha.
    destruct (if calls_adapt s then adapt s t (at_nb a) (at_conv a) else Ok s) as [s1|e1] eqn:Ead.
    + assert (Hn : forall e, ~ raising call e) by (intros e K; apply (Ha e Hs) in K; discriminate K).
      assert (Hs1 : same S s1).
      { destruct Hs as [A1 A2]. destruct (calls_adapt s); [|injection Ead as <-; split; assumption].
        apply adapt_inv in Ead as (v & _ & ->). split; assumption. }
      destruct (at_conv a) eqn:Ec.
      * injection H as <- <- <- <-. split; [discriminate|]. intros pre c tl e K Hr. cbn in K.
        destruct pre as [|x [|? ?]]; [|discriminate K..]. injection K as <- _. now apply Hn in Hr.
      * destruct (update_loop t t T Tn dens g p s1 rest) as [[[u2 s2] evs2] stt2] eqn:E2. injection H as <- <- <- <-.
        destruct (IH s1 _ _ _ _ Hs1 E2) as [I1 I2]. split.
        -- intros e He. destruct (I1 e He) as (pre & c & Hc & Hr). exists (call :: pre), c. cbn. fold call. now rewrite Hc.
        -- intros pre c tl e K Hr. cbn in K. fold call in K. destruct pre as [|x pre].
           ++ injection K as <- _. now apply Hn in Hr.
           ++ injection K as _ K. exact (I2 pre c tl e K Hr).
    + injection H as <- <- <- <-. assert (Hr1 : raising call e1) by (apply (Ha e1 Hs); reflexivity). split.
      * intros e [= <-]. exists [], call. split; [reflexivity|exact Hr1].
      * intros pre c tl e K Hr. cbn in K. destruct pre as [|x [|? ?]]; [|discriminate K..]. injection K as <- <-.
        split; [reflexivity|]. apply (Ha e Hs) in Hr. congruence.
Qed.

Lemma steps_quiet F st evs st' : same S (st_dt st) -> steps temp dens_solve post F st evs st' ->
  same S (st_dt st') /\ forall c e, In c (solves evs) -> ~ raising c e.
Proof.
  intros Hs H. induction H as [st|st atts st1 evs1 evs2 st2 _ Hi _ IH].
  - split; [exact Hs|]. intros c e [].
  - apply iterate_done in Hi as (T & Tn & u & s & ev0 & x & d & _ & Hl & _ & _ & -> & ->).
    destruct (loop_raised _ _ _ _ _ _ _ _ _ _ _ _ Hs Hl) as [_ L].
    assert (Hs' : same S (clamp_final F (nadd (st_t st) (value (st_dt st))) s)).
    { apply loop_settings in Hl as (A1 & A2 & _). destruct Hs as [B1 B2]. unfold clamp_final.
      destruct (nltb _ _); split; cbn [assign adaptive_stepsize milestones]; congruence. }
    destruct (IH Hs') as [I1 I2]. split; [exact I1|]. intros c e Hin.
    rewrite solves_app in Hin. apply in_app_iff in Hin as [Hin|Hin]; [|now apply I2].
    rewrite solves_app in Hin. cbn in Hin. rewrite app_nil_r in Hin. intros Hr.
    apply in_split in Hin as (pre & tl & Hin). destruct (L pre c tl e Hin Hr) as [_ K]. discriminate K.
Qed.

Lemma iterate_raised F st atts st' evs stt : same S (st_dt st) -> iterate temp dens_solve post F st atts = (st', evs, stt) -> stt <> Done ->
  (forall pre c tl e, solves evs = pre ++ c :: tl -> raising c e -> tl = [] /\ stt = Raised e) /\
  (forall e, stt = Raised e -> exists pre c, solves evs = pre ++ [c] /\
     (raising c e \/ at_conv (sv_out c) = true /\ exists x, post (sv_t c) (at_u (sv_out c)) (sv_T c) x = Err e)).
Proof.
  intros Hs Hi Hd. unfold iterate in Hi. cbn zeta in Hi.
  destruct (temp_update temp _ _ (st_T st) (st_Tn st)) as [T Tn].
  unfold update in Hi. cbn [st_t st_dt st_T st_Tn st_u st_un st_dens st_densn st_expr st_exp] in Hi.
  destruct (update_loop _ _ T Tn (st_dens st) (st_u st) (st_un st) (st_dt st) atts) as [[[u s] ev0] stt0] eqn:El.
  destruct (loop_raised _ _ _ _ _ _ _ _ _ _ _ _ Hs El) as [L1 L2].
  destruct stt0 as [|e0'|].
  - cbn [st_u st_T st_exp] in Hi. destruct (post _ u T (st_exp st)) as [x|x] eqn:Ep; injection Hi as <- <- <-; [now elim Hd|].
    rewrite solves_app. cbn [solves]. rewrite app_nil_r. split.
    + intros pre c tl e K Hr. destruct (L2 pre c tl e K Hr) as [_ K']. discriminate K'.
    + intros e [= <-]. destruct (loop_done _ _ _ _ _ _ _ _ _ _ _ _ El) as (pre & c & Hc & Ha & Hu & _).
      exists pre, c. split; [exact Hc|]. right. split; [exact Ha|].
      destruct (loop_events _ _ _ _ _ _ _ _ _ _ _ _ _ El) as (_ & _ & Hev).
      destruct (Hev c) as (_ & _ & Ht & HT & _); [rewrite Hc; apply in_app_iff; right; left; reflexivity|].
      exists (st_exp st). now rewrite Ht, HT, Hu.
  - injection Hi as <- <- <-. split; [exact L2|]. intros e He. destruct (L1 e He) as (pre & c & Hc & Hr). exists pre, c. auto.
  - injection Hi as <- <- <-. split; [exact L2|]. discriminate.
Qed.

(** The run ends with an exception of the stepsize exactly when its last solve has such an outcome; an
    exception of a run without one comes from the post-processing. *)
Theorem C111_exceptions F sched st' evs stt : run F S sched = (st', evs, stt) ->
  (forall pre c tl e, solves evs = pre ++ c :: tl -> raising c e -> tl = [] /\ stt = Raised e) /\
  (forall e, stt = Raised e -> exists pre c, solves evs = pre ++ [c] /\
     (raising c e \/ at_conv (sv_out c) = true /\ exists x, post (sv_t c) (at_u (sv_out c)) (sv_T c) x = Err e)).
Proof.
  intros H. apply run_steps in H as (st0 & ev0 & ev1 & Hst & -> & Hcase).
  assert (H0 : same S (st_dt (start S T0 Tn0 u0 un0 d0 dn0 e0))) by (split; reflexivity).
  destruct (steps_quiet F _ _ _ H0 Hst) as [Hs Hq].
  destruct Hcase as [(-> & _ & _ & ->)|[(-> & _ & _ & ->)|(Hn & _ & atts & Hi)]].
  - rewrite app_nil_r. split; [|discriminate]. intros pre c tl e K Hr. exfalso. apply (Hq c e); [|exact Hr].
    rewrite K. apply in_app_iff. right. left. reflexivity.
  - rewrite app_nil_r. split; [|discriminate]. intros pre c tl e K Hr. exfalso. apply (Hq c e); [|exact Hr].
    rewrite K. apply in_app_iff. right. left. reflexivity.
  - destruct (iterate_raised F _ _ _ _ _ Hs Hi Hn) as [I1 I2]. rewrite solves_app. split.
    + intros pre c tl e K Hr. apply app_eq_app in K as (l & [[K1 K2]|[K1 K2]]).
      * destruct l as [|x l].
        -- cbn in K2. exact (I1 [] c tl e (eq_sym K2) Hr).
        -- exfalso. cbn in K2. injection K2 as <- K2. apply (Hq c e); [|exact Hr].
           rewrite K1. apply in_app_iff. right. left. reflexivity.
      * exact (I1 l c tl e K2 Hr).
    + intros e He. destruct (I2 e He) as (pre & c & Hc & Hr). exists (solves ev0 ++ pre), c.
      rewrite Hc, app_assoc. auto.
Qed.

(** Finding: stepsize_stop_max without t_stop is accepted, and no run with it gets past its first time. *)
Theorem C111_stop_without_t F r sched st' evs stt : run F S sched = (st', evs, stt) ->
  ratio = Some r -> ~ r == 0 -> t_stop = None -> nonzero stop_max ->
  visited evs = [] /\ 
  forall c tl, solves evs = c :: tl -> (at_conv (sv_out c) = true \/ exists dm, dtmin = Some dm /\ dm <= sv_dt c / r) ->
    tl = [] /\ stt = Raised (TypeError "'>=' not supported between instances of 'float' and 'NoneType'"%string).
Proof.
  intros H Hr Hz Ht Hm.
  assert (HR : forall t v nb c, exists e, raises ratio t_stop stop_max mx dtmin t v nb c e).
  { intros t v nb c. destruct c; [eexists; eapply InLimit; eauto; discriminate|].
    destruct dtmin as [dm|] eqn:Ed; [|eexists; eapply NoMinimum; eauto].
    destruct (Qlt_le_dec (v / r) dm) as [K|K]; [eexists; eapply BelowMinimum; eauto|].
    eexists. eapply InLimit; eauto. }
  split.
  - apply run_steps in H as (st0 & ev0 & ev1 & Hst & -> & Hcase).
    assert (H0 : same S (st_dt (start S T0 Tn0 u0 un0 d0 dn0 e0))) by (split; reflexivity).
  destruct (steps_quiet F _ _ _ H0 Hst) as [Hs Hq].
    assert (He : ev0 = []).
    { inversion Hst as [|st atts st1 evs1 evs2 st2 _ Hi _ E1 E2 E3]; [reflexivity|]. subst. exfalso.
      apply iterate_done in Hi as (T & Tn & u & s & e1 & x & d & _ & Hl & _ & _ & _ & ->).
      apply loop_done in Hl as (pre & c & Hc & _).
      destruct (HR (sv_t c) (sv_dt c) (at_nb (sv_out c)) (at_conv (sv_out c))) as [e He].
      apply (Hq c e); [|exact He]. rewrite !solves_app, Hc. apply in_app_iff. left. apply in_app_iff. left.
      apply in_app_iff. right. left. reflexivity. }
    subst ev0. cbn. destruct Hcase as [(_ & _ & _ & ->)|[(_ & _ & _ & ->)|(Hn & _ & atts & Hi)]]; [reflexivity..|].
    apply iterate_not_done in Hi as (? & ? & ? & ? & ? & ? & ? & _ & _ & _ & -> & _); auto.
  - intros c tl Hc Hok. destruct (C111_exceptions F sched st' evs stt H) as [K _].
    apply (K [] c tl _ Hc). eapply InLimit; eauto. intros Hf. destruct Hok as [Hok|(dm & -> & Hd)]; [congruence|].
    exists dm. auto.
Qed.
End Sequence.

(** Example.  A factor 2, bound 3/4 from time 2 on (t_stop, stepsize_stop_max), smallest stepsize 1/10, milestone 2,
    final time 3: the second solve fails and is repeated with half the stepsize; the next ones are cut at the
    milestone, by the bound and at the final time. *)
Definition eg : stepsize Q := mk_stepsize (1#2) (Some 2) (Some 2) (Some (3#4)) MaxNone (Some (1#10)) (Some [2]).
Definition eg_run := run0 3 eg [[ok 3]; [ko 6; ok 3]; [ok 3]; [ok 3]; [ok 3]].
Example C111_sequence_example :
  sts eg_run = Done /\
  map (fun c => (Qred (sv_t c), Qred (sv_dt c))) (slv eg_run) =
    [(1#2, 1#2); (3#2, 1); (3#2, 1#4); (2, 1#2); (11#4, 3#4); (3, 1#4)].
Proof. vm_compute. split; reflexivity. Qed.

(** The same without t_stop, accepted, and stopped after its first solve. *)
Example C111_stop_example :
  let s := mk_stepsize (1#2) (Some 2) None (Some (3#4)) MaxNone (Some (1#10)) None in
  sts (run0 3 s [[ok 3]; [ok 3]]) = Raised (TypeError "'>=' not supported between instances of 'float' and 'NoneType'"%string) /\
  length (slv (run0 3 s [[ok 3]; [ok 3]])) = 1%nat.
Proof. vm_compute. split; reflexivity. Qed.
(** Every other exception. *)
Example C111_exceptions_example :
  sts (run0 3 (mk_stepsize (1#2) (Some 2) None None MaxNone None None) [[ko 3]]) =
    Raised (ValueError "Solver diverged but dt_min is not set."%string) /\
  sts (run0 3 (mk_stepsize (1#2) (Some 2) None None MaxNone (Some (1#2)) None) [[ko 3]]) =
    Raised (ValueError "stepsize reached minimal value"%string) /\
  sts (run0 3 (mk_stepsize (1#2) (Some 0) None None MaxNone (Some (1#2)) None) [[ok 7]]) = Raised ZeroDivisionError /\
  sts (run0 3 (mk_stepsize (1#2) (Some 2) None None (MaxFun (fun _ => Err (ValueError "user"%string))) None None) [[ok 7]]) =
    Raised (ValueError "user"%string).
Proof. vm_compute. repeat split; reflexivity. Qed.

Print Assumptions C111_sequence.
Print Assumptions C111_exceptions.
Print Assumptions C111_stop_without_t.
