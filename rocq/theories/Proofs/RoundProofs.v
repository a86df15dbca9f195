(** Runs in arithmetic with rounding. *)
From Coq Require Import ZArith Reals Lra Lia List Bool.
From Verif Require Import Base.Exc Base.Num Model.Stepsize Model.TimeLoop Spec.TimeSpec Spec.RoundSpec Proofs.StepsizeProofs Proofs.TimeLoopProofs.
Import ListNotations.
Local Open Scope R_scope.

Lemma Rabs_inv x a : Rabs x <= a -> - a <= x <= a.
Proof. unfold Rabs. destruct (Rcase_abs x); lra. Qed.

Section Round.
Context {A : Type} {N : Num A} {U X D E : Type}.
Variables (v : A -> R) (ok : A -> Prop) (eps small big : R).
Hypothesis HR : rounded N v ok eps small big.
Variable temp : temperature (A:=A) X.
Variable dens_solve : D -> D -> A -> X -> D.
Variable post : A -> U -> X -> E -> res E.
Variable F : A.
Hypothesis F_ok : ok F.
Hypothesis F_small : small <= v F.
Hypothesis F_big : 4 * v F <= big.

Local Notation state := (state (A:=A) U X D E).
Local Notation event := (event (A:=A) U X D).
Local Notation iterate := (iterate temp dens_solve post F).
Local Notation run := (run_transient temp dens_solve post F).
Local Notation running := (running (U:=U) (X:=X) (D:=D) (E:=E) F).
Local Notation steps := (steps temp dens_solve post F).

Lemma F_pos : 0 < v F.
Proof. pose proof (r_small _ _ _ _ _ _ HR). lra. Qed.
Lemma eps_le : 0 <= eps <= / 1000000000000000.
Proof. exact (r_eps _ _ _ _ _ _ HR). Qed.

(** numpy.isclose with final_time as reference. *)
Lemma close_true t : ok t -> Rabs (v t - v F) <= big -> isclose t F = true -> Rabs (v t - v F) <= v F * (100001 / 10000000000).
Proof.
  intros Ht Hb H. pose proof F_pos as HF. pose proof eps_le as He. unfold isclose in H.
  destruct (r_sub _ _ _ _ _ _ HR t F Ht F_ok Hb) as [Hs Hse]. destruct (r_abs _ _ _ _ _ _ HR _ Hs) as [Ha Hae].
  destruct (r_abs _ _ _ _ _ _ HR F F_ok) as [HaF HaFe]. rewrite Rabs_right in HaFe by lra.
  destruct (r_tol _ _ _ _ _ _ HR (nabs F) HaF) as [Hm Hme]; [rewrite HaFe, Rabs_right; lra|].
  rewrite HaFe, (Rabs_right (v F)) in Hme by lra. apply (r_leb _ _ _ _ _ _ HR _ _ Ha Hm) in H. rewrite Hae in H.
  apply Rabs_inv in Hme. set (x := v t - v F) in *. set (y := v (nsub t F)) in *.
  assert (Hx : Rabs x <= Rabs y + eps * Rabs x).
  { replace x with (y - (y - x)) at 1 by ring. eapply Rle_trans; [apply Rabs_triang|]. rewrite Rabs_Ropp. lra. }
  pose proof (Rabs_pos x). nra.
Qed.
Lemma close_intro t : ok t -> Rabs (v t - v F) <= v F * (9 / 1000000) -> isclose t F = true.
Proof.
  intros Ht H. pose proof F_pos as HF. pose proof eps_le as He. unfold isclose.
  destruct (r_sub _ _ _ _ _ _ HR t F Ht F_ok) as [Hs Hse]; [lra|]. destruct (r_abs _ _ _ _ _ _ HR _ Hs) as [Ha Hae].
  destruct (r_abs _ _ _ _ _ _ HR F F_ok) as [HaF HaFe]. rewrite Rabs_right in HaFe by lra.
  destruct (r_tol _ _ _ _ _ _ HR (nabs F) HaF) as [Hm Hme]; [rewrite HaFe, Rabs_right; lra|].
  rewrite HaFe, (Rabs_right (v F)) in Hme by lra. apply (r_leb _ _ _ _ _ _ HR _ _ Ha Hm). rewrite Hae.
  apply Rabs_inv in Hme. set (x := v t - v F) in *. set (y := v (nsub t F)) in *.
  assert (Hx : Rabs y <= Rabs x + eps * Rabs x).
  { replace y with (x + (y - x)) at 1 by ring. eapply Rle_trans; [apply Rabs_triang|]. lra. }
  pose proof (Rabs_pos x). nra.
Qed.
Lemma running_lt st : ok (st_t st) -> running st = true -> v (st_t st) < v F.
Proof. intros Ht H. unfold TimeLoop.running in H. apply andb_true_iff in H as [H _]. now apply (r_ltb _ _ _ _ _ _ HR _ _ Ht F_ok). Qed.
Lemma running_intro st : ok (st_t st) -> 0 <= v (st_t st) -> v (st_t st) < v F - v F * (100001 / 10000000000) -> running st = true.
Proof.
  intros Ht H0 H. pose proof F_pos as HF. unfold TimeLoop.running. apply andb_true_iff. split.
  - apply (r_ltb _ _ _ _ _ _ HR _ _ Ht F_ok). lra.
  - destruct (isclose (st_t st) F) eqn:E0; [|reflexivity]. exfalso.
    assert (Hb : Rabs (v (st_t st) - v F) <= big) by (rewrite <- Rabs_Ropp, Rabs_right; lra).
    apply (close_true _ Ht Hb) in E0. rewrite <- Rabs_Ropp, Rabs_right in E0; lra.
Qed.
Lemma not_running st : ok (st_t st) -> Rabs (v (st_t st) - v F) <= v F * (9 / 1000000) -> running st = false.
Proof. intros Ht H. unfold TimeLoop.running. rewrite (close_intro _ Ht H). apply andb_false_r. Qed.

(** The last step: t + (F - t). *)
Lemma last_step t : ok t -> 0 <= v t < v F -> ok (nsub F t) /\ ok (nadd t (nsub F t)) /\ Rabs (v (nadd t (nsub F t)) - v F) <= 3 * eps * v F.
Proof.
  intros Ht Hv. pose proof F_pos as HF. pose proof eps_le as He.
  destruct (r_sub _ _ _ _ _ _ HR F t F_ok Ht) as [Hs Hse]; [rewrite Rabs_right; lra|]. rewrite (Rabs_right (v F - v t)) in Hse by lra.
  apply Rabs_inv in Hse. set (d := v (nsub F t)) in *.
  assert (Hd : v t + d <= v F + eps * v F) by nra. assert (Hd' : v F - eps * v F <= v t + d) by nra.
  assert (Hp : 0 <= v t + d) by nra.
  assert (Hle : v F + eps * v F <= 2 * v F) by nra.
  destruct (r_add _ _ _ _ _ _ HR t (nsub F t) Ht Hs) as [Ha Hae]; [fold d; rewrite Rabs_right; lra|].
  fold d in Hae. rewrite (Rabs_right (v t + d)) in Hae by lra. apply Rabs_inv in Hae. repeat split; auto. apply Rabs_le.
  assert (eps * (v t + d) <= eps * (2 * v F)) by (apply Rmult_le_compat_l; lra). split; lra.
Qed.

(** Stepsizes of solver calls that do not overflow. *)
Definition plain (dt : A) : Prop := ok dt /\ 0 <= v dt <= big / 4.
Definition tracked (st : state) : Prop :=
  ok (st_t st) /\ 0 <= v (st_t st) <= v F * (1 + 3 * eps) /\
  (value (st_dt st) = nsub F (st_t st) \/ nltb F (nadd (st_t st) (value (st_dt st))) = false \/ (v (st_t st) = 0 /\ v (value (st_dt st)) <= v F)).

Lemma next_time st : tracked st -> plain (value (st_dt st)) -> running st = true ->
  let t' := nadd (st_t st) (value (st_dt st)) in ok t' /\ 0 <= v t' <= v F * (1 + 3 * eps).
Proof.
  intros (Ht & Hv & Hd) [Hok Hdt] Hr. cbv zeta. pose proof F_pos as HF. pose proof eps_le as He. pose proof (running_lt st Ht Hr) as Hlt.
  assert (Hsum : Rabs (v (st_t st) + v (value (st_dt st))) <= big) by (rewrite Rabs_right; lra).
  destruct (r_add _ _ _ _ _ _ HR _ _ Ht Hok Hsum) as [Ha Hae]. rewrite (Rabs_right (_ + _)) in Hae by lra. apply Rabs_inv in Hae.
  split; [exact Ha|]. split; [nra|].
  destruct Hd as [Hd|[Hd|[Hd1 Hd2]]].
  - rewrite Hd. destruct (last_step (st_t st) Ht) as (_ & _ & H); [lra|]. apply Rabs_inv in H. lra.
  - destruct (Rle_or_lt (v (nadd (st_t st) (value (st_dt st)))) (v F)) as [H|H]; [nra|].
    apply (r_ltb _ _ _ _ _ _ HR _ _ F_ok Ha) in H. congruence.
  - nra.
Qed.
Lemma iterate_tracked st atts st' evs : iterate st atts = (st', evs, Done) -> tracked st -> running st = true ->
  (forall c, In c (solves evs) -> plain (sv_dt c)) ->
  tracked st' /\ visited evs = [st_t st'].
Proof.
  intros H Htr Hr Hpl. destruct (iterate_visited _ _ _ _ _ _ _ _ H) as [Hvis Ht'].
  apply iterate_done in H as (T & Tn & u & s & evs0 & e & dd & _ & Hl & _ & _ & -> & ->).
  assert (Hp : plain (value (st_dt st))).
  { pose proof (loop_first _ _ _ _ _ _ _ _ _ _ _ _ _ Hl) as Hf. destruct atts as [|a r]; [destruct Hf as [_ Hf]; discriminate|].
    destruct Hf as [evs' ->]. apply (Hpl (mkSolve (st_u st) (st_un st) (nadd (st_t st) (value (st_dt st))) (value (st_dt st)) T Tn (st_dens st) a)).
    left. reflexivity. }
  split; [|exact Hvis]. destruct (next_time st Htr Hp Hr) as [Ha Hb]. split; [exact Ha|]. split; [exact Hb|]. cbn [st_t st_dt].
  unfold clamp_final. destruct (nltb F (nadd (nadd (st_t st) (value (st_dt st))) (value s))) eqn:Ec; [left; reflexivity|right; left; exact Ec].
Qed.
Lemma steps_tracked st evs st' : steps st evs st' -> tracked st -> (forall c, In c (solves evs) -> plain (sv_dt c)) ->
  tracked st' /\ (forall t, In t (visited evs) -> ok t /\ 0 <= v t <= v F * (1 + 3 * eps)) /\
  (forall pre t s suf, visited evs = pre ++ t :: s :: suf -> v t < v F) /\
  (visited evs = [] /\ st' = st \/ exists pre, visited evs = pre ++ [st_t st']).
Proof.
  intros H. induction H as [st|st atts st1 evs1 evs2 st2 Hr Hi Hs IH]; intros Htr Hpl.
  - split; [exact Htr|]. split; [intros t []|]. split; [intros [] ? ? ?; discriminate|]. left. auto.
  - destruct (iterate_tracked _ _ _ _ Hi Htr Hr) as [Htr1 Hv1]; [intros c Hc; apply Hpl; rewrite solves_app; apply in_or_app; auto|].
    destruct (IH Htr1) as (Htr2 & Hb & Hl & He); [intros c Hc; apply Hpl; rewrite solves_app; apply in_or_app; auto|].
    split; [exact Htr2|]. rewrite visited_app, Hv1. cbn [app]. split; [|split].
    + intros t [<-|Hin]; [|now apply Hb]. destruct Htr1 as (H1 & H2 & _). auto.
    + intros [|p pre] t s suf Heq; cbn [app] in Heq; injection Heq as <- Heq; [|now apply (Hl pre t s suf)].
      inversion Hs as [|? ? ? ? ? ? Hr1 Hi1 Hs1]; subst; [discriminate|]. now apply (running_lt st1 (proj1 Htr1)).
    + right. destruct He as [[-> ->]|[pre ->]]; [exists []; reflexivity|exists (st_t st1 :: pre); reflexivity].
Qed.

Variable s : stepsize A.
Hypothesis init_ok : ok (initial_value s).
Hypothesis init_pos : 0 <= v (initial_value s) <= v F.
Variables (T0 Tn0 : X) (u0 un0 : U) (d0 dn0 : D) (e0 : E).
Local Notation begin := (start s T0 Tn0 u0 un0 d0 dn0 e0).

Lemma begin_tracked : tracked begin.
Proof.
  pose proof F_pos. pose proof eps_le. destruct (r_zero _ _ _ _ _ _ HR) as [Hz Hv]. unfold tracked. cbn [st_t st_dt start initialise_value assign value].
  rewrite Hv. split; [exact Hz|]. split; [nra|]. right. right. split; [reflexivity|lra].
Qed.
Lemma run_tracked sched st' evs stt : run begin sched = (st', evs, stt) -> (forall c, In c (solves evs) -> plain (sv_dt c)) ->
  (forall t, In t (visited evs) -> ok t /\ 0 <= v t <= v F * (1 + 3 * eps)) /\
  (forall pre t t' suf, visited evs = pre ++ t :: t' :: suf -> v t < v F) /\
  (stt = Done -> exists pre t, visited evs = pre ++ [t] /\ v F * (1 - 100001 / 10000000000) <= v t).
Proof.
  intros H Hpl. apply run_steps in H as (st0 & evs0 & evs1 & Hs & -> & Hc).
  assert (Hpl0 : forall c, In c (solves evs0) -> plain (sv_dt c)) by (intros c Hin; apply Hpl; rewrite solves_app; apply in_or_app; auto).
  destruct (steps_tracked _ _ _ Hs begin_tracked Hpl0) as (Htr & Hb & Hl & He).
  assert (Hv1 : visited evs1 = []).
  { destruct Hc as [(_ & _ & _ & ->)|[(_ & _ & _ & ->)|(Hn & _ & atts & Hi)]]; [reflexivity|reflexivity|].
    now apply iterate_not_done in Hi as (? & ? & ? & ? & ? & ? & ? & _ & _ & _ & Hv & _). }
  rewrite visited_app, Hv1, app_nil_r. split; [exact Hb|]. split; [exact Hl|].
  intros ->. destruct Hc as [(_ & Hr & -> & _)|[(Hf & _)|(Hf & _)]]; [|discriminate|now elim Hf].
  pose proof F_pos as HF. pose proof eps_le as Hep.
  destruct He as [[_ ->]|[pre Hp]].
  - exfalso. rewrite running_intro in Hr; [discriminate| | |]; destruct (r_zero _ _ _ _ _ _ HR) as [Hz Hv]; cbn [st_t start]; [exact Hz|lra|rewrite Hv; lra].
  - exists pre, (st_t st'). split; [exact Hp|]. destruct Htr as (Ht & Hv & _).
    destruct (Rlt_or_le (v (st_t st')) (v F * (1 - 100001 / 10000000000))) as [Hlt|Hge]; [|exact Hge].
    rewrite running_intro in Hr; [discriminate|exact Ht|lra|lra].
Qed.

(** Fixed stepsize. *)
Hypothesis post_ok : forall t u T e, exists e', post t u T e = Ok e'.
Lemma loop_constant t et T Tn dens g p (s1 : stepsize A) atts :
  adaptive_stepsize s1 = None -> milestones s1 = None -> (exists a, In a atts /\ at_conv a = true) ->
  exists u evs, update_loop (U:=U) (X:=X) (D:=D) t et T Tn dens g p s1 atts = (u, s1, evs, Done).
Proof.
  intros Ha Hm [x [Hin Hx]]. induction atts as [|a r IH]; [destruct Hin|]. cbn [update_loop].
  assert (Hc : calls_adapt s1 = false) by (unfold calls_adapt; now rewrite Ha, Hm). rewrite Hc.
  destruct (at_conv a) eqn:Ec; [eauto|]. destruct Hin as [->|Hin]; [congruence|].
  destruct (IH Hin) as (u & evs & ->). eauto.
Qed.
Lemma iterate_constant st atts : adaptive_stepsize (st_dt st) = None -> milestones (st_dt st) = None -> (exists a, In a atts /\ at_conv a = true) ->
  exists st' evs, iterate st atts = (st', evs, Done) /\ st_t st' = nadd (st_t st) (value (st_dt st)) /\
    st_dt st' = clamp_final F (st_t st') (st_dt st) /\ visited evs = [st_t st'].
Proof.
  intros Ha Hm Hex. unfold TimeLoop.iterate. cbn zeta. destruct (temp_update temp _ _ (st_T st) (st_Tn st)) as [T Tn].
  unfold update. cbn [st_t st_dt st_T st_Tn st_u st_un st_dens st_densn st_expr st_exp].
  destruct (loop_constant (nadd (st_t st) (value (st_dt st))) (nadd (st_t st) (value (st_dt st))) T Tn (st_dens st)
              (st_u st) (st_un st) (st_dt st) atts Ha Hm Hex) as (u & evs & Hl).
  rewrite Hl. cbn [st_u st_T st_exp st_dt]. destruct (post_ok (nadd (st_t st) (value (st_dt st))) u T (st_exp st)) as [e' ->].
  eexists. eexists. split; [reflexivity|]. split; [reflexivity|]. split; [reflexivity|].
  pose proof (loop_events _ _ _ _ _ _ _ _ _ _ _ _ _ Hl) as (Hv & _). rewrite !visited_app, Hv. reflexivity.
Qed.

Variable K : nat.
Hypothesis K_pos : (1 <= K)%nat.
Hypothesis K_few : INR K <= 90000.
Hypothesis K_close : Rabs (INR K * v (initial_value s) - v F) <= v F / 10000000000.
Local Notation h := (v (initial_value s)).

Lemma K_bounds : 1 <= INR K <= 90000.
Proof. split; [|exact K_few]. apply (le_INR 1 K K_pos). Qed.
Lemma h_bounds : v F * (11 / 1000000) <= h <= 2 * v F.
Proof. pose proof K_bounds. pose proof F_pos. apply Rabs_inv in K_close. split; nra. Qed.

Definition drift (k : nat) : R := INR k * (2 * eps) * v F.
Lemma drift_bound k : (k <= K)%nat -> 0 <= drift k <= v F * (2 / 10000000000).
Proof.
  intros Hk. apply le_INR in Hk. pose proof K_bounds. pose proof (pos_INR k). pose proof F_pos. pose proof eps_le. unfold drift.
  assert (0 <= INR k * (2 * eps) <= 2 / 10000000000) by nra. nra.
Qed.
Lemma drift_S k : drift (S k) = drift k + 2 * eps * v F.
Proof. unfold drift. rewrite S_INR. ring. Qed.
Lemma below_K k : (k < K)%nat -> (INR k + 1) * h <= v F * (1 + / 10000000000).
Proof.
  intros Hk. pose proof h_bounds. pose proof F_pos. apply le_INR in Hk. rewrite S_INR in Hk. apply Rabs_inv in K_close. nra.
Qed.

Definition on_time (k : nat) (st : state) : Prop :=
  adaptive_stepsize (st_dt st) = None /\ milestones (st_dt st) = None /\ ok (st_t st) /\ 0 <= v (st_t st) /\ Rabs (v (st_t st) - INR k * h) <= drift k /\
  (value (st_dt st) = initial_value s \/ (S k = K /\ value (st_dt st) = nsub F (st_t st))).

Lemma on_time_lt k st : (k < K)%nat -> on_time k st -> v (st_t st) < v F - v F * (1001 / 100000000).
Proof.
  intros Hk (_ & _ & Ht & H0 & Hd & _). pose proof (below_K k Hk). pose proof h_bounds. pose proof F_pos. apply Rabs_inv in Hd.
  pose proof (drift_bound k (Nat.lt_le_incl _ _ Hk)). lra.
Qed.
Lemma add_init k t : (k < K)%nat -> ok t -> 0 <= v t -> Rabs (v t - INR k * h) <= drift k ->
  ok (nadd t (initial_value s)) /\ 0 <= v (nadd t (initial_value s)) /\
  Rabs (v (nadd t (initial_value s)) - INR (S k) * h) <= drift (S k).
Proof.
  intros Hk Ht H0 Hd. pose proof (below_K k Hk) as Hb. pose proof h_bounds as Hh. pose proof F_pos as HF. pose proof eps_le as He.
  pose proof (drift_bound k (Nat.lt_le_incl _ _ Hk)) as Hdk. apply Rabs_inv in Hd. rewrite S_INR, drift_S.
  assert (Hle : v t + h <= 2 * v F) by lra.
  destruct (r_add _ _ _ _ _ _ HR t (initial_value s) Ht init_ok) as [Ha Hae]; [rewrite Rabs_right; lra|].
  rewrite (Rabs_right (v t + h)) in Hae by lra. apply Rabs_inv in Hae.
  assert (Hee : 0 <= eps * (v t + h) <= eps * (2 * v F)) by (split; [apply Rmult_le_pos; lra|apply Rmult_le_compat_l; lra]).
  split; [exact Ha|]. split; [nra|]. apply Rabs_le. split; lra.
Qed.
Lemma fixed_steps : forall sched k st, (k < K)%nat -> (K <= k + length sched)%nat -> solvable sched -> on_time k st ->
  exists st' evs, run st sched = (st', evs, Done) /\ length (visited evs) = (K - k)%nat /\
    forall i t, nth_error (visited evs) i = Some t -> ok t /\ Rabs (v t - INR (S (k + i)) * h) <= v F / 1000000000.
Proof.
  induction sched as [|atts r IH]; intros k st Hk Hlen Hsol Hon; [cbn in Hlen; lia|].
  pose proof (on_time_lt k st Hk Hon) as Hlt. destruct Hon as (Ha & Hm & Ht & H0 & Hd & Hv).
  pose proof F_pos as HF. pose proof eps_le as He. pose proof h_bounds as Hh. pose proof (Rabs_inv _ _ K_close) as HK.
  cbn [run_transient]. rewrite running_intro; [|exact Ht|exact H0|lra].
  destruct (iterate_constant st atts Ha Hm (Hsol _ (or_introl eq_refl))) as (st1 & e1 & -> & Ht1 & Hdt1 & Hvis).
  (* the new time *)
  assert (Hnew : ok (st_t st1) /\ 0 <= v (st_t st1) /\ Rabs (v (st_t st1) - INR (S k) * h) <= v F / 1000000000 /\
                 ((S k < K)%nat -> Rabs (v (st_t st1) - INR (S k) * h) <= drift (S k) /\ value (st_dt st) = initial_value s)).
  { rewrite Ht1. destruct Hv as [->|[HS ->]].
    - destruct (add_init k (st_t st) Hk Ht H0 Hd) as (A1 & A2 & A3). pose proof (drift_bound (S k) Hk).
      split; [exact A1|]. split; [exact A2|]. split; [lra|]. auto.
    - destruct (last_step (st_t st) Ht) as (_ & A2 & A3); [lra|]. split; [exact A2|]. apply Rabs_inv in A3.
      assert (3 * eps * v F <= v F * (1 / 10000000000)) by nra. split; [lra|]. split; [|lia].
      rewrite HS. apply Rabs_le. split; lra. }
  destruct Hnew as (N1 & N2 & N3 & N4).
  destruct (Nat.eq_dec (S k) K) as [HS|HS].
  - (* last step *)
    assert (Hnr : running st1 = false).
    { apply not_running; [exact N1|]. rewrite HS in N3. apply Rabs_inv in N3. apply Rabs_le. split; lra. }
    assert (Hrun : run st1 r = (st1, [], Done)) by (destruct r; cbn [run_transient]; now rewrite Hnr).
    rewrite Hrun. exists st1, (e1 ++ []). split; [reflexivity|]. rewrite app_nil_r, Hvis. split; [cbn; lia|].
    intros [|i] t Hi; cbn in Hi; [|destruct i; discriminate]. injection Hi as <-. rewrite Nat.add_0_r. auto.
  - assert (HSk : (S k < K)%nat) by lia. destruct (N4 HSk) as [N5 N6].
    destruct (IH (S k) st1 HSk) as (st' & evs & -> & Hl & Hn).
    + cbn in Hlen. lia.
    + intros x Hx. apply Hsol. now right.
    + assert (Hval : value (st_dt st1) = initial_value s \/ (S (S k) = K /\ value (st_dt st1) = nsub F (st_t st1))).
      { rewrite Hdt1. unfold clamp_final. rewrite N6. destruct (nltb F (nadd (st_t st1) (initial_value s))) eqn:Ec; [|left; exact N6].
        destruct (Nat.eq_dec (S (S k)) K) as [HSS|HSS]; [right; auto|]. exfalso.
        destruct (add_init (S k) (st_t st1) HSk N1 N2 N5) as (A1 & A2 & A3). apply (r_ltb _ _ _ _ _ _ HR _ _ F_ok A1) in Ec.
        assert (HS3 : (S (S k) < K)%nat) by lia. pose proof (below_K (S (S k)) HS3). pose proof (drift_bound (S (S k)) HSk). apply Rabs_inv in A3. lra. }
      unfold on_time. rewrite Hdt1 at 1 2. unfold clamp_final at 1 2.
      destruct (nltb F (nadd (st_t st1) (value (st_dt st)))); cbn [assign adaptive_stepsize milestones]; auto 10.
    + exists st', (e1 ++ evs). split; [reflexivity|]. rewrite visited_app, Hvis. cbn [app length]. split; [lia|].
      intros [|i] t Hi; cbn [nth_error] in Hi.
      * injection Hi as <-. rewrite Nat.add_0_r. auto.
      * replace (S (k + S i)) with (S (S k + i)) by lia. now apply Hn.
Qed.
Lemma begin_on_time : adaptive_stepsize s = None -> milestones s = None -> on_time 0 begin.
Proof.
  intros Ha Hm. destruct (r_zero _ _ _ _ _ _ HR) as [Hz Hv]. unfold on_time. cbn [st_t st_dt start initialise_value assign value adaptive_stepsize milestones].
  rewrite Hv. split; [exact Ha|]. split; [exact Hm|]. split; [exact Hz|]. split; [lra|]. split; [|left; reflexivity].
  unfold drift. cbn [INR]. rewrite !Rmult_0_l, Rminus_0_r, Rabs_R0. lra.
Qed.
End Round.
