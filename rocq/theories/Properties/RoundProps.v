(** C88: the effect of rounding on the time stepping. *)
From Coq Require Import ZArith Reals Lra Lia List Bool Floats SpecFloat.
From Verif Require Import Base.Exc Base.Num Model.Stepsize Model.TimeLoop Spec.TimeSpec Spec.RoundSpec Proofs.FloatProofs Proofs.RoundProofs.
Import ListNotations.
Local Open Scope R_scope.

(** Binary64 arithmetic, as specified by the kernel's axioms, has the standard model with eps = 2^-52. *)
Theorem C88_binary64 : rounded NumF value64 finite64 ulp64 tiny64 huge64.
Proof. exact binary64. Qed.

Section Any.
Context {A : Type} {N : Num A} {U X D E : Type}.
Variables (v : A -> R) (ok : A -> Prop) (eps small big : R).
Variable temp : temperature (A:=A) X.
Variable dens_solve : D -> D -> A -> X -> D.
Variable post : A -> U -> X -> E -> res E.
Variables (F : A) (s : stepsize A) (T0 Tn0 : X) (u0 un0 : U) (d0 dn0 : D) (e0 : E).
Local Notation run := (fun sched => run_transient temp dens_solve post F (start s T0 Tn0 u0 un0 d0 dn0 e0) sched).

(** The solver is called with stepsizes that are not negative and far from overflowing. *)
Definition moderate (evs : list (event (A:=A) U X D)) : Prop :=
  forall c, In c (solves evs) -> ok (sv_dt c) /\ 0 <= v (sv_dt c) <= big / 4.
(** Inputs of a run. *)
Definition sensible : Prop :=
  ok F /\ small <= v F /\ 4 * v F <= big /\ ok (initial_value s) /\ 0 <= v (initial_value s) <= v F.

(** Any stepsize settings: no time exceeds final_time by more than three roundings, and only the last one may reach it. *)
Theorem C88_no_overshoot : rounded N v ok eps small big -> sensible ->
  forall sched st' evs stt, run sched = (st', evs, stt) -> moderate evs ->
  (forall t, In t (visited evs) -> ok t /\ 0 <= v t <= v F * (1 + 3 * eps)) /\
  (forall pre t t' suf, visited evs = pre ++ t :: t' :: suf -> v t < v F).
Proof.
  intros HR (H1 & H2 & H3 & H4 & H5) sched st' evs stt H Hm.
  destruct (run_tracked v ok eps small big HR temp dens_solve post F H1 H2 H3 s H5 _ _ _ _ _ _ _ _ _ _ _ H Hm) as (Ha & Hb & _). auto.
Qed.
(** A run that ends has arrived at final_time, up to the tolerance of numpy.isclose. *)
Theorem C88_arrival : rounded N v ok eps small big -> sensible ->
  forall sched st' evs, run sched = (st', evs, Done) -> moderate evs ->
  exists pre t, visited evs = pre ++ [t] /\ v F * (1 - 100001 / 10000000000) <= v t <= v F * (1 + 3 * eps).
Proof.
  intros HR (H1 & H2 & H3 & H4 & H5) sched st' evs H Hm.
  destruct (run_tracked v ok eps small big HR temp dens_solve post F H1 H2 H3 s H5 _ _ _ _ _ _ _ _ _ _ _ H Hm) as (Ha & _ & Hb).
  destruct (Hb eq_refl) as (pre & t & Hp & Ht). exists pre, t. split; [exact Hp|]. split; [exact Ht|]. apply Ha. rewrite Hp. apply in_or_app. right. now left.
Qed.
(** Fixed stepsize that divides final_time into K steps up to 1e-10: exactly K steps, each at its place. *)
Theorem C88_step_count : rounded N v ok eps small big -> sensible ->
  (forall t u T e, exists e', post t u T e = Ok e') ->
  adaptive_stepsize s = None -> milestones s = None ->
  forall K, (1 <= K)%nat -> INR K <= 90000 -> Rabs (INR K * v (initial_value s) - v F) <= v F / 10000000000 ->
  forall sched, solvable sched -> (K <= length sched)%nat ->
  exists st' evs, run sched = (st', evs, Done) /\ length (visited evs) = K /\
    forall i t, nth_error (visited evs) i = Some t -> ok t /\ Rabs (v t - INR (S i) * v (initial_value s)) <= v F / 1000000000.
Proof.
  intros HR (H1 & H2 & H3 & H4 & H5) Hp Ha Hm K HK1 HK2 HK3 sched Hsol Hlen.
  destruct (fixed_steps v ok eps small big HR temp dens_solve post F H1 H2 H3 s H4 H5 Hp K HK1 HK2 HK3 sched 0 (start s T0 Tn0 u0 un0 d0 dn0 e0))
    as (st' & evs & Hr & Hl & Hn); [lia|cbn; lia|exact Hsol| |].
  - exact (begin_on_time v ok eps small big HR F s T0 Tn0 u0 un0 d0 dn0 e0 K Ha Hm).
  - exists st', evs. split; [exact Hr|]. split; [lia|]. exact Hn.
Qed.
End Any.

(** The same in double precision. *)
Section Double.
Context {U X D E : Type}.
Variable temp : temperature (A:=float) X.
Variable dens_solve : D -> D -> float -> X -> D.
Variable post : float -> U -> X -> E -> res E.
Variables (F : float) (s : stepsize float) (T0 Tn0 : X) (u0 un0 : U) (d0 dn0 : D) (e0 : E).
Local Notation run := (fun sched => run_transient temp dens_solve post F (start s T0 Tn0 u0 un0 d0 dn0 e0) sched).
Local Notation inputs := (sensible value64 finite64 tiny64 huge64 F s).

Theorem C88_no_overshoot_binary64 : inputs ->
  forall sched st' evs stt, run sched = (st', evs, stt) -> moderate value64 finite64 huge64 evs ->
  (forall t, In t (visited evs) -> finite64 t /\ 0 <= value64 t <= value64 F * (1 + 3 * ulp64)) /\
  (forall pre t t' suf, visited evs = pre ++ t :: t' :: suf -> value64 t < value64 F).
Proof. intros Hi. exact (C88_no_overshoot _ _ _ _ _ temp dens_solve post F s _ _ _ _ _ _ _ binary64 Hi). Qed.
Theorem C88_arrival_binary64 : inputs ->
  forall sched st' evs, run sched = (st', evs, Done) -> moderate value64 finite64 huge64 evs ->
  exists pre t, visited evs = pre ++ [t] /\ value64 F * (1 - 100001 / 10000000000) <= value64 t <= value64 F * (1 + 3 * ulp64).
Proof. intros Hi. exact (C88_arrival _ _ _ _ _ temp dens_solve post F s _ _ _ _ _ _ _ binary64 Hi). Qed.
Theorem C88_step_count_binary64 : inputs ->
  (forall t u T e, exists e', post t u T e = Ok e') ->
  adaptive_stepsize s = None -> milestones s = None ->
  forall K, (1 <= K)%nat -> INR K <= 90000 -> Rabs (INR K * value64 (initial_value s) - value64 F) <= value64 F / 10000000000 ->
  forall sched, solvable sched -> (K <= length sched)%nat ->
  exists st' evs, run sched = (st', evs, Done) /\ length (visited evs) = K /\
    forall i t, nth_error (visited evs) i = Some t ->
      finite64 t /\ Rabs (value64 t - INR (S i) * value64 (initial_value s)) <= value64 F / 1000000000.
Proof. intros Hi. exact (C88_step_count _ _ _ _ _ temp dens_solve post F s _ _ _ _ _ _ _ binary64 Hi). Qed.
End Double.

Print Assumptions C88_binary64.
Print Assumptions C88_no_overshoot.
Print Assumptions C88_arrival.
Print Assumptions C88_step_count.
Print Assumptions C88_no_overshoot_binary64.
Print Assumptions C88_arrival_binary64.
Print Assumptions C88_step_count_binary64.

(** The clock only: no fields. *)
Definition clock64 (F : float) (s : stepsize float) (sched : list (list (attempt unit))) :=
  run_transient (TempExpr (fun _ => tt)) (fun (_ _ : unit) _ _ => tt)
    (fun _ (_ : unit) _ _ => Ok tt) F (start s tt tt tt tt tt tt tt) sched.
Definition conv (nb : Z) : attempt unit := mkAttempt tt nb true.

(** Stepsize(0.1), final_time=1: ten steps, although ten times 0.1 is 0.9999999999999999 in double precision. *)
Definition tenth : stepsize float := mk_stepsize 0x1.999999999999ap-4%float None None None MaxNone None None.
Lemma value_tenth : value64 (initial_value tenth) = 3602879701896397 / 36028797018963968.
Proof.
  unfold value64. replace (Prim2SF (initial_value tenth)) with (S754_finite false 7205759403792794 (-56)) by (vm_compute; reflexivity).
  change (powerRZ 2 (-56)) with (bp (-56)). rewrite (bp_neg 56 : bp (-56) = / bp 56), bp_IZR by lia. change (2 ^ 56)%Z with 72057594037927936%Z. lra.
Qed.
Lemma value_one : value64 1%float = 1.
Proof.
  unfold value64. replace (Prim2SF 1%float) with (S754_finite false 4503599627370496 (-52)) by (vm_compute; reflexivity).
  change (powerRZ 2 (-52)) with (bp (-52)). rewrite (bp_neg 52 : bp (-52) = / bp 52), bp_IZR by lia. change (2 ^ 52)%Z with 4503599627370496%Z. lra.
Qed.
Lemma tiny_one : tiny64 <= 1.
Proof. apply (bp_le (-900) 0). lia. Qed.
Lemma huge_four : 8 <= huge64.
Proof. change huge64 with (bp 900). replace 8 with (bp 3) by (rewrite bp_IZR by lia; reflexivity). apply bp_le. lia. Qed.
Example C88_step_count_example :
  sensible value64 finite64 tiny64 huge64 1%float tenth /\
  Rabs (INR 10 * value64 (initial_value tenth) - value64 1%float) <= value64 1%float / 10000000000 /\
  let '(_, evs, st) := clock64 1%float tenth (repeat [conv 3] 12) in
  st = Done /\ length (visited evs) = 10%nat /\ last (visited evs) 0%float = 0x1.fffffffffffffp-1%float.
Proof.
  split; [|split].
  - unfold sensible. rewrite value_tenth, value_one. pose proof tiny_one. pose proof huge_four. repeat split; try exact I; try lra; vm_compute; exact I.
  - rewrite value_tenth, value_one. replace (INR 10) with 10 by (cbn; lra). apply Rabs_le. split; lra.
  - vm_compute. auto.
Qed.

(** The bound of C88_no_overshoot cannot be final_time itself: Stepsize(0.03, stepsize_change_ratio=10), final_time=0.3
    ends at 0.30000000000000004. *)
Definition growing : stepsize float := mk_stepsize 0x1.eb851eb851eb8p-6%float (Some 10%float) None None MaxNone None None.
Definition three_tenths : float := 0x1.3333333333333p-2%float.
Lemma between x y : finite64 x -> finite64 y -> (x <=? y)%float = true -> value64 x <= value64 y.
Proof. intros Hx Hy. now apply leb64. Qed.
Lemma value_zero : value64 0%float = 0.
Proof. reflexivity. Qed.
Theorem C88_exact_bound_refuted : exists (F : float) s sched st' evs t,
  clock64 F s sched = (st', evs, Done) /\ sensible value64 finite64 tiny64 huge64 F s /\ moderate value64 finite64 huge64 evs /\
  In t (visited evs) /\ value64 F < value64 t.
Proof.
  pose proof tiny_one. pose proof huge_four. pose proof value_one as H1.
  exists three_tenths, growing, (repeat [conv 3] 2).
  destruct (clock64 three_tenths growing (repeat [conv 3] 2)) as [[st' evs] stt] eqn:Er.
  assert (Hd : stt = Done) by (change stt with (snd (st', evs, stt)); rewrite <- Er; vm_compute; reflexivity).
  assert (Hv : visited evs = [0x1.eb851eb851eb8p-6%float; 0x1.3333333333334p-2%float])
    by (change evs with (snd (fst (st', evs, stt))); rewrite <- Er; vm_compute; reflexivity).
  assert (Hs : map sv_dt (solves evs) = [0x1.eb851eb851eb8p-6%float; 0x1.147ae147ae148p-2%float])
    by (change evs with (snd (fst (st', evs, stt))); rewrite <- Er; vm_compute; reflexivity).
  subst stt. exists st', evs, 0x1.3333333333334p-2%float. split; [reflexivity|]. split; [|split; [|split]].
  - assert (HF : 1 / 10 <= value64 three_tenths <= 1).
    { rewrite <- H1 at 2. split; [|apply between; vm_compute; auto].
      apply Rle_trans with (value64 (initial_value tenth)); [rewrite value_tenth; lra|]. apply between; vm_compute; auto. }
    assert (tiny64 <= 1 / 10).
    { apply Rle_trans with (bp (-4)); [apply (bp_le (-900) (-4)); lia|]. rewrite (bp_neg 4 : bp (-4) = / bp 4), bp_IZR by lia. change (2 ^ 4)%Z with 16%Z. lra. }
    unfold sensible. rewrite <- value_zero. repeat split; try lra; try (vm_compute; exact I); apply between; vm_compute; auto.
  - assert (Ha : forall dt, In dt (map sv_dt (solves evs)) -> finite64 dt /\ 0 <= value64 dt <= huge64 / 4).
    { rewrite Hs. intros dt [<-|[<-|[]]]; (split; [vm_compute; exact I|]); (split; [rewrite <- value_zero; apply between; vm_compute; auto|]);
        (apply Rle_trans with (value64 1%float); [apply between; vm_compute; auto|lra]). }
    intros c Hc. apply Ha. now apply in_map.
  - rewrite Hv. right. now left.
  - apply ltb64; vm_compute; auto.
Qed.
(** The strict increase of C09 is a fact about exact arithmetic: Stepsize(1, stepsize_change_ratio=2) with solves that take
    six iterations; the stepsizes 1, 1/2, 1/4, ... are positive but in the end do not change the time any more. *)
Theorem C88_increase_refuted : exists (F : float) s sched st' evs stt pre t suf,
  clock64 F s sched = (st', evs, stt) /\ visited evs = pre ++ t :: t :: suf /\
  forall dt, In dt (map sv_dt (solves evs)) -> 0 < value64 dt.
Proof.
  exists 10%float, (mk_stepsize 1%float (Some 2%float) None None MaxNone None None), (repeat [conv 6] 56).
  destruct (clock64 10%float (mk_stepsize 1%float (Some 2%float) None None MaxNone None None) (repeat [conv 6] 56)) as [[st' evs] stt] eqn:Er.
  exists st', evs, stt, (firstn 53 (visited evs)), (nth 53 (visited evs) 0%float), (skipn 55 (visited evs)).
  split; [reflexivity|]. split.
  - change evs with (snd (fst (st', evs, stt))). rewrite <- Er. vm_compute. reflexivity.
  - intros dt Hin. rewrite <- value_zero. apply ltb64; [vm_compute; exact I| |]; revert dt Hin; change evs with (snd (fst (st', evs, stt))); rewrite <- Er.
    + assert (H : forallb (fun dt => match Prim2SF dt with S754_zero _ | S754_finite _ _ _ => true | _ => false end)
                 (map sv_dt (solves (snd (fst (clock64 10%float (mk_stepsize 1%float (Some 2%float) None None MaxNone None None) (repeat [conv 6] 56)))))) = true)
        by (vm_compute; reflexivity).
      rewrite forallb_forall in H. intros dt Hin. specialize (H dt Hin). clear Hin. unfold finite64. clear Er. destruct (Prim2SF dt); first [exact I|discriminate H].
    + apply forallb_forall. vm_compute. reflexivity.
Qed.
Print Assumptions C88_exact_bound_refuted.
Print Assumptions C88_increase_refuted.
