(** TXTExports in runs: the columns, the header, the files; and their times as milestones. *)
From Coq Require Import ZArith QArith List Bool String Lia Lqa Sorted.
From Verif Require Import Base.Exc Base.Num Model.Stepsize Model.TimeLoop Model.Paths Model.Exports
  Model.TxtTimes Spec.TimeSpec Spec.ExportSpec Proofs.NumQ Proofs.StepsizeProofs
  Proofs.TimeLoopProofs Proofs.TimeChain Proofs.TimeQ Proofs.ExportProofs Proofs.ExportTrack
  Proofs.ExportDerived Proofs.ExportRuns.
Import ListNotations.
Local Open Scope nat_scope.
Local Notation length := List.length.

Section Txt.
Context {A : Type} {N : Num A} {F V C : Type}.
Variable is_function : F -> bool.
Variable project : F -> F.
Hypothesis project_function : forall f, is_function (project f) = true.
Local Notation calls := (calls (A:=A) (V:=V) (C:=C) is_function project).

Lemma exported_requested (x : txt (A:=A) F C) cs : exported x cs = at_requested (tx_times x) cs.
Proof. reflexivity. Qed.

(** Whether a call at time t writes the file. *)
Definition txt_file (x : txt (A:=A) F C) (fin : option A) (t : A) : bool :=
  requested (tx_times x) t &&
  (if tx_last x then match tx_is_last x t fin with Ok b => b | Err _ => false end else true).

Lemma calls_txt ex cs ex' log i x data h :
  calls ex cs ex' log -> nth_error (ex_list ex) i = Some (ETxt x) ->
  tx_data x = Some data -> tx_header x = Some h ->
  exists x' cols, nth_error (ex_list ex') i = Some (ETxt x') /\ same_txt x x' /\
    tx_data x' = Some (data ++ cols) /\
    tx_header x' = Some (add_entries h (map (header_entry x (ex_final ex)) (map fst (at_requested (tx_times x) cs)))) /\
    Forall2 (col_ok is_function project x) (at_requested (tx_times x) cs) cols /\
    steps_written i log =
      filter (fun k => match nth_error cs k with Some (t, _) => txt_file x (ex_final ex) t | None => false end)
             (seq 0 (length cs)) /\
    forall k t w, In (k, t, w) (written_by i log) ->
      exists name, tx_filename x = Some name /\
      w = WTxt name
        (add_entries h (map (header_entry x (ex_final ex)) (map fst (at_requested (tx_times x) (firstn (S k) cs)))))
        (data ++ firstn (length (at_requested (tx_times x) (firstn (S k) cs))) cols).
Proof using project_function.
  intros H Hx Hd Hh.
  destruct (calls_track is_function project project_function _ _ _ _ _ _ H Hx) as (e' & He' & Ht).
  destruct (track_txt is_function project project_function _ _ _ _ _ _ _ _ Ht Hd Hh)
    as (x' & cols & -> & Hsame & Hd' & Hh' & Hcols & Hw).
  exists x', cols. split; [assumption|]. split; [assumption|]. split; [assumption|].
  split; [assumption|]. split; [assumption|]. split.
  - eapply calls_steps; [exact H|]. intros k t d w Hk Hkw. rewrite Hk. specialize (Hw k t d w Hk Hkw).
    cbn zeta in Hw. unfold txt_file. change (requested (tx_times x) t) with (tx_is_time x t).
    destruct (tx_is_time x t); cbn [andb]; [|now rewrite Hw].
    destruct Hw as (b & name & Hb & _ & ->). destruct (tx_last x).
    + rewrite Hb. destruct b; reflexivity.
    + injection Hb as <-. reflexivity.
  - intros k t w Hin.
    destruct (written_call _ _ _ _ _ _ _ _ _ _ H Hin) as (d & ws & Hk & Hkw & Hinw).
    specialize (Hw k t d ws Hk Hkw). cbn zeta in Hw.
    destruct (tx_is_time x t); [|subst; now elim Hinw].
    destruct Hw as (b & name & _ & Hname & ->). destruct b; [|now elim Hinw].
    destruct Hinw as [<-|[]]. exists name. split; [assumption|reflexivity].
Qed.
End Txt.

(** ** Times as milestones *)
Section Milestones.
Local Open Scope Q_scope.
Context {F V C : Type}.

Lemma insert_in (x : Q) l y : In y (insert_sorted x l) <-> y = x \/ In y l.
Proof.
  induction l as [|a r IH]; cbn; [intuition congruence|].
  destruct (Qle_bool x a); cbn; [intuition congruence|]. rewrite IH. tauto.
Qed.
Lemma sorted_in (l : list Q) y : In y (py_sorted l) <-> In y l.
Proof. induction l as [|a r IH]; cbn; [tauto|]. rewrite insert_in, IH. intuition congruence. Qed.

Lemma insert_min (x : Q) l : (forall y, In y l -> x <= y) -> insert_sorted x l = x :: l.
Proof.
  destruct l as [|a r]; [reflexivity|]. intros H. cbn.
  assert (Hx : Qle_bool x a = true) by (apply Qle_bool_iff, H; now left). now rewrite Hx.
Qed.
Lemma insert_sorted_ok (x : Q) l : StronglySorted Qle l -> StronglySorted Qle (insert_sorted x l).
Proof.
  induction 1 as [|a r Hs IH Hf]; cbn; [repeat constructor|].
  destruct (Qle_bool x a) eqn:E.
  - apply Qle_bool_iff in E. constructor; [now constructor|]. constructor; [assumption|].
    eapply Forall_impl; [|exact Hf]. cbn. intros; lra.
  - assert (a <= x). { destruct (Qlt_le_dec a x) as [|Hle]; [lra|]. apply Qle_bool_iff in Hle. congruence. }
    constructor; [exact IH|]. apply Forall_forall. intros y Hy. apply insert_in in Hy as [->|Hy]; [assumption|].
    rewrite Forall_forall in Hf. auto.
Qed.
Lemma py_sorted_ok (l : list Q) : StronglySorted Qle (py_sorted l).
Proof. induction l; cbn; [constructor|now apply insert_sorted_ok]. Qed.
Lemma py_sorted_id (l : list Q) : StronglySorted Qle l -> py_sorted l = l.
Proof.
  induction 1 as [|a r Hs IH Hf]; cbn; [reflexivity|]. rewrite IH. apply insert_min.
  rewrite Forall_forall in Hf. exact Hf.
Qed.

Lemma add_time_in (l : list Q) time m :
  (In m l -> In m (add_time l time)) /\ (exists m', In m' (add_time l time) /\ m' == time) /\
  (In m (add_time l time) -> In m l \/ m = time).
Proof.
  unfold add_time. destruct (existsb (neqb time) l) eqn:E.
  - split; [auto|]. split; [|auto]. apply existsb_exists in E as (m' & Hm & Hq).
    exists m'. split; [assumption|]. apply Qeq_bool_iff in Hq. symmetry. exact Hq.
  - split; [intros; apply in_or_app; auto|]. split.
    + exists time. split; [apply in_or_app; right; now left|reflexivity].
    + intros Hm. apply in_app_or in Hm as [|[<-|[]]]; auto.
Qed.

Lemma add_times_in times : forall (l : list Q),
  (forall m, In m l -> In m (fold_left add_time times l)) /\
  (forall time, In time times -> exists m', In m' (fold_left add_time times l) /\ m' == time) /\
  (forall m, In m (fold_left add_time times l) -> In m l \/ In m times).
Proof.
  induction times as [|a r IH]; intros l; cbn [fold_left].
  - split; [auto|]. split; [intros ? []|auto].
  - destruct (IH (add_time l a)) as (H1 & H2 & H3). split; [|split].
    + intros m Hm. apply H1. now apply add_time_in.
    + intros time [<-|Hin]; [|auto]. destruct (add_time_in l a 0) as (_ & (m' & Hm' & Heq) & _).
      exists m'. auto.
    + intros m Hm. apply H3 in Hm as [Hm|Hm]; [|right; now right].
      apply add_time_in in Hm as [| ->]; [auto|right; now left].
Qed.

Lemma merge_times_in ms times :
  let l0 := match ms with Some l => l | None => [] end in
  let l := merge_times ms times in
  StronglySorted Qle l /\ (forall m, In m l0 -> In m l) /\
  (forall time, In time times -> exists m', In m' l /\ m' == time) /\
  (forall m, In m l -> In m l0 \/ In m times).
Proof.
  cbn zeta. unfold merge_times.
  destruct (add_times_in times (match ms with Some l => l | None => [] end)) as (H1 & H2 & H3).
  split; [apply py_sorted_ok|]. split; [|split].
  - intros m Hm. apply sorted_in. auto.
  - intros time Ht. apply H2 in Ht as (m' & Hm & Heq). exists m'. split; [now apply sorted_in|assumption].
  - intros m Hm. apply H3. now apply (proj1 (sorted_in _ _)) in Hm.
Qed.

(** The milestones after initialise. *)
Lemma register_times_ok (l : list (export (A:=Q) F V C)) : forall s o,
  register_times (Some s) l = Ok o ->
  exists s', o = Some s' /\ initial_value s' = initial_value s /\ value s' = value s /\
    adaptive_stepsize s' = adaptive_stepsize s /\
    (forall m, In m (match milestones s with Some l => l | None => [] end) ->
               In m (match milestones s' with Some l => l | None => [] end)) /\
    (forall x times t, In (ETxt x) l -> tx_times x = Some times -> In t times ->
       exists m, In m (match milestones s' with Some l => l | None => [] end) /\ m == t) /\
    (forall m, In m (match milestones s' with Some l => l | None => [] end) ->
       In m (match milestones s with Some l => l | None => [] end) \/
       exists x times, In (ETxt x) l /\ tx_times x = Some times /\ In m times) /\
    (match milestones s with Some l => StronglySorted Qle l | None => True end ->
     match milestones s' with Some l => StronglySorted Qle l | None => True end) /\
    (milestones s <> None -> milestones s' <> None).
Proof.
  induction l as [|e r IH]; intros s o H; cbn in H.
  - injection H as <-. exists s. split; [reflexivity|]. do 4 (split; [auto|]).
    split; [intros ? ? ? []|]. split; [auto|]. auto.
  - assert (Hskip : register_times (Some s) r = Ok o ->
      (forall x times t, e = ETxt x -> tx_times x = Some times -> ~ In t times) ->
      exists s', o = Some s' /\ initial_value s' = initial_value s /\ value s' = value s /\
    adaptive_stepsize s' = adaptive_stepsize s /\
    (forall m, In m (match milestones s with Some l => l | None => [] end) ->
               In m (match milestones s' with Some l => l | None => [] end)) /\
    (forall x times t, In (ETxt x) (e :: r) -> tx_times x = Some times -> In t times ->
       exists m, In m (match milestones s' with Some l => l | None => [] end) /\ m == t) /\
    (forall m, In m (match milestones s' with Some l => l | None => [] end) ->
       In m (match milestones s with Some l => l | None => [] end) \/
       exists x times, In (ETxt x) (e :: r) /\ tx_times x = Some times /\ In m times) /\
    (match milestones s with Some l => StronglySorted Qle l | None => True end ->
     match milestones s' with Some l => StronglySorted Qle l | None => True end) /\
    (milestones s <> None -> milestones s' <> None)).
    { intros H' Hno. apply IH in H' as (s' & -> & H1 & H2 & H3 & H4 & H5 & H6 & H7 & H8).
      exists s'. split; [reflexivity|]. do 4 (split; [assumption|]). split.
      - intros x times t [->|Hin] Hti Ht; [now elim (Hno x times t)|eauto].
      - split; [|auto]. intros m Hm. apply H6 in Hm as [|(x & times & Hin & Ht)]; [auto|].
        right. exists x, times. split; [now right|assumption]. }
    destruct e as [d|x|x]; [apply Hskip; [assumption|discriminate]..|].
    destruct (tx_times x) as [times|] eqn:Et.
    2: { apply Hskip; [assumption|]. intros x' times t [= <-]. congruence. }
    destruct times as [|t0 times].
    { apply Hskip; [assumption|]. intros x' times t [= <-] Ht. rewrite Et in Ht. injection Ht as <-. auto. }
    clear Hskip. set (ts := t0 :: times) in *.
    destruct (merge_times_in (milestones s) ts) as (M1 & M2 & M3 & M4).
    apply IH in H as (s' & -> & H1 & H2 & H3 & H4 & H5 & H6 & H7 & H8).
    cbn [with_milestones milestones initial_value value adaptive_stepsize] in *.
    exists s'. split; [reflexivity|]. do 3 (split; [assumption|]). split; [|split; [|split; [|split]]].
    + intros m Hm. apply H4, M2, Hm.
    + intros x' times' t [[= <-] | Hin] Hti Ht; [|eauto].
      rewrite Et in Hti. injection Hti as <-. apply M3 in Ht as (m & Hm & Heq). exists m. auto.
    + intros m Hm. apply H6 in Hm as [Hm|(x' & times' & Hin & Ht)].
      * apply M4 in Hm as [|Hm]; [auto|]. right. exists x, ts. split; [now left|auto].
      * right. exists x', times'. split; [now right|assumption].
    + intros _. apply H7. exact M1.
    + intros _. apply H8. discriminate.
Qed.

Lemma mk_times_in times (l : list Q) t : mk_times (Some times) = Some l -> (In t l <-> In t times).
Proof.
  destruct times as [|a r]; intros H.
  - cbn in H. injection H as <-. tauto.
  - cbn [mk_times] in H. injection H as <-. exact (sorted_in (a :: r) t).
Qed.

Lemma last_time_sorted (l : list Q) m : StronglySorted Qle l -> In m l -> (forall y, In y l -> y <= m) ->
  exists a, last_time l = Ok a /\ a == m.
Proof.
  intros Hs Hin Hmax. unfold last_time. destruct (rev l) as [|a r] eqn:E.
  - apply (f_equal (@rev Q)) in E. rewrite rev_involutive in E. subst. now elim Hin.
  - exists a. split; [reflexivity|]. assert (Hl : l = (rev r ++ [a])%list).
    { rewrite <- (rev_involutive l), E. reflexivity. }
    assert (Ha : a <= m) by (apply Hmax; rewrite Hl; apply in_or_app; right; now left).
    assert (Hle : m <= a); [|lra]. rewrite Hl in Hin. apply in_app_or in Hin as [Hin|[<-|[]]]; [|lra].
    clear -Hs Hl Hin. subst l. revert Hs Hin. induction (rev r) as [|b q IH]; intros Hs Hin; [now elim Hin|].
    cbn in Hs. inversion Hs as [|? ? Hs' Hf]; subst. destruct Hin as [->|Hin]; [|auto].
    rewrite Forall_forall in Hf. apply Hf, in_or_app. right. now left.
Qed.

Lemma close_eq a b b' : b == b' -> (close a b <-> close a b').
Proof. intros H. unfold close. rewrite H. tauto. Qed.
Lemma close_self a b : a == b -> 0 <= b -> close a b.
Proof.
  intros H Hb. unfold close. rewrite H. setoid_replace (b - b) with 0 by ring.
  rewrite (Qabs.Qabs_pos b) by assumption. cbn. lra.
Qed.

Lemma milestones_set (s : stepsize Q) l :
  milestones s = Some l -> StronglySorted Qle l -> milestones s = set_milestones (Some l).
Proof.
  intros H Hs. rewrite H. destruct l as [|a r]; [reflexivity|].
  cbn [set_milestones]. now rewrite (py_sorted_id (a :: r)).
Qed.

Lemma mk_stepsize_sorted init ratio t_stop stop_max mx dtmin miles :
  match milestones (mk_stepsize (A:=Q) init ratio t_stop stop_max mx dtmin miles) with
  | Some l => StronglySorted Qle l | None => True end.
Proof.
  cbn. destruct miles as [[|a r]|]; cbn [set_milestones]; [constructor| |exact I].
  apply (py_sorted_ok (a :: r)).
Qed.
End Milestones.
