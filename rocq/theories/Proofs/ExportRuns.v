(** Transient runs with exports: which calls of Exports.write happen, and at which times. *)
From Coq Require Import ZArith QArith List Bool String Lia Lqa Sorted.
From Verif Require Import Base.Exc Base.Num Model.Stepsize Model.TimeLoop Model.Paths Model.Exports
  Model.TxtTimes Spec.TimeSpec Spec.ExportSpec Proofs.NumQ Proofs.StepsizeProofs
  Proofs.TimeLoopProofs Proofs.TimeChain Proofs.TimeQ Proofs.ExportProofs Proofs.ExportTrack
  Proofs.ExportDerived.
Import ListNotations.
Local Open Scope nat_scope.
Local Notation length := List.length.

Lemma nth_error_firstn {B} (l : list B) n k : k < n -> nth_error (firstn n l) k = nth_error l k.
Proof.
  revert n k. induction l as [|a r IH]; intros n k H; [now rewrite firstn_nil|].
  destruct n as [|n]; [lia|]. destruct k as [|k]; [reflexivity|]. cbn. apply IH. lia.
Qed.

(** ** Only the last time of a run is at or close to final_time *)
Section LastTime.
Context {U X D E : Type}.
Variable temp : temperature (A:=Q) X.
Variable dens_solve : D -> D -> Q -> X -> D.
Variable post : Q -> U -> X -> E -> res E.
Variable F : Q.

Lemma steps_before_last st evs st' :
  steps temp dens_solve post F st evs st' ->
  forall pre t suf, visited evs = pre ++ t :: suf -> suf <> [] -> (t < F)%Q /\ ~ close t F.
Proof.
  induction 1 as [st|st atts st1 evs1 evs2 st2 Hr Hi Hs IH]; intros pre t suf Hv Hsuf.
  - destruct pre; discriminate.
  - rewrite visited_app in Hv. apply iterate_visited in Hi as [Hv1 _]. rewrite Hv1 in Hv.
    destruct pre as [|p pre]; cbn in Hv; injection Hv as Hh Ht.
    + subst. inversion Hs as [|? ? ? ? ? ? Hr1]; subst.
      * now cbn in Hsuf.
      * now apply running_true in Hr1.
    + eapply IH; eauto.
Qed.

Lemma run_before_last st sched st' evs stt pre t suf :
  run_transient temp dens_solve post F st sched = (st', evs, stt) ->
  visited evs = pre ++ t :: suf -> suf <> [] -> (t < F)%Q /\ ~ close t F.
Proof.
  intros H Hv Hs. apply run_visited in H as (st0 & evs0 & Hst & He). rewrite He in Hv.
  eapply steps_before_last; eauto.
Qed.

(** In a completed run, the index of the times close to final_time. *)
Lemma run_close_last s T Tn u un d dn e sched st' evs :
  run_transient temp dens_solve post F (start s T Tn u un d dn e) sched = (st', evs, Done) ->
  (0 < F)%Q -> (forall t, In t (visited evs) -> (t <= F)%Q) ->
  forall k t, nth_error (visited evs) k = Some t ->
    isclose t F = Nat.eqb k (length (visited evs) - 1).
Proof.
  intros H HF Hno k t Hk.
  destruct (run_reaches_final _ _ _ _ _ _ _ _ _ _ _ _ _ _ _ H HF) as (Hend & (pre & Hv) & _).
  destruct (Nat.eqb_spec k (length (visited evs) - 1)) as [->|Hne].
  - rewrite Hv, app_length, Nat.add_sub, nth_error_app2, Nat.sub_diag in Hk by lia.
    cbn in Hk. injection Hk as <-. apply isclose_true.
    destruct Hend as [Hge|]; [|assumption].
    assert (st_t st' <= F)%Q by (apply Hno; rewrite Hv; apply in_or_app; right; now left).
    assert (Heq : (st_t st' == F)%Q) by lra.
    unfold close. rewrite Heq. setoid_replace (F - F)%Q with 0%Q by ring. cbn.
    rewrite Qabs.Qabs_pos by lra. lra.
  - apply isclose_false.
    destruct (nth_error_split _ _ Hk) as (l1 & l2 & Hs & Hl).
    eapply run_before_last; [exact H|exact Hs|].
    intros ->. apply Hne. rewrite Hs, app_length. cbn. lia.
Qed.

Lemma run_close_never s T Tn u un d dn e sched st' evs :
  run_transient temp dens_solve post F (start s T Tn u un d dn e) sched = (st', evs, Done) ->
  (0 < F)%Q -> ~ close (st_t st') F ->
  forall t, In t (visited evs) -> isclose t F = false.
Proof.
  intros H HF Hno t Ht. apply isclose_false.
  destruct (run_reaches_final _ _ _ _ _ _ _ _ _ _ _ _ _ _ _ H HF) as (_ & (pre & Hv) & _).
  apply in_split in Ht as (l1 & l2 & Hs).
  destruct l2 as [|b l2].
  - rewrite Hv in Hs. apply app_inj_tail in Hs as [_ <-]. assumption.
  - eapply run_before_last; [exact H|exact Hs|discriminate].
Qed.
End LastTime.

(** ** initialise *)
Section Init.
Context {A : Type} {N : Num A} {F V C : Type}.
Local Notation export := (export (A:=A) F V C).
Local Notation exports := (exports (A:=A) F V C).
Local Notation store := (store (A:=A) F V).

Definition init_export (e : export) : export :=
  match e with
  | EDerived d => EDerived (set_data d [] [])
  | EXdmf x => EXdmf x
  | ETxt x => ETxt (tx_initialise x)
  end.

Lemma reset_quantities_ok (s : store) qs j :
  qstatic (s j) (reset_quantities s qs j) /\
  (In j qs -> q_t (reset_quantities s qs j) = [] /\ q_data (reset_quantities s qs j) = []) /\
  (q_t (s j) = [] -> q_t (reset_quantities s qs j) = []) /\
  (q_data (s j) = [] -> q_data (reset_quantities s qs j) = []).
Proof.
  revert s. induction qs as [|i r IH]; intros s; cbn.
  - split; [apply qstatic_refl|]. tauto.
  - destruct (IH (upd s i (reset_quantity (s i)))) as (Hq & Hin & Ht & Hd).
    destruct (Nat.eq_dec j i) as [->|Hne].
    + rewrite upd_same in *. split; [exact Hq|]. split; [|split]; intros; [split|..]; auto.
    + rewrite upd_other in * by assumption. split; [assumption|]. split; [|tauto].
      intros [->|Hj]; [congruence|auto].
Qed.

Lemma initialise_derived_ok (s : store) (l : list export) l' s' :
  initialise_derived s l = (l', s') ->
  l' = map (fun e => match e with EDerived d => EDerived (set_data d [] []) | _ => e end) l /\
  (forall j, qstatic (s j) (s' j)) /\
  (forall j, q_t (s j) = [] -> q_t (s' j) = []) /\ (forall j, q_data (s j) = [] -> q_data (s' j) = []) /\
  (forall j e, In e l -> In j (refs e) -> q_t (s' j) = [] /\ q_data (s' j) = []).
Proof.
  revert s l' s'. induction l as [|e r IH]; intros s l' s' H; cbn in H.
  - injection H as <- <-. split; [reflexivity|]. split; [intros; apply qstatic_refl|].
    split; [auto|]. split; [auto|]. intros j e [].
  - destruct e as [d|x|x].
    + destruct (initialise_derived (reset_quantities s (dq_list d)) r) as [r' s2] eqn:Er.
      injection H as <- <-. apply IH in Er as (-> & Hq & Ht & Hd & Hr).
      split; [reflexivity|].
      split; [intros j; eapply qstatic_trans; [apply reset_quantities_ok|apply Hq]|].
      split; [intros j Hj; apply Ht; now apply reset_quantities_ok|].
      split; [intros j Hj; apply Hd; now apply reset_quantities_ok|].
      intros j e [<-|He] Hj; [|eauto].
      destruct (reset_quantities_ok s (dq_list d) j) as (_ & Hin & _).
      destruct (Hin Hj). split; auto.
    + destruct (initialise_derived s r) as [r' s2] eqn:Er.
      injection H as <- <-. apply IH in Er as (-> & Hq & Ht & Hd & Hr).
      split; [reflexivity|]. do 3 (split; [assumption|]). intros j e [<-|He] Hj; [now elim Hj|eauto].
    + destruct (initialise_derived s r) as [r' s2] eqn:Er.
      injection H as <- <-. apply IH in Er as (-> & Hq & Ht & Hd & Hr).
      split; [reflexivity|]. do 3 (split; [assumption|]). intros j e [<-|He] Hj; [now elim Hj|eauto].
Qed.

Lemma initialise_exports_ok (ex : exports) :
  ex_list (initialise_exports ex) = map init_export (ex_list ex) /\
  ex_nb (initialise_exports ex) = ex_nb ex /\
  ex_fs (initialise_exports ex) = ex_fs ex /\
  (forall j, qstatic (ex_store ex j) (ex_store (initialise_exports ex) j)) /\
  (forall j e, In e (ex_list ex) -> In j (refs e) ->
     q_t (ex_store (initialise_exports ex) j) = [] /\ q_data (ex_store (initialise_exports ex) j) = []).
Proof.
  unfold initialise_exports.
  destruct (initialise_derived (ex_store ex) _) as [l2 s] eqn:E. cbn.
  apply initialise_derived_ok in E as (-> & Hq & _ & _ & Hr).
  split; [rewrite map_map; apply map_ext; intros [d|x|x]; reflexivity|].
  split; [reflexivity|]. split; [reflexivity|]. split; [assumption|].
  intros j e He Hj. apply (Hr j e); [|assumption].
  destruct e as [d|x|x]; [|now elim Hj|now elim Hj].
  apply in_map_iff. exists (EDerived d). auto.
Qed.
End Init.

(** ** Writes of one export in a run *)
Section Steps.
Context {A : Type} {N : Num A} {F V C : Type}.
Variable is_function : F -> bool.
Variable project : F -> F.
Hypothesis project_function : forall f, is_function (project f) = true.
Local Notation calls := (calls (A:=A) (V:=V) (C:=C) is_function project).

Lemma calls_length ex cs ex' log : calls ex cs ex' log -> length log = length cs.
Proof. intros H. apply calls_times in H. apply (f_equal (@List.length A)) in H. now rewrite !map_length in H. Qed.

Lemma calls_nth ex cs ex' log j t ws :
  calls ex cs ex' log -> nth_error log j = Some (t, ws) -> exists d, nth_error cs j = Some (t, d).
Proof.
  intros H. revert j. induction H as [|ex t0 d0 ex1 ws0 cs ex' log Hw Hc IH]; intros j Hj.
  - destruct j; discriminate.
  - destruct j as [|j]; cbn in *; [injection Hj as <- <-; eauto|auto].
Qed.

(** If each call of export i writes once or not at all, according to p. *)
Lemma calls_steps ex cs ex' log i (p : nat -> bool) :
  calls ex cs ex' log ->
  (forall k t d w, nth_error cs k = Some (t, d) ->
     nth_error (map (fun q => of_export i (snd q)) log) k = Some w ->
     length w = if p k then 1 else 0) ->
  steps_written i log = filter p (seq 0 (length cs)).
Proof.
  intros H Hp. rewrite <- (calls_length _ _ _ _ H). unfold steps_written, written_by.
  apply steps_filter. intros j t ws Hj. destruct (calls_nth _ _ _ _ _ _ _ H Hj) as (d & Hd).
  apply (Hp j t d); [assumption|]. now rewrite nth_error_map, Hj.
Qed.

Lemma written_call ex cs ex' log i k t w :
  calls ex cs ex' log -> In (k, t, w) (written_by i log) ->
  exists d ws, nth_error cs k = Some (t, d) /\
    nth_error (map (fun q => of_export i (snd q)) log) k = Some ws /\ In w ws.
Proof.
  intros H Hin. apply written_from_in in Hin as (j & ws & -> & Hj & Hw). cbn.
  destruct (calls_nth _ _ _ _ _ _ _ H Hj) as (d & Hd). exists d, (of_export i ws).
  split; [assumption|]. rewrite nth_error_map, Hj. auto.
Qed.

(** ** XDMFExport *)
Lemma calls_xdmf ex cs ex' log i x :
  calls ex cs ex' log -> nth_error (ex_list ex) i = Some (EXdmf x) ->
  forall (p : A -> nat -> bool),
  (forall k t b, xd_is_export x t (ex_final ex) (ex_nb ex + Z.of_nat k) = Ok b -> b = p t k) ->
  steps_written i log =
    filter (fun k => match nth_error cs k with Some (t, _) => p t k | None => false end) (seq 0 (length cs)) /\
  forall k t w, In (k, t, w) (written_by i log) ->
    exists d f app, nth_error cs k = Some (t, d) /\ w = WXdmf t f (xd_checkpoint x) app /\
      xdmf_writes is_function project x d f /\
      (app = true <-> xd_append x = true \/ exists k' , k' < k /\ In k' (steps_written i log)).
Proof using project_function.
  intros H Hx p Hp.
  destruct (calls_track is_function project project_function _ _ _ _ _ _ H Hx) as (e' & _ & Ht).
  pose proof (track_xdmf is_function project project_function _ _ _ _ _ _ Ht) as Hk.
  assert (Hs : steps_written i log =
    filter (fun k => match nth_error cs k with Some (t, _) => p t k | None => false end) (seq 0 (length cs))).
  { eapply calls_steps; [exact H|]. intros k t d w Hc Hw. rewrite Hc.
    destruct (Hk k t d w Hc Hw) as (b & Hb & Hbw). apply Hp in Hb. subst b.
    destruct (p t k).
    - destruct Hbw as (f & app & -> & _). reflexivity.
    - now subst. }
  split; [exact Hs|]. intros k t w Hin.
  destruct (written_call _ _ _ _ _ _ _ _ H Hin) as (d & ws & Hc & Hw & Hinw).
  destruct (Hk k t d ws Hc Hw) as (b & Hb & Hbw). destruct b; [|subst; now elim Hinw].
  destruct Hbw as (f & app & -> & Hxw & Happ).
  destruct Hinw as [<-|[]]. exists d, f, app. split; [assumption|]. split; [reflexivity|].
  split; [assumption|]. rewrite Happ, orb_true_iff. apply or_iff_compat_l.
  rewrite existsb_exists. split.
  - intros (w0 & Hw0 & Hne). apply In_nth_error in Hw0 as (k' & Hk').
    assert (k' < k). { assert (k' < length (firstn k (map (fun q => of_export i (snd q)) log)))
      by (apply nth_error_Some; congruence). rewrite firstn_length in *. lia. }
    rewrite nth_error_firstn in Hk' by assumption. exists k'. split; [assumption|].
    rewrite nth_error_map in Hk'. destruct (nth_error log k') as [[t' ws']|] eqn:El; [|discriminate].
    cbn [option_map snd] in Hk'. injection Hk' as Eo. destruct w0 as [|w1 r]; [discriminate Hne|].
    unfold steps_written. apply in_map_iff. exists (k', t', w1). split; [reflexivity|].
    apply written_from_in. exists k', ws'. split; [reflexivity|]. split; [assumption|]. rewrite Eo. now left.
  - intros (k' & Hlt & Hk'). unfold steps_written in Hk'. apply in_map_iff in Hk' as ([[k2 t2] w2] & Heq & Hin2).
    cbn in Heq. subst k2. apply written_from_in in Hin2 as (j & ws' & -> & Hj & Hwj). cbn in Hlt. cbn.
    exists (of_export i ws'). split.
    + apply nth_error_In with (n := j). rewrite nth_error_firstn by assumption.
      now rewrite nth_error_map, Hj.
    + destruct (of_export i ws'); [now elim Hwj|reflexivity].
Qed.

(** ** DerivedQuantities *)
Lemma calls_at ex cs ex' log k t d :
  calls ex cs ex' log -> nth_error cs k = Some (t, d) ->
  exists exk exk1 ws, calls ex (firstn k cs) exk (firstn k log) /\
    write is_function project exk d t = Ok (exk1, ws) /\
    nth_error log k = Some (t, ws) /\
    calls ex (firstn (S k) cs) exk1 (firstn (S k) log) /\
    calls exk1 (skipn (S k) cs) ex' (skipn (S k) log).
Proof.
  intros H. revert k. induction H as [ex|ex t0 d0 ex1 ws0 cs ex' log Hw Hc IH]; intros k Hk.
  - destruct k; discriminate.
  - destruct k as [|k]; cbn in Hk.
    + injection Hk as <- <-. exists ex, ex1, ws0. cbn.
      split; [constructor|]. split; [assumption|]. split; [reflexivity|].
      split; [econstructor; [exact Hw|constructor]|assumption].
    + destruct (IH k Hk) as (exk & exk1 & ws & H1 & H2 & H3 & H4 & H5).
      exists exk, exk1, ws. cbn [firstn skipn nth_error].
      split; [econstructor; eauto|]. split; [assumption|]. split; [assumption|].
      split; [econstructor; eauto|assumption].
Qed.

Lemma calls_derived_at ex cs ex' log i dq k t d :
  calls ex cs ex' log -> nth_error (ex_list ex) i = Some (EDerived dq) ->
  NoDup (dq_list dq) -> private (ex_list ex) i ->
  nth_error cs k = Some (t, d) ->
  exists dqk dq' rows rows' sk,
    same_derived dq dqk /\ table_after (ex_store ex) sk dq dqk rows /\
    Forall2 (row_ok is_function project (ex_store ex) dq)
      (computed (dq_compute dq) (ex_nb ex) (firstn (S k) cs)) rows /\
    (exists b, dq_is_export dq t (ex_final ex) (ex_nb ex + Z.of_nat k) = Ok b /\
       nth_error (map (fun q => of_export i (snd q)) log) k =
         Some (match b, dq_filename dq with true, Some fn => [WCsv fn (dq_data dqk)] | _, _ => [] end)) /\
    nth_error (ex_list ex') i = Some (EDerived dq') /\
    table_after sk (ex_store ex') dqk dq' rows' /\
    (length cs = S k -> dq' = dqk).
Proof using project_function.
  intros H Hi Hnd Hpr Hk.
  destruct (calls_at _ _ _ _ _ _ _ H Hk) as (exk & exk1 & ws & H1 & Hw & Hlog & H2 & H3).
  destruct (calls_derived is_function project project_function _ _ _ _ _ _ H1 Hi Hnd Hpr)
    as (dq0 & rows0 & Hi0 & Hsame0 & _ & _ & _ & Hpr0).
  destruct (calls_derived is_function project project_function _ _ _ _ _ _ H2 Hi Hnd Hpr)
    as (dq1 & rows1 & Hi1 & Hsame1 & Htab1 & Hrows1 & _ & Hpr1).
  assert (Hnd1 : NoDup (dq_list dq1)) by (destruct Hsame1 as (-> & _); assumption).
  destruct (calls_derived is_function project project_function _ _ _ _ _ _ H3 Hi1 Hnd1 Hpr1)
    as (dq2 & rows2 & Hi2 & Hsame2 & Htab2 & _).
  apply calls_final in H1 as [Hfin Hnb]. rewrite firstn_length_le in Hnb.
  2: { assert (k < length cs) by (apply nth_error_Some; congruence). lia. }
  apply write_inv in Hw as (_ & _ & l & s & fs & -> & Hl). rewrite Hfin, Hnb in Hl.
  apply write_loop_nth in Hl as (_ & _ & _ & _ & Hn); [|assumption].
  destruct (Hn i _ Hi0) as (s1 & fs1 & d1 & e1 & s2 & fs2 & d2 & Hone & Hne & _).
  apply dq_one in Hone as (dqx & rowsx & -> & _ & _ & _ & b & Hb & Hwb); [|assumption|].
  2: { destruct Hsame0 as (-> & _). assumption. }
  cbn in Hi1. rewrite Hi1 in Hne. injection Hne as <-.
  exists dq1, dq2, rows1, rows2, (ex_store (mkExports l s fs (ex_final exk) (ex_nb exk + 1)%Z)).
  split; [assumption|]. split; [assumption|]. split; [assumption|].
  split; [|split; [assumption|split; [assumption|]]].
  2: { intros Hlen. rewrite (skipn_all2 cs) in H3 by lia. inversion H3; subst. cbn in Hi2. congruence. }
  exists b. destruct Hsame0 as (_ & Hfn & _ & Hex & _).
  split; [unfold dq_is_export in *; rewrite Hex in Hb; assumption|].
  rewrite nth_error_map, Hlog. cbn [option_map snd]. cbn in Hwb. now rewrite Hwb, Hfn.
Qed.

Lemma calls_derived_steps ex cs ex' log i dq fn :
  calls ex cs ex' log -> nth_error (ex_list ex) i = Some (EDerived dq) ->
  NoDup (dq_list dq) -> private (ex_list ex) i -> dq_filename dq = Some fn ->
  forall (p : A -> nat -> bool),
  (forall k t b, dq_is_export dq t (ex_final ex) (ex_nb ex + Z.of_nat k) = Ok b -> b = p t k) ->
  steps_written i log =
    filter (fun k => match nth_error cs k with Some (t, _) => p t k | None => false end) (seq 0 (length cs)).
Proof using project_function.
  intros H Hi Hnd Hpr Hfn p Hp. eapply calls_steps; [exact H|]. intros k t d w Hk Hw. rewrite Hk.
  destruct (calls_derived_at _ _ _ _ _ _ _ _ _ H Hi Hnd Hpr Hk)
    as (dqk & dq' & rows & rows' & sk & _ & _ & _ & (b & Hb & Hwb) & _ & _).
  rewrite Hw in Hwb. injection Hwb as ->. rewrite Hfn. apply Hp in Hb. subst b.
  destruct (p t k); reflexivity.
Qed.
End Steps.

(** ** Lists of step numbers *)
Lemma filter_ext_in' {B} (f g : B -> bool) l : (forall a, In a l -> f a = g a) -> filter f l = filter g l.
Proof. apply filter_ext_in. Qed.

Lemma filter_last n : 0 < n -> filter (fun k => Nat.eqb k (n - 1)) (seq 0 n) = [n - 1].
Proof.
  intros H. destruct n as [|n]; [lia|]. rewrite Nat.sub_succ, Nat.sub_0_r.
  rewrite seq_S, filter_app. cbn. rewrite Nat.eqb_refl.
  replace (filter (fun k => k =? n) (seq 0 n)) with (@nil nat); [reflexivity|].
  symmetry. rewrite (filter_ext_in' _ (fun _ => false)).
  - induction (seq 0 n); auto.
  - intros a Ha. apply in_seq in Ha. apply Nat.eqb_neq. lia.
Qed.

Lemma filter_none {B} (l : list B) : filter (fun _ => false) l = [].
Proof. induction l; auto. Qed.
