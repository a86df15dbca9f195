(** Proofs about Exports.write and its repeated use in a run. *)
From Coq Require Import ZArith List Bool String Lia.
From Verif Require Import Base.Exc Base.Num Model.Paths Model.Exports Model.TimeLoop
  Spec.TimeSpec Spec.ExportSpec Proofs.TimeLoopProofs Proofs.TimeChain.
Import ListNotations.
Local Notation length := List.length.

Lemma label_eqb_eq a b : label_eqb a b = true <-> a = b.
Proof.
  destruct a, b; cbn; split; try discriminate.
  - intros H. apply String.eqb_eq in H. now subst.
  - intros [= ->]. apply String.eqb_refl.
  - intros H. apply Z.eqb_eq in H. now subst.
  - intros [= ->]. apply Z.eqb_refl.
Qed.
Lemma label_eqb_refl a : label_eqb a a = true.
Proof. now apply label_eqb_eq. Qed.

Lemma bind_ok {X Y} (m : res X) (k : X -> res Y) y :
  bind m k = Ok y -> exists x, m = Ok x /\ k x = Ok y.
Proof. destruct m; cbn; [eauto|discriminate]. Qed.

Ltac inv_bind H :=
  let x := fresh "x" in let Hx := fresh "Hx" in
  apply bind_ok in H as (x & Hx & H).
Tactic Notation "bind_as" hyp(H) simple_intropattern(p) ident(Hx) :=
  apply bind_ok in H as (p & Hx & H).

Section Folding.
Context {A : Type} {N : Num A} {U X D E : Type}.
Variable temp : temperature (A:=A) X.
Variable dens_solve : D -> D -> A -> X -> D.
Variable post : A -> U -> X -> E -> res E.
Variable F : A.

Fixpoint fold_post (ps : list (A * U * X)) (e : E) : res E :=
  match ps with
  | [] => Ok e
  | (t, u, T) :: r => let! e' := post t u T e in fold_post r e'
  end.

Lemma fold_post_app a b e : fold_post (a ++ b) e = let! e' := fold_post a e in fold_post b e'.
Proof.
  revert e. induction a as [|[[t u] T] r IH]; intros e; cbn; [reflexivity|].
  destruct (post t u T e); cbn; [apply IH|reflexivity].
Qed.

Lemma iterate_exp st atts st' evs stt :
  iterate temp dens_solve post F st atts = (st', evs, stt) -> stt <> Done ->
  st_exp st' = st_exp st.
Proof.
  unfold iterate. destruct (temp_update _ _ _ _ _) as [T Tn]. unfold update.
  cbn [st_t st_dt st_T st_Tn st_u st_un st_dens st_densn st_expr st_exp].
  destruct (update_loop _ _ T Tn _ _ _ _ atts) as [[[u s] evs0] stt0].
  destruct stt0; cbn.
  - destruct (post _ u T (st_exp st)); intros H; injection H as <- <- <-; [now intros []|reflexivity].
  - intros H; injection H as <- <- <-; reflexivity.
  - intros H; injection H as <- <- <-; reflexivity.
Qed.

Lemma run_fold st sched st' evs stt :
  run_transient temp dens_solve post F st sched = (st', evs, stt) ->
  fold_post (posts evs) (st_exp st) = Ok (st_exp st').
Proof.
  revert st st' evs. induction sched as [|atts rest IH]; intros st st' evs H; cbn in H.
  - destruct (running F st); injection H as <- <- <-; reflexivity.
  - destruct (running F st) eqn:Er; [|injection H as <- <- <-; reflexivity].
    destruct (iterate temp dens_solve post F st atts) as [[st1 ev1] s1] eqn:Ei.
    destruct s1.
    + destruct (run_transient temp dens_solve post F st1 rest) as [[st2 ev2] s2] eqn:Ern.
      injection H as <- <- <-.
      rewrite posts_app, fold_post_app.
      apply iterate_done in Ei as (T & Tn & u & s & evs0 & e & dens & HT & Hl & Hd & Hp & -> & ->).
      assert (Hv : visited evs0 = []).
      { eapply loop_events; exact Hl. }
      rewrite visited_posts in Hv. apply map_eq_nil in Hv.
      rewrite posts_app, Hv. cbn. rewrite Hp. cbn. exact (IH _ _ _ Ern).
    + injection H as <- <- <-.
      pose proof (iterate_exp _ _ _ _ _ Ei) as ->; [|discriminate].
      apply iterate_not_done in Ei as (T & Tn & u & s & evs0 & stt0 & tl & _ & _ & _ & Hv & _); [|discriminate].
      rewrite visited_posts in Hv. apply map_eq_nil in Hv. now rewrite Hv.
    + injection H as <- <- <-.
      pose proof (iterate_exp _ _ _ _ _ Ei) as ->; [|discriminate].
      apply iterate_not_done in Ei as (T & Tn & u & s & evs0 & stt0 & tl & _ & _ & _ & Hv & _); [|discriminate].
      rewrite visited_posts in Hv. apply map_eq_nil in Hv. now rewrite Hv.
Qed.
End Folding.

Section Writes.
Context {A : Type} {N : Num A} {F V C : Type}.
Variable is_function : F -> bool.
Variable project : F -> F.
(** fenics.project returns a fenics.Function. *)
Hypothesis project_function : forall f, is_function (project f) = true.

Local Notation dict := (dict F).
Local Notation fval := (fval F).
Local Notation export := (export (A:=A) F V C).
Local Notation exports := (exports (A:=A) F V C).
Local Notation written := (written (A:=A) F V C).
Local Notation store := (store (A:=A) F V).
Local Notation write_one := (write_one (V:=V) (C:=C) is_function project).
Local Notation write_loop := (write_loop (V:=V) (C:=C) is_function project).
Local Notation write := (write (V:=V) (C:=C) is_function project).

Local Notation value_ok := (value_ok is_function project).
Definition dict_le (d d' : dict) : Prop :=
  (forall k v, lookup d k = Some v -> exists v', lookup d' k = Some v' /\ value_ok v v') /\
  (forall k, lookup d k = None -> lookup d' k = None).

Lemma value_ok_trans a b c : value_ok a b -> value_ok b c -> value_ok a c.
Proof using project_function.
  intros [->|(f & -> & Hf & ->)] H2; [assumption|].
  destruct H2 as [->|(g & Hg & Hf2 & ->)]; [right; eauto|].
  injection Hg as <-. rewrite project_function in Hf2. discriminate.
Qed.
Lemma dict_le_refl d : dict_le d d.
Proof. split; [|auto]. intros k v H. exists v. split; [assumption|now left]. Qed.
Lemma dict_le_trans a b c : dict_le a b -> dict_le b c -> dict_le a c.
Proof using project_function.
  intros [H1 N1] [H2 N2]. split; [|auto]. intros k v Hk. apply H1 in Hk as (v1 & Hk & Hv). apply H2 in Hk as (v2 & Hk & Hv2).
  exists v2. split; [assumption|]. eapply value_ok_trans; eauto.
Qed.

Lemma lookup_set (d : dict) k v k' :
  lookup (set_item d k v) k' = if label_eqb k k' then Some v else lookup d k'.
Proof.
  induction d as [|[k0 v0] r IH]; cbn; [reflexivity|].
  destruct (label_eqb k0 k) eqn:E1; cbn.
  - apply label_eqb_eq in E1. subst k0. destruct (label_eqb k k'); reflexivity.
  - rewrite IH. destruct (label_eqb k0 k') eqn:E2; [|reflexivity].
    apply label_eqb_eq in E2. subst k0.
    destruct (label_eqb k k') eqn:E3; [|reflexivity].
    apply label_eqb_eq in E3. subst. now rewrite label_eqb_refl in E1.
Qed.

Lemma project_item_le d k d' : project_item is_function project d k = Ok d' -> dict_le d d'.
Proof.
  unfold project_item. intros H. inv_bind H.
  unfold getitem in Hx. destruct (lookup d k) as [v|] eqn:El; [|discriminate].
  injection Hx as ->.
  destruct (is_function_val is_function x) eqn:Ef; [injection H as <-; apply dict_le_refl|].
  destruct x as [f|l]; [|discriminate]. injection H as <-.
  split.
  - intros k' v' Hk'. rewrite lookup_set.
    destruct (label_eqb k k') eqn:Ek.
    + apply label_eqb_eq in Ek. subst k'. eexists. split; [reflexivity|].
      rewrite El in Hk'. injection Hk' as <-. right. exists f. auto.
    + exists v'. split; [assumption|now left].
  - intros k' Hk'. rewrite lookup_set. destruct (label_eqb k k') eqn:Ek; [|assumption].
    apply label_eqb_eq in Ek. subst k'. congruence.
Qed.

(** After project_item the value is a function. *)
Lemma project_item_function d k d' v :
  project_item is_function project d k = Ok d' -> lookup d' k = Some v -> is_function_val is_function v = true.
Proof using project_function.
  unfold project_item. intros H. inv_bind H.
  unfold getitem in Hx. destruct (lookup d k) as [v0|] eqn:El; [|discriminate].
  injection Hx as ->.
  destruct (is_function_val is_function x) eqn:Ef; [injection H as <-; congruence|].
  destruct x as [f|l]; [|discriminate]. injection H as <-.
  rewrite lookup_set, label_eqb_refl. intros [= <-]. apply project_function.
Qed.

(** What a call cannot change about an export. *)
Definition static (e e' : export) : Prop :=
  match e, e' with
  | EDerived d, EDerived d' =>
      dq_list d' = dq_list d /\ dq_filename d' = dq_filename d /\ dq_compute d' = dq_compute d /\
      dq_exports d' = dq_exports d /\ dq_units d' = dq_units d
  | EXdmf x, EXdmf x' =>
      xd_field x' = xd_field x /\ xd_mode x' = xd_mode x /\ xd_checkpoint x' = xd_checkpoint x /\
      xd_trap x' = xd_trap x
  | ETxt x, ETxt x' =>
      tx_field x' = tx_field x /\ tx_filename x' = tx_filename x /\ tx_times x' = tx_times x /\
      tx_last x' = tx_last x /\ tx_format x' = tx_format x /\ tx_x x' = tx_x x /\
      tx_sample x' = tx_sample x
  | _, _ => False
  end.
Lemma static_refl e : static e e.
Proof. destruct e; cbn; auto 10. Qed.
Lemma static_trans a b c : static a b -> static b c -> static a c.
Proof. destruct a, b, c; cbn; try tauto; intros; intuition congruence. Qed.

Definition refs (e : export) : list nat :=
  match e with EDerived d => dq_list d | _ => [] end.
Lemma static_refs e e' : static e e' -> refs e' = refs e.
Proof. destruct e, e'; cbn; tauto. Qed.

(** What a call cannot change about a quantity. *)
Definition qstatic (q q' : quantity (A:=A) F V) : Prop :=
  q_kind q' = q_kind q /\ q_field q' = q_field q /\ q_surface q' = q_surface q /\
  q_volume q' = q_volume q /\ q_title q' = q_title q /\ q_assemble q' = q_assemble q.
Lemma qstatic_refl q : qstatic q q.
Proof. unfold qstatic. auto 10. Qed.
Lemma qstatic_trans a b c : qstatic a b -> qstatic b c -> qstatic a c.
Proof. unfold qstatic. intuition congruence. Qed.

Lemma upd_same (s : store) i q : upd s i q i = q.
Proof. unfold upd. now rewrite Nat.eqb_refl. Qed.
Lemma upd_other (s : store) i q j : j <> i -> upd s i q j = s j.
Proof. unfold upd. intros H. apply Nat.eqb_neq in H. now rewrite H. Qed.

Lemma prepare_ok s d qs s' d' :
  prepare is_function project s d qs = Ok (s', d') ->
  dict_le d d' /\
  (forall i, qstatic (s i) (s' i) /\ q_t (s' i) = q_t (s i) /\ q_data (s' i) = q_data (s i) /\
             q_r (s' i) = q_r (s i)) /\
  (forall i, ~ In i qs -> s' i = s i).
Proof using project_function.
  revert s d. induction qs as [|j r IH]; intros s d H; cbn in H.
  - injection H as <- <-. split; [apply dict_le_refl|]. split; [|auto].
    intros i. split; [apply qstatic_refl|auto].
  - inv_bind H. inv_bind H. rename x into d1, x0 into f.
    apply IH in H as (Hd & Hq & Ho).
    assert (Hd1 : dict_le d d1).
    { destruct (is_extremum_volume _); [now apply project_item_le in Hx|].
      injection Hx as <-. apply dict_le_refl. }
    split; [eapply dict_le_trans; eauto|]. split.
    + intros i. specialize (Hq i). destruct (Nat.eq_dec i j) as [->|Hne].
      * rewrite upd_same in Hq. destruct (s j); exact Hq.
      * now rewrite upd_other in Hq.
    + intros i Hi. cbn in Hi. rewrite Ho; [|tauto]. apply upd_other. intros ->. tauto.
Qed.

Lemma compute_quantity_static q q' v :
  compute_quantity is_function q = Ok (q', v) ->
  qstatic q q' /\ q_t q' = q_t q /\ q_data q' = q_data q /\ q_function q' = q_function q /\
  exists f, q_function q = Some f /\ v = q_assemble q f.
Proof.
  unfold compute_quantity. intros H.
  assert (Hg : exists f, q_function q = Some f /\
             Ok (if uses_r (q_kind q) then set_r q else q, q_assemble q f) = Ok (q', v)).
  { destruct (q_kind q) eqn:Ek; try discriminate H;
      (destruct (q_function q) as [f|]; [|discriminate H]);
      repeat match type of H with (if ?b then _ else _) = _ => destruct b; [discriminate H|] end;
      exists f; auto. }
  destruct Hg as (f & Hf & [= <- <-]).
  destruct (uses_r (q_kind q)); cbn; repeat split; eauto.
Qed.

Lemma compute_loop_ok s (d : derived (A:=A) V) t data vals qs s' data' vals' :
  compute_loop is_function s d t data vals qs = Ok (s', data', vals') ->
  (forall i, qstatic (s i) (s' i)) /\ (forall i, ~ In i qs -> s' i = s i).
Proof.
  revert s data vals. induction qs as [|j r IH]; intros s data vals H; cbn in H.
  - injection H as <- <- <-. split; [intros; apply qstatic_refl|auto].
  - inv_bind H. destruct x as [q v]. apply IH in H as (Hq & Ho).
    apply compute_quantity_static in Hx as (Hs & _).
    split.
    + intros i. specialize (Hq i). destruct (Nat.eq_dec i j) as [->|Hne].
      * rewrite upd_same in Hq. eapply qstatic_trans; [exact Hs|]. exact Hq.
      * now rewrite !upd_other in Hq by assumption.
    + intros i Hi. cbn in Hi. rewrite Ho; [|tauto]. rewrite !upd_other; auto; intros ->; tauto.
Qed.

Lemma write_one_ok s fs d t fin nb e e' s' fs' d' w :
  write_one s fs d t fin nb e = Ok (e', s', fs', d', w) ->
  static e e' /\ dict_le d d' /\ (forall i, qstatic (s i) (s' i)) /\
  (forall i, ~ In i (refs e) -> s' i = s i).
Proof using project_function.
  unfold Exports.write_one. destruct e as [dq|x|x]; intros H.
  - bind_as H b Hb. bind_as H [[s2 dq2] d1] Hc. bind_as H b2 Hb2. bind_as H [fs1 w1] Hw.
    injection H as <- <- <- <- <-.
    destruct b.
    + bind_as Hc [s1 d2] Hp. bind_as Hc [s3 dq3] Hr.
      injection Hc as <- <- <-.
      apply prepare_ok in Hp as (Hd & Hq & Ho).
      unfold dq_run_compute in Hr. bind_as Hr [[s4 data] vals] Hl.
      injection Hr as <- <-. apply compute_loop_ok in Hl as (Hq2 & Ho2).
      split; [cbn; auto 10|]. split; [assumption|]. split.
      * intros i. eapply qstatic_trans; [apply Hq|apply Hq2].
      * intros i Hi. cbn in Hi. rewrite Ho2, Ho; auto.
    + injection Hc as <- <- <-. split; [apply static_refl|]. split; [apply dict_le_refl|].
      split; [intros; apply qstatic_refl|auto].
  - bind_as H b Hb. destruct b.
    + bind_as H d1 Hd. bind_as H v Hv. injection H as <- <- <- <- <-.
      split; [cbn; auto 10|]. split; [|split; [intros; apply qstatic_refl|auto]].
      destruct (label_eqb _ _); [now apply project_item_le in Hd|].
      injection Hd as <-. apply dict_le_refl.
    + injection H as <- <- <- <- <-. split; [apply static_refl|]. split; [apply dict_le_refl|].
      split; [intros; apply qstatic_refl|auto].
  - bind_as H d1 Hd. bind_as H v Hv. bind_as H [[fs1 x1'] w1] Hw.
    injection H as <- <- <- <- <-.
    split; [|split; [eapply project_item_le; eauto|split; [intros; apply qstatic_refl|auto]]].
    unfold tx_write in Hw. destruct (tx_is_time x t).
    + destruct v as [fn|]; [|destruct (tx_filename x); discriminate].
      destruct (tx_filename x) as [name|] eqn:En; [|discriminate].
      destruct (tx_data x); [|discriminate]. destruct (tx_header x); [|discriminate].
      bind_as Hw fs2 Hf. bind_as Hw b Hb. injection Hw as <- <- <-. cbn. auto 10.
    + injection Hw as <- <- <-. apply static_refl.
Qed.

Lemma of_export_app i (a b : list (nat * written)) : of_export i (a ++ b) = of_export i a ++ of_export i b.
Proof. unfold of_export. now rewrite filter_app, map_app. Qed.
Lemma of_export_self i (w : list written) : of_export i (map (fun a => (i, a)) w) = w.
Proof.
  unfold of_export. induction w as [|a r IH]; cbn; [reflexivity|].
  rewrite Nat.eqb_refl. cbn. now rewrite IH.
Qed.
Lemma of_export_other i j (w : list written) : j <> i -> of_export i (map (fun a => (j, a)) w) = [].
Proof.
  intros H. unfold of_export. induction w as [|a r IH]; cbn; [reflexivity|].
  apply Nat.eqb_neq in H. now rewrite H.
Qed.

(** One call seen from export number i. *)
Lemma write_loop_nth s fs d t fin nb i0 l l' s' fs' ws :
  write_loop s fs d t fin nb i0 l = Ok (l', s', fs', ws) ->
  (forall i, i < i0 -> of_export i ws = []) /\
  (forall j, qstatic (s j) (s' j)) /\
  (forall j, (forall e, In e l -> ~ In j (refs e)) -> s' j = s j) /\
  length l' = length l /\
  forall i e, nth_error l i = Some e ->
    exists s1 fs1 d1 e' s2 fs2 d2,
      write_one s1 fs1 d1 t fin nb e = Ok (e', s2, fs2, d2, of_export (i0 + i) ws) /\
      nth_error l' i = Some e' /\ dict_le d d1 /\
      (forall j, qstatic (s j) (s1 j)) /\
      (forall j, (forall k e2, k <> i -> nth_error l k = Some e2 -> ~ In j (refs e2)) ->
         s1 j = s j /\ s' j = s2 j).
Proof using project_function.
  revert s fs d i0 l' s' fs' ws.
  induction l as [|e r IH]; intros s fs d i0 l' s' fs' ws H; cbn in H.
  - injection H as <- <- <- <-. repeat split; auto. intros [|i] e; discriminate.
  - inv_bind H. destruct x as [[[[e1 s1] fs1] d1] w1]. inv_bind H. destruct x as [[[r' s2] fs2] ws1].
    injection H as <- <- <- <-.
    apply write_one_ok in Hx as Hok. destruct Hok as (Hst & Hd & Hq & Ho).
    apply IH in Hx0 as (Hlt & Hq2 & Ho2 & Hlen & Hn).
    split.
    { intros i Hi. rewrite of_export_app, of_export_other, Hlt by lia. reflexivity. }
    split. { intros j. eapply qstatic_trans; [apply Hq|apply Hq2]. }
    split.
    { intros j Hj. rewrite Ho2, Ho; auto. - apply Hj. now left. - intros e2 He2. apply Hj. now right. }
    split; [cbn; lia|].
    intros [|i] e0 He.
    + cbn in He. injection He as <-. exists s, fs, d, e1, s1, fs1, d1.
      rewrite of_export_app, Nat.add_0_r, of_export_self, Hlt by lia. rewrite app_nil_r.
      split; [assumption|]. split; [reflexivity|]. split; [apply dict_le_refl|].
      split; [intros; apply qstatic_refl|].
      intros j Hj. split; [reflexivity|]. apply Ho2. intros e2 He2.
      apply In_nth_error in He2 as (k & Hk). now apply (Hj (S k) e2).
    + cbn in He. destruct (Hn i e0 He) as (sa & fsa & da & e' & sb & fsb & db & Hw & Hne & Hd2 & Hqa & Hoa).
      exists sa, fsa, da, e', sb, fsb, db.
      rewrite of_export_app, of_export_other by lia. cbn. rewrite Nat.add_succ_r. cbn in Hw.
      split; [exact Hw|]. split; [assumption|]. split; [eapply dict_le_trans; eauto|].
      split; [intros; eapply qstatic_trans; [apply Hq|apply Hqa]|].
      intros j Hj. destruct (Hoa j) as [Ha Hb].
      { intros k e2 Hk Hk2. apply (Hj (S k) e2); [congruence|assumption]. }
      split; [|assumption]. rewrite Ha. apply Ho. apply (Hj 0 e); [discriminate|reflexivity].
Qed.

(** A sequence of calls of Exports.write: the times and dictionaries of the calls, and the log. *)
Inductive calls : exports -> list (A * dict) -> exports -> list (A * list (nat * written)) -> Prop :=
| calls_nil ex : calls ex [] ex []
| calls_cons ex t d ex1 ws cs ex' log :
    write ex d t = Ok (ex1, ws) -> calls ex1 cs ex' log -> calls ex ((t, d) :: cs) ex' ((t, ws) :: log).

Lemma calls_snoc ex cs ex' log t d ex1 ws :
  calls ex cs ex' log -> write ex' d t = Ok (ex1, ws) ->
  calls ex (cs ++ [(t, d)]) ex1 (log ++ [(t, ws)]).
Proof.
  induction 1; intros Hw; cbn; econstructor; eauto. constructor.
Qed.

Lemma calls_times ex cs ex' log : calls ex cs ex' log -> map fst log = map fst cs.
Proof. induction 1; cbn; congruence. Qed.

Lemma write_inv ex d t ex' ws :
  write ex d t = Ok (ex', ws) ->
  ex_final ex' = ex_final ex /\ ex_nb ex' = (ex_nb ex + 1)%Z /\
  exists l s fs, ex' = mkExports l s fs (ex_final ex) (ex_nb ex + 1)%Z /\
    write_loop (ex_store ex) (ex_fs ex) d t (ex_final ex) (ex_nb ex) 0 (ex_list ex) = Ok (l, s, fs, ws).
Proof.
  unfold Exports.write. intros H. inv_bind H. destruct x as [[[l s] fs] ws0].
  injection H as <- <-. cbn. eauto 10.
Qed.

Lemma calls_final ex cs ex' log : calls ex cs ex' log ->
  ex_final ex' = ex_final ex /\ ex_nb ex' = (ex_nb ex + Z.of_nat (length cs))%Z.
Proof.
  induction 1 as [ex|ex t d ex1 ws cs ex' log Hw Hc [IH1 IH2]]; cbn; [split; [reflexivity|lia]|].
  apply write_inv in Hw as (H1 & H2 & _). split; [congruence|]. rewrite IH2, H2. lia.
Qed.
End Writes.

Section RunCalls.
Context {A : Type} {N : Num A} {F V C U X D : Type}.
Variable is_function : F -> bool.
Variable project : F -> F.
Variable ltf : U -> X -> dict F.

Lemma fold_calls ps (ex : exports (A:=A) F V C) log e' :
  fold_post (post_processing is_function project ltf) ps (ex, log) = Ok e' ->
  exists log', snd e' = log ++ log' /\
    calls is_function project ex (map (fun p => (fst (fst p), ltf (snd (fst p)) (snd p))) ps) (fst e') log'.
Proof.
  revert ex log. induction ps as [|[[t u] T] r IH]; intros ex log H; cbn in H.
  - injection H as <-. exists []. rewrite app_nil_r. split; [reflexivity|constructor].
  - inv_bind H. unfold post_processing in Hx. cbn in Hx. inv_bind Hx. destruct x0 as [ex1 ws].
    injection Hx as <-. apply IH in H as (log' & Hl & Hc).
    exists ((t, ws) :: log'). rewrite Hl, <- app_assoc. split; [reflexivity|].
    cbn. econstructor; eauto.
Qed.

Lemma run_calls temp dens_solve ft st sched st' evs stt (ex : exports (A:=A) F V C) :
  run_transient (D:=D) temp dens_solve (post_processing is_function project ltf) ft st sched = (st', evs, stt) ->
  st_exp st = (ex, []) ->
  calls is_function project ex (map (fun p => (fst (fst p), ltf (snd (fst p)) (snd p))) (posts evs))
    (fst (st_exp st')) (snd (st_exp st')) /\
  map fst (snd (st_exp st')) = visited evs.
Proof.
  intros H He. apply run_fold in H. rewrite He in H. apply fold_calls in H as (log' & Hl & Hc).
  cbn in Hl. rewrite Hl. split; [assumption|].
  rewrite (calls_times _ _ _ _ _ _ Hc), map_map. cbn. now rewrite visited_posts.
Qed.
End RunCalls.
