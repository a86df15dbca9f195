(** Lemmas about initialising a simulation again. *)
From Coq Require Import ZArith QArith List Bool String Lia Sorted.
From Verif Require Import Base.Exc Base.Num Base.Key Model.Stepsize Model.TimeLoop Model.Materials Model.Mesh1D
  Model.Sources Model.Bcs Model.Fields Model.Paths Model.Exports Model.TxtTimes Model.TxtRows Model.Simulation
  Spec.TimeSpec Spec.ExportSpec Spec.MeshSpec Spec.FieldSpec Spec.SimSpec
  Proofs.NumQ Proofs.KeyProofs Proofs.MaterialProofs Proofs.SourceProofs Proofs.BcProofs Proofs.FieldProofs
  Proofs.StepsizeProofs Proofs.TimeLoopProofs Proofs.ExportProofs Proofs.ExportRuns Proofs.TxtRuns Proofs.SimProofs.
From Verif Require Properties.FieldProps.
Import ListNotations.
Local Open Scope string_scope.
Local Notation length := List.length.

(** ** Sources *)
Section Sources.
Context {S : Type}.
Variable s_field : S -> key.
Variable s_decay : S -> bool.

Lemma fold_ext (s : S) l : forall a b : attached S, (forall x, a x = b x) -> forall x,
  fold_left (fun a sp => if is_concentration sp then add_source a s sp else a) l a x =
  fold_left (fun a sp => if is_concentration sp then add_source a s sp else a) l b x.
Proof.
  induction l as [|y r IH]; intros a b H x; [apply H|]. cbn [fold_left]. apply IH. intros z.
  destruct (is_concentration y); [|apply H]. unfold add_source. now rewrite !H.
Qed.
Lemma loop_ext n heat l : forall a b a' : attached S, (forall x, a x = b x) ->
  attribute_loop s_field s_decay n heat a l = Ok a' ->
  exists b', attribute_loop s_field s_decay n heat b l = Ok b' /\ forall x, b' x = a' x.
Proof.
  induction l as [|s r IH]; intros a b a' H Hl; cbn [attribute_loop] in *.
  - injection Hl as <-. exists b. split; [reflexivity|]. intros x. symmetry. apply H.
  - apply bind_ok in Hl as (a1 & H1 & Hl).
    assert (exists b1, attribute_one s_field s_decay n heat b s = Ok b1 /\ forall x, a1 x = b1 x) as (b1 & -> & Hb1).
    { unfold attribute_one in *. destruct (_ && negb heat)%bool; [discriminate|].
      destruct (s_decay s && _)%bool.
      - injection H1 as <-. eexists. split; [reflexivity|]. intros x. now apply fold_ext.
      - destruct (dict_get _ _) as [sp|]; [|discriminate]. injection H1 as <-. eexists. split; [reflexivity|].
        intros x. unfold add_source. now rewrite !H. }
    cbn [bind]. eapply IH; eauto.
Qed.
Lemma sources_again n heat l before att :
  attribute_source_terms s_field s_decay n heat l before = Ok att ->
  exists att', attribute_source_terms s_field s_decay n heat l att = Ok att' /\ forall x, att' x = att x.
Proof.
  unfold attribute_source_terms. intros H. eapply loop_ext; [|exact H].
  intros [| |i]; [reflexivity..|]. cbn [reset_sources].
  destruct (Nat.leb 1 i && Nat.leb i n)%bool eqn:E; [reflexivity|].
  destruct (selected_loop _ _ _ _ _ _ _ H (Trap i)) as (m & -> & Hm). cbn [reset_sources]. rewrite E.
  replace m with (@nil S); [now rewrite app_nil_r|].
  assert (Hno : forall s, ~ belongs n (s_field s) (s_decay s) (Trap i)).
  { intros s Hb. assert (1 <= i <= n)%nat as [H1 H2].
    { unfold belongs in Hb. match type of Hb with (if ?b then _ else _) => destruct b end; cbn in Hb; tauto. }
    apply Nat.leb_le in H1, H2. rewrite H1, H2 in E. discriminate. }
  clear -Hm Hno. induction Hm as [|s l m Hs|]; [reflexivity|now elim (Hno s)|assumption].
Qed.
End Sources.

(** ** Traps *)
Section Traps.
Context {P S : Type}.
Local Notation material := (material (A:=Q) P).
Local Notation trap := (trap (A:=Q) (P:=P)).
Variable same : material -> material -> bool.
Variable s_list : S -> bool.
Variable dx_list : res unit.

Lemma trapping_forms_ext transient chem (ms : list material) (a b : species -> list S) mss : (forall x, a x = b x) ->
  forall i, trapping_forms s_list same dx_list transient chem ms a i mss =
            trapping_forms s_list same dx_list transient chem ms b i mss.
Proof.
  intros H. induction mss as [|l r IH]; intros i; cbn [trapping_forms]; [reflexivity|].
  rewrite H, IH. reflexivity.
Qed.
Lemma find_materials_objects (ms l : list material) : find_materials ms (map TagMaterial l) = Ok l.
Proof. induction l as [|m r IH]; cbn [map find_materials find_material bind]; [reflexivity|]. now rewrite IH. Qed.

Lemma settle_ok (ms : list material) (ts : list trap) mss : Forall2 (resolved same ms) ts mss ->
  forall ids, length ids = length ts ->
  length (settle ts ids mss) = length ts /\ map tr_id (settle ts ids mss) = map Some ids /\
  make_traps_materials same ms (settle ts ids mss) = Ok mss /\
  settle (settle ts ids mss) ids mss = settle ts ids mss /\
  forall chem, mobile_trapping dx_list chem (settle ts ids mss) mss = mobile_trapping dx_list chem ts mss.
Proof.
  induction 1 as [|t l ts mss [Hr Hd] _ IH]; intros ids Hi; destruct ids as [|z ids]; try discriminate.
  - cbn. auto.
  - injection Hi as Hi. destruct (IH ids Hi) as (H1 & H2 & H3 & H4 & H5). cbn [settle length map tr_id].
    split; [congruence|]. split; [congruence|]. split; [|split].
    + cbn [make_traps_materials]. unfold make_materials. cbn [tr_materials]. rewrite find_materials_objects. cbn [bind].
      rewrite Hd. cbn [bind]. rewrite H3. reflexivity.
    + cbn [tr_has]. now rewrite H4.
    + intros chem. cbn [mobile_trapping tr_has]. now rewrite H5.
Qed.
End Traps.

(** ** Times *)
Section Times.
Context {F W C : Type}.
Local Notation export := (export (A:=Q) F W C).

Lemma register_used (l l' : list export) : Forall2 used_export l l' ->
  forall dt, register_times dt l' = register_times dt l.
Proof.
  induction 1 as [|e e' l l' He _ IH]; intros dt; [reflexivity|].
  destruct e as [d|x|x], e' as [d'|x'|x']; cbn [used_export] in He; try tauto; cbn [register_times]; try apply IH.
  destruct He as (_ & _ & Ht & _). rewrite Ht. destruct (tx_times x) as [[|t r]|]; [apply IH| |apply IH].
  destruct dt; [apply IH|reflexivity].
Qed.
Definition covered (l : list export) (ms : option (list Q)) : Prop :=
  forall x t r, In (ETxt x) l -> tx_times x = Some (t :: r) ->
    exists m, ms = Some m /\ StronglySorted Qle m /\ forall u, In u (t :: r) -> exists v, In v m /\ (v == u)%Q.
Lemma fold_add_covered (times : list Q) : forall m, (forall u, In u times -> exists v, In v m /\ (v == u)%Q) ->
  fold_left add_time times m = m.
Proof.
  induction times as [|u r IH]; intros m H; [reflexivity|]. cbn [fold_left]. unfold add_time at 2.
  replace (existsb (neqb u) m) with true; [apply IH; intros v Hv; apply H; now right|].
  symmetry. apply existsb_exists. destruct (H u (or_introl eq_refl)) as (v & Hv & E). exists v. split; [assumption|].
  apply neqb_true. now symmetry.
Qed.
Lemma register_covered (l : list export) s : covered l (milestones s) -> register_times (Some s) l = Ok (Some s).
Proof.
  induction l as [|e r IH]; intros H; [reflexivity|].
  assert (Hr : covered r (milestones s)) by (intros x t q Hx; apply (H x t q); now right).
  destruct e as [d|x|x]; cbn [register_times]; [auto..|].
  destruct (tx_times x) as [[|t q]|] eqn:E; [auto| |auto].
  destruct (H x t q (or_introl eq_refl) E) as (m & Em & Hs & Hc).
  replace (with_milestones s (merge_times (milestones s) (t :: q))) with s; [auto|].
  unfold merge_times. rewrite Em, (fold_add_covered (t :: q) m Hc), py_sorted_id by assumption.
  unfold with_milestones. rewrite <- Em. now destruct s.
Qed.
Lemma register_sorted (l : list export) : forall s o, register_times (Some s) l = Ok o ->
  (exists x t r, In (ETxt x) l /\ tx_times x = Some (t :: r)) ->
  exists s' m, o = Some s' /\ milestones s' = Some m /\ StronglySorted Qle m.
Proof.
  induction l as [|e q IH]; intros s o H (x & t & r & Hx & Ht); [now elim Hx|].
  destruct Hx as [->|Hx].
  - cbn [register_times] in H. rewrite Ht in H. apply register_times_ok in H as (s' & -> & _ & _ & _ & _ & _ & _ & Hs & Hn).
    cbn [with_milestones milestones] in Hs, Hn.
    destruct (milestones s') as [m|] eqn:Em; [|now elim (Hn ltac:(discriminate))].
    exists s', m. split; [reflexivity|]. split; [assumption|]. apply Hs. apply py_sorted_ok.
  - assert (E : exists s2, register_times (Some s2) q = Ok o).
    { destruct e as [d|y|y]; cbn [register_times] in H; [eauto..|].
      destruct (tx_times y) as [[|u w]|]; eauto. }
    destruct E as (s2 & H2). eapply IH; [exact H2|]. eauto.
Qed.
Lemma register_again (l : list export) dt dt1 : register_times dt l = Ok dt1 -> register_times dt1 l = Ok dt1.
Proof.
  destruct dt as [s|].
  - intros H. destruct (register_times_ok l s dt1 H) as (s' & -> & _ & _ & _ & _ & Hc & _).
    apply register_covered. intros x t r Hx Ht.
    destruct (register_sorted l s _ H) as (s2 & m & [= <-] & Hm & Hs); [eauto|].
    exists m. split; [assumption|]. split; [assumption|]. intros u Hu.
    destruct (Hc x _ u Hx Ht Hu) as (v & Hv & E). rewrite Hm in Hv. eauto.
  - intros H. assert (dt1 = None) as ->; [|exact H].
    revert H. induction l as [|e r IH]; cbn [register_times]; [now intros [= <-]|].
    destruct e as [d|x|x]; [assumption..|]. destruct (tx_times x) as [[|t q]|]; [assumption|discriminate|assumption].
Qed.
Lemma register_value (l : list export) s o : register_times (Some s) l = Ok o -> value s = initial_value s ->
  exists s', o = Some s' /\ value s' = initial_value s'.
Proof.
  intros H Hv. destruct (register_times_ok l s o H) as (s' & -> & Hi & Hva & _). exists s'. split; [reflexivity|]. congruence.
Qed.
End Times.

(** ** Exports *)
Section Exports.
Context {P S V F W C : Type}.
Local Notation export := (export (A:=Q) F W C).
Local Notation sim := (@sim Q P S V F W C).
Variable dofs : bool -> list Q.
Variable argsort : list Q -> list nat.

Lemma check_quantities_used m bcs (st st' : store (A:=Q) F W) qs : (forall i, used_quantity (st i) (st' i)) ->
  check_quantities m bcs st' qs = check_quantities m bcs st qs.
Proof.
  intros H. induction qs as [|i r IH]; cbn [check_quantities]; [reflexivity|].
  destruct (H i) as (-> & _ & -> & _). now rewrite IH.
Qed.
Lemma export_loop_again (s s' : sim) l : sm_mesh s' = sm_mesh s -> sm_bcs s' = sm_bcs s -> sm_chem s' = sm_chem s ->
  sm_dg s' = sm_dg s -> sm_filters s' = sm_filters s -> sm_materials s' = sm_materials s ->
  (forall i, used_quantity (ex_store (sm_exports s) i) (ex_store (sm_exports s') i)) ->
  forall dt i dt1 w, export_loop dofs argsort s dt i l = Ok (dt1, w) ->
  register_times dt l = Ok dt1 /\
  forall l' dt' dt1', Forall2 used_export l l' -> register_times dt' l' = Ok dt1' ->
    export_loop dofs argsort s' dt' i l' = Ok (dt1', w).
Proof.
  intros Hm Hb Hc Hd Hf Hms Hq. induction l as [|e r IH]; intros dt i dt1 w H; cbn [export_loop] in H.
  - injection H as <- <-. split; [reflexivity|]. intros l' dt' dt1' Hl Hr. inversion Hl; subst.
    cbn in Hr. injection Hr as <-. reflexivity.
  - destruct e as [d|x|x].
    + apply bind_ok in H as (w1 & H1 & H). apply bind_ok in H as ([dt2 w2] & H2 & [= <- <-]).
      destruct (IH _ _ _ _ H2) as [Hr IH']. split; [exact Hr|].
      intros l' dt' dt1' Hl Hr'. inversion Hl as [|? e' ? l2 He Hl2]; subst. destruct e' as [d'|x'|x']; cbn in He; try tauto.
      cbn [export_loop]. destruct He as (-> & _). rewrite Hm, Hb.
      rewrite (check_quantities_used _ _ _ _ _ Hq), H1. cbn [bind].
      cbn [register_times] in Hr'. now rewrite (IH' l2 dt' dt1' Hl2 Hr').
    + destruct (IH _ _ _ _ H) as [Hr IH']. split; [exact Hr|].
      intros l' dt' dt1' Hl Hr'. inversion Hl as [|? e' ? l2 He Hl2]; subst. destruct e' as [d'|x'|x']; cbn in He; try tauto.
      cbn [export_loop]. cbn [register_times] in Hr'. now apply IH'.
    + apply bind_ok in H as (u & H1 & H). apply bind_ok in H as (dt2 & H2 & H).
      destruct (IH _ _ _ _ H) as [Hr IH'].
      assert (Hsplit : forall (y : txt (A:=Q) F C) (q : list export) dt, register_times dt (ETxt y :: q) =
                (let! d := register_times (F:=F) (V:=W) dt [ETxt y] in register_times d q)).
      { intros y q dt0. cbn [register_times]. destruct (tx_times y) as [[|t z]|]; [reflexivity| |reflexivity].
        destruct dt0; reflexivity. }
      split; [rewrite Hsplit, H2; exact Hr|].
      intros l' dt' dt1' Hl Hr'. inversion Hl as [|? e' ? l2 He Hl2]; subst. destruct e' as [d'|x'|x']; cbn in He; try tauto.
      cbn [export_loop]. rewrite Hc, Hd, Hf, Hms, H1. cbn [bind].
      rewrite Hsplit in Hr'. apply bind_ok in Hr' as (dt3 & H3 & Hr'). rewrite H3. cbn [bind]. now apply IH'.
Qed.
Lemma used_export_refl (e : export) : used_export e e.
Proof. destruct e; cbn; auto 10. Qed.
Lemma used_init (l l' : list export) : Forall2 used_export (map init_export l) l' -> Forall2 used_export l l'.
Proof.
  revert l'. induction l as [|e r IH]; intros l' H; inversion H as [|? e' ? l2 He Hl]; subst; constructor; [|auto].
  destruct e, e'; cbn in *; tauto.
Qed.
Lemma as_new_init (l l' : list export) : Forall2 used_export (map init_export l) l' ->
  Forall2 as_new (map init_export l) (map init_export l').
Proof.
  revert l'. induction l as [|e r IH]; intros l' H; inversion H as [|? e' ? l2 He Hl]; subst; cbn [map]; constructor; [|auto].
  destruct e as [d|x|x], e' as [d'|x'|x']; cbn [init_export used_export as_new] in *; try tauto; f_equal.
  - destruct d, d'; cbn in *. unfold set_data. cbn. destruct He as (-> & -> & -> & -> & ->). reflexivity.
  - destruct x, x'; cbn in *. unfold tx_initialise, set_txt. cbn. destruct He as (-> & -> & -> & -> & -> & -> & ->). reflexivity.
Qed.
End Exports.

(** ** Runs *)
Section Runs.
Context {A : Type} {N : Num A} {U X D E : Type}.
Variable temp : temperature (A:=A) X.
Variable dens_solve : D -> D -> A -> X -> D.
Variable post : A -> U -> X -> E -> res E.
Variable ft : A.
Definition settings_kept (s s' : stepsize A) : Prop :=
  initial_value s' = initial_value s /\ adaptive_stepsize s' = adaptive_stepsize s /\ milestones s' = milestones s.

Lemma run_settings sched : forall st st' evs stt,
  run_transient temp dens_solve post ft st sched = (st', evs, stt) -> settings_kept (st_dt st) (st_dt st').
Proof.
  induction sched as [|atts r IH]; intros st st' evs stt; cbn [run_transient]; destruct (running ft st);
    try (intros H; injection H as <- <- <-; unfold settings_kept; auto; fail).
  destruct (iterate temp dens_solve post ft st atts) as [[st1 e1] stt1] eqn:Ei. intros H.
  assert (H1 : settings_kept (st_dt st) (st_dt st1)).
  { unfold iterate in Ei. destruct (temp_update _ _ _ _ _) as [T Tn]. unfold update in Ei.
    cbn [st_t st_dt st_T st_Tn st_u st_un st_dens st_densn st_expr st_exp] in Ei.
    destruct (update_loop _ _ T Tn _ _ _ _ atts) as [[[u s] e0] stt0] eqn:El.
    apply loop_settings in El as (H1 & H2 & H3).
    assert (Hs : settings_kept (st_dt st) s) by (unfold settings_kept; auto).
    destruct stt0; cbn in Ei.
    - destruct (post _ u T (st_exp st)); injection Ei as <- <- <-; [|exact Hs].
      cbn [st_dt]. unfold clamp_final. destruct (nltb _ _); exact Hs.
    - injection Ei as <- <- <-. exact Hs.
    - injection Ei as <- <- <-. exact Hs. }
  destruct stt1; [|injection H as <- <- <-; exact H1..].
  destruct (run_transient temp dens_solve post ft st1 r) as [[st2 e2] stt2] eqn:Er. injection H as <- <- <-.
  apply IH in Er. unfold settings_kept in *. intuition congruence.
Qed.
End Runs.

Section RunExports.
Context {A : Type} {N : Num A} {F W C : Type}.
Local Notation exports := (exports (A:=A) F W C).
Variable is_function : F -> bool.
Variable project : F -> F.
Hypothesis project_function : forall f, is_function (project f) = true.

Lemma calls_static (ex : exports) cs ex' log : calls is_function project ex cs ex' log ->
  Forall2 static (ex_list ex) (ex_list ex') /\ forall i, qstatic (ex_store ex i) (ex_store ex' i).
Proof.
  induction 1 as [ex|ex t d ex1 ws cs ex' log Hw Hc [IH1 IH2]].
  - split; [|intros i; apply qstatic_refl]. induction (ex_list ex); constructor; auto using static_refl.
  - apply write_inv in Hw as (H1 & H2 & l & s & fs & -> & Hl). cbn [ex_list ex_store] in *.
    apply write_loop_nth in Hl as (_ & Hq & _ & Hlen & Hn); [|assumption].
    split; [|intros i; eapply qstatic_trans; eauto].
    assert (Hs : Forall2 static (ex_list ex) l).
    { assert (Hn' : forall i e, nth_error (ex_list ex) i = Some e -> exists e', nth_error l i = Some e' /\ static e e').
      { intros i e He. destruct (Hn i e He) as (s1 & fs1 & d1 & e2 & s2 & fs2 & d2 & Hw & He2 & _).
        exists e2. split; [assumption|]. apply write_one_ok in Hw as (Hs & _); assumption. }
      clear - Hlen Hn'. revert l Hlen Hn'. induction (ex_list ex) as [|e r IH]; intros [|e' l] Hlen Hn; try discriminate.
      - constructor.
      - constructor; [destruct (Hn 0%nat e eq_refl) as (e2 & [= <-] & Hs); exact Hs|].
        apply IH; [cbn in Hlen; congruence|]. intros i e0 He. exact (Hn (S i) e0 He). }
    clear - Hs IH1. revert IH1. generalize (ex_list ex'). induction Hs; intros l2 H2; inversion H2; subst; constructor; eauto using static_trans.
Qed.
End RunExports.
