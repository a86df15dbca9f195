(** C36: an accepted simulation is complete.  C22: the initial temperature of a heat problem is replaced.
    C78: the warnings of initialise. *)
From Coq Require Import ZArith QArith List Bool String Lia.
From Verif Require Import Base.Exc Base.Num Base.Key Model.Stepsize Model.Materials Model.Mesh1D Model.Sources
  Model.Bcs Model.Fields Model.Exports Model.TxtTimes Model.TxtRows Model.Simulation
  Spec.MeshSpec Spec.FieldSpec Spec.SimSpec Spec.NeedSpec
  Proofs.NumQ Proofs.KeyProofs Proofs.MaterialProofs Proofs.SourceProofs Proofs.BcProofs Proofs.FieldProofs
  Proofs.BorderProofs Proofs.SimProofs.
From Verif Require Properties.MaterialProps Properties.BcProps Properties.SimProps.
Import ListNotations.
Local Open Scope string_scope.
Local Notation length := List.length.

Section Need.
Context {P S V F W C : Type}.
Local Notation material := (material (A:=Q) P).
Local Notation sim := (@sim Q P S V F W C).
Variable s_field : S -> key.
Variable s_decay : S -> bool.
Variable s_list : S -> bool.
Variable same : material -> material -> bool.
Variables eps half : Q.
Variable dofs : bool -> list Q.
Variable argsort : list Q -> list nat.
Variable dx_list : res unit.
Variable reconvert : V -> res V.
Local Notation initialise := (initialise s_field s_decay s_list same eps half dofs argsort dx_list reconvert).
Local Notation missing := (missing s_field s_decay s_list same reconvert dx_list).

Ltac step H x E := apply bind_ok in H; destruct H as (x & E & H).

Lemma several_dx (m : material) u : refuses_lists dx_list -> several m -> dx_id dx_list m <> Ok u.
Proof. intros [e He] [l Hl]. unfold dx_id. rewrite Hl, He. discriminate. Qed.
Lemma need_S_ok (m : material) u : need_S m = Ok u -> ~ (m_S0 m = None \/ m_ES m = None).
Proof. intros H. pose proof (need_S_spec m) as Hs. rewrite H in Hs. tauto. Qed.
Lemma mobile_one_ok chem has l : forall i u, mobile_trapping_one dx_list chem has i l = Ok u ->
  (forall k, (k < length l)%nat -> has (i + k)%nat = true) /\
  (forall m : material, In m l -> dx_id dx_list m = Ok tt /\ (chem = true -> need_S m = Ok tt)).
Proof.
  induction l as [|m r IH]; intros i u H; cbn [mobile_trapping_one] in H.
  { split; [cbn; lia|intros m []]. }
  destruct (has i) eqn:Eh; [|discriminate]. step H u1 E1. step H u2 E2. apply IH in H as [H1 H2]. split.
  - intros [|k] Hk; [now rewrite Nat.add_0_r|]. replace (i + Datatypes.S k)%nat with (i + 1 + k)%nat by lia.
    apply H1. cbn in Hk. lia.
  - intros m' [<-|Hm]; [|now apply H2]. destruct u1, u2. split; [assumption|]. intros Hc. now rewrite Hc in E1.
Qed.
Lemma mobile_trapping_ok chem ts mss u : Forall2 (fun (t : trap (A:=Q) (P:=P)) (l : list material) => True) ts mss ->
  mobile_trapping dx_list chem ts mss = Ok u ->
  forall k t l, nth_error ts k = Some t -> nth_error mss k = Some l -> mobile_trapping_one dx_list chem (tr_has t) 0 l = Ok tt.
Proof.
  intros H. revert u. induction H as [|t l ts mss _ H IH]; intros u Hu [|k] t' l' Ht Hl; cbn in Ht, Hl; try discriminate.
  - injection Ht as <-. injection Hl as <-. cbn [mobile_trapping] in Hu. step Hu u1 E1. now destruct u1.
  - cbn [mobile_trapping] in Hu. step Hu u1 E1. now apply (IH _ Hu k).
Qed.
Lemma trapping_forms_each transient chem ms att mss : forall i u,
  trapping_forms s_list same dx_list transient chem ms att i mss = Ok u ->
  forall k l, nth_error mss k = Some l ->
  trapping_form same dx_list transient chem ms l = Ok tt /\ trap_source_form s_list dx_list (att (Trap (i + k))) = Ok tt.
Proof.
  induction mss as [|l r IH]; intros i u H k l' Hk; [now destruct k|]. cbn [trapping_forms] in H.
  step H u1 E1. step H u2 E2. destruct k as [|k]; cbn in Hk.
  - injection Hk as <-. rewrite Nat.add_0_r. destruct u1, u2. now split.
  - replace (i + Datatypes.S k)%nat with (i + 1 + k)%nat by lia. now apply (IH _ _ H).
Qed.
Lemma selected_in {A} (p : A -> Prop) l m x : selected p l m -> In x l -> p x -> In x m.
Proof.
  induction 1 as [|y l m Hy _ IH|y l m Hy _ IH]; intros Hx Hp; [assumption|..].
  - destruct Hx as [<-|Hx]; [now left|right; auto].
  - destruct Hx as [<-|Hx]; [tauto|auto].
Qed.

Lemma initialised_own ids k sp i z : initialised ids k = Ok sp -> nth_error ids i = Some z ->
  (forall j z', nth_error ids j = Some z' -> k = KI z' \/ k = KS (str z') -> j = i) ->
  ~ In k [KS "solute"; KS "0"; KI 0] -> k = KI z \/ k = KS (str z) -> In (Z.of_nat (1 + i)) ids.
Proof.
  intros H Hz Hf Hno Hk. unfold initialised in H. destruct (dict_get (field_to_component ids) k) as [c|] eqn:E; [|discriminate].
  unfold field_to_component in E. apply component_some in E as [E|(j & z' & Hj & Ho & ->)].
  - exfalso. apply Hno. cbn [dict_get] in E.
    destruct (key_eqb k (KS "solute")) eqn:E1; [apply key_eqb_eq in E1; cbn; auto|].
    destruct (key_eqb k (KS "0")) eqn:E2; [apply key_eqb_eq in E2; cbn; auto|].
    destruct (key_eqb k (KI 0)) eqn:E3; [apply key_eqb_eq in E3; cbn; auto|]. discriminate.
  - assert (j = i) as -> by (apply (Hf j z' Hj); destruct Ho; auto). cbn [Nat.add] in *.
    destruct (get_trap ids (Z.of_nat (Datatypes.S i))) as [p|e] eqn:Eg; [|discriminate].
    destruct (in_dec Z.eq_dec (Z.of_nat (Datatypes.S i)) ids) as [Hi|Hi]; [assumption|]. exfalso.
    unfold get_trap in Eg. clear -Eg Hi. revert Eg. generalize 1%nat as q. induction ids as [|a r IH]; intros q; cbn [get_from]; [discriminate|].
    destruct (Z.eqb_spec a (Z.of_nat (Datatypes.S i))) as [->|]; [elim Hi; now left|]. apply IH. intros Hr. apply Hi. now right.
Qed.
Lemma export_loop_none (s : sim) l : forall i r0, export_loop dofs argsort s None i l = Ok r0 ->
  forall x t r, In (ETxt x) l -> tx_times x = Some (t :: r) -> False.
Proof.
  induction l as [|[d|y|y] l IH]; intros i r0 H x t r Hx Ht; [now elim Hx|..]; cbn [export_loop] in H.
  - step H w E. step H p E1. destruct Hx as [[=]|Hx]. eapply IH; eauto.
  - destruct Hx as [[=]|Hx]. eapply IH; eauto.
  - step H u E. step H dt1 E1. destruct Hx as [[= ->]|Hx].
    + cbn [register_times] in E1. rewrite Ht in E1. discriminate.
    + assert (dt1 = None) as ->. { cbn [register_times] in E1. destruct (tx_times y) as [[|]|]; [|discriminate|]; congruence. }
      eapply IH; eauto.
Qed.

(** A simulation that lacks something the equations need is refused. *)
Theorem C36_complete (s : sim) r : initialise s = Ok r -> ~ missing s.
Proof.
  unfold Simulation.initialise. intros H Hd.
  step H r0 E. step H T E0. step H r1 E1. step H r2 E2. step H r3 E3. step H r4 E4. step H r5 E5. step H r6 E6.
  step H r7 E7. step H r8 E8. step H r9 E9. destruct r9 as [[[ids ini] mss] c]. step H r10 E10. clear H.
  assert (ET : sm_T s = Some T) by (unfold get_T in E0; destruct (sm_T s); congruence).
  unfold initialise_h in E9. step E9 q1 E11. step E9 q2 E12. step E9 q3 E13. step E9 q4 E14. step E9 q5 E15.
  step E9 q6 E16. step E9 q7 E17. step E9 q8 E18. injection E9 as <- <- <- <-.
  pose proof (make_traps_materials_spec same (sm_materials s) (sm_traps s)) as Hm. rewrite E13 in Hm.
  assert (Htrue : Forall2 (fun (t : trap (A:=Q) (P:=P)) (l : list material) => True) (sm_traps s) q3)
    by (clear -Hm; induction Hm; constructor; auto).
  assert (Htrap : forall t, In t (sm_traps s) -> exists k l, nth_error (sm_traps s) k = Some t /\ nth_error q3 k = Some l /\
            resolved same (sm_materials s) t l /\ mobile_trapping_one dx_list (sm_chem s) (tr_has t) 0 l = Ok tt /\
            trapping_form same dx_list (sm_transient s) (sm_chem s) (sm_materials s) l = Ok tt).
  { intros t Ht. apply In_nth_error in Ht as (k & Hk). destruct (Forall2_nth1 _ _ _ _ _ Hm Hk) as (l & Hl & Hr).
    exists k, l. repeat (split; [assumption|]). split; [now apply (mobile_trapping_ok _ _ _ _ Htrue E16 k)|].
    now destruct (trapping_forms_each _ _ _ _ _ _ _ E17 k l Hl). }
  destruct Hd as [Hmat|tr ini m HT Hin Hl|v e HT Hr|m Hc Hu Hn|m Hs Hin Hq|m Hc Hrl Hin Hsv|t i Ht Hi Hh|t Ht Htag
                 |t m Hrl Ht Hli Hsv|t m Hst Hrl Ht Hin Hno Hsv|i src Hrl Hi Hin Hb Hsl|k v i z Hin Hz Hfirst Hno Hk Hn
                 |x t l Hst Hx Htx].
  - rewrite Hmat in E7. discriminate.
  - rewrite ET in HT. injection HT as ->. pose proof (heat_form_spec tr (sm_materials s)) as Hf.
    assert (Hok : exists u, heat_form tr (sm_materials s) = Ok u).
    { unfold create_T in E5. destruct tr; [destruct ini|]; try discriminate.
      - step E5 u Eu. eauto.
      - step E5 u Eu. eauto.
      - step E5 v' Ev. step E5 u Eu. eauto.
      - step E5 u Eu. eauto. }
    destruct Hok as [u Hok]. rewrite Hok in Hf. now apply (Hf m).
  - rewrite ET in HT. injection HT as ->. cbn [create_T] in E5. rewrite Hr in E5. discriminate.
  - rewrite Hc in *. destruct Hu as [Hu|(t & Ht & Hli)].
    + unfold theta_form in E14. destruct q4. rewrite each_ok in E14. specialize (E14 m Hu). step E14 u Eu.
      now apply need_S_ok in Eu.
    + destruct (Htrap t Ht) as (k & l & _ & _ & Hr & Hmo & _). apply mobile_one_ok in Hmo as [_ Hmo].
      apply (resolved_lives _ _ _ _ _ Hr) in Hli. destruct (Hmo m Hli) as [_ Hnd].
      specialize (Hnd eq_refl). now apply need_S_ok in Hnd.
  - unfold soret_form in E15. rewrite Hs in E15. cbn [andb] in E15.
    destruct (forallb (fun m => is_some (m_Q m)) (sm_materials s)) eqn:Ef; [|discriminate].
    rewrite forallb_forall in Ef. specialize (Ef m Hin). rewrite Hq in Ef. discriminate.
  - unfold theta_form in E14. rewrite Hc in E14. destruct q4. rewrite each_ok in E14. specialize (E14 m Hin). step E14 u Eu.
    now apply several_dx in E14.
  - destruct (Htrap t Ht) as (k & l & _ & _ & [Hr _] & Hmo & _). apply mobile_one_ok in Hmo as [Hmo _].
    rewrite (Forall2_len _ _ _ Hr) in Hi. specialize (Hmo i Hi). cbn in Hmo. congruence.
  - destruct (Htrap t Ht) as (k & l & _ & _ & [Hr _] & _). apply In_nth_error in Htag as (j & Hj).
    now destruct (Forall2_nth1 _ _ _ _ _ Hr Hj) as (m & _ & Hf).
  - destruct (Htrap t Ht) as (k & l & _ & _ & Hr & Hmo & _). apply mobile_one_ok in Hmo as [_ Hmo].
    apply (resolved_lives _ _ _ _ _ Hr) in Hli. destruct (Hmo m Hli) as [Hdx _]. now apply several_dx in Hdx.
  - destruct (Htrap t Ht) as (k & l & _ & _ & Hr & _ & Hf). unfold trapping_form in Hf. step Hf u Eu.
    rewrite Hst in Eu. destruct u. rewrite each_ok in Eu. specialize (Eu m Hin).
    destruct (existsb (same m) l) eqn:Ex; [|now apply several_dx in Eu].
    apply existsb_exists in Ex as (m' & Hm' & Hs). apply (resolved_lives _ _ _ _ _ Hr) in Hm'.
    rewrite (Hno m' Hm') in Hs. discriminate.
  - assert (Hlen : length (sm_traps s) = length q3) by (apply (Forall2_len _ _ _ Hm)).
    destruct (nth_error q3 (i - 1)) as [l|] eqn:El; [|apply nth_error_None in El; unfold nb_traps in Hi; lia].
    destruct (trapping_forms_each _ _ _ _ _ _ _ E17 (i - 1) l El) as [_ Hf].
    replace (1 + (i - 1))%nat with i in Hf by lia. unfold trap_source_form in Hf. rewrite each_ok in Hf.
    assert (Hs : In src (r1 (Trap i))).
    { apply (selected_in (fun s0 => belongs (length (sm_traps s)) (s_field s0) (s_decay s0) (Trap i)) (sm_sources s));
        [|assumption|exact Hb]. eapply BcProps.C31_attached; [exact E1|exact Hi]. }
    specialize (Hf src Hs). rewrite Hsl in Hf. destruct Hrl as [e He]. rewrite He in Hf. discriminate.
  - destruct (initial_loop_ok _ _ _ _ E12 k v Hin) as [sp Hsp]. fold (trap_ids s) in Hsp.
    exact (Hn (initialised_own _ _ _ _ _ Hsp Hz Hfirst Hno Hk)).
  - apply (export_loop_none s (ex_list (sm_exports s)) 0 r10) with (x := x) (t := t) (r := l); [|assumption..].
    unfold initial_dt, check_time in *. rewrite Hst in E, E10. cbn [negb andb] in E. destruct (sm_dt s); [discriminate|].
    exact E10.
Qed.

(** initialise replaces the initial temperature of a transient heat problem by an f.Expression, which the next
    initialise converts again. *)
Theorem C22_heat_initial (s s1 : sim) p1 v dt ex :
  sm_T s = Some (THeat true (IniValue v)) -> initialise s = Ok (s1, p1) ->
  pb_T_ini p1 = Some v /\ sm_T s1 = Some (THeat true (IniExpression v)) /\
  (forall e, reconvert v = Err e -> exists e', initialise (after_run s1 dt ex) = Err e') /\
  (forall v' s2 p2, reconvert v = Ok v' -> initialise (after_run s1 dt ex) = Ok (s2, p2) -> pb_T_ini p2 = Some v').
Proof.
  intros HT H.
  assert (H1 : pb_T_ini p1 = Some v /\ sm_T s1 = Some (THeat true (IniExpression v))).
  { unfold Simulation.initialise in H. step H r0 E. step H T E0. step H r1 E1. step H r2 E2. step H r3 E3. step H r4 E4.
    step H r5 E5. step H r6 E6. step H r7 E7. step H r8 E8. step H r9 E9. destruct r9 as [[[ids ini] mss] c].
    step H r10 E10. injection H as <- <-. unfold get_T in E0. rewrite HT in E0. injection E0 as <-.
    cbn [create_T] in E5. step E5 u Eu. injection E5 as <-. split; reflexivity. }
  destruct H1 as [H1 H2]. split; [assumption|]. split; [assumption|].
  assert (HT2 : sm_T (after_run s1 dt ex) = Some (THeat true (IniExpression v))) by exact H2.
  split.
  - intros e He. destruct (initialise (after_run s1 dt ex)) as [r|e'] eqn:Ei; [|eauto].
    exfalso. apply (C36_complete _ _ Ei). now apply (mis_reconvert _ _ _ _ _ _ _ v e).
  - intros v' s2 p2 Hr Hi. unfold Simulation.initialise in Hi. step Hi r0 E. step Hi T E0. step Hi r1 E1. step Hi r2 E2.
    step Hi r3 E3. step Hi r4 E4. step Hi r5 E5. step Hi r6 E6. step Hi r7 E7. step Hi r8 E8. step Hi r9 E9.
    destruct r9 as [[[ids ini] mss] c]. step Hi r10 E10. injection Hi as <- <-. unfold get_T in E0. rewrite HT2 in E0.
    injection E0 as <-. cbn [create_T] in E5. rewrite Hr in E5. cbn [bind] in E5. step E5 u Eu. injection E5 as <-. reflexivity.
Qed.

(** * C78 *)
Lemma coords_eqb_spec a b : coords_eqb a b = true <-> a = b.
Proof. destruct a, b; cbn; split; congruence. Qed.
Lemma allowed_spec k c : existsb (coords_eqb c) (allowed_meshes k) = true <-> made_for k c.
Proof.
  rewrite existsb_exists. split.
  - intros (x & Hx & He). apply coords_eqb_spec in He as <-. destruct k; cbn in Hx; cbn;
      repeat (destruct Hx as [<-|Hx]; [congruence|]); try tauto; congruence.
  - intros H. exists c. split; [|now apply coords_eqb_spec].
    destruct k; cbn in H |- *; subst; auto; destruct c; auto; congruence.
Qed.
Definition unsuited (c : coords) (q : quantity (A:=Q) F W) : Prop := ~ made_for (q_kind q) c.
Lemma selected_app {A} (p : A -> Prop) l1 m1 l2 m2 : selected p l1 m1 -> selected p l2 m2 -> selected p (l1 ++ l2) (m1 ++ m2).
Proof. intros H1 H2. induction H1; cbn; [assumption|constructor; assumption|constructor; assumption]. Qed.
Lemma check_quantities_warnings c bcs (st : store (A:=Q) F W) qs : forall w, check_quantities c bcs st qs = Ok w ->
  exists sel, selected (unsuited c) (map st qs) sel /\ w = map (fun _ => not_intended) sel.
Proof.
  induction qs as [|i r IH]; intros w; cbn [check_quantities map].
  { intros [= <-]. exists []. split; [constructor|reflexivity]. }
  destruct (_ && _)%bool; [discriminate|]. intros H. step H rest E. injection H as <-.
  destruct (IH _ E) as (sel & Hs & ->). pose proof (allowed_spec (q_kind (st i)) c) as Ha.
  destruct (existsb (coords_eqb c) (allowed_meshes (q_kind (st i)))).
  - exists sel. split; [|reflexivity]. apply sel_drop; [|assumption]. unfold unsuited. tauto.
  - exists (st i :: sel). split; [|reflexivity]. apply sel_keep; [|assumption]. unfold unsuited.
    intros Hc. apply Ha in Hc. discriminate.
Qed.
Definition quantities_of (s : sim) (l : list (export (A:=Q) F W C)) : list (quantity (A:=Q) F W) :=
  flat_map (fun e => match e with EDerived d => map (ex_store (sm_exports s)) (dq_list d) | _ => [] end) l.
Lemma export_loop_warnings (s : sim) l : forall dt i dt' w, export_loop dofs argsort s dt i l = Ok (dt', w) ->
  exists sel, selected (unsuited (ms_type (sm_mesh s))) (quantities_of s l) sel /\ w = map (fun _ => not_intended) sel.
Proof.
  induction l as [|[d|x|x] r IH]; intros dt i dt' w H; cbn [export_loop] in H.
  - injection H as <- <-. exists []. split; [constructor|reflexivity].
  - step H w0 E0. step H p E1. destruct p as [dt1 w1]. injection H as <- <-.
    apply check_quantities_warnings in E0 as (s0 & Hs0 & ->). apply IH in E1 as (s1 & Hs1 & ->).
    exists (s0 ++ s1)%list. split; [now apply selected_app|now rewrite map_app].
  - now apply IH in H.
  - step H u E0. step H dt1 E1. now apply IH in H.
Qed.

(** The warnings of initialise: unused properties of the materials, and one warning for each quantity whose class is
    not made for the coordinates. *)
Theorem C78_coordinates (s s1 : sim) p1 : initialise s = Ok (s1, p1) ->
  exists T w1 w2 sel, sm_T s = Some T /\ pb_warnings p1 = (w1 ++ w2)%list /\
    check_materials (sm_materials s) (temp_kind_of T) false = Ok w1 /\
    selected (fun q => ~ made_for (q_kind q) (ms_type (sm_mesh s))) (all_quantities s) sel /\
    w2 = map (fun _ => not_intended) sel.
Proof.
  unfold Simulation.initialise. intros H. step H r0 E. step H T E0. step H r1 E1. step H r2 E2. step H r3 E3.
  step H r4 E4. step H r5 E5. step H w1 E6. step H r7 E7. step H r8 E8. step H r9 E9. destruct r9 as [[[ids ini] mss] c].
  step H e E10. injection H as <- <-. destruct e as [dt' w2]. apply export_loop_warnings in E10 as (sel & Hs & ->).
  exists T, w1. eexists. exists sel. split; [unfold get_T in E0; destruct (sm_T s); congruence|].
  split; [reflexivity|]. split; [assumption|]. split; [exact Hs|reflexivity].
Qed.

(** Part of C78: which properties are said to be ignored.  Missing: that they are, see C78_ignored_refuted. *)
Theorem C78_ignored_partial (s s1 : sim) p1 : initialise s = Ok (s1, p1) ->
  (In "rho key will be ignored" (pb_warnings p1) <-> ~ heat_sim s /\ exists m, In m (sm_materials s) /\ m_rho m <> None) /\
  (In "heat_capacity key will be ignored" (pb_warnings p1) <-> ~ heat_sim s /\ exists m, In m (sm_materials s) /\ m_heat m <> None) /\
  (In "thermal_cond key will be ignored" (pb_warnings p1) <-> ~ heat_sim s /\ exists m, In m (sm_materials s) /\ m_thermal m <> None).
Proof.
  intros H. pose proof (C36_complete _ _ H) as Hmis.
  destruct (C78_coordinates _ _ _ H) as (T & w1 & w2 & sel & HT & -> & Hw & _ & ->).
  assert (Hne : sm_materials s <> []) by (intros Hn; apply Hmis; now apply mis_material).
  destruct (MaterialProps.C27_all_or_none (sm_materials s) (temp_kind_of T) false Hne) as (_ & _ & Hw').
  destruct (Hw' _ Hw) as (H1 & H2 & H3 & _).
  assert (HG : temp_kind_of T = Given <-> ~ heat_sim s).
  { unfold heat_sim. rewrite HT. destruct T as [b| |b i]; cbn; split; try reflexivity; try discriminate.
    - intros _ (x & y & [=]).
    - intros _ (x & y & [=]).
    - intros Hn. elim Hn. eauto. }
  assert (Happ : forall m, m <> not_intended -> (In m (w1 ++ map (fun _ => not_intended) sel)%list <-> In m w1)).
  { intros m Hm. rewrite in_app_iff. split; [|tauto]. intros [Hi|Hi]; [assumption|].
    apply in_map_iff in Hi as (q & Hq & _). congruence. }
  rewrite !Happ by discriminate. rewrite H1, H2, H3, HG. intuition.
Qed.
End Need.

(** * Examples and refutation *)
Section Example.
Local Open Scope Q_scope.
Local Notation sim := (@sim Q Q key Q unit Q Q).
(** The simulation of C36_example with another mesh, another temperature and other quantities. *)
Definition ex_with (T : temp_spec (V:=Q)) (ty : coords) (ks : list qkind) : sim :=
  let s := SimProps.good in
  mkSim (sm_transient s) (sm_final s) (sm_chem s) (sm_soret s) (sm_dg s) (sm_dt s) (Some T) [KI 0; KI 1]
    [mk_bc 1 Dirichlet (KS "solute") [1]%Z; mk_bc 2 Flux (KI 0) [2]%Z]
    (mkMeshSpec ty 1 (Some SimProps.ex_mesh)) (sm_materials s) (sm_traps s) (sm_inis s)
    (mkExports [EDerived (mkDerived (seq 0 (length ks)) (Some "out/f.csv") 1 None true [] [])]
       (fun i => SimProps.ex_quantity (nth i ks MaximumVolume) 1) [] None 0) (sm_filters s) (sm_attached s).
Definition warnings_of (s : sim) : option (list string) :=
  match SimProps.ex_initialise s with Ok (_, p) => Some (pb_warnings p) | Err _ => None end.

(** C78 is false: thermal_cond is said to be ignored although a ThermalFlux is exported. *)
Theorem C78_ignored_refuted : exists (s s1 : sim) p1 q,
  SimProps.ex_initialise s = Ok (s1, p1) /\ has_quantity s q /\ q_kind q = ThermalFlux /\
  In "thermal_cond key will be ignored" (pb_warnings p1).
Proof.
  exists (ex_with (TGiven true) Cartesian [ThermalFlux]).
  destruct (SimProps.ex_initialise (ex_with (TGiven true) Cartesian [ThermalFlux])) as [[s1 p1]|e] eqn:E;
    [|exfalso; revert E; vm_compute; discriminate].
  exists s1, p1, (SimProps.ex_quantity ThermalFlux 1). split; [reflexivity|]. split.
  { eexists _, 0%nat. split; [now left|]. split; [now left|reflexivity]. }
  split; [reflexivity|]. revert E. vm_compute. intros [= <- <-]. cbn. tauto.
Qed.

(** In spherical coordinates two of four quantities are warned about. *)
Example C78_example :
  warnings_of (ex_with (TGiven true) Spherical [TotalVolume; TotalVolumeSpherical; MaximumVolume; HydrogenFlux]) =
  Some ["rho key will be ignored"; "heat_capacity key will be ignored"; "rho key will be ignored"; "heat_capacity key will be ignored";
        "thermal_cond key will be ignored"; "thermal_cond key will be ignored"; not_intended; not_intended].
Proof. vm_compute. reflexivity. Qed.

(** The simulation of C36_example is accepted (C36_example), so it is complete; with a source in a list of volumes on
    the trap it is not. *)
Example C36_complete_example :
  ~ missing (fun k => k) (fun _ => false) (fun _ => false) SimProps.ex_same (fun v => Ok v) (Err (TypeError "dx")) SimProps.good /\
  missing (fun k => k) (fun _ => false) (fun k => key_eqb k (KI 1)) SimProps.ex_same (fun v => Ok v) (Err (TypeError "dx")) SimProps.good.
Proof.
  split.
  - destruct (SimProps.ex_initialise SimProps.good) as [r|e] eqn:E; [|exfalso; revert E; vm_compute; discriminate].
    exact (C36_complete _ _ _ _ _ _ _ _ _ _ _ _ E).
  - apply (mis_trap_source _ _ _ _ _ _ _ 1%nat (KI 1)); [eexists; reflexivity|cbn; lia|cbn; auto| |reflexivity].
    cbn. split; [lia|now left].
Qed.
Example C22_heat_initial_example : exists s1 p1,
  sm_T SimProps.good = Some (THeat true (IniValue 300)) /\ SimProps.ex_initialise SimProps.good = Ok (s1, p1).
Proof.
  destruct (SimProps.ex_initialise SimProps.good) as [[s1 p1]|e] eqn:E; [|exfalso; revert E; vm_compute; discriminate].
  exists s1, p1. split; reflexivity.
Qed.
End Example.

Print Assumptions C36_complete.
Print Assumptions C22_heat_initial.
Print Assumptions C78_coordinates.
Print Assumptions C78_ignored_partial.
Print Assumptions C78_ignored_refuted.
