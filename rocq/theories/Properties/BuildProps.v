(** C63: which inputs the equations can be built from. *)
From Coq Require Import Reals ZArith List Bool String Lra Lia.
From Verif Require Import Base.Exc Base.Dual Model.Materials Model.Theta Model.Forms Spec.BuildSpec
  Proofs.FormProofs Proofs.MaterialProofs Properties.FormProps.
Import ListNotations.
Local Open Scope R_scope.
Local Open Scope list_scope.

Definition ok {A} (r : res A) : Prop := exists x, r = Ok x.
Lemma ok_Ok {A} (a : A) : ok (Ok a) <-> True.
Proof. split; [auto|]. intros _. now exists a. Qed.
Lemma ok_Err {A} e : @ok A (Err e) <-> False.
Proof. split; [|intros []]. intros [x H]. discriminate. Qed.
Lemma ok_seq {A B} (r : res A) (f : A -> res B) Q : (forall a, ok (f a) <-> Q) -> (ok (bind r f) <-> ok r /\ Q).
Proof. intros HQ. destruct r as [a|e]; cbn [bind]; [rewrite HQ, ok_Ok; tauto|]. rewrite !ok_Err. tauto. Qed.
Lemma ok_sum {P A} (f : A -> res (form P)) l : ok (sum_forms f l) <-> forall a, In a l -> ok (f a).
Proof.
  induction l as [|a l IH]; cbn [sum_forms].
  - rewrite ok_Ok. split; [intros _ a []|auto].
  - rewrite (ok_seq _ _ (ok (sum_forms f l))).
    + rewrite IH. split; [intros [H1 H2] b [<-|Hb]; auto|]. intros H. split; [apply H; now left|]. intros b Hb. apply H. now right.
    + intros F. rewrite (ok_seq _ _ True); [tauto|]. intros. apply ok_Ok.
Qed.
Lemma ok_enum {P A} (f : nat -> A -> res (form P)) l k :
  ok (sum_forms_enum f k l) <-> forall i a, nth_error l i = Some a -> ok (f (k + i)%nat a).
Proof.
  revert k. induction l as [|a l IH]; intros k; cbn [sum_forms_enum].
  - rewrite ok_Ok. split; [intros _ [|i] a H; discriminate H|auto].
  - rewrite (ok_seq _ _ (ok (sum_forms_enum f (S k) l))).
    + rewrite IH. split.
      * intros [H1 H2] [|i] b Hb; cbn in Hb; [injection Hb as <-; now rewrite Nat.add_0_r|].
        replace (k + S i)%nat with (S k + i)%nat by lia. auto.
      * intros H. split; [rewrite <- (Nat.add_0_r k); now apply H|]. intros i b Hb.
        replace (S k + i)%nat with (k + S i)%nat by lia. now apply H.
    + intros F. rewrite (ok_seq _ _ True); [tauto|]. intros. apply ok_Ok.
Qed.
Lemma ok_float p : ok (float_of p) <-> constant p.
Proof.
  unfold constant. destruct p as [[r|g]|]; cbn [float_of]; rewrite ?ok_Ok, ?ok_Err; split; try tauto; eauto;
    intros [x H]; discriminate.
Qed.
Lemma ok_value p : ok (value_at p) <-> present p.
Proof. unfold present. destruct p as [[r|g]|]; cbn [value_at]; rewrite ?ok_Ok, ?ok_Err; split; try tauto; congruence. Qed.
Lemma ok_id i : ok (dx_id i) <-> one_id i.
Proof.
  unfold one_id. destruct i; cbn [dx_id]; rewrite ?ok_Ok, ?ok_Err; split; try tauto; eauto. intros [x H]; discriminate.
Qed.
Lemma ok_index {A} (l : list A) i : ok (index l i) <-> (i < List.length l)%nat.
Proof.
  unfold index. destruct (nth_error l i) eqn:E; rewrite ?ok_Ok, ?ok_Err; split; try tauto; intros H.
  - apply nth_error_Some. congruence.
  - apply nth_error_Some in H. congruence.
Qed.
Lemma ok_concentration {P} (mb : mobile P) m T :
  ok (get_concentration mb m T) <-> (with_potential mb -> has_solubility m).
Proof.
  unfold get_concentration, check_concentration, with_potential, has_solubility. destruct (mb_class mb) as [|S_ l]; cbn [bind].
  - rewrite ok_Ok. tauto.
  - rewrite (ok_seq _ _ True) by (intros; apply ok_Ok).
    rewrite (ok_seq _ _ (constant (m_S0 m))).
    + rewrite ok_float. split; [tauto|]. intros H. assert (ClassTheta S_ l <> ClassMobile) by discriminate. tauto.
    + intros _. rewrite (ok_seq _ _ True) by (intros; apply ok_Ok). rewrite ok_float. tauto.
Qed.
Lemma ok_material {P} (M : mesh P) mb T dt soret m :
  ok (material_form M mb T dt soret m) <-> material_ready mb soret (attrs m).
Proof.
  unfold material_form, material_ready.
  rewrite (ok_seq _ _ (constant (Some (m_D0 (attrs m))) /\ constant (Some (m_ED (attrs m))) /\
    (soret = true -> present (m_Q (attrs m))))).
  - rewrite ok_concentration. tauto.
  - intros c. rewrite (ok_seq _ _ (constant (Some (m_ED (attrs m))) /\ (soret = true -> present (m_Q (attrs m))))).
    + rewrite ok_float. tauto.
    + intros D. rewrite (ok_seq _ _ (soret = true -> present (m_Q (attrs m)))).
      * rewrite ok_float. tauto.
      * intros E. rewrite (ok_seq _ _ True) by (intros; apply ok_Ok).
        destruct soret; [rewrite ok_value|rewrite ok_Ok]; intuition discriminate.
Qed.

Lemma ok_params {P} (t : trap P) i :
  ok (match t_k0 t with
      | PerMat k =>
          let! k_0 := index k i in
          let! E_k := arg_index (t_Ek t) i in
          let! p_0 := arg_index (t_p0 t) i in
          let! E_p := arg_index (t_Ep t) i in
          let! density := index (t_density t) i in
          Ok (k_0, E_k, p_0, E_p, density)
      | Scalar k_0 =>
          let! E_k := arg_number (t_Ek t) in
          let! p_0 := arg_number (t_p0 t) in
          let! E_p := arg_number (t_Ep t) in
          let! density := index (t_density t) 0 in
          Ok (k_0, E_k, p_0, E_p, density)
      end) <-> entry_ready t i.
Proof.
  assert (HA : forall a, ok (arg_index a i) <-> has_entry a i).
  { intros [r|l]; cbn [arg_index has_entry]; [apply ok_Err|apply ok_index]. }
  assert (HN : forall a, ok (arg_number a) <-> is_number a).
  { intros [r|l]; cbn [arg_number is_number]; [apply ok_Ok|apply ok_Err]. }
  unfold entry_ready. destruct (t_k0 t) as [k|k]; cbn [has_entry is_number].
  - rewrite (ok_seq _ _ (is_number (t_p0 t) /\ is_number (t_Ep t) /\ t_density t <> [])); [rewrite HN; tauto|].
    intros ?. rewrite (ok_seq _ _ (is_number (t_Ep t) /\ t_density t <> [])); [rewrite HN; tauto|].
    intros ?. rewrite (ok_seq _ _ (t_density t <> [])); [rewrite HN; tauto|].
    intros ?. rewrite (ok_seq _ _ True) by (intros; apply ok_Ok). rewrite ok_index.
    destruct (t_density t); cbn; split; try lia; try congruence; intros; split; try lia; auto.
  - rewrite (ok_seq _ _ (has_entry (t_Ek t) i /\ has_entry (t_p0 t) i /\ has_entry (t_Ep t) i /\ (i < List.length (t_density t))%nat));
      [rewrite ok_index; tauto|].
    intros ?. rewrite (ok_seq _ _ (has_entry (t_p0 t) i /\ has_entry (t_Ep t) i /\ (i < List.length (t_density t))%nat));
      [rewrite HA; tauto|].
    intros ?. rewrite (ok_seq _ _ (has_entry (t_Ep t) i /\ (i < List.length (t_density t))%nat)); [rewrite HA; tauto|].
    intros ?. rewrite (ok_seq _ _ (i < List.length (t_density t))%nat); [rewrite HA; tauto|].
    intros ?. rewrite (ok_seq _ _ True) by (intros; apply ok_Ok). rewrite ok_index. tauto.
Qed.
Lemma ok_mobile_terms {P} (mb : mobile P) T t i m :
  ok (mobile_trapping_terms mb T t i m) <->
  entry_ready t i /\ one_id (m_id (attrs m)) /\ (with_potential mb -> has_solubility (attrs m)).
Proof.
  unfold mobile_trapping_terms.
  rewrite (ok_seq _ _ (one_id (m_id (attrs m)) /\ (with_potential mb -> has_solubility (attrs m)))); [rewrite ok_params; tauto|].
  intros [[[[k Ek] p0] Ep] d]. rewrite (ok_seq _ _ (one_id (m_id (attrs m)))); [rewrite ok_concentration; tauto|].
  intros c. rewrite (ok_seq _ _ True) by (intros; apply ok_Ok). rewrite ok_id. tauto.
Qed.
Lemma ok_trap_terms {P} (mb : mobile P) T t i m :
  ok (trapping_terms mb T t i m) <->
  entry_ready t i /\ one_id (m_id (attrs m)) /\
  (with_potential mb -> has_solubility (attrs m) /\ m_law (attrs m) <> Henry).
Proof.
  unfold trapping_terms.
  rewrite (ok_seq _ _ (one_id (m_id (attrs m)) /\ (with_potential mb -> has_solubility (attrs m) /\ m_law (attrs m) <> Henry)));
    [rewrite ok_params; tauto|].
  intros [[[[k Ek] p0] Ep] d].
  rewrite (ok_seq _ _ (one_id (m_id (attrs m)) /\ (with_potential mb -> has_solubility (attrs m)))).
  - unfold with_potential. destruct (mb_class mb), (m_law (attrs m)); rewrite ?ok_Ok, ?ok_Err; try tauto.
    + split; [|tauto]. intros [_ [H1 H2]]. split; [exact H1|]. intros H. split; [auto|discriminate].
    + split; [tauto|]. intros [_ H]. destruct H as [_ H]; [discriminate|]. congruence.
  - intros ?. rewrite (ok_seq _ _ (one_id (m_id (attrs m)))); [rewrite ok_concentration; tauto|].
    intros c. rewrite (ok_seq _ _ True) by (intros; apply ok_Ok). rewrite ok_id. tauto.
Qed.

Lemma ok_trap {P} (mb : mobile P) ms T dt t :
  ok (trap_create_form mb ms T dt t) <-> trap_ready mb ms dt t.
Proof.
  unfold trap_create_form, trap_ready, create_trapping_form.
  rewrite (ok_seq _ _ (forall s, In s (t_sources t) -> one_id (s_volume s))).
  2:{ intros F. rewrite (ok_seq _ _ True) by (intros; apply ok_Ok). rewrite ok_sum.
      split; [intros [H _]|intros H; split; [|exact I]]; intros s Hs; specialize (H s Hs); revert H; unfold trap_source_terms;
        rewrite (ok_seq _ _ True) by (intros; apply ok_Ok); rewrite ok_id; tauto. }
  rewrite (ok_seq _ _ (forall i m, nth_error (t_materials t) i = Some m ->
     entry_ready t i /\ one_id (m_id (attrs m)) /\
     (with_potential mb -> has_solubility (attrs m) /\ m_law (attrs m) <> Henry))).
  2:{ intros F. rewrite (ok_seq _ _ True) by (intros; apply ok_Ok). rewrite ok_enum.
      split; [intros [H _]|intros H; split; [|exact I]]; intros i m Hm; specialize (H i m Hm); revert H;
        cbn [Nat.add]; rewrite ok_trap_terms; tauto. }
  assert (HD : ok (match dt with
              | Some dt => Ok [(DxAll, fun p => (val (t_solution t p) - val (t_previous t p)) / dt * val (t_test t p))]
              | None => sum_forms (fun m => if mat_in m (t_materials t) then Ok []
                                      else let! id := dx_id (m_id (attrs m)) in
                                           Ok [(Dx id, fun p => val (t_solution t p) * val (t_test t p))]) ms
              end) <->
    (dt = None -> forall m, In m ms -> (forall x, In x (t_materials t) -> uid x <> uid m) -> one_id (m_id (attrs m)))).
  { destruct dt as [dt|].
    - rewrite ok_Ok. split; [discriminate|auto].
    - etransitivity; [apply ok_sum|]. split; [intros H _ m Hm Hx|intros H m Hm].
      + specialize (H m Hm). destruct (mat_in m (t_materials t)) eqn:E.
        * unfold mat_in in E. apply existsb_exists in E as (x & Hx' & E). apply Nat.eqb_eq in E. destruct (Hx x Hx'). auto.
        * rewrite (ok_seq _ _ True) in H by (intros; apply ok_Ok). rewrite ok_id in H. tauto.
      + destruct (mat_in m (t_materials t)) eqn:E; [now apply ok_Ok|].
        rewrite (ok_seq _ _ True) by (intros; apply ok_Ok). rewrite ok_id. split; [|exact I].
        apply H; auto. intros x Hx Hu. apply not_true_iff_false in E. apply E. unfold mat_in. apply existsb_exists.
        exists x. split; [exact Hx|]. now apply Nat.eqb_eq. }
  rewrite HD. tauto.
Qed.

(** The equations are built exactly from the ready inputs. *)
Theorem C63_built_iff {P} (M : mesh P) mb ms T dt traps soret :
  (exists F, define_variational_problem M mb ms T dt traps soret = Ok F) <-> ready mb ms dt traps soret.
Proof.
  change (ok (define_variational_problem M mb ms T dt traps soret) <-> ready mb ms dt traps soret).
  unfold define_variational_problem, mobile_create_form, create_diffusion_form, ready.
  rewrite (ok_seq _ _ (forall t, In t traps -> trap_ready mb ms dt t)).
  2:{ intros F. rewrite (ok_seq _ _ True) by (intros; apply ok_Ok). rewrite ok_sum.
      split; [intros [H _]|intros H; split; [|exact I]]; intros t Ht; specialize (H t Ht); revert H; rewrite ok_trap; tauto. }
  rewrite (ok_seq _ _ True) by (intros; apply ok_Ok).
  rewrite (ok_seq _ _ (forall t, In t traps -> forall i m, nth_error (t_materials t) i = Some m ->
     entry_ready t i /\ one_id (m_id (attrs m)) /\ (with_potential mb -> has_solubility (attrs m)))).
  2:{ intros F. rewrite (ok_seq _ _ True) by (intros; apply ok_Ok). rewrite ok_sum.
      split; [intros [H _]|intros H; split; [|exact I]]; intros t Ht; specialize (H t Ht); revert H; rewrite ok_enum.
      - intros H i m Hm. specialize (H i m Hm). cbn [Nat.add] in H. now rewrite ok_mobile_terms in H.
      - intros H i m Hm. specialize (H i m Hm). cbn [Nat.add]. now rewrite ok_mobile_terms. }
  rewrite ok_sum. split.
  - intros [[[H1 H2] _] H3]. split; [|exact H3]. intros m Hm. specialize (H1 m Hm). now rewrite ok_material in H1.
  - intros [H1 H2]. split; [|exact H2]. split; [|exact I]. split.
    + intros m Hm. rewrite ok_material. auto.
    + intros t Ht i m Hm. destruct (proj1 (H2 t Ht) i m Hm) as (Ha & Hb & Hc). split; [exact Ha|]. split; [exact Hb|].
      intros Hp. now destruct (Hc Hp).
Qed.
Print Assumptions C63_built_iff.

(** The heat equation is built exactly when the properties are there and no flux reads the concentration. *)
Theorem C63_heat_built_iff {P} (M : mesh P) tr dt T T_n v ms sources bcs :
  (exists F, heat_form M tr dt T T_n v ms sources bcs = Ok F) <->
  (forall m, In m ms -> heat_ready tr (attrs m)) /\ (forall b, In b bcs -> reads_solute (snd b) = false).
Proof.
  change (ok (heat_form M tr dt T T_n v ms sources bcs) <->
    (forall m, In m ms -> heat_ready tr (attrs m)) /\ (forall b, In b bcs -> reads_solute (snd b) = false)).
  unfold heat_form. rewrite (ok_seq _ _ (forall b, In b bcs -> reads_solute (snd b) = false)).
  - rewrite ok_sum. assert (H : forall m, ok (heat_material_form M tr dt T T_n v m) <-> heat_ready tr (attrs m)).
    { intros m. unfold heat_material_form, heat_ready.
      rewrite (ok_seq _ _ (tr = true -> present (m_heat (attrs m)) /\ present (m_rho (attrs m)))); [rewrite ok_value; tauto|].
      intros k. rewrite (ok_seq _ _ True) by (intros; apply ok_Ok). destruct tr; [|rewrite ok_Ok; intuition discriminate].
      rewrite (ok_seq _ _ (present (m_rho (attrs m)))); [rewrite ok_value; intuition|].
      intros cp. rewrite (ok_seq _ _ True) by (intros; apply ok_Ok). rewrite ok_value. tauto. }
    split; intros [H1 H2]; (split; [|exact H2]); intros m Hm; specialize (H1 m Hm); now apply H.
  - intros F. rewrite (ok_seq _ _ True) by (intros; apply ok_Ok). rewrite ok_sum.
    assert (H : forall b : list Z * flux P, ok (let! g := heat_flux_form (snd b) T in
      Ok (map (fun surf => (Ds surf, fun p => - g p * val (v p))) (fst b))) <-> reads_solute (snd b) = false).
    { intros [s f]. rewrite (ok_seq _ _ True) by (intros; apply ok_Ok). cbn [snd].
      destruct f; cbn [heat_flux_form reads_solute]; rewrite ?ok_Ok, ?ok_Err; intuition discriminate. }
    split; [intros [H1 _]|intros H1; split; [|exact I]]; intros b Hb; specialize (H1 b Hb); now apply H.
Qed.
Print Assumptions C63_heat_built_iff.

(** The checks of the materials guarantee the properties of the heat equation ... *)
Lemma count_all {A B} (f : A -> option B) l m :
  List.length (filter (fun m => negb (is_some (f m))) l) = 0%nat \/
  List.length (filter (fun m => negb (is_some (f m))) l) = List.length l ->
  In m l -> f m <> None -> forall m', In m' l -> f m' <> None.
Proof.
  intros [H|H] Hm Hf m' Hm' Hf'.
  - assert (Hin : In m' (filter (fun m => negb (is_some (f m))) l)) by (apply filter_In; split; [auto|now rewrite Hf']).
    apply length_zero_iff_nil in H. rewrite H in Hin. destruct Hin.
  - clear Hm' Hf'.
    assert (HL : forall l : list A, (List.length (filter (fun m => negb (is_some (f m))) l) <= List.length l)%nat).
    { induction l0 as [|a l0 IH]; cbn; [lia|]. destruct (negb (is_some (f a))); cbn; lia. }
    induction l as [|a l IH]; [destruct Hm|]. cbn in H. specialize (HL l). destruct (is_some (f a)) eqn:E; cbn in H; [lia|].
    destruct Hm as [<-|Hm]; [destruct (f a); [discriminate|congruence]|]. apply IH; [lia|exact Hm].
Qed.
Lemma consistent_all {B} (f : mat -> option B) l m : consistent f l = true -> In m l -> present (f m) ->
  forall m', In m' l -> present (f m').
Proof.
  unfold consistent, count_none. intros H. apply (count_all f l m).
  apply orb_true_iff in H as [H|H]; apply Nat.eqb_eq in H; auto.
Qed.
Lemma attribute_ok {B} name (f : mat -> option B) l u : check_attribute name f l = Ok u -> consistent f l = true.
Proof. unfold check_attribute. destruct (consistent f l); [auto|discriminate]. Qed.
Lemma checked {ms T fl w} : @check_materials R prop ms T fl = Ok w -> ms <> [] ->
  consistent m_S0 ms = true /\ consistent m_ES ms = true /\ consistent m_thermal ms = true /\
  consistent m_heat ms = true /\ consistent m_rho ms = true /\ consistent m_Q ms = true /\
  check_missing_properties ms T = Ok tt.
Proof.
  unfold check_materials. destruct ms as [|m0 r]; [congruence|]. intros H _. unfold check_consistency in H.
  repeat match type of H with context [check_attribute ?n ?f ?l] =>
    let E := fresh "E" in destruct (check_attribute n f l) eqn:E; cbn [bind] in H; [apply attribute_ok in E|discriminate H] end.
  destruct (check_unique_ids (m0 :: r)); cbn [bind] in H; [|discriminate].
  destruct (check_missing_properties (m0 :: r) T) as [[]|] eqn:E8; cbn [bind] in H; [|discriminate].
  repeat split; assumption.
Qed.
Theorem C63_checked_heat (ms : list mat_obj) tr fl w :
  check_materials (map attrs ms) (HeatTransfer tr) fl = Ok w -> forall m, In m ms -> heat_ready tr (attrs m).
Proof.
  intros H m Hm. destruct ms as [|m0 r]; [destruct Hm|].
  destruct (checked H) as (_ & _ & Ht & Hh & Hr & _ & Hc); [discriminate|]. cbn [check_missing_properties map] in Hc.
  assert (Hin : In (attrs m) (map attrs (m0 :: r))) by now apply in_map.
  assert (H0 : In (attrs m0) (map attrs (m0 :: r))) by now left.
  destruct (is_some (m_thermal (attrs m0))) eqn:E1; cbn [negb] in Hc; [|discriminate].
  split; [apply (consistent_all _ _ _ Ht H0); [|exact Hin]; intros E; rewrite E in E1; discriminate|].
  intros ->. destruct (is_some (m_heat (attrs m0))) eqn:E2; cbn [negb] in Hc; [|discriminate].
  destruct (is_some (m_rho (attrs m0))) eqn:E3; cbn [negb] in Hc; [|discriminate].
  split; [apply (consistent_all _ _ _ Hh H0)|apply (consistent_all _ _ _ Hr H0)]; try exact Hin;
    intros E; [rewrite E in E2|rewrite E in E3]; discriminate.
Qed.
Print Assumptions C63_checked_heat.

(** ... so that the heat equation of checked materials is built unless a flux reads the concentration ... *)
Theorem C63_heat_progress {P} (M : mesh P) tr fl w dt T T_n v ms sources bcs :
  check_materials (map attrs ms) (HeatTransfer tr) fl = Ok w -> (forall b, In b bcs -> reads_solute (snd b) = false) ->
  exists F, heat_form M tr dt T T_n v ms sources bcs = Ok F.
Proof. intros H Hb. apply C63_heat_built_iff. split; [exact (C63_checked_heat _ _ _ _ H)|exact Hb]. Qed.
Print Assumptions C63_heat_progress.

(** ... and S_0 and E_S together, in all the materials or in none; Q in all or none. *)
Theorem C63_checked_solubility (ms : list mat_obj) T fl w :
  (forall m, In m ms -> check_properties (attrs m) = Ok (attrs m)) ->
  check_materials (map attrs ms) T fl = Ok w ->
  ((forall m, In m ms -> present (m_S0 (attrs m)) /\ present (m_ES (attrs m))) \/
   (forall m, In m ms -> m_S0 (attrs m) = None /\ m_ES (attrs m) = None)) /\
  ((forall m, In m ms -> present (m_Q (attrs m))) \/ (forall m, In m ms -> m_Q (attrs m) = None)).
Proof.
  intros Hc H. destruct ms as [|m0 r]; [split; left; intros m []|].
  destruct (checked H) as (HS & _ & _ & _ & _ & HQ & _); [discriminate|].
  assert (Hpair : forall m, In m (m0 :: r) -> (m_S0 (attrs m) = None <-> m_ES (attrs m) = None)).
  { intros m Hm. specialize (Hc m Hm). unfold check_properties in Hc.
    destruct (m_S0 (attrs m)), (m_ES (attrs m)); try discriminate; split; congruence. }
  assert (H0 : In (attrs m0) (map attrs (m0 :: r))) by now left.
  split.
  - destruct (m_S0 (attrs m0)) eqn:E.
    + left. intros m Hm. assert (Hp : present (m_S0 (attrs m))).
      { apply (consistent_all _ _ _ HS H0); [congruence|now apply in_map]. }
      split; [exact Hp|]. intros HE. apply Hp. now apply Hpair.
    + right. intros m Hm. assert (Hn : m_S0 (attrs m) = None).
      { destruct (m_S0 (attrs m)) eqn:Em; [|reflexivity]. exfalso.
        apply (consistent_all _ _ (attrs m) HS) with (m' := attrs m0); [now apply in_map|congruence|exact H0|exact E]. }
      split; [exact Hn|]. now apply Hpair.
  - destruct (m_Q (attrs m0)) eqn:E.
    + left. intros m Hm. apply (consistent_all _ _ _ HQ H0); [congruence|now apply in_map].
    + right. intros m Hm. destruct (m_Q (attrs m)) eqn:Em; [|reflexivity]. exfalso.
      apply (consistent_all _ _ (attrs m) HQ) with (m' := attrs m0); [now apply in_map|congruence|exact H0|exact E].
Qed.
Print Assumptions C63_checked_solubility.
Theorem C63_constructor (m : mat) :
  (check_properties m = Ok m <-> (m_S0 m = None <-> m_ES m = None)) /\
  (forall e, check_properties m = Err e -> exists s, e = ValueError s).
Proof.
  unfold check_properties. destruct (m_S0 m), (m_ES m); (split; [|intros e H; inversion H; eauto]);
    (split; [|reflexivity || (intros [H1 H2]; first [now discriminate H1|now discriminate H2])]); try discriminate; intros _; split; congruence.
Qed.
Print Assumptions C63_constructor.

(** Checked materials are not enough for the chemical potential and for the Soret effect. *)
Definition bare_mat : mat := mkMaterial (IdOne 1) None (Const 1) (Const 0) None None None None None BNone None Sievert.
Theorem C63_checked_refuted :
  (exists (M : mesh nat) mb ms T w, check_materials (map attrs ms) Given false = Ok w /\ with_potential mb /\
     define_variational_problem M mb ms T (Some 1) [] false = Err (TypeError "unsupported operand type(s): 'NoneType'")) /\
  (exists (M : mesh nat) mb ms T w, check_materials (map attrs ms) Given false = Ok w /\
     define_variational_problem M mb ms T (Some 1) [] true = Err (TypeError "unsupported operand type(s): 'NoneType'")).
Proof.
  split.
  - exists (mesh_ty Cartesian), (mobile_1 (ClassTheta (fun _ => 1) [bare_mat]) ones [] []), [mkMatObj 0 bare_mat], T400, [].
    split; [reflexivity|]. split; [discriminate|reflexivity].
  - exists (mesh_ty Cartesian), (mobile_1 ClassMobile ones [] []), [mkMatObj 0 bare_mat], T400, []. split; reflexivity.
Qed.
Print Assumptions C63_checked_refuted.
(** Lists of parameters longer than the list of materials are accepted; the extra entries are not read. *)
Theorem C63_long_lists_refuted :
  exists (M : mesh nat) mb ms T t F, List.length (t_materials t) = 1%nat /\ t_k0 t = PerMat [6; 7] /\
    define_variational_problem M mb ms T (Some 1) [t] false = Ok F.
Proof.
  exists (mesh_ty Cartesian), (mobile_1 ClassMobile ones [] []), two_mats, T400,
    (mkTrap (PerMat [6; 7]) (PerMat [0; 0]) (PerMat [2; 2]) (PerMat [0; 0]) [fun _ => 8; fun _ => 9] [mkMatObj 0 mat_1] ones ones ones []).
  eexists. split; [reflexivity|]. split; reflexivity.
Qed.
Print Assumptions C63_long_lists_refuted.

Example C63_example :
  ready (mobile_1 theta_class ones sources_1 bcs_1) two_mats None
    [mkTrap (PerMat [6; 7]) (PerMat [0; 0]) (PerMat [2; 2]) (PerMat [0; 0]) [fun _ => 8; fun _ => 9] two_mats ones ones ones
       [mkSource (IdOne 2) (fun _ => 1) None]; trap_1 ones []] false /\
  ~ ready (mobile_1 theta_class ones sources_1 bcs_1) two_mats None
    [mkTrap (PerMat [6; 7]) (PerMat [0]) (PerMat [2; 2]) (PerMat [0; 0]) [fun _ => 8; fun _ => 9] two_mats ones ones ones []] false /\
  (exists w, check_materials (map attrs two_mats) (HeatTransfer true) false = Ok w) /\
  (forall m, In m two_mats -> check_properties (attrs m) = Ok (attrs m)).
Proof.
  split; [|split; [|split]].
  - apply (C63_built_iff (mesh_ty Cartesian) _ _ T400). eexists. reflexivity.
  - intros H. apply (C63_built_iff (mesh_ty Cartesian) _ _ T400) in H as [F H]. discriminate H.
  - eexists. reflexivity.
  - intros m [<-|[<-|[]]]; reflexivity.
Qed.
