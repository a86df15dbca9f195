(** C36 and C22: initialise of a simulation. *)
From Coq Require Import ZArith QArith List Bool String Lia.
From Verif Require Import Base.Exc Base.Num Base.Key Model.Stepsize Model.Materials Model.Mesh1D Model.Sources
  Model.Bcs Model.Fields Model.Exports Model.TxtTimes Model.TxtRows Model.Simulation
  Spec.MeshSpec Spec.FieldSpec Spec.SimSpec
  Proofs.NumQ Proofs.KeyProofs Proofs.MaterialProofs Proofs.SourceProofs Proofs.BcProofs Proofs.FieldProofs
  Proofs.BorderProofs Proofs.SimProofs.
From Verif Require Properties.MaterialProps Properties.BcProps.
Import ListNotations.
Local Open Scope string_scope.
Local Notation length := List.length.

Section Sim.
Context {P S V F W C : Type}.
Local Notation material := (material (A:=Q) P).
Local Notation sim := (@sim Q P S V F W C).
Lemma fit_iff (ms : list material) T tf : materials_fit T ms <-> exists w, check_materials ms T tf = Ok w.
Proof.
  destruct ms as [|m r].
  - split; [intros _; eexists; reflexivity|]. intros _. unfold materials_fit.
    do 6 (split; [left; intros x []|]). split; [left; intros x []|]. split; [intros x []|].
    split; [intros [|k] k' m m' z H; discriminate|].
    destruct T as [|[|]]; cbn; [exact I| |]; unfold MeshSpec.given; cbn; tauto.
  - assert (Hne : m :: r <> []) by discriminate.
    destruct (MaterialProps.C27_all_or_none (m :: r) T tf Hne) as (H & _). unfold materials_fit. now rewrite H.
Qed.
Lemma proper_dec (ms : list material) : proper_borders ms \/ ~ proper_borders ms.
Proof.
  assert (H : Forall (fun b => fst b < snd b)%Q (flat_map borders_of ms) \/ ~ Forall (fun b => fst b < snd b)%Q (flat_map borders_of ms)).
  { destruct (Forall_dec (fun b : Q * Q => fst b < snd b)%Q (fun b => match Qlt_le_dec (fst b) (snd b) with left H => left H | right H => right (Qle_not_lt _ _ H) end)
      (flat_map borders_of ms)); auto. }
  rewrite Forall_forall in H. unfold proper_borders. destruct H as [H|H]; [left|right; intros Hp; apply H; clear H].
  - intros m b Hm Hb. apply H, in_flat_map. eauto.
  - intros b Hb. apply in_flat_map in Hb as (m & Hm & Hb). eauto.
Qed.
Lemma heat_iff (s : sim) T : sm_T s = Some T -> (heat_sim s <-> is_heat_problem T = true).
Proof.
  intros H. unfold heat_sim. rewrite H. destruct T as [b| |b i]; cbn; split; try discriminate;
    try (intros (x & y & [=])); eauto.
Qed.

Variable s_field : S -> key.
Variable s_decay : S -> bool.
Variable s_list : S -> bool.
Variable same : material -> material -> bool.
Variables eps half : Q.
Variable dofs : bool -> list Q.
Variable argsort : list Q -> list nat.
Variable dx_list : res unit.
Variable reconvert : V -> res V.
Local Notation initialise := (initialise s_field s_decay s_list same eps half dofs argsort dx_list reconvert).
Local Notation documented := (documented s_field s_decay same).
Local Notation other := (other s_list dofs reconvert dx_list).

Ltac step H x E := apply bind_ok in H; destruct H as (x & E & H).

(** * C36 *)

(** An accepted simulation has none of the documented defects. *)
Theorem C36_accepted (s : sim) r e : initialise s = Ok r -> ~ documented s e.
Proof.
  unfold Simulation.initialise. intros H Hd.
  step H r0 E. step H T E0. step H r1 E1. step H r2 E2. step H r3 E3. step H r4 E4. step H r5 E5. step H r6 E6.
  step H r7 E7. step H r8 E8. step H r9 E9. destruct r9 as [[[ids ini] mss] c]. step H r10 E10. clear H.
  assert (ET : sm_T s = Some T) by (unfold get_T in E0; destruct (sm_T s); congruence).
  pose proof (heat_iff s T ET) as Hh.
  unfold attribute_source_terms in E1.
  pose proof (proj1 (loop_success _ _ _ _ _ _) (ex_intro _ _ E1)) as Hs. rewrite Forall_forall in Hs.
  unfold attribute_boundary_conditions in E2. apply bind_ok in E2 as (u & E2 & _). destruct u.
  apply BcProps.C29_accepted in E2 as [Hb Hc].
  unfold initialise_h in E9. step E9 q1 E11. step E9 q2 E12. step E9 q3 E13. step E9 q4 E14. step E9 q5 E15.
  step E9 q6 E16. step E9 q7 E17. step E9 q8 E18.
  injection E9 as <- <- <- <-.
  pose proof (make_traps_materials_spec same (sm_materials s) (sm_traps s)) as Hm. rewrite E13 in Hm.
  unfold check_time in E.
  inversion Hd; subst; clear Hd.
  - rewrite H in E. destruct (sm_dt s); [discriminate|congruence].
  - rewrite H, H0 in E. destruct (sm_dt s); discriminate.
  - rewrite H, H0 in E. destruct (sm_final s); discriminate.
  - congruence.
  - rewrite ET in H. injection H as ->. discriminate E5.
  - destruct (Hs src H) as [Ht _]. apply H1. apply Hh. now apply Ht.
  - destruct (Hs src H) as [_ [sp Hsp]]. now apply (H0 sp).
  - now destruct (Hb b H).
  - destruct (Hb b H) as (_ & Hk & _). auto.
  - destruct (Hb b H) as (_ & _ & Ht). apply H1, Hh. auto.
  - now apply (Hc a b).
  - rewrite H in E3. cbn in E3. apply Nat.eqb_neq in H0. rewrite H0 in E3. discriminate.
  - rewrite H in E3. cbn [check_mesh_dim_coords] in E3. apply Nat.ltb_lt in H0. rewrite H0 in E3. discriminate.
  - unfold measures in E4. rewrite H in E4. apply bind_ok in E4 as (x & E4 & _). unfold define_measures in E4.
    rewrite (proj2 (Nat.ltb_lt _ _) H0) in E4. cbn [andb] in E4.
    replace (existsb _ (sm_materials s)) with true in E4; [discriminate|].
    symmetry. apply existsb_exists. exists m. split; [assumption|]. now rewrite H2.
  - unfold measures in E4. rewrite H in E4. apply bind_ok in E4 as (x & E4 & _). unfold define_measures in E4.
    match type of E4 with (if ?b then _ else _) = _ => destruct b eqn:Eb end; [discriminate|].
    assert (Hno : forall m, In m (sm_materials s) -> (length (sm_materials s) > 1)%nat -> m_borders m <> BNone).
    { intros m Hmi Hl Hn. apply andb_false_iff in Eb as [Eb|Eb]; [apply Nat.ltb_ge in Eb; lia|].
      assert (Eb' : existsb (fun mat : material => match m_borders mat with BNone => true | _ => false end) (sm_materials s) = true)
        by (apply existsb_exists; exists m; split; [assumption|now rewrite Hn]).
      congruence. }
    destruct (sm_materials s) as [|m0 ms'] eqn:Ems; [discriminate|]. rewrite <- Ems in *.
    apply bind_ok in E4 as (u & E4 & _). apply H1.
    destruct (m_borders m0) eqn:Em0; [exfalso|now apply (check_borders_tiled _ _ _ E4)..].
    destruct H0 as (m & Hmi & Hmb). destruct ms' as [|m2 ms2].
    + rewrite Ems in Hmi. destruct Hmi as [<-|[]]. congruence.
    + apply (Hno m0); [rewrite Ems; now left|rewrite Ems; cbn; lia|assumption].
  - rewrite ET in H. injection H as <-. apply H0. apply (fit_iff _ _ false). eauto.
  - pose proof (initial_loop_ok _ _ _ _ E12 k v H) as [sp Hk].
    pose proof (initialised_spec (assign_traps_ids (map tr_id (sm_traps s))) k) as Hi. rewrite Hk in Hi.
    destruct Hi as [Hi|(z & Hz & Ho)]; [tauto|]. destruct (H0 z Hz). destruct Ho; tauto.
  - apply In_nth_error in H as (i & Hi). destruct (Forall2_nth1 _ _ _ _ _ Hm Hi) as (l & _ & [Hl _]).
    apply In_nth_error in H0 as (j & Hj). destruct (Forall2_nth1 _ _ _ _ _ Hl Hj) as (m & _ & Hr). now apply (H1 m).
  - apply In_nth_error in H as (k & Hk). destruct (Forall2_nth1 _ _ _ _ _ Hm Hk) as (l & _ & [Hl Hdu]).
    destruct (Forall2_nth1 _ _ _ _ _ Hl H1) as (m1 & Hm1 & Hr1). destruct (Forall2_nth1 _ _ _ _ _ Hl H2) as (m2 & Hm2 & Hr2).
    rewrite (refers_unique _ _ _ _ H3 Hr1), (refers_unique _ _ _ _ H4 Hr2) in H5.
    pose proof (duplicates_spec same l) as Hds. rewrite Hdu in Hds. rewrite (Hds i j m1 m2) in H5; [discriminate|assumption..].
  - apply In_nth_error in H0 as (k & Hk). destruct (Forall2_nth1 _ _ _ _ _ Hm Hk) as (l & Hl & Hr).
    apply (resolved_lives _ _ _ _ _ Hr) in H1.
    rewrite (trapping_forms_ok _ _ _ _ _ _ _ _ _ _ E17 H l m) in H2; [discriminate| |assumption]. eapply nth_error_In, Hl.
  - destruct H as (d & j & Hd & Hj & ->).
    pose proof (export_loop_spec dofs argsort s (ex_list (sm_exports s)) (initial_dt s) 0) as He. rewrite E10 in He.
    specialize (He d j Hd Hj H0). apply surf_kin_present_spec in He as (z & b & Hz & Hin & Hk & Hs').
    apply (H1 z Hz). exists b. auto.
Qed.

(** A refused simulation has a documented defect, with the documented exception, or one of the defects
    that are only noticed when something else fails. *)
Theorem C36_refused (s : sim) e : initialise s = Err e -> documented s e \/ other s e.
Proof.
  unfold Simulation.initialise. intros H.
  apply bind_err in H as [H|(r0 & E & H)].
  { left. unfold check_time in H. destruct (sm_transient s) eqn:Et; cbn [negb andb] in H.
    - destruct (sm_final s) eqn:Ef; cbn [is_some negb] in H.
      + destruct (sm_dt s) eqn:Ed; [discriminate|]. injection H as <-. now apply doc_dt.
      + injection H as <-. now apply doc_final_time.
    - destruct (sm_dt s) eqn:Ed; [|discriminate]. injection H as <-. apply doc_steady_dt; [assumption|].
      rewrite Ed. discriminate. }
  apply bind_err in H as [H|(T & E0 & H)].
  { left. unfold get_T in H. destruct (sm_T s) eqn:ET; [discriminate|]. injection H as <-. now apply doc_T. }
  assert (ET : sm_T s = Some T) by (unfold get_T in E0; destruct (sm_T s); congruence).
  pose proof (heat_iff s T ET) as Hh.
  apply bind_err in H as [H|(att & E1 & H)].
  { left. unfold attribute_source_terms in H. apply loop_error in H as (src & Hs & [(Hf & Hn & msg & ->)|(Hb & msg & ->)]).
    - apply (doc_source_T _ _ _ _ src); [assumption..|]. rewrite Hh. congruence.
    - now apply (doc_source_field _ _ _ _ src). }
  apply bind_err in H as [H|(bcs & E2 & H)].
  { left. unfold attribute_boundary_conditions in H. apply bind_err in H as [H|(u & _ & H)]; [|discriminate].
    apply BcProps.C29_refused in H as (b & Hb & [(Hf & ->)|[(Hk & Hd & ->)|[(Hf & Hn & ->)|(d & t & Hd & Hc & ->)]]]).
    - now apply (doc_bc_field _ _ _ _ b).
    - now apply (doc_bc_kinetics _ _ _ _ b).
    - apply (doc_bc_T _ _ _ _ b); [assumption..|]. rewrite Hh. congruence.
    - now apply (doc_bc_conflict _ _ _ _ b d). }
  apply bind_err in H as [H|(r3 & E3 & H)].
  { left. unfold check_mesh_dim_coords in H. destruct (ms_type (sm_mesh s)) eqn:Em; [discriminate|..].
    - destruct (Nat.ltb_spec 2 (ms_dim (sm_mesh s))); [|discriminate]. injection H as <-. now apply doc_cylindrical.
    - destruct (Nat.eqb_spec (ms_dim (sm_mesh s)) 1); [discriminate|]. injection H as <-. now apply doc_spherical. }
  apply bind_err in H as [H|(mk & E4 & H)].
  { unfold measures in H. destruct (ms_1d (sm_mesh s)) as [m1|] eqn:Em; [|discriminate].
    apply bind_err in H as [H|(x & _ & H)]; [|discriminate]. unfold define_measures in H.
    match type of H with (if ?b then _ else _) = _ => destruct b eqn:Eb end.
    { apply andb_true_iff in Eb as [El Eb]. apply Nat.ltb_lt in El. apply existsb_exists in Eb as (m & Hm & Hn).
      injection H as <-. left. apply (doc_no_borders _ _ _ _ m m1); [assumption..|]. now destruct (m_borders m). }
    assert (Hno : forall m, In m (sm_materials s) -> (length (sm_materials s) > 1)%nat -> m_borders m <> BNone).
    { intros m Hm Hl Hn. apply andb_false_iff in Eb as [Eb|Eb]; [apply Nat.ltb_ge in Eb; lia|].
      assert (Eb' : existsb (fun mat : material => match m_borders mat with BNone => true | _ => false end) (sm_materials s) = true)
        by (apply existsb_exists; exists m; split; [assumption|now rewrite Hn]).
      congruence. }
    destruct (sm_materials s) as [|m0 ms'] eqn:Ems.
    { right. injection H as <-. now apply oth_no_material. }
    rewrite <- Ems in *.
    assert (Hm0 : In m0 (sm_materials s)) by (rewrite Ems; now left).
    apply bind_err in H as [H|(u & _ & H)].
    - destruct (m_borders m0) as [|b0|l0] eqn:Em0; [discriminate|..].
      all: assert (Hall : forall m, In m (sm_materials s) -> m_borders m <> BNone)
             by (intros m Hm Hn; destruct ms' as [|m2 ms2];
                 [rewrite Ems in Hm; destruct Hm as [<-|[]]; congruence|apply (Hno m Hm); [rewrite Ems; cbn; lia|assumption]]).
      all: destruct (Forall_Exists_dec (fun m : material => borders_of m <> []) (fun m => match borders_of m as l return {l <> []} + {~ l <> []} with [] => right (fun F => F eq_refl) | _ => left (fun F => nil_cons (eq_sym F)) end) (sm_materials s)) as [Hb|Hb].
      2,4: right; apply Exists_exists in Hb as (m & Hm & Hb); unfold check_borders in H;
           (apply bind_err in H as [H|(bs & Hbs & H)];
            [|apply collect_borders_ok in Hbs as [_ Hbs]; now elim Hb; apply Hbs]);
           apply collect_borders_err in H as (m' & Hm' & [[Hn _]|[Hn [msg ->]]]);
           [now elim (Hall m' Hm')|]; apply (oth_shape _ _ _ _ _ m1 m' _ msg); [assumption..| |now left];
           unfold well_shaped; rewrite Hn; destruct (m_id m'); cbn; lia.
      all: rewrite Forall_forall in Hb; assert (Hne : sm_materials s <> []) by (rewrite Ems; discriminate);
           destruct (check_borders_err _ _ _ Hne Hb H) as [msg ->];
           (destruct (proper_dec (sm_materials s)) as [Hp|Hp]; [left|right; now apply (oth_degenerate _ _ _ _ _ m1)]);
           apply (doc_borders _ _ _ _ m1); [assumption|exists m0; split; [assumption|congruence]|];
           intros Ht; rewrite (tiled_check_borders _ _ Hne Hb Hp Ht) in H; discriminate.
    - apply bind_err in H as [H|(v & _ & H)]; [|discriminate]. right. unfold define_volume_markers in H.
      apply mark_cells_err in H as (m & Hm & Hw & msg & He). now apply (oth_shape _ _ _ _ _ m1 m e msg). }
  apply bind_err in H as [H|(T1 & E5 & H)].
  { assert (Hf : forall tr ini, T = THeat tr ini -> heat_form tr (sm_materials s) = Err e -> other s e).
    { intros tr ini -> Hf. pose proof (heat_form_spec tr (sm_materials s)) as Hs. rewrite Hf in Hs.
      destruct Hs as [(m & Hm & Hl) [msg ->]]. now apply (oth_thermal _ _ _ _ _ tr ini m). }
    destruct T as [b| |tr ini]; cbn [create_T] in H; [discriminate..|].
    destruct tr; cbn [create_T] in H.
    - destruct ini as [|  |v|v].
      + injection H as <-. left. now apply doc_T_ini.
      + right. apply bind_err in H as [H|(x & _ & H)]; [eauto|discriminate].
      + right. apply bind_err in H as [H|(x & _ & H)]; [eauto|discriminate].
      + right. apply bind_err in H as [H|(x & _ & H)]; [now apply (oth_reconvert _ _ _ _ _ v)|].
        apply bind_err in H as [H|(y & _ & H)]; [eauto|discriminate].
    - right. apply bind_err in H as [H|(x & _ & H)]; [eauto|discriminate]. }
  apply bind_err in H as [H|(w1 & E6 & H)].
  { left. destruct (check_materials_err _ _ _ _ H) as [msg ->]. apply (doc_materials _ _ _ _ T); [assumption|].
    rewrite (fit_iff _ _ false). intros [w Hw]. congruence. }
  apply bind_err in H as [H|(r7 & E7 & H)].
  { right. unfold create_properties in H. destruct (sm_materials s) eqn:Em; [|discriminate]. injection H as <-.
    now apply oth_no_material. }
  assert (Hsol : sm_chem s = true -> (exists m, In m (sm_materials s) /\
      (((m_S0 m = None \/ m_ES m = None) /\ exists msg, e = TypeError msg) \/
       (dx_list = Err e /\ exists l, m_id m = IdMany l))) -> other s e).
  { intros Hc (m & Hm & [[Hs [msg ->]]|[Hd [l Hl]]]).
    - apply (oth_solubility _ _ _ _ _ m); [assumption|now left|assumption].
    - apply (oth_list_material _ _ _ _ _ m l); [assumption|now left|assumption]. }
  apply bind_err in H as [H|(r8 & E8 & H)].
  { right. apply project_solubility_err in H as [Hc H]. now apply Hsol. }
  apply bind_err in H as [H|(h & E9 & H)].
  2:{ destruct h as [[[ids ini] mss] c]. apply bind_err in H as [H|(x & _ & H)]; [|discriminate].
      pose proof (export_loop_spec dofs argsort s (ex_list (sm_exports s)) (initial_dt s) 0) as He. rewrite H in He.
      destruct He as [(-> & d & j & Hd & Hj & Hk & Hp)|[([msg ->] & [[dg Hdg]|(m & m' & a & b & Hm & Hm' & Ha & Hb)])|(Hdt & [msg ->] & x & t & l & Hx & Ht)]].
      - left. apply (doc_adsorbed _ _ _ _ (ex_store (sm_exports s) j)); [exists d, j; auto|assumption|].
        intros z Hz (b & Hb & Hkb & Hs). rewrite (proj2 (surf_kin_present_spec _ _)) in Hp; [discriminate|].
        exists z, b. auto.
      - right. now apply (oth_txt_dofs _ _ _ _ _ dg).
      - right. now apply (oth_txt_borders _ _ _ _ _ m m' a b).
      - right. apply (oth_txt_times _ _ _ _ _ x t l); [|assumption..].
        unfold initial_dt in Hdt. unfold check_time in E. destruct (sm_transient s) eqn:Es; [|reflexivity].
        destruct (sm_dt s); [discriminate|]. destruct (sm_final s); discriminate. }
  unfold initialise_h in H. change (assign_traps_ids (map tr_id (sm_traps s))) with (trap_ids s) in H.
  assert (Hini : (exists k v, In (k, v) (sm_inis s) /\ initialised (trap_ids s) k = Err e) -> documented s e \/ other s e).
  { intros (k & v & Hin & Hk). pose proof (initialised_spec (trap_ids s) k) as Hi. rewrite Hk in Hi.
    destruct Hi as [(-> & Hn & Hz)|(i & z & msg & -> & Hz & Ho & Hi)].
    - left. apply (doc_ini _ _ _ _ k v); [assumption| |assumption]. intros z Hzi. specialize (Hz z Hzi).
      unfold of_id in Hz. tauto.
    - right. now apply (oth_ini_position _ _ _ _ _ k v i z). }
  apply bind_err in H as [H|(q1 & E11 & H)].
  { apply check_initial_err in H as [H|H]; [now apply Hini|]. right. apply theta_form_err in H as [Hc H]. now apply Hsol. }
  apply bind_err in H as [H|(q2 & E12 & H)].
  { apply initial_loop_err in H. now apply Hini. }
  apply bind_err in H as [H|(mss & E13 & H)].
  { pose proof (make_traps_materials_spec same (sm_materials s) (sm_traps s)) as Hm. rewrite H in Hm.
    destruct Hm as (t & Ht & Hm). pose proof (make_materials_spec same (sm_materials s) t) as Hs. rewrite Hm in Hs.
    destruct Hs as [(tg & msg & Htg & -> & Ho & Hr)|[(Htg & msg & ->)|(i & j & tg & tg' & m & m' & Hij & Hi & Hj & Hr & Hr' & Hs & ->)]].
    - left. now apply (doc_trap_material _ _ _ _ t tg).
    - right. now apply (oth_trap_tag _ _ _ _ _ t).
    - left. now apply (doc_trap_duplicate _ _ _ _ t i j tg tg' m m'). }
  pose proof (make_traps_materials_spec same (sm_materials s) (sm_traps s)) as Hm. rewrite E13 in Hm.
  assert (Hl : forall l m, In l mss -> In m l -> exists t, In t (sm_traps s) /\ lives_in (sm_materials s) t m).
  { intros l m Hl Hml. apply In_nth_error in Hl as (k & Hk). destruct (Forall2_nth2 _ _ _ _ _ Hm Hk) as (t & Ht & Hr).
    exists t. split; [eapply nth_error_In, Ht|]. now apply (resolved_lives _ _ _ _ _ Hr). }
  apply bind_err in H as [H|(q4 & E14 & H)].
  { right. apply theta_form_err in H as [Hc H]. now apply Hsol. }
  apply bind_err in H as [H|(q5 & E15 & H)].
  { right. apply soret_form_err in H as (Hs & (m & Hmi & Hq) & [msg ->]). now apply (oth_soret _ _ _ _ _ m). }
  apply bind_err in H as [H|(q6 & E16 & H)].
  { right. apply mobile_trapping_err in H as (k & t & l & Ht & Hk & H).
    2:{ clear -Hm. induction Hm; constructor; auto. }
    destruct (Forall2_nth1 _ _ _ _ _ Hm Ht) as (l' & Hl' & Hr). assert (l' = l) by congruence. subst l'.
    apply mobile_one_err in H as [(i & Hi & Hh0 & [msg ->])|(m & Hml & [(Hc & Hs & [msg ->])|[Hd [li Hli]]])].
    - apply (oth_trap_index _ _ _ _ _ t i); [eapply nth_error_In, Ht| |assumption].
      now rewrite (Forall2_len _ _ _ (proj1 Hr)).
    - apply (oth_solubility _ _ _ _ _ m); [assumption| |assumption]. right. apply (Hl l); [eapply nth_error_In, Hk|assumption].
    - apply (oth_list_material _ _ _ _ _ m li); [assumption| |assumption]. right. apply (Hl l); [eapply nth_error_In, Hk|assumption]. }
  apply bind_err in H as [H|(q7 & E17 & H)].
  { apply trapping_forms_err in H as [(m & l & Hmi & Hd & Hid)|[(Hc & (l & m & Hli & Hmi & Hh0) & ->)|(k & src & Hk & Hs & Hsl & Hd)]].
    - right. apply (oth_list_material _ _ _ _ _ m l); [assumption|now left|assumption].
    - left. destruct (Hl l m Hli Hmi) as (t & Ht & Hlt). now apply (doc_trap_henry _ _ _ _ t m).
    - right. apply (oth_list_source _ _ _ _ _ src); [assumption| |assumption].
      destruct (selected_loop _ _ _ _ _ _ _ E1 (Trap k)) as (m & Hm' & Hsel). cbn [reset_sources] in Hm'.
      rewrite <- (Forall2_len _ _ _ Hm) in Hk.
      replace (Nat.leb 1 k && Nat.leb k (length (sm_traps s)))%bool with true in Hm'
        by (symmetry; apply andb_true_iff; split; apply Nat.leb_le; lia).
      cbn [app] in Hm'. rewrite Hm' in Hs. clear -Hsel Hs.
      induction Hsel as [|x l m Hx Hsel IH|x l m Hx Hsel IH]; [now elim Hs| |right; auto].
      destruct Hs as [<-|Hs]; [now left|right; auto]. }
  apply bind_err in H as [H|(q8 & E18 & H)]; [|discriminate].
  right. unfold attribute_boundary_conditions in E2. apply bind_ok in E2 as (u & E2 & E2'). destruct u. injection E2' as <-.
  cbn [snd] in H.
  destruct (create_dirichlet_err _ _ _ _ _ E2 _ (fun b Hb => proj1 (proj1 (filter_In _ _ _) Hb)) _ (num_sub_spaces_bound _ _) H)
    as (b & f & msg & Hb & Hk & Hf & Hn & ->).
  now apply (oth_dirichlet _ _ _ _ _ b f).
Qed.
End Sim.

(** Nothing wrong: the simulation is accepted. *)
Section Exactly.
Context {P S V F W C : Type}.
Local Notation material := (material (A:=Q) P).
Local Notation sim := (@sim Q P S V F W C).
Variable s_field : S -> key.
Variable s_decay : S -> bool.
Variable s_list : S -> bool.
Variable same : material -> material -> bool.
Variables eps half : Q.
Variable dofs : bool -> list Q.
Variable argsort : list Q -> list nat.
Variable dx_list : res unit.
Variable reconvert : V -> res V.
Local Notation initialise := (initialise s_field s_decay s_list same eps half dofs argsort dx_list reconvert).
Local Notation documented := (documented s_field s_decay same).
Local Notation other := (other s_list dofs reconvert dx_list).

(** If nothing else is wrong, initialise succeeds exactly for the simulations without a documented defect,
    and otherwise raises the exception of one of the defects. *)
Theorem C36_exactly (s : sim) : (forall e, ~ other s e) ->
  ((exists r, initialise s = Ok r) <-> (forall e, ~ documented s e)) /\
  ((exists e, documented s e) -> exists e, initialise s = Err e /\ documented s e).
Proof.
  intros Ho.
  assert (Hr : forall e, initialise s = Err e -> documented s e).
  { intros e H. destruct (C36_refused _ _ _ _ _ _ _ _ _ _ _ _ H) as [Hd|Hx]; [assumption|now elim (Ho e)]. }
  split; [split|].
  - intros [r H] e. exact (C36_accepted _ _ _ _ _ _ _ _ _ _ _ _ _ H).
  - intros Hd. destruct (initialise s) as [r|e] eqn:E; [eauto|]. now elim (Hd e (Hr e eq_refl)).
  - intros [e Hd]. destruct (initialise s) as [r|e'] eqn:E.
    + now elim (C36_accepted _ _ _ _ _ _ _ _ _ _ _ _ _ E Hd).
    + exists e'. split; [reflexivity|now apply Hr].
Qed.
End Exactly.

(** A transient heat transfer problem on two materials with a trap, sources, boundary conditions and
    exports. *)
Section Example.
Local Open Scope Q_scope.
Local Notation material := (material (A:=Q) Q).
Local Notation sim := (@sim Q Q key Q unit Q Q).
Local Notation problem := (@problem Q Q key Q).
Definition ex_mat (z : Z) (name : string) (a b : Q) (S0 kappa : option Q) (l : law) : material :=
  mkMaterial (IdOne z) (Some name) 1 (1#5) S0 S0 kappa kappa kappa (BOne (a, b)) None l.
Definition ex_same (m m' : material) : bool :=
  match m_id m, m_id m' with IdOne z, IdOne z' => Z.eqb z z' | _, _ => false end.
Definition ex_left l := ex_mat 1 "W" 0 1 (Some 1) (Some 1) l.
Definition ex_right := ex_mat 2 "Cu" 1 3 (Some 1) (Some 1) Sievert.
Definition ex_mesh : mesh (A:=Q) := mkMesh [0; 1; 2; 3] [(0, 1); (1, 2); (2, 3)]%nat 0 3.
Definition ex_quantity (k : qkind) (surface : Z) : quantity (A:=Q) unit Q :=
  mkQuantity k (LStr "solute") (Some surface) None (fun _ => "title") (fun _ => 0) None false [] [].
Definition ex_exports (k : qkind) : exports (A:=Q) unit Q Q :=
  mkExports [EDerived (mkDerived [0%nat] (Some "out/f.csv") 1 None true [] []);
             ETxt (mkTxt (LStr "solute") (Some "out/f.txt") (Some [2; 5]) false (fun _ => "t") 0 (fun _ => 0) None None)]
    (fun _ => ex_quantity k 1) [] None 0.
Definition ex_dt : stepsize Q := mkStepsize 1 (1#2) None (Some [4]).
Definition ex_sim (dt : option (stepsize Q)) (l : law) (mats : list material) (bcs : list bc) (k : qkind) : sim :=
  mkSim true (Some 10) true false false dt (Some (THeat true (IniValue 300))) [KS "T"; KI 0; KI 1] bcs
    (mkMeshSpec Cartesian 1 (Some ex_mesh)) (mats) [mkTrap None [TagName "W"] (fun _ => true)]
    [(KI 0, 5)] (ex_exports k) (fun _ => false) (fun _ => [KI 7]).
Definition ex_bcs : list bc :=
  [mk_bc 0 Dirichlet (KS "T") [1; 2]%Z; mk_bc 1 Dirichlet (KS "solute") [1]%Z; mk_bc 2 Flux (KI 0) [2]%Z].
Definition ex_dofs (dg : bool) : list Q := if dg then [0; 1; 1; 2; 2; 3] else [0; 1; 2; 3].
Definition ex_initialise : sim -> res (sim * problem) :=
  initialise (fun k => k) (fun _ => false) (fun _ => false) ex_same (1#1000000) (1#2) ex_dofs
    (fun l => seq 0 (length l)) (Err (TypeError "dx")) (fun v => Ok v).
Local Notation ex_documented := (documented (fun k => k) (fun _ => false) ex_same).
Local Notation ex_other := (other (fun _ => false) ex_dofs (fun v => Ok v) (Err (TypeError "dx"))).

Definition good : sim := ex_sim (Some ex_dt) Sievert [ex_left Sievert; ex_right] ex_bcs HydrogenFlux.
Definition summary (r : res (sim * problem)) :=
  match r with
  | Ok (s, p) => Ok (option_map value (sm_dt s), option_map (@milestones Q) (sm_dt s), pb_ids p,
                     List.length (pb_T_bcs p), List.length (pb_h_bcs p), List.length (pb_constraints p),
                     map (pb_sources p) [Temp; Mobile; Trap 1; Trap 2], map (pb_initial p) [Mobile; Trap 1], pb_markers p)
  | Err e => Err e
  end.
(** The hypothesis of C36_accepted holds: the simulation is accepted... *)
Example C36_example : summary (ex_initialise good) =
  Ok (Some 1, Some (Some [2; 4; 5]), [1%Z], 1%nat, 2%nat, 1%nat, [[KS "T"]; [KI 0]; [KI 1]; [KI 7]], [Some 5; None],
      Some ([1; 2; 2]%Z, [1; 0; 0; 2]%Z)).
Proof. vm_compute. reflexivity. Qed.
(** ...and it has no other defect, so C36_exactly applies to it. *)
Example C36_example_other : forall e, ~ ex_other good e.
Proof.
  intros e H.
  assert (Hin : forall m, In m (sm_materials good) -> m = ex_left Sievert \/ m = ex_right)
    by (intros m Hm; cbn in Hm; intuition).
  assert (Hlive : forall t m, In t (sm_traps good) -> lives_in (sm_materials good) t m -> m = ex_left Sievert).
  { intros t m Ht (tg & Htg & Hr). destruct Ht as [<-|[]]. destruct Htg as [<-|[]].
    destruct Hr as (k & Hk & Hp & _). destruct k as [|[|[|k]]]; cbn in Hk; try discriminate; injection Hk as <-; [reflexivity|].
    cbn in Hp. discriminate Hp. }
  assert (Huse : forall m, in_use good m -> m = ex_left Sievert \/ m = ex_right).
  { intros m [Hm|(t & Ht & Hm)]; [now apply Hin|left; now apply (Hlive t)]. }
  inversion H; subst.
  - cbn in H0. injection H0 as <- <-. unfold lacks_thermal in H2. destruct (Hin m H1) as [-> | ->]; cbn in H2; intuition discriminate.
  - apply H1. intros m b Hm Hb. destruct (Hin m Hm) as [-> | ->]; cbn in Hb; destruct Hb as [<-|[]]; reflexivity.
  - apply H2. destruct (Hin m H1) as [-> | ->]; exact I.
  - destruct (Huse m H1) as [-> | ->]; cbn in H2; intuition discriminate.
  - discriminate H0.
  - destruct (Huse m H1) as [-> | ->]; discriminate H2.
  - discriminate H2.
  - destruct H0 as [<-|[]]. discriminate H2.
  - destruct H0 as [<-|[]]. destruct H1 as [[=]|[]].
  - discriminate H0.
  - cbn in H0. discriminate H0.
  - destruct H0 as [[= <- <-]|[]]. vm_compute in H1. destruct i as [|[|i]]; cbn in H1; try discriminate. injection H1 as <-.
    destruct H2 as [H2|H2]; [discriminate H2|]. vm_compute in H2. discriminate H2.
  - cbn in H0. destruct H0 as [<-|[<-|[<-|[]]]]; cbn in *; congruence.
  - destruct (Hin m' H1) as [-> | ->]; discriminate H3.
  - destruct dg; discriminate H0.
  - discriminate H0.
Qed.
(** Each group of settings, with one thing wrong, is refused with its exception. *)
Example C36_example_time : ex_initialise (ex_sim None Sievert [ex_left Sievert; ex_right] ex_bcs HydrogenFlux) =
  Err (AttributeError "dt must be provided in transient simulations").
Proof. reflexivity. Qed.
Example C36_example_bc : ex_initialise (ex_sim (Some ex_dt) Sievert [ex_left Sievert; ex_right]
    (mk_bc 4 Flux (KI 0) [1]%Z :: ex_bcs) HydrogenFlux) =
  Err (ValueError "DirichletBC is simultaneously set with another boundary condition").
Proof. vm_compute. reflexivity. Qed.
Example C36_example_henry : ex_initialise (ex_sim (Some ex_dt) Henry [ex_left Henry; ex_right] ex_bcs HydrogenFlux) =
  Err (NotImplementedError "Henry law of solubility is not implemented with traps").
Proof. vm_compute. reflexivity. Qed.
Example C36_example_adsorbed : ex_initialise (ex_sim (Some ex_dt) Sievert [ex_left Sievert; ex_right] ex_bcs AdsorbedHydrogen) =
  Err (AttributeError "SurfaceKinetics boundary condition must be defined on surface").
Proof. vm_compute. reflexivity. Qed.
Example C36_example_borders : ex_initialise (ex_sim (Some ex_dt) Sievert [ex_left Sievert; ex_mat 2 "Cu" 1 2 (Some 1) (Some 1) Sievert] ex_bcs HydrogenFlux) =
  Err (ValueError "Borders don't match with size").
Proof. vm_compute. reflexivity. Qed.

(** Findings: a thermal property is missing; check_materials would complain with a ValueError, but the heat
    equation is created before. *)
Theorem C36_thermal_refuted : exists (s : sim) T, sm_T s = Some T /\
  (exists msg, check_materials (sm_materials s) (temp_kind_of T) false = Err (ValueError msg)) /\
  exists msg, ex_initialise s = Err (TypeError msg).
Proof.
  exists (ex_sim (Some ex_dt) Sievert [ex_mat 1 "W" 0 1 (Some 1) None Sievert; ex_mat 2 "Cu" 1 3 (Some 1) None Sievert] ex_bcs HydrogenFlux).
  eexists. split; [reflexivity|]. split; eexists; vm_compute; reflexivity.
Qed.
(** No solubility with the chemical potential: no documented defect, and a TypeError. *)
Theorem C36_solubility_refuted : exists (s : sim) T, sm_T s = Some T /\ sm_chem s = true /\
  (exists w, check_materials (sm_materials s) (temp_kind_of T) false = Ok w) /\
  exists msg, ex_initialise s = Err (TypeError msg).
Proof.
  exists (ex_sim (Some ex_dt) Sievert [ex_mat 1 "W" 0 1 None (Some 1) Sievert; ex_mat 2 "Cu" 1 3 None (Some 1) Sievert] ex_bcs HydrogenFlux).
  eexists. split; [reflexivity|]. split; [reflexivity|]. split; eexists; vm_compute; reflexivity.
Qed.
End Example.

Print Assumptions C36_accepted.
Print Assumptions C36_refused.
Print Assumptions C36_exactly.
Print Assumptions C36_thermal_refuted.
Print Assumptions C36_solubility_refuted.
