(** C94: the class of an error tells why the equations cannot be built. *)
From Coq Require Import Reals ZArith List Bool String Lra Lia.
From Verif Require Import Base.Exc Base.Dual Model.Materials Model.Theta Model.Laws Model.Forms Spec.BuildSpec Spec.ErrorSpec
  Properties.BuildProps Properties.FormProps.
Import ListNotations.
Local Open Scope R_scope.
Local Open Scope list_scope.

Definition fails {A} (r : res A) (Q : exc -> Prop) : Prop := forall e, r = Err e -> Q e.
Lemma fails_Ok {A} (a : A) Q : fails (Ok a) Q.
Proof. intros e H. discriminate. Qed.
Lemma fails_bind {A B} (r : res A) (f : A -> res B) (Q : exc -> Prop) :
  fails r Q -> (forall a, r = Ok a -> fails (f a) Q) -> fails (bind r f) Q.
Proof. intros H1 H2 e. destruct r as [a|e']; cbn [bind]; [now apply H2|]. intros H. apply H1. injection H as <-. reflexivity. Qed.
Lemma fails_last {A B} (r : res A) (f : A -> B) (Q : exc -> Prop) :
  fails r Q -> fails (bind r (fun a => Ok (f a))) Q.
Proof. intros H. apply fails_bind; [exact H|]. intros. apply fails_Ok. Qed.
Lemma fails_sum {P A} (f : A -> res (form P)) l (Q : exc -> Prop) :
  (forall a, In a l -> fails (f a) Q) -> fails (sum_forms f l) Q.
Proof.
  induction l as [|a l IH]; cbn [sum_forms]; intros H; [apply fails_Ok|].
  apply fails_bind; [apply H; now left|]. intros F _. apply fails_last. apply IH. intros b Hb. apply H. now right.
Qed.
Lemma fails_enum {P A} (f : nat -> A -> res (form P)) l (Q : exc -> Prop) k :
  (forall i a, nth_error l i = Some a -> fails (f (k + i)%nat a) Q) -> fails (sum_forms_enum f k l) Q.
Proof.
  revert k. induction l as [|a l IH]; intros k H; cbn [sum_forms_enum]; [apply fails_Ok|].
  apply fails_bind; [specialize (H O a eq_refl); now rewrite Nat.add_0_r in H|].
  intros F _. apply fails_last. apply IH. intros i b Hb. specialize (H (S i) b Hb).
  now rewrite Nat.add_succ_r in H.
Qed.
Lemma fails_float p (Q : exc -> Prop) : (~ constant p -> forall x, Q (TypeError x)) -> fails (float_of p) Q.
Proof.
  intros H e. unfold float_of, constant in *. destruct p as [[r|g]|]; [discriminate| |]; intros [= <-]; apply H;
    intros [x Hx]; discriminate.
Qed.
Lemma fails_value p (Q : exc -> Prop) : (~ present p -> forall x, Q (TypeError x)) -> fails (value_at p) Q.
Proof.
  intros H e. unfold value_at, present in *. destruct p as [[r|g]|]; try discriminate. intros [= <-]. apply H. auto.
Qed.
Lemma fails_id i (Q : exc -> Prop) : (many_ids i -> forall x, Q (RuntimeError x)) -> fails (dx_id i) Q.
Proof. intros H e. unfold dx_id, many_ids in *. destruct i; [discriminate|]. intros [= <-]. apply H. eauto. Qed.
Lemma fails_index {A} (l : list A) i (Q : exc -> Prop) :
  ((List.length l <= i)%nat -> forall x, Q (IndexError x)) -> fails (index l i) Q.
Proof.
  intros H e. unfold index. destruct (nth_error l i) eqn:E; [discriminate|]. intros [= <-]. apply H.
  now apply nth_error_None.
Qed.
Lemma fails_concentration {P} (mb : mobile P) m T (Q : exc -> Prop) :
  (with_potential mb -> ~ has_solubility m -> forall x, Q (TypeError x)) -> fails (get_concentration mb m T) Q.
Proof.
  intros H. unfold get_concentration, check_concentration, with_potential, has_solubility in *.
  destruct (mb_class mb) as [|S_ l]; [cbn [bind]; apply fails_Ok|]. apply fails_last.
  apply fails_bind; [apply fails_float; intros Hn; apply H; [discriminate|tauto]|]. intros ? _.
  apply fails_last. apply fails_float. intros Hn. apply H; [discriminate|tauto].
Qed.

Section Causes.
Context {P : Type} (M : mesh P) (mb : mobile P) (ms : list mat_obj) (T : temperature P) (dt : option R)
  (traps : list (trap P)) (soret : bool).
Let Q := cause mb ms traps soret.

Lemma fails_material m : In m ms -> fails (material_form M mb T dt soret m) Q.
Proof.
  intros Hm. assert (H : ~ material_ready mb soret (attrs m) -> forall x, Q (TypeError x)).
  { intros Hn x. now apply Missing with m. }
  unfold material_form, material_ready in *.
  apply fails_bind; [apply fails_concentration; intros ? ?; apply H; tauto|]. intros ? _.
  apply fails_bind; [apply fails_float; intros ?; apply H; tauto|]. intros ? _.
  apply fails_bind; [apply fails_float; intros ?; apply H; tauto|]. intros ? _.
  apply fails_last. destruct soret; [|apply fails_Ok]. apply fails_value. intros ?. apply H. tauto.
Qed.

Lemma fails_params t i : In t traps -> (i < List.length (t_materials t))%nat ->
  fails (match t_k0 t with
      | PerMat k =>
          let! k_0 := index k i in
          let! E_k := arg_index (t_Ek t) i in
          let! p_0 := arg_index (t_p0 t) i in
          let! E_p := arg_index (t_Ep t) i in
          let! density := index (t_density t) i in
          Ok (k_0, E_k, p_0, E_p, density)
      | Scalar k_0 =>
          let! E_k := arg_number (t_Ek t) in
          let! p_0 := arg_number (t_p0 t) in
          let! E_p := arg_number (t_Ep t) in
          let! density := index (t_density t) 0 in
          Ok (k_0, E_k, p_0, E_p, density)
      end) Q.
Proof.
  intros Ht Hi.
  assert (Hshort : forall x, too_short t -> Q (IndexError x)) by (intros x H; now apply Short with t).
  assert (Hmix : forall x, mixed t -> Q (TypeError x)) by (intros x H; now apply Mixed with t).
  destruct (t_k0 t) as [k|k] eqn:Ek.
  - assert (HN : forall a, In a (params t) -> fails (arg_number a) Q).
    { intros [r|l] Ha; cbn [arg_number]; [apply fails_Ok|]. intros e [= <-]. apply Hmix. exists (t_k0 t), (PerMat l).
      repeat split; [now left|exact Ha|now rewrite Ek|intros []]. }
    assert (HO : forall a x, arg_number a = Ok x -> is_number a) by (intros [r|l] x H; [exact I|discriminate]).
    apply fails_bind; [apply HN; cbn; tauto|intros x1 H1]. apply fails_bind; [apply HN; cbn; tauto|intros x2 H2].
    apply fails_bind; [apply HN; cbn; tauto|intros x3 H3]. apply HO in H1, H2, H3.
    apply fails_last. apply fails_index. intros H x. apply Hshort. right. right. split.
    + intros a [<-|[<-|[<-|[<-|[]]]]]; [now rewrite Ek|assumption|assumption|assumption].
    + destruct (t_density t); [reflexivity|cbn in H; lia].
  - assert (HA : forall a, In a (params t) -> fails (arg_index a i) Q).
    { intros [r|l] Ha; cbn [arg_index].
      - intros e [= <-]. apply Hmix. exists (Scalar r), (t_k0 t).
        repeat split; [exact Ha|now left|rewrite Ek; intros []].
      - apply fails_index. intros H x. apply Hshort. left. exists l. split; [exact Ha|lia]. }
    assert (HO : forall a x, arg_index a i = Ok x -> ~ is_number a) by (intros [r|l] x H; [discriminate|intros []]).
    apply fails_bind; [change (index k i) with (arg_index (PerMat k) i); apply HA; rewrite <- Ek; now left|intros ? _].
    apply fails_bind; [apply HA; cbn; tauto|intros x1 H1]. apply fails_bind; [apply HA; cbn; tauto|intros x2 H2].
    apply fails_bind; [apply HA; cbn; tauto|intros x3 H3]. apply HO in H1, H2, H3.
    apply fails_last. apply fails_index. intros H x. apply Hshort. right. left. split; [|lia].
    intros b [<-|[<-|[<-|[<-|[]]]]]; [rewrite Ek; intros []|assumption|assumption|assumption].
Qed.
Lemma fails_mobile_terms t i m : In t traps -> nth_error (t_materials t) i = Some m ->
  fails (mobile_trapping_terms mb T t i m) Q.
Proof.
  intros Ht Hm. assert (Hin : In m (t_materials t)) by (eapply nth_error_In; eauto). unfold mobile_trapping_terms.
  apply fails_bind; [apply fails_params; [exact Ht|apply nth_error_Some; congruence]|].
  intros [[[[k Ek] p0] Ep] d] _. apply fails_bind; [apply fails_concentration; intros; now apply MissingTrap with t m|].
  intros c _. apply fails_last. apply fails_id. intros H x. apply ManyIds with m; [right; eauto|exact H].
Qed.
Lemma fails_trap_terms t i m : In t traps -> nth_error (t_materials t) i = Some m ->
  fails (trapping_terms mb T t i m) Q.
Proof.
  intros Ht Hm. assert (Hin : In m (t_materials t)) by (eapply nth_error_In; eauto). unfold trapping_terms.
  apply fails_bind; [apply fails_params; [exact Ht|apply nth_error_Some; congruence]|].
  intros [[[[k Ek] p0] Ep] d] _. apply fails_bind.
  { destruct (mb_class mb) eqn:Ec, (m_law (attrs m)) eqn:El; try apply fails_Ok. intros e [= <-].
    apply HenryTrap with t m; auto. unfold with_potential. now rewrite Ec. }
  intros _ _. apply fails_bind; [apply fails_concentration; intros; now apply MissingTrap with t m|].
  intros c _. apply fails_last. apply fails_id. intros H x. apply ManyIds with m; [right; eauto|exact H].
Qed.
Lemma fails_trap t : In t traps -> fails (trap_create_form mb ms T dt t) Q.
Proof.
  intros Ht. unfold trap_create_form, create_trapping_form. apply fails_bind.
  - apply fails_bind.
    + destruct dt; [apply fails_Ok|]. apply fails_sum. intros m Hm. destruct (mat_in m (t_materials t)); [apply fails_Ok|].
      apply fails_last. apply fails_id. intros H x. apply ManyIds with m; auto.
    + intros ? _. apply fails_last. apply fails_enum. intros i m Hm. cbn [Nat.add]. now apply fails_trap_terms.
  - intros ? _. apply fails_last. apply fails_sum. intros s Hs. unfold trap_source_terms. apply fails_last. apply fails_id.
    intros H x. now apply ManySource with t s.
Qed.
End Causes.

(** TypeError: a material misses a number, or a trap mixes lists and numbers; IndexError: a list is too short;
    RuntimeError: a list of ids where one is needed; NotImplementedError: a trap in a Henry material. *)
Theorem C94_equations {P} (M : mesh P) mb ms T dt traps soret e :
  define_variational_problem M mb ms T dt traps soret = Err e -> cause mb ms traps soret e.
Proof.
  revert e. change (fails (define_variational_problem M mb ms T dt traps soret) (cause mb ms traps soret)).
  unfold define_variational_problem, mobile_create_form, create_diffusion_form. apply fails_bind.
  - apply fails_last. apply fails_bind.
    + apply fails_sum. intros m Hm. now apply fails_material.
    + intros ? _. apply fails_last. apply fails_sum. intros t Ht. apply fails_enum. intros i m Hm. cbn [Nat.add].
      now apply fails_mobile_terms.
  - intros ? _. apply fails_last. apply fails_sum. intros t Ht. now apply fails_trap.
Qed.
Print Assumptions C94_equations.

(** The heat equation only raises TypeErrors. *)
Theorem C94_heat {P} (M : mesh P) tr dt T T_n v ms sources (bcs : list (list Z * flux P)) e :
  heat_form M tr dt T T_n v ms sources bcs = Err e -> heat_cause tr ms bcs e.
Proof.
  revert e. change (fails (heat_form M tr dt T T_n v ms sources bcs) (heat_cause tr ms bcs)).
  unfold heat_form. apply fails_bind.
  - apply fails_sum. intros m Hm. assert (H : ~ heat_ready tr (attrs m) -> forall x, heat_cause tr ms bcs (TypeError x)).
    { intros Hn x. now apply HeatMissing with m. }
    unfold heat_material_form, heat_ready in *.
    apply fails_bind; [apply fails_value; intros ?; apply H; tauto|]. intros ? _. apply fails_last.
    destruct tr; [|apply fails_Ok]. apply fails_bind; [apply fails_value; intros ?; apply H; tauto|]. intros ? _.
    apply fails_last. apply fails_value; intros ?; apply H; tauto.
  - intros ? _. apply fails_last. apply fails_sum. intros b Hb. apply fails_last.
    unfold heat_flux_form. destruct (snd b) eqn:E; try apply fails_Ok; intros e [= <-]; apply HeatSolute with b; auto; now rewrite E.
Qed.
Print Assumptions C94_heat.

(** The implantation condition needs E_Kr beside Kr_0, and E_Kd and P beside Kr_0 and Kd_0; nothing else. *)
Theorem C94_implantation T phi R_p D_0 E_D Kr_0 E_Kr Kd_0 E_Kd Pr :
  ((exists v, dc_imp T phi R_p D_0 E_D Kr_0 E_Kr Kd_0 E_Kd Pr = Ok v) <->
   (Kr_0 <> None -> E_Kr <> None /\ (Kd_0 <> None -> E_Kd <> None /\ Pr <> None))) /\
  (forall e, dc_imp T phi R_p D_0 E_D Kr_0 E_Kr Kd_0 E_Kd Pr = Err e -> exists x, e = TypeError x).
Proof.
  unfold dc_imp, number. split.
  - destruct Kr_0, E_Kr, Kd_0, E_Kd, Pr; cbn [bind]; split; intros H;
      try (destruct H as [v H]; discriminate H); try (eexists; reflexivity); try (intuition congruence);
      exfalso; destruct H as [H1 H2]; try discriminate; try congruence; destruct H2; congruence.
  - intros e. destruct Kr_0, E_Kr, Kd_0, E_Kd, Pr; cbn [bind]; intros H; try discriminate H; injection H as <-; eauto.
Qed.
Print Assumptions C94_implantation.

Example ex_C94 :
  (exists m, define_variational_problem (mesh_ty Cartesian) (mobile_1 ClassMobile ones [] []) two_mats T400 None
    [mkTrap (PerMat [6; 7]) (PerMat [0]) (PerMat [2; 2]) (PerMat [0; 0]) [fun _ => 8; fun _ => 9] two_mats ones ones ones []] false
    = Err (IndexError m)) /\
  (exists m, define_variational_problem (mesh_ty Cartesian) (mobile_1 ClassMobile ones [] []) two_mats T400 None
    [mkTrap (PerMat [6; 7]) (Scalar 0) (PerMat [2; 2]) (PerMat [0; 0]) [fun _ => 8; fun _ => 9] two_mats ones ones ones []] false
    = Err (TypeError m)) /\
  (exists m, heat_form (mesh_ty Cartesian) false 1 ones ones ones two_mats [] [([1%Z], MassFlux (fun _ => 1) (fun _ => 2))]
    = Err (TypeError m)) /\
  (exists m, dc_imp 400 1 1 1 1 (Some 1) None None None None = Err (TypeError m)).
Proof. repeat split; eexists; reflexivity. Qed.
