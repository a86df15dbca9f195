(** C98: a trap is in the materials the user named, each with the density given for it. *)
From Coq Require Import String Reals ZArith List Bool Arith Lia Lra.
From Verif Require Import Base.Exc Base.Dual Model.Materials Model.Laws Model.Theta Model.Forms Model.TrapInputs
  Spec.TrapDensitySpec Spec.TrapInputSpec Proofs.FormProofs Proofs.TrapInputProofs Properties.FormProps.
Import ListNotations.
Local Open Scope R_scope.

(** A trap can be built exactly if every entry is a name of a material of the simulation or a Material object, and no two of
    them stand for the same object; its materials are then those, in the order given.  Entries of another type are refused by
    TypeError, unknown names and repeated materials by ValueError. *)
Theorem C98_materials {P} ms k_0 E_k p_0 E_p materials density (u un v : field P) :
  (forall t, build_trap ms k_0 E_k p_0 E_p materials density u un v = Ok t ->
    Forall2 (stands_for ms) (entries materials) (t_materials t) /\ NoDup (map uid (t_materials t)) /\
    t_k0 t = k_0 /\ t_Ek t = E_k /\ t_p0 t = p_0 /\ t_Ep t = E_p) /\
  (forall l, Forall2 (stands_for ms) (entries materials) l -> NoDup (map uid l) ->
    exists t, build_trap ms k_0 E_k p_0 E_p materials density u un v = Ok t) /\
  (forall e, build_trap ms k_0 E_k p_0 E_p materials density u un v = Err e ->
    match e with
    | TypeError _ => In EOther (entries materials)
    | ValueError _ => ~ In EOther (entries materials) /\
        ((exists s, In (EName s) (entries materials) /\ forall m, In m ms -> m_name (attrs m) <> Some s) \/
         (exists l, Forall2 (stands_for ms) (entries materials) l /\ ~ NoDup (map uid l)))
    | _ => False
    end).
Proof.
  assert (Hok : forall l, forallb entry_ok l = true <-> ~ In EOther l).
  { intros l. rewrite forallb_forall. split; [intros H Hi; now apply H in Hi|]. intros H [| |] Hi; auto. }
  unfold build_trap, set_materials. change (match materials with MOne e => [e] | MList l => l end) with (entries materials).
  set (l0 := entries materials). assert (Hst : forall l, Forall2 (stands_for ms) l0 l -> ~ In EOther l0).
  { intros l H Hi. clear -H Hi. induction H as [|e m l l' H _ IH]; [destruct Hi|]. destruct Hi as [->|Hi]; [exact H|auto]. }
  destruct (forallb entry_ok l0) eqn:E; cbn [bind].
  - apply Hok in E. split; [|split].
    + intros t. destruct (make_materials ms l0) as [s|x] eqn:F; cbn [bind]; [|discriminate]. intros H. injection H as <-.
      apply make_materials_iff in F as [F1 F2]. repeat split; auto.
    + intros l H1 H2. assert (F : make_materials ms l0 = Ok l) by (apply make_materials_iff; now split). rewrite F. cbn [bind].
      eexists. reflexivity.
    + intros e. unfold make_materials. destruct (find_all ms l0) as [s|x] eqn:F; cbn [bind].
      * apply Hok in E as E'. destruct (find_all_some ms l0 s F E') as [r ->].
        assert (G : all_materials (map Some r) = Ok r) by now apply all_materials_iff. rewrite G. cbn [bind].
        destruct (Nat.eqb_spec (List.length r) (List.length (distinct r))) as [Hl|Hl]; cbn [bind]; [discriminate|].
        intros H. injection H as <-. split; [exact E|]. right. exists r. split; [now apply find_all_iff|]. now rewrite <- distinct_iff.
      * intros H. injection H as <-. apply Hok in E as E'. clear -F E E'. revert x F E E'. induction l0 as [|e l IH]; intros x; cbn; [discriminate|].
        intros F E E'. apply andb_true_iff in E' as [_ E']. destruct (find_object ms e) as [o|y] eqn:G; cbn [bind] in F.
        -- destruct (find_all ms l) as [s|y]; cbn [bind] in F; [discriminate|]. injection F as <-.
           specialize (IH y eq_refl (fun H => E (or_intror H)) E'). destruct y; try contradiction; try (right; exact IH). split; [exact E|].
           destruct IH as [_ [(n & Hi & Hn)|(r & Hr & Hn)]]; [left; exists n; split; [now right|exact Hn]|].
           right. destruct o as [m|]; [|destruct e; cbn in G; try discriminate; [destruct (find _ ms); discriminate|now destruct E; left]].
           exists (m :: r). split; [constructor; [now apply find_object_iff|exact Hr]|]. cbn. intros N. inversion_clear N. contradiction.
        -- injection F as <-. destruct e as [s|m|]; cbn in G; try discriminate. destruct (find (has_name s) ms) eqn:K; [discriminate|].
           injection G as <-. split; [exact E|]. left. exists s. split; [now left|]. intros m Hm N. apply has_name_iff in N.
           now rewrite (find_none _ _ K m Hm) in N.
  - assert (Hi : In EOther l0).
    { destruct (in_dec (fun a b : bool => Bool.bool_dec a b) false (map entry_ok l0)) as [Hi|Hi].
      - apply in_map_iff in Hi as ([| |] & Hi & H); try discriminate. exact H.
      - exfalso. assert (forallb entry_ok l0 = true); [|congruence]. apply forallb_forall. intros e He.
        destruct (entry_ok e) eqn:G; [reflexivity|]. destruct Hi. rewrite <- G. now apply in_map. }
    split; [discriminate|]. split; [intros l H; now apply Hst in H|]. intros e H. injection H as <-. exact Hi.
Qed.

(** Initialising the simulation again changes nothing: the materials are found again. *)
Theorem C98_again ms l s : make_materials ms l = Ok s -> make_materials ms (map EMaterial s) = Ok s.
Proof.
  intros H. apply make_materials_iff in H as [_ H]. apply make_materials_iff. split; [|exact H].
  clear H. induction s as [|m s IH]; constructor; [reflexivity|exact IH].
Qed.

(** With names, or objects of the simulation, the materials of the trap are materials of the simulation. *)
Theorem C98_own {P} ms k_0 E_k p_0 E_p materials density (u un v : field P) t :
  build_trap ms k_0 E_k p_0 E_p materials density u un v = Ok t ->
  (forall m, In (EMaterial m) (entries materials) -> In m ms) -> incl (t_materials t) ms.
Proof.
  intros H Hm. apply C98_materials in H as (H & _). intros m Hi. induction H as [|e x l l' He _ IH]; [destruct Hi|].
  destruct Hi as [<-|Hi]; [|apply IH; [intros y Hy; apply Hm; now right|exact Hi]].
  destruct e as [s|y|]; cbn in He; [destruct He as (b & a & -> & _); apply in_or_app; right; now left| |destruct He].
  subst y. apply Hm. now left.
Qed.

(** The densities of the trap are those given, without None: the i-th one given is at the position i less the number of None
    before it. *)
Theorem C98_positions {P} ms k_0 E_k p_0 E_p materials density (u un v : field P) t i e d :
  build_trap ms k_0 E_k p_0 E_p materials density u un v = Ok t ->
  nth_error (given density) i = Some e -> is_density e d ->
  nth_error (t_density t) (i - nones (firstn i (given density))) = Some d /\
  (length (t_density t) + nones (given density) = length (given density))%nat.
Proof.
  unfold build_trap. destruct (set_materials materials) as [l|]; cbn [bind]; [|discriminate].
  destruct (make_materials ms l) as [s|]; cbn [bind]; [|discriminate]. intros H. injection H as <-. cbn [t_density].
  unfold make_density. change (match density with DOne d => [d] | DList l => l end) with (given density). rewrite append_flat.
  intros Hi Hd. split; [now apply (flat_at (given density) i e d)|]. apply nones_length.
Qed.

(** So when no density is None, in the i-th material of a trap with lists the density of the equations is the i-th one given. *)
Theorem C98_density_partial {P} (M : mesh P) ms l E_k p_0 E_p materials density (u un v : field P) t i m e d p :
  build_trap ms (PerMat l) E_k p_0 E_p materials density u un v = Ok t ->
  (forall e, In e (given density) -> e <> DNone) ->
  nth_error (t_materials t) i = Some m -> m_id (attrs m) = IdOne (q_volume M p) ->
  nth_error (given density) i = Some e -> is_density e d -> sites M t p (d p).
Proof.
  intros H Hn Hm Hid He Hd. pose proof (C98_positions _ _ _ _ _ _ _ _ _ _ _ _ _ _ H He Hd) as [Hp _].
  rewrite nones_zero, Nat.sub_0_r in Hp.
  - left. exists i, m, d. apply C98_materials in H as (_ & _ & -> & _). now repeat split.
  - intros x Hx. apply Hn. rewrite <- (firstn_skipn i). apply in_or_app. now left.
Qed.

(** With None for the first material, the density given for the second one is used in the first, and the equations cannot be
    built (IndexError); with None first and numbers for the other parameters, it is used in both. *)
Theorem C98_none_refuted d : let M := mesh_ty Cartesian in
  (exists t, build_trap two_mats (PerMat [6; 6]) (PerMat [0; 0]) (PerMat [8; 8]) (PerMat [0; 0])
     (MList [EMaterial (mkMatObj 0 mat_1); EMaterial (mkMatObj 1 mat_2)]) (DList [DNone; DSympy (fun _ => d)]) ones ones ones = Ok t /\
     sites M t 1%nat d /\ forall mb, mb_class mb = ClassMobile ->
       trap_create_form mb two_mats T400 (Some 1) t = Err (IndexError "list index out of range")) /\
  (exists t, build_trap two_mats (Scalar 6) (Scalar 0) (Scalar 8) (Scalar 0)
     (MList [EMaterial (mkMatObj 0 mat_1); EMaterial (mkMatObj 1 mat_2)]) (DList [DNone; DSympy (fun _ => d)]) ones ones ones = Ok t /\
     sites M t 1%nat d /\ sites M t 2%nat d).
Proof.
  intros M. split.
  - eexists. split; [reflexivity|]. split; [left; exists 0%nat, (mkMatObj 0 mat_1), (fun _ => d); now repeat split|].
    intros mb E. unfold trap_create_form, create_trapping_form, trapping_terms, get_concentration, check_concentration. cbn. now rewrite E.
  - eexists. split; [reflexivity|]. split; left.
    + exists 0%nat, (mkMatObj 0 mat_1), (fun _ => d). now repeat split.
    + exists 1%nat, (mkMatObj 1 mat_2), (fun _ => d). now repeat split.
Qed.

(** A Material object which is not one of the simulation is accepted: here a copy of the first material.  In a steady
    simulation both the equation of the trap and "no trapped hydrogen" are then assembled in its volume: hydrogen at the
    equilibrium of the trap (as many atoms captured as released) does not solve them, although it solves those of the same
    trap with the material of the simulation. *)
Definition copy_1 : mat_obj := mkMatObj 7 mat_1.
Definition equilibrium : field nat := fun p => match p with 1%nat => dconst 3 | _ => dconst 0 end.
Theorem C98_foreign_refuted : let M := mesh_ty Cartesian in
  let mb := mkMobile ClassMobile (fun _ => dconst 1) (fun _ => dconst 1) ones [] [] in
  let build m := build_trap two_mats (Scalar 6) (Scalar 0) (Scalar 12) (Scalar 0) (MOne (EMaterial m)) (DOne (DSympy (fun _ => 9)))
                   equilibrium equilibrium ones in
  ~ In copy_1 two_mats /\ attrs copy_1 = mat_1 /\
  (exists t F, build (mkMatObj 0 mat_1) = Ok t /\ trap_create_form mb two_mats T400 None t = Ok F /\ assemble M F = 0) /\
  (exists t F, build copy_1 = Ok t /\ trap_create_form mb two_mats T400 None t = Ok F /\ assemble M F = 3 / 2).
Proof.
  intros M mb build. split; [intros [H|[H|[]]]; apply (f_equal uid) in H; discriminate|]. split; [reflexivity|].
  assert (E : forall T, exp (- 0 / k_B / T) = 1) by (intros T; unfold Rdiv; rewrite Ropp_0, !Rmult_0_l; apply exp_0).
  split; eexists; eexists; (split; [reflexivity|]); (split; [reflexivity|]); unfold assemble, integral, points, rsum; cbn; rewrite !E; lra.
Qed.

Print Assumptions C98_materials.
Print Assumptions C98_again.
Print Assumptions C98_own.
Print Assumptions C98_positions.
Print Assumptions C98_density_partial.
Print Assumptions C98_none_refuted.
Print Assumptions C98_foreign_refuted.

(** Concrete cases. *)
Definition named (s : string) (m : mat) : mat :=
  mkMaterial (m_id m) (Some s) (m_D0 m) (m_ED m) (m_S0 m) (m_ES m) (m_thermal m) (m_heat m) (m_rho m) (m_borders m) (m_Q m) (m_law m).
Definition named_mats : list mat_obj := [mkMatObj 0 (named "W" mat_1); mkMatObj 1 (named "Cu" mat_2)].
Example C98_example : let M := mesh_ty Cartesian in
  exists t, build_trap named_mats (PerMat [6; 6]) (PerMat [0; 0]) (PerMat [8; 8]) (PerMat [0; 0])
    (MList [EName "Cu"; EMaterial (mkMatObj 0 (named "W" mat_1))]) (DList [DSympy (fun _ => 5); DFenics (fun _ => 3)]) ones ones ones = Ok t /\
  map uid (t_materials t) = [1; 0]%nat /\ sites M t 1%nat 3 /\ sites M t 2%nat 5 /\
  (forall e, In e (given (DList [DSympy (fun _ : nat => 5); DFenics (fun _ => 3)])) -> e <> DNone).
Proof.
  eexists. split; [reflexivity|]. split; [reflexivity|]. split; [|split].
  - left. exists 1%nat, (mkMatObj 0 (named "W" mat_1)), (fun _ => 3). now repeat split.
  - left. exists 0%nat, (mkMatObj 1 (named "Cu" mat_2)), (fun _ => 5). now repeat split.
  - intros e [<-|[<-|[]]]; discriminate.
Qed.
Example C98_errors_example :
  let build l := build_trap named_mats (Scalar 6) (Scalar 0) (Scalar 8) (Scalar 0) l (DOne (DSympy (fun _ => 5))) ones ones ones in
  build (MOne EOther) = Err (TypeError "Accepted types for materials are str or festim.Material") /\
  build (MOne (EName "Fe")) = Err (ValueError "No material with this name was found") /\
  build (MList [EName "W"; EMaterial (mkMatObj 0 (named "W" mat_1))]) = Err (ValueError "Duplicate materials in trap").
Proof. repeat split. Qed.
