(** Proofs about the chemical potential (Model/Theta.v). *)
From Coq Require Import Reals ZArith List Bool Lra Lia Psatz.
From Verif Require Import Base.Exc Base.Dual Model.Materials Model.Laws Model.Theta Spec.PhysSpec
  Proofs.LawProofs.
Import ListNotations.
Local Open Scope R_scope.

Lemma Ok_inj {A} (x y : A) : Ok x = Ok y -> x = y.
Proof. congruence. Qed.

Lemma coefficient_val pre E T : 0 < val T -> val (Theta.coefficient pre E T) = arrhenius pre E (val T).
Proof. intros HT. unfold Theta.coefficient, dmul, dconst, dexp, ddiv. cbn [val]. now apply arrhenius_model. Qed.

Lemma float_of_ok p x : float_of p = Ok x <-> p = Some (Const x).
Proof.
  destruct p as [[r|f]|]; cbn [float_of]; split; intros H; try discriminate; congruence.
Qed.

(** The concentration the equations use in material m. *)
Definition conc_of (l : law) (S theta : R) : R :=
  match l with Sievert => theta * S | Henry => theta ^ 2 * S end.

Lemma theta_concentration_val m T Tn u un c cn :
  0 < val T -> 0 < val Tn -> theta_concentration m T Tn u un = Ok (c, cn) ->
  exists S0 ES, m_S0 m = Some (Const S0) /\ m_ES m = Some (Const ES) /\
    val c = conc_of (m_law m) (arrhenius S0 ES (val T)) (val u) /\
    val cn = conc_of (m_law m) (arrhenius S0 ES (val Tn)) (val un).
Proof.
  intros HT HTn. unfold theta_concentration.
  destruct (float_of (m_ES m)) as [ES|e] eqn:HE; cbn [bind]; [|discriminate].
  destruct (float_of (m_S0 m)) as [S0|e] eqn:HS; cbn [bind]; [|discriminate]. cbv zeta.
  apply float_of_ok in HE, HS. intros H. exists S0, ES. split; [exact HS|]. split; [exact HE|].
  destruct (m_law m); apply Ok_inj in H; injection H as <- <-.
  - cbn [val dmul conc_of]. now rewrite !coefficient_val by assumption.
  - cbn [val dmul dsquare conc_of]. now rewrite !coefficient_val by assumption.
Qed.

Lemma theta_concentration_some m T Tn u un S0 ES :
  m_S0 m = Some (Const S0) -> m_ES m = Some (Const ES) ->
  exists c cn, theta_concentration m T Tn u un = Ok (c, cn).
Proof.
  intros HS HE. unfold theta_concentration. rewrite HS, HE. cbn [float_of bind]. cbv zeta.
  destruct (m_law m); eauto.
Qed.

(** Lookup and markers. *)
Definition all_ids (ms : @materials R prop) : list Z := flat_map (fun m => ids (m_id m)) ms.

Lemma existsb_In z l : existsb (Z.eqb z) l = true <-> In z l.
Proof.
  rewrite existsb_exists. split.
  - intros [x [Hx He]]. apply Z.eqb_eq in He. now subst.
  - intros H. exists z. split; [exact H|apply Z.eqb_refl].
Qed.

Lemma find_unique (ms : @materials R prop) m z :
  NoDup (all_ids ms) -> In m ms -> In z (ids (m_id m)) -> find_material_from_id ms z = Ok m.
Proof.
  induction ms as [|a ms IH]; intros Hnd Hin Hz; [destruct Hin|].
  cbn [find_material_from_id]. destruct (existsb (Z.eqb z) (ids (m_id a))) eqn:E.
  - apply existsb_In in E. destruct Hin as [->|Hin]; [reflexivity|]. exfalso.
    cbn [all_ids flat_map] in Hnd. revert Hnd E. induction (ids (m_id a)) as [|i l IHl]; intros Hnd E; [destruct E|].
    cbn [app] in Hnd. inversion Hnd as [|x y Hx Hy]; subst. destruct E as [->|E]; [|auto].
    apply Hx. apply in_or_app. right. apply in_flat_map. eauto.
  - destruct Hin as [->|Hin].
    + apply existsb_In in Hz. congruence.
    + apply IH; auto. cbn [all_ids flat_map] in Hnd. clear -Hnd.
      induction (ids (m_id a)) as [|i l IHl]; [exact Hnd|]. cbn [app] in Hnd. inversion Hnd; auto.
Qed.

Lemma rsum_app l l' : rsum (l ++ l') = rsum l + rsum l'.
Proof. induction l as [|x l IH]; cbn [rsum fold_right app] in *; [unfold rsum; lra|]. unfold rsum in *. lra. Qed.

Lemma rsum_count_none z l : ~ In z l -> rsum (map (fun i => if Z.eqb i z then 1 else 0) l) = 0.
Proof.
  induction l as [|x l IH]; intros H; [reflexivity|]. cbn [map rsum fold_right].
  fold (rsum (map (fun i => if Z.eqb i z then 1 else 0) l)).
  rewrite IH by (intros K; apply H; now right).
  destruct (Z.eqb_spec x z) as [->|_]; [exfalso; apply H; now left|lra].
Qed.
Lemma rsum_count_one z l :
  NoDup l -> In z l -> rsum (map (fun i => if Z.eqb i z then 1 else 0) l) = 1.
Proof.
  induction l as [|x l IH]; intros Hnd H; [destruct H|]. inversion Hnd as [|y l' Hx Hl]; subst.
  cbn [map rsum fold_right]. fold (rsum (map (fun i => if Z.eqb i z then 1 else 0) l)).
  destruct H as [->|H].
  - rewrite Z.eqb_refl, rsum_count_none by exact Hx. lra.
  - rewrite IH by assumption. destruct (Z.eqb_spec x z) as [->|_]; [contradiction|lra].
Qed.

Lemma NoDup_app_split {A} (l l' : list A) :
  NoDup (l ++ l') -> NoDup l /\ NoDup l' /\ forall x, In x l -> ~ In x l'.
Proof.
  induction l as [|a l IH]; cbn [app]; intros H.
  - split; [constructor|]. split; [exact H|]. intros x [].
  - inversion H as [|y m Ha Hm]; subst. destruct (IH Hm) as [H1 [H2 H3]]. split; [|split; [exact H2|]].
    + constructor; [|exact H1]. intros K. apply Ha. apply in_or_app. now left.
    + intros x [->|Hx]; [|auto]. intros K. apply Ha. apply in_or_app. now right.
Qed.

Lemma law_marker_cons l m ms z :
  law_marker l (m :: ms) z
  = (if law_eqb (m_law m) l then rsum (map (fun i => if Z.eqb i z then 1 else 0) (ids (m_id m))) else 0)
    + law_marker l ms z.
Proof.
  unfold law_marker at 1. cbn [flat_map]. rewrite rsum_app. unfold law_marker.
  destruct (law_eqb (m_law m) l); reflexivity.
Qed.

Lemma law_marker_none l ms z : ~ In z (all_ids ms) -> law_marker l ms z = 0.
Proof.
  induction ms as [|m ms IH]; intros H; [reflexivity|]. rewrite law_marker_cons.
  cbn [all_ids flat_map] in H. rewrite IH by (intros K; apply H, in_or_app; now right).
  destruct (law_eqb _ _); [|lra]. rewrite rsum_count_none; [lra|]. intros K. apply H, in_or_app. now left.
Qed.

Lemma law_marker_owner ms m z l :
  NoDup (all_ids ms) -> In m ms -> In z (ids (m_id m)) ->
  law_marker l ms z = if law_eqb (m_law m) l then 1 else 0.
Proof.
  induction ms as [|a ms IH]; intros Hnd Hin Hz; [destruct Hin|].
  cbn [all_ids flat_map] in Hnd. apply NoDup_app_split in Hnd. destruct Hnd as [H1 [H2 H3]].
  rewrite law_marker_cons. destruct Hin as [->|Hin].
  - rewrite law_marker_none by (apply H3; exact Hz).
    destruct (law_eqb (m_law m) l); [|lra]. rewrite rsum_count_one by assumption. lra.
  - rewrite IH by assumption. destruct (law_eqb (m_law a) l); [|lra].
    rewrite rsum_count_none; [lra|]. intros K. apply (H3 _ K). apply in_flat_map. eauto.
Qed.

Lemma mobile_concentration_owner ms m z S u :
  NoDup (all_ids ms) -> In m ms -> In z (ids (m_id m)) ->
  theta_mobile_concentration ms z S u = conc_of (m_law m) S u.
Proof.
  intros Hnd Hin Hz. unfold theta_mobile_concentration. cbv zeta.
  rewrite !(law_marker_owner ms m z) by assumption.
  destruct (m_law m); cbn [law_eqb conc_of]; lra.
Qed.

Lemma post_processing_none ms z S u c :
  ~ In z (all_ids ms) -> theta_post_processing ms z S u = Ok c -> c = 0.
Proof.
  revert c. induction ms as [|m ms IH]; intros c Hz; cbn [theta_post_processing].
  - intros H. apply Ok_inj in H. now subst.
  - destruct (m_id m) as [i|l] eqn:Hi; cbn [dx_id bind]; [|discriminate].
    destruct (theta_post_processing ms z S u) as [r|e] eqn:Hr; cbn [bind]; [|discriminate].
    intros H. apply Ok_inj in H. subst c. cbn [all_ids flat_map] in Hz. rewrite Hi in Hz. cbn [ids app] in Hz.
    rewrite (IH r); [|intros K; apply Hz; now right|reflexivity].
    destruct (Z.eqb_spec i z) as [->|_]; [exfalso; apply Hz; now left|lra].
Qed.

Lemma post_processing_owner ms m z S u c :
  NoDup (all_ids ms) -> In m ms -> In z (ids (m_id m)) ->
  theta_post_processing ms z S u = Ok c -> c = conc_of (m_law m) S u.
Proof.
  revert c. induction ms as [|a ms IH]; intros c Hnd Hin Hz; [destruct Hin|].
  cbn [theta_post_processing].
  destruct (m_id a) as [i|l] eqn:Hi; cbn [dx_id bind]; [|discriminate].
  destruct (theta_post_processing ms z S u) as [r|e] eqn:Hr; cbn [bind]; [|discriminate].
  intros H. apply Ok_inj in H. subst c. cbn [all_ids flat_map] in Hnd. rewrite Hi in Hnd. cbn [ids app] in Hnd.
  inversion Hnd as [|x y Hx Hy]; subst. destruct Hin as [->|Hin].
  - rewrite Hi in Hz. destruct Hz as [->|[]]. rewrite Z.eqb_refl.
    rewrite (post_processing_none ms z S u r Hx Hr). destruct (m_law m); cbn [conc_of]; lra.
  - rewrite (IH r Hy Hin Hz eq_refl). destruct (Z.eqb_spec i z) as [->|_]; [|lra].
    exfalso. apply Hx. apply in_flat_map. eauto.
Qed.

Lemma post_processing_ok ms z S u :
  (exists c, theta_post_processing ms z S u = Ok c) <-> (forall m, In m ms -> exists i, m_id m = IdOne i).
Proof.
  induction ms as [|a ms IH]; cbn [theta_post_processing].
  - split; [intros _ m []|eauto].
  - destruct (m_id a) as [i|l] eqn:Hi; cbn [dx_id bind].
    + destruct (theta_post_processing ms z S u) as [r|e] eqn:Hr; cbn [bind].
      * split; [|eauto]. intros _ m [->|Hm]; [eauto|]. apply IH; eauto.
      * split; [intros [c Hc]; discriminate|]. intros H.
        destruct (proj2 IH) as [c Hc]; [|discriminate]. intros m Hm. apply H. now right.
    + split; [intros [c Hc]; discriminate|]. intros H. destruct (H a) as [i Hai]; [now left|congruence].
Qed.

(** Conversions. *)
Lemma conc_of_sqrt S c : 0 < S -> 0 <= c -> conc_of Henry S (sqrt (c / S)) = c.
Proof.
  intros HS Hc. cbn [conc_of]. replace (sqrt (c / S) ^ 2) with (sqrt (c / S) * sqrt (c / S)) by ring.
  rewrite sqrt_sqrt.
  - field. lra.
  - apply Rmult_le_pos; [exact Hc|]. left. now apply Rinv_0_lt_compat.
Qed.

Lemma initialise_ok m T comp th :
  0 < T -> theta_initialise m T comp = Ok th ->
  exists S0 ES, m_S0 m = Some (Const S0) /\ m_ES m = Some (Const ES) /\
    th = match m_law m with
         | Sievert => comp / arrhenius S0 ES T
         | Henry => sqrt (comp / arrhenius S0 ES T)
         end.
Proof.
  intros HT. unfold theta_initialise.
  destruct (dx_id (m_id m)) as [i|e]; cbn [bind]; [|discriminate].
  destruct (float_of (m_S0 m)) as [S0|e] eqn:HS; cbn [bind]; [|discriminate].
  destruct (float_of (m_ES m)) as [ES|e] eqn:HE; cbn [bind]; [|discriminate]. cbv zeta.
  apply float_of_ok in HE, HS. rewrite arrhenius_model by exact HT.
  intros H. exists S0, ES. repeat (split; [assumption|]). destruct (m_law m); congruence.
Qed.

Lemma bc_theta_ok ms m z T c th :
  0 < T -> NoDup (all_ids ms) -> In m ms -> In z (ids (m_id m)) -> bc_theta ms z T c = Ok th ->
  exists S0 ES, m_S0 m = Some (Const S0) /\ m_ES m = Some (Const ES) /\
    th = match m_law m with
         | Sievert => c / arrhenius S0 ES T
         | Henry => sqrt (c / arrhenius S0 ES T + DOLFIN_EPS)
         end.
Proof.
  intros HT Hnd Hin Hz. unfold bc_theta. rewrite (find_unique ms m z) by assumption. cbn [bind].
  destruct (float_of (m_S0 m)) as [S0|e] eqn:HS; cbn [bind]; [|discriminate].
  destruct (float_of (m_ES m)) as [ES|e] eqn:HE; cbn [bind]; [|discriminate]. cbv zeta.
  apply float_of_ok in HE, HS. rewrite arrhenius_model by exact HT.
  intros H. exists S0, ES. repeat (split; [assumption|]). destruct (m_law m); congruence.
Qed.

Lemma arhenius_coeff_owner ms m z T S :
  0 < T -> NoDup (all_ids ms) -> In m ms -> In z (ids (m_id m)) ->
  arhenius_coeff (@m_S0 R prop) (@m_ES R prop) ms z T = Ok S ->
  exists S0 ES, m_S0 m = Some (Const S0) /\ m_ES m = Some (Const ES) /\ S = arrhenius S0 ES T.
Proof.
  intros HT Hnd Hin Hz. unfold arhenius_coeff. rewrite (find_unique ms m z) by assumption. cbn [bind].
  destruct (float_of (m_S0 m)) as [S0|e] eqn:HS; cbn [bind]; [|discriminate].
  destruct (float_of (m_ES m)) as [ES|e] eqn:HE; cbn [bind]; [|discriminate].
  apply float_of_ok in HE, HS. rewrite arrhenius_model by exact HT.
  intros H. apply Ok_inj in H. exists S0, ES. auto.
Qed.
