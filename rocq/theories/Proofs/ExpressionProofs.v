(** Lemmas on registered expressions. *)
From Coq Require Import ZArith List Bool String Lia.
From Verif Require Import Base.Exc Base.Key Model.Expressions Spec.ExpressionSpec.
Import ListNotations.

Lemma Ok_inj {B} (a b : B) : Ok a = Ok b -> a = b.
Proof. congruence. Qed.

Section Proofs.
Context {A : Type}.
Implicit Types (l : list value) (v : value).

(** Object n is updated by the list. *)
Definition touches (n : nat) l : Prop := exists v, In v l /\ match v with
  | Expr k | BcExpr k _ | BcTheta k _ => k = n | _ => False end.

Lemma update_other l (t : A) ts n : ~ touches n l -> update_expressions l t ts n = ts n.
Proof.
  revert ts. induction l as [|v r IH]; intros ts H; [reflexivity|]. cbn. rewrite IH.
  - destruct v; cbn; try reflexivity; destruct (Nat.eqb_spec n n0); try reflexivity; subst;
      exfalso; apply H; eexists; (split; [left; reflexivity | reflexivity]).
  - intros (w & I & E). apply H. exists w. split; [right|]; assumption.
Qed.

Lemma update_keeps l (t : A) ts n : ts n = t -> update_expressions l t ts n = t.
Proof.
  revert ts. induction l as [|v r IH]; intros ts H; [exact H|]. cbn. apply IH.
  destruct v; cbn; try exact H; destruct (Nat.eqb n n0); auto.
Qed.

Lemma update_touched l (t : A) ts n : touches n l -> update_expressions l t ts n = t.
Proof.
  revert ts. induction l as [|v r IH]; intros ts (w & I & E); [destruct I|]. cbn. destruct I as [->|I].
  - apply update_keeps. destruct w; cbn; try destruct E; rewrite Nat.eqb_refl; reflexivity.
  - apply IH. exists w. auto.
Qed.

(** All the expressions in a value are in the list. *)
Inductive covered l : value -> Prop :=
| cov_const : covered l Const
| cov_expr n : In (Expr n) l -> covered l (Expr n)
| cov_term vs : Forall (covered l) vs -> covered l (Term vs)
| cov_bc n vs : Forall (covered l) vs -> covered l (BcExpr n vs)
| cov_theta n v : covered l v -> covered l (BcTheta n v).

Section Ind.
Variables (l : list value) (P : value -> Prop).
Hypotheses (H1 : P Const) (H2 : forall n, In (Expr n) l -> P (Expr n))
  (H3 : forall vs, Forall P vs -> P (Term vs)) (H4 : forall n vs, Forall P vs -> P (BcExpr n vs))
  (H5 : forall n v, P v -> P (BcTheta n v)).
Fixpoint covered_rec v (c : covered l v) : P v :=
  match c in covered _ v return P v with
  | cov_const _ => H1
  | cov_expr _ n i => H2 n i
  | cov_term _ vs f => H3 vs ((fix go vs (f : Forall (covered l) vs) : Forall P vs :=
       match f with Forall_nil _ => Forall_nil _ | Forall_cons x c f => Forall_cons x (covered_rec x c) (go _ f) end) vs f)
  | cov_bc _ n vs f => H4 n vs ((fix go vs (f : Forall (covered l) vs) : Forall P vs :=
       match f with Forall_nil _ => Forall_nil _ | Forall_cons x c f => Forall_cons x (covered_rec x c) (go _ f) end) vs f)
  | cov_theta _ n v c => H5 n v (covered_rec v c)
  end.
End Ind.

Lemma covered_incl l l' v : incl l l' -> covered l v -> covered l' v.
Proof. intros I. apply (covered_rec l (covered l')); intros; constructor; auto. Qed.

Lemma covered_at_time l (t : A) ts v : covered l v -> at_time (update_expressions l t ts) t v.
Proof.
  intros C X interp comb const. revert v C. apply (covered_rec l); cbn.
  - reflexivity.
  - intros n I. rewrite update_touched; [reflexivity|]. exists (Expr n). split; [exact I | reflexivity].
  - intros vs F. f_equal. apply map_ext_in. intros v I. rewrite Forall_forall in F. exact (F v I).
  - intros n vs F. f_equal. apply map_ext_in. intros v I. rewrite Forall_forall in F. exact (F v I).
  - intros n v E. do 2 f_equal. exact E.
Qed.

Lemma plain_covered l v : plain v -> In v l -> covered l v.
Proof. intros [->|(n & ->)] I; constructor. exact I. Qed.

Lemma plain_list_covered l vs : (forall v, In v vs -> plain v) -> incl vs l -> Forall (covered l) vs.
Proof. intros H I. apply Forall_forall. intros v V. apply plain_covered; auto. Qed.

(** Fluxes *)

Ltac cov := repeat first
  [ apply cov_const
  | apply cov_term | apply cov_bc | apply cov_theta | apply Forall_nil | apply Forall_cons
  | apply cov_expr; cbn; rewrite ?in_app_iff; cbn; tauto ].

Lemma create_form_covered f before n n' form subs : flux_plain f ->
  create_form f before n = (n', form, subs) -> covered subs form.
Proof.
  intros P H. destruct f; cbn in H; injection H as <- <- <-; cov;
    apply plain_list_covered; try exact P; intros v V; apply in_or_app; right; exact V.
Qed.


Lemma create_expression_covered d before n n' e subs : dirichlet_plain d ->
  create_expression d before n = (n', e, subs) -> covered (items subs ++ [e]) e.
Proof.
  intros P H. destruct d as [|p|[]| |]; cbn in H; injection H as <- <- <-; cov.
  apply plain_list_covered; [exact P|]. intros v V. apply in_or_app. left. exact V.
Qed.

Lemma create_dirichletbc_covered cp fld d before n n' e subs : dirichlet_plain d ->
  create_dirichletbc cp fld d before n = Ok (n', e, subs) -> covered (items subs ++ [e]) e.
Proof.
  unfold create_dirichletbc. intros P H. destruct (create_expression d before n) as [[n1 e1] s1] eqn:E.
  apply (create_expression_covered _ _ _ _ _ _ P) in E.
  destruct (_ && _)%bool.
  - unfold normalise_by_solubility in H. destruct s1 as [l|l]; [|discriminate]. injection H as <- <- <-.
    apply cov_theta. revert E. apply covered_incl. cbn. intros v V. apply in_or_app. left. exact V.
  - injection H as <- <- <-. exact E.
Qed.


Lemma create_fluxes_covered bcs : forall n n' F es, Forall bc_plain bcs ->
  create_fluxes_form bcs n = (n', F, es) -> Forall (covered es) F.
Proof.
  induction bcs as [|[fld [f before|d before]] r IH]; intros n n' F es P H; inversion P as [|? ? P1 P2]; subst; cbn in H.
  - injection H as <- <- <-. constructor.
  - destruct (key_eqb fld (KI 0)); [|eapply IH; eauto].
    destruct (create_form f before n) as [[n1 form] subs] eqn:E.
    destruct (create_fluxes_form r n1) as [[n2 F2] es2] eqn:E2. injection H as <- <- <-. constructor.
    + apply (create_form_covered _ _ _ _ _ _ P1) in E. revert E. apply covered_incl. intros v V. apply in_or_app. auto.
    + specialize (IH _ _ _ _ P2 E2). revert IH. apply Forall_impl. intros v. apply covered_incl.
      intros w W. apply in_or_app. auto.
  - eapply IH; eauto.
Qed.

Lemma create_dirichlet_covered cp bcs : forall n n' vs es, Forall bc_plain bcs ->
  create_dirichlet_bcs cp bcs n = Ok (n', vs, es) -> Forall (covered es) vs.
Proof.
  induction bcs as [|[fld [f before|d before]] r IH]; intros n n' vs es P H; inversion P as [|? ? P1 P2]; subst; cbn in H.
  - injection H as <- <- <-. constructor.
  - eapply IH; eauto.
  - destruct (key_eqb fld (KS "T")); [eapply IH; eauto|].
    destruct (create_dirichletbc cp fld d before n) as [[[n1 e] subs]|] eqn:E; [|discriminate]. cbn in H.
    destruct (create_dirichlet_bcs cp r n1) as [[[n2 vs2] es2]|] eqn:E2; [|discriminate]. cbn in H.
    injection H as <- <- <-. constructor.
    + apply (create_dirichletbc_covered _ _ _ _ _ _ _ _ P1) in E. revert E. apply covered_incl.
      intros v V. apply in_app_or in V as [V|[<-|[]]]; apply in_or_app; [left; exact V | right; left; reflexivity].
    + specialize (IH _ _ _ _ P2 E2). revert IH. apply Forall_impl. intros v. apply covered_incl.
      intros w W. apply in_or_app. right. right. exact W.
Qed.

Lemma heat_fluxes_covered bcs : forall n n' F es, Forall bc_plain bcs ->
  heat_fluxes bcs n = (n', F, es) -> Forall (covered es) F.
Proof.
  induction bcs as [|[fld [f before|d before]] r IH]; intros n n' F es P H; inversion P as [|? ? P1 P2]; subst; cbn in H.
  - injection H as <- <- <-. constructor.
  - destruct (create_form f before n) as [[n1 form] subs] eqn:E.
    destruct (heat_fluxes r n1) as [[n2 F2] es2] eqn:E2. injection H as <- <- <-. constructor.
    + apply (create_form_covered _ _ _ _ _ _ P1) in E. revert E. apply covered_incl. intros v V. apply in_or_app. auto.
    + specialize (IH _ _ _ _ P2 E2). revert IH. apply Forall_impl. intros v. apply covered_incl.
      intros w W. apply in_or_app. auto.
  - eapply IH; eauto.
Qed.

Lemma heat_dirichlet_covered bcs : forall n n' vs es, Forall bc_plain bcs ->
  heat_dirichlet bcs n = (n', vs, es) -> Forall (covered es) vs.
Proof.
  induction bcs as [|[fld [f before|d before]] r IH]; intros n n' vs es P H; inversion P as [|? ? P1 P2]; subst; cbn in H.
  - injection H as <- <- <-. constructor.
  - eapply IH; eauto.
  - destruct (key_eqb fld (KS "T")); [|eapply IH; eauto].
    destruct (create_expression d before n) as [[n1 e] subs] eqn:E.
    destruct (heat_dirichlet r n1) as [[n2 vs2] es2] eqn:E2.
    injection H as <- <- <-. constructor.
    + apply (create_expression_covered _ _ _ _ _ _ P1) in E. revert E. apply covered_incl.
      intros v V. apply in_app_or in V as [V|[<-|[]]]; apply in_or_app; [left; exact V | right; left; reflexivity].
    + specialize (IH _ _ _ _ P2 E2). revert IH. apply Forall_impl. intros v. apply covered_incl.
      intros w W. apply in_or_app. right. right. exact W.
Qed.

(** Sources *)

Lemma used_covered es s : source_plain s -> (is_expression (used s) = true -> In (used s) es) ->
  covered es (used s).
Proof.
  unfold used, source_plain. destruct (src_value s) as [v|]; intros P H; [|cov].
  destruct (P v eq_refl) as [->|(n & ->)]; [cov|]. apply cov_expr. apply H. reflexivity.
Qed.

Lemma create_source_covered ss F es : Forall source_plain ss ->
  create_source_form ss = (F, es) -> Forall (covered es) F.
Proof.
  unfold create_source_form. intros P H. injection H as <- <-. apply Forall_forall. intros v V.
  apply in_map_iff in V as (s & <- & S). rewrite Forall_forall in P. constructor. constructor; [|repeat constructor].
  apply used_covered; [apply P; exact S|]. intros E. apply filter_In. split; [apply in_map; exact S | exact E].
Qed.

(** Traps *)

Lemma density_plain t v : trap_plain t -> In v (density t) -> plain v.
Proof.
  intros [P _]. unfold density. destruct (tr_extrinsic t); [|apply P]. intros [<-|[]]. left. reflexivity.
Qed.

Lemma densities_plain t : trap_plain t -> forall k i ds, densities t i k = Ok ds -> forall v, In v ds -> plain v.
Proof.
  intros P. induction k as [|k IH]; intros i ds H v V; cbn in H; [injection H as <-; destruct V|].
  unfold density_at in H. destruct (nth_error _ _) as [d|] eqn:E; [|discriminate]. cbn in H.
  destruct (densities t (S i) k) as [r|] eqn:R; [|discriminate]. cbn in H. injection H as <-.
  destruct V as [<-|V]; [|eapply IH; eauto]. apply (density_plain t _ P). eapply nth_error_In. exact E.
Qed.

Lemma trapping_covered t F : trap_plain t -> trapping_values t = Ok F ->
  forall l ds, densities t 0 (tr_mats t) = Ok ds -> incl ds l -> Forall (covered l) F.
Proof.
  unfold trapping_values. intros P H l ds D I. rewrite D in H. cbn in H. injection H as <-.
  apply Forall_forall. intros v V. apply in_map_iff in V as (w & <- & W). constructor.
  constructor; [|repeat constructor]. apply plain_covered; [|apply I; exact W].
  eapply densities_plain; eauto.
Qed.

Lemma trap_create_covered t F es : trap_plain t -> trap_create_form t = Ok (F, es) ->
  Forall (covered es) F /\ exists G, trapping_values t = Ok G /\ Forall (covered es) G.
Proof.
  unfold trap_create_form. intros P H.
  destruct (densities t 0 (tr_mats t)) as [ds|] eqn:D; [|discriminate]. cbn [bind] in H.
  destruct (trapping_values t) as [G|] eqn:T; [|discriminate]. cbn [bind] in H.
  destruct (create_source_form (tr_sources t)) as [Fs ss] eqn:SF. apply Ok_inj in H. injection H as <- <-.
  assert (CG : Forall (covered (tr_before t ++ ds ++ ss)) G).
  { eapply trapping_covered; eauto. intros v V. rewrite !in_app_iff. auto. }
  split; [|eauto]. apply Forall_app. split; [exact CG|].
  apply (create_source_covered _ _ _ (proj2 P)) in SF. revert SF. apply Forall_impl. intros v. apply covered_incl.
  intros w W. rewrite !in_app_iff. auto.
Qed.

Lemma traps_create_covered ts : Forall trap_plain ts -> forall F es, traps_create_forms ts = Ok (F, es) ->
  Forall (covered es) F /\ forall G, mobile_trapping ts = Ok G -> Forall (covered es) G.
Proof.
  induction ts as [|t r IH]; intros P F es H; inversion P as [|? ? P1 P2]; subst; cbn in H.
  - injection H as <- <-. split; [constructor|]. intros G E. injection E as <-. constructor.
  - destruct (trap_create_form t) as [[F1 e1]|] eqn:E1; [|discriminate]. cbn [bind] in H.
    destruct (traps_create_forms r) as [[F2 e2]|] eqn:E2; [|discriminate]. cbn [bind fst snd] in H.
    apply Ok_inj in H. injection H as <- <-.
    destruct (trap_create_covered _ _ _ P1 E1) as (C1 & G1 & T1 & CG1).
    destruct (IH P2 _ _ eq_refl) as (C2 & CG2).
    assert (I1 : incl e1 (e1 ++ e2)) by (intros w W; apply in_or_app; auto).
    assert (I2 : incl e2 (e1 ++ e2)) by (intros w W; apply in_or_app; auto).
    split.
    + apply Forall_app. split; [revert C1 | revert C2]; apply Forall_impl; intros v; apply covered_incl; assumption.
    + intros G E. cbn in E. rewrite T1 in E. cbn [bind] in E.
      destruct (mobile_trapping r) as [G2|] eqn:M; [|discriminate]. cbn [bind] in E. apply Ok_inj in E. subst G.
      apply Forall_app. split; [revert CG1 | specialize (CG2 _ eq_refl); revert CG2];
        apply Forall_impl; intros v; apply covered_incl; assumption.
Qed.

Lemma initialise_covered cp ss bcs ts before n pb :
  Forall source_plain ss -> Forall bc_plain bcs -> Forall trap_plain ts ->
  initialise cp ss bcs ts before n = Ok pb ->
  Forall (covered (pb_expressions pb)) (pb_forms pb ++ pb_imposed pb).
Proof.
  unfold initialise. intros PS PB PT H.
  destruct (mobile_trapping ts) as [mt|] eqn:M; [|discriminate]. cbn [bind] in H.
  destruct (create_source_form ss) as [Fs es] eqn:S1.
  destruct (create_fluxes_form bcs n) as [[n1 Ff] ef] eqn:F1.
  destruct (traps_create_forms ts) as [[Ft et]|] eqn:T1; [|discriminate]. cbn [bind] in H.
  destruct (create_dirichlet_bcs cp bcs n1) as [[[n2 vs] ed]|] eqn:D1; [|discriminate]. cbn [bind fst snd] in H.
  apply Ok_inj in H. subst pb. cbn.
  apply create_source_covered in S1; [|exact PS]. apply create_fluxes_covered in F1; [|exact PB].
  apply create_dirichlet_covered in D1; [|exact PB].
  destruct (traps_create_covered ts PT _ _ T1) as (C1 & C2). specialize (C2 _ M).
  rewrite !Forall_app.
  repeat match goal with |- _ /\ _ => split end.
  - revert C2. apply Forall_impl. intros v. apply covered_incl. intros w W. rewrite !in_app_iff. auto.
  - revert S1. apply Forall_impl. intros v. apply covered_incl. intros w W. rewrite !in_app_iff. auto.
  - revert F1. apply Forall_impl. intros v. apply covered_incl. intros w W. rewrite !in_app_iff. auto.
  - revert C1. apply Forall_impl. intros v. apply covered_incl. intros w W. rewrite !in_app_iff. auto.
  - revert D1. apply Forall_impl. intros v. apply covered_incl. intros w W. rewrite !in_app_iff. auto.
Qed.

Lemma heat_covered ss bcs before n :
  Forall source_plain ss -> Forall bc_plain bcs ->
  let pb := heat_problem ss bcs before n in
  Forall (covered (pb_expressions pb)) (pb_forms pb ++ pb_imposed pb).
Proof.
  unfold heat_problem. intros PS PB.
  destruct (heat_fluxes bcs n) as [[n1 Ff] ef] eqn:F1.
  destruct (heat_dirichlet bcs n1) as [[n2 ds] ed] eqn:D1. cbn.
  apply heat_fluxes_covered in F1; [|exact PB]. apply heat_dirichlet_covered in D1; [|exact PB].
  rewrite !Forall_app. repeat match goal with |- _ /\ _ => split end.
  - apply Forall_forall. intros v V. apply in_map_iff in V as (w & <- & W). apply in_map_iff in W as (s & <- & S1).
    constructor. constructor; [|repeat constructor]. rewrite Forall_forall in PS.
    apply used_covered; [apply PS; exact S1|]. intros _. rewrite !in_app_iff. right. left. apply in_map. exact S1.
  - revert F1. apply Forall_impl. intros v. apply covered_incl. intros w W. rewrite !in_app_iff. auto.
  - revert D1. apply Forall_impl. intros v. apply covered_incl. intros w W. rewrite !in_app_iff. auto.
Qed.
End Proofs.
