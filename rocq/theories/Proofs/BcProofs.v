(** Lemmas about the boundary conditions. *)
From Coq Require Import ZArith List Bool String Lia Permutation.
From Verif Require Import Base.Exc Base.Key Model.Bcs Model.Sources Spec.FieldSpec Proofs.KeyProofs.
Import ListNotations.
Local Open Scope string_scope.

Lemma existsb_key k l : existsb (key_eqb k) l = true <-> In k l.
Proof.
  rewrite existsb_exists. split; [intros (x & Hx & E); apply key_eqb_eq in E; now subst|].
  intros H. exists k. split; [assumption|now apply key_eqb_eq].
Qed.
Lemma valid_field_iff n k : is_valid_field n k = true <-> bc_field_ok n k.
Proof.
  unfold is_valid_field, bc_field_ok, valid_fields. rewrite existsb_key, !in_app_iff, !in_map_iff. cbn [In].
  assert (Hs : forall i, (Z.of_nat i + 1)%Z = Z.of_nat (S i)) by lia.
  split.
  - intros [[<-|[<-|[<-|[]]]]|[(i & <- & Hi)|(i & <- & Hi)]].
    + now left.
    + right. exists 0%nat. split; [lia|now left].
    + right. exists 0%nat. split; [lia|now right].
    + apply in_seq in Hi. right. exists (S i). rewrite Hs. split; [lia|now right].
    + apply in_seq in Hi. right. exists (S i). rewrite Hs. split; [lia|now left].
  - intros [->|(i & Hi & Hk)]; [tauto|]. destruct i as [|i].
    + change (str (Z.of_nat 0)) with "0" in Hk. change (Z.of_nat 0) with 0%Z in Hk. intuition.
    + right. destruct Hk as [->| ->]; [right|left]; exists i; (split; [now rewrite Hs|apply in_seq; lia]).
Qed.
Lemma share_iff a b : share a b = true <-> exists s, In s a /\ In s b.
Proof.
  unfold share. rewrite existsb_exists. split.
  - intros (x & Hx & E). apply existsb_exists in E as (y & Hy & E). apply Z.eqb_eq in E. subst. eauto.
  - intros (s & Ha & Hb). exists s. split; [assumption|]. apply existsb_exists. exists s. split; [assumption|apply Z.eqb_refl].
Qed.
Lemma dc_sk_iff b : dc_sk b = true <-> fixes b.
Proof. unfold dc_sk, fixes. destruct (bc_kind_of b); cbn; intuition discriminate. Qed.

(** The test of check_conflicts. *)
Definition clash (b d : bc) : Prop := bc_uid b <> bc_uid d /\ bc_field b = bc_field d /\ overlap b d.
Lemma check_conflicts_spec b l : (forall d, In d l -> fixes d) ->
  (check_conflicts b l = Ok tt <-> forall d, In d l -> ~ clash b d) /\
  (forall e, check_conflicts b l = Err e ->
     exists d, In d l /\ clash b d /\ exists t, e = ValueError (t ++ " is simultaneously set with another boundary condition")).
Proof.
  intros Hf. induction l as [|d r IH]; cbn [check_conflicts].
  { split; [split; [intros _ ? []|reflexivity]|discriminate]. }
  destruct IH as [IH1 IH2]; [intros x Hx; apply Hf; now right|].
  destruct (Nat.eqb _ _ || _)%bool eqn:E.
  - assert (Hn : ~ clash b d).
    { intros (Hu & Hk & _). apply orb_true_iff in E as [E|E]; [apply Nat.eqb_eq in E; tauto|].
      apply negb_true_iff, key_eqb_neq in E. tauto. }
    split.
    + rewrite IH1. split; [intros H x [<-|Hx]; [assumption|now apply H]|intros H x Hx; apply H; now right].
    + intros e He. destruct (IH2 e He) as (x & Hx & Hc). exists x. split; [now right|assumption].
  - apply orb_false_iff in E as [E1 E2]. apply Nat.eqb_neq in E1. apply negb_false_iff, key_eqb_eq in E2.
    destruct (share _ _) eqn:Es.
    + apply share_iff in Es. assert (Hc : clash b d) by (split; [assumption|now split]).
      split; [split; [discriminate|intros H; elim (H d (or_introl eq_refl) Hc)]|].
      intros e [= <-]. exists d. split; [now left|]. split; [assumption|eauto].
    + assert (Hn : ~ clash b d). { intros (_ & _ & Ho). apply share_iff in Ho. congruence. }
      split.
      * rewrite IH1. split; [intros H x [<-|Hx]; [assumption|now apply H]|intros H x Hx; apply H; now right].
      * intros e He. destruct (IH2 e He) as (x & Hx & Hc). exists x. split; [now right|assumption].
Qed.

(** One condition is fine. *)
Definition bc_ok (n : nat) (heat : bool) (dim : nat) (b : bc) : Prop :=
  bc_field_ok n (bc_field b) /\ (bc_kind_of b = SurfKin -> dim = 1%nat) /\ (bc_field b = KS "T" -> heat = true).
Lemma check_one_ok n heat dim dcs b : (forall d, In d dcs -> fixes d) ->
  (check_one n heat dim dcs b = Ok tt <-> bc_ok n heat dim b /\ forall d, In d dcs -> ~ clash b d).
Proof.
  intros Hf. unfold check_one, bc_ok.
  destruct (is_valid_field n (bc_field b)) eqn:E1; cbn [negb].
  2:{ split; [discriminate|]. intros [[H _] _]. apply valid_field_iff in H. congruence. }
  apply valid_field_iff in E1.
  destruct (is_surfkin _ && _)%bool eqn:E2.
  { split; [discriminate|]. intros [[_ [H _]] _]. destruct (bc_kind_of b); try discriminate. rewrite H in E2; [discriminate|reflexivity]. }
  destruct (key_eqb _ _ && _)%bool eqn:E3.
  { split; [discriminate|]. intros [[_ [_ H]] _]. apply andb_true_iff in E3 as [E3 E4]. apply key_eqb_eq in E3.
    rewrite (H E3) in E4. discriminate. }
  rewrite (proj1 (check_conflicts_spec b dcs Hf)). split; [|tauto].
  intros H. split; [|assumption]. split; [assumption|]. split.
  - intros Hk. rewrite Hk in E2. cbn in E2. apply negb_false_iff, Nat.eqb_eq in E2. assumption.
  - intros Hk. rewrite Hk in E3. cbn in E3. now destruct heat.
Qed.
Definition bc_error (n : nat) (heat : bool) (dim : nat) (dcs : list bc) (b : bc) (e : exc) : Prop :=
  (~ bc_field_ok n (bc_field b) /\ e = ValueError "not a valid field for BC") \/
  (bc_kind_of b = SurfKin /\ dim <> 1%nat /\ e = ValueError "SurfaceKinetics can only be used in 1D simulations") \/
  (bc_field b = KS "T" /\ heat = false /\
   e = TypeError "Heat transfer boundary conditions can only be used with HeatTransferProblem") \/
  exists d, In d dcs /\ clash b d /\ exists t, e = ValueError (t ++ " is simultaneously set with another boundary condition").
Lemma check_one_err n heat dim dcs b e : (forall d, In d dcs -> fixes d) ->
  check_one n heat dim dcs b = Err e -> bc_error n heat dim dcs b e.
Proof.
  intros Hf. unfold check_one, bc_error.
  destruct (is_valid_field n (bc_field b)) eqn:E1; cbn [negb].
  2:{ intros [= <-]. left. split; [|reflexivity]. rewrite <- valid_field_iff. congruence. }
  destruct (is_surfkin _ && _)%bool eqn:E2.
  { intros [= <-]. right. left. apply andb_true_iff in E2 as [E2 E3]. split; [now destruct (bc_kind_of b)|].
    split; [|reflexivity]. now apply negb_true_iff, Nat.eqb_neq in E3. }
  destruct (key_eqb _ _ && _)%bool eqn:E3.
  { intros [= <-]. right. right. left. apply andb_true_iff in E3 as [E3 E4]. apply key_eqb_eq in E3.
    split; [assumption|]. split; [now destruct heat|reflexivity]. }
  intros H. right. right. right. now apply (proj2 (check_conflicts_spec b dcs Hf)).
Qed.
Lemma check_loop_ok n heat dim dcs l : (forall d, In d dcs -> fixes d) ->
  (check_loop n heat dim dcs l = Ok tt <->
   forall b, In b l -> bc_ok n heat dim b /\ forall d, In d dcs -> ~ clash b d).
Proof.
  intros Hf. induction l as [|b r IH]; cbn [check_loop]; [split; [intros _ ? []|reflexivity]|].
  destruct (check_one n heat dim dcs b) as [[]|e] eqn:E; cbn [bind].
  - apply check_one_ok in E; [|assumption]. rewrite IH. split.
    + intros H x [<-|Hx]; [assumption|now apply H].
    + intros H x Hx. apply H. now right.
  - split; [discriminate|]. intros H. specialize (H b (or_introl eq_refl)).
    apply check_one_ok in H; [congruence|assumption].
Qed.
Lemma check_loop_err n heat dim dcs l e : (forall d, In d dcs -> fixes d) ->
  check_loop n heat dim dcs l = Err e -> exists b, In b l /\ bc_error n heat dim dcs b e.
Proof.
  intros Hf. induction l as [|b r IH]; cbn [check_loop]; [discriminate|].
  destruct (check_one n heat dim dcs b) as [[]|e'] eqn:E; cbn [bind].
  - intros H. destruct (IH H) as (x & Hx & He). exists x. split; [now right|assumption].
  - intros [= <-]. exists b. split; [now left|]. now apply check_one_err.
Qed.
Lemma check_ok n heat dim l :
  check_boundary_conditions n heat dim l = Ok tt <->
  (forall b, In b l -> bc_ok n heat dim b) /\ (forall a b, In a l -> In b l -> ~ conflict a b).
Proof.
  unfold check_boundary_conditions. rewrite check_loop_ok.
  2:{ intros d Hd. apply filter_In in Hd as [_ Hd]. now apply dc_sk_iff. }
  split.
  - intros H. split; [intros b Hb; now apply H|].
    intros a b Ha Hb (Hu & Hk & Hf & s & Hs1 & Hs2). destruct Hf as [Hf|Hf].
    + apply (proj2 (H b Hb) a); [apply filter_In; split; [assumption|now apply dc_sk_iff]|].
      split; [congruence|]. split; [congruence|]. now exists s.
    + apply (proj2 (H a Ha) b); [apply filter_In; split; [assumption|now apply dc_sk_iff]|].
      split; [congruence|]. split; [congruence|]. now exists s.
  - intros [H1 H2] b Hb. split; [now apply H1|]. intros d Hd (Hu & Hk & Ho).
    apply filter_In in Hd as [Hd Hdf]. apply dc_sk_iff in Hdf.
    apply (H2 b d Hb Hd). split; [assumption|]. split; [assumption|]. split; [now right|assumption].
Qed.

(** ** What is applied *)
Lemma concat_perm {A} (f g : bc -> list A) l :
  Permutation (flat_map f l ++ flat_map g l) (flat_map (fun b => f b ++ g b)%list l).
Proof.
  induction l as [|b r IH]; cbn [flat_map]; [constructor|].
  rewrite <- !app_assoc. apply Permutation_app_head.
  rewrite app_assoc. etransitivity; [apply Permutation_app_tail, Permutation_app_comm|].
  rewrite <- app_assoc. apply Permutation_app_head. exact IH.
Qed.
Lemma flat_map_filter {A B} (p : A -> bool) (f : A -> list B) l :
  flat_map f (filter p l) = flat_map (fun x => if p x then f x else []) l.
Proof. induction l as [|x r IH]; cbn; [reflexivity|]. destruct (p x); cbn; now rewrite IH. Qed.

Lemma create_dirichlet_bcs_ok ns h c : create_dirichlet_bcs ns h = Ok c ->
  exists g, c = flat_map g h /\
    forall b, In b h ->
      if (negb (key_eqb (bc_field b) (KS "T")) && is_dirichlet (bc_kind_of b))%bool
      then create_dirichletbc ns b = Ok (g b) else g b = [].
Proof.
  intros H. exists (fun b => if (negb (key_eqb (bc_field b) (KS "T")) && is_dirichlet (bc_kind_of b))%bool
                   then match create_dirichletbc ns b with Ok t => t | Err _ => [] end else []).
  revert c H. induction h as [|b r IH]; intros c; cbn [create_dirichlet_bcs flat_map].
  - intros [= <-]. split; [reflexivity|]. intros ? [].
  - destruct (_ && _)%bool eqn:E.
    + destruct (create_dirichletbc ns b) as [t|] eqn:Et; [|discriminate]. cbn [bind].
      destruct (create_dirichlet_bcs ns r) as [rest|]; [|discriminate]. cbn [bind]. intros [= <-].
      destruct (IH rest eq_refl) as [-> Hr]. split; [reflexivity|].
      intros x [<-|Hx]; [|now apply Hr]. now rewrite E, Et.
    + intros H. destruct (IH c H) as [-> Hr]. split; [reflexivity|].
      intros x [<-|Hx]; [|now apply Hr]. now rewrite E.
Qed.
Lemma create_dirichletbc_ok n h b t : bc_field_ok n (bc_field b) -> bc_field b <> KS "T" ->
  create_dirichletbc (num_sub_spaces n h) b = Ok t ->
  exists c, designates_component (bc_field b) c /\ t = map (Constraint b (OnComponent c)) (bc_surfaces b).
Proof.
  intros Hv Ht. unfold create_dirichletbc, num_sub_spaces.
  destruct (Nat.eqb n 0 && _)%bool eqn:E.
  - cbn [Nat.eqb bind]. intros [= <-]. apply andb_true_iff in E as [E _]. apply Nat.eqb_eq in E. subst n.
    destruct Hv as [|(i & Hi & Hk)]; [tauto|]. exists i. replace i with 0%nat in * by lia.
    split; [exact Hk|reflexivity].
  - destruct (Nat.eqb_spec (1 + n + nb_adsorbed h) 0); [lia|].
    destruct (bc_field b) as [z|s] eqn:Ef; [|cbn [bind]; discriminate].
    destruct ((0 <=? z)%Z && _)%bool eqn:Ez; cbn [bind]; [|discriminate]. intros [= <-].
    apply andb_true_iff in Ez as [Ez _]. apply Z.leb_le in Ez. exists (Z.to_nat z).
    split; [left; now rewrite Z2Nat.id|reflexivity].
Qed.

(** The terms of one condition, for conditions the code treats. *)
Definition treated (b : bc) : Prop :=
  match bc_kind_of b with
  | Dirichlet => True
  | Flux | SurfKin => bc_field b = KI 0 \/ bc_field b = KS "T"
  | OtherBC => False
  end.
Lemma Forall2_flat {A B} (P : A -> list B -> Prop) (f : A -> list B) l :
  (forall x, In x l -> P x (f x)) -> exists ls, Forall2 P l ls /\ List.concat ls = flat_map f l.
Proof.
  intros H. exists (map f l). split; [|symmetry; apply flat_map_concat_map].
  induction l as [|x r IH]; cbn; constructor; [apply H; now left|apply IH; intros; apply H; now right].
Qed.
Lemma flat_map_ext' {A B} (f g : A -> list B) l : (forall x, In x l -> f x = g x) -> flat_map f l = flat_map g l.
Proof. intros H. rewrite !flat_map_concat_map. f_equal. now apply map_ext_in. Qed.

Lemma apply_ok n heat dim l ts :
  apply_boundary_conditions n heat dim l = Ok ts -> (forall b, In b l -> treated b) ->
  exists ls, Forall2 contribution l ls /\ Permutation ts (List.concat ls).
Proof.
  unfold apply_boundary_conditions, attribute_boundary_conditions. intros H Htr.
  destruct (check_boundary_conditions n heat dim l) as [[]|] eqn:Ec; [|discriminate]. cbn [bind] in H.
  apply check_ok in Ec as [Hok _].
  set (h := filter (fun b => negb (key_eqb (bc_field b) (KS "T"))) l) in *.
  destruct (create_dirichlet_bcs (num_sub_spaces n h) h) as [c|] eqn:Ed; [|discriminate].
  cbn [bind] in H. injection H as <-.
  destruct (create_dirichlet_bcs_ok _ _ _ Ed) as (g & -> & Hg).
  unfold heat_terms, flux_terms, mobile_fluxes, h. rewrite !flat_map_filter.
  set (isT := fun b => key_eqb (bc_field b) (KS "T")) in *.
  match goal with |- context [((flat_map ?w l ++ flat_map ?x l) ++ flat_map ?y l ++ flat_map ?z l)%list] =>
    set (f1 := w); set (f2 := x); set (f3 := y); set (f4 := z) end.
  assert (Hp : Permutation ((flat_map f1 l ++ flat_map f2 l) ++ flat_map f3 l ++ flat_map f4 l)%list
                           (flat_map (fun b => (f1 b ++ f2 b) ++ (f3 b ++ f4 b))%list l)).
  { etransitivity; [apply Permutation_app; apply concat_perm|]. apply concat_perm. }
  destruct (Forall2_flat contribution (fun b => (f1 b ++ f2 b) ++ (f3 b ++ f4 b))%list l) as (ls & Hl & Hc).
  2:{ exists ls. split; [assumption|]. now rewrite Hc. }
  intros b Hb. specialize (Htr b Hb). destruct (Hok b Hb) as [Hv _].
  unfold f1, f2, f3, f4, isT. cbv beta. clear Hp f1 f2 f3 f4. unfold treated in Htr.
  destruct (key_eqb (bc_field b) (KS "T")) eqn:ET; cbn [negb].
  - apply key_eqb_eq in ET.
    destruct (bc_kind_of b) eqn:Ek; cbn [is_flux is_dirichlet andb app]; rewrite ?app_nil_r.
    + now apply heat_dirichlet.
    + apply heat_flux; [assumption|now right].
    + apply heat_flux; [assumption|now left].
    + destruct Htr.
  - pose proof ET as ET'. apply key_eqb_neq in ET'. cbn [app].
    assert (Hin : In b h) by (apply filter_In; split; [assumption|unfold isT; now rewrite ET]).
    specialize (Hg b Hin). rewrite ET in Hg. cbn [negb andb] in Hg.
    destruct (bc_kind_of b) eqn:Ek; cbn [is_flux is_dirichlet andb] in *.
    + cbn [app]. destruct (create_dirichletbc_ok n h b (g b) Hv ET' Hg) as (k & Hk & ->).
      now apply h_dirichlet.
    + destruct Htr as [Htr|Htr]; [|congruence]. rewrite Hg, app_nil_r, Htr. cbn [key_eqb Z.eqb].
      apply h_flux; [left; assumption|now right].
    + destruct Htr as [Htr|Htr]; [|congruence]. rewrite Hg, app_nil_r, Htr. cbn [key_eqb Z.eqb].
      apply h_flux; [left; assumption|now left].
    + destruct Htr.
Qed.

(** Accepted conditions with int fields (or "T") are applied without error. *)
Lemma apply_success n heat dim l :
  check_boundary_conditions n heat dim l = Ok tt ->
  (forall b, In b l -> bc_field b = KS "T" \/ exists z, bc_field b = KI z) ->
  exists ts, apply_boundary_conditions n heat dim l = Ok ts.
Proof.
  intros Hc Hi. unfold apply_boundary_conditions, attribute_boundary_conditions. rewrite Hc. cbn [bind].
  apply check_ok in Hc as [Hok _].
  set (h := filter (fun b => negb (key_eqb (bc_field b) (KS "T"))) l).
  assert (Hd : exists c, create_dirichlet_bcs (num_sub_spaces n h) h = Ok c).
  { assert (Hh : forall b, In b h -> exists i, (i <= n)%nat /\ bc_field b = KI (Z.of_nat i)).
    { intros b Hb. apply filter_In in Hb as [Hb Hn]. apply negb_true_iff, key_eqb_neq in Hn.
      destruct (Hok b Hb) as [[|(i & Hil & Hk)] _]; [tauto|]. exists i. split; [assumption|].
      destruct Hk as [Hk|Hk]; [assumption|]. destruct (Hi b Hb) as [|[z Hz]]; [tauto|congruence]. }
    set (ns := num_sub_spaces n h).
    assert (Hns : ns = 0%nat \/ (n < ns)%nat).
    { unfold ns, num_sub_spaces. destruct (_ && _)%bool; [now left|right; lia]. }
    clearbody ns. clearbody h. induction h as [|b r IH]; cbn [create_dirichlet_bcs]; [eauto|].
    destruct IH as [rest Hr]; [intros; apply Hh; now right|].
    destruct (_ && _)%bool; [|eauto].
    destruct (Hh b (or_introl eq_refl)) as (i & Hil & Hk).
    unfold create_dirichletbc. rewrite Hk. destruct (Nat.eqb_spec ns 0).
    - cbn [bind]. rewrite Hr. cbn [bind]. eauto.
    - replace ((0 <=? Z.of_nat i)%Z && (Z.of_nat i <? Z.of_nat ns)%Z)%bool with true.
      + cbn [bind]. rewrite Hr. cbn [bind]. eauto.
      + symmetry. apply andb_true_iff. split; [apply Z.leb_le; lia|apply Z.ltb_lt; lia]. }
  destruct Hd as [c ->]. cbn [bind]. eauto.
Qed.
