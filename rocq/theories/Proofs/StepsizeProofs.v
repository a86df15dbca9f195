(** Facts about one call of adapt (rational instance). *)
From Coq Require Import ZArith QArith Qabs List Bool Lqa Lia Sorting.Sorted Sorting.Permutation.
From Verif Require Import Base.Exc Base.Num Model.Stepsize Spec.TimeSpec Proofs.NumQ.
Import ListNotations.
Local Open Scope Q_scope.

(** ** Settings never change *)
Lemma assign_adaptive {A} (s : stepsize A) v : adaptive_stepsize (assign s v) = adaptive_stepsize s.
Proof. reflexivity. Qed.
Lemma assign_milestones {A} (s : stepsize A) v : milestones (assign s v) = milestones s.
Proof. reflexivity. Qed.
Lemma assign_value {A} (s : stepsize A) v : value (assign s v) = v.
Proof. reflexivity. Qed.

Section Gen.
Context {A : Type} {N : Num A}.

Lemma adapt_inv (s s' : stepsize A) t nb c :
  adapt s t nb c = Ok s' ->
  exists v,
    match adaptive_stepsize s with
    | Some a => adapt_value a t nb c (value s) = Ok v
    | None => v = value s
    end /\ s' = assign s (clamp_milestone s t v).
Proof.
  unfold adapt. destruct (adaptive_stepsize s) as [a|].
  - destruct (adapt_value a t nb c (value s)) as [v|e]; cbn; [|discriminate].
    injection 1 as <-. eauto.
  - cbn. injection 1 as <-. eauto.
Qed.

Lemma adapt_adaptive (s s' : stepsize A) t nb c :
  adapt s t nb c = Ok s' -> adaptive_stepsize s' = adaptive_stepsize s.
Proof. intros H. apply adapt_inv in H as (v & _ & ->). reflexivity. Qed.

Lemma adapt_milestones (s s' : stepsize A) t nb c :
  adapt s t nb c = Ok s' -> milestones s' = milestones s.
Proof. intros H. apply adapt_inv in H as (v & _ & ->). reflexivity. Qed.

Lemma adapt_initial (s s' : stepsize A) t nb c :
  adapt s t nb c = Ok s' -> initial_value s' = initial_value s.
Proof. intros H. apply adapt_inv in H as (v & _ & ->). reflexivity. Qed.
End Gen.

(** ** next_milestone *)
Lemma first_after_some (t : Q) l m : first_after t l = Some m -> In m l /\ t < m.
Proof.
  induction l as [|x r IH]; cbn; [discriminate|].
  destruct (Qltb t x) eqn:E.
  - injection 1 as <-. apply Qltb_true in E. auto.
  - intros H. apply IH in H as [? ?]. auto.
Qed.

Lemma first_after_none (t : Q) l : first_after t l = None -> forall m, In m l -> m <= t.
Proof.
  induction l as [|x r IH]; cbn; [contradiction|].
  destruct (Qltb t x) eqn:E; [discriminate|].
  apply Qltb_false in E. intros H m [->|Hm]; auto.
Qed.

(** On a sorted list next_milestone is the least milestone after t. *)
Lemma first_after_least (t : Q) l m :
  StronglySorted Qle l -> first_after t l = Some m ->
  forall m', In m' l -> t < m' -> m <= m'.
Proof.
  induction 1 as [|x r Hs IH Hf]; cbn; [discriminate|].
  destruct (Qltb t x) eqn:E.
  - injection 1 as <-. intros m' [->|Hm'] _; [lra|].
    rewrite Forall_forall in Hf. auto.
  - intros H m' [->|Hm'] Hlt; [|eauto]. apply Qltb_false in E. lra.
Qed.

(** sorted() sorts. *)
Lemma insert_sorted_perm (x : Q) l : Permutation (x :: l) (insert_sorted x l).
Proof.
  induction l as [|y r IH]; cbn; [reflexivity|].
  destruct (Qle_bool x y); [reflexivity|].
  rewrite perm_swap. now constructor.
Qed.

Lemma py_sorted_perm (l : list Q) : Permutation l (py_sorted l).
Proof.
  induction l as [|x r IH]; cbn; [constructor|].
  rewrite <- insert_sorted_perm. now constructor.
Qed.

Lemma insert_sorted_sorted (x : Q) l : StronglySorted Qle l -> StronglySorted Qle (insert_sorted x l).
Proof.
  induction 1 as [|y r Hs IH Hf]; cbn.
  - repeat constructor.
  - destruct (Qle_bool x y) eqn:E; qb.
    + constructor; [now constructor|]. constructor; [assumption|].
      rewrite Forall_forall in *. intros z Hz. specialize (Hf z Hz). lra.
    + constructor; [assumption|].
      rewrite Forall_forall in *. intros z Hz.
      eapply Permutation_in in Hz; [|symmetry; apply insert_sorted_perm].
      destruct Hz as [->|Hz]; [lra|auto].
Qed.

Lemma py_sorted_sorted (l : list Q) : StronglySorted Qle (py_sorted l).
Proof. induction l; cbn; [constructor|now apply insert_sorted_sorted]. Qed.

(** ** Upper bound *)
Lemma cap_bound (m : maxspec Q) t v v' b :
  cap m t v = Ok v' -> bound_at m t b -> v' <= b.
Proof.
  unfold cap, bound_at. destruct m as [|x|f]; cbn.
  - intros _ [].
  - intros H ->. injection H as <-. destruct (Qltb b v) eqn:E; qb; lra.
  - intros H Hb. rewrite Hb in H. cbn in H. injection H as <-.
    destruct (Qltb b v) eqn:E; qb; lra.
Qed.

Lemma clamp_milestone_le (s : stepsize Q) t v : clamp_milestone s t v <= v.
Proof.
  unfold clamp_milestone. destruct (next_milestone s t) as [m|]; [|lra].
  destruct (nltb m (nadd t v) && negb (isclose t m)) eqn:E; [|lra].
  qb. lra.
Qed.

Lemma adapt_bound (s s' : stepsize Q) a t nb c b :
  adaptive_stepsize s = Some a -> adapt s t nb c = Ok s' ->
  bound_at (max_stepsize a) t b -> value s' <= b.
Proof.
  intros Ha H Hb. apply adapt_inv in H as (v & Hv & ->). rewrite Ha in Hv.
  rewrite assign_value. eapply Qle_trans; [apply clamp_milestone_le|].
  unfold adapt_value in Hv.
  destruct (if c then Ok (value s) else adapt_diverged a (value s)) as [v1|]; cbn in Hv; [|discriminate].
  match type of Hv with bind ?x _ = _ => destruct x as [v2|]; cbn in Hv; [|discriminate] end.
  eapply cap_bound; eauto.
Qed.

(** ** Positivity *)
Lemma py_div_ok (a b c : Q) : py_div a b = Ok c -> c = a / b.
Proof. unfold py_div. cbn. destruct (Qeq_bool b 0); congruence. Qed.

Lemma cap_pos (m : maxspec Q) t v v' :
  (forall t b, bound_at m t b -> 0 < b) -> 0 < v -> cap m t v = Ok v' -> 0 < v'.
Proof.
  unfold cap. intros Hp Hv. destruct m as [|x|f]; cbn.
  - congruence.
  - injection 1 as <-. specialize (Hp t x eq_refl). destruct (Qltb x v); lra.
  - destruct (f t) as [[b|]|] eqn:E; cbn; try congruence.
    injection 1 as <-. specialize (Hp t b E). destruct (Qltb b v); lra.
Qed.

Lemma adapt_pos (s s' : stepsize Q) t nb c :
  positive_settings s -> 0 < value s -> adapt s t nb c = Ok s' -> 0 < value s'.
Proof.
  intros Hp Hv H. apply adapt_inv in H as (v & Hva & ->). rewrite assign_value.
  assert (Hpos : 0 < v).
  { unfold positive_settings in Hp. destruct (adaptive_stepsize s) as [a|]; [|now rewrite Hva].
    destruct Hp as [Hr Hb]. unfold adapt_value in Hva.
    destruct (if c then Ok (value s) else adapt_diverged a (value s)) as [v1|] eqn:E1;
      cbn in Hva; [|discriminate].
    assert (H1 : 0 < v1).
    { destruct c; [congruence|]. unfold adapt_diverged in E1.
      destruct (dt_min a) as [dm|]; [|discriminate].
      destruct (py_div (value s) (change_ratio a)) as [w|] eqn:Ew; cbn in E1; [|discriminate].
      destruct (Qltb w dm); [discriminate|]. injection E1 as <-.
      apply py_div_ok in Ew as ->. now apply Qdiv_pos. }
    destruct (nb <? 5)%Z; cbn in Hva.
    - eapply cap_pos; [exact Hb| |exact Hva]. now apply Qmult_pos.
    - destruct (py_div v1 (change_ratio a)) as [w|] eqn:Ew; cbn in Hva; [|discriminate].
      apply py_div_ok in Ew as ->. eapply cap_pos; [exact Hb| |exact Hva]. now apply Qdiv_pos. }
  unfold clamp_milestone. destruct (next_milestone s t) as [m|] eqn:Em; [|assumption].
  destruct (nltb m (nadd t v) && negb (isclose t m)); [|assumption].
  unfold next_milestone in Em. destruct (milestones s) as [l|]; [|discriminate].
  apply first_after_some in Em as [_ Hm]. cbn. lra.
Qed.

(** ** Milestones *)
(** After adapt the next milestone is not jumped over, unless t is already numerically at it. *)
Lemma adapt_milestone (s s' : stepsize Q) t nb c m :
  adapt s t nb c = Ok s' -> next_milestone s t = Some m ->
  ~ close t m -> t + value s' <= m.
Proof.
  intros H Hm Hc. apply adapt_inv in H as (v & _ & ->). rewrite assign_value.
  unfold clamp_milestone. rewrite Hm.
  destruct (nltb m (nadd t v) && negb (isclose t m)) eqn:E; qb; [lra|lra|contradiction].
Qed.
