(** Lemmas about attribute_source_terms. *)
From Coq Require Import ZArith List Bool String Lia.
From Verif Require Import Base.Exc Base.Key Model.Sources Spec.FieldSpec Proofs.KeyProofs.
Import ListNotations.
Local Open Scope string_scope.

Definition base_dict : dict species :=
  [(KS "solute", Mobile); (KS "0", Mobile); (KI 0, Mobile); (KS "mobile", Mobile); (KS "T", Temp)].

Lemma base_get k sp : dict_get base_dict k = Some sp <-> match sp with Trap _ => False | _ => designates 0 k sp end.
Proof.
  unfold base_dict. cbn [dict_get].
  assert (H : forall a b, key_eqb a b = true -> a = b) by (intros; now apply key_eqb_eq).
  destruct (key_eqb k (KS "solute")) eqn:E1; [apply H in E1; subst; destruct sp; cbn; split; intuition congruence|].
  destruct (key_eqb k (KS "0")) eqn:E2; [apply H in E2; subst; destruct sp; cbn; split; intuition congruence|].
  destruct (key_eqb k (KI 0)) eqn:E3; [apply H in E3; subst; destruct sp; cbn; split; intuition congruence|].
  destruct (key_eqb k (KS "mobile")) eqn:E4; [apply H in E4; subst; destruct sp; cbn; split; intuition congruence|].
  destruct (key_eqb k (KS "T")) eqn:E5; [apply H in E5; subst; destruct sp; cbn; split; intuition congruence|].
  apply key_eqb_neq in E1, E2, E3, E4, E5. split; [discriminate|].
  destruct sp; cbn; [|congruence|tauto]. intuition congruence.
Qed.

Definition trap_step (d : dict species) (i : nat) : dict species :=
  dict_set (dict_set d (KI (Z.of_nat i)) (Trap i)) (KS (str (Z.of_nat i))) (Trap i).
Definition of_index (k : key) (i : nat) : Prop := k = KI (Z.of_nat i) \/ k = KS (str (Z.of_nat i)).

Lemma of_index_inj k i j : of_index k i -> of_index k j -> i = j.
Proof.
  intros [H1|H1] [H2|H2]; rewrite H1 in H2; try discriminate.
  - injection H2. lia.
  - injection H2 as H2. apply str_inj in H2. lia.
Qed.
Lemma trap_step_get d i k :
  dict_get (trap_step d i) k =
  if (key_eqb k (KS (str (Z.of_nat i))) || key_eqb k (KI (Z.of_nat i)))%bool then Some (Trap i) else dict_get d k.
Proof.
  unfold trap_step. rewrite !dict_get_set.
  now destruct (key_eqb k (KS (str (Z.of_nat i)))), (key_eqb k (KI (Z.of_nat i))).
Qed.
Lemma of_index_bool k i :
  (key_eqb k (KS (str (Z.of_nat i))) || key_eqb k (KI (Z.of_nat i)))%bool = true <-> of_index k i.
Proof. rewrite orb_true_iff, !key_eqb_eq. unfold of_index. tauto. Qed.

Lemma fold_traps l : forall d k,
  (forall i, In i l -> of_index k i -> dict_get (fold_left trap_step l d) k = Some (Trap i)) /\
  ((forall i, In i l -> ~ of_index k i) -> dict_get (fold_left trap_step l d) k = dict_get d k).
Proof.
  induction l as [|a r IH]; intros d k; cbn [fold_left]; [split; [intros ? []|reflexivity]|].
  destruct (IH (trap_step d a) k) as [H1 H2]. split.
  - intros i [->|Hi] Ho; [|now apply H1].
    assert (Hdec : (exists j, In j r /\ of_index k j) \/ (forall j, In j r -> ~ of_index k j)).
    { clear -r. induction r as [|b r IH]; [right; intros ? []|].
      destruct ((key_eqb k (KS (str (Z.of_nat b))) || key_eqb k (KI (Z.of_nat b)))%bool) eqn:E.
      - apply of_index_bool in E. left. exists b. split; [now left|assumption].
      - destruct IH as [(j & Hj & Ho)|IH]; [left; exists j; split; [now right|assumption]|].
        right. intros j [<-|Hj]; [intros Ho; apply of_index_bool in Ho; congruence|auto]. }
    destruct Hdec as [(j & Hj & Hoj)|Hno].
    + rewrite (H1 j Hj Hoj). now rewrite (of_index_inj k i j Ho Hoj).
    + rewrite (H2 Hno), trap_step_get. apply of_index_bool in Ho. now rewrite Ho.
  - intros Hno. rewrite H2; [|intros i Hi; apply Hno; now right].
    rewrite trap_step_get. destruct (_ || _)%bool eqn:E; [|reflexivity].
    apply of_index_bool in E. now elim (Hno a (or_introl eq_refl)).
Qed.


Lemma base_not_trap k i : (1 <= i)%nat -> of_index k i -> dict_get base_dict k = None.
Proof.
  intros Hi [->| ->]; unfold base_dict; cbn [dict_get key_eqb].
  - destruct (Z.eqb_spec (Z.of_nat i) 0); [lia|reflexivity].
  - rewrite !(proj2 (String.eqb_neq _ _)); [reflexivity|..]; try (apply str_not; reflexivity).
    rewrite <- str_0. intros H. apply str_inj in H. lia.
Qed.

Lemma field_to_object_eq n : field_to_object n = fold_left trap_step (seq 1 n) base_dict.
Proof. reflexivity. Qed.

Lemma designated_dec n k : (exists i, (1 <= i <= n)%nat /\ of_index k i) \/ (forall i, (1 <= i <= n)%nat -> ~ of_index k i).
Proof.
  induction n as [|n IH]; [right; intros; lia|].
  destruct IH as [(i & Hi & Ho)|IH]; [left; exists i; split; [lia|assumption]|].
  destruct ((key_eqb k (KS (str (Z.of_nat (S n)))) || key_eqb k (KI (Z.of_nat (S n))))%bool) eqn:E.
  - apply of_index_bool in E. left. exists (S n). split; [lia|assumption].
  - right. intros i Hi Ho. destruct (Nat.eq_dec i (S n)) as [->|].
    + apply of_index_bool in Ho. congruence.
    + apply (IH i); [lia|assumption].
Qed.

Lemma field_to_object_get n k sp : dict_get (field_to_object n) k = Some sp <-> designates n k sp.
Proof.
  rewrite field_to_object_eq. destruct (fold_traps (seq 1 n) base_dict k) as [H1 H2].
  destruct (designated_dec n k) as [(i & Hi & Ho)|Hno].
  - rewrite (H1 i); [|apply in_seq; lia|assumption].
    pose proof (base_not_trap k i (proj1 Hi) Ho) as Hb.
    split.
    + intros [= <-]. cbn. split; [assumption|]. exact Ho.
    + destruct sp as [| |j].
      * intros Hd. assert (dict_get base_dict k = Some Mobile) by (apply base_get; exact Hd). congruence.
      * intros Hd. assert (dict_get base_dict k = Some Temp) by (apply base_get; exact Hd). congruence.
      * intros [Hj Hoj]. f_equal. f_equal. now apply (of_index_inj k).
  - rewrite H2; [|intros i Hi; apply Hno; apply in_seq in Hi; lia].
    rewrite base_get. destruct sp as [| |j]; [reflexivity..|].
    split; [tauto|]. intros [Hj Hoj]. now apply (Hno j).
Qed.

Lemma fold_values l : forall (d : dict species) x,
  In x (dict_values (fold_left trap_step l d)) -> In x (dict_values d) \/ exists i, In i l /\ x = Trap i.
Proof.
  induction l as [|a r IH]; intros d x H; [now left|]. cbn [fold_left] in H.
  apply IH in H as [H|(i & Hi & ->)]; [|right; exists i; split; [now right|reflexivity]].
  unfold trap_step in H. apply dict_values_set in H as [->|H]; [right; exists a; split; [now left|reflexivity]|].
  apply dict_values_set in H as [->|H]; [right; exists a; split; [now left|reflexivity]|now left].
Qed.
Lemma values_present n sp : In sp (dict_values (field_to_object n)) <-> present n sp.
Proof.
  split.
  - rewrite field_to_object_eq. intros H. apply fold_values in H as [H|(i & Hi & ->)].
    + unfold base_dict, dict_values in H. cbn [map snd In] in H.
      destruct sp; cbn; [exact I..|]. intuition discriminate.
    + apply in_seq in Hi. cbn. lia.
  - intros H.
    assert (Hd : exists k, designates n k sp).
    { destruct sp as [| |i]; cbn in *.
      - exists (KI 0). tauto.
      - now exists (KS "T").
      - exists (KI (Z.of_nat i)). auto. }
    destruct Hd as [k Hd]. apply field_to_object_get in Hd. now apply dict_get_value in Hd.
Qed.

Section Loop.
Context {S : Type} (s_field : S -> key) (s_decay : S -> bool).
Notation bel n s sp := (belongs n (s_field s) (s_decay s) sp).

Lemma add_all (s : S) l : NoDup l -> forall (a : attached S) x,
  fold_left (fun a sp => if is_concentration sp then add_source a s sp else a) l a x =
  if (in_dec species_dec x l) then if is_concentration x then (a x ++ [s])%list else a x else a x.
Proof.
  induction 1 as [|y l Hy Hn IH]; intros a x; cbn [fold_left]; [reflexivity|].
  rewrite IH. destruct (in_dec species_dec x l) as [Hx|Hx].
  - destruct (in_dec species_dec x (y :: l)) as [_|Hc]; [|elim Hc; now right].
    assert (x <> y) by (intros ->; tauto).
    destruct (is_concentration y); [|reflexivity]. unfold add_source. now destruct (species_dec x y).
  - destruct (in_dec species_dec x (y :: l)) as [[->|Hc]|Hc]; [|tauto|].
    + destruct (is_concentration x); [|reflexivity]. unfold add_source. now destruct (species_dec x x).
    + destruct (is_concentration y); [|reflexivity]. unfold add_source.
      destruct (species_dec x y) as [->|]; [|reflexivity]. elim Hc. now left.
Qed.

Lemma attribute_one_ok n heat a s a' :
  attribute_one s_field s_decay n heat a s = Ok a' ->
  (s_field s = KS "T" -> heat = true) /\ (exists sp, bel n s sp) /\
  (forall sp, bel n s sp -> a' sp = (a sp ++ [s])%list) /\ (forall sp, ~ bel n s sp -> a' sp = a sp).
Proof.
  unfold attribute_one. destruct (_ && negb heat)%bool eqn:E; [discriminate|].
  intros H. split.
  { intros Hf. rewrite Hf in E. cbn in E. now destruct heat. }
  unfold belongs. destruct (s_decay s && _)%bool eqn:Ed.
  - injection H as <-. split; [exists Mobile; split; [exact I|discriminate]|].
    split; intros sp Hs; rewrite add_all by apply NoDup_nodup.
    + destruct Hs as [Hp Ht]. apply values_present in Hp.
      destruct (in_dec _ _ _) as [_|Hc]; [|elim Hc; now apply nodup_In].
      now destruct sp.
    + destruct (in_dec _ _ _) as [Hc|]; [|reflexivity]. apply nodup_In, values_present in Hc.
      destruct sp; cbn; [elim Hs; split; [exact I|discriminate]|reflexivity|].
      elim Hs. split; [assumption|discriminate].
  - destruct (dict_get _ _) as [sp0|] eqn:Eg; [|discriminate]. injection H as <-.
    split; [exists sp0; now apply field_to_object_get|]. unfold add_source.
    split; intros sp Hs.
    + apply field_to_object_get in Hs. rewrite Eg in Hs. injection Hs as ->. now destruct (species_dec sp sp).
    + destruct (species_dec sp sp0) as [->|]; [|reflexivity]. elim Hs. now apply field_to_object_get.
Qed.
Lemma attribute_one_success n heat a s :
  (s_field s = KS "T" -> heat = true) -> (exists sp, bel n s sp) ->
  exists a', attribute_one s_field s_decay n heat a s = Ok a'.
Proof.
  intros Ht (sp & Hs). unfold attribute_one, belongs in *.
  destruct (_ && negb heat)%bool eqn:E.
  - apply andb_true_iff in E as [E1 E2]. apply key_eqb_eq in E1. rewrite (Ht E1) in E2. discriminate.
  - destruct (s_decay s && _)%bool; [eauto|]. apply field_to_object_get in Hs. rewrite Hs. eauto.
Qed.

Lemma selected_loop n heat l : forall a a', attribute_loop s_field s_decay n heat a l = Ok a' ->
  forall sp, exists m, a' sp = (a sp ++ m)%list /\ selected (fun s => bel n s sp) l m.
Proof.
  induction l as [|s r IH]; intros a a' H sp; cbn [attribute_loop] in H.
  - injection H as <-. exists []. split; [now rewrite app_nil_r|constructor].
  - destruct (attribute_one _ _ n heat a s) as [a1|] eqn:E; [|discriminate]. cbn in H.
    apply attribute_one_ok in E as (_ & _ & Hy & Hn). destruct (IH _ _ H sp) as (m & Hm & Hsel).
    assert (D : bel n s sp \/ ~ bel n s sp).
    { unfold belongs. destruct (_ && _)%bool.
      - destruct sp as [| |i]; cbn; [left; split; [exact I|discriminate]|right; tauto|].
        destruct (le_dec 1 i), (le_dec i n); [left; split; [lia|discriminate]|right; lia..].
      - destruct (dict_get (field_to_object n) (s_field s)) as [x|] eqn:Ex.
        + destruct (species_dec x sp) as [->|Hx]; [left; now apply field_to_object_get|].
          right. intros Hd. apply field_to_object_get in Hd. congruence.
        + right. intros Hd. apply field_to_object_get in Hd. congruence. }
    destruct D as [D|D].
    + exists (s :: m). split; [rewrite Hm, (Hy _ D), <- app_assoc; reflexivity|now constructor].
    + exists m. split; [now rewrite Hm, (Hn _ D)|now constructor].
Qed.
Lemma loop_success n heat l : forall a,
  (exists a', attribute_loop s_field s_decay n heat a l = Ok a') <->
  Forall (fun s => (s_field s = KS "T" -> heat = true) /\ exists sp, bel n s sp) l.
Proof.
  induction l as [|s r IH]; intros a; cbn [attribute_loop]; [split; [constructor|eauto]|].
  split.
  - intros [a' H]. destruct (attribute_one _ _ n heat a s) as [a1|] eqn:E; [|discriminate]. cbn in H.
    apply attribute_one_ok in E as (H1 & H2 & _). constructor; [now split|]. apply (IH a1). eauto.
  - intros H. inversion_clear H as [|? ? [H1 H2] Hr].
    destruct (attribute_one_success n heat a s H1 H2) as [a1 ->]. cbn. now apply IH.
Qed.
Lemma loop_error n heat l : forall a e, attribute_loop s_field s_decay n heat a l = Err e ->
  exists s, In s l /\
    ((s_field s = KS "T" /\ heat = false /\ exists m, e = TypeError m) \/
     ((forall sp, ~ bel n s sp) /\ exists m, e = KeyError m)).
Proof.
  induction l as [|s r IH]; intros a e H; cbn [attribute_loop] in H; [discriminate|].
  destruct (attribute_one _ _ n heat a s) as [a1|e1] eqn:E; cbn in H.
  - destruct (IH _ _ H) as (s' & Hs & Hc). exists s'. split; [now right|assumption].
  - injection H as ->. exists s. split; [now left|]. unfold attribute_one in E.
    destruct (_ && negb heat)%bool eqn:E1.
    + injection E as <-. left. apply andb_true_iff in E1 as [E1 E2]. apply key_eqb_eq in E1.
      split; [assumption|]. split; [now destruct heat|eauto].
    + unfold belongs. destruct (s_decay s && _)%bool; [discriminate|].
      destruct (dict_get _ _) eqn:Eg; [discriminate|]. injection E as <-. right. split; [|eauto].
      intros sp Hd. apply field_to_object_get in Hd. congruence.
Qed.
End Loop.
