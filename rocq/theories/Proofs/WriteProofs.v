(** Proofs for C95: why Exports.write fails. *)
From Coq Require Import ZArith List Bool String Lia.
From Verif Require Import Base.Exc Base.Num Model.Paths Model.Exports Spec.SteadySpec Spec.WriteSpec Proofs.ExportProofs.
Import ListNotations.
Local Open Scope list_scope.
Local Notation length := List.length.

Definition fails {A} (r : res A) (Q : exc -> Prop) : Prop := forall e, r = Err e -> Q e.
Lemma fails_Ok {A} (a : A) Q : fails (Ok a) Q.
Proof. intros e H. discriminate. Qed.
Lemma fails_Err {A} e (Q : exc -> Prop) : Q e -> @fails A (Err e) Q.
Proof. intros H e' [= <-]. exact H. Qed.
Lemma fails_bind {A B} (r : res A) (f : A -> res B) (Q : exc -> Prop) :
  fails r Q -> (forall a, r = Ok a -> fails (f a) Q) -> fails (bind r f) Q.
Proof. intros H1 H2 e. destruct r as [a|e']; cbn [bind]; [now apply H2|]. intros H. apply H1. injection H as <-. reflexivity. Qed.

Section Write.
Context {A : Type} {N : Num A} {F V C : Type}.
Variable is_function : F -> bool.
Variable project : F -> F.
Hypothesis project_function : forall f, is_function (project f) = true.
Variable D : dict F.
Variable S : nat -> quantity (A:=A) F V.
Variable final : option A.
Local Notation stands_for := (stands_for D).
Local Notation unknown := (unknown D).
Local Notation fun_val := (is_function_val is_function).

Lemma lookup_stands (d : dict F) k v : lookup d k = Some v -> WriteSpec.stands_for d k v.
Proof using Type.
  induction d as [|[k' v'] d IH]; cbn [lookup]; [discriminate|]. destruct (label_eqb k' k) eqn:E.
  - intros [= <-]. apply label_eqb_eq in E. subst k'. exists [], d. split; [reflexivity|]. intros w [].
  - intros H. destruct (IH H) as (d1 & d2 & -> & Hn). exists ((k', v') :: d1), d2. split; [reflexivity|].
    intros w [Hw|Hw]; [|now apply Hn in Hw]. injection Hw as -> ->. now rewrite label_eqb_refl in E.
Qed.
Lemma stands_lookup (d : dict F) k v : WriteSpec.stands_for d k v -> lookup d k = Some v.
Proof using Type.
  intros (d1 & d2 & -> & Hn). induction d1 as [|[k' v'] d1 IH]; cbn.
  - now rewrite label_eqb_refl.
  - destruct (label_eqb k' k) eqn:E; [|apply IH; intros w Hw; apply (Hn w); now right].
    apply label_eqb_eq in E. subst k'. destruct (Hn v'). now left.
Qed.
Lemma lookup_unknown (d : dict F) k : lookup d k = None -> WriteSpec.unknown d k.
Proof using Type.
  induction d as [|[k' v'] d IH]; cbn [lookup]; [intros _ v []|]. destruct (label_eqb k' k) eqn:E; [discriminate|].
  intros H v [Hv|Hv]; [|now apply IH in Hv]. injection Hv as -> ->. now rewrite label_eqb_refl in E.
Qed.
Lemma not_fun v : fun_val v = false -> ~ a_function is_function v.
Proof using Type. intros H (f & -> & Hf). cbn in H. congruence. Qed.

(** The dictionary along the loop: entries stay or are projected. *)
Definition evolves (d : dict F) : Prop := forall k,
  lookup d k = lookup D k \/
  exists f, lookup D k = Some (FFun f) /\ is_function f = false /\ lookup d k = Some (FFun (project f)).
Lemma evolves_refl : evolves D.
Proof using Type. intros k. now left. Qed.

Lemma project_item_ok d k d1 : evolves d -> project_item is_function project d k = Ok d1 ->
  evolves d1 /\ exists f, lookup d1 k = Some (FFun f) /\ is_function f = true.
Proof using project_function.
  intros He. unfold project_item, getitem. destruct (lookup d k) as [v|] eqn:E; cbn [bind]; [|discriminate].
  destruct v as [f|l]; cbn [is_function_val]; [|discriminate]. destruct (is_function f) eqn:Ef; intros [= <-].
  - split; [exact He|]. eauto.
  - assert (HD : lookup D k = Some (FFun f)).
    { destruct (He k) as [H|(g & H1 & H2 & H3)]; [congruence|]. rewrite E in H3. injection H3 as ->.
      rewrite project_function in Ef. discriminate. }
    split; [|exists (project f); rewrite lookup_set, label_eqb_refl; auto].
    intros k'. rewrite lookup_set. destruct (label_eqb k k') eqn:Ek; [|apply He].
    apply label_eqb_eq in Ek. subst k'. right. eauto.
Qed.
Lemma project_item_fails d k (Q : exc -> Prop) : evolves d ->
  (unknown k -> forall m, Q (KeyError m)) ->
  (forall v, stands_for k v -> a_list v -> forall m, Q (TypeError m)) ->
  fails (project_item is_function project d k) Q.
Proof using Type.
  intros He H1 H2. unfold project_item, getitem.
  destruct (lookup d k) as [v|] eqn:E; cbn [bind].
  - destruct v as [f|l]; cbn [is_function_val]; [destruct (is_function f); apply fails_Ok|].
    apply fails_Err. apply (H2 (FAds l)); [|exists l; reflexivity]. apply lookup_stands.
    destruct (He k) as [H|(g & _ & _ & H)]; congruence.
  - apply fails_Err. apply H1. apply lookup_unknown. destruct (He k) as [H|(g & _ & _ & H)]; congruence.
Qed.
Lemma getitem_fails d k (Q : exc -> Prop) : evolves d -> (unknown k -> forall m, Q (KeyError m)) -> fails (getitem d k) Q.
Proof using Type.
  intros He H1. unfold getitem. destruct (lookup d k) eqn:E; [apply fails_Ok|]. apply fails_Err. apply H1. apply lookup_unknown.
  destruct (He k) as [H|(g & _ & _ & H)]; congruence.
Qed.
Lemma getitem_ok (d : dict F) k v : getitem d k = Ok v -> lookup d k = Some v.
Proof using Type. unfold getitem. destruct (lookup d k); congruence. Qed.

(** The quantities along the loop. *)
Definition same (s : nat -> quantity (A:=A) F V) : Prop := forall i,
  q_kind (s i) = q_kind (S i) /\ q_field (s i) = q_field (S i) /\ q_surface (s i) = q_surface (S i) /\
  (q_r (S i) = true -> q_r (s i) = true).
Lemma same_refl : same S.
Proof using Type. intros i. auto. Qed.
Lemma same_upd s i q : same s ->
  q_kind q = q_kind (s i) /\ q_field q = q_field (s i) /\ q_surface q = q_surface (s i) /\ (q_r (s i) = true -> q_r q = true) ->
  same (upd s i q).
Proof using Type.
  intros Hs Hq j. unfold upd. destruct (Nat.eqb_spec j i) as [->|]; [|apply Hs].
  destruct (Hs i) as (H1 & H2 & H3 & H4). destruct Hq as (G1 & G2 & G3 & G4). repeat split; try congruence. auto.
Qed.

(** What a prepared quantity reads. *)
Definition prepared (i : nat) (fo : option (fval F)) : Prop :=
  match fo with
  | None => q_kind (S i) = AdsorbedHydrogen /\ exists l z, q_surface (S i) = Some z /\
      stands_for (q_field (S i)) (FAds l) /\ (forall a, In a l -> ~ In z (snd a))
  | Some v => q_kind (S i) = AdsorbedHydrogen \/
      ((in_volume (q_kind (S i)) -> fun_val v = true) /\ (fun_val v = true \/ stands_for (q_field (S i)) v))
  end.

Variable Q : exc -> Prop.
Definition quantity_causes (i : nat) : Prop :=
  (unknown (q_field (S i)) -> forall m, Q (KeyError m)) /\
  (a_flux (q_kind (S i)) -> ~ with_flux (q_field (S i)) -> forall m, Q (KeyError m)) /\
  (on_surface (q_kind (S i)) -> forall m, Q (TypeError m)) /\
  (q_kind (S i) = AdsorbedHydrogen -> q_surface (S i) = None \/ (forall l, ~ stands_for (q_field (S i)) (FAds l)) ->
     forall m, Q (TypeError m)) /\
  (q_kind (S i) = AdsorbedHydrogen -> forall l z, q_surface (S i) = Some z -> stands_for (q_field (S i)) (FAds l) ->
     (forall a, In a l -> ~ In z (snd a)) -> forall m, Q (TypeError m)) /\
  (q_kind (S i) = AdsorbedHydrogen -> forall l a, stands_for (q_field (S i)) (FAds l) -> In a l ->
     (length (fst a) < length (snd a))%nat -> forall m, Q (IndexError m)) /\
  (in_volume (q_kind (S i)) -> forall v, stands_for (q_field (S i)) v -> a_list v -> forall m, Q (TypeError m)) /\
  (curvilinear (q_kind (S i)) -> q_r (S i) = false -> forall v, stands_for (q_field (S i)) v -> ~ a_function is_function v ->
     forall m, Q (AttributeError m)).

Lemma index_of_lt z l n : index_of z l = Some n -> (n < length l)%nat.
Proof using Type.
  revert n. induction l as [|a l IH]; intros n; cbn [index_of]; [discriminate|]. destruct (Z.eqb a z); [intros [= <-]; cbn; lia|].
  destruct (index_of z l) as [m|]; cbn; [|discriminate]. intros [= <-]. specialize (IH m eq_refl). lia.
Qed.
Lemma index_of_none z l : index_of z l = None -> ~ In z l.
Proof using Type.
  induction l as [|a l IH]; cbn [index_of]; [intros _ []|]. destruct (Z.eqb_spec a z) as [->|Hn]; [discriminate|].
  destruct (index_of z l); cbn; [discriminate|]. intros _ [Hh|Hh]; [congruence|]. now apply IH.
Qed.
Lemma adsorbed_fails z (l : list (list F * list Z)) cur : (forall a, In a l -> (length (fst a) < length (snd a))%nat -> forall m, Q (IndexError m)) ->
  fails (adsorbed_function z l cur) Q.
Proof using Type.
  revert cur. induction l as [|[sols surfs] l IH]; intros cur H; cbn [adsorbed_function]; [apply fails_Ok|].
  assert (Hl : forall cur, fails (adsorbed_function z l cur) Q) by (intros c; apply IH; intros a Ha; apply H; now right).
  destruct (index_of z surfs) as [n|] eqn:E; [|apply Hl]. destruct (nth_error sols n) eqn:En; [apply Hl|].
  apply fails_Err. apply (H (sols, surfs)); [now left|]. apply nth_error_None in En. apply index_of_lt in E. cbn. lia.
Qed.
Lemma adsorbed_none z (l : list (list F * list Z)) cur : adsorbed_function z l cur = Ok None -> forall a, In a l -> ~ In z (snd a).
Proof using Type.
  revert cur. assert (Hs : forall (l : list (list F * list Z)) cur r, adsorbed_function z l (Some cur) = Ok r -> r <> @None (fval F)).
  { clear. induction l as [|[sols surfs] l IH]; intros cur r; cbn [adsorbed_function]; [intros [= <-]; discriminate|].
    destruct (index_of z surfs); [destruct (nth_error sols n); [|discriminate]|]; apply IH. }
  induction l as [|[sols surfs] l IH]; intros cur; cbn [adsorbed_function]; [intros _ a []|].
  destruct (index_of z surfs) as [n|] eqn:E; [destruct (nth_error sols n); [|discriminate]; intros H; apply Hs in H; congruence|].
  intros H a [<-|Ha]; [now apply index_of_none in E|]. now apply (IH cur).
Qed.

Lemma volume_iff k : is_extremum_volume k = true <-> in_volume k.
Proof using Type. unfold in_volume. destruct k; cbn; intuition discriminate. Qed.

Definition step_function (q : quantity (A:=A) F V) (d1 : dict F) : res (option (fval F)) :=
  if is_adsorbed (q_kind q) then
    let! v := getitem d1 (q_field q) in
    match v, q_surface q with
    | FAds l, Some surf => adsorbed_function surf l (q_function q)
    | _, _ => Err (TypeError "adsorbed")
    end
  else let! v := getitem d1 (q_field q) in Ok (Some v).

Lemma prepare_spec qs : forall s d (pre : nat -> Prop), (forall i, In i qs -> quantity_causes i) -> evolves d -> same s ->
  (forall i, pre i -> prepared i (q_function (s i))) ->
  fails (prepare is_function project s d qs) Q /\
  (forall s1 d1, prepare is_function project s d qs = Ok (s1, d1) -> evolves d1 /\ same s1 /\
     forall i, pre i \/ In i qs -> prepared i (q_function (s1 i))).
Proof using project_function.
  induction qs as [|i qs IH]; intros s d pre Hc He Hs Hp; cbn [prepare].
  { split; [apply fails_Ok|]. intros s1 d1 [= <- <-]. split; [exact He|]. split; [exact Hs|]. intros j [Hj|[]]. auto. }
  destruct (Hc i (or_introl eq_refl)) as (C1 & C2 & C3 & C4 & C5 & C6 & C7 & C8).
  destruct (Hs i) as (K1 & K2 & K3 & K4).
  assert (F1 : fails (if is_extremum_volume (q_kind (s i)) then project_item is_function project d (q_field (s i)) else Ok d) Q).
  { rewrite K1, K2. destruct (is_extremum_volume (q_kind (S i))) eqn:E; [|apply fails_Ok]. apply volume_iff in E.
    apply project_item_fails; [exact He|exact C1|exact (C7 E)]. }
  assert (O1 : forall d1, (if is_extremum_volume (q_kind (s i)) then project_item is_function project d (q_field (s i)) else Ok d) = Ok d1 ->
    evolves d1 /\ (in_volume (q_kind (S i)) -> exists f, lookup d1 (q_field (S i)) = Some (FFun f) /\ is_function f = true)).
  { intros d1. rewrite K1, K2. destruct (is_extremum_volume (q_kind (S i))) eqn:E.
    - intros H. apply project_item_ok in H; [|exact He]. destruct H as [H1 H2]. auto.
    - intros [= <-]. split; [exact He|]. intros Hv. apply volume_iff in Hv. congruence. }
  assert (F2 : forall d1, evolves d1 -> fails (step_function (s i) d1) Q).
  { intros d1 He1. unfold step_function. rewrite K1, K2, K3. destruct (q_kind (S i)) eqn:Ek; cbn [is_adsorbed];
      try (apply fails_bind; [now apply getitem_fails|intros; apply fails_Ok]).
    apply fails_bind; [now apply getitem_fails|]. intros v Hv. apply getitem_ok in Hv.
    assert (HD : match v with FFun _ => forall l, ~ stands_for (q_field (S i)) (FAds l) | FAds l => stands_for (q_field (S i)) (FAds l) end).
    { destruct (He1 (q_field (S i))) as [H|(g & H1 & _ & H2)].
      - destruct v as [f|l]; [intros l Hl; apply stands_lookup in Hl|apply lookup_stands]; congruence.
      - destruct v as [f|l]; [intros l Hl; apply stands_lookup in Hl|]; congruence. }
    destruct v as [f|l]; [apply fails_Err; apply C4; auto|]. destruct (q_surface (S i)) eqn:Es; [|apply fails_Err; apply C4; auto].
    apply adsorbed_fails. intros a Ha. now apply C6 with l. }
  assert (O2 : forall d1 f, evolves d1 ->
    (in_volume (q_kind (S i)) -> exists f, lookup d1 (q_field (S i)) = Some (FFun f) /\ is_function f = true) ->
    step_function (s i) d1 = Ok f -> prepared i f).
  { intros d1 fo He1 Hv. unfold step_function. rewrite K1, K2, K3.
    assert (HG : q_kind (S i) <> AdsorbedHydrogen ->
      (let! v := getitem d1 (q_field (S i)) in Ok (Some v)) = Ok fo -> prepared i fo).
    { intros Hk H. destruct (getitem d1 (q_field (S i))) as [v|] eqn:Eg; cbn [bind] in H; [|discriminate]. injection H as <-.
      apply getitem_ok in Eg. right. split.
      - intros Hvol. destruct (Hv Hvol) as (f & Hf & Hff). rewrite Eg in Hf. injection Hf as ->. exact Hff.
      - destruct (He1 (q_field (S i))) as [H|(g & H1 & _ & H2)].
        + right. apply lookup_stands. congruence.
        + left. rewrite Eg in H2. injection H2 as ->. cbn. apply project_function. }
    destruct (q_kind (S i)) eqn:Ek; cbn [is_adsorbed]; try (apply HG; discriminate).
    destruct (getitem d1 (q_field (S i))) as [v|] eqn:Eg; cbn [bind]; [|discriminate]. apply getitem_ok in Eg.
    destruct v as [f|l]; [discriminate|]. destruct (q_surface (S i)) as [z|] eqn:Es; [|discriminate].
    intros H. destruct fo as [v|]; [now left|]. split; [exact Ek|]. exists l, z. split; [exact Es|]. split.
    - apply lookup_stands. destruct (He1 (q_field (S i))) as [H'|(g & H1 & _ & H2)]; congruence.
    - eapply adsorbed_none; exact H. }
  set (r1 := if is_extremum_volume (q_kind (s i)) then project_item is_function project d (q_field (s i)) else Ok d) in *.
  destruct r1 as [d1|e1] eqn:E1; cbn [bind].
  2:{ split; [|discriminate]. intros e [= <-]. apply F1. reflexivity. }
  destruct (O1 d1 eq_refl) as [He1 Hv1]. clear O1. specialize (F2 d1 He1). specialize (O2 d1).
  fold (step_function (s i) d1).
  destruct (step_function (s i) d1) as [fo|e2] eqn:E2; cbn [bind].
  2:{ split; [|discriminate]. intros e [= <-]. apply F2. reflexivity. }
  specialize (O2 fo He1 Hv1 eq_refl).
  destruct (IH (upd s i (set_function (s i) fo)) d1 (fun j => pre j \/ j = i)) as [G1 G2].
  - intros j Hj. apply Hc. now right.
  - exact He1.
  - apply same_upd; [exact Hs|]. repeat split; auto.
  - intros j Hj. unfold upd. destruct (Nat.eqb_spec j i) as [->|Hji]; [exact O2|]. destruct Hj as [Hj| ->]; [auto|congruence].
  - split; [exact G1|]. intros s1 d2 H. destruct (G2 s1 d2 H) as (G3 & G4 & G5). split; [exact G3|]. split; [exact G4|].
    intros j [Hj|[<-|Hj]]; apply G5; auto.
Qed.

Lemma flux_iff k : is_flux k = true <-> a_flux k.
Proof using Type. unfold a_flux. destruct k; cbn; intuition discriminate. Qed.
Lemma curvilinear_iff k : uses_r k = true <-> curvilinear k.
Proof using Type. unfold curvilinear. destruct k; cbn; intuition discriminate. Qed.
Lemma has_prop_iff k : has_prop k = true <-> with_flux k.
Proof using Type.
  unfold has_prop, with_flux. rewrite !orb_true_iff, !label_eqb_eq. cbn [In]. intuition congruence.
Qed.

Lemma compute_fails s i : quantity_causes i -> same s -> prepared i (q_function (s i)) ->
  fails (compute_quantity is_function (s i)) Q.
Proof using Type.
  intros (C1 & C2 & C3 & C4 & C5 & C6 & C7 & C8) Hs Hp. destruct (Hs i) as (K1 & K2 & K3 & K4).
  assert (G : fails (match q_function (s i) with
      | None => Err (TypeError "unsupported operand: NoneType")
      | Some f =>
          if (is_extremum_volume (q_kind (s i)) && negb (fun_val f))%bool
          then Err (AttributeError "function_space")
          else if (uses_r (q_kind (s i)) && negb (q_r (s i)) && negb (fun_val f))%bool
          then Err (AttributeError "function_space")
          else if (is_flux (q_kind (s i)) && negb (has_prop (q_field (s i))))%bool
          then Err (KeyError "")
          else Ok (if uses_r (q_kind (s i)) then set_r (s i) else s i, q_assemble (s i) f)
      end) Q).
  { rewrite K1, K2. destruct (q_function (s i)) as [f|]; cbn [prepared] in Hp.
    - destruct (is_extremum_volume (q_kind (S i)) && negb (fun_val f))%bool eqn:E1.
      { exfalso. apply andb_true_iff in E1 as [E1 E2]. apply volume_iff in E1. apply negb_true_iff in E2.
        destruct Hp as [Hp|[Hp _]]; [destruct E1 as [E1|E1]; congruence|]. rewrite (Hp E1) in E2. discriminate. }
      destruct (uses_r (q_kind (S i)) && negb (q_r (s i)) && negb (fun_val f))%bool eqn:E2.
      { apply andb_true_iff in E2 as [E2 E3]. apply andb_true_iff in E2 as [E2 E4]. apply negb_true_iff in E3, E4.
        apply curvilinear_iff in E2. apply fails_Err. destruct Hp as [Hp|[_ [Hp|Hp]]]; [|congruence|].
        - exfalso. rewrite Hp in E2. unfold curvilinear in E2. cbn in E2. intuition discriminate.
        - apply C8 with f; auto; [|now apply not_fun]. destruct (q_r (S i)); [|reflexivity]. rewrite K4 in E4 by reflexivity. discriminate. }
      destruct (is_flux (q_kind (S i)) && negb (has_prop (q_field (S i))))%bool eqn:E3; [|apply fails_Ok].
      apply andb_true_iff in E3 as [E3 E4]. apply negb_true_iff in E4. apply fails_Err. apply C2; [now apply flux_iff|].
      intros H. apply has_prop_iff in H. congruence.
    - apply fails_Err. destruct Hp as (Hk & l & z & Hz & Hl & Hn). now apply C5 with l z. }
  unfold compute_quantity. destruct (q_kind (s i)) eqn:Ek; try exact G; apply fails_Err; apply C3; rewrite <- K1; [now left|now right].
Qed.
Lemma compute_ok s i q v : same s -> compute_quantity is_function (s i) = Ok (q, v) ->
  q_kind q = q_kind (s i) /\ q_field q = q_field (s i) /\ q_surface q = q_surface (s i) /\ (q_r (s i) = true -> q_r q = true) /\
  q_function q = q_function (s i).
Proof using Type.
  intros _ H. assert (Hq : q = s i \/ q = set_r (s i)).
  { unfold compute_quantity in H.
    destruct (q_kind (s i)); try discriminate; (destruct (q_function (s i)); [|discriminate]);
      repeat match type of H with (if ?b then _ else _) = _ => destruct b; try discriminate end; injection H as <- <-; cbn; auto. }
  destruct Hq as [->| ->]; auto.
Qed.

Lemma loop_spec dq t qs : forall s data vals, (forall i, In i qs -> quantity_causes i) -> same s ->
  (forall i, In i qs -> prepared i (q_function (s i))) ->
  fails (compute_loop is_function s dq t data vals qs) Q /\
  (forall s1 da vs, compute_loop is_function s dq t data vals qs = Ok (s1, da, vs) -> same s1).
Proof using Type.
  induction qs as [|i qs IH]; intros s data vals Hc Hs Hp; cbn [compute_loop].
  { split; [apply fails_Ok|]. now intros s1 da vs [= <- _ _]. }
  pose proof (compute_fails s i (Hc i (or_introl eq_refl)) Hs (Hp i (or_introl eq_refl))) as HF.
  destruct (compute_quantity is_function (s i)) as [[q v]|e] eqn:E; cbn [bind].
  2:{ split; [|discriminate]. intros e' [= <-]. apply HF. reflexivity. }
  destruct (compute_ok s i q v Hs E) as (H1 & H2 & H3 & H4 & H5). apply IH.
  - intros j Hj. apply Hc. now right.
  - intros j. unfold upd. destruct (Nat.eqb_spec j i) as [->|]; [|apply Hs]. cbn. destruct (Hs i) as (G1 & G2 & G3 & G4).
    repeat split; try congruence. auto.
  - intros j Hj. unfold upd. destruct (Nat.eqb_spec j i) as [->|]; [|apply Hp; now right]. cbn. rewrite H5. apply Hp. now left.
Qed.

Lemma run_compute_spec s dq t : (forall i, In i (dq_list dq) -> quantity_causes i) -> same s ->
  (forall i, In i (dq_list dq) -> prepared i (q_function (s i))) ->
  fails (dq_run_compute is_function s dq t) Q /\
  (forall s1 dq1, dq_run_compute is_function s dq t = Ok (s1, dq1) -> same s1 /\ dq_filename dq1 = dq_filename dq /\
     dq_exports dq1 = dq_exports dq /\ dq_list dq1 = dq_list dq /\ dq_compute dq1 = dq_compute dq).
Proof using Type.
  intros Hc Hs Hp. unfold dq_run_compute. destruct (loop_spec dq t (dq_list dq) s (dq_data dq) [] Hc Hs Hp) as [H1 H2].
  split.
  - apply fails_bind; [exact H1|]. intros [[s1 da] vs] _. apply fails_Ok.
  - intros s1 dq1. destruct (compute_loop is_function s dq t (dq_data dq) [] (dq_list dq)) as [[[s2 da] vs]|]; cbn [bind]; [|discriminate].
    intros [= <- <-]. split; [now apply (H2 s2 da vs)|]. repeat split; reflexivity.
Qed.
Lemma every_fails nb n : (n = 0%Z -> Q ZeroDivisionError) -> fails (every nb n) Q.
Proof using Type. unfold every. destruct (Z.eqb_spec n 0); intros H; [apply fails_Err; auto|apply fails_Ok]. Qed.
Lemma folder_fails fs n : (~ has_folder n -> forall m, Q (FileNotFoundError m)) -> fails (ensure_folder fs n) Q.
Proof using Type.
  intros H. unfold ensure_folder. destruct (path_exists fs (dirname n)); [apply fails_Ok|]. unfold makedirs.
  destruct (String.eqb_spec (dirname n) ""); [|apply fails_Ok]. apply fails_Err. apply H. unfold has_folder. congruence.
Qed.
End Write.

Section Loop.
Context {A : Type} {N : Num A} {F V C : Type}.
Variable is_function : F -> bool.
Variable project : F -> F.
Hypothesis project_function : forall f, is_function (project f) = true.
Variable D : dict F.
Variable S : nat -> quantity (A:=A) F V.
Variable final : option A.
Local Notation cause := (write_cause (C:=C) is_function D S final).

Lemma causes_of dq i : In i (dq_list dq) -> quantity_causes is_function D S (cause (EDerived dq)) i.
Proof using Type.
  intros Hi. repeat split.
  - intros H m. now apply UnknownQuantity with i.
  - intros H1 H2 m. now apply NoFlux with i.
  - intros H m. now apply SurfaceExtremum with i.
  - intros H1 H2 m. now apply NotAdsorbed with i.
  - intros H l z H1 H2 H3 m. now apply NowhereAdsorbed with i l z.
  - intros H l a H1 H2 H3 m. now apply FewSolutions with i l a.
  - intros H v H1 H2 m. now apply ListVolume with i v.
  - intros H H1 v H2 H3 m. now apply NotFunction with i v.
Qed.

(** What writing leaves alone in an export. *)
Definition still (x x' : export (A:=A) F V C) : Prop :=
  match x, x' with
  | EDerived a, EDerived b => dq_list b = dq_list a /\ dq_filename b = dq_filename a /\ dq_compute b = dq_compute a /\
      dq_exports b = dq_exports a
  | EXdmf a, EXdmf b => xd_field b = xd_field a /\ xd_mode b = xd_mode a
  | ETxt a, ETxt b => tx_field b = tx_field a /\ tx_filename b = tx_filename a /\
      (tx_data b = None -> tx_data a = None) /\ (tx_header b = None -> tx_header a = None)
  | _, _ => False
  end.
Lemma still_refl x : still x x.
Proof using Type. destruct x; cbn; auto 10. Qed.
Lemma still_trans x y z : still x y -> still y z -> still x z.
Proof using Type.
  destruct x, y, z; cbn; try tauto; intros; intuition congruence.
Qed.

Lemma write_one_spec s fs d t nb e : evolves is_function project D d -> same S s ->
  fails (write_one (V:=V) (C:=C) is_function project s fs d t final nb e) (cause e) /\
  (forall e' s1 fs1 d1 w, write_one is_function project s fs d t final nb e = Ok (e', s1, fs1, d1, w) ->
     evolves is_function project D d1 /\ same S s1 /\ still e e').
Proof using project_function.
  intros He Hs. destruct e as [dq|x|x]; cbn [write_one].
  - destruct (prepare_spec is_function project project_function D S (cause (EDerived dq)) (dq_list dq) s d (fun _ => False))
      as [P1 P2]; auto; [apply causes_of|easy|].
    assert (FE : forall dq2 : derived (A:=A) V, dq_exports dq2 = dq_exports dq ->
      fails (dq_is_export dq2 t final nb) (cause (EDerived dq))).
    { intros dq2 H. unfold dq_is_export. rewrite H. destruct final; [|apply fails_Ok]. destruct (dq_exports dq) eqn:E; [|apply fails_Ok].
      apply every_fails. intros ->. apply IntervalZero. auto. }
    assert (FW : forall (b : bool) (dq2 : derived (A:=A) V), dq_filename dq2 = dq_filename dq ->
      fails (if b then dq_write (A:=A) (F:=F) (C:=C) fs dq2 else Ok (fs, [])) (cause (EDerived dq))).
    { intros b dq2 H. destruct b; [|apply fails_Ok]. unfold dq_write. rewrite H. destruct (dq_filename dq) eqn:E; [|apply fails_Ok].
      apply fails_bind; [|intros; apply fails_Ok]. apply folder_fails. intros Hn m. now apply NoFolderCsv with s0. }
    assert (FC : fails (dq_is_compute dq nb) (cause (EDerived dq))).
    { apply every_fails. intros H. apply IntervalZero. auto. }
    destruct (dq_is_compute dq nb) as [b|e0] eqn:EC; cbn [bind]; [|split; [intros e [= <-]; now apply FC|discriminate]].
    destruct b.
    + destruct (prepare is_function project s d (dq_list dq)) as [[s1 d1]|e0] eqn:EP; cbn [bind];
        [|split; [intros e [= <-]; now apply P1|discriminate]].
      destruct (P2 s1 d1 eq_refl) as (He1 & Hs1 & Hp1).
      destruct (run_compute_spec is_function D S (cause (EDerived dq)) s1 dq t) as [R1 R2]; auto; [apply causes_of|].
      destruct (dq_run_compute is_function s1 dq t) as [[s2 dq2]|e0] eqn:ER; cbn [bind];
        [|split; [intros e [= <-]; now apply R1|discriminate]].
      destruct (R2 s2 dq2 eq_refl) as (Hs2 & Hf & Hx & Hl & Hk). specialize (FE dq2 Hx).
      destruct (dq_is_export dq2 t final nb) as [b2|e0]; cbn [bind]; [|split; [intros e [= <-]; now apply FE|discriminate]].
      specialize (FW b2 dq2 Hf). destruct (if b2 then dq_write fs dq2 else Ok (fs, [])) as [[fs' w]|e0]; cbn [bind];
        [|split; [intros e [= <-]; now apply FW|discriminate]].
      split; [apply fails_Ok|]. intros e' s3 fs3 d3 w3 [= <- <- <- <- <-]. cbn; auto 10.
    + cbn [bind]. specialize (FE dq eq_refl).
      destruct (dq_is_export dq t final nb) as [b2|e0]; cbn [bind]; [|split; [intros e [= <-]; now apply FE|discriminate]].
      specialize (FW b2 dq eq_refl). destruct (if b2 then dq_write fs dq else Ok (fs, [])) as [[fs' w]|e0]; cbn [bind];
        [|split; [intros e [= <-]; now apply FW|discriminate]].
      split; [apply fails_Ok|]. intros e' s3 fs3 d3 w3 [= <- <- <- <- <-]. cbn; auto 10.
  - assert (FB : fails (xd_is_export x t final nb) (cause (EXdmf x))).
    { unfold xd_is_export. destruct (xd_mode x) eqn:Em.
      - destruct final eqn:Ef; [apply fails_Ok|]. apply fails_Err. now apply LastSteady.
      - apply every_fails. intros ->. now apply ModeZero. }
    destruct (xd_is_export x t final nb) as [b|e0]; cbn [bind]; [|split; [intros e [= <-]; now apply FB|discriminate]].
    destruct b; [|split; [apply fails_Ok|]; intros e' s3 fs3 d3 w3 [= <- <- <- <- <-]; cbn; auto].
    assert (FP : fails (if label_eqb (xd_field x) (LStr "retention") then project_item is_function project d (LStr "retention") else Ok d) (cause (EXdmf x))).
    { destruct (label_eqb (xd_field x) (LStr "retention")) eqn:E; [|apply fails_Ok]. apply label_eqb_eq in E. rewrite <- E.
      apply (project_item_fails is_function project D); auto.
      - intros H m. now apply UnknownXdmf.
      - intros v H1 H2 m. now apply ListXdmf with v. }
    assert (FO : forall d1, (if label_eqb (xd_field x) (LStr "retention") then project_item is_function project d (LStr "retention") else Ok d) = Ok d1 ->
      evolves is_function project D d1).
    { intros d1. destruct (label_eqb (xd_field x) (LStr "retention")); [|now intros [= <-]].
      intros H. now apply (project_item_ok is_function project project_function D) in H. }
    destruct (if label_eqb (xd_field x) (LStr "retention") then project_item is_function project d (LStr "retention") else Ok d) as [d1|e0];
      cbn [bind]; [|split; [intros e [= <-]; now apply FP|discriminate]].
    specialize (FO d1 eq_refl).
    assert (FG : fails (getitem d1 (xd_field x)) (cause (EXdmf x))).
    { apply (getitem_fails is_function project D); auto. intros H m. now apply UnknownXdmf. }
    destruct (getitem d1 (xd_field x)) as [v|e0]; cbn [bind]; [|split; [intros e [= <-]; now apply FG|discriminate]].
    split; [apply fails_Ok|]. intros e' s3 fs3 d3 w3 [= <- <- <- <- <-]. cbn; auto 10.
  - assert (FP : fails (project_item is_function project d (tx_field x)) (cause (ETxt x))).
    { apply (project_item_fails is_function project D); auto.
      - intros H m. now apply UnknownTxt.
      - intros v H1 H2 m. now apply ListTxt with v. }
    pose proof (project_item_ok is_function project project_function D d (tx_field x)) as FO.
    destruct (project_item is_function project d (tx_field x)) as [d1|e0]; cbn [bind]; [|split; [intros e [= <-]; now apply FP|discriminate]].
    destruct (FO d1 He eq_refl) as (He1 & f & Hf & _). unfold getitem. rewrite Hf. cbn [bind].
    assert (FW : fails (tx_write (V:=V) fs x (FFun f) t final) (cause (ETxt x))).
    { unfold tx_write. destruct (tx_is_time x t) eqn:Et; [|apply fails_Ok].
      destruct (tx_filename x) as [n|] eqn:En.
      - destruct (tx_data x) eqn:Ed; [|apply fails_Err; apply NotInitialised; auto].
        destruct (tx_header x) eqn:Eh; [|apply fails_Err; apply NotInitialised; auto].
        apply fails_bind; [apply folder_fails; intros Hn m; now apply NoFolderTxt with n|]. intros fs' _.
        apply fails_bind; [|intros; apply fails_Ok]. destruct (tx_last x); [|apply fails_Ok].
        unfold tx_is_last. destruct final; [|apply fails_Ok]. unfold tx_is_time in Et. destruct (tx_times x) as [l0|]; [|apply fails_Ok].
        apply fails_bind; [|intros; apply fails_Ok]. unfold last_time. destruct (rev l0) eqn:Er; [|apply fails_Ok]. exfalso.
        assert (Hl : l0 = []) by (rewrite <- (rev_involutive l0), Er; reflexivity). subst l0. discriminate.
      - apply fails_Err. now apply NoName. }
    assert (FT : forall fs' x' w, tx_write (V:=V) fs x (FFun f) t final = Ok (fs', x', w) -> still (ETxt x) (ETxt x')).
    { intros fs' x' w. unfold tx_write. destruct (tx_is_time x t); [|intros [= <- <- <-]; apply still_refl].
      destruct (tx_filename x) eqn:En; [|discriminate]. destruct (tx_data x) eqn:Ed; [|discriminate]. destruct (tx_header x) eqn:Eh; [|discriminate].
      destruct (ensure_folder fs s0); cbn [bind]; [|discriminate].
      destruct (if tx_last x then tx_is_last x t final else Ok true); cbn [bind]; [|discriminate]. intros [= <- <- <-]. cbn.
      repeat split; auto; discriminate. }
    destruct (tx_write fs x (FFun f) t final) as [[[fs' x'] w]|e0]; cbn [bind]; [|split; [intros e [= <-]; now apply FW|discriminate]].
    split; [apply fails_Ok|]. intros e' s3 fs3 d3 w3 [= <- <- <- <- <-]. split; [exact He1|]. split; [exact Hs|]. now apply (FT fs' x' w).
Qed.

Lemma write_loop_spec t nb l : forall s fs d i, evolves is_function project D d -> same S s ->
  (forall e, write_loop (V:=V) (C:=C) is_function project s fs d t final nb i l = Err e -> exists x, In x l /\ cause x e) /\
  (forall l' s' fs' ws, write_loop (V:=V) (C:=C) is_function project s fs d t final nb i l = Ok (l', s', fs', ws) ->
     same S s' /\ Forall2 still l l').
Proof using project_function.
  induction l as [|x l IH]; intros s fs d i He Hs; cbn [write_loop].
  { split; [discriminate|]. intros l' s' fs' ws [= <- <- <- <-]. auto. }
  destruct (write_one_spec s fs d t nb x He Hs) as [H1 H2].
  destruct (write_one is_function project s fs d t final nb x) as [[[[[x' s1] fs1] d1] w]|e0]; cbn [bind].
  - destruct (H2 x' s1 fs1 d1 w eq_refl) as (He1 & Hs1 & Hst).
    destruct (IH s1 fs1 d1 (Datatypes.S i) He1 Hs1) as [G1 G2].
    destruct (write_loop is_function project s1 fs1 d1 t final nb (Datatypes.S i) l) as [[[[r' s2] fs2] ws]|e1]; cbn [bind].
    + split; [discriminate|]. intros l' s' fs' ws' [= <- <- <- <-]. destruct (G2 r' s2 fs2 ws eq_refl). auto.
    + split; [|discriminate]. intros e [= <-]. destruct (G1 e1 eq_refl) as (y & Hy & Hc). exists y. split; [now right|exact Hc].
  - split; [|discriminate]. intros e [= <-]. exists x. split; [now left|]. now apply H1.
Qed.
End Loop.

(** A cause of the exports as they are now is one of the exports as they were. *)
Lemma cause_back {A F V C} (is_function : F -> bool) D (S0 S1 : nat -> quantity (A:=A) F V) final (x x' : export (A:=A) F V C) e :
  same S0 S1 -> still x x' -> write_cause is_function D S1 final x' e -> write_cause is_function D S0 final x e.
Proof.
  intros Hs Hx H.
  assert (Hr : forall i, q_r (S1 i) = false -> q_r (S0 i) = false).
  { intros i Hi. destruct (Hs i) as (_ & _ & _ & K). destruct (q_r (S0 i)); [|reflexivity]. rewrite K in Hi by reflexivity. discriminate. }
  assert (HD : forall (y d : derived (A:=A) V) i, still (EDerived (F:=F) (C:=C) y) (EDerived d) -> asked d i -> asked y i).
  { intros y d i (E & _). unfold asked. now rewrite E. }
  destruct H; revert Hx; destruct x as [y|y|y]; cbn [still]; try tauto; intros Hx;
    try match goal with Ha : asked ?dd ?j |- _ => apply (HD y dd j Hx) in Ha; destruct (Hs j) as (K1 & K2 & K3 & _) end.
  - destruct Hx as (_ & _ & E3 & E4). apply IntervalZero. rewrite <- E3, <- E4. assumption.
  - apply ModeZero. now rewrite <- (proj2 Hx).
  - apply LastSteady; [now rewrite <- (proj2 Hx)|assumption].
  - apply UnknownXdmf. now rewrite <- (proj1 Hx).
  - apply UnknownTxt. now rewrite <- (proj1 Hx).
  - apply UnknownQuantity with i; [assumption|]. now rewrite <- K2.
  - apply NoFlux with i; [assumption|now rewrite <- K1|now rewrite <- K2].
  - apply SurfaceExtremum with i; [assumption|now rewrite <- K1].
  - apply NotAdsorbed with i; [assumption|now rewrite <- K1|rewrite <- K2, <- K3; assumption].
  - apply NowhereAdsorbed with i l z; [assumption|now rewrite <- K1|now rewrite <- K3|now rewrite <- K2|assumption].
  - apply FewSolutions with i l a; [assumption|now rewrite <- K1|now rewrite <- K2|assumption|assumption].
  - apply ListXdmf with v; [now rewrite <- (proj1 Hx)|now rewrite <- (proj1 Hx)|assumption].
  - apply ListTxt with v; [now rewrite <- (proj1 Hx)|assumption].
  - apply ListVolume with i v; [assumption|now rewrite <- K1|now rewrite <- K2|assumption].
  - apply NotFunction with i v; [assumption|now rewrite <- K1|auto|now rewrite <- K2|assumption].
  - apply NoFolderCsv with n; [|assumption]. destruct Hx as (_ & E & _). now rewrite <- E.
  - apply NoFolderTxt with n; [|assumption]. destruct Hx as (_ & E & _). now rewrite <- E.
  - apply NoName. destruct Hx as (_ & E & _). now rewrite <- E.
  - apply NotInitialised. destruct Hx as (_ & _ & E1 & E2). tauto.
Qed.
