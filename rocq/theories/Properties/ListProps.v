(** C23 and C32: filtering derived quantities and validated lists. *)
From Coq Require Import ZArith List Bool Lia String.
From Verif Require Import Base.Exc Base.Key Model.Lists Model.Filter.
Import ListNotations.

(** *** C32 *)
Section Collections.
Context {obj : Type} (valid : obj -> bool).

(** Collections given to extend or to a setter contain valid objects (they were built the same way). *)
Definition from_valid (o : op obj) : Prop :=
  match o with
  | OExtend true xs => Forall (fun x => valid x = true) xs
  | OAssign (VCollection l) => Forall (fun x => valid x = true) l
  | OIadd _ => False
  | _ => True
  end.
(** The objects an operation puts into the collection. *)
Definition operands (o : op obj) : list obj :=
  match o with
  | OAppend x | OInsert _ x | OSet _ x | OAssign (VItem x) => [x]
  | OExtend _ xs | OAssign (VList xs) | OAssign (VCollection xs) | OIadd xs => xs
  | OAssign VNone => []
  end.
Local Notation all_valid l := (Forall (fun x => valid x = true) l).

Lemma validate_ok x y : validate valid x = Ok y -> y = x /\ valid x = true.
Proof. unfold validate. destruct (valid x); [intros [= <-]; auto|discriminate]. Qed.
Lemma validate_err x e : validate valid x = Err e -> valid x = false /\ exists s, e = TypeError s.
Proof. unfold validate. destruct (valid x); [discriminate|intros [= <-]; eauto]. Qed.
Lemma extend_gen_spec xs : forall l,
  (Forall (fun x => valid x = true) xs /\ extend_gen valid l xs = (Ok tt, l ++ xs)) \/
  exists good x bad s, xs = good ++ x :: bad /\ Forall (fun x => valid x = true) good /\ valid x = false /\
    extend_gen valid l xs = (Err (TypeError s), l ++ good).
Proof.
  induction xs as [|x r IH]; intros l; cbn [extend_gen].
  - left. rewrite app_nil_r. auto.
  - unfold validate. destruct (valid x) eqn:E.
    + destruct (IH (l ++ [x])) as [[H1 H2]|(good & y & bad & s & H1 & H2 & H3 & H4)].
      * left. split; [now constructor|]. rewrite H2, <- app_assoc. reflexivity.
      * right. exists (x :: good), y, bad, s. subst r. split; [reflexivity|]. split; [now constructor|].
        split; [assumption|]. rewrite H4, <- app_assoc. reflexivity.
    + right. exists [], x, r. eexists. rewrite app_nil_r. repeat split; auto.
Qed.
Lemma construct_spec xs :
  (all_valid xs /\ construct valid xs = Ok xs) \/
  (exists x, In x xs /\ valid x = false) /\ exists s, construct valid xs = Err (TypeError s).
Proof.
  induction xs as [|x r IH]; cbn [construct]; [left; auto|].
  unfold validate. destruct (valid x) eqn:E; cbn [bind].
  - destruct IH as [[H1 ->]|[(y & Hy & Hv) (s & ->)]].
    + left. split; [now constructor|reflexivity].
    + right. split; [exists y; split; [now right|assumption]|]. cbn. eauto.
  - right. split; [exists x; split; [now left|assumption]|eauto].
Qed.
Lemma forall_split (l : list obj) p q x : all_valid l -> valid x = true ->
  all_valid (firstn p l ++ x :: skipn q l).
Proof.
  intros H Hx. assert (Hin : forall l', (forall y, In y l' -> In y l) -> all_valid l').
  { intros l' Hl. rewrite Forall_forall in *. auto. }
  apply Forall_app. split.
  - apply Hin. intros y Hy. rewrite <- (firstn_skipn p l). apply in_or_app. now left.
  - constructor; [assumption|]. apply Hin. intros y Hy. rewrite <- (firstn_skipn q l). apply in_or_app. now right.
Qed.

(** One operation: contents stay valid; a wrong operand raises TypeError. *)
Theorem C32_step (l : list obj) (o : op obj) : all_valid l -> from_valid o ->
  let (r, l') := apply_op valid l o in
  all_valid l' /\
  ((exists x, In x (operands o) /\ valid x = false) <-> exists s, r = Err (TypeError s)) /\
  (forall e, r = Err e -> match o with OExtend _ _ => True | _ => l' = l end) /\
  (forall e xs, o = OExtend false xs -> r = Err e ->
     exists good x bad, xs = good ++ x :: bad /\ all_valid good /\ valid x = false /\ l' = l ++ good).
Proof.
  intros Hl Ho.
  assert (Hone : forall x : obj, (exists y, In y [x] /\ valid y = false) <-> valid x = false).
  { intros x. split; [intros (y & [<-|[]] & H); assumption|]. intros H. exists x. split; [now left|assumption]. }
  assert (Hv : forall x : obj, validate valid x = Ok x /\ valid x = true \/ (exists s, validate valid x = Err (TypeError s)) /\ valid x = false).
  { intros x. unfold validate. destruct (valid x); eauto. }
  destruct o as [x|i x|i x|same xs|v|xs]; cbn [apply_op operands].
  - unfold append. destruct (Hv x) as [[-> Hx]|[[s ->] Hx]]; cbn iota.
    + rewrite Hone. split; [apply Forall_app; auto|]. split; [split; [congruence|intros [? [=]]]|]. split; [discriminate|]. intros ? ? [=].
    + rewrite Hone. split; [assumption|]. split; [split; eauto|]. split; [reflexivity|]. intros ? ? [=].
  - unfold insert. destruct (Hv x) as [[-> Hx]|[[s ->] Hx]]; cbn iota.
    + rewrite Hone. split; [now apply forall_split|]. split; [split; [congruence|intros [? [=]]]|]. split; [discriminate|]. intros ? ? [=].
    + rewrite Hone. split; [assumption|]. split; [split; eauto|]. split; [reflexivity|]. intros ? ? [=].
  - unfold setitem. destruct (Hv x) as [[-> Hx]|[[s ->] Hx]]; cbn iota.
    + destruct (index_pos (List.length l) i); rewrite Hone.
      * split; [now apply forall_split|]. split; [split; [congruence|intros [? [=]]]|]. split; [discriminate|]. intros ? ? [=].
      * split; [assumption|]. split; [split; [congruence|intros [? [=]]]|]. split; [reflexivity|]. intros ? ? [=].
    + rewrite Hone. split; [assumption|]. split; [split; eauto|]. split; [reflexivity|]. intros ? ? [=].
  - unfold extend. destruct same.
    + cbn in Ho. split; [apply Forall_app; auto|]. split; [|split; [auto|intros ? ? [=]]].
      rewrite Forall_forall in Ho. split; [intros (y & Hy & Hf); rewrite Ho in Hf; [discriminate|assumption]|intros [? [=]]].
    + destruct (extend_gen_spec xs l) as [[H1 ->]|(good & x & bad & s & -> & H2 & H3 & ->)].
      * split; [apply Forall_app; auto|]. split; [|split; [auto|intros ? ? _ [=]]].
        rewrite Forall_forall in H1. split; [intros (y & Hy & Hf); rewrite H1 in Hf; [discriminate|assumption]|intros [? [=]]].
      * split; [apply Forall_app; auto|]. split; [|split; [auto|]].
        { split; [eauto|]. intros _. exists x. split; [apply in_or_app; right; now left|assumption]. }
        intros e xs [= <-] _. exists good, x, bad. auto.
  - unfold assign. destruct v as [|l'|xs|x].
    + split; [constructor|]. split; [split; [intros (? & [] & _)|intros [? [=]]]|]. split; [discriminate|]. intros ? ? [=].
    + cbn in Ho. split; [assumption|]. split; [|split; [discriminate|intros ? ? [=]]].
      rewrite Forall_forall in Ho. split; [intros (y & Hy & Hf); rewrite Ho in Hf; [discriminate|assumption]|intros [? [=]]].
    + destruct (construct_spec xs) as [[H1 ->]|[H1 (s & ->)]].
      * split; [assumption|]. split; [|split; [discriminate|intros ? ? [=]]].
        rewrite Forall_forall in H1. split; [intros (y & Hy & Hf); rewrite H1 in Hf; [discriminate|assumption]|intros [? [=]]].
      * split; [assumption|]. split; [split; eauto|]. split; [reflexivity|intros ? ? [=]].
    + destruct (valid x) eqn:E; cbn iota; rewrite Hone; rewrite E.
      * split; [auto|]. split; [split; [discriminate|intros [? [=]]]|]. split; [discriminate|intros ? ? [=]].
      * split; [assumption|]. split; [split; eauto|]. split; [reflexivity|intros ? ? [=]].
  - destruct Ho.
Qed.

(** Any sequence of operations. *)
Theorem C32_sequence (os : list (op obj)) : Forall from_valid os ->
  forall l, all_valid l -> all_valid (apply_ops valid l os).
Proof.
  unfold apply_ops. induction 1 as [|o os Ho Hos IH]; intros l Hl; cbn [fold_left]; [assumption|].
  apply IH. pose proof (C32_step l o Hl Ho) as H. destruct (apply_op valid l o). apply H.
Qed.
(** What an operation that succeeds leaves: everything that was there, in the same order, and the operands. *)
Definition leaves (l : list obj) (o : op obj) (l' : list obj) : Prop :=
  match o with
  | OAppend x => l' = l ++ [x]
  | OExtend _ xs | OIadd xs => l' = l ++ xs
  | OAssign VNone => l' = []
  | OAssign (VItem x) => l' = [x]
  | OAssign (VList xs) | OAssign (VCollection xs) => l' = xs
  | OInsert i x => exists pre post, l = pre ++ post /\ l' = pre ++ x :: post /\
      let p := Z.of_nat (List.length pre) in let n := Z.of_nat (List.length l) in
      ((0 <= i <= n -> p = i) /\ (n < i -> p = n) /\ (- n <= i < 0 -> p = n + i) /\ (i < - n -> p = 0))%Z
  | OSet i x => exists pre old post, l = pre ++ old :: post /\ l' = pre ++ x :: post /\
      (Z.of_nat (List.length pre) = i \/ Z.of_nat (List.length pre) = i + Z.of_nat (List.length l))%Z
  end.
Theorem C32_content (l : list obj) (o : op obj) l' : apply_op valid l o = (Ok tt, l') -> leaves l o l'.
Proof.
  assert (Hv : forall x y : obj, validate valid x = Ok y -> y = x) by (intros x y H; now apply validate_ok in H).
  destruct o as [x|i x|i x|same xs|v|xs]; cbn [apply_op leaves].
  - unfold append. destruct (validate valid x) eqn:E; intros [= <-]. now rewrite (Hv _ _ E).
  - unfold insert. destruct (validate valid x) eqn:E; intros [= <-]. rewrite (Hv _ _ E).
    set (p := insert_pos (List.length l) i). exists (firstn p l), (skipn p l).
    split; [symmetry; apply firstn_skipn|]. split; [reflexivity|]. cbv zeta. rewrite firstn_length_le.
    2:{ unfold p, insert_pos. apply Nat.le_min_l. }
    unfold p, insert_pos. destruct (i <? 0)%Z eqn:Ei; [apply Z.ltb_lt in Ei|apply Z.ltb_ge in Ei]; lia.
  - unfold setitem. destruct (validate valid x) eqn:E; [|discriminate]. rewrite (Hv _ _ E). unfold index_pos.
    set (j := if (i <? 0)%Z then (i + Z.of_nat (List.length l))%Z else i).
    destruct ((0 <=? j)%Z && (j <? Z.of_nat (List.length l))%Z) eqn:Ej; intros [= <-].
    apply andb_true_iff in Ej as [E1 E2]. apply Z.leb_le in E1. apply Z.ltb_lt in E2.
    destruct (skipn (Z.to_nat j) l) as [|old post] eqn:Es.
    { apply (f_equal (@List.length obj)) in Es. rewrite skipn_length in Es. cbn in Es. lia. }
    assert (Hs : skipn (S (Z.to_nat j)) l = post).
    { revert Es. generalize (Z.to_nat j) as m. clear. intros m. revert l. induction m as [|m IH]; intros [|a l] H; cbn in *; try discriminate.
      - now injection H.
      - now apply IH. }
    exists (firstn (Z.to_nat j) l), old, post. split; [rewrite <- Es; symmetry; apply firstn_skipn|]. split; [cbn in Hs |- *; now rewrite Hs|].
    rewrite firstn_length_le by lia. unfold j in *. destruct (i <? 0)%Z; lia.
  - unfold extend. destruct same; [now intros [= <-]|]. intros H.
    destruct (extend_gen_spec xs l) as [[_ Hx]|(good & x & bad & s & _ & _ & _ & Hx)]; rewrite Hx in H; [now injection H|discriminate].
  - unfold assign. destruct v as [|c|xs|x].
    + now intros [= <-].
    + now intros [= <-].
    + destruct (construct_spec xs) as [[_ ->]|[_ (s & ->)]]; [now intros [= <-]|discriminate].
    + destruct (valid x); [now intros [= <-]|discriminate].
  - now intros [= <-].
Qed.
(** Assigning an item fails with a right object only if there is no such item. *)
Theorem C32_index (l : list obj) i x : valid x = true ->
  (exists s, fst (apply_op valid l (OSet i x)) = Err (IndexError s)) <-> (i < - Z.of_nat (List.length l) \/ Z.of_nat (List.length l) <= i)%Z.
Proof.
  intros Hx. cbn [apply_op]. unfold setitem, validate, index_pos. rewrite Hx.
  destruct (i <? 0)%Z eqn:Ei; [apply Z.ltb_lt in Ei|apply Z.ltb_ge in Ei];
    match goal with |- context [((0 <=? ?j) && (?j <? ?n))%Z] => destruct ((0 <=? j) && (j <? n))%Z eqn:Ej end; cbn [fst].
  all: try (apply andb_true_iff in Ej as [E1 E2]; apply Z.leb_le in E1; apply Z.ltb_lt in E2; split; [intros [? [=]]|lia]).
  all: apply andb_false_iff in Ej as [E|E]; [apply Z.leb_gt in E|apply Z.ltb_ge in E]; (split; [lia|eauto]).
Qed.
End Collections.

Example C32_example :
  Forall (from_valid (fun n => Nat.ltb n 10)) [OAppend 3; OInsert (-1) 12; OExtend false [4; 20; 5]; OSet 0 7; OAssign (VItem 9)]%nat /\
  apply_ops (fun n => Nat.ltb n 10) [1] [OAppend 3; OInsert (-1) 12; OExtend false [4; 20; 5]; OSet 0 7]%nat = [7; 3; 4]%nat.
Proof. split; [repeat constructor|reflexivity]. Qed.

(** [+=] is not validated, and an extend that raises is not undone. *)
Theorem C32_iadd_refuted : exists (l : list nat) o l', Forall (fun x => Nat.ltb x 10 = true) l /\
  apply_op (fun n => Nat.ltb n 10) l o = (Ok tt, l') /\ ~ Forall (fun x => Nat.ltb x 10 = true) l'.
Proof.
  exists [], (OIadd [12%nat]), [12%nat]. split; [constructor|]. split; [reflexivity|].
  intros H. inversion H. discriminate.
Qed.
Theorem C32_extend_rollback_refuted : exists (l : list nat) o l' s, Forall (fun x => Nat.ltb x 10 = true) l /\
  from_valid (fun n => Nat.ltb n 10) o /\
  apply_op (fun n => Nat.ltb n 10) l o = (Err (TypeError s), l') /\ l' <> l.
Proof.
  exists [], (OExtend false [1; 12]%nat), [1%nat]. eexists. split; [constructor|]. split; [exact I|].
  split; [reflexivity|discriminate].
Qed.

(** *** C23 *)
Section Filter.
Context {cls quantity : Type} (q_surface q_volume : quantity -> option Z) (q_field : quantity -> key)
  (instance_of : quantity -> cls -> bool).

(** b is one of the values given for an argument; everything is if it is not given. *)
Definition among {B} (a : arg B) (P : B -> Prop) : Prop :=
  match a with ANone => True | AOne b => P b | AList l => exists b, In b l /\ P b end.
Definition matches (surfaces volumes : arg Z) (fields : arg key) (instances : arg cls) (q : quantity) : Prop :=
  among surfaces (fun s => q_surface q = Some s) /\ among volumes (fun v => q_volume q = Some v) /\
  among fields (fun k => q_field q = k) /\ among instances (fun c => instance_of q c = true).

(** l' is the sublist of the elements of l satisfying P, in order. *)
Inductive selects {B} (P : B -> Prop) : list B -> list B -> Prop :=
| sel_nil : selects P [] []
| sel_yes x l l' : P x -> selects P l l' -> selects P (x :: l) (x :: l')
| sel_no x l l' : ~ P x -> selects P l l' -> selects P (x :: l) l'.

Lemma key_eqb_eq a b : key_eqb a b = true <-> a = b.
Proof.
  destruct a as [x|x], b as [y|y]; cbn; try (split; discriminate).
  - rewrite Z.eqb_eq. split; congruence.
  - rewrite String.eqb_eq. split; congruence.
Qed.
Lemma among_iff {B} (a : arg B) (f : B -> bool) (P : B -> Prop) : (forall b, f b = true <-> P b) ->
  (match to_list a with Some l => existsb f l | None => true end = true <-> among a P).
Proof.
  intros H. destruct a as [|b|l]; cbn.
  - tauto.
  - rewrite orb_false_r. apply H.
  - rewrite existsb_exists. split; intros (b & Hb & Hf); exists b; (split; [assumption|now apply H]).
Qed.

Lemma matches_iff s v fi i q :
  (match_surface quantity q_surface (to_list s) q && match_volume quantity q_volume (to_list v) q &&
   match_field quantity q_field (to_list fi) q && match_instance cls quantity instance_of (to_list i) q)%bool = true
  <-> matches s v fi i q.
Proof.
  rewrite !andb_true_iff. unfold matches, match_surface, match_volume, match_field, match_instance.
  rewrite <- (among_iff fi (key_eqb (q_field q)) _ (fun b => key_eqb_eq (q_field q) b)).
  rewrite <- (among_iff i (instance_of q) (fun c => instance_of q c = true)) by tauto.
  assert (Hz : forall (o : option Z) (a : arg Z),
    (match to_list a with Some l => match o with Some x => existsb (Z.eqb x) l | None => false end | None => true end = true
     <-> among a (fun b => o = Some b))).
  { intros [x|] a.
    - rewrite <- (among_iff a (Z.eqb x)) by (intros b; rewrite Z.eqb_eq; split; congruence). destruct (to_list a); tauto.
    - destruct a as [|b|l]; cbn; [tauto|split; discriminate|].
      split; [discriminate|]. intros (b & _ & [=]). }
  rewrite (Hz (q_surface q) s), (Hz (q_volume q) v). tauto.
Qed.

Lemma filter_loop_selects s v fi i l : forall acc,
  exists l', filter_loop q_surface q_volume q_field instance_of (to_list s) (to_list v) (to_list fi)
    (to_list i) l acc = acc ++ l' /\ selects (matches s v fi i) l l'.
Proof.
  induction l as [|q r IH]; intros acc; cbn [filter_loop].
  - exists []. rewrite app_nil_r. split; [reflexivity|constructor].
  - cbv zeta. pose proof (matches_iff s v fi i q) as Hm.
    destruct (_ && _ && _ && _)%bool.
    + destruct (IH (acc ++ [q])) as (l' & -> & Hs). exists (q :: l'). rewrite <- app_assoc. split; [reflexivity|].
      constructor; [now apply Hm|assumption].
    + destruct (IH acc) as (l' & -> & Hs). exists l'. split; [reflexivity|]. constructor; [|assumption].
      intros H. apply Hm in H. discriminate.
Qed.

Theorem C23_filter (l : list quantity) surfaces volumes fields instances :
  exists l', selects (matches surfaces volumes fields instances) l l' /\
    filter_quantities q_surface q_volume q_field instance_of l surfaces volumes fields instances =
    match l' with [q] => One q | _ => Many l' end.
Proof.
  destruct (filter_loop_selects surfaces volumes fields instances l []) as (l' & H & Hs).
  exists l'. split; [assumption|]. unfold filter_quantities. rewrite H. cbn [app].
  now destruct l' as [|q [|q' r]].
Qed.
(** The selected list is determined by l. *)
Theorem C23_unique {B} (P : B -> Prop) (l l1 l2 : list B) : selects P l l1 -> selects P l l2 -> l1 = l2.
Proof.
  intros H. revert l2. induction H as [|x l l1 Hx _ IH|x l l1 Hx _ IH]; intros l2 H2; inversion H2; subst; try tauto.
  - f_equal. auto.
  - auto.
Qed.
End Filter.

(** Three quantities (class, surface, field): filtering gives one, two or none. *)
Definition ex_q : Type := (nat * option Z * key)%type.
Definition ex_l : list ex_q := [(0%nat, Some 1%Z, KI 0); (1%nat, Some 2%Z, KS "T"); (0%nat, None, KS "1")].
Definition ex_filter := filter_quantities (cls:=nat) (fun q : ex_q => snd (fst q)) (fun q => None) snd
  (fun q c => Nat.eqb (fst (fst q)) c) ex_l.
Example C23_example :
  ex_filter (AOne 2%Z) ANone ANone ANone = One (1%nat, Some 2%Z, KS "T") /\
  ex_filter ANone ANone (AList [KI 0; KS "1"]) (AOne 0%nat) = Many [(0%nat, Some 1%Z, KI 0); (0%nat, None, KS "1")] /\
  ex_filter ANone (AOne 1%Z) ANone ANone = Many [].
Proof. repeat split. Qed.

Print Assumptions C32_step.
Print Assumptions C32_sequence.
Print Assumptions C32_content.
Print Assumptions C32_index.
Print Assumptions C32_iadd_refuted.
Print Assumptions C32_extend_rollback_refuted.
Print Assumptions C23_filter.
Print Assumptions C23_unique.
