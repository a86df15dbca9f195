(** Lemmas about field names and dictionaries. *)
From Coq Require Import ZArith List Bool String DecimalString DecimalZ DecimalPos DecimalFacts Lia.
From Verif Require Import Base.Key.
Import ListNotations.

Lemma key_eqb_eq a b : key_eqb a b = true <-> a = b.
Proof.
  destruct a as [x|x], b as [y|y]; cbn; try (split; discriminate).
  - rewrite Z.eqb_eq. split; congruence.
  - rewrite String.eqb_eq. split; congruence.
Qed.
Lemma key_eqb_refl a : key_eqb a a = true.
Proof. now apply key_eqb_eq. Qed.
Lemma key_eqb_neq a b : key_eqb a b = false <-> a <> b.
Proof. rewrite <- key_eqb_eq. now destruct (key_eqb a b). Qed.

Lemma str_parse z : NilZero.int_of_string (str z) = Some (Z.to_int z).
Proof.
  unfold str. apply NilZero.isi; destruct z as [|p|p]; cbn; try discriminate; intros [= H];
    now apply DecimalPos.Unsigned.to_uint_nonnil in H.
Qed.
Lemma str_inj a b : str a = str b -> a = b.
Proof.
  intros H. assert (Hi : Some (Z.to_int a) = Some (Z.to_int b)) by now rewrite <- !str_parse, H.
  injection Hi as Hi. rewrite <- (DecimalZ.of_to a), <- (DecimalZ.of_to b). now rewrite Hi.
Qed.
(** A string that is not a number is not a str(z). *)
Lemma str_not s z : NilZero.int_of_string s = None -> str z <> s.
Proof. intros H E. rewrite <- E, str_parse in H. discriminate. Qed.
Lemma str_0 : str 0 = "0"%string.
Proof. reflexivity. Qed.

Section Dict.
Context {V : Type}.
Lemma dict_get_set (d : dict V) k v k' :
  dict_get (dict_set d k v) k' = if key_eqb k' k then Some v else dict_get d k'.
Proof.
  unfold dict_set. cbn [dict_get]. destruct (key_eqb k' k) eqn:E; [reflexivity|].
  induction d as [|[k0 v0] r IH]; cbn [filter fst]; [reflexivity|].
  destruct (key_eqb k k0) eqn:E0; cbn [negb].
  - apply key_eqb_eq in E0. subst k0. cbn [dict_get]. now rewrite E.
  - cbn [dict_get]. now rewrite IH.
Qed.
Lemma dict_values_set (d : dict V) k v x : In x (dict_values (dict_set d k v)) -> x = v \/ In x (dict_values d).
Proof.
  unfold dict_values, dict_set. cbn [map In snd]. intros [->|H]; [auto|right].
  apply in_map_iff in H as (e & <- & H). apply filter_In in H as [H _]. now apply in_map.
Qed.
Lemma dict_get_value (d : dict V) k v : dict_get d k = Some v -> In v (dict_values d).
Proof.
  induction d as [|[k0 v0] r IH]; cbn; [discriminate|]. destruct (key_eqb k k0); [intros [= ->]; now left|auto].
Qed.
End Dict.
