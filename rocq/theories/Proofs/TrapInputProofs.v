(** Materials and densities of a trap. *)
From Coq Require Import Reals ZArith List String Bool Arith Lia.
From Verif Require Import Base.Exc Base.Dual Model.Materials Model.Theta Model.Forms Model.TrapInputs Spec.TrapInputSpec.
Import ListNotations.
Local Open Scope list_scope.

Lemma has_name_iff s m : has_name s m = true <-> m_name (attrs m) = Some s.
Proof.
  unfold has_name. destruct (m_name (attrs m)) as [n|]; [|split; discriminate].
  rewrite String.eqb_eq. split; [now intros ->|now injection 1].
Qed.
Lemma find_first {A} (f : A -> bool) l x :
  find f l = Some x <-> exists before after, l = before ++ x :: after /\ f x = true /\ forall y, In y before -> f y = false.
Proof.
  induction l as [|a l IH]; cbn.
  - split; [discriminate|]. intros ([|b bs] & af & H & _); discriminate.
  - destruct (f a) eqn:E.
    + split; [intros H; injection H as ->; exists [], l; repeat split; [exact E|intros y []]|].
      intros ([|b bs] & af & H & Hx & Hb); injection H as -> ->; [reflexivity|]. now rewrite (Hb b (or_introl eq_refl)) in E.
    + rewrite IH. split.
      * intros (bs & af & -> & Hx & Hb). exists (a :: bs), af. repeat split; [exact Hx|]. intros y [<-|Hy]; auto.
      * intros ([|b bs] & af & H & Hx & Hb); injection H as -> ->; [congruence|]. exists bs, af. repeat split; [exact Hx|].
        intros y Hy. apply Hb. now right.
Qed.
Lemma find_object_iff ms e m : find_object ms e = Ok (Some m) <-> stands_for ms e m.
Proof.
  destruct e as [s|x|]; cbn [find_object stands_for].
  - destruct (find (has_name s) ms) as [y|] eqn:E.
    + split.
      * intros H. injection H as ->. apply find_first in E as (bs & af & -> & Hx & Hb). exists bs, af. split; [reflexivity|].
        split; [now apply has_name_iff|]. intros x Hx' F. apply has_name_iff in F. rewrite Hb in F; [discriminate|exact Hx'].
      * intros (bs & af & H & Hx & Hb). f_equal. rewrite <- E. apply find_first. exists bs, af. split; [exact H|].
        split; [now apply has_name_iff|]. intros z Hz. destruct (has_name s z) eqn:F; [|reflexivity].
        apply has_name_iff in F. now apply Hb in F.
    + split; [discriminate|]. intros (bs & af & -> & Hx & _). apply has_name_iff in Hx.
      rewrite (find_none _ _ E m) in Hx; [discriminate|]. apply in_or_app. right. now left.
  - split; [now injection 1|now intros ->].
  - split; [discriminate|intros []].
Qed.
Lemma mat_in_iff m l : mat_in m l = true <-> In (uid m) (map uid l).
Proof.
  unfold mat_in. rewrite existsb_exists, in_map_iff. split; intros (x & H); exists x; rewrite Nat.eqb_eq in *; intuition congruence.
Qed.
Lemma distinct_le l : (List.length (distinct l) <= List.length l)%nat.
Proof. induction l as [|m l IH]; cbn; [lia|]. destruct (mat_in m l); cbn; lia. Qed.
Lemma distinct_iff l : List.length l = List.length (distinct l) <-> NoDup (map uid l).
Proof.
  induction l as [|m l IH]; cbn; [split; [constructor|reflexivity]|]. pose proof (distinct_le l).
  destruct (mat_in m l) eqn:E.
  - apply mat_in_iff in E. split; [lia|]. intros N. inversion_clear N. contradiction.
  - cbn. split.
    + intros [= H1]. constructor; [rewrite <- mat_in_iff; congruence|now apply IH].
    + intros N. inversion_clear N. f_equal. now apply IH.
Qed.
Lemma find_all_iff ms l : forall r, find_all ms l = Ok (map Some r) <-> Forall2 (stands_for ms) l r.
Proof.
  induction l as [|e l IH]; intros r; cbn [find_all].
  - destruct r; (split; [|inversion 1; reflexivity]); [intros _; constructor|discriminate].
  - destruct (find_object ms e) as [[m|]|x] eqn:E; cbn [bind].
    + apply find_object_iff in E. destruct (find_all ms l) as [s|x] eqn:F; cbn [bind].
      * destruct r as [|m' r]; [split; [discriminate|inversion 1]|]. cbn [map]. split.
        -- intros H. injection H as -> ->. constructor; [exact E|]. now apply IH.
        -- intros H. inversion H as [|? ? ? ? H1 H2]; subst. apply IH in H2. injection H2 as ->.
           apply find_object_iff in E, H1. rewrite E in H1. now injection H1 as ->.
      * split; [discriminate|]. intros H. inversion H as [|? ? ? ? H1 H2]; subst. apply IH in H2. discriminate.
    + split.
      * destruct (find_all ms l); cbn [bind]; [|discriminate]. destruct r; discriminate.
      * intros H. inversion H as [|? ? ? ? H1 H2]; subst. apply find_object_iff in H1. congruence.
    + split; [discriminate|]. intros H. inversion H as [|? ? ? ? H1 H2]; subst. apply find_object_iff in H1. congruence.
Qed.
Lemma all_materials_iff l r : all_materials l = Ok r <-> l = map Some r.
Proof.
  revert r. induction l as [|[m|] l IH]; intros r; cbn [all_materials].
  - destruct r; split; try discriminate; reflexivity.
  - destruct (all_materials l) as [s|x]; cbn [bind].
    + destruct r as [|m' r]; [split; discriminate|]. cbn. specialize (IH s). destruct IH as [IH _]. specialize (IH eq_refl). subst l.
      split; [intros H; injection H as -> ->; reflexivity|]. intros H. injection H as -> H. f_equal. f_equal.
      revert r H. induction s as [|a s IH]; intros [|b r] H; try discriminate; [reflexivity|]. cbn in H. injection H as -> H. f_equal. now apply IH.
    + split; [discriminate|]. destruct r as [|m' r]; [discriminate|]. intros H. injection H as -> H. apply IH in H. discriminate.
  - split; [discriminate|]. destruct r; discriminate.
Qed.
Lemma make_materials_iff ms l r : make_materials ms l = Ok r <-> Forall2 (stands_for ms) l r /\ NoDup (map uid r).
Proof.
  unfold make_materials. rewrite <- find_all_iff, <- distinct_iff.
  destruct (find_all ms l) as [s|x]; cbn [bind]; [|split; [discriminate|now intros [H _]]].
  destruct (all_materials s) as [q|x] eqn:E; cbn [bind].
  - apply all_materials_iff in E. subst s. assert (I : forall a b, map (@Some mat_obj) a = map Some b -> a = b).
    { induction a as [|a' a IH]; intros [|b' b] H; try discriminate; [reflexivity|]. cbn in H. injection H as -> H. f_equal. now apply IH. }
    destruct (Nat.eqb_spec (List.length q) (List.length (distinct q))) as [Hl|Hl].
    + split; [intros H; injection H as <-; now split|]. intros [H _]. injection H as H. apply I in H. now subst.
    + split; [discriminate|]. intros [H Hn]. injection H as H. apply I in H. now subst.
  - split; [discriminate|]. intros [H _]. injection H as ->. assert (all_materials (map Some r) = Ok r) by now apply all_materials_iff. congruence.
Qed.
Lemma find_all_some ms l s : find_all ms l = Ok s -> forallb entry_ok l = true -> exists r, s = map Some r.
Proof.
  revert s. induction l as [|e l IH]; intros s; cbn.
  - intros H _. injection H as <-. now exists [].
  - destruct (find_object ms e) as [o|x] eqn:E; cbn [bind]; [|discriminate]. destruct (find_all ms l) as [q|x]; cbn [bind]; [|discriminate].
    intros H He. injection H as <-. apply andb_true_iff in He as [He Hl]. destruct (IH q eq_refl Hl) as [r ->].
    destruct o as [m|]; [now exists (m :: r)|]. destruct e; cbn in E; try discriminate. destruct (find _ ms); discriminate.
Qed.

Section Densities.
Context {P : Type}.
Definition density_of (e : density_entry P) : list (P -> R) := match e with DNone => [] | DFenics d | DSympy d => [d] end.
Lemma append_flat l : forall acc, append_densities acc l = acc ++ flat_map density_of l.
Proof.
  induction l as [|[|d|d] l IH]; intros acc; cbn [append_densities flat_map density_of app].
  - now rewrite app_nil_r.
  - apply IH.
  - rewrite IH, <- app_assoc. reflexivity.
  - rewrite IH, <- app_assoc. reflexivity.
Qed.
Lemma flat_at l : forall i e d, nth_error l i = Some e -> is_density e d ->
  nth_error (flat_map density_of l) (i - nones (firstn i l)) = Some d /\ (nones (firstn i l) <= i)%nat.
Proof.
  induction l as [|a l IH]; intros [|i] e d; try discriminate; cbn [nth_error].
  - intros H [->| ->]; injection H as ->; cbn; split; auto.
  - intros H Hd. destruct (IH i e d H Hd) as [H1 H2]. destruct a as [|x|x]; cbn [firstn nones flat_map density_of app].
    + now split; [|lia].
    + replace (S i - nones (firstn i l))%nat with (S (i - nones (firstn i l))) by lia. split; [exact H1|lia].
    + replace (S i - nones (firstn i l))%nat with (S (i - nones (firstn i l))) by lia. split; [exact H1|lia].
Qed.
Lemma nones_zero l : (forall e, In e l -> e <> DNone) -> nones (P := P) l = O.
Proof. induction l as [|[|d|d] l IH]; intros H; cbn; [reflexivity|now destruct (H DNone (or_introl eq_refl))| |]; apply IH; intros e He; apply H; now right. Qed.
Lemma nones_length l : (List.length (flat_map density_of l) + nones l = List.length l)%nat.
Proof. induction l as [|[|d|d] l IH]; cbn in *; lia. Qed.
End Densities.
