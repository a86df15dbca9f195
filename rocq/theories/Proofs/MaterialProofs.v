(** Lemmas about materials and borders. *)
From Coq Require Import ZArith QArith List Bool Lia Lqa String Sorted Permutation.
From Verif Require Import Base.Exc Base.Num Model.Materials Spec.MeshSpec Proofs.NumQ.
Import ListNotations.
Local Open Scope Q_scope.
Local Notation length := List.length.

Lemma neqb_true (a b : Q) : neqb a b = true <-> a == b.
Proof. cbn. apply Qeq_bool_iff. Qed.
Lemma nltb_true (a b : Q) : nltb a b = true <-> a < b.
Proof.
  cbn. unfold Qltb. rewrite negb_true_iff. split; intros H.
  - destruct (Qlt_le_dec a b) as [|Hle]; [assumption|]. apply Qle_bool_iff in Hle. congruence.
  - apply not_true_is_false. intros Hle. apply Qle_bool_iff in Hle. lra.
Qed.
Lemma nltb_false (a b : Q) : nltb a b = false <-> b <= a.
Proof.
  rewrite <- not_true_iff_false, nltb_true. split; intros H; [apply Qnot_lt_le|]; lra || auto.
Qed.
Lemma within_iff (x : Q) b : within x b = true <-> in_interval x b.
Proof. unfold within, in_interval. rewrite andb_true_iff. cbn. now rewrite !Qle_bool_iff. Qed.

(** Sorting. *)
Lemma insert_border_perm (b : Q * Q) l : Permutation (b :: l) (insert_border b l).
Proof.
  induction l as [|c r IH]; cbn [insert_border]; [reflexivity|].
  destruct (nltb (fst c) (fst b)); [|reflexivity].
  etransitivity; [apply perm_swap|]. now constructor.
Qed.
Lemma sort_borders_perm (l : list (Q * Q)) : Permutation l (sort_borders l).
Proof.
  induction l as [|b r IH]; cbn [sort_borders]; [reflexivity|].
  etransitivity; [|apply insert_border_perm]. now constructor.
Qed.
Definition fst_le (b c : Q * Q) : Prop := fst b <= fst c.
Lemma insert_border_sorted (b : Q * Q) l :
  StronglySorted fst_le l -> StronglySorted fst_le (insert_border b l).
Proof.
  induction l as [|c r IH]; intros H; cbn [insert_border].
  - repeat constructor.
  - inversion H as [|? ? Hs Hf]; subst. destruct (nltb (fst c) (fst b)) eqn:E.
    + apply nltb_true in E. constructor; [now apply IH|].
      eapply (Permutation_Forall (P:=fst_le c)); [apply insert_border_perm|].
      constructor; [unfold fst_le; lra|assumption].
    + apply nltb_false in E. constructor; [assumption|]. constructor; [exact E|].
      eapply Forall_impl; [|exact Hf]. unfold fst_le. intros a Ha. lra.
Qed.
Lemma sort_borders_sorted (l : list (Q * Q)) : StronglySorted fst_le (sort_borders l).
Proof. induction l; cbn [sort_borders]; [constructor|]. now apply insert_border_sorted. Qed.

(** Matching borders. *)
Lemma check_matching_cons (b c : Q * Q) r u :
  check_matching (b :: c :: r) = Ok u -> snd b == fst c /\ check_matching (c :: r) = Ok u.
Proof.
  cbn [check_matching]. destruct (neqb (snd b) (fst c)) eqn:E; [|discriminate].
  apply neqb_true in E. auto.
Qed.

Lemma matching_cover (l : list (Q * Q)) : forall b u x,
  check_matching (b :: l) = Ok u -> fst b <= x -> x <= snd (last (b :: l) b) ->
  exists c, In c (b :: l) /\ in_interval x c.
Proof.
  induction l as [|c r IH]; intros b u x H Hb Hx.
  - exists b. split; [now left|]. split; assumption.
  - apply check_matching_cons in H as [He Hr].
    destruct (Qlt_le_dec (snd b) x) as [Hlt|Hle].
    + destruct (IH c u x Hr) as (d & Hd & Hi); [lra| |exists d; split; [now right|assumption]].
      change (last (b :: c :: r) b) with (last (c :: r) b) in Hx.
      replace (last (c :: r) c) with (last (c :: r) b); [assumption|].
      clear. revert c. induction r as [|d r IH]; intros c; [reflexivity|].
      change (last (c :: d :: r) b) with (last (d :: r) b). change (last (c :: d :: r) c) with (last (d :: r) c).
      clear IH. revert d. induction r as [|e r IH]; intros d; [reflexivity|].
      change (last (d :: e :: r) b) with (last (e :: r) b). now change (last (d :: e :: r) c) with (last (e :: r) c).
    + exists b. split; [now left|]. split; assumption.
Qed.

Lemma matching_fst (l : list (Q * Q)) : forall b u x,
  StronglySorted fst_le (b :: l) -> check_matching (b :: l) = Ok u ->
  x <= snd b -> (exists c, In c l /\ in_interval x c) -> exists c, In c l /\ x == fst c.
Proof.
  intros b u x Hs Hm Hx (c & Hc & [Hc1 Hc2]). destruct l as [|d r]; [now elim Hc|].
  apply check_matching_cons in Hm as [He _].
  inversion Hs as [|? ? Hs' _]; subst. inversion Hs' as [|? ? _ Hf]; subst. rewrite Forall_forall in Hf.
  exists c. split; [assumption|]. assert (fst d <= fst c).
  { destruct Hc as [<-|Hc]; [lra|]. now apply Hf. }
  lra.
Qed.

(** Away from the ends of the borders at most one contains x. *)
Lemma matching_unique (l : list (Q * Q)) u x :
  StronglySorted fst_le l -> check_matching l = Ok u ->
  (forall c, In c l -> ~ x == fst c) -> (length (filter (within x) l) <= 1)%nat.
Proof.
  revert u. induction l as [|b r IH]; intros u Hs Hm Hx; [cbn; lia|].
  cbn [filter]. destruct (within x b) eqn:E.
  - apply within_iff in E as [_ E].
    replace (filter (within x) r) with (@nil (Q * Q)); [cbn; lia|].
    destruct (filter (within x) r) as [|c q] eqn:Ef; [reflexivity|]. exfalso.
    assert (Hc : In c (filter (within x) r)) by (rewrite Ef; now left).
    apply filter_In in Hc as [Hc Hw]. apply within_iff in Hw.
    destruct (matching_fst r b u x Hs Hm E) as (d & Hd & He); [eauto|].
    apply (Hx d); [now right|assumption].
  - destruct r as [|c r]; [cbn; lia|]. apply check_matching_cons in Hm as [_ Hm].
    inversion Hs; subst. apply (IH u); auto. intros d Hd. apply Hx. now right.
Qed.

(** Collected borders. *)
Section Mats.
Context {P : Type}.
Local Notation material := (material (A:=Q) P).

Lemma collect_borders_ok (ms : list material) bs :
  collect_borders ms = Ok bs -> bs = flat_map borders_of ms /\ (forall m, In m ms -> borders_of m <> []).
Proof.
  revert bs. induction ms as [|m r IH]; intros bs H; cbn [collect_borders] in H.
  - injection H as <-. split; [reflexivity|]. intros ? [].
  - destruct (m_borders m) as [|b|[|b l]] eqn:E; try discriminate; cbn [bind] in H;
      (destruct (collect_borders r) as [rest|] eqn:Er; [|discriminate]); cbn [bind] in H; injection H as <-;
      destruct (IH rest eq_refl) as [-> Hne]; cbn [flat_map];
      (split; [f_equal; unfold borders_of; now rewrite E|]); intros m' [<-|Hm']; auto; unfold borders_of; rewrite E; discriminate.
Qed.

Lemma check_borders_ok (ms : list material) size v :
  check_borders ms size = Ok v ->
  let bs := flat_map borders_of ms in
  (forall m, In m ms -> borders_of m <> []) /\
  exists b r, sort_borders bs = b :: r /\ fst b == 0 /\
    (exists u, check_matching (b :: r) = Ok u) /\ snd (last (b :: r) b) == size.
Proof.
  unfold check_borders. destruct (collect_borders ms) as [bs|] eqn:E; [|discriminate].
  apply collect_borders_ok in E as [-> Hne]. cbn [bind]. intros H. split; [assumption|].
  destruct (sort_borders (flat_map borders_of ms)) as [|b r] eqn:Es; [discriminate|].
  destruct (neqb (fst b) n0) eqn:E0; [|discriminate]. cbn [negb] in H.
  destruct (check_matching (b :: r)) as [u|] eqn:Em; [|discriminate]. cbn [bind] in H.
  destruct (neqb (snd (last (b :: r) b)) size) eqn:Esz; [|discriminate].
  apply neqb_true in E0, Esz. exists b, r. split; [reflexivity|]. split; [exact E0|]. split; [eauto|assumption].
Qed.

Lemma flat_map_in (ms : list material) b : In b (flat_map borders_of ms) <-> exists m, In m ms /\ In b (borders_of m).
Proof. apply in_flat_map. Qed.

Lemma check_borders_cover (ms : list material) size v x :
  check_borders ms size = Ok v -> 0 <= x -> x <= size -> exists m, In m ms /\ contains m x.
Proof.
  intros H H0 Hx. apply check_borders_ok in H as (_ & b & r & Es & E0 & (u & Hm) & Hsz).
  destruct (matching_cover r b u x Hm) as (c & Hc & Hi); [lra|lra|].
  rewrite <- Es in Hc. apply (Permutation_in c (Permutation_sym (sort_borders_perm _))) in Hc.
  apply flat_map_in in Hc as (m & Hm' & Hb). exists m. split; [assumption|]. exists c. auto.
Qed.

Lemma filter_perm {B} (f : B -> bool) l l' : Permutation l l' -> Permutation (filter f l) (filter f l').
Proof.
  induction 1; cbn.
  - reflexivity.
  - destruct (f x); [now constructor|assumption].
  - destruct (f x), (f y); try reflexivity. apply perm_swap.
  - etransitivity; eauto.
Qed.

Lemma check_borders_unique (ms : list material) size v x :
  check_borders ms size = Ok v -> ~ interface ms x ->
  (length (filter (within x) (flat_map borders_of ms)) <= 1)%nat.
Proof.
  intros H Hx. apply check_borders_ok in H as (_ & b & r & Es & _ & (u & Hm) & _).
  rewrite (Permutation_length (filter_perm _ _ _ (sort_borders_perm (flat_map borders_of ms)))).
  rewrite Es. eapply matching_unique; [rewrite <- Es; apply sort_borders_sorted|exact Hm|].
  intros c Hc He. apply Hx. rewrite <- Es in Hc.
  apply (Permutation_in c (Permutation_sym (sort_borders_perm _))) in Hc.
  apply flat_map_in in Hc as (m & Hm' & Hb). exists m, c. auto.
Qed.

Lemma two_in_filter {B} (f : B -> bool) (l1 l2 : list B) a b :
  In a l1 -> In b l2 -> f a = true -> f b = true -> (2 <= length (filter f (l1 ++ l2)))%nat.
Proof.
  intros Ha Hb Hfa Hfb. rewrite filter_app, app_length.
  assert (H1 : In a (filter f l1)) by now apply filter_In.
  assert (H2 : In b (filter f l2)) by now apply filter_In.
  destruct (filter f l1); [now elim H1|]. destruct (filter f l2); [now elim H2|]. cbn. lia.
Qed.

Lemma contains_unique (ms : list material) x : forall k1 k2 m1 m2,
  (length (filter (within x) (flat_map borders_of ms)) <= 1)%nat ->
  nth_error ms k1 = Some m1 -> nth_error ms k2 = Some m2 -> contains m1 x -> contains m2 x -> k1 = k2.
Proof.
  induction ms as [|m r IH]; intros k1 k2 m1 m2 Hl H1 H2 (b1 & Hb1 & Hi1) (b2 & Hb2 & Hi2).
  - destruct k1; discriminate.
  - cbn [flat_map] in Hl. apply within_iff in Hi1, Hi2.
    destruct k1 as [|k1], k2 as [|k2]; [reflexivity|..]; cbn in H1, H2.
    + injection H1 as ->. exfalso. apply nth_error_In in H2.
      assert (In b2 (flat_map borders_of r)) by (apply flat_map_in; eauto).
      pose proof (two_in_filter (within x) _ _ b1 b2 Hb1 H Hi1 Hi2). lia.
    + injection H2 as ->. exfalso. apply nth_error_In in H1.
      assert (In b1 (flat_map borders_of r)) by (apply flat_map_in; eauto).
      pose proof (two_in_filter (within x) _ _ b2 b1 Hb2 H Hi2 Hi1). lia.
    + f_equal. apply within_iff in Hi1, Hi2. eapply (IH k1 k2 m1 m2).
      * rewrite filter_app, app_length in Hl. lia.
      * assumption.
      * assumption.
      * exists b1. auto.
      * exists b2. auto.
Qed.

(** Lookups. *)
Lemma ids_has (m : material) z : In z (ids (m_id m)) <-> has_id m z.
Proof.
  unfold has_id. destruct (m_id m) as [y|l]; cbn.
  - split; [intros [->|[]]; auto|]. intros [[= ->]|(? & [=] & _)]. auto.
  - split; [intros H; right; eauto|]. intros [[=]|(? & [= ->] & H)]. assumption.
Qed.
Lemma existsb_ids (m : material) z : existsb (Z.eqb z) (ids (m_id m)) = true <-> has_id m z.
Proof.
  rewrite <- ids_has, existsb_exists. split.
  - intros (y & Hy & E). apply Z.eqb_eq in E. now subst.
  - intros H. exists z. split; [assumption|apply Z.eqb_refl].
Qed.
Lemma check_unique_ids_iff (ms : list material) u : check_unique_ids ms = Ok u <-> NoDup (all_ids ms).
Proof.
  unfold check_unique_ids. destruct (Nat.eqb_spec (length (all_ids ms)) (length (nodup Z.eq_dec (all_ids ms)))) as [E|E].
  - split; [|destruct u; reflexivity]. intros _. generalize dependent (all_ids ms). intros l E.
    pose proof (NoDup_nodup Z.eq_dec l) as Hn.
    eapply NoDup_incl_NoDup; [exact Hn|lia|]. intros x Hx. now apply nodup_In in Hx.
  - split; [discriminate|]. intros H. elim E. now rewrite nodup_fixed_point.
Qed.

Lemma find_id_some (ms : list material) z m : find_material_from_id ms z = Ok m -> In m ms /\ has_id m z.
Proof.
  induction ms as [|a r IH]; cbn [find_material_from_id]; [discriminate|].
  destruct (existsb (Z.eqb z) (ids (m_id a))) eqn:E.
  - intros [= <-]. split; [now left|]. now apply existsb_ids.
  - intros H. destruct (IH H). split; [now right|assumption].
Qed.
Lemma find_id_none (ms : list material) z e :
  find_material_from_id ms z = Err e -> forall m, In m ms -> ~ has_id m z.
Proof.
  induction ms as [|a r IH]; cbn [find_material_from_id]; [intros _ ? []|].
  destruct (existsb (Z.eqb z) (ids (m_id a))) eqn:E; [discriminate|].
  intros H m [<-|Hm]; [|auto]. intros Hh. apply existsb_ids in Hh. congruence.
Qed.
Lemma find_id_unique (ms : list material) z k m :
  NoDup (all_ids ms) -> nth_error ms k = Some m -> has_id m z ->
  find_material_from_id ms z = Ok m /\
  forall k' m', nth_error ms k' = Some m' -> has_id m' z -> k' = k.
Proof.
  revert k. induction ms as [|a r IH]; intros k Hn Hk Hz; [destruct k; discriminate|].
  unfold all_ids in Hn. cbn [flat_map] in Hn. fold (all_ids r) in Hn.
  assert (Hdis : forall y, In y (ids (m_id a)) -> ~ In y (all_ids r)).
  { clear -Hn. induction (ids (m_id a)) as [|b l IH]; intros y Hy; [now elim Hy|].
    cbn in Hn. inversion Hn as [|? ? Hnb Hn']; subst. destruct Hy as [->|Hy]; [|auto].
    intros Hin. apply Hnb, in_or_app. now right. }
  assert (Hr : forall m', In m' r -> has_id m' z -> In z (all_ids r)).
  { intros m' Hm' Hh. apply in_flat_map. exists m'. split; [assumption|]. now apply ids_has. }
  cbn [find_material_from_id].
  destruct k as [|k]; cbn in Hk.
  - injection Hk as <-. apply existsb_ids in Hz as Hz'. rewrite Hz'. split; [reflexivity|].
    intros [|k'] m' Hk' Hh; [reflexivity|]. cbn in Hk'. exfalso. apply ids_has in Hz.
    apply (Hdis z Hz). eapply Hr; [eapply nth_error_In; eauto|assumption].
  - assert (Hnin : ~ In z (ids (m_id a))).
    { intros Hin. apply (Hdis z Hin). eapply Hr; [eapply nth_error_In; eauto|assumption]. }
    destruct (existsb (Z.eqb z) (ids (m_id a))) eqn:E.
    { apply existsb_ids, ids_has in E. tauto. }
    destruct (IH k) as [Hf Hu]; [|assumption..|].
    { clear -Hn. induction (ids (m_id a)); [assumption|]. inversion Hn. auto. }
    split; [assumption|]. intros [|k'] m' Hk' Hh; cbn in Hk'.
    + injection Hk' as <-. apply ids_has in Hh. tauto.
    + f_equal. eauto.
Qed.

(** Subdomain of a point. *)
Lemma find_border_some (x : Q) bs : forall subs z, find_border x bs subs = Some z ->
  exists j b, nth_error bs j = Some b /\ nth_error subs j = Some z /\ in_interval x b.
Proof.
  induction bs as [|b r IH]; intros [|s subs] z H; try discriminate. cbn [find_border] in H.
  destruct (within x b) eqn:E.
  - injection H as <-. exists 0%nat, b. apply within_iff in E. auto.
  - destruct (IH subs z H) as (j & c & H1 & H2 & H3). exists (S j), c. auto.
Qed.
Lemma find_border_none (x : Q) bs : forall subs, (length bs <= length subs)%nat ->
  find_border x bs subs = None -> forall b, In b bs -> ~ in_interval x b.
Proof.
  induction bs as [|b r IH]; intros [|s subs] Hl H c Hc; cbn in Hl; try (now elim Hc); try lia.
  cbn [find_border] in H. destruct (within x b) eqn:E; [discriminate|].
  destruct Hc as [<-|Hc]; [|eapply IH; eauto; lia]. intros Hi. apply within_iff in Hi. congruence.
Qed.

(** The material and position a point is attributed to. *)
Lemma find_subdomain_ok (ms : list material) x :
  (forall m, In m ms -> well_shaped m) -> (forall m, In m ms -> borders_of m <> []) ->
  (exists m, In m ms /\ contains m x) ->
  exists m j b z, find_subdomain_from_x_coordinate ms x = Ok (IdOne z) /\ In m ms /\
    nth_error (borders_of m) j = Some b /\ in_interval x b /\ id_at m j z.
Proof.
  intros Hw Hb Hex. induction ms as [|m r IH].
  { destruct Hex as (? & [] & _). }
  assert (Hstep : exists subs, (length (borders_of m) <= length subs)%nat /\
    (forall j z, (j < length (borders_of m))%nat -> nth_error subs j = Some z -> id_at m j z) /\
    find_subdomain_from_x_coordinate (m :: r) x =
      match find_border x (borders_of m) subs with
      | Some s => Ok (IdOne s)
      | None => find_subdomain_from_x_coordinate r x
      end).
  { specialize (Hw m (or_introl eq_refl)). specialize (Hb m (or_introl eq_refl)).
    cbn [find_subdomain_from_x_coordinate]. unfold well_shaped in Hw. unfold borders_of in *.
    destruct (m_borders m) as [|b|[|b [|c l]]] eqn:Eb; try congruence.
    - destruct (m_id m) as [z|[|z l]] eqn:Ei; [|congruence|].
      + exists [z]. split; [cbn; lia|]. split; [|reflexivity].
        intros [|j] y Hj Hy; [|cbn in Hj; lia]. cbn in Hy. injection Hy as <-. left. assumption.
      + exists (z :: l). split; [cbn; lia|]. split; [|reflexivity].
        intros j y Hj Hy. right. exists (z :: l). auto.
    - destruct (m_id m); cbn in Hw; lia.
    - destruct (m_id m) as [z|l'] eqn:Ei.
      + exists (repeat z (length (b :: c :: l))). split; [rewrite repeat_length; lia|]. split; [|reflexivity].
        intros j y Hj Hy. left. apply nth_error_In, repeat_spec in Hy. congruence.
      + exists l'. split; [tauto|]. split; [|reflexivity]. intros j y Hj Hy. right. eauto. }
  destruct Hstep as (subs & Hlen & Hid & ->).
  destruct (find_border x (borders_of m) subs) as [z|] eqn:Ef.
  - apply find_border_some in Ef as (j & b & Hj & Hs & Hi). exists m, j, b, z.
    split; [reflexivity|]. split; [now left|]. split; [assumption|]. split; [assumption|].
    apply Hid; [|assumption]. apply nth_error_Some. congruence.
  - pose proof (find_border_none x (borders_of m) subs Hlen Ef) as Hno.
    destruct IH as (m' & j & b & z & H1 & H2 & H3); [| | |].
    + intros m' Hm'. apply Hw. now right.
    + intros m' Hm'. apply Hb. now right.
    + destruct Hex as (m' & [<-|Hm'] & (b & Hb1 & Hb2)); [now elim (Hno b)|]. exists m'. split; [assumption|]. exists b. auto.
    + exists m', j, b, z. split; [assumption|]. split; [now right|]. assumption.
Qed.

(** Consistency checks. *)
Lemma is_some_true {B} (o : option B) : is_some o = true <-> o <> None.
Proof. destruct o; cbn; split; congruence. Qed.

Lemma consistent_iff {B} (f : material -> option B) (ms : list material) :
  consistent f ms = true <-> all_or_none f ms.
Proof.
  unfold consistent, count_none, all_or_none. rewrite orb_true_iff, !Nat.eqb_eq.
  assert (H1 : length (filter (fun m => negb (is_some (f m))) ms) = 0%nat <-> forall m, In m ms -> f m <> None).
  { induction ms as [|m r IH]; cbn [filter]; [split; [intros _ ? []|reflexivity]|].
    destruct (f m) eqn:E; cbn [is_some negb].
    - rewrite IH. split; intros H m' Hm'; [destruct Hm' as [<-|]; [congruence|auto]|apply H; now right].
    - cbn [List.length]. split; [discriminate|]. intros H. exfalso. apply (H m); [now left|assumption]. }
  assert (H2 : length (filter (fun m => negb (is_some (f m))) ms) = length ms <-> forall m, In m ms -> f m = None).
  { clear H1. induction ms as [|m r IH]; cbn [filter]; [split; [intros _ ? []|reflexivity]|].
    destruct (f m) eqn:E; cbn [is_some negb].
    - cbn [List.length]. split; [|intros H; specialize (H m (or_introl eq_refl)); congruence].
      intros H. exfalso.
      assert (Hle : forall g : material -> bool, (length (filter g r) <= length r)%nat).
      { intros g. clear. induction r as [|a r IH]; cbn; [lia|]. destruct (g a); cbn; lia. }
      specialize (Hle (fun m => negb (is_some (f m)))). lia.
    - cbn [List.length]. split.
      + intros [= H] m' [<-|Hm']; [assumption|]. now apply IH.
      + intros H. f_equal. apply IH. intros m' Hm'. apply H. now right. }
  now rewrite H1, H2.
Qed.
End Mats.

Section Checks.
Context {P : Type}.
Local Notation material := (material (A:=Q) P).

Lemma check_attribute_iff {B} name (f : material -> option B) ms u :
  check_attribute name f ms = Ok u <-> all_or_none f ms.
Proof.
  unfold check_attribute. rewrite <- consistent_iff. destruct (consistent f ms), u; split; congruence.
Qed.
Lemma check_attribute_err {B} name (f : material -> option B) ms e :
  check_attribute name f ms = Err e -> exists s, e = ValueError s.
Proof. unfold check_attribute. destruct (consistent f ms); [discriminate|]. intros [= <-]. eauto. Qed.

Lemma bind_ok {B C} (r : res B) (k : B -> res C) c :
  bind r k = Ok c <-> exists b, r = Ok b /\ k b = Ok c.
Proof.
  destruct r as [b|e]; cbn; split; [eauto|intros (? & [= ->] & H); exact H|discriminate|intros (? & [=] & _)].
Qed.
Lemma bind_err {B C} (r : res B) (k : B -> res C) e :
  bind r k = Err e -> r = Err e \/ exists b, r = Ok b /\ k b = Err e.
Proof. destruct r as [b|e']; cbn; [eauto|]. intros [= ->]. auto. Qed.

Lemma border_opt_iff (ms : list material) :
  all_or_none border_opt ms <->
  ((forall m, In m ms -> m_borders m <> BNone) \/ (forall m, In m ms -> m_borders m = BNone)).
Proof.
  unfold all_or_none, border_opt.
  split; (intros [H|H]; [left|right]); intros m Hm; specialize (H m Hm); destruct (m_borders m); congruence.
Qed.

Lemma check_consistency_iff (ms : list material) u :
  check_consistency ms = Ok u <->
  all_or_none m_S0 ms /\ all_or_none m_ES ms /\ all_or_none m_thermal ms /\ all_or_none m_heat ms /\
  all_or_none m_rho ms /\ all_or_none border_opt ms /\ all_or_none m_Q ms.
Proof.
  unfold check_consistency. split.
  - rewrite bind_ok. intros (? & H1 & H). rewrite bind_ok in H. destruct H as (? & H2 & H).
    rewrite bind_ok in H. destruct H as (? & H3 & H). rewrite bind_ok in H. destruct H as (? & H4 & H).
    rewrite bind_ok in H. destruct H as (? & H5 & H). rewrite bind_ok in H. destruct H as (? & H6 & H).
    apply check_attribute_iff in H1, H2, H3, H4, H5, H6, H. repeat split; assumption.
  - intros (H1 & H2 & H3 & H4 & H5 & H6 & H7).
    apply (check_attribute_iff "S_0" _ _ tt) in H1. apply (check_attribute_iff "E_S" _ _ tt) in H2.
    apply (check_attribute_iff "thermal_cond" _ _ tt) in H3. apply (check_attribute_iff "heat_capacity" _ _ tt) in H4.
    apply (check_attribute_iff "rho" _ _ tt) in H5. apply (check_attribute_iff "borders" _ _ tt) in H6.
    rewrite H1, H2, H3, H4, H5, H6. cbn [bind]. now apply check_attribute_iff.
Qed.
Lemma check_consistency_err (ms : list material) e :
  check_consistency ms = Err e -> exists s, e = ValueError s.
Proof.
  unfold check_consistency. intros H.
  repeat (apply bind_err in H as [H|(? & _ & H)]; [now apply check_attribute_err in H|]).
  now apply check_attribute_err in H.
Qed.

Lemma given_first {B} (f : material -> option B) m r :
  all_or_none f (m :: r) -> (is_some (f m) = true <-> given f (m :: r)).
Proof.
  intros H. rewrite is_some_true. split; [|intros Hg; apply Hg; now left].
  intros Hm. destruct H as [H|H]; [exact H|]. elim Hm. apply H. now left.
Qed.

Lemma check_missing_iff (m : material) r T u :
  all_or_none m_thermal (m :: r) -> all_or_none m_heat (m :: r) -> all_or_none m_rho (m :: r) ->
  (check_missing_properties (m :: r) T = Ok u <-> needed T (m :: r)).
Proof.
  intros H1 H2 H3. apply given_first in H1, H2, H3.
  destruct T as [|[|]]; cbn [check_missing_properties]; unfold needed.
  - destruct u; split; auto.
  - rewrite <- H1, <- H2, <- H3.
    destruct (is_some (m_thermal m)), (is_some (m_heat m)), (is_some (m_rho m)), u; cbn; split; try tauto; try discriminate;
      intros (? & ? & ?); discriminate.
  - rewrite <- H1. destruct (is_some (m_thermal m)), u; cbn; split; congruence.
Qed.
Lemma check_missing_err m r T e :
  check_missing_properties (P:=P) (A:=Q) (m :: r) T = Err e -> exists s, e = ValueError s.
Proof.
  destruct T as [|[|]]; cbn [check_missing_properties]; [discriminate|..];
    destruct (is_some (m_thermal m)), (is_some (m_heat m)), (is_some (m_rho m)); cbn; intros [= <-]; eauto.
Qed.

Lemma check_materials_iff (ms : list material) T tf : ms <> [] ->
  (exists w, check_materials ms T tf = Ok w) <->
  (all_or_none m_S0 ms /\ all_or_none m_ES ms /\ all_or_none m_thermal ms /\ all_or_none m_heat ms /\
   all_or_none m_rho ms /\ all_or_none border_opt ms /\ all_or_none m_Q ms) /\
  NoDup (all_ids ms) /\ needed T ms.
Proof.
  intros Hne. destruct ms as [|m r]; [easy|]. unfold check_materials. split.
  - intros (w & H). rewrite bind_ok in H. destruct H as (u & H1 & H). rewrite bind_ok in H.
    destruct H as (u2 & H2 & H). rewrite bind_ok in H. destruct H as (u3 & H3 & _).
    apply check_consistency_iff in H1. apply check_unique_ids_iff in H2.
    split; [assumption|]. split; [assumption|]. eapply check_missing_iff; [tauto..|exact H3].
  - intros (H1 & H2 & H3).
    assert (H3' : check_missing_properties (m :: r) T = Ok tt) by (apply check_missing_iff; tauto).
    apply (check_consistency_iff _ tt) in H1. apply (check_unique_ids_iff _ tt) in H2.
    rewrite H1, H2, H3'. cbn. eauto.
Qed.
Lemma check_materials_err (ms : list material) T tf e :
  check_materials ms T tf = Err e -> exists s, e = ValueError s.
Proof.
  destruct ms as [|m r]; [discriminate|]. unfold check_materials. intros H.
  apply bind_err in H as [H|(? & _ & H)]; [now apply check_consistency_err in H|].
  apply bind_err in H as [H|(? & _ & H)].
  { unfold check_unique_ids in H. destruct (Nat.eqb _ _); [discriminate|]. injection H as <-. eauto. }
  apply bind_err in H as [H|(? & _ & H)]; [now apply check_missing_err in H|discriminate].
Qed.

Lemma check_materials_warnings (ms : list material) T tf w :
  check_materials ms T tf = Ok w -> w = check_for_unused_properties ms T tf.
Proof.
  destruct ms as [|m r]; unfold check_materials.
  - intros [= <-]. unfold check_for_unused_properties. cbn. now destruct (is_heat T).
  - intros H. rewrite bind_ok in H. destruct H as (u & _ & H). rewrite bind_ok in H.
    destruct H as (? & _ & H). rewrite bind_ok in H. destruct H as (? & _ & H). now injection H.
Qed.

Lemma warnings_iff (ms : list material) T tf :
  let w := check_for_unused_properties ms T tf in
  (In "rho key will be ignored"%string w <-> T = Given /\ exists m, In m ms /\ m_rho m <> None) /\
  (In "heat_capacity key will be ignored"%string w <-> T = Given /\ exists m, In m ms /\ m_heat m <> None) /\
  (In "thermal_cond key will be ignored"%string w <->
     T = Given /\ tf = false /\ exists m, In m ms /\ m_thermal m <> None) /\
  (forall s, In s w -> In s ["rho key will be ignored"; "heat_capacity key will be ignored";
                             "thermal_cond key will be ignored"]%string).
Proof.
  cbv zeta. unfold check_for_unused_properties.
  assert (Hheat : is_heat T = true <-> T <> Given) by (destruct T; cbn; split; congruence).
  assert (H2 : forall s, In s (flat_map (fun m : material =>
      if (is_some (m_thermal m) && negb (is_heat T || tf))%bool then ["thermal_cond key will be ignored"%string] else []) ms)
      <-> s = "thermal_cond key will be ignored"%string /\ T = Given /\ tf = false /\ exists m, In m ms /\ m_thermal m <> None).
  { intros s. rewrite in_flat_map. split.
    - intros (m & Hm & Hs). destruct (is_some (m_thermal m)) eqn:Es; [|now elim Hs].
      apply is_some_true in Es. destruct T; [|now elim Hs]. destruct tf; [now elim Hs|].
      cbn in Hs. destruct Hs as [<-|[]]. eauto 6.
    - intros (-> & -> & -> & m & Hm & Hs). exists m. split; [assumption|]. apply is_some_true in Hs. rewrite Hs. now left. }
  assert (H1 : forall s, In s (if is_heat T then [] else flat_map (fun m : material =>
           ((if is_some (m_rho m) then ["rho key will be ignored"%string] else []) ++
           (if is_some (m_heat m) then ["heat_capacity key will be ignored"%string] else []))%list) ms)
      <-> T = Given /\ ((s = "rho key will be ignored"%string /\ exists m, In m ms /\ m_rho m <> None) \/
                        (s = "heat_capacity key will be ignored"%string /\ exists m, In m ms /\ m_heat m <> None))).
  { intros s. destruct T; cbn [is_heat]; [|split; [intros []|intros ([=] & _)]].
    rewrite in_flat_map. split.
    - intros (m & Hm & Hs). split; [reflexivity|]. apply in_app_or in Hs as [Hs|Hs].
      + destruct (is_some (m_rho m)) eqn:E; [|now elim Hs]. apply is_some_true in E.
        destruct Hs as [<-|[]]. left. eauto.
      + destruct (is_some (m_heat m)) eqn:E; [|now elim Hs]. apply is_some_true in E.
        destruct Hs as [<-|[]]. right. eauto.
    - intros (_ & [(-> & m & Hm & Hs)|(-> & m & Hm & Hs)]); exists m; (split; [assumption|]);
        apply is_some_true in Hs; rewrite Hs; apply in_or_app; [left|right]; now left. }
  split; [|split; [|split]].
  - rewrite in_app_iff, H1, H2. split; [|tauto].
    intros [(-> & [(_ & H)|([=] & _)])|([=] & _)]. auto.
  - rewrite in_app_iff, H1, H2. split; [|tauto].
    intros [(-> & [([=] & _)|(_ & H)])|([=] & _)]. auto.
  - rewrite in_app_iff, H1, H2. split; [|tauto].
    intros [(-> & [([=] & _)|([=] & _)])|(_ & H)]. auto.
  - intros s. rewrite in_app_iff, H1, H2. intros [(_ & [(-> & _)|(-> & _)])|(-> & _)]; cbn; auto.
Qed.
End Checks.
