(** Lemmas about trap ids, layouts and field names. *)
From Coq Require Import ZArith List Bool String Lia Permutation.
From Verif Require Import Base.Exc Base.Key Model.Sources Model.Fields Spec.LayoutSpec Proofs.KeyProofs.
Import ListNotations.
Local Open Scope string_scope.
Local Notation length := List.length.

(** * Ids *)
Lemma assign_length ids : forall i, length (assign_from i ids) = length ids.
Proof. induction ids as [|[z|] r IH]; intros i; cbn; [reflexivity|now rewrite IH..]. Qed.
Lemma assign_nth ids : forall i k,
  nth_error (assign_from i ids) k =
  match nth_error ids k with
  | Some (Some z) => Some z
  | Some None => Some (i + Z.of_nat k)%Z
  | None => None
  end.
Proof.
  induction ids as [|o r IH]; intros i [|k]; cbn [assign_from nth_error]; try reflexivity.
  - destruct o; cbn [nth_error]; [reflexivity|]. f_equal. lia.
  - destruct o; cbn [nth_error]; rewrite IH; destruct (nth_error r k) as [[z'|]|]; try reflexivity; f_equal; lia.
Qed.
Lemma NoDup_nth_error' {A} (l : list A) :
  NoDup l <-> forall i j x, nth_error l i = Some x -> nth_error l j = Some x -> i = j.
Proof.
  rewrite NoDup_nth_error. split.
  - intros H i j x Hi Hj. apply H; [|congruence]. apply nth_error_Some. congruence.
  - intros H i j Hi E. destruct (nth_error l i) as [x|] eqn:Ex; [|apply nth_error_Some in Hi; congruence].
    apply (H i j x); congruence.
Qed.
Lemma some_inj {A} (a b : A) : Some a = Some b -> a = b.
Proof. congruence. Qed.
Lemma assign_good ids : clash_free ids <-> NoDup (assign_traps_ids ids) /\ ~ In 0%Z (assign_traps_ids ids).
Proof.
  unfold assign_traps_ids. rewrite NoDup_nth_error'. split.
  - intros (H0 & Hd & Hm). split.
    + intros i j x. rewrite !assign_nth.
      destruct (nth_error ids i) as [[z|]|] eqn:Ei; [| |discriminate];
      destruct (nth_error ids j) as [[z'|]|] eqn:Ej; try discriminate; intros E1 E2; apply some_inj in E1, E2.
      * subst. now apply (Hd i j x).
      * elim (Hm i j). { unfold given. rewrite Ei. apply f_equal, f_equal. lia. } exact Ej.
      * elim (Hm j i). { unfold given. rewrite Ej. apply f_equal, f_equal. lia. } exact Ei.
      * lia.
    + intros Hi. apply In_nth_error in Hi as [i Hi]. rewrite assign_nth in Hi.
      destruct (nth_error ids i) as [[z|]|] eqn:Ei; [| |discriminate]; apply some_inj in Hi.
      * apply (H0 i z Ei). lia.
      * lia.
  - intros [Hd H0]. unfold given, missing. repeat split.
    + intros i z Hi ->. apply H0. apply (nth_error_In _ i). now rewrite assign_nth, Hi.
    + intros i j z Hi Hj. apply (Hd i j z); now rewrite assign_nth, ?Hi, ?Hj.
    + intros i j Hi Hj.
      assert (i = j); [|subst; congruence].
      apply (Hd i j (Z.of_nat (S j))); rewrite assign_nth, ?Hi, ?Hj; f_equal; lia.
Qed.
Lemma get_from_spec ids : forall i id p,
  get_from i ids id = Ok p <->
  exists k, p = (i + k)%nat /\ nth_error ids k = Some id /\ forall k', (k' < k)%nat -> nth_error ids k' <> Some id.
Proof.
  induction ids as [|z r IH]; intros i id p; cbn [get_from].
  { split; [discriminate|]. intros (k & _ & H & _). now destruct k. }
  destruct (Z.eqb_spec z id) as [->|Hz].
  - split.
    + intros [= <-]. exists 0%nat. split; [lia|]. split; [reflexivity|]. intros k' Hk. lia.
    + intros (k & -> & _ & Hm). destruct k; [f_equal; lia|]. elim (Hm 0%nat); [lia|reflexivity].
  - rewrite IH. split; intros (k & Hp & Hk & Hm).
    + exists (S k). split; [lia|]. split; [assumption|]. intros [|k'] Hk'; cbn [nth_error]; [congruence|].
      apply Hm. lia.
    + destruct k as [|k]; cbn [nth_error] in Hk; [congruence|]. exists k. split; [lia|]. split; [assumption|].
      intros k' Hk'. apply (Hm (S k')). lia.
Qed.
Lemma get_from_err ids : forall i id e, get_from i ids id = Err e ->
  ~ In id ids /\ e = ValueError "Couldn't find trap".
Proof.
  induction ids as [|z r IH]; intros i id e; cbn [get_from]; [intros [= <-]; split; [tauto|reflexivity]|].
  destruct (Z.eqb_spec z id); [discriminate|]. intros H. destruct (IH _ _ _ H) as [H1 H2].
  split; [|assumption]. intros [Hc|Hc]; congruence.
Qed.
Lemma get_trap_spec ids id k : NoDup ids -> nth_error ids k = Some id -> get_trap ids id = Ok (S k).
Proof.
  intros Hn Hk. apply get_from_spec. exists k. split; [reflexivity|]. split; [assumption|].
  intros k' Hk' E. rewrite NoDup_nth_error' in Hn. specialize (Hn k k' id Hk E). lia.
Qed.

(** * Layout *)
Lemma surface_loop_snd j m index : map snd (surface_loop j m index) = seq index m.
Proof.
  unfold surface_loop. rewrite map_map. cbn [snd].
  transitivity (map (fun i => index + i)%nat (seq 0 m)); [reflexivity|].
  revert index. induction m as [|m IH]; intros index; [reflexivity|].
  cbn [seq map]. f_equal; [lia|]. rewrite <- seq_shift, map_map. rewrite <- (IH (S index)). apply map_ext. intros; lia.
Qed.
Lemma in_surface_loop j m index s c :
  In (s, c) (surface_loop j m index) <-> exists i, (i < m)%nat /\ s = SlotAdsorbed j i /\ c = (index + i)%nat.
Proof.
  unfold surface_loop. rewrite in_map_iff. split.
  - intros (i & [= <- <-] & Hi). apply in_seq in Hi. exists i. split; [lia|auto].
  - intros (i & Hi & -> & ->). exists i. split; [reflexivity|]. apply in_seq. lia.
Qed.
Lemma list_sum_cons m l : list_sum (m :: l) = (m + list_sum l)%nat.
Proof. reflexivity. Qed.
Lemma sk_loop_snd sks : forall j index, map snd (sk_loop j index sks) = seq index (list_sum sks).
Proof.
  induction sks as [|m r IH]; intros j index; cbn [sk_loop]; [reflexivity|].
  rewrite map_app, surface_loop_snd, IH. cbn [list_sum fold_right]. symmetry. apply seq_app.
Qed.
Lemma in_sk_loop sks : forall j index s c,
  In (s, c) (sk_loop j index sks) <->
  exists k m i, nth_error sks k = Some m /\ (i < m)%nat /\ s = SlotAdsorbed (j + k) i /\
                c = (index + list_sum (firstn k sks) + i)%nat.
Proof.
  induction sks as [|m r IH]; intros j index s c; cbn [sk_loop].
  { split; [intros []|intros (k & m & i & H & _); now destruct k]. }
  rewrite in_app_iff, in_surface_loop, IH. split.
  - intros [(i & Hi & -> & ->)|(k & m' & i & Hk & Hi & -> & ->)].
    + exists 0%nat, m, i. split; [reflexivity|]. split; [assumption|]. split; [f_equal; lia|cbn [firstn]; rewrite ?list_sum_cons; cbn [list_sum fold_right]; lia].
    + exists (S k), m', i. split; [assumption|]. split; [assumption|]. split; [f_equal; lia|cbn [firstn]; rewrite ?list_sum_cons; cbn [list_sum fold_right]; lia].
  - intros (k & m' & i & Hk & Hi & -> & ->). destruct k as [|k].
    + left. injection Hk as ->. exists i. split; [assumption|]. split; [f_equal; lia|cbn [firstn]; rewrite ?list_sum_cons; cbn [list_sum fold_right]; lia].
    + right. exists k, m', i. split; [assumption|]. split; [assumption|]. split; [f_equal; lia|cbn [firstn]; rewrite ?list_sum_cons; cbn [list_sum fold_right]; lia].
Qed.
Lemma index_loop_app l1 l2 : forall index,
  index_loop index (l1 ++ l2)%list =
  (index_loop index l1 ++ index_loop (index + length (index_loop index l1)) l2)%list.
Proof.
  induction l1 as [|c r IH]; intros index; cbn [index_loop app length]; [now rewrite Nat.add_0_r|].
  destruct c as [|i|j m]; cbn [index_loop app length].
  - rewrite IH. do 3 f_equal. lia.
  - rewrite IH. do 3 f_equal. lia.
  - rewrite IH, <- app_assoc, app_length. do 3 f_equal.
    unfold surface_loop. rewrite map_length, seq_length. lia.
Qed.
Lemma index_loop_traps n : forall i index,
  index_loop index (map CTrap (seq i n)) = map (fun k => (SlotTrap k, index + (k - i))%nat) (seq i n).
Proof.
  induction n as [|n IH]; intros i index; cbn [seq map index_loop]; [reflexivity|].
  f_equal; [f_equal; lia|]. rewrite IH. apply map_ext_in. intros k Hk. apply in_seq in Hk. f_equal. lia.
Qed.
Lemma index_loop_sk sks : forall j index,
  index_loop index (map (fun p => CSurfKin (fst p) (snd p)) (combine (seq j (length sks)) sks)) = sk_loop j index sks.
Proof.
  induction sks as [|m r IH]; intros j index; cbn [length seq combine map index_loop sk_loop fst snd]; [reflexivity|].
  now rewrite IH.
Qed.
Lemma solve_layout_eq n sks :
  solve_layout n sks = ((SlotMobile, 0%nat) :: map (fun k => (SlotTrap k, k)) (seq 1 n) ++ sk_loop 0 (n + 1) sks)%list.
Proof.
  unfold solve_layout, conc_list. cbn [app index_loop]. f_equal.
  rewrite index_loop_app, index_loop_traps, index_loop_sk. f_equal.
  - apply map_ext_in. intros k Hk. apply in_seq in Hk. f_equal. lia.
  - f_equal. rewrite map_length, seq_length. lia.
Qed.
Lemma solve_layout_snd n sks : map snd (solve_layout n sks) = seq 0 (1 + n + list_sum sks).
Proof.
  rewrite solve_layout_eq. cbn [map snd]. rewrite map_app, map_map, sk_loop_snd. cbn [snd]. rewrite map_id.
  cbn [Nat.add seq]. f_equal. replace (n + 1)%nat with (1 + n)%nat by lia. rewrite <- seq_app. reflexivity.
Qed.
Lemma in_solve_layout n sks s c : In (s, c) (solve_layout n sks) <->
  match s with
  | SlotMobile => c = 0%nat
  | SlotTrap i => (1 <= i <= n)%nat /\ c = i
  | SlotAdsorbed j i => exists m, nth_error sks j = Some m /\ (i < m)%nat /\ c = (n + 1 + list_sum (firstn j sks) + i)%nat
  end.
Proof.
  rewrite solve_layout_eq. cbn [In]. rewrite in_app_iff, in_map_iff, in_sk_loop. split.
  - intros [[= <- <-]|[(k & [= <- <-] & Hk)|(k & m & i & Hk & Hi & -> & ->)]].
    + reflexivity.
    + apply in_seq in Hk. split; [lia|reflexivity].
    + exists m. cbn [Nat.add]. split; [assumption|]. split; [assumption|reflexivity].
  - destruct s as [|i|j i].
    + intros ->. now left.
    + intros [Hi ->]. right. left. exists i. split; [reflexivity|]. apply in_seq. lia.
    + intros (m & Hm & Hi & ->). right. right. exists j, m, i. split; [assumption|]. split; [assumption|]. now split.
Qed.
Lemma solve_layout_fst n sks s : In s (map fst (solve_layout n sks)) <-> unknown n sks s.
Proof.
  rewrite in_map_iff. split.
  - intros ([s' c] & <- & H). apply in_solve_layout in H. cbn [fst]. destruct s' as [|i|j i]; cbn; [exact I|tauto|].
    destruct H as (m & Hm & Hi & _). eauto.
  - intros H.
    assert (He : exists c, In (s, c) (solve_layout n sks)).
    { destruct s as [|i|j i]; cbn in H.
      - exists 0%nat. now apply in_solve_layout.
      - exists i. now apply in_solve_layout.
      - destruct H as (m & Hm & Hi). eexists. apply in_solve_layout. eauto. }
    destruct He as [c Hc]. now exists (s, c).
Qed.
Lemma solve_layout_fun n sks s c c' :
  In (s, c) (solve_layout n sks) -> In (s, c') (solve_layout n sks) -> c = c'.
Proof.
  rewrite !in_solve_layout. destruct s as [|i|j i]; [lia..|].
  intros (m & _ & _ & ->) (m' & _ & _ & ->). reflexivity.
Qed.
Lemma layout_NoDup (l : list (slot * nat)) : NoDup (map snd l) ->
  (forall s c c', In (s, c) l -> In (s, c') l -> c = c') -> NoDup (map fst l).
Proof.
  induction l as [|[s c] r IH]; cbn [map fst snd]; intros Hn Hf; constructor.
  - intros H. apply in_map_iff in H as ([s' c'] & E & H). cbn in E. subst s'.
    assert (c = c') by (apply (Hf s); [now left|now right]). subst c'.
    inversion Hn as [|? ? Hc _]. apply Hc. apply in_map_iff. now exists (s, c).
  - apply IH; [now inversion Hn|]. intros s' c1 c2 H1 H2. apply (Hf s'); now right.
Qed.
Lemma post_perm n sks : Permutation (post_layout n sks) (solve_layout n sks).
Proof.
  rewrite solve_layout_eq. unfold post_layout. rewrite app_assoc.
  symmetry. apply Permutation_cons_append.
Qed.
Lemma nth_elements n sks l s c : mixed_elements n sks = Some l -> In (s, c) (solve_layout n sks) ->
  nth_error l c = Some (element_of s).
Proof.
  unfold mixed_elements. destruct (_ && _)%bool; [discriminate|]. intros [= <-]. rewrite in_solve_layout.
  destruct s as [|i|j i]; cbn [element_of].
  - intros ->. reflexivity.
  - intros [Hi ->]. destruct i as [|i]; [lia|]. cbn [app nth_error].
    rewrite nth_error_app1 by (rewrite repeat_length; lia). apply nth_error_repeat. lia.
  - intros (m & Hm & Hi & ->).
    replace (n + 1 + list_sum (firstn j sks) + i)%nat with (S (n + (list_sum (firstn j sks) + i))) by lia.
    cbn [app nth_error]. rewrite nth_error_app2 by (rewrite repeat_length; lia). rewrite repeat_length.
    apply nth_error_repeat.
    enough (list_sum (firstn j sks) + m <= list_sum sks)%nat by lia.
    rewrite <- (firstn_skipn j sks) at 2. rewrite list_sum_app.
    apply nth_error_split in Hm as (l1 & l2 & -> & <-). rewrite skipn_app, skipn_all, Nat.sub_diag. cbn. lia.
Qed.

(** * Field names *)
Definition of_id (k : key) (z : Z) : Prop := k = KI z \/ k = KS (str z).
Lemma of_id_inj k z z' : of_id k z -> of_id k z' -> z = z'.
Proof.
  intros [H1|H1] [H2|H2]; rewrite H1 in H2; try discriminate; injection H2 as H2; [assumption|].
  now apply str_inj.
Qed.
Lemma of_id_bool k z : (key_eqb k (KS (str z)) || key_eqb k (KI z))%bool = true <-> of_id k z.
Proof. rewrite orb_true_iff, !key_eqb_eq. unfold of_id. tauto. Qed.
Lemma of_id_dec k ids : (exists j z, nth_error ids j = Some z /\ of_id k z) \/ (forall z, In z ids -> ~ of_id k z).
Proof.
  induction ids as [|z r IH]; [right; intros ? []|].
  destruct ((key_eqb k (KS (str z)) || key_eqb k (KI z))%bool) eqn:E.
  - apply of_id_bool in E. left. now exists 0%nat, z.
  - destruct IH as [(j & z' & Hj & Ho)|IH]; [left; now exists (S j), z'|].
    right. intros z' [<-|Hz]; [intros Ho; apply of_id_bool in Ho; congruence|auto].
Qed.
Section LabelProofs.
Context {F : Type} (trap : nat -> F).
Lemma label_get ids : forall i d k, NoDup ids ->
  (forall j z, nth_error ids j = Some z -> of_id k z -> dict_get (label_entries trap i ids d) k = Some (trap (i + j)%nat)) /\
  ((forall z, In z ids -> ~ of_id k z) -> dict_get (label_entries trap i ids d) k = dict_get d k).
Proof.
  induction ids as [|a r IH]; intros i d k Hn; cbn [label_entries].
  { split; [intros [|j] z; discriminate|reflexivity]. }
  inversion_clear Hn as [|? ? Ha Hr].
  destruct (IH (S i) (dict_set (dict_set d (KI a) (trap i)) (KS (str a)) (trap i)) k Hr) as [H1 H2].
  split.
  - intros [|j] z Hj Ho; cbn [nth_error] in Hj.
    + injection Hj as ->. rewrite H2.
      * rewrite !dict_get_set. apply of_id_bool in Ho. rewrite Nat.add_0_r.
        destruct (key_eqb k (KS (str z))); [reflexivity|]. cbn in Ho. now rewrite Ho.
      * intros z' Hz' Ho'. rewrite (of_id_inj k z z' Ho Ho') in Ha. tauto.
    + rewrite (H1 j z Hj Ho). do 2 f_equal. lia.
  - intros Hno. rewrite H2 by (intros z Hz; apply Hno; now right). rewrite !dict_get_set.
    destruct (key_eqb k (KS (str a)) || key_eqb k (KI a))%bool eqn:E.
    + apply of_id_bool in E. elim (Hno a); [now left|assumption].
    + apply orb_false_iff in E as [-> ->]. reflexivity.
Qed.
End LabelProofs.
Lemma component_entries_eq ids : forall i d, component_entries i ids d = label_entries (fun k => k) i ids d.
Proof. induction ids as [|z r IH]; intros i d; cbn; [reflexivity|apply IH]. Qed.

Definition mobile_name (k : key) : Prop := In k [KS "solute"; KS "0"; KI 0].
Lemma not_mobile_name k z : z <> 0%Z -> of_id k z -> ~ mobile_name k.
Proof.
  intros Hz Ho Hm.
  assert (Hs : of_id k z -> k = KS "solute" -> False).
  { intros [->|E] Hk; [discriminate|]. rewrite E in Hk. injection Hk as Hk. revert Hk. now apply str_not. }
  cbn in Hm. destruct Hm as [<-|[<-|[<-|[]]]].
  - now apply Hs.
  - destruct Ho as [E|E]; [discriminate|]. injection E as E. change "0" with (str 0) in E. apply str_inj in E. congruence.
  - destruct Ho as [E|E]; [injection E as E; congruence|discriminate].
Qed.
Lemma component_get ids k c : NoDup ids -> ~ In 0%Z ids ->
  (dict_get (field_to_component ids) k = Some c <->
   match c with
   | 0%nat => mobile_name k
   | S i => exists z, nth_error ids i = Some z /\ of_id k z
   end).
Proof.
  intros Hn H0. unfold field_to_component. rewrite component_entries_eq.
  match goal with |- context [label_entries _ _ _ ?x] => set (d := x) end.
  destruct (label_get (fun k => k) ids 1 d k Hn) as [H1 H2].
  destruct (of_id_dec k ids) as [(j & z & Hj & Ho)|Hno].
  - rewrite (H1 j z Hj Ho). cbn [Nat.add]. split.
    + intros [= <-]. eauto.
    + destruct c as [|i].
      * intros Hm. elim (not_mobile_name k z); [|assumption..]. intros ->. apply H0. now apply nth_error_In in Hj.
      * intros (z' & Hz' & Ho'). do 2 f_equal. rewrite (of_id_inj k _ _ Ho' Ho) in Hz'.
        rewrite NoDup_nth_error' in Hn. now apply (Hn j i z).
  - rewrite (H2 Hno). split.
    + unfold d. cbn [dict_get].
      destruct (key_eqb k (KS "solute")) eqn:E1; [apply key_eqb_eq in E1; subst; intros [= <-]; now left|].
      destruct (key_eqb k (KS "0")) eqn:E2; [apply key_eqb_eq in E2; subst; intros [= <-]; now (right; left)|].
      destruct (key_eqb k (KI 0)) eqn:E3; [apply key_eqb_eq in E3; subst; intros [= <-]; now (right; right; left)|].
      discriminate.
    + destruct c as [|i].
      * intros [<-|[<-|[<-|[]]]]; reflexivity.
      * intros (z & Hz & Ho). elim (Hno z); [now apply nth_error_In in Hz|assumption].
Qed.

(** The species that receives an initial condition, exactly. *)
Lemma initialised_ok ids k sp : NoDup ids -> ~ In 0%Z ids ->
  (initialised ids k = Ok sp <->
   match sp with
   | Mobile => mobile_name k
   | Temp => False
   | Trap p => exists i z, nth_error ids i = Some z /\ of_id k z /\ get_trap ids (Z.of_nat (S i)) = Ok p
   end).
Proof.
  intros Hn H0. unfold initialised. destruct (dict_get (field_to_component ids) k) as [[|c]|] eqn:E.
  - apply component_get in E; [|assumption..]. split.
    + intros [= <-]. assumption.
    + destruct sp as [| |p]; [reflexivity|tauto|].
      intros (i & z & Hi & Ho & _). elim (not_mobile_name k z); [|assumption..]. intros ->. apply H0. now apply nth_error_In in Hi.
  - apply component_get in E; [|assumption..]. destruct E as (z & Hz & Ho). split.
    + destruct (get_trap ids (Z.of_nat (S c))) as [p|] eqn:Eg; [|discriminate]. cbn [bind]. intros [= <-]. eauto.
    + destruct sp as [| |p]; [|tauto|].
      * intros Hm. elim (not_mobile_name k z); [|assumption..]. intros ->. apply H0. now apply nth_error_In in Hz.
      * intros (i & z' & Hi & Ho' & Hg). rewrite (of_id_inj k _ _ Ho' Ho) in Hi.
        rewrite NoDup_nth_error' in Hn. rewrite <- (Hn i c z Hi Hz). now rewrite Hg.
  - split; [discriminate|]. intros H. exfalso. destruct sp as [| |p]; [|assumption|].
    + enough (dict_get (field_to_component ids) k = Some 0%nat) by congruence. now apply component_get.
    + destruct H as (i & z & Hi & Ho & _).
      enough (dict_get (field_to_component ids) k = Some (S i)) by congruence. apply component_get; eauto.
Qed.

Lemma positional_good ids : positional ids -> NoDup ids /\ ~ In 0%Z ids.
Proof.
  intros H. split.
  - apply NoDup_nth_error'. intros i j x Hi Hj. apply H in Hi, Hj. lia.
  - intros Hi. apply In_nth_error in Hi as [i Hi]. apply H in Hi. lia.
Qed.
Lemma names_initialised ids k sp : positional ids -> (initialised ids k = Ok sp <-> names ids k sp).
Proof.
  intros Hp. destruct (positional_good ids Hp) as [Hn H0]. rewrite initialised_ok by assumption.
  destruct sp as [| |p]; cbn [names]; [reflexivity..|].
  assert (Hg : forall i z, nth_error ids i = Some z -> get_trap ids (Z.of_nat (S i)) = Ok (S i)).
  { intros i z Hi. apply get_trap_spec; [assumption|]. rewrite Hi. f_equal. now apply Hp. }
  split.
  - intros (i & z & Hi & Ho & E). rewrite (Hg i z Hi) in E. injection E as <-. exists i, z. auto.
  - intros (i & z & -> & Hi & Ho). exists i, z. split; [assumption|]. split; [assumption|]. now apply (Hg i z).
Qed.
Lemma initial_loop_app {V} ids (l1 l2 : list (key * V)) : forall s,
  initial_loop ids s (l1 ++ l2)%list = let! s' := initial_loop ids s l1 in initial_loop ids s' l2.
Proof.
  induction l1 as [|[k v] r IH]; intros s; cbn [initial_loop app bind]; [reflexivity|].
  destruct (initialised ids k); cbn [bind]; [apply IH|reflexivity].
Qed.
Lemma initial_named {V} ids (l : list (key * V)) : positional ids -> forall s,
  initialise_concentrations ids l = Ok s -> forall sp, last_named ids sp l (s sp).
Proof.
  intros Hp. induction l as [|[k v] l IH] using rev_ind; unfold initialise_concentrations in *; intros s H sp.
  - injection H as <-. constructor.
  - rewrite initial_loop_app in H. destruct (initial_loop ids _ l) as [s1|] eqn:E; [|discriminate].
    cbn [bind initial_loop] in H. destruct (initialised ids k) as [x|] eqn:Ex; [|discriminate].
    cbn [bind] in H. injection H as <-. unfold set_initial.
    apply names_initialised in Ex; [|assumption]. destruct (species_dec sp x) as [->|Hd].
    + apply ln_new with (o := s1 x); [now apply IH|assumption].
    + apply ln_old; [now apply IH|]. intros Hk.
      apply names_initialised in Hk, Ex; [|assumption..]. congruence.
Qed.
Lemma initial_success {V} ids (l : list (key * V)) : positional ids -> forall s,
  (exists s', initial_loop ids s l = Ok s') <-> Forall (fun kv => exists sp, names ids (fst kv) sp) l.
Proof.
  intros Hp. induction l as [|[k v] r IH]; intros s; cbn [initial_loop]; [split; [constructor|eauto]|].
  split.
  - intros [s' H]. destruct (initialised ids k) as [x|] eqn:Ex; [|discriminate]. cbn [bind] in H.
    constructor; [exists x; now apply names_initialised|]. apply (IH (set_initial s x v)). eauto.
  - intros H. inversion_clear H as [|? ? [sp Hk] Hr]. cbn [fst] in Hk.
    apply names_initialised in Hk; [|assumption]. rewrite Hk. cbn [bind]. now apply IH.
Qed.

(** * Adsorbed species *)
Lemma combine_seq_nth {A} (l : list A) : forall s p,
  In p (combine (seq s (length l)) l) <-> exists k, fst p = (s + k)%nat /\ nth_error l k = Some (snd p).
Proof.
  induction l as [|x r IH]; intros s p; cbn [length seq combine In].
  - split; [tauto|]. intros (k & _ & H). now destruct k.
  - rewrite IH. split.
    + intros [<-|(k & H1 & H2)]; [exists 0%nat; cbn; auto|exists (S k)]. split; [lia|auto].
    + intros (k & H1 & H2). destruct k as [|k]; [left|right; exists k; split; [lia|auto]].
      cbn in H2. injection H2 as ->. destruct p as [a b]. cbn in *. f_equal. lia.
Qed.
Lemma in_label_adsorbed {F} (read : slot -> F) surfaces sols surfs :
  In (sols, surfs) (label_adsorbed read surfaces) <->
  exists j, nth_error surfaces j = Some surfs /\ sols = map (fun i => read (SlotAdsorbed j i)) (seq 0 (length surfs)).
Proof.
  unfold label_adsorbed. rewrite in_map_iff. split.
  - intros ([j l] & [= <- <-] & Hin). apply combine_seq_nth in Hin as (k & Hk & Hn). cbn in *. subst. eauto.
  - intros (j & Hj & ->). exists (j, surfs). split; [reflexivity|]. apply combine_seq_nth. exists j. auto.
Qed.
