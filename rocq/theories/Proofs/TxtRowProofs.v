(** Lemmas on the selection of the rows of a TXTExport. *)
From Coq Require Import QArith Qabs List Bool Lia Lqa String Sorting.Permutation PeanoNat.
From Verif Require Import Base.Exc Base.Num Model.Materials Model.Mesh1D Model.TxtRows Spec.MeshSpec Spec.TxtRowSpec
  Proofs.NumQ Proofs.MaterialProofs.
Import ListNotations.
Local Open Scope Q_scope.
Local Notation length := List.length.

Lemma mem_In i l : mem i l = true <-> In i l.
Proof.
  unfold mem. rewrite existsb_exists. split.
  - intros (j & J & E). apply Nat.eqb_eq in E. subst. exact J.
  - intros H. exists i. split; [exact H | apply Nat.eqb_refl].
Qed.

(** argmin *)
Lemma argmin_from_spec (l : list Q) : forall pre bi bv,
  (bi < length pre)%nat -> nth bi pre 0 = bv ->
  (forall j, (j < length pre)%nat -> bv <= nth j pre 0) ->
  let c := argmin_from (bi, bv) (length pre) l in
  (c < length (pre ++ l))%nat /\
  forall j, (j < length (pre ++ l))%nat -> nth c (pre ++ l) 0 <= nth j (pre ++ l) 0.
Proof.
  induction l as [|a r IH]; intros pre bi bv B V M; cbn.
  - rewrite app_nil_r. split; [exact B|]. rewrite V. exact M.
  - assert (E : (pre ++ a :: r = (pre ++ [a]) ++ r)%list) by (rewrite <- app_assoc; reflexivity).
    assert (L : S (length pre) = length (pre ++ [a])) by (rewrite app_length; cbn; lia).
    rewrite E, L. cbn in L.
    destruct (Qltb a bv) eqn:T.
    + apply Qltb_true in T. apply IH.
      * rewrite <- L. lia.
      * rewrite app_nth2, Nat.sub_diag by lia. reflexivity.
      * intros j J. destruct (Nat.eq_dec j (length pre)) as [->|NE].
        -- rewrite app_nth2, Nat.sub_diag by lia. cbn. lra.
        -- rewrite app_nth1 by lia. specialize (M j ltac:(lia)). lra.
    + apply Qltb_false in T. apply IH.
      * lia.
      * rewrite app_nth1 by lia. exact V.
      * intros j J. destruct (Nat.eq_dec j (length pre)) as [->|NE].
        -- rewrite app_nth2, Nat.sub_diag by lia. cbn. exact T.
        -- rewrite app_nth1 by lia. apply M. lia.
Qed.

Lemma argmin_spec (l : list Q) c : argmin l = Ok c ->
  (c < length l)%nat /\ forall j, (j < length l)%nat -> nth c l 0 <= nth j l 0.
Proof.
  destruct l as [|a r]; cbn; [discriminate|]. intros H. injection H as <-.
  apply (argmin_from_spec r [a] 0%nat a); cbn; [lia | reflexivity |].
  intros [|j] J; [lra | lia].
Qed.

Lemma where_eq_In (v : Q) l : forall k i,
  In i (where_eq v k l) <-> (k <= i < k + length l)%nat /\ nth (i - k) l 0 == v.
Proof.
  induction l as [|a r IH]; intros k i; cbn; [split; [tauto | lia]|].
  assert (S1 : In i (where_eq v (S k) r) <->
               (S k <= i < k + S (length r))%nat /\ nth (i - k) (a :: r) 0 == v).
  { rewrite IH. split; intros [I V]; (split; [lia|]).
    - replace (i - k)%nat with (S (i - S k)) by lia. exact V.
    - replace (i - k)%nat with (S (i - S k)) in V by lia. exact V. }
  destruct (Qeq_bool a v) eqn:E.
  - apply Qeqb_true in E. cbn. rewrite S1. split.
    + intros [<-|[I V]].
      * rewrite Nat.sub_diag. split; [lia | exact E].
      * split; [lia | exact V].
    + intros [I V]. destruct (Nat.eq_dec k i) as [|NE]; [left; assumption | right].
      split; [lia | exact V].
  - apply Qeqb_false in E. rewrite S1. split; intros [I V].
    + split; [lia | exact V].
    + split; [|exact V]. destruct (Nat.eq_dec k i) as [->|NE]; [|lia].
      rewrite Nat.sub_diag in V. contradiction.
Qed.

Lemma first_indices_In l : forall seen k i,
  In i (first_indices (A:=Q) seen k l) <->
  (k <= i < k + length l)%nat /\
  (forall s, In s seen -> ~ s == nth (i - k) l 0) /\
  (forall j, (k <= j < i)%nat -> ~ nth (j - k) l 0 == nth (i - k) l 0).
Proof.
  induction l as [|a r IH]; intros seen k i; cbn [first_indices length]; [split; [intros [] | lia]|].
  destruct (existsb (fun s => neqb s a) seen) eqn:E; cbn in E.
  - apply existsb_exists in E as (s & Is & Es). apply Qeqb_true in Es. rewrite IH.
    split; intros (I & F & G).
    + split; [lia|]. replace (i - k)%nat with (S (i - S k)) by lia. cbn [nth].
      split; [exact F|]. intros j J. destruct (Nat.eq_dec j k) as [->|NE].
      * rewrite Nat.sub_diag. cbn. intros Q1. apply (F s Is). rewrite Es. exact Q1.
      * replace (j - k)%nat with (S (j - S k)) by lia. cbn. apply G. lia.
    + destruct (Nat.eq_dec i k) as [->|NE].
      { exfalso. rewrite Nat.sub_diag in F. apply (F s Is). exact Es. }
      replace (i - k)%nat with (S (i - S k)) in F, G by lia. cbn [nth] in F, G.
      split; [lia|]. split; [exact F|]. intros j J. specialize (G j ltac:(lia)).
      replace (j - k)%nat with (S (j - S k)) in G by lia. exact G.
  - assert (NS : forall s, In s seen -> ~ s == a).
    { intros s Is Es. assert (existsb (fun s => Qeq_bool s a) seen = true); [|congruence].
      apply existsb_exists. exists s. split; [exact Is|]. apply Qeqb_true. exact Es. }
    cbn [In]. rewrite IH. split.
    + intros [<-|(I & F & G)].
      * rewrite Nat.sub_diag. split; [lia|]. split; [exact NS | lia].
      * split; [lia|]. replace (i - k)%nat with (S (i - S k)) by lia. cbn [nth].
        split; [intros s Is; apply F; right; exact Is|].
        intros j J. destruct (Nat.eq_dec j k) as [->|NE].
        -- rewrite Nat.sub_diag. cbn. apply F. left. reflexivity.
        -- replace (j - k)%nat with (S (j - S k)) by lia. cbn. apply G. lia.
    + intros (I & F & G). destruct (Nat.eq_dec k i) as [|NE]; [left; assumption | right].
      replace (i - k)%nat with (S (i - S k)) in F, G by lia. cbn [nth] in F, G.
      split; [lia|]. split.
      * intros s [<-|Is]; [|apply F; exact Is].
        specialize (G k ltac:(lia)). rewrite Nat.sub_diag in G. exact G.
      * intros j J. specialize (G j ltac:(lia)).
        replace (j - k)%nat with (S (j - S k)) in G by lia. exact G.
Qed.

Lemma first_indices_0 (x : list Q) i :
  In i (first_indices [] 0 x) <->
  (i < length x)%nat /\ forall j, (j < i)%nat -> ~ nth j x 0 == nth i x 0.
Proof.
  rewrite first_indices_In, Nat.sub_0_r. split.
  - intros (I & _ & G). split; [lia|]. intros j J. specialize (G j ltac:(lia)).
    rewrite Nat.sub_0_r in G. exact G.
  - intros (I & G). split; [lia|]. split; [intros s []|]. intros j J. rewrite Nat.sub_0_r. apply G. lia.
Qed.

Lemma map_dist_nth (x : list Q) b j : (j < length x)%nat ->
  nth j (map (fun a => Qabs (a - b)) x) 0 = Qabs (nth j x 0 - b).
Proof.
  intros J. rewrite nth_indep with (d' := Qabs (0 - b)) by (rewrite map_length; exact J).
  exact (map_nth (fun a => Qabs (a - b)) x 0 j).
Qed.

Lemma argmin_nearest (x : list Q) b c :
  argmin (map (fun a => Qabs (a - b)) x) = Ok c -> (c < length x)%nat /\ nearest x b (nth c x 0).
Proof.
  intros H. apply argmin_spec in H as [C M]. rewrite map_length in C, M. split; [exact C|]. split.
  - exists c. split; [exact C | reflexivity].
  - intros j J. specialize (M j J). rewrite !map_dist_nth in M by assumption. exact M.
Qed.

Lemma border_indices_sound (x bs : list Q) bi i :
  border_indices x bs = Ok bi -> In i bi ->
  (i < length x)%nat /\ exists b, In b bs /\ nearest x b (nth i x 0).
Proof.
  revert bi. induction bs as [|b r IH]; intros bi H I; cbn in H.
  - injection H as <-. destruct I.
  - destruct (argmin _) as [c|] eqn:C in H; [|discriminate]. cbn in H.
    destruct (border_indices x r) as [rest|] eqn:R; [|discriminate]. cbn in H. injection H as <-.
    apply argmin_nearest in C as [C NC]. apply in_app_or in I as [I|I].
    + apply where_eq_In in I as [I V]. rewrite Nat.sub_0_r in V. split; [lia|].
      exists b. split; [left; reflexivity|]. split.
      * exists i. split; [lia | reflexivity].
      * intros j J. rewrite V. apply NC. exact J.
    + destruct (IH _ eq_refl I) as (L & b' & B & NB). split; [exact L|]. exists b'. split; [right|]; assumption.
Qed.

Lemma border_indices_complete (x bs : list Q) bi b i :
  border_indices x bs = Ok bi -> In b bs -> (i < length x)%nat -> nth i x 0 == b -> In i bi.
Proof.
  revert bi. induction bs as [|b0 r IH]; intros bi H I L V; cbn in H; [destruct I|].
  destruct (argmin _) as [c|] eqn:C in H; [|discriminate]. cbn in H.
  destruct (border_indices x r) as [rest|] eqn:R; [|discriminate]. cbn in H. injection H as <-.
  apply in_or_app. destruct I as [->|I]; [left | right; eapply IH; eauto].
  apply argmin_nearest in C as [C [_ M]]. apply where_eq_In. rewrite Nat.sub_0_r. split; [lia|].
  specialize (M i L). rewrite V in M. setoid_replace (b - b) with 0 in M by ring. change (Qabs 0) with 0 in M.
  rewrite V. change (nth c x n0) with (nth c x 0). apply Qabs_Qle_condition in M. lra.
Qed.

Lemma border_indices_total (x bs : list Q) : x <> [] -> exists bi, border_indices x bs = Ok bi.
Proof.
  intros X. induction bs as [|b r (bi & IH)]; cbn; [eexists; reflexivity|].
  destruct x as [|a x']; [contradiction|]. cbn [map argmin bind]. rewrite IH. cbn. eexists. reflexivity.
Qed.

Section Rows.
Context {P : Type}.
Local Notation material := (material (A:=Q) P).

Lemma border_items_ends (ms : list material) b :
  In b (flat_map flatten (flat_map border_items ms)) <-> border_end ms b.
Proof.
  rewrite in_flat_map. unfold border_end. split.
  - intros (it & I & F). apply in_flat_map in I as (m & M & I). exists m. split; [exact M|].
    unfold border_items in I. destruct (m_borders m) as [|[lo hi]|l] eqn:B; [destruct I | left | right].
    + exists lo, hi. split; [reflexivity|]. destruct I as [<-|[<-|[]]]; cbn in F; intuition auto.
    + apply in_map_iff in I as ([lo hi] & <- & I). cbn in F. exists l, lo, hi. intuition auto.
  - intros (m & M & [(lo & hi & B & E)|(l & lo & hi & B & I & E)]).
    + exists (INum b). split; [|left; reflexivity]. apply in_flat_map. exists m. split; [exact M|].
      unfold border_items. rewrite B. cbn. destruct E as [-> | ->]; auto.
    + exists (IPair (lo, hi)). split; [|cbn; intuition auto]. apply in_flat_map. exists m. split; [exact M|].
      unfold border_items. rewrite B. apply in_map. exact I.
Qed.

Lemma np_borders_ok (l : list (item (A:=Q))) bs : np_borders l = Ok bs -> bs = flat_map flatten l.
Proof. unfold np_borders. destruct (_ || _); intros H; [injection H as <-; reflexivity | discriminate]. Qed.

Lemma np_borders_uniform (ms : list material) :
  uniform_borders ms <-> exists bs, np_borders (flat_map border_items ms) = Ok bs.
Proof.
  unfold np_borders. split.
  - intros U. assert (E : (forallb is_num (flat_map border_items ms)
             || forallb (fun i => negb (is_num i)) (flat_map border_items ms))%bool = true).
    { apply orb_true_iff. destruct U as [U|U]; [right | left]; apply forallb_forall; intros it I;
        apply in_flat_map in I as (m & M & I); unfold border_items in I;
        destruct (m_borders m) as [|[lo hi]|l] eqn:B; try destruct I.
      - exfalso. exact (U m _ M B).
      - exfalso. exact (U m _ M B).
      - apply in_map_iff in I as (b & <- & _). reflexivity.
      - subst. reflexivity.
      - destruct H as [<-|[]]. reflexivity.
      - rewrite (U m l M B) in I. destruct I. }
    rewrite E. eexists. reflexivity.
  - intros (bs & H). destruct (_ || _)%bool eqn:E; [|discriminate]. apply orb_true_iff in E as [E|E];
      rewrite forallb_forall in E; [right | left].
    + intros m l M B. destruct l as [|b r]; [reflexivity|]. specialize (E (IPair b)).
      cbn in E. discriminate E. apply in_flat_map. exists m. split; [exact M|].
      unfold border_items. rewrite B. left. reflexivity.
    + intros m [lo hi] M B. specialize (E (INum lo)). cbn in E. discriminate E.
      apply in_flat_map. exists m. split; [exact M|]. unfold border_items. rewrite B. left. reflexivity.
Qed.

Lemma border_end_borders_of (ms : list material) b :
  border_end ms b <-> exists p, In p (flat_map borders_of ms) /\ (b = fst p \/ b = snd p).
Proof.
  unfold border_end. split.
  - intros (m & M & [(lo & hi & B & E)|(l & lo & hi & B & I & E)]); exists (lo, hi); (split; [|exact E]);
      apply in_flat_map; exists m; (split; [exact M|]); unfold borders_of; rewrite B; [left; reflexivity | exact I].
  - intros ([lo hi] & I & E). apply in_flat_map in I as (m & M & I). exists m. split; [exact M|].
    unfold borders_of in I. destruct (m_borders m) as [|[lo' hi']|l] eqn:B; [destruct I | left | right].
    + destruct I as [I|[]]. injection I as -> ->. exists lo, hi. auto.
    + exists l, lo, hi. auto.
Qed.

(** In a chain of matching borders, every end but the first and the last is shared. *)
Lemma matching_junction (l : list (Q * Q)) : forall b u p c,
  check_matching (b :: l) = Ok u -> In p (b :: l) -> (c == fst p \/ c == snd p) ->
  c == fst b \/ c == snd (last (b :: l) b) \/
  exists b1 b2 rest, Permutation (b :: l) (b1 :: b2 :: rest) /\ snd b1 == c /\ fst b2 == c.
Proof.
  induction l as [|d r IH]; intros b u p c H I E.
  - destruct I as [<-|[]]. cbn. tauto.
  - apply check_matching_cons in H as [J H].
    assert (LL : last (b :: d :: r) b = last (d :: r) d).
    { change (last (b :: d :: r) b) with (last (d :: r) b). clear. revert d b.
      induction r as [|e r IH]; intros d b; [reflexivity|].
      change (last (d :: e :: r) b) with (last (e :: r) b). change (last (d :: e :: r) d) with (last (e :: r) d).
      rewrite (IH e b), (IH e d). reflexivity. }
    destruct I as [<-|I].
    + destruct E as [E|E]; [left; exact E|]. right. right. exists b, d, r.
      split; [reflexivity|]. split; [symmetry; exact E|]. rewrite <- J. symmetry. exact E.
    + destruct (IH d u p c H I E) as [F|[F|(b1 & b2 & rest & PM & F & G)]].
      * right. right. exists b, d, r. split; [reflexivity|]. split; [rewrite J|]; symmetry; exact F.
      * right. left. rewrite LL. exact F.
      * right. right. exists b1, b2, (b :: rest). split; [|split; assumption].
        rewrite PM. rewrite perm_swap. rewrite (perm_swap b2 b rest). reflexivity.
Qed.

Lemma check_borders_junction (ms : list material) size v c :
  check_borders ms size = Ok v -> (exists b, border_end ms b /\ c == b) ->
  c == 0 \/ c == size \/ junction ms c.
Proof.
  intros H (b & B & E). apply border_end_borders_of in B as (p & I & F).
  apply check_borders_ok in H as (_ & b0 & r & S0 & Z0 & (u & M) & SZ).
  pose proof (sort_borders_perm (flat_map borders_of ms)) as PM. rewrite S0 in PM.
  assert (I' : In p (b0 :: r)) by (eapply Permutation_in; eauto).
  destruct (matching_junction r b0 u p c M I') as [G|[G|(b1 & b2 & rest & PR & G1 & G2)]].
  - destruct F as [<-|<-]; auto.
  - left. rewrite G. exact Z0.
  - right. left. rewrite G. exact SZ.
  - right. right. exists b1, b2, rest. split; [|split; assumption]. rewrite PM. exact PR.
Qed.

(** The selected indices: a sublist of [order] decided by a test. *)
Lemma unique_indices_filter dg flt (ms : option (list material)) x order idx :
  unique_indices dg flt ms x order = Ok idx -> exists t, idx = List.filter t order /\
  (forall i, (i < length x)%nat -> (forall j, (j < i)%nat -> ~ nth j x 0 == nth i x 0) -> t i = true).
Proof.
  unfold unique_indices. destruct (dg && flt)%bool.
  - destruct ms as [ms|]; [|discriminate].
    destruct (np_borders _) as [bs|]; [|discriminate]. cbn.
    destruct (border_indices x bs) as [bi|]; [|discriminate]. cbn. intros H. injection H as <-.
    eexists. split; [reflexivity|]. intros i I F. cbn. apply orb_true_iff. left. apply mem_In.
    apply first_indices_0. split; assumption.
  - intros H. injection H as <-. exists (fun _ => true). split; [|reflexivity].
    symmetry. clear. induction order as [|a r IH]; [reflexivity|]. cbn. f_equal. exact IH.
Qed.

(** The first dof at a given coordinate. *)
Lemma first_occurrence (x : list Q) i : (i < length x)%nat ->
  exists k, (k <= i)%nat /\ nth k x 0 == nth i x 0 /\ forall j, (j < k)%nat -> ~ nth j x 0 == nth k x 0.
Proof.
  induction i as [i IH] using lt_wf_ind. intros L.
  destruct (existsb (fun j => Qeq_bool (nth j x 0) (nth i x 0)) (seq 0 i)) eqn:E.
  - apply existsb_exists in E as (j & J & V). apply in_seq in J. apply Qeqb_true in V.
    destruct (IH j ltac:(lia) ltac:(lia)) as (k & K & VK & F). exists k. split; [lia|].
    split; [rewrite VK; exact V | exact F].
  - exists i. split; [lia|]. split; [reflexivity|]. intros j J V.
    assert (existsb (fun j => Qeq_bool (nth j x 0) (nth i x 0)) (seq 0 i) = true); [|congruence].
    apply existsb_exists. exists j. split; [apply in_seq; lia|]. apply Qeqb_true. exact V.
Qed.

(** Sorted indices stay sorted when some are dropped. *)
Lemma sorted_filter (f : nat -> Q) (t : nat -> bool) (order : list nat) :
  (forall r s, (r <= s < length order)%nat -> f (nth r order 0%nat) <= f (nth s order 0%nat)) ->
  forall r s, (r <= s < length (filter t order))%nat ->
  f (nth r (filter t order) 0%nat) <= f (nth s (filter t order) 0%nat).
Proof.
  induction order as [|a o IH]; intros H r s L; [cbn in L; lia|].
  assert (H' : forall r s, (r <= s < length o)%nat -> f (nth r o 0%nat) <= f (nth s o 0%nat)).
  { intros r' s' L'. exact (H (S r') (S s') ltac:(cbn; lia)). }
  cbn in L |- *. destruct (t a) eqn:T; [|apply (IH H'); exact L].
  cbn in L. destruct r as [|r], s as [|s]; cbn; try lra; try lia.
  - assert (I : In (nth s (filter t o) 0%nat) o).
    { assert (I : In (nth s (filter t o) 0%nat) (filter t o)) by (apply nth_In; lia).
      apply filter_In in I. exact (proj1 I). }
    apply (In_nth _ _ 0%nat) in I as (k & K & <-). exact (H 0%nat (S k) ltac:(cbn; lia)).
  - apply (IH H'). lia.
Qed.
End Rows.
