(** check_borders accepts exactly the borders that follow each other from 0 to size. *)
From Coq Require Import ZArith QArith List Bool Lia Lqa String Sorted Permutation.
From Verif Require Import Base.Exc Base.Num Model.Materials Model.Mesh1D Spec.MeshSpec Proofs.NumQ Proofs.MaterialProofs.
Import ListNotations.
Local Open Scope Q_scope.
Local Notation length := List.length.

Lemma last_any {B} (l : list B) a d d' : last (a :: l) d = last (a :: l) d'.
Proof. revert a. induction l as [|b r IH]; intros a; [reflexivity|]. apply (IH b). Qed.

Lemma chain_eq bs : forall a a' z z', a == a' -> z == z' -> chain a bs z -> chain a' bs z'.
Proof.
  induction bs as [|b r IH]; intros a a' z z' Ha Hz; cbn [chain]; [lra|].
  intros [H1 H2]. split; [lra|]. eapply IH; [reflexivity|exact Hz|exact H2].
Qed.
Lemma matching_chain (l : list (Q * Q)) : forall b z,
  (exists u, check_matching (b :: l) = Ok u) /\ snd (last (b :: l) b) == z <-> chain (fst b) (b :: l) z.
Proof.
  induction l as [|c r IH]; intros b z.
  - cbn [check_matching last chain]. split; [intros [_ H]; split; [reflexivity|lra]|]. intros [_ H]. split; [eauto|lra].
  - change (last (b :: c :: r) b) with (last (c :: r) b). rewrite (last_any r c b c). split.
    + intros [(u & Hm) Hl]. apply check_matching_cons in Hm as [He Hm].
      destruct (proj1 (IH c z)) as [H1 H2]; [split; [eauto|assumption]|].
      cbn [chain]. split; [reflexivity|]. split; [lra|]. exact H2.
    + intros [_ [He H2]]. cbn [check_matching]. rewrite (proj2 (neqb_true (snd b) (fst c))) by lra.
      destruct (proj2 (IH c z)) as [(u & Hm) Hl]; [split; [reflexivity|exact H2]|].
      split; [|exact Hl]. exists u. exact Hm.
Qed.
Lemma matching_err (l : list (Q * Q)) e : check_matching l = Err e -> exists msg, e = ValueError msg.
Proof.
  induction l as [|b [|c r] IH]; cbn [check_matching]; try discriminate.
  destruct (neqb (snd b) (fst c)); [exact IH|]. intros [= <-]. eauto.
Qed.

Definition fst_lt (b c : Q * Q) : Prop := fst b < fst c.
Lemma chain_sorted bs : forall a z, (forall b, In b bs -> fst b < snd b) -> chain a bs z ->
  StronglySorted fst_lt bs /\ forall b, In b bs -> a <= fst b.
Proof.
  induction bs as [|b r IH]; intros a z Hp; cbn [chain]; [split; [constructor|intros ? []]|].
  intros [He Hc]. destruct (IH _ _ (fun c Hc => Hp c (or_intror Hc)) Hc) as [Hs Hf].
  assert (Hb : fst b < snd b) by (apply Hp; now left). split.
  - constructor; [assumption|]. apply Forall_forall. intros c Hc'. specialize (Hf c Hc'). unfold fst_lt. lra.
  - intros c [<-|Hc']; [lra|]. specialize (Hf c Hc'). lra.
Qed.
Lemma sorted_unique l1 : forall l2, StronglySorted fst_lt l1 -> StronglySorted fst_le l2 -> Permutation l1 l2 -> l1 = l2.
Proof.
  induction l1 as [|b r IH]; intros l2 H1 H2 Hp.
  - now apply Permutation_nil in Hp.
  - destruct l2 as [|c q]; [apply Permutation_sym, Permutation_nil in Hp; discriminate|].
    inversion H1 as [|? ? Hr Hf]; subst. inversion H2 as [|? ? Hq Hg]; subst. rewrite Forall_forall in Hf, Hg.
    assert (b = c) as ->.
    { assert (Hc : In c (b :: r)) by (apply (Permutation_in c (Permutation_sym Hp)); now left).
      assert (Hb : In b (c :: q)) by (apply (Permutation_in b Hp); now left).
      destruct Hc as [Hc|Hc]; [assumption|]. destruct Hb as [Hb|Hb]; [now symmetry|].
      specialize (Hf c Hc). specialize (Hg b Hb). unfold fst_lt, fst_le in *. lra. }
    f_equal. apply IH; [assumption..|]. now apply Permutation_cons_inv in Hp.
Qed.

Section Mats.
Context {P : Type}.
Local Notation material := (material (A:=Q) P).

Lemma check_borders_tiled (ms : list material) size v : check_borders ms size = Ok v -> tiled ms size.
Proof.
  intros H. apply check_borders_ok in H as (_ & b & r & Es & E0 & Hm & Hsz).
  exists (sort_borders (flat_map borders_of ms)). split; [apply Permutation_sym, sort_borders_perm|].
  rewrite Es. destruct (proj1 (matching_chain r b size)) as [_ H]; [now split|]. split; [lra|exact H].
Qed.
Lemma collect_borders_err (ms : list material) e : collect_borders ms = Err e ->
  exists m, In m ms /\ ((m_borders m = BNone /\ exists msg, e = TypeError msg) \/
                        (m_borders m = BMany [] /\ exists msg, e = IndexError msg)).
Proof.
  induction ms as [|m r IH]; cbn [collect_borders]; [discriminate|]. intros H.
  assert (Hr : forall bs, (let! rest := collect_borders r in Ok (bs ++ rest)%list) = Err e ->
    exists m', In m' (m :: r) /\ ((m_borders m' = BNone /\ exists msg, e = TypeError msg) \/
                        (m_borders m' = BMany [] /\ exists msg, e = IndexError msg))).
  { intros bs Hb. apply bind_err in Hb as [Hb|(x & _ & Hb)]; [|discriminate].
    destruct (IH Hb) as (m' & Hm & H'). exists m'. split; [now right|assumption]. }
  destruct (m_borders m) as [|b|[|b l]] eqn:E; cbn [bind] in H.
  - injection H as <-. exists m. split; [now left|]. left. eauto.
  - now apply Hr in H.
  - injection H as <-. exists m. split; [now left|]. right. eauto.
  - now apply (Hr (b :: l)) in H.
Qed.
Lemma collect_borders_total (ms : list material) : (forall m, In m ms -> borders_of m <> []) ->
  collect_borders ms = Ok (flat_map borders_of ms).
Proof.
  intros Hb. destruct (collect_borders ms) as [bs|e] eqn:E; [now apply collect_borders_ok in E as [-> _]|].
  apply collect_borders_err in E as (m & Hm & H). exfalso. apply (Hb m Hm). unfold borders_of.
  destruct H as [[-> _]|[-> _]]; reflexivity.
Qed.
Lemma tiled_check_borders (ms : list material) size : ms <> [] -> (forall m, In m ms -> borders_of m <> []) ->
  proper_borders ms -> tiled ms size -> check_borders ms size = Ok true.
Proof.
  intros Hne Hb Hp (bs & Hperm & Hc). unfold check_borders. rewrite (collect_borders_total ms Hb). cbn [bind].
  assert (Hbs : forall b, In b bs -> fst b < snd b).
  { intros b Hin. apply (Permutation_in b Hperm), flat_map_in in Hin as (m & Hm & Hin). eapply Hp; eauto. }
  destruct (chain_sorted bs 0 size Hbs Hc) as [Hs _].
  rewrite <- (sorted_unique bs _ Hs (sort_borders_sorted _)) by (etransitivity; [exact Hperm|apply sort_borders_perm]).
  destruct bs as [|b r].
  { exfalso. destruct ms as [|m r]; [easy|]. apply (Hb m (or_introl eq_refl)).
    apply Permutation_nil in Hperm. cbn [flat_map] in Hperm. now apply app_eq_nil in Hperm. }
  destruct Hc as [He Hc]. change (n0 : Q) with (0 : Q).
  rewrite (proj2 (neqb_true (fst b) 0) He). cbn [negb].
  destruct (proj2 (matching_chain r b size)) as [(u & Hm) Hl]; [split; [reflexivity|exact Hc]|].
  rewrite Hm. cbn [bind]. now rewrite (proj2 (neqb_true _ _) Hl).
Qed.
Lemma check_borders_err (ms : list material) size e : ms <> [] -> (forall m, In m ms -> borders_of m <> []) ->
  check_borders ms size = Err e -> exists msg, e = ValueError msg.
Proof.
  intros Hne Hb. unfold check_borders. rewrite (collect_borders_total ms Hb). cbn [bind].
  destruct (sort_borders (flat_map borders_of ms)) as [|b r] eqn:Es.
  { exfalso. destruct ms as [|m r]; [easy|]. apply (Hb m (or_introl eq_refl)).
    pose proof (sort_borders_perm (flat_map borders_of (m :: r))) as Hp. rewrite Es in Hp.
    apply Permutation_sym, Permutation_nil in Hp. cbn [flat_map] in Hp. now apply app_eq_nil in Hp. }
  destruct (negb _); [intros [= <-]; eauto|]. intros H. apply bind_err in H as [H|(u & _ & H)].
  - now apply matching_err in H.
  - destruct (neqb _ _); [discriminate|]. injection H as <-. eauto.
Qed.

(** Marking the cells fails only if the ids do not fit the borders. *)
Lemma find_subdomain_err (ms : list material) x e : find_subdomain_from_x_coordinate ms x = Err e ->
  exists m, In m ms /\ ~ well_shaped m /\ exists msg, e = IndexError msg \/ e = TypeError msg.
Proof.
  induction ms as [|m r IH]; cbn [find_subdomain_from_x_coordinate]; [discriminate|].
  assert (Hr : forall bs subs, match find_border x bs subs with Some s => Ok (IdOne s) | None => find_subdomain_from_x_coordinate r x end = Err e ->
    exists m', In m' (m :: r) /\ ~ well_shaped m' /\ exists msg, e = IndexError msg \/ e = TypeError msg).
  { intros bs subs H. destruct (find_border x bs subs); [discriminate|]. destruct (IH H) as (m' & Hm & H').
    exists m'. split; [now right|assumption]. }
  assert (Hw : forall b, m_borders m = BMany [b] -> ~ well_shaped m).
  { intros b Eb H. unfold well_shaped in H. rewrite Eb in H. destruct (m_id m); cbn in H; lia. }
  destruct (m_borders m) as [|b|[|b [|c l]]] eqn:Eb; [discriminate|..]; cbn [bind].
  - apply Hr.
  - intros [= <-]. exists m. split; [now left|]. split; [|eauto]. unfold well_shaped. rewrite Eb.
    destruct (m_id m); cbn; lia.
  - destruct (m_id m) as [z|[|z l]] eqn:Ei; cbn [bind].
    + intros [= <-]. exists m. split; [now left|]. split; [eauto|]. eauto.
    + apply Hr.
    + intros [= <-]. exists m. split; [now left|]. split; [eauto|]. eauto.
  - apply Hr.
Qed.
Lemma find_subdomain_many (ms : list material) x l : find_subdomain_from_x_coordinate ms x = Ok (IdMany l) ->
  exists m, In m ms /\ ~ well_shaped m.
Proof.
  induction ms as [|m r IH]; cbn [find_subdomain_from_x_coordinate]; [discriminate|].
  assert (Hr : forall bs subs, match find_border x bs subs with Some s => Ok (IdOne s) | None => find_subdomain_from_x_coordinate r x end = Ok (IdMany l) ->
    exists m', In m' (m :: r) /\ ~ well_shaped m').
  { intros bs subs H. destruct (find_border x bs subs); [discriminate|]. destruct (IH H) as (m' & Hm & H').
    exists m'. split; [now right|assumption]. }
  destruct (m_borders m) as [|b|[|b [|c q]]] eqn:Eb; cbn [bind].
  - intros [= Ei]. exists m. split; [now left|]. unfold well_shaped. rewrite Eb, Ei. tauto.
  - apply Hr.
  - discriminate.
  - destruct (m_id m) as [z|[|z q]] eqn:Ei; cbn [bind]; [discriminate|apply Hr|discriminate].
  - apply Hr.
Qed.
Lemma mark_cells_err (ms : list material) xs e : mark_cells ms xs = Err e ->
  exists m, In m ms /\ ~ well_shaped m /\ exists msg, e = IndexError msg \/ e = TypeError msg.
Proof.
  induction xs as [|x r IH]; cbn [mark_cells]; [discriminate|]. intros H.
  apply bind_err in H as [H|(z & _ & H)].
  - unfold cell_marker in H. destruct (find_subdomain_from_x_coordinate ms x) as [[z|l]|e'] eqn:E; cbn [bind] in H.
    + discriminate.
    + injection H as <-. apply find_subdomain_many in E as (m & Hm & Hw). exists m. split; [assumption|]. split; [assumption|]. eauto.
    + injection H as <-. now apply find_subdomain_err in E.
  - apply bind_err in H as [H|(zs & _ & H)]; [auto|discriminate].
Qed.
End Mats.
