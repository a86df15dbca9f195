(** C21: the rows of an exported table (TXTExport.initialise). *)
From Coq Require Import ZArith QArith Qabs List Bool Lia Lqa String Sorting.Permutation PeanoNat.
From Verif Require Import Base.Exc Base.Num Model.Materials Model.Mesh1D Model.TxtRows
  Spec.MeshSpec Spec.TxtRowSpec Proofs.NumQ Proofs.TxtRowProofs.
Import ListNotations.
Local Open Scope Q_scope.
Local Notation length := List.length.

Section Props.
Context {P : Type}.
Local Notation material := (material (A:=Q) P).

(** The x column is non-decreasing, whatever the flags and the order argsort gives to equal coordinates. *)
Theorem C21_sorted dg flt (ms : option (list material)) x order idx :
  argsort x order -> unique_indices dg flt ms x order = Ok idx ->
  forall r s, (r <= s < length (column x idx))%nat ->
  nth r (column x idx) 0 <= nth s (column x idx) 0.
Proof.
  intros [PM SO] H r s L. apply unique_indices_filter in H as (t & -> & _).
  unfold column in *. rewrite map_length in L.
  assert (G : forall k, (k < length (filter t order))%nat ->
            nth k (map (fun i => nth i x n0) (filter t order)) 0 = nth (nth k (filter t order) 0%nat) x 0).
  { intros k K. rewrite nth_indep with (d' := nth 0%nat x n0) by (rewrite map_length; exact K).
    exact (map_nth (fun i => nth i x n0) _ 0%nat k). }
  rewrite !G by lia. exact (sorted_filter (fun i => nth i x 0) t order SO r s L).
Qed.

(** Every coordinate of the mesh is in the table. *)
Theorem C21_complete dg flt (ms : option (list material)) x order idx :
  argsort x order -> unique_indices dg flt ms x order = Ok idx ->
  forall i, (i < length x)%nat -> exists a, In a (column x idx) /\ a == nth i x 0.
Proof.
  intros [PM SO] H i I. apply unique_indices_filter in H as (t & -> & K).
  destruct (first_occurrence x i I) as (k & KI & V & F).
  exists (nth k x 0). split; [|exact V]. unfold column. apply in_map_iff. exists k. split; [reflexivity|].
  apply filter_In. split.
  - apply (Permutation_in _ (Permutation_sym PM)). apply in_seq. lia.
  - apply K; [lia | exact F].
Qed.

(** Without DG or without filter every dof is exactly one row. *)
Theorem C21_all_dofs dg flt (ms : option (list material)) x order idx :
  argsort x order -> (dg = false \/ flt = false) ->
  unique_indices dg flt ms x order = Ok idx -> Permutation idx (seq 0 (length x)).
Proof.
  intros [PM _] D H. unfold unique_indices in H.
  replace (dg && flt)%bool with false in H by (destruct D as [-> | ->]; [|destruct dg]; reflexivity).
  injection H as <-. exact PM.
Qed.

(** A row is a dof of the mesh: never the same dof twice, and the coordinate and the value in a row belong
    to the same dof. *)
Theorem C21_rows dg flt (ms : option (list material)) x u order idx :
  argsort x order -> unique_indices dg flt ms x order = Ok idx ->
  NoDup idx /\
  forall r a v, nth_error (column x idx) r = Some a -> nth_error (column u idx) r = Some v ->
  exists i, (i < length x)%nat /\ nth_error idx r = Some i /\ a = nth i x 0 /\ v = nth i u 0.
Proof.
  intros [PM _] H. apply unique_indices_filter in H as (t & -> & _). split.
  - apply NoDup_filter. apply (Permutation_NoDup (Permutation_sym PM)). apply seq_NoDup.
  - intros r a v A V. unfold column in A, V. rewrite nth_error_map in A, V.
    destruct (nth_error (filter t order) r) as [i|] eqn:E; [|discriminate]. cbn in A, V.
    injection A as <-. injection V as <-. exists i. split; [|auto].
    apply nth_error_In in E. apply filter_In in E as [E _].
    apply (Permutation_in _ PM) in E. apply in_seq in E. lia.
Qed.

(** With filter, two rows have the same coordinate only where that coordinate is the closest of the mesh
    to an end of the borders of a material. *)
Theorem C21_repeats (ms : list material) x order idx i j :
  argsort x order -> unique_indices true true (Some ms) x order = Ok idx ->
  In i idx -> In j idx -> i <> j -> nth i x 0 == nth j x 0 ->
  exists b, border_end ms b /\ nearest x b (nth i x 0).
Proof.
  intros [PM _]. revert i j.
  assert (W : unique_indices true true (Some ms) x order = Ok idx ->
    forall i j, (i < j)%nat -> In i idx -> In j idx -> nth i x 0 == nth j x 0 ->
    exists b, border_end ms b /\ nearest x b (nth j x 0)).
  { intros H i j L I J V. unfold unique_indices in H. cbn [andb] in H.
    destruct (np_borders _) as [bs|] eqn:B; [|discriminate]. cbn in H. apply np_borders_ok in B.
    destruct (border_indices x bs) as [bi|] eqn:BI; [|discriminate]. cbn in H. injection H as <-.
    apply filter_In in J as [_ J]. apply orb_true_iff in J as [J|J]; apply mem_In in J.
    - apply first_indices_0 in J as [_ F]. exfalso. exact (F i L V).
    - destruct (border_indices_sound x bs bi j BI J) as (_ & b & Ib & NB). exists b. split; [|exact NB].
      apply border_items_ends. rewrite <- B. exact Ib. }
  intros i j H I J NE V. destruct (Nat.lt_ge_cases i j) as [L|L].
  - destruct (W H i j L I J V) as (b & B & (_ & M)). exists b. split; [exact B|]. split.
    + exists j. assert (J' := J). apply unique_indices_filter in H as (t & -> & _).
      apply filter_In in J' as [J' _]. apply (Permutation_in _ PM) in J'. apply in_seq in J'.
      split; [lia | symmetry; exact V].
    + intros k K. rewrite V. apply M. exact K.
  - destruct (W H j i ltac:(lia) J I ltac:(symmetry; exact V)) as (b & B & NB). exists b. auto.
Qed.

(** When the borders are vertices of the mesh, have been accepted by check_borders, and the two ends of
    the mesh have one dof each, a coordinate is repeated only where two borders meet. *)
Theorem C21_interfaces (ms : list material) size v x order idx i j :
  argsort x order -> unique_indices true true (Some ms) x order = Ok idx ->
  borders_on_mesh ms x -> check_borders ms size = Ok v -> single x 0 -> single x size ->
  In i idx -> In j idx -> i <> j -> nth i x 0 == nth j x 0 -> junction ms (nth i x 0).
Proof.
  intros AS H BM CB S0 S1 I J NE V.
  destruct (C21_repeats ms x order idx i j AS H I J NE V) as (b & B & ((k & K & VK) & M)).
  destruct (BM b B) as (l & L & VL).
  assert (E : nth i x 0 == b).
  { specialize (M l L). rewrite VL in M. setoid_replace (b - b) with 0 in M by ring.
    change (Qabs 0) with 0 in M. apply Qabs_Qle_condition in M. lra. }
  destruct AS as [PM _].
  assert (R : forall r, In r idx -> (r < length x)%nat).
  { intros r Ir. apply unique_indices_filter in H as (t & -> & _). apply filter_In in Ir as [Ir _].
    apply (Permutation_in _ PM) in Ir. apply in_seq in Ir. lia. }
  destruct (check_borders_junction ms size v (nth i x 0) CB) as [Z|[Z|Z]]; [exists b; auto | | | exact Z];
    exfalso; apply NE; [apply S0 | apply S1]; auto; rewrite <- V; exact Z.
Qed.

(** At a border on the mesh every dof is kept: both sides of an interface appear. *)
Theorem C21_both_sides (ms : list material) x order idx b i :
  argsort x order -> unique_indices true true (Some ms) x order = Ok idx ->
  border_end ms b -> (i < length x)%nat -> nth i x 0 == b -> In i idx.
Proof.
  intros [PM _] H B I V. unfold unique_indices in H. cbn [andb] in H.
  destruct (np_borders _) as [bs|] eqn:NB; [|discriminate]. cbn in H. apply np_borders_ok in NB.
  destruct (border_indices x bs) as [bi|] eqn:BI; [|discriminate]. cbn in H. injection H as <-.
  apply filter_In. split.
  - apply (Permutation_in _ (Permutation_sym PM)). apply in_seq. lia.
  - apply orb_true_iff. right. apply mem_In. eapply border_indices_complete; eauto.
    rewrite NB. apply border_items_ends. exact B.
Qed.

(** When it works: exactly when all the materials give their borders in the same form. *)
Theorem C21_succeeds (ms : list material) x order : x <> [] ->
  (exists idx, unique_indices true true (Some ms) x order = Ok idx) <-> uniform_borders ms.
Proof.
  intros X. rewrite np_borders_uniform. unfold unique_indices. cbn [andb]. split.
  - intros (idx & H). destruct (np_borders _) as [bs|]; [eauto | discriminate].
  - intros (bs & ->). cbn. destruct (border_indices_total x bs X) as (bi & ->). cbn. eauto.
Qed.
End Props.

(** Concrete materials and mesh: [0,1] and [1,2], DG1 on 4 cells of length 1/2, dofs cell by cell in
    reversed order. *)
Definition mat (z : Z) (b : borders) : material (A:=Q) unit :=
  mkMaterial (IdOne z) None tt tt None None None None None b None Sievert.
Definition two : list (material (A:=Q) unit) := [mat 1 (BOne (0, 1)); mat 2 (BOne (1, 2))].
Definition dofs : list Q := [2; 3 # 2; 3 # 2; 1; 1; 1 # 2; 1 # 2; 0].
Definition order8 : list nat := [7; 6; 5; 3; 4; 2; 1; 0]%nat.

Ltac argsort_tac :=
  split;
  [ apply NoDup_Permutation;
    [ repeat constructor; cbn; intuition lia | apply seq_NoDup | intros k; cbn; intuition lia ]
  | let r := fresh in let s := fresh in let L := fresh in
    intros r s L; cbn in L;
    do 8 (destruct r as [|r];
          [ do 8 (destruct s as [|s]; [ try lia; vm_compute; discriminate |]); cbn in L; lia |]);
    cbn in L; lia ].

Example C21_dofs_sorted : argsort dofs order8.
Proof. argsort_tac. Qed.

(** Five vertices, six rows: only the interface is repeated. *)
Example C21_two_rows :
  exists idx, unique_indices true true (Some two) dofs order8 = Ok idx /\
  map Qred (column dofs idx) = [0; 1 # 2; 1; 1; 3 # 2; 2].
Proof. eexists. split; [vm_compute; reflexivity | reflexivity]. Qed.

Example C21_two_hypotheses :
  borders_on_mesh two dofs /\ check_borders two 2 = Ok true /\ single dofs 0 /\ single dofs 2 /\
  junction two 1 /\ uniform_borders two.
Proof.
  split; [|split; [reflexivity|split; [|split; [|split]]]].
  - intros b (m & [<-|[<-|[]]] & [(lo & hi & E & F)|(l & lo & hi & E & _)]); cbn in E; try discriminate;
      injection E as <- <-; destruct F as [-> | ->].
    + exists 7%nat. split; [cbn; lia | reflexivity].
    + exists 3%nat. split; [cbn; lia | reflexivity].
    + exists 3%nat. split; [cbn; lia | reflexivity].
    + exists 0%nat. split; [cbn; lia | reflexivity].
  - intros i j I J V W. cbn in I, J.
    do 8 (destruct i as [|i]; [do 8 (destruct j as [|j]; [first [reflexivity | discriminate V | discriminate W]|]); lia|]). lia.
  - intros i j I J V W. cbn in I, J.
    do 8 (destruct i as [|i]; [do 8 (destruct j as [|j]; [first [reflexivity | discriminate V | discriminate W]|]); lia|]). lia.
  - exists (0, 1), (1, 2), []. split; [reflexivity|]. split; reflexivity.
  - right. intros m l [<-|[<-|[]]] E; discriminate E.
Qed.

(** In CG, or without filter, all the rows: each inner vertex twice in DG. *)
Example C21_all_rows :
  unique_indices true false (Some two) dofs order8 = Ok order8 /\
  map Qred (column dofs order8) = [0; 1 # 2; 1 # 2; 1; 1; 3 # 2; 3 # 2; 2].
Proof. split; reflexivity. Qed.

(** The claim "repeated only at an interface" is false without the hypothesis that the borders are
    vertices: with the interface at 9/10 the vertex 1, which is inside the second material, is repeated. *)
Theorem C21_off_mesh_refuted :
  ~ (forall (ms : list (material (A:=Q) unit)) size v x order idx i j,
      argsort x order -> unique_indices true true (Some ms) x order = Ok idx ->
      check_borders ms size = Ok v -> single x 0 -> single x size ->
      In i idx -> In j idx -> i <> j -> nth i x 0 == nth j x 0 -> junction ms (nth i x 0)).
Proof.
  intros H. specialize (H [mat 1 (BOne (0, 9 # 10)); mat 2 (BOne (9 # 10, 2))] 2 true dofs order8
    [7; 5; 3; 4; 1; 0]%nat 3%nat 4%nat C21_dofs_sorted).
  destruct H as (b1 & b2 & rest & PM & E1 & E2).
  - vm_compute. reflexivity.
  - vm_compute. reflexivity.
  - exact (proj1 (proj2 (proj2 C21_two_hypotheses))).
  - exact (proj1 (proj2 (proj2 (proj2 C21_two_hypotheses)))).
  - cbn. tauto.
  - cbn. tauto.
  - discriminate.
  - reflexivity.
  - assert (I : In b1 (flat_map borders_of [mat 1 (BOne (0, 9 # 10)); mat 2 (BOne (9 # 10, 2))])).
    { apply (Permutation_in _ (Permutation_sym PM)). left. reflexivity. }
    cbn in I. destruct I as [<-|[<-|[]]]; discriminate E1.
Qed.

(** Borders that check_borders accepts but that TXTExport.initialise cannot read: one material given as a
    pair, another as a list of pairs. *)
Theorem C21_mixed_refuted :
  exists (ms : list (material (A:=Q) unit)) size x order,
    check_borders ms size = Ok true /\ borders_on_mesh ms x /\ argsort x order /\
    exists msg, unique_indices true true (Some ms) x order = Err (ValueError msg).
Proof.
  exists [mat 1 (BOne (1, 3 # 2)); mat 2 (BMany [(0, 1); (3 # 2, 2)])], 2, dofs, order8.
  split; [reflexivity|]. split; [|split; [exact C21_dofs_sorted | eexists; reflexivity]].
  intros b (m & [<-|[<-|[]]] & [(lo & hi & E & F)|(l & lo & hi & E & I & F)]); cbn in E; try discriminate;
    [injection E as <- <- | injection E as <-; destruct I as [I|[I|[]]]; injection I as <- <-];
    destruct F as [-> | ->].
  - exists 3%nat. split; [cbn; lia | reflexivity].
  - exists 1%nat. split; [cbn; lia | reflexivity].
  - exists 7%nat. split; [cbn; lia | reflexivity].
  - exists 3%nat. split; [cbn; lia | reflexivity].
  - exists 1%nat. split; [cbn; lia | reflexivity].
  - exists 0%nat. split; [cbn; lia | reflexivity].
Qed.

Print Assumptions C21_sorted.
Print Assumptions C21_complete.
Print Assumptions C21_all_dofs.
Print Assumptions C21_rows.
Print Assumptions C21_repeats.
Print Assumptions C21_interfaces.
Print Assumptions C21_both_sides.
Print Assumptions C21_succeeds.
Print Assumptions C21_off_mesh_refuted.
Print Assumptions C21_mixed_refuted.
