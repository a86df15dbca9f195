(** Lemmas about 1D meshes. *)
From Coq Require Import ZArith QArith Qabs List Bool Lia Lqa String Sorted Permutation.
From Verif Require Import Base.Exc Base.Num Model.Stepsize Model.Materials Model.Mesh1D Spec.MeshSpec
  Proofs.NumQ Proofs.TxtRuns Proofs.MaterialProofs.
Import ListNotations.
Local Open Scope Q_scope.
Local Notation length := List.length.

Lemma dedup_cons (a b : Q) r :
  dedup (a :: b :: r) = if neqb a b then dedup (b :: r) else a :: dedup (b :: r).
Proof. reflexivity. Qed.
Lemma dedup_in (l : list Q) y : In y (dedup l) -> In y l.
Proof.
  induction l as [|a r IH]; [tauto|]. destruct r as [|b r]; [tauto|]. rewrite dedup_cons.
  destruct (neqb a b); [intros H; right; now apply IH|].
  intros [->|H]; [now left|right; now apply IH].
Qed.
Lemma in_dedup (l : list Q) : forall x, In x l -> exists y, In y (dedup l) /\ y == x.
Proof.
  induction l as [|a r IH]; intros x H; [now elim H|]. destruct r as [|b r].
  { exists x. split; [exact H|reflexivity]. }
  rewrite dedup_cons. destruct (neqb a b) eqn:E.
  - apply neqb_true in E. destruct H as [->|H]; [|now apply IH].
    destruct (IH b (or_introl eq_refl)) as (y & Hy & Hyb). exists y. split; [exact Hy|lra].
  - destruct H as [->|H].
    + exists x. split; [now left|reflexivity].
    + destruct (IH x H) as (y & Hy & Hyx). exists y. split; [now right|assumption].
Qed.
Lemma dedup_sorted (l : list Q) : StronglySorted Qle l -> StronglySorted Qlt (dedup l).
Proof.
  induction l as [|a r IH]; intros H; [constructor|]. inversion H as [|? ? Hs Hf]; subst.
  destruct r as [|b r]; [repeat constructor|]. rewrite dedup_cons. destruct (neqb a b) eqn:E; [now apply IH|].
  constructor; [now apply IH|]. apply Forall_forall. intros y Hy. apply dedup_in in Hy.
  rewrite Forall_forall in Hf. assert (Hab : a < b).
  { destruct (Qlt_le_dec a b) as [|Hba]; [assumption|]. assert (a <= b) by (apply Hf; now left).
    assert (a == b) by lra. apply neqb_true in H1. congruence. }
  destruct Hy as [->|Hy]; [assumption|]. inversion Hs as [|? ? _ Hf']; subst. rewrite Forall_forall in Hf'.
  specialize (Hf' y Hy). lra.
Qed.
Lemma sorted_lt_le (l : list Q) : StronglySorted Qlt l -> StronglySorted Qle l.
Proof.
  induction 1 as [|a r Hs IH Hf]; constructor; [assumption|].
  eapply Forall_impl; [|exact Hf]. intros x. lra.
Qed.

Definition verts (vs : list Q) : list Q := py_sorted (np_unique vs).
Lemma verts_eq vs : verts vs = np_unique vs.
Proof. unfold verts. apply py_sorted_id, sorted_lt_le, dedup_sorted, py_sorted_ok. Qed.
Lemma verts_sorted vs : StronglySorted Qlt (verts vs).
Proof. rewrite verts_eq. apply dedup_sorted, py_sorted_ok. Qed.
Lemma verts_in vs y : In y (verts vs) -> In y vs.
Proof. rewrite verts_eq. intros H. apply dedup_in in H. now apply (proj1 (sorted_in _ _)) in H. Qed.
Lemma in_verts vs x : In x vs -> exists y, In y (verts vs) /\ y == x.
Proof. rewrite verts_eq. intros H. apply in_dedup. now apply (proj2 (sorted_in _ _)). Qed.

Lemma sorted_nth (l : list Q) : StronglySorted Qlt l -> forall i j a b,
  (i < j)%nat -> nth_error l i = Some a -> nth_error l j = Some b -> a < b.
Proof.
  induction 1 as [|c r Hs IH Hf]; intros [|i] [|j] a b Hij Hi Hj; try discriminate; try lia; cbn in Hi, Hj.
  - injection Hi as <-. rewrite Forall_forall in Hf. apply Hf. eapply nth_error_In; eauto.
  - apply (IH i j); auto. lia.
Qed.
Lemma sorted_nth_le (l : list Q) : StronglySorted Qlt l -> forall i j a b,
  (i <= j)%nat -> nth_error l i = Some a -> nth_error l j = Some b -> a <= b.
Proof.
  intros H i j a b Hij Hi Hj. destruct (Nat.eq_dec i j) as [->|Hne]; [rewrite Hi in Hj; injection Hj as ->; lra|].
  assert (a < b); [|lra]. eapply (sorted_nth l H i j); eauto. lia.
Qed.

(** min and max. *)
Lemma fold_max_spec (r : list Q) : forall a,
  let m := fold_left (fun m x => if nltb m x then x else m) r a in
  In m (a :: r) /\ forall x, In x (a :: r) -> x <= m.
Proof.
  induction r as [|b r IH]; intros a; cbn [fold_left]; [split; [now left|intros x [<-|[]]; lra]|].
  cbv zeta. destruct (nltb a b) eqn:E.
  - apply nltb_true in E. destruct (IH b) as [H1 H2]. cbv zeta in *. split; [now right|].
    intros x [<-|Hx]; [specialize (H2 b (or_introl eq_refl)); lra|auto].
  - apply nltb_false in E. destruct (IH a) as [H1 H2]. cbv zeta in *. split; [destruct H1; [now left|right; now right]|].
    intros x [<-|[<-|Hx]]; [apply H2; now left|specialize (H2 a (or_introl eq_refl)); lra|apply H2; now right].
Qed.
Lemma fold_min_spec (r : list Q) : forall a,
  let m := fold_left (fun m x => if nltb x m then x else m) r a in
  In m (a :: r) /\ forall x, In x (a :: r) -> m <= x.
Proof.
  induction r as [|b r IH]; intros a; cbn [fold_left]; [split; [now left|intros x [<-|[]]; lra]|].
  cbv zeta. destruct (nltb b a) eqn:E.
  - apply nltb_true in E. destruct (IH b) as [H1 H2]. cbv zeta in *. split; [now right|].
    intros x [<-|Hx]; [specialize (H2 b (or_introl eq_refl)); lra|auto].
  - apply nltb_false in E. destruct (IH a) as [H1 H2]. cbv zeta in *. split; [destruct H1; [now left|right; now right]|].
    intros x [<-|[<-|Hx]]; [apply H2; now left|specialize (H2 a (or_introl eq_refl)); lra|apply H2; now right].
Qed.
Lemma py_max_spec (l : list Q) m : py_max l = Ok m -> In m l /\ forall x, In x l -> x <= m.
Proof. destruct l as [|a r]; cbn [py_max]; [discriminate|]. intros [= <-]. apply fold_max_spec. Qed.
Lemma py_min_spec (l : list Q) m : py_min l = Ok m -> In m l /\ forall x, In x l -> m <= x.
Proof. destruct l as [|a r]; cbn [py_min]; [discriminate|]. intros [= <-]. apply fold_min_spec. Qed.

(** The mesh. *)
Lemma mesh_ok (vs : list Q) m : mesh_from_vertices vs = Ok m ->
  vertices m = verts vs /\
  cells m = map (fun j => (j, S j)) (seq 0 (length (verts vs) - 1)) /\
  In (start m) vs /\ (forall x, In x vs -> start m <= x) /\
  In (size m) vs /\ (forall x, In x vs -> x <= size m).
Proof.
  unfold mesh_from_vertices. destruct (py_max vs) as [sz|] eqn:E1; [|discriminate].
  destruct (py_min vs) as [st|] eqn:E2; [|discriminate]. cbn [bind]. intros [= <-]. cbn.
  apply py_max_spec in E1. apply py_min_spec in E2. tauto.
Qed.

Lemma cells_nth (vs : list Q) m j : mesh_from_vertices vs = Ok m ->
  (S j < length (vertices m))%nat -> nth_error (cells m) j = Some (j, S j).
Proof.
  intros Hm. apply mesh_ok in Hm as (-> & -> & _). intros Hj.
  rewrite nth_error_map. rewrite (nth_error_nth' _ 0%nat) by (rewrite seq_length; lia).
  cbn. rewrite seq_nth by lia. reflexivity.
Qed.
Lemma cells_inv (vs : list Q) m j p q : mesh_from_vertices vs = Ok m ->
  nth_error (cells m) j = Some (p, q) -> p = j /\ q = S j /\ (S j < length (vertices m))%nat.
Proof.
  intros Hm. apply mesh_ok in Hm as (-> & -> & _). rewrite nth_error_map.
  destruct (nth_error (seq 0 (length (verts vs) - 1)) j) as [k|] eqn:E; [|discriminate].
  assert (Hj : (j < length (seq 0 (length (verts vs) - 1)))%nat) by (apply nth_error_Some; congruence).
  rewrite seq_length in Hj. rewrite (nth_error_nth' _ 0%nat) in E by (rewrite seq_length; lia).
  rewrite seq_nth in E by lia. cbn in E. injection E as <-. cbn. intros [= <- <-]. lia.
Qed.

(** Every point between two vertices lies in a cell. *)
Lemma bracket (l : list Q) n : forall a b x,
  nth_error l 0 = Some a -> nth_error l (S n) = Some b -> a <= x -> x <= b ->
  exists j y z, (j <= n)%nat /\ nth_error l j = Some y /\ nth_error l (S j) = Some z /\ y <= x /\ x <= z.
Proof.
  induction n as [|n IH]; intros a b x Ha Hb Hax Hxb.
  { exists 0%nat, a, b. auto. }
  destruct (nth_error l (S n)) as [c|] eqn:Ec.
  - destruct (Qlt_le_dec x c) as [Hc|Hc].
    + destruct (IH a c x Ha eq_refl Hax) as (j & y & z & Hj & H); [lra|]. exists j, y, z. split; [lia|assumption].
    + exists (S n), c, b. auto.
  - apply nth_error_None in Ec. assert (nth_error l (S (S n)) <> None) by congruence.
    apply nth_error_Some in H. lia.
Qed.

Lemma sorted_first (l : list Q) y : StronglySorted Qlt l -> In y l -> (forall z, In z l -> y <= z) ->
  nth_error l 0 = Some y.
Proof.
  intros H Hy Hmin. inversion H as [|a r Hs Hf]; subst; [now elim Hy|]. cbn.
  destruct Hy as [->|Hy]; [reflexivity|]. rewrite Forall_forall in Hf. specialize (Hf y Hy).
  specialize (Hmin a (or_introl eq_refl)). lra.
Qed.
Lemma sorted_last (l : list Q) y : StronglySorted Qlt l -> In y l -> (forall z, In z l -> z <= y) ->
  nth_error l (length l - 1) = Some y.
Proof.
  intros H Hy Hmax. apply In_nth_error in Hy as (i & Hi).
  assert (Hil : (i < length l)%nat) by (apply nth_error_Some; congruence).
  destruct (Nat.eq_dec i (length l - 1)) as [->|Hne]; [assumption|].
  destruct (nth_error l (length l - 1)) as [z|] eqn:Ez.
  - assert (y < z) by (eapply (sorted_nth l H i (length l - 1)); eauto; lia).
    apply nth_error_In in Ez. specialize (Hmax z Ez). lra.
  - apply nth_error_None in Ez. lia.
Qed.
Lemma first_vertex (vs : list Q) m : mesh_from_vertices vs = Ok m ->
  exists a, nth_error (vertices m) 0 = Some a /\ a == start m.
Proof.
  intros Hm. apply mesh_ok in Hm as (-> & _ & H1 & H2 & _). apply in_verts in H1 as (y & Hy & Hys).
  exists y. split; [|assumption]. apply sorted_first; [apply verts_sorted|assumption|].
  intros z Hz. apply verts_in in Hz. specialize (H2 z Hz). lra.
Qed.
Lemma last_vertex (vs : list Q) m : mesh_from_vertices vs = Ok m ->
  exists b, nth_error (vertices m) (length (vertices m) - 1) = Some b /\ b == size m.
Proof.
  intros Hm. apply mesh_ok in Hm as (-> & _ & _ & _ & H1 & H2). apply in_verts in H1 as (y & Hy & Hys).
  exists y. split; [|assumption]. apply sorted_last; [apply verts_sorted|assumption|].
  intros z Hz. apply verts_in in Hz. specialize (H2 z Hz). lra.
Qed.

Lemma cell_cover (vs : list Q) m x : mesh_from_vertices vs = Ok m -> start m < size m ->
  start m <= x -> x <= size m -> exists j a b, cell_interval m j a b /\ a <= x /\ x <= b.
Proof.
  intros Hm Hlt H1 H2. destruct (first_vertex vs m Hm) as (a & Ha & Has). destruct (last_vertex vs m Hm) as (b & Hb & Hbs).
  destruct (length (vertices m) - 1)%nat as [|n] eqn:En.
  { rewrite Ha in Hb. injection Hb as ->. lra. }
  destruct (bracket (vertices m) n a b x Ha Hb) as (j & y & z & Hj & Hy & Hz & H); [lra|lra|].
  exists j, y, z. split; [|assumption]. exists j, (S j). split; [|auto]. eapply cells_nth; [eassumption|]; lia.
Qed.
Lemma cell_ordered (vs : list Q) m j a b : mesh_from_vertices vs = Ok m -> cell_interval m j a b -> a < b.
Proof.
  intros Hm (p & q & Hc & Ha & Hb). apply (cells_inv vs m) in Hc as (-> & -> & _); [|assumption].
  apply mesh_ok in Hm as (Hv & _). rewrite Hv in *. eapply (sorted_nth _ (verts_sorted vs) j (S j)); eauto.
Qed.
Lemma cell_disjoint (vs : list Q) m i j a b c d x : mesh_from_vertices vs = Ok m ->
  cell_interval m i a b -> cell_interval m j c d -> a < x -> x < b -> c <= x -> x <= d -> i = j.
Proof.
  intros Hm (p & q & Hc & Ha & Hb) (p' & q' & Hc' & Ha' & Hb') H1 H2 H3 H4.
  apply (cells_inv vs m) in Hc as (-> & -> & _); [|assumption]. apply (cells_inv vs m) in Hc' as (-> & -> & _); [|assumption].
  apply mesh_ok in Hm as (Hv & _). rewrite Hv in *. pose proof (verts_sorted vs) as Hs.
  destruct (Nat.lt_trichotomy i j) as [Hlt|[|Hlt]]; [|assumption|]; exfalso.
  - assert (b <= c) by (eapply (sorted_nth_le _ Hs (S i) j); eauto). lra.
  - assert (d <= a) by (eapply (sorted_nth_le _ Hs (S j) i); eauto). lra.
Qed.

(** Surface markers. *)
Lemma near_iff (eps x y : Q) : near eps x y = true <-> Qabs (x - y) < eps.
Proof. unfold near. rewrite nltb_true. reflexivity. Qed.
Lemma surface_marker_cases (eps x : Q) (m : mesh) :
  (surface_marker eps m x = 2%Z /\ Qabs (x - size m) < eps) \/
  (surface_marker eps m x = 1%Z /\ ~ Qabs (x - size m) < eps /\ Qabs (x - start m) < eps) \/
  (surface_marker eps m x = 0%Z /\ ~ Qabs (x - size m) < eps /\ ~ Qabs (x - start m) < eps).
Proof.
  unfold surface_marker. destruct (near eps x (size m)) eqn:E1, (near eps x (start m)) eqn:E2;
    rewrite <- !near_iff, E1, E2; intuition congruence.
Qed.

(** Volume markers. *)
Lemma mark_cells_ok {P} (ms : mats (A:=Q) P) xs zs :
  mark_cells ms xs = Ok zs <-> Forall2 (fun x z => cell_marker ms x = Ok z) xs zs.
Proof.
  revert zs. induction xs as [|x r IH]; intros zs; cbn [mark_cells].
  - split; [intros [= <-]; constructor|]. inversion 1. reflexivity.
  - rewrite bind_ok. split.
    + intros (z & Hz & H). rewrite bind_ok in H. destruct H as (rest & Hr & [= <-]).
      constructor; [assumption|]. now apply IH.
    + inversion 1; subst. eexists. split; [eassumption|]. apply bind_ok. eexists. split; [|reflexivity]. now apply IH.
Qed.

Lemma half_mid (a b : Q) : a < b -> a < (1 # 2) * (a + b) < b.
Proof. intros H. lra. Qed.

Lemma midpoint_in (vs : list Q) m j a b : mesh_from_vertices vs = Ok m -> cell_interval m j a b ->
  exists c, nth_error (cells m) j = Some c /\ midpoint (1 # 2) m c = (1 # 2) * (a + b).
Proof.
  intros Hm (p & q & Hc & Ha & Hb). exists (p, q). split; [assumption|].
  unfold midpoint. cbn [fst snd]. rewrite (nth_error_nth _ _ _ Ha), (nth_error_nth _ _ _ Hb). reflexivity.
Qed.
Lemma mark_cells_length {P} (ms : mats (A:=Q) P) xs zs : mark_cells ms xs = Ok zs -> length zs = length xs.
Proof. rewrite mark_cells_ok. induction 1; cbn; congruence. Qed.
