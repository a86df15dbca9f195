(** C14-C20, C50, C52: what the exports of a transient run write.

    [run_exports ft s ex0 sched]: initialise() and run() of a transient simulation with exports [ex0],
    final_time [ft] and stepsize [s].  [ltf] is label_to_function as computed by
    update_post_processing_solutions from the solution and the temperature.  The log has one entry per
    call of Exports.write. *)
From Coq Require Import ZArith QArith List Bool String Ascii Lia Lqa Sorted.
From Verif Require Import Base.Exc Base.Num Model.Stepsize Model.TimeLoop Model.Paths Model.Exports
  Model.TxtTimes Spec.TimeSpec Spec.ExportSpec Proofs.NumQ Proofs.StepsizeProofs
  Proofs.TimeLoopProofs Proofs.TimeChain Proofs.TimeQ Proofs.TimeGrid Proofs.TimeWitness
  Proofs.ExportProofs Proofs.ExportTrack Proofs.ExportDerived Proofs.ExportRuns Proofs.TxtRuns.
Import ListNotations.
Local Open Scope nat_scope.
Local Notation length := List.length.

Section Runs.
Context {A : Type} {N : Num A} {U X D F V C : Type}.
Variable temp : temperature (A:=A) X.
Variable dens_solve : D -> D -> A -> X -> D.
Variable is_function : F -> bool.
Variable project : F -> F.
(** fenics.project returns a fenics.Function. *)
Hypothesis project_function : forall f, is_function (project f) = true.
Variable ltf : U -> X -> dict F.
Variables (T0 Tn0 : X) (u0 un0 : U) (d0 dn0 : D).

Definition run_exports (ft : A) (s : stepsize A) (ex0 : exports (A:=A) F V C)
  (sched : list (list (attempt U))) :=
  run_transient temp dens_solve (post_processing is_function project ltf) ft
    (start s T0 Tn0 u0 un0 d0 dn0 (set_final (initialise_exports ex0) ft, [])) sched.

Local Notation st_exports st := (fst (st_exp st)).
Local Notation st_log st := (snd (st_exp st)).

Lemma posts_length (evs : list (event (A:=A) U X D)) : length (posts evs) = length (visited evs).
Proof using Type. induction evs as [|[c|p dt T r|t u T] l IH]; cbn; congruence. Qed.
Lemma fields_length (evs : list (event (A:=A) U X D)) : length (fields_of ltf (posts evs)) = length (visited evs).
Proof using Type. unfold fields_of. now rewrite map_length, posts_length. Qed.
Lemma fields_nth (evs : list (event (A:=A) U X D)) k t d :
  nth_error (fields_of ltf (posts evs)) k = Some (t, d) ->
  (exists u T, nth_error (posts evs) k = Some (t, u, T) /\ d = ltf u T) /\ nth_error (visited evs) k = Some t.
Proof using Type.
  unfold fields_of. rewrite nth_error_map. intros H.
  destruct (nth_error (posts evs) k) as [[[t' u] T]|] eqn:E; [|discriminate].
  cbn in H. injection H as <- <-. split; [eauto|].
  rewrite visited_posts, nth_error_map, E. reflexivity.
Qed.

Lemma run_exports_calls ft s ex0 sched st' evs stt :
  run_exports ft s ex0 sched = (st', evs, stt) ->
  calls is_function project (set_final (initialise_exports ex0) ft) (fields_of ltf (posts evs))
    (st_exports st') (st_log st') /\
  map fst (st_log st') = visited evs.
Proof using Type. intros H. eapply run_calls; [exact H|reflexivity]. Qed.

Lemma filter_calls {B} (cs : list (A * B)) (p : A -> nat -> bool) (q : nat -> bool) n :
  length cs = n -> (forall k t d, nth_error cs k = Some (t, d) -> p t k = q k) ->
  filter (fun k => match nth_error cs k with Some (t, _) => p t k | None => false end) (seq 0 (length cs)) =
  filter q (seq 0 n).
Proof using Type.
  intros <- H. apply filter_ext_in. intros k Hk. apply in_seq in Hk as [_ Hk].
  destruct (nth_error cs k) as [[t d]|] eqn:E; [eauto|]. apply nth_error_None in E. lia.
Qed.

Lemma init_nth ex0 ft i e :
  nth_error (ex_list ex0) i = Some e ->
  nth_error (ex_list (set_final (initialise_exports (A:=A) (F:=F) (V:=V) (C:=C) ex0) ft)) i = Some (init_export e).
Proof using Type.
  intros H. cbn. destruct (initialise_exports_ok ex0) as (-> & _). now rewrite nth_error_map, H.
Qed.
Lemma init_nb ex0 ft : ex_nb (set_final (initialise_exports (A:=A) (F:=F) (V:=V) (C:=C) ex0) ft) = ex_nb ex0.
Proof using Type. cbn. apply (initialise_exports_ok ex0). Qed.

(** C14: mode = n. [ex_nb ex0 = 0]: a freshly built simulation. *)
Theorem C14_every_nth_step ft s ex0 sched st' evs stt i x n :
  run_exports ft s ex0 sched = (st', evs, stt) ->
  ex_nb ex0 = 0%Z -> nth_error (ex_list ex0) i = Some (EXdmf x) -> set_mode (MInt n) = Ok (xd_mode x) ->
  map fst (st_log st') = visited evs /\
  steps_written i (st_log st') = multiples_below n (length (visited evs)) /\
  forall k t w, In (k, t, w) (written_by i (st_log st')) ->
    exists u T f app, nth_error (posts evs) k = Some (t, u, T) /\
      w = WXdmf t f (xd_checkpoint x) app /\ xdmf_writes is_function project x (ltf u T) f /\
      (xd_append x = false -> app = (0 <? k)).
Proof using project_function.
  intros H Hnb Hx Hm. apply run_exports_calls in H as [Hc Ht]. split; [exact Ht|].
  cbn in Hm. destruct (n <=? 0)%Z eqn:En; [discriminate|]. injection Hm as Hm.
  apply Z.leb_gt in En.
  destruct (calls_xdmf is_function project project_function _ _ _ _ _ _ Hc (init_nth ex0 ft i _ Hx)
              (fun _ k => (Z.of_nat k mod n =? 0)%Z)) as [Hs Hw].
  { intros k t b Hb. rewrite init_nb, Hnb in Hb. unfold xd_is_export in Hb. rewrite <- Hm in Hb.
    now apply every_ok in Hb. }
  rewrite (filter_calls _ _ (fun k => (Z.of_nat k mod n =? 0)%Z) _ (fields_length evs)) in Hs by reflexivity.
  split; [exact Hs|]. intros k t w Hin.
  destruct (Hw k t w Hin) as (d & f & app & Hk & -> & Hf & Happ).
  apply fields_nth in Hk as Hk'. destruct Hk' as ((u & T & Hp & ->) & Hvk).
  exists u, T, f, app. split; [assumption|]. split; [reflexivity|]. split; [assumption|].
  intros Ha. rewrite Ha in Happ. apply eq_true_iff_eq. rewrite Happ, Nat.ltb_lt. split.
  - intros [?|(k' & ? & _)]; [discriminate|lia].
  - intros Hpos. right. exists 0. split; [assumption|]. rewrite Hs. apply filter_In. split.
    + apply in_seq. split; [lia|]. rewrite Nat.add_0_l.
      assert (k < length (visited evs)) by (apply nth_error_Some; congruence). lia.
    + apply Z.eqb_eq. apply Z.mod_0_l. lia.
Qed.

(** ** DerivedQuantities *)

(** The quantities of export i are distinct objects that belong to no other export. *)
Definition own_quantities (l : list (export (A:=A) F V C)) (i : nat) (dq : derived (A:=A) V) : Prop :=
  NoDup (dq_list dq) /\
  forall k dq2 q, k <> i -> nth_error l k = Some (EDerived dq2) -> In q (dq_list dq) -> ~ In q (dq_list dq2).

Lemma own_private ex0 ft i dq :
  nth_error (ex_list ex0) i = Some (EDerived dq) -> own_quantities (ex_list ex0) i dq ->
  private (ex_list (set_final (initialise_exports (A:=A) ex0) ft)) i.
Proof using Type.
  intros Hi [_ Ho] k e e2 j Hk He He2 Hj Hj2.
  rewrite (init_nth ex0 ft i _ Hi) in He. injection He as <-. cbn in Hj.
  cbn in He2. destruct (initialise_exports_ok ex0) as (Hl & _). rewrite Hl, nth_error_map in He2.
  destruct (nth_error (ex_list ex0) k) as [[dq2|x|x]|] eqn:E; [..|discriminate];
    cbn in He2; injection He2 as <-; cbn in Hj2; [|now elim Hj2..].
  eapply Ho; eauto.
Qed.

Lemma Forall2_firstn {P Q'} (R : P -> Q' -> Prop) l1 l2 n :
  Forall2 R l1 l2 -> Forall2 R (firstn n l1) (firstn n l2).
Proof using Type.
  intros H. revert n. induction H; intros [|n]; cbn; constructor; auto.
Qed.

(** C16 and C17 (computation): after any run, table and quantities of a non-empty DerivedQuantities. *)
Theorem C16_table_is_rectangular ft s ex0 sched st' evs stt i dq :
  run_exports ft s ex0 sched = (st', evs, stt) ->
  ex_nb ex0 = 0%Z -> nth_error (ex_list ex0) i = Some (EDerived dq) ->
  own_quantities (ex_list ex0) i dq -> dq_list dq <> [] -> visited evs <> [] ->
  exists dq' rows,
    nth_error (ex_list (st_exports st')) i = Some (EDerived dq') /\
    dq_data dq' = Header (titles (ex_store ex0) dq) :: map mk_row rows /\
    (* one row per computation, with the values of the fields of that step in list order *)
    Forall2 (row_ok is_function project (ex_store ex0) dq)
      (computed (dq_compute dq) 0 (fields_of ltf (posts evs))) rows /\
    Forall (fun r => length (snd r) = length (dq_list dq)) rows /\
    map fst rows = computed (dq_compute dq) 0 (visited evs) /\
    dq_t dq' = map fst rows /\
    (* each quantity keeps its own column *)
    forall j q, nth_error (dq_list dq) j = Some q ->
      q_t (ex_store (st_exports st') q) = map fst rows /\
      map Some (q_data (ex_store (st_exports st') q)) = map (fun r => nth_error (snd r) j) rows.
Proof using project_function.
  intros H Hnb Hi Hown Hne Hv. apply run_exports_calls in H as [Hc Ht].
  pose proof (own_private ex0 ft i dq Hi Hown) as Hpr. destruct Hown as [Hnd Hown].
  destruct (calls_derived is_function project project_function _ _ _ _ _ _ Hc (init_nth ex0 ft i _ Hi)
              ltac:(exact Hnd) Hpr)
    as (dq' & rows & Hi' & Hsame & (Htt & Hdata & Hcols) & Hrows & _ & _).
  rewrite init_nb, Hnb in Hrows.
  cbn [init_export set_data dq_data dq_list dq_t dq_compute] in Htt, Hdata, Hcols, Hrows.
  destruct (initialise_exports_ok ex0) as (_ & _ & _ & Hst & Hreset).
  cbn [set_final ex_store] in Hrows, Hdata, Hcols.
  assert (Hrows' : Forall2 (row_ok is_function project (ex_store ex0) dq)
      (computed (dq_compute dq) 0 (fields_of ltf (posts evs))) rows).
  { eapply Forall2_weaken; [|exact Hrows]. intros p r [Hp1 Hp2]. split; [assumption|].
    eapply Forall2_weaken; [|exact Hp2]. intros q v (f & Hr & ->). exists f.
    destruct (Hst q) as (Hk & Hf & Hsu & _ & _ & Has). rewrite Has. split; [|reflexivity].
    unfold ExportSpec.reads in *. now rewrite Hk, Hf, Hsu in Hr. }
  assert (Hfst : map fst rows = computed (dq_compute dq) 0 (visited evs)).
  { replace (computed (dq_compute dq) 0 (visited evs))
      with (map fst (computed (dq_compute dq) 0 (fields_of ltf (posts evs)))).
    - clear -Hrows'. induction Hrows' as [|p r l l' [Hp _] HF IH]; cbn; [reflexivity|]. congruence.
    - replace (visited evs) with (map fst (fields_of ltf (posts evs))).
      + generalize 0%Z. generalize (fields_of ltf (posts evs)).
        induction l as [|c r IH]; intros z; cbn; [reflexivity|].
        destruct (z mod dq_compute dq =? 0)%Z; cbn; now rewrite IH.
      + unfold fields_of. rewrite map_map. cbn. symmetry. apply visited_posts. }
  assert (Hnr : rows <> []).
  { intros ->. cbn [map] in Hfst. destruct (visited evs) as [|t0 r]; [congruence|]. cbn [computed] in Hfst.
    rewrite Zmod_0_l in Hfst. discriminate. }
  exists dq', rows. split; [assumption|]. split.
  { rewrite Hdata. destruct rows as [|r0 rows]; [congruence|]. destruct (dq_list dq) as [|q0 qs] eqn:El; [congruence|].
    cbn [app]. f_equal. f_equal. exact (titles_static (ex_store ex0) _ dq Hst). }
  split; [assumption|]. split.
  { clear -Hrows'. induction Hrows' as [|p r l l' [_ Hp] HF IH]; constructor; [|exact IH].
    clear -Hp. induction Hp; cbn; congruence. }
  split; [assumption|]. split; [exact Htt|].
  intros j q Hj. destruct (Hcols j q Hj) as (Hqt & col & Hqd & Hcol).
  destruct (Hreset q (EDerived dq)) as [Hr1 Hr2].
  { eapply nth_error_In; eauto. }
  { cbn. eapply nth_error_In; eauto. }
  rewrite Hqt, Hqd, Hr1, Hr2. split; [reflexivity|exact Hcol].
Qed.

(** The number of rows after k+1 steps. *)
Lemma computed_count {B} n (l : list B) k : (0 < n)%Z -> k < length l ->
  length (computed n 0 (firstn (S k) l)) = S (Z.to_nat (Z.of_nat k / n)).
Proof using Type.
  intros Hn Hk. pose proof (computed_length n 0 (firstn (S k) l) Hn ltac:(lia)) as H.
  rewrite firstn_length_le in H by lia.
  replace (0 + Z.of_nat (S k) + n - 1)%Z with (Z.of_nat k + 1 * n)%Z in H by lia.
  rewrite Z.div_add in H by lia. rewrite (Z.div_small (0 + n - 1)) in H by lia.
  assert (0 <= Z.of_nat k / n)%Z by (apply Z.div_pos; lia). lia.
Qed.

(** C17: with nb_iterations_between_compute = n and nb_iterations_between_exports = m the csv is
    written at the steps 0, m, 2m, ... with the header and every row computed so far, i.e. those of the
    steps 0, n, 2n, ... up to the step of the write. *)
Theorem C17_csv_intervals ft s ex0 sched st' evs stt i dq fn m :
  run_exports ft s ex0 sched = (st', evs, stt) ->
  ex_nb ex0 = 0%Z -> nth_error (ex_list ex0) i = Some (EDerived dq) ->
  own_quantities (ex_list ex0) i dq -> dq_list dq <> [] ->
  dq_filename dq = Some fn -> dq_exports dq = Some m -> (0 < dq_compute dq)%Z ->
  steps_written i (st_log st') = multiples_below m (length (visited evs)) /\
  forall k t w, In (k, t, w) (written_by i (st_log st')) ->
    exists dq' rows,
      nth_error (ex_list (st_exports st')) i = Some (EDerived dq') /\
      dq_data dq' = Header (titles (ex_store ex0) dq) :: map mk_row rows /\
      nth_error (visited evs) k = Some t /\
      w = WCsv fn (Header (titles (ex_store ex0) dq) ::
                   map mk_row (firstn (S (Z.to_nat (Z.of_nat k / dq_compute dq))) rows)).
Proof using project_function.
  intros H Hnb Hi Hown Hne Hfn Hm Hn. pose proof H as Hrun. apply run_exports_calls in H as [Hc Ht].
  pose proof (own_private ex0 ft i dq Hi Hown) as Hpr. pose proof Hown as [Hnd _].
  pose proof (init_nth ex0 ft i _ Hi) as Hi0.
  split.
  - rewrite (calls_derived_steps is_function project project_function _ _ _ _ _ _ fn Hc Hi0
               ltac:(exact Hnd) Hpr ltac:(exact Hfn) (fun _ k => (Z.of_nat k mod m =? 0)%Z)).
    + apply filter_calls; [apply fields_length|reflexivity].
    + intros k t b Hb. rewrite init_nb, Hnb in Hb. unfold dq_is_export in Hb.
      cbn [set_final ex_final init_export set_data dq_exports] in Hb. rewrite Hm in Hb. now apply every_ok in Hb.
  - intros k t w Hin.
    destruct (written_call is_function project _ _ _ _ _ _ _ _ Hc Hin) as (d & ws & Hk & Hws & Hw).
    apply fields_nth in Hk as Hk'. destruct Hk' as (_ & Hvk).
    assert (Hv : visited evs <> []) by (intros Hv; rewrite Hv in Hvk; destruct k; discriminate).
    destruct (C16_table_is_rectangular _ _ _ _ _ _ _ _ _ Hrun Hnb Hi Hown Hne Hv)
      as (dq' & rows & Hi' & Hdata & Hrows & _).
    destruct (calls_derived_at is_function project project_function _ _ _ _ _ _ _ _ _ Hc Hi0
                ltac:(exact Hnd) Hpr Hk)
      as (dqk & dq2 & rk & rk' & sk & Hsame & (_ & Hdk & _) & Hrk & (b & Hb & Hwb) & Hi2 & (_ & Hd2 & _) & _).
    rewrite Hi' in Hi2. injection Hi2 as <-.
    rewrite Hws in Hwb. injection Hwb as ->.
    cbn [init_export set_data dq_filename dq_data dq_list dq_compute] in Hw, Hdk, Hrk.
    rewrite Hfn in Hw. destruct b; [|now elim Hw]. destruct Hw as [<-|[]].
    exists dq', rows. split; [assumption|]. split; [assumption|]. split; [assumption|]. f_equal.
    rewrite init_nb, Hnb in Hrk.
    assert (Hkl : k < length (fields_of ltf (posts evs))) by (apply nth_error_Some; congruence).
    assert (Hlen : length rk = S (Z.to_nat (Z.of_nat k / dq_compute dq))).
    { rewrite <- (computed_count (dq_compute dq) _ k Hn Hkl). symmetry. clear -Hrk. induction Hrk; cbn; congruence. }
    destruct rk as [|r0 rk]; [discriminate|]. destruct (dq_list dq) as [|q0 qs] eqn:El; [congruence|].
    cbn [app] in Hdk.
    assert (Htit : titles (ex_store (set_final (initialise_exports ex0) ft)) (set_data dq [] []) =
                   titles (ex_store ex0) dq).
    { cbn [set_final ex_store]. apply (titles_static (ex_store ex0) _ dq). apply (initialise_exports_ok ex0). }
    cbn [init_export] in Hdk. rewrite Htit in Hdk.
    rewrite Hdk in Hd2. rewrite Hdata in Hd2. cbn [app] in Hd2. injection Hd2 as Hr0.
    rewrite Hdk. f_equal.
    change (mk_row r0 :: map mk_row rk) with (map (mk_row (V:=V)) (r0 :: rk)) in *.
    assert (Hmap : map mk_row rows = map mk_row ((r0 :: rk) ++ rk')) by (rewrite map_app; exact Hr0).
    rewrite <- firstn_map, Hmap, map_app, firstn_app, <- Hlen, map_length, Nat.sub_diag, firstn_O, app_nil_r.
    rewrite firstn_all2 by (rewrite map_length; lia). reflexivity.
Qed.

(** ** TXTExport *)

(** C19: header and columns of a TXTExport after any run, and of each file written. *)
Theorem C19_header_matches_columns ft s ex0 sched st' evs stt i x :
  run_exports ft s ex0 sched = (st', evs, stt) ->
  nth_error (ex_list ex0) i = Some (ETxt x) -> (forall t, no_comma (tx_format x t)) ->
  exists x' header cols,
    nth_error (ex_list (st_exports st')) i = Some (ETxt x') /\
    tx_header x' = Some header /\ tx_data x' = Some (tx_x x :: cols) /\
    (* column k+1 is the field at the k-th exported time *)
    Forall2 (col_ok is_function project x) (at_requested (tx_times x) (fields_of ltf (posts evs))) cols /\
    entries header = "x"%string ::
      map (fun p => header_entry x (Some ft) (fst p)) (at_requested (tx_times x) (fields_of ltf (posts evs))) /\
    length (entries header) = length (tx_x x :: cols) /\
    (* a file contains the columns exported so far *)
    forall k t w, In (k, t, w) (written_by i (st_log st')) ->
      exists name h, let m := length (at_requested (tx_times x) (fields_of ltf (firstn (S k) (posts evs)))) in
        tx_filename x = Some name /\ w = WTxt name h (tx_x x :: firstn m cols) /\
        entries h = firstn (S m) (entries header).
Proof using project_function.
  intros H Hx Hfmt. apply run_exports_calls in H as [Hc _].
  destruct (calls_txt is_function project project_function _ _ _ _ _ _ _ _ Hc (init_nth ex0 ft i _ Hx)
              eq_refl eq_refl) as (x' & cols & Hi' & Hsame & Hd & Hh & Hcols & _ & Hw).
  change (tx_times (tx_initialise x)) with (tx_times x) in *.
  set (cs := fields_of ltf (posts evs)) in *.
  assert (Hent : forall l, entries (add_entries "x" (map (header_entry (tx_initialise x) (Some ft)) (map fst l))) =
            "x"%string :: map (fun p : A * dict F => header_entry x (Some ft) (fst p)) l).
  { intros l. rewrite entries_add.
    - cbn [entries Ascii.eqb app]. rewrite map_map. reflexivity.
    - intros e He. apply in_map_iff in He as (t & <- & _). now apply header_entry_no_comma. }
  exists x', (add_entries "x" (map (header_entry (tx_initialise x) (Some ft)) (map fst (at_requested (tx_times x) cs)))), cols.
  split; [assumption|]. split; [assumption|]. split; [exact Hd|]. split; [exact Hcols|].
  split; [apply Hent|]. split.
  { rewrite Hent. cbn. f_equal. rewrite map_length. clear -Hcols. induction Hcols; cbn; congruence. }
  intros k t w Hin. apply Hw in Hin as (name & Hname & ->).
  exists name. eexists. cbn zeta.
  replace (fields_of ltf (firstn (S k) (posts evs))) with (firstn (S k) cs)
    by (unfold cs, fields_of; now rewrite firstn_map).
  split; [exact Hname|]. split; [reflexivity|]. cbn [set_final ex_final]. rewrite !Hent. cbn [firstn]. f_equal.
  unfold at_requested.
  assert (Hpre : forall l k, filter (fun p : A * dict F => requested (tx_times x) (fst p)) (firstn k l) =
     firstn (length (filter (fun p => requested (tx_times x) (fst p)) (firstn k l)))
       (filter (fun p => requested (tx_times x) (fst p)) l)).
  { induction l as [|a r IH]; intros [|k']; [reflexivity..|].
    cbn [firstn filter]. destruct (requested (tx_times x) (fst a)); [|apply IH].
    cbn [length firstn]. f_equal. apply IH. }
  rewrite firstn_map. f_equal. exact (Hpre cs (S k)).
Qed.
End Runs.

(** ** Requested times become milestones *)
Section Register.
Local Open Scope Q_scope.
Context {F V C : Type}.
Variables (init : Q) (ratio t_stop stop_max : option Q) (mx : maxspec Q) (dtmin : option Q)
  (miles : option (list Q)).
Local Notation S0 := (mk_stepsize init ratio t_stop stop_max mx dtmin miles).

(** The first half of C18: after initialise the milestones are, up to order and duplicates, those of
    the user and the times of the TXTExports. *)
Theorem C18_times_become_milestones ex0 o :
  register_times (F:=F) (V:=V) (C:=C) (Some S0) (ex_list ex0) = Ok o ->
  exists s', o = Some s' /\ initial_value s' = init /\ adaptive_stepsize s' = adaptive_stepsize S0 /\
    (forall t, (exists m, In m (match milestones s' with Some l => l | None => [] end) /\ m == t) <->
      (exists m, In m (match miles with Some l => l | None => [] end) /\ m == t) \/
      exists x times m, In (ETxt x) (ex_list ex0) /\ tx_times x = Some times /\ In m times /\ m == t) /\
    match milestones s' with Some l => StronglySorted Qle l | None => True end.
Proof.
  intros H. apply register_times_ok in H as (s' & -> & H1 & H2 & H3 & H4 & H5 & H6 & H7 & H8).
  exists s'. split; [reflexivity|]. split; [assumption|]. split; [assumption|].
  split; [|apply H7, mk_stepsize_sorted].
  assert (Hm : forall m, In m (match milestones S0 with Some l => l | None => [] end) <->
                         In m (match miles with Some l => l | None => [] end)).
  { intros m. cbn. destruct miles as [[|a r]|]; cbn [set_milestones]; [tauto| |tauto].
    apply (sorted_in (a :: r)). }
  intros t. split.
  - intros (m & Hin & Hq). apply H6 in Hin as [Hin|(x & times & Hx & Ht & Hin)].
    + left. exists m. split; [now apply Hm|assumption].
    + right. exists x, times, m. auto.
  - intros [(m & Hin & Hq)|(x & times & m & Hx & Ht & Hin & Hq)].
    + exists m. split; [now apply H4, Hm|assumption].
    + destruct (H5 x times m Hx Ht Hin) as (m' & Hm' & Hq'). exists m'. split; [assumption|]. lra.
Qed.

End Register.

(** ** End of the run (exact arithmetic) *)
Section RunsQ.
Local Open Scope Q_scope.
Context {U X D F V C : Type}.
Variable temp : temperature (A:=Q) X.
Variable dens_solve : D -> D -> Q -> X -> D.
Variable is_function : F -> bool.
Variable project : F -> F.
Hypothesis project_function : forall f, is_function (project f) = true.
Variable ltf : U -> X -> dict F.
Variables (T0 Tn0 : X) (u0 un0 : U) (d0 dn0 : D).
Local Notation run := (run_exports (V:=V) (C:=C) temp dens_solve is_function project ltf T0 Tn0 u0 un0 d0 dn0).
Local Notation st_exports st := (fst (st_exp st)).
Local Notation st_log st := (snd (st_exp st)).

Lemma last_index ft s ex0 sched st' evs :
  run ft s ex0 sched = (st', evs, Done) -> 0 < ft ->
  exists t u T, nth_error (posts evs) (length (visited evs) - 1) = Some (t, u, T) /\
    (0 < length (visited evs))%nat.
Proof using Type.
  intros H HF. destruct (run_reaches_final _ _ _ _ _ _ _ _ _ _ _ _ _ _ _ H HF) as (_ & (pre & Hv) & _).
  assert (Hl : (0 < length (visited evs))%nat) by (rewrite Hv, app_length; cbn; lia).
  destruct (nth_error (posts evs) (length (visited evs) - 1)) as [[[t u] T]|] eqn:E; [eauto 6|].
  apply nth_error_None in E. rewrite posts_length in E. lia.
Qed.

Lemma written_singleton {W} i (log : list (Q * list (nat * written (A:=Q) F V W))) k :
  steps_written i log = [k] -> exists t w, written_by i log = [(k, t, w)].
Proof using Type.
  unfold steps_written. destruct (written_by i log) as [|[[k' t] w] [|y r]]; cbn; intros [= ->]. eauto.
Qed.

(** C15 for XDMFExport(mode="last"), in a completed run that did not overshoot (see C01). *)
Theorem C15_last_written_once ft s ex0 sched st' evs i x :
  run ft s ex0 sched = (st', evs, Done) ->
  0 < ft -> (forall t, In t (visited evs) -> t <= ft) ->
  nth_error (ex_list ex0) i = Some (EXdmf x) -> set_mode (MStr "last") = Ok (xd_mode x) ->
  let k := (length (visited evs) - 1)%nat in
  exists t u T f, nth_error (posts evs) k = Some (t, u, T) /\
    xdmf_writes is_function project x (ltf u T) f /\
    written_by i (st_log st') = [(k, t, WXdmf t f (xd_checkpoint x) (xd_append x))].
Proof using project_function.
  intros H HF Hno Hx Hm k. cbn in Hm. injection Hm as Hm.
  pose proof (run_close_last _ _ _ _ _ _ _ _ _ _ _ _ _ _ _ H HF Hno) as Hcl.
  destruct (last_index _ _ _ _ _ _ H HF) as (t & u & T & Hk & Hlen). fold k in Hk.
  apply run_exports_calls in H as [Hc Ht].
  destruct (calls_xdmf is_function project project_function _ _ _ _ _ _ Hc (init_nth ex0 ft i _ Hx)
              (fun t _ => isclose t ft)) as [Hs Hw].
  { intros j t' b Hb. unfold xd_is_export in Hb. rewrite <- Hm in Hb. cbn in Hb. now injection Hb as <-. }
  rewrite (filter_calls _ _ (fun j => Nat.eqb j (length (visited evs) - 1)) _ (fields_length ltf evs)) in Hs.
  2: { intros j t' d Hj. apply fields_nth in Hj as [_ Hj]. now apply Hcl. }
  rewrite filter_last in Hs by assumption. fold k in Hs.
  destruct (written_singleton _ _ _ Hs) as (t1 & w & Hwr).
  destruct (Hw k t1 w) as (d & f & app & Hk' & -> & Hf & Happ); [rewrite Hwr; now left|].
  apply fields_nth in Hk' as ((u1 & T1 & Hk1 & ->) & _). rewrite Hk in Hk1. injection Hk1 as <- <- <-.
  exists t, u, T, f. split; [assumption|]. split; [assumption|]. rewrite Hwr.
  replace app with (xd_append x); [reflexivity|].
  apply eq_true_iff_eq. rewrite Happ. split; [auto|]. intros [|(k' & Hlt & Hin)]; [assumption|].
  rewrite Hs in Hin. destruct Hin as [<-|[]]. lia.
Qed.

(** C15 for a DerivedQuantities with a filename and default settings: the csv is written once, with the
    final table. *)
Theorem C15_table_written_once ft s ex0 sched st' evs i dq fn :
  run ft s ex0 sched = (st', evs, Done) ->
  0 < ft -> (forall t, In t (visited evs) -> t <= ft) ->
  nth_error (ex_list ex0) i = Some (EDerived dq) -> own_quantities (ex_list ex0) i dq ->
  dq_filename dq = Some fn -> dq_exports dq = None ->
  let k := (length (visited evs) - 1)%nat in
  exists t u T dq', nth_error (posts evs) k = Some (t, u, T) /\
    nth_error (ex_list (st_exports st')) i = Some (EDerived dq') /\
    written_by i (st_log st') = [(k, t, WCsv fn (dq_data dq'))].
Proof using project_function.
  intros H HF Hno Hi Hown Hfn Hex k.
  pose proof (run_close_last _ _ _ _ _ _ _ _ _ _ _ _ _ _ _ H HF Hno) as Hcl.
  destruct (last_index _ _ _ _ _ _ H HF) as (t & u & T & Hk & Hlen). fold k in Hk.
  apply run_exports_calls in H as [Hc Ht].
  pose proof (own_private ex0 ft i dq Hi Hown) as Hpr. pose proof Hown as [Hnd _].
  pose proof (init_nth ex0 ft i _ Hi) as Hi0.
  pose proof (calls_derived_steps is_function project project_function _ _ _ _ _ _ fn Hc Hi0
               ltac:(exact Hnd) Hpr ltac:(exact Hfn) (fun t _ => isclose t ft)) as Hs.
  rewrite (filter_calls _ _ (fun j => Nat.eqb j (length (visited evs) - 1)) _ (fields_length ltf evs)) in Hs.
  2: { intros j t' d Hj. apply fields_nth in Hj as [_ Hj]. now apply Hcl. }
  rewrite filter_last in Hs by assumption. fold k in Hs.
  destruct (written_singleton _ _ _ (Hs ltac:(intros j t' b Hb; unfold dq_is_export in Hb; cbn in Hb;
     rewrite Hex in Hb; now injection Hb as <-))) as (t1 & w & Hwr). clear Hs.
  destruct (written_call is_function project _ _ _ _ i k t1 w Hc) as (d & ws & Hk' & Hws & Hw);
    [rewrite Hwr; now left|].
  destruct (calls_derived_at is_function project project_function _ _ _ _ _ _ _ _ _ Hc Hi0
              ltac:(exact Hnd) Hpr Hk')
      as (dqk & dq' & rk & rk' & sk & _ & _ & _ & (b & Hb & Hwb) & Hi2 & _ & Heq).
  rewrite Heq in Hi2 by (rewrite fields_length; unfold k; lia).
  rewrite Hws in Hwb. injection Hwb as ->. cbn [init_export set_data dq_filename] in Hw. rewrite Hfn in Hw.
  destruct b; [|now elim Hw]. destruct Hw as [<-|[]].
  apply fields_nth in Hk' as ((u1 & T1 & Hk1 & ->) & _). rewrite Hk in Hk1. injection Hk1 as <- <- <-.
  exists t, u, T, dqk. auto.
Qed.

(** If the run overshoots final_time, neither is ever written. *)
Theorem C15_overshoot_never_written ft s ex0 sched st' evs i :
  run ft s ex0 sched = (st', evs, Done) -> 0 < ft -> ~ close (st_t st') ft ->
  (forall x, nth_error (ex_list ex0) i = Some (EXdmf x) -> xd_mode x = Last -> written_by i (st_log st') = []) /\
  (forall dq, nth_error (ex_list ex0) i = Some (EDerived dq) -> own_quantities (ex_list ex0) i dq ->
     dq_exports dq = None -> written_by i (st_log st') = []).
Proof using project_function.
  intros H HF Hno.
  pose proof (run_close_never _ _ _ _ _ _ _ _ _ _ _ _ _ _ _ H HF Hno) as Hcl.
  apply run_exports_calls in H as [Hc Ht].
  assert (Hcl' : forall k t d, nth_error (fields_of ltf (posts evs)) k = Some (t, d) -> isclose t ft = false).
  { intros k t d Hk. apply fields_nth in Hk as [_ Hk]. apply Hcl. eapply nth_error_In; eauto. }
  assert (Hnil : steps_written i (st_log st') = [] -> written_by i (st_log st') = []).
  { unfold steps_written. destruct (written_by i (st_log st')); [reflexivity|discriminate]. }
  split.
  - intros x Hx Hm. apply Hnil.
    destruct (calls_xdmf is_function project project_function _ _ _ _ _ _ Hc (init_nth ex0 ft i _ Hx)
              (fun t _ => isclose t ft)) as [Hs Hw].
    { intros j t' b Hb. unfold xd_is_export in Hb. rewrite Hm in Hb. cbn in Hb. now injection Hb as <-. }
    rewrite Hs. rewrite (filter_calls _ _ (fun _ => false) _ eq_refl); [apply filter_none|]. eauto.
  - intros dq Hi Hown Hex. apply Hnil. destruct (dq_filename dq) as [fn|] eqn:Hfn.
    + pose proof (own_private ex0 ft i dq Hi Hown) as Hpr. pose proof Hown as [Hnd _].
      rewrite (calls_derived_steps is_function project project_function _ _ _ _ _ _ fn Hc
               (init_nth ex0 ft i _ Hi) ltac:(exact Hnd) Hpr ltac:(exact Hfn) (fun t _ => isclose t ft)).
      * rewrite (filter_calls _ _ (fun _ => false) _ eq_refl); [apply filter_none|]. eauto.
      * intros j t' b Hb. unfold dq_is_export in Hb. cbn in Hb. rewrite Hex in Hb. now injection Hb as <-.
    + erewrite (calls_steps is_function project _ _ _ _ i (fun _ => false) Hc); [apply filter_none|].
      intros k t d w Hk Hw. pose proof (own_private ex0 ft i dq Hi Hown) as Hpr. pose proof Hown as [Hnd _].
      destruct (calls_derived_at is_function project project_function _ _ _ _ _ _ _ _ _ Hc
              (init_nth ex0 ft i _ Hi) ltac:(exact Hnd) Hpr Hk)
      as (dqk & dq' & rk & rk' & sk & _ & _ & _ & (b & Hb & Hwb) & _).
      rewrite Hw in Hwb. injection Hwb as ->. cbn [init_export set_data dq_filename]. rewrite Hfn.
      now destruct b.
Qed.

(** ** TXTExport *)

(** C20 without times: the file is written once, at the end (no overshoot). *)
Theorem C20_written_at_the_end ft s ex0 sched st' evs i x :
  run ft s ex0 sched = (st', evs, Done) ->
  0 < ft -> (forall t, In t (visited evs) -> t <= ft) ->
  nth_error (ex_list ex0) i = Some (ETxt x) -> tx_times x = None -> tx_last x = true ->
  steps_written i (st_log st') = [(length (visited evs) - 1)%nat].
Proof using project_function.
  intros H HF Hno Hx Hti Hla.
  pose proof (run_close_last _ _ _ _ _ _ _ _ _ _ _ _ _ _ _ H HF Hno) as Hcl.
  destruct (last_index _ _ _ _ _ _ H HF) as (t & u & T & Hk & Hlen).
  apply run_exports_calls in H as [Hc Ht].
  destruct (calls_txt is_function project project_function _ _ _ _ _ _ _ _ Hc (init_nth ex0 ft i _ Hx)
              eq_refl eq_refl) as (x' & cols & _ & _ & _ & _ & _ & Hs & _).
  rewrite Hs.
  rewrite (filter_calls _ _ (fun j => Nat.eqb j (length (visited evs) - 1)) _ (fields_length ltf evs)).
  - now apply filter_last.
  - intros j t' d Hj. apply fields_nth in Hj as [_ Hj]. rewrite <- (Hcl j t' Hj).
    unfold txt_file, tx_is_last, requested. cbn [tx_initialise set_txt tx_times tx_last].
    rewrite Hti, Hla. reflexivity.
Qed.

(** Part of C20 with times: the file is written once if the last requested time is visited and no
    other visited time is (relative 1e-5) close to it.  Missing: the other runs; in particular a last
    time beyond final_time: C20_last_time_refuted. *)
Theorem C20_written_at_last_time_partial ft s ex0 sched st' evs stt i field fn times fmt xs sample lst pre t0 suf :
  run ft s ex0 sched = (st', evs, stt) ->
  nth_error (ex_list ex0) i = Some (ETxt (mk_txt field fn (Some times) true fmt xs sample)) ->
  In lst times -> (forall t, In t times -> t <= lst) -> 0 < lst ->
  visited evs = (pre ++ t0 :: suf)%list -> t0 == lst ->
  (forall t, In t (pre ++ suf)%list -> ~ close t lst) ->
  steps_written i (st_log st') = [length pre].
Proof using project_function.
  intros H Hx Hin Hmax Hpos Hv Ht0 Hother.
  apply run_exports_calls in H as [Hc Ht].
  destruct (calls_txt is_function project project_function _ _ _ _ _ _ _ _ Hc (init_nth ex0 ft i _ Hx)
              eq_refl eq_refl) as (x' & cols & _ & _ & _ & _ & _ & Hs & _).
  rewrite Hs. clear Hs.
  destruct times as [|a r]; [now elim Hin|].
  destruct (last_time_sorted (py_sorted (a :: r)) lst) as (lt & Hlt & Heq).
  { apply py_sorted_ok. } { now apply sorted_in. } { intros y Hy. apply Hmax. now apply sorted_in. }
  assert (Hfile : forall t, txt_file (tx_initialise (mk_txt field fn (Some (a :: r)) true fmt xs sample))
     (Some ft) t = (existsb (fun time => isclose time t) (py_sorted (a :: r)) && isclose t lt)%bool).
  { intros t. unfold txt_file, tx_is_last, requested.
    cbn [tx_initialise set_txt tx_times tx_last mk_txt mk_times]. rewrite Hlt. reflexivity. }
  rewrite (filter_calls _ _ (fun j => Nat.eqb j (length pre)) _ (fields_length ltf evs)).
  - rewrite Hv, app_length. cbn [length].
    rewrite seq_app, filter_app. cbn [seq filter]. rewrite Nat.add_0_l, Nat.eqb_refl.
    assert (Hpre : filter (fun j => Nat.eqb j (length pre)) (seq 0 (length pre)) = []).
    { rewrite (filter_ext_in _ (fun _ => false)); [apply filter_none|].
      intros j Hj. apply in_seq in Hj. apply Nat.eqb_neq. lia. }
    assert (Hsuf : filter (fun j => Nat.eqb j (length pre)) (seq (S (length pre)) (length suf)) = []).
    { rewrite (filter_ext_in _ (fun _ => false)); [apply filter_none|].
      intros j Hj. apply in_seq in Hj. apply Nat.eqb_neq. lia. }
    now rewrite Hpre, Hsuf.
  - intros j t d Hj. apply fields_nth in Hj as [_ Hj]. cbn [set_final ex_final]. rewrite Hfile.
    destruct (Nat.eqb_spec j (length pre)) as [->|Hne].
    + rewrite Hv, nth_error_app2, Nat.sub_diag in Hj by lia. injection Hj as <-.
      apply andb_true_intro. split.
      * apply existsb_exists. exists lst. split; [now apply sorted_in|].
        apply isclose_true, close_self; [symmetry; assumption|lra].
      * apply isclose_true, close_self; lra.
    + apply andb_false_intro2. apply isclose_false. rewrite (close_eq t lt lst Heq). apply Hother.
      rewrite Hv in Hj. destruct (Nat.lt_ge_cases j (length pre)).
      * rewrite nth_error_app1 in Hj by assumption. apply in_or_app. left. eapply nth_error_In; eauto.
      * rewrite nth_error_app2 in Hj by assumption.
        destruct (j - length pre)%nat as [|m] eqn:Em; [lia|]. cbn in Hj.
        apply in_or_app. right. eapply nth_error_In; eauto.
Qed.

(** ** Requested times are milestones *)
Variables (init : Q) (ratio t_stop stop_max : option Q) (mx : maxspec Q) (dtmin : option Q)
  (miles : option (list Q)).
Local Notation S0 := (mk_stepsize init ratio t_stop stop_max mx dtmin miles).

(** What C18 promises for the requested time t and export i. *)
Definition exported_once (st' : state (A:=Q) U X D (export_state (A:=Q) F V C)) (evs : list (event (A:=Q) U X D)) i (x : txt (A:=Q) F C) (t : Q) : Prop :=
  exists k t' u T, nth_error (posts evs) k = Some (t', u, T) /\ t' == t /\
    (exists x' cols j col,
      nth_error (ex_list (st_exports st')) i = Some (ETxt (A:=Q) (F:=F) (V:=V) (C:=C) x') /\
      tx_data x' = Some (tx_x x :: cols) /\
      nth_error (at_requested (tx_times x) (fields_of ltf (posts evs))) j = Some (t', ltf u T) /\
      nth_error cols j = Some col /\ col_ok is_function project x (t', ltf u T) col) /\
    (chain Qlt (visited evs) -> forall k2 t2, nth_error (visited evs) k2 = Some t2 -> t2 == t -> k2 = k).

Lemma chain_lt_trans l : chain Qlt l -> forall i j a b, (i < j)%nat ->
  nth_error l i = Some a -> nth_error l j = Some b -> a < b.
Proof using Type.
  induction l as [|x [|y r] IH]; intros Hc i j a b Hij Hi Hj.
  - destruct i; discriminate.
  - destruct j as [|[|j]]; [lia|discriminate..].
  - destruct Hc as [Hxy Hc]. destruct i as [|i]; destruct j as [|j]; [lia| |lia|].
    + cbn in Hi, Hj. injection Hi as <-. destruct j as [|j].
      * cbn in Hj. now injection Hj as <-.
      * apply (Qlt_trans _ y); [assumption|]. eapply (IH Hc 0%nat (S j)); [lia|reflexivity|exact Hj].
    + eapply (IH Hc i j); [lia|exact Hi|exact Hj].
Qed.

Lemma forall2_nth {P R} (Rel : P -> R -> Prop) l1 l2 j a :
  Forall2 Rel l1 l2 -> nth_error l1 j = Some a -> exists b, nth_error l2 j = Some b /\ Rel a b.
Proof using Type.
  intros H. revert j. induction H as [|p r l l' Hp HF IH]; intros [|j] Hj; try discriminate; cbn in *; [|auto].
  injection Hj as <-. eauto.
Qed.

Lemma exported_once_intro ft s' ex0 sched st' evs i x times t t' :
  run ft s' ex0 sched = (st', evs, Done) ->
  nth_error (ex_list ex0) i = Some (ETxt x) -> tx_times x = Some times -> In t times -> 0 <= t ->
  In t' (visited evs) -> t' == t -> exported_once st' evs i x t.
Proof using project_function.
  intros H Hx Hti Hin Hpos Hv Hq. pose proof H as Hrun. apply run_exports_calls in H as [Hc Ht].
  destruct (calls_txt is_function project project_function _ _ _ _ _ _ _ _ Hc (init_nth ex0 ft i _ Hx)
              eq_refl eq_refl) as (x' & cols & Hi' & Hsame & Hd & _ & Hcols & _ & _).
  rewrite visited_posts in Hv. apply in_map_iff in Hv as ([[t1 u] T] & Heq & Hin1). cbn in Heq. subst t1.
  apply In_nth_error in Hin1 as (k & Hk).
  exists k, t', u, T. split; [assumption|]. split; [assumption|]. split.
  - assert (Hf : In (t', ltf u T) (at_requested (tx_times x) (fields_of ltf (posts evs)))).
    { apply filter_In. split.
      - apply in_map_iff. exists (t', u, T). split; [reflexivity|]. eapply nth_error_In; eauto.
      - cbn. rewrite Hti. cbn. apply existsb_exists. exists t. split; [assumption|].
        apply isclose_true, close_self; lra. }
    apply In_nth_error in Hf as (j & Hj).
    destruct (forall2_nth _ _ _ _ _ Hcols Hj) as (col & Hcol & Hok).
    exists x', cols, j, col. auto.
  - intros Hch k2 t2 Hk2 Hq2.
    assert (Hk' : nth_error (visited evs) k = Some t') by (rewrite visited_posts, nth_error_map, Hk; reflexivity).
    destruct (Nat.lt_trichotomy k2 k) as [Hlt|[->|Hlt]]; [|reflexivity|].
    + pose proof (chain_lt_trans _ Hch _ _ _ _ Hlt Hk2 Hk'). lra.
    + pose proof (chain_lt_trans _ Hch _ _ _ _ Hlt Hk' Hk2). lra.
Qed.

(** Part of C18: no visited time falls just below (relative distance 1e-5) a milestone or final_time.
    Missing: the other runs, see C18_requested_time_refuted. *)
Theorem C18_requested_time_exported_partial ft s' ex0 sched st' evs i field fn times la fmt xs sample t :
  register_times (Some S0) (ex_list ex0) = Ok (Some s') ->
  run ft s' ex0 sched = (st', evs, Done) ->
  let x := mk_txt field fn (Some times) la fmt xs sample in
  nth_error (ex_list ex0) i = Some (ETxt x) -> In t times ->
  0 < init -> init <= t -> t <= ft ->
  (forall t' m', In t' (visited evs) ->
     In m' (ft :: match milestones s' with Some l => l | None => [] end) -> t' < m' -> ~ close t' m') ->
  exported_once st' evs i x t.
Proof using project_function.
  intros Hreg H x Hx Hin Hi Hit HtF Hnear.
  apply register_times_ok in Hreg as (s1 & [= <-] & H1 & H2 & H3 & H4 & H5 & H6 & H7 & H8).
  destruct times as [|a r]; [now elim Hin|].
  assert (Hin' : In t (py_sorted (a :: r))) by now apply sorted_in.
  destruct (H5 x (py_sorted (a :: r)) t) as (m & Hm & Hmt);
    [eapply nth_error_In; eauto|reflexivity|assumption|].
  destruct (milestones s') as [l|] eqn:El; [|now elim Hm].
  pose proof (H7 (mk_stepsize_sorted _ _ _ _ _ _ _)) as Hsort. cbn in Hsort.
  cbn in H1.
  destruct (run_milestone temp dens_solve (post_processing is_function project ltf) ft s' l
     T0 Tn0 u0 un0 d0 dn0 (set_final (initialise_exports ex0) ft, []) sched st' evs m)
    as (t' & Hv & Hq); try assumption; try (rewrite ?H1; lra).
  - now apply milestones_set.
  - eapply exported_once_intro; [exact H|exact Hx|reflexivity|exact Hin'|lra|exact Hv|lra].
Qed.

(** Part of C18 in terms of the inputs: fixed stepsize and everything on a common grid h coarser than
    the relative tolerance. *)
Theorem C18_requested_time_grid_partial ft s' ex0 sched st' evs i field fn times la fmt xs sample t h :
  register_times (Some S0) (ex_list ex0) = Ok (Some s') ->
  run ft s' ex0 sched = (st', evs, Done) ->
  let x := mk_txt field fn (Some times) la fmt xs sample in
  nth_error (ex_list ex0) i = Some (ETxt x) -> In t times ->
  ratio = None -> 0 < h ->
  (forall v, In v (init :: ft :: match miles with Some l => l | None => [] end) ->
     0 < v /\ multiple h v /\ (1 # 100000) * v < h) ->
  (forall y ts v, In (ETxt y) (ex_list ex0) -> tx_times y = Some ts -> In v ts ->
     0 < v /\ multiple h v /\ (1 # 100000) * v < h) ->
  init <= t -> t <= ft ->
  exported_once st' evs i x t.
Proof using project_function.
  intros Hreg H x Hx Hin Hr Hh Hall Hall2 Hit HtF.
  apply register_times_ok in Hreg as (s1 & [= <-] & H1 & H2 & H3 & H4 & H5 & H6 & H7 & H8).
  destruct times as [|a r]; [now elim Hin|].
  assert (Hin' : In t (py_sorted (a :: r))) by now apply sorted_in.
  destruct (H5 x (py_sorted (a :: r)) t) as (m & Hm & Hmt);
    [eapply nth_error_In; eauto|reflexivity|assumption|].
  destruct (milestones s') as [l|] eqn:El; [|now elim Hm].
  pose proof (H7 (mk_stepsize_sorted _ _ _ _ _ _ _)) as Hsort. cbn in Hsort.
  cbn in H1.
  assert (Hold : forall v, In v (match milestones S0 with Some l => l | None => [] end) ->
                           In v (match miles with Some l => l | None => [] end)).
  { intros v. cbn. destruct miles as [[|b q]|]; cbn [set_milestones]; [tauto| |tauto].
    apply (sorted_in (b :: q)). }
  destruct (run_milestone_grid temp dens_solve (post_processing is_function project ltf) ft h s' l
     T0 Tn0 u0 un0 d0 dn0 (set_final (initialise_exports ex0) ft, []) sched st' evs m)
    as (t' & Hv & Hq); try assumption; try (rewrite ?H1; lra).
  - rewrite H3. cbn. now rewrite Hr.
  - now apply milestones_set.
  - intros v [<-|[<-|Hl]]; [rewrite H1; apply Hall; now left|apply Hall; right; now left|].
    apply H6 in Hl as [Hl|(y & ts & Hy & Hts & Hl)]; [|eauto]. apply Hall. right. right. now apply Hold.
  - assert (0 < init) by (apply Hall; now left).
    eapply exported_once_intro; [exact H|exact Hx|reflexivity|exact Hin'|lra|exact Hv|lra].
Qed.

(** C16: the times of the table increase (settings as in C09). *)
Theorem C16_times_increase ft sched st' evs stt ex0 n :
  0 < init -> init <= ft ->
  (forall r, ratio = Some r -> 0 < r) ->
  (forall x, stop_max = Some x -> 0 < x) -> (forall t b, bound_at mx t b -> 0 < b) ->
  run ft S0 ex0 sched = (st', evs, stt) ->
  chain Qlt (0 :: computed n 0 (visited evs)).
Proof using project_function.
  intros Hi HiF Hr Hs Hm H.
  assert (Hc : chain Qlt (0 :: visited evs)).
  { refine (proj1 (run_increasing temp dens_solve (post_processing is_function project ltf) ft S0
              _ _ _ _ _ _ _ _ _ _ _ _ Hi HiF H)).
    destruct ratio as [r|] eqn:Er; [|exact I]. apply user_positive; auto. }
  revert Hc. generalize 0 at 1 2. generalize 0%Z. induction (visited evs) as [|t l IH]; intros z a Hc.
  - exact I.
  - destruct Hc as [Hat Hc]. cbn [computed]. destruct (z mod n =? 0)%Z.
    + split; [assumption|]. now apply IH.
    + apply IH. destruct l as [|t2 l]; [exact I|]. destruct Hc as [Ht Hc]. split; [lra|assumption].
Qed.
End RunsQ.

(** ** C50 *)
Section Kinds.
Context {A : Type} {N : Num A} {F V C : Type}.
Variable is_function : F -> bool.
Variable project : F -> F.
Local Notation store := (store (A:=A) F V).
Local Notation quantity := (quantity (A:=A) F V).

(** The fields in [d] allow computing q: its field is a function (so not the retention of a
    simulation with traps), for a flux it has a transport property, for an adsorbed hydrogen quantity
    some SurfaceKinetics acts on its surface. *)
Definition usable (d : dict F) (q : quantity) : Prop :=
  (is_flux (q_kind q) = true -> has_prop (q_field q) = true) /\
  match q_kind q with
  | AdsorbedHydrogen =>
      exists l surf, lookup d (q_field q) = Some (FAds l) /\ q_surface q = Some surf /\
        (forall sols surfs, In (sols, surfs) l -> length sols = length surfs) /\
        exists sols surfs, In (sols, surfs) l /\ In surf surfs
  | _ => exists f, lookup d (q_field q) = Some (FFun f) /\ is_function f = true
  end.
Definition surface_extremum (q : quantity) : Prop :=
  q_kind q = MaximumSurface \/ q_kind q = MinimumSurface.

Definition ready (q : quantity) : Prop :=
  ~ surface_extremum q /\ (is_flux (q_kind q) = true -> has_prop (q_field q) = true) /\
  exists f, q_function q = Some f /\
    (is_extremum_volume (q_kind q) || uses_r (q_kind q) = true -> is_function_val is_function f = true)%bool.

Lemma index_of_in z l : In z l -> exists n, index_of z l = Some n /\ n < length l.
Proof using Type.
  induction l as [|a r IH]; intros H; [now elim H|]. cbn. destruct (Z.eqb_spec a z) as [->|Hne].
  - exists 0. split; [reflexivity|lia].
  - destruct H as [->|H]; [congruence|]. destruct (IH H) as (n & -> & Hn). exists (S n). split; [reflexivity|lia].
Qed.
Lemma index_of_lt z l n : index_of z l = Some n -> n < length l.
Proof using Type.
  revert n. induction l as [|a r IH]; intros n H; [discriminate|]. cbn in H. destruct (Z.eqb a z).
  - injection H as <-. cbn. lia.
  - destruct (index_of z r) as [m|]; [|discriminate]. cbn in H. injection H as <-.
    specialize (IH m eq_refl). cbn. lia.
Qed.
Lemma adsorbed_some surf (l : list (list F * list Z)) : forall cur,
  (forall sols surfs, In (sols, surfs) l -> length sols = length surfs) ->
  cur <> None \/ (exists sols surfs, In (sols, surfs) l /\ In surf surfs) ->
  exists f, adsorbed_function surf l cur = Ok (Some f).
Proof using Type.
  induction l as [|[sols surfs] r IH]; intros cur Hl H.
  - destruct H as [H|(? & ? & [] & _)]. destruct cur as [f|]; [|congruence]. eexists. reflexivity.
  - cbn. destruct (index_of surf surfs) as [n|] eqn:E.
    + apply index_of_lt in E. rewrite <- (Hl sols surfs) in E by now left.
      destruct (nth_error sols n) as [f|] eqn:En; [|apply nth_error_None in En; lia].
      apply IH; [intros; apply Hl; now right|left; discriminate].
    + apply IH; [intros; apply Hl; now right|]. destruct H as [H|(so & su & [[= -> ->]|Hin] & Hs)]; [tauto| |right; eauto].
      apply index_of_in in Hs as (n & Hn & _). congruence.
Qed.

Lemma prepare_ready (d : dict F) qs : forall (s : store),
  (forall i, In i qs -> usable d (s i) /\ ~ surface_extremum (s i)) ->
  exists s1, prepare is_function project s d qs = Ok (s1, d) /\
    (forall i, q_kind (s1 i) = q_kind (s i) /\ q_field (s1 i) = q_field (s i)) /\
    (forall i, In i qs -> ready (s1 i)) /\ (forall i, ~ In i qs -> s1 i = s i).
Proof using Type.
  induction qs as [|i r IH]; intros s Hok.
  - exists s. split; [reflexivity|]. split; [auto|]. split; [intros ? []|auto].
  - destruct (Hok i (or_introl eq_refl)) as [[Hfl Hu] Hne].
    assert (Hstep : exists f,
      (is_extremum_volume (q_kind (s i)) || uses_r (q_kind (s i)) = true -> is_function_val is_function f = true)%bool /\
      prepare is_function project s d (i :: r) =
      prepare is_function project (upd s i (set_function (s i) (Some f))) d r).
    { destruct (is_adsorbed (q_kind (s i))) eqn:Ead.
      - destruct (q_kind (s i)) eqn:Ek; try discriminate Ead.
        destruct Hu as (l & surf & Hl & Hsu & Hlen & Hex).
        destruct (adsorbed_some surf l (q_function (s i)) Hlen (or_intror Hex)) as (f & Hf).
        exists f. split; [discriminate|]. cbn [prepare]. rewrite Ek. cbn [is_extremum_volume is_adsorbed bind].
        unfold getitem. rewrite Hl. cbn [bind]. rewrite Hsu, Hf. reflexivity.
      - assert (Hu' : exists f, lookup d (q_field (s i)) = Some (FFun f) /\ is_function f = true)
          by (destruct (q_kind (s i)); try exact Hu; discriminate Ead).
        destruct Hu' as (f & Hl & Hf). exists (FFun f). split; [intros _; exact Hf|].
        cbn [prepare]. rewrite Ead.
        assert (Hp : project_item is_function project d (q_field (s i)) = Ok d).
        { unfold project_item, getitem. rewrite Hl. cbn. now rewrite Hf. }
        destruct (is_extremum_volume (q_kind (s i))); rewrite ?Hp; cbn [bind]; unfold getitem; rewrite Hl; reflexivity. }
    destruct Hstep as (f & Hf & ->).
    destruct (IH (upd s i (set_function (s i) (Some f)))) as (s1 & Hs1 & Hst & Hr & Ho).
    { intros j Hj. unfold upd. destruct (Nat.eqb_spec j i) as [->|]; [|apply Hok; now right].
      split; [split; [exact Hfl|exact Hu]|exact Hne]. }
    assert (Hst' : forall j, q_kind (s1 j) = q_kind (s j) /\ q_field (s1 j) = q_field (s j)).
    { intros j. destruct (Hst j) as [-> ->]. unfold upd. destruct (Nat.eqb_spec j i) as [->|]; auto. }
    exists s1. split; [exact Hs1|]. split; [exact Hst'|]. split.
    + intros j [<-|Hj]; [|auto]. destruct (in_dec Nat.eq_dec i r) as [Hin|Hnin]; [auto|].
      rewrite (Ho i Hnin). unfold upd. rewrite Nat.eqb_refl.
      split; [exact Hne|]. split; [exact Hfl|]. exists f. auto.
    + intros j Hj. rewrite Ho by (intros Hin; apply Hj; now right). unfold upd.
      destruct (Nat.eqb_spec j i) as [->|]; [|reflexivity]. elim Hj. now left.
Qed.

Lemma compute_ready (q : quantity) : ready q ->
  exists q' v, compute_quantity is_function q = Ok (q', v) /\ (q' = q \/ q' = set_r q).
Proof using Type.
  intros (Hne & Hfl & f & Hf & Hfun). unfold compute_quantity. rewrite Hf.
  unfold surface_extremum in Hne.
  assert (H : exists q' v,
     (if (is_extremum_volume (q_kind q) && negb (is_function_val is_function f))%bool
          then Err (AttributeError "function_space")
          else if (uses_r (q_kind q) && negb (q_r q) && negb (is_function_val is_function f))%bool
          then Err (AttributeError "function_space")
          else if (is_flux (q_kind q) && negb (has_prop (q_field q)))%bool
          then Err (KeyError "")
          else Ok (if uses_r (q_kind q) then set_r q else q, q_assemble q f)) = Ok (q', v) /\ (q' = q \/ q' = set_r q)).
  { destruct (is_function_val is_function f).
    - rewrite !andb_false_r. destruct (is_flux (q_kind q)); [rewrite Hfl by reflexivity|];
        cbn [andb negb]; do 2 eexists; (split; [reflexivity|]); destruct (uses_r (q_kind q)); auto.
    - apply orb_false_iff in Hfun as [-> ->] || (destruct (is_extremum_volume (q_kind q)), (uses_r (q_kind q));
        cbn in Hfun; try (specialize (Hfun eq_refl); discriminate)); cbn [andb].
      destruct (is_flux (q_kind q)); [rewrite Hfl by reflexivity|];
        cbn [andb negb]; do 2 eexists; (split; [reflexivity|]); auto. }
  destruct (q_kind q) eqn:Ek; try exact H; exfalso; apply Hne; auto.
Qed.

Lemma compute_loop_ready (dq : derived (A:=A) V) t qs : forall (s : store) data vals,
  (forall i, In i qs -> ready (s i)) ->
  exists s' data' vs, compute_loop is_function s dq t data vals qs = Ok (s', data', (vals ++ vs)%list) /\
    length vs = length qs.
Proof using Type.
  induction qs as [|i r IH]; intros s data vals Hr.
  - exists s, data, []. rewrite app_nil_r. auto.
  - cbn [compute_loop]. destruct (compute_ready (s i) (Hr i (or_introl eq_refl))) as (q' & v & -> & Hq').
    cbn [bind].
    match goal with |- context [compute_loop _ ?s2 _ _ ?da ?va r] => destruct (IH s2 da va) as (s' & data' & vs & Hl & Hlen) end.
    { intros j Hj. unfold upd. destruct (Nat.eqb_spec j i) as [->|]; [|apply Hr; now right].
      specialize (Hr i (or_introl eq_refl)). destruct Hq' as [-> | ->]; exact Hr. }
    rewrite Hl. exists s', data', (v :: vs). rewrite <- app_assoc. split; [reflexivity|]. cbn. congruence.
Qed.

(** Part of C50: everything but MaximumSurface and MinimumSurface. *)
Theorem C50_kinds_partial (s : store) (dq : derived (A:=A) V) (d : dict F) t :
  (forall i, In i (dq_list dq) -> usable d (s i) /\ ~ surface_extremum (s i)) ->
  exists s1 s2 dq2 vs, prepare is_function project s d (dq_list dq) = Ok (s1, d) /\
    dq_run_compute is_function s1 dq t = Ok (s2, dq2) /\
    length vs = length (dq_list dq) /\ exists pre, dq_data dq2 = (pre ++ [Row t vs])%list.
Proof using Type.
  intros H. destruct (prepare_ready d (dq_list dq) s H) as (s1 & Hp & _ & Hr & _).
  destruct (compute_loop_ready dq t (dq_list dq) s1 (dq_data dq) [] Hr) as (s2 & data & vs & Hc & Hl).
  exists s1, s2. unfold dq_run_compute. rewrite Hc. cbn. eexists. exists vs.
  split; [exact Hp|]. split; [reflexivity|]. split; [exact Hl|]. exists data. reflexivity.
Qed.

(** C50 is false: no list containing one of the two can be computed, whatever the fields. *)
Theorem C50_kinds_refuted (s : store) (dq : derived (A:=A) V) t i :
  In i (dq_list dq) -> surface_extremum (s i) ->
  forall r, dq_run_compute is_function s dq t <> Ok r.
Proof using Type.
  intros Hin Hsu r H. unfold dq_run_compute in H.
  destruct (compute_loop is_function s dq t (dq_data dq) [] (dq_list dq)) as [[[s' da] vs]|] eqn:E; [|discriminate].
  clear H. revert Hsu E. generalize (dq_data dq). generalize (@nil V). revert s.
  induction (dq_list dq) as [|j l IH]; intros s vals data Hsu E; [now elim Hin|].
  cbn [compute_loop] in E.
  destruct (Nat.eq_dec j i) as [->|Hne].
  - unfold compute_quantity in E. destruct Hsu as [Hk|Hk]; rewrite Hk in E; discriminate.
  - destruct Hin as [?|Hin]; [congruence|].
    destruct (compute_quantity is_function (s j)) as [[q v]|]; [|discriminate]. cbn [bind] in E.
    apply (IH Hin) in E; [exact E|]. unfold upd. destruct (Nat.eqb_spec i j); [congruence|exact Hsu].
Qed.
End Kinds.

(** ** C52 *)
Section Files.
Context {A : Type} {N : Num A} {F V C : Type}.
Fixpoint has_slash (p : string) : bool :=
  match p with EmptyString => false | String c r => (Ascii.eqb c "/" || has_slash r)%bool end.

Lemma head_part_slash p : head_part p = EmptyString <-> has_slash p = false.
Proof using Type.
  induction p as [|c r IH]; cbn; [tauto|]. destruct (head_part r) eqn:E.
  - assert (Hr : has_slash r = false) by now apply IH. rewrite Hr, orb_false_r. unfold slash.
    destruct (Ascii.eqb c "/"); split; congruence.
  - split; [discriminate|]. intros H. apply orb_false_iff in H as [_ H]. apply IH in H. discriminate.
Qed.
Lemma dirname_slash p : dirname p = EmptyString <-> has_slash p = false.
Proof using Type.
  rewrite <- head_part_slash. unfold dirname. destruct (rstrip_slash (head_part p)) eqn:E; [tauto|].
  split; [discriminate|]. intros H. rewrite H in E. discriminate.
Qed.
Lemma ensure_folder_slash fs p : has_slash p = true ->
  exists fs', ensure_folder fs p = Ok fs' /\ path_exists fs' (dirname p) = true.
Proof using Type.
  intros H. unfold ensure_folder. destruct (path_exists fs (dirname p)) eqn:E; [eauto|].
  unfold makedirs. destruct (String.eqb_spec (dirname p) "") as [Hd|Hd].
  - apply dirname_slash in Hd. congruence.
  - eexists. split; [reflexivity|]. unfold path_exists. cbn.
    rewrite String.eqb_refl. apply String.eqb_neq in Hd. now rewrite Hd.
Qed.
Lemma ensure_folder_no_slash fs p : has_slash p = false -> forall fs', ensure_folder fs p <> Ok fs'.
Proof using Type.
  intros H fs'. apply dirname_slash in H. unfold ensure_folder. rewrite H. cbn. discriminate.
Qed.

(** Part of C52: a file name with a directory part.  The folder exists afterwards. *)
Theorem C52_files_partial fs (d : derived (A:=A) V) (x : txt (A:=A) F C) fn f col0 h0 t fin :
  has_slash fn = true ->
  (dq_filename d = Some fn ->
     exists fs', dq_write (F:=F) (C:=C) fs d = Ok (fs', [WCsv fn (dq_data d)]) /\ path_exists fs' (dirname fn) = true) /\
  (tx_filename x = Some fn -> tx_data x = Some col0 -> tx_header x = Some h0 ->
     tx_is_time x t = true -> tx_last x = false ->
     exists fs' x' h, tx_write (V:=V) fs x (FFun f) t fin =
       Ok (fs', x', [WTxt fn h (col0 ++ [tx_sample x f])%list]) /\ path_exists fs' (dirname fn) = true).
Proof using Type.
  intros Hs. destruct (ensure_folder_slash fs fn Hs) as (fs' & He & Hp). split.
  - intros Hfn. exists fs'. unfold dq_write. rewrite Hfn, He. auto.
  - intros Hfn Hd Hh Hti Hla. unfold tx_write. rewrite Hti, Hfn, Hd, Hh, He. cbn [bind]. rewrite Hla. cbn [bind]. eauto.
Qed.

(** The folder is the name up to its last slash: created if it is not there, and nothing else. *)
Lemma head_part_app x y : head_part y <> EmptyString -> head_part (x ++ y) = (x ++ head_part y)%string.
Proof using Type.
  intros Hy. induction x as [|c x IH]; [reflexivity|]. cbn [append head_part]. rewrite IH.
  destruct (x ++ head_part y)%string eqn:E; [|reflexivity]. exfalso. apply Hy. destruct x; [exact E|discriminate E].
Qed.
Lemma rstrip_slash_app x y : rstrip_slash y <> EmptyString -> rstrip_slash (x ++ y) = (x ++ rstrip_slash y)%string.
Proof using Type.
  intros Hy. induction x as [|c x IH]; [reflexivity|]. cbn [append rstrip_slash]. rewrite IH.
  destruct (x ++ rstrip_slash y)%string eqn:E; [|reflexivity]. exfalso. apply Hy. destruct x; [exact E|discriminate E].
Qed.
Lemma dirname_of d c name : c <> "/"%char -> has_slash name = false ->
  dirname (d ++ String c (String "/" name)) = (d ++ String c "")%string.
Proof using Type.
  intros Hc Hn. assert (Hh : head_part name = EmptyString) by now apply head_part_slash.
  assert (H1 : head_part (String c (String "/" name)) = String c "/") by (cbn [head_part]; rewrite Hh; reflexivity).
  assert (H2 : rstrip_slash (String c "/") = String c "").
  { cbn [rstrip_slash]. unfold slash. cbn. destruct (Ascii.eqb_spec c "/"); [contradiction|reflexivity]. }
  unfold dirname. rewrite head_part_app by (rewrite H1; discriminate). rewrite H1.
  rewrite rstrip_slash_app by (rewrite H2; discriminate). rewrite H2.
  destruct (d ++ String c "")%string eqn:E; [destruct d; discriminate E|reflexivity].
Qed.
Theorem C52_folder_partial fs (dq : derived (A:=A) V) (x : txt (A:=A) F C) dir c name f t fin :
  c <> "/"%char -> has_slash name = false ->
  let folder := (dir ++ String c "")%string in
  let fn := (folder ++ "/" ++ name)%string in
  let made := if existsb (String.eqb folder) fs then fs else (folder :: fs)%list in
  (dq_filename dq = Some fn -> dq_write (F:=F) (C:=C) fs dq = Ok (made, [WCsv fn (dq_data dq)])) /\
  (tx_filename x = Some fn -> forall fs' x' ws, tx_write (V:=V) fs x (FFun f) t fin = Ok (fs', x', ws) ->
     fs' = (if tx_is_time x t then made else fs)).
Proof using Type.
  intros Hc Hn folder fn made.
  assert (Hfn : fn = (dir ++ String c (String "/" name))%string).
  { assert (K : forall d, ((d ++ String c "") ++ "/" ++ name)%string = (d ++ String c (String "/" name))%string)
      by (clear; induction d as [|a r IH]; [reflexivity|]; cbn [append]; f_equal; exact IH).
    apply K. }
  assert (He : ensure_folder fs fn = Ok made).
  { unfold ensure_folder. rewrite Hfn, (dirname_of dir c name Hc Hn). fold folder. unfold path_exists, makedirs, made.
    destruct (String.eqb_spec folder "") as [E|_]; [unfold folder in E; destruct dir; discriminate E|]. cbn [negb andb].
    now destruct (existsb (String.eqb folder) fs). }
  split.
  - intros Hd. unfold dq_write. rewrite Hd, He. reflexivity.
  - intros Hx fs' x' ws. unfold tx_write. rewrite Hx. destruct (tx_is_time x t).
    + destruct (tx_data x); [|discriminate]. destruct (tx_header x); [|discriminate]. rewrite He. cbn [bind].
      destruct (if tx_last x then tx_is_last x t fin else Ok true) as [b|e]; cbn [bind]; [|discriminate].
      intros [= <- _ _]. reflexivity.
    + congruence.
Qed.
Example C52_folder_example :
  ensure_folder ["old"%string] "results/run/a.csv" = Ok ["results/run"%string; "old"%string] /\
  ensure_folder ["old"%string] "old/a.csv" = Ok ["old"%string].
Proof using Type. split; reflexivity. Qed.

(** C52 is false: a file name without directory part cannot be written, whatever the extension. *)
Theorem C52_files_refuted fs (d : derived (A:=A) V) (x : txt (A:=A) F C) fn f t fin :
  has_slash fn = false ->
  (dq_filename d = Some fn -> forall r, dq_write (F:=F) (C:=C) fs d <> Ok r) /\
  (tx_filename x = Some fn -> tx_is_time x t = true -> forall r, tx_write (V:=V) fs x f t fin <> Ok r).
Proof using Type.
  intros Hs. pose proof (ensure_folder_no_slash fs fn Hs) as He. split.
  - intros Hfn r. unfold dq_write. rewrite Hfn. destruct (ensure_folder fs fn); [now elim (He a)|discriminate].
  - intros Hfn Hti r. unfold tx_write. rewrite Hti, Hfn.
    destruct f; [|discriminate]. destruct (tx_data x); [|discriminate]. destruct (tx_header x); [|discriminate].
    destruct (ensure_folder fs fn); [now elim (He a)|discriminate].
Qed.
End Files.

(** * Refutations and examples *)
Local Open Scope Q_scope.

(** An XDMFExport with mode "last" makes a steady simulation fail. *)
Theorem C15_steady_mode_last_fails {F V C} is_function project (ex : exports (A:=Q) F V C) d t x :
  In (EXdmf x) (ex_list ex) -> xd_mode x = Last -> ex_final ex = None ->
  forall r, write is_function project ex d t <> Ok r.
Proof.
  intros Hin Hm Hf r. unfold write. rewrite Hf.
  assert (H : forall (l : list (export (A:=Q) F V C)) i s fs d, In (EXdmf x) l ->
    forall r, write_loop is_function project s fs d t None (ex_nb ex) i l <> Ok r).
  { induction l as [|e l IH]; intros i s fs d0 Hl r0; [now elim Hl|]. cbn [write_loop].
    destruct Hl as [-> |Hl].
    - cbn [write_one]. unfold xd_is_export. rewrite Hm. discriminate.
    - destruct (write_one is_function project s fs d0 t None (ex_nb ex) e) as [[[[[e' s1] fs1] d1] w]|]; [|discriminate].
      cbn [bind]. destruct (write_loop is_function project s1 fs1 d1 t None (ex_nb ex) (S i) l) as [p|] eqn:E; [|discriminate].
      now apply IH in E. }
  destruct (write_loop is_function project (ex_store ex) (ex_fs ex) d t None (ex_nb ex) 0 (ex_list ex)) as [p|] eqn:E;
    [|discriminate]. now apply H in E.
Qed.

(** A simulation whose temperature is 300 + 10 t and whose only field is T; the functions are numbers. *)
Definition demo_ltf (_ : unit) (T : Q) : dict Q := [(LStr "T", FFun T)].
Definition demo (ft : Q) (s : stepsize Q) (l : list (export (A:=Q) Q Q Q)) (st : store (A:=Q) Q Q)
  (sched : list (list (attempt unit))) :=
  run_exports (TempExpr (fun t => 300 + 10 * t)) (fun (_ _ : unit) _ _ => tt) (fun _ => true) (fun f => f)
    demo_ltf 300 300 tt tt tt tt ft s (mkExports l st [] None 0) sched.
Definition val (v : fval Q) : Q := match v with FFun f => f | FAds _ => 0 end.
Definition demo_q (k : qkind) (title : string) : quantity (A:=Q) Q Q :=
  mkQuantity k (LStr "T") None (Some 1%Z) (fun _ => title) val None false [] [].
Definition demo_store : store (A:=Q) Q Q :=
  fun i => demo_q (if Nat.eqb i 0 then AverageVolume else MaximumVolume) (if Nat.eqb i 0 then "mean" else "max")%string.
Definition demo_dq (qs : list nat) (m : option Z) : derived (A:=Q) Q :=
  mkDerived qs (Some "out/d.csv"%string) 2 m false [] [].
Definition demo_txt (times : option (list Q)) : txt (A:=Q) Q Q :=
  mk_txt (LStr "T") (Some "out/p.txt"%string) times true (fun t => if Qle_bool t 1 then "1,0" else "2,0")%string 0 (fun f => f).
Definition demo_txt2 (times : option (list Q)) (la : bool) : txt (A:=Q) Q Q :=
  mk_txt (LStr "T") (Some "out/p.txt"%string) times la (fun t => if Qle_bool t 1 then "1e0" else "2e0")%string 0 (fun f => f).

Local Lemma split3 {P R W} (r : P * R * W) w : snd r = w -> r = (fst (fst r), snd (fst r), w).
Proof. intros <-. destruct r as [[? ?] ?]. reflexivity. Qed.
Local Lemma forallb_false {B} (f : B -> bool) l :
  forallb (fun x => negb (f x)) l = true -> forall x, In x l -> ~ f x = true.
Proof. rewrite forallb_forall. intros H x Hin. specialize (H x Hin). now destruct (f x). Qed.
Ltac done_run := apply split3; vm_compute; reflexivity.
Definition fixed (d : Q) (ml : option (list Q)) : stepsize Q := mk_stepsize d None None None MaxNone None ml.

(** C16 needs a non-empty list (otherwise there is no header) of distinct objects (otherwise a
    quantity records several values per computation). *)
Theorem C16_empty_list_refuted :
  exists st' evs dq', demo 2 (fixed 1 None) [EDerived (demo_dq [] None)] demo_store (repeat [ok 3] 2) = (st', evs, Done) /\
    nth_error (ex_list (fst (st_exp st'))) 0 = Some (EDerived dq') /\ dq_data dq' = [Row 1 []].
Proof.
  do 2 eexists. eexists (mkDerived _ _ _ _ _ _ _). split; [done_run|].
  split; vm_compute; reflexivity.
Qed.
Theorem C16_repeated_object_refuted :
  exists st' evs, demo 1 (fixed 1 None) [EDerived (demo_dq [0; 0]%nat None)] demo_store [[ok 3]] = (st', evs, Done) /\
    length (q_data (ex_store (fst (st_exp st')) 0%nat)) = 2%nat.
Proof. do 2 eexists. split; [done_run|]. vm_compute. reflexivity. Qed.

(** C18 is false: times 0.999999, 1, 1.1 with stepsize 0.5 and final_time 2 (compare C03). *)
Theorem C18_requested_time_refuted :
  exists (times : list Q) (t ft init : Q) s' st' evs,
    In t times /\ 0 < init /\ init <= t /\ t <= ft /\
    register_times (Some (fixed init None)) [ETxt (F:=Q) (V:=Q) (demo_txt2 (Some times) false)] = Ok (Some s') /\
    demo ft s' [ETxt (demo_txt2 (Some times) false)] demo_store (repeat [ok 3] 4) = (st', evs, Done) /\
    forall t', In t' (visited evs) -> ~ close t' t.
Proof.
  exists [1 - (1 # 1000000); 1; 1 + (1 # 10)], (1 + (1 # 10)), 2, (1 # 2).
  do 3 eexists. split; [cbn; tauto|]. split; [lra|]. split; [lra|]. split; [lra|].
  split; [cbn; reflexivity|]. split; [done_run|].
  intros t Hin Hc. unfold close in Hc. apply Qle_bool_iff in Hc. revert t Hin Hc.
  apply forallb_false. vm_compute. reflexivity.
Qed.

(** C19 needs a header_format that produces no comma. *)
Theorem C19_comma_format_refuted :
  exists st' evs x' h c, demo 1 (fixed 1 None) [ETxt (demo_txt None)] demo_store [[ok 3]] = (st', evs, Done) /\
    nth_error (ex_list (fst (st_exp st'))) 0 = Some (ETxt x') /\
    tx_header x' = Some h /\ tx_data x' = Some c /\ length (entries h) = 3%nat /\ length c = 2%nat.
Proof.
  do 2 eexists. eexists (mkTxt _ _ _ _ _ _ _ _ _). do 2 eexists. split; [done_run|].
  split; [vm_compute; reflexivity|]. split; [reflexivity|]. split; [reflexivity|]. vm_compute. split; reflexivity.
Qed.

(** C20 is false: times=[1, 5] with final_time=2; the file is never written, although the time 1
    was exported. *)
Theorem C20_last_time_refuted :
  exists s' st' evs x',
    register_times (Some (fixed 1 None)) [ETxt (F:=Q) (V:=Q) (demo_txt2 (Some [1; 5]) true)] = Ok (Some s') /\
    demo 2 s' [ETxt (demo_txt2 (Some [1; 5]) true)] demo_store (repeat [ok 3] 2) = (st', evs, Done) /\
    written_by 0 (snd (st_exp st')) = [] /\
    nth_error (ex_list (fst (st_exp st'))) 0 = Some (ETxt x') /\ tx_data x' = Some [0; 310].
Proof.
  do 3 eexists. eexists (mkTxt _ _ _ _ _ _ _ _ _). split; [cbn; reflexivity|]. split; [done_run|].
  split; [vm_compute; reflexivity|]. split; vm_compute; reflexivity.
Qed.

(** ** Examples *)

(** Four steps; XDMFExport(mode=2), XDMFExport(mode="last"), DerivedQuantities of two quantities
    computed every 2 steps and exported every 3, one exported at the end, TXTExport. *)
Definition demo_list : list (export (A:=Q) Q Q Q) :=
  [EXdmf (mkXdmf (LStr "T") (Every 2) true None false); EXdmf (mkXdmf (LStr "T") Last true None false);
   EDerived (demo_dq [0; 1]%nat (Some 3%Z)); EDerived (demo_dq [2]%nat None); ETxt (demo_txt2 None true)].
Definition demo_run := demo 4 (fixed 1 None) demo_list demo_store (repeat [ok 3] 4).
Definition demo_log := snd (st_exp (fst (fst demo_run))).

Example C14_C15_C17_C20_example :
  snd demo_run = Done /\
  steps_written 0 demo_log = [0; 2]%nat /\ steps_written 1 demo_log = [3]%nat /\
  steps_written 2 demo_log = [0; 3]%nat /\ steps_written 3 demo_log = [3]%nat /\
  steps_written 4 demo_log = [3]%nat.
Proof. vm_compute. repeat split; reflexivity. Qed.

Example C14_C15_hypotheses :
  set_mode (MInt 2) = Ok (Every 2) /\ set_mode (MStr "last") = Ok Last /\
  (forall t, In t (visited (snd (fst demo_run))) -> t <= 4) /\
  own_quantities demo_list 2 (demo_dq [0; 1]%nat (Some 3%Z)) /\ own_quantities demo_list 3 (demo_dq [2]%nat None).
Proof.
  split; [reflexivity|]. split; [reflexivity|]. split; [|split].
  - intros t Hin. apply Qle_bool_iff. revert t Hin. apply forallb_forall. vm_compute. reflexivity.
  - split; [repeat constructor; cbn; intuition discriminate|].
    intros k dq2 q Hk Hn. destruct k as [|[|[|[|[|[|k]]]]]]; cbn in Hn; try discriminate; try lia.
    injection Hn as <-. cbn. intuition congruence.
  - split; [repeat constructor; cbn; intuition discriminate|].
    intros k dq2 q Hk Hn. destruct k as [|[|[|[|[|[|k]]]]]]; cbn in Hn; try discriminate; try lia.
    injection Hn as <-. cbn. intuition congruence.
Qed.

(** A run that overshoots: final_time 1, first step 3. *)
Example C15_overshoot_example :
  snd (demo 1 (fixed 3 None) demo_list demo_store [[ok 3]]) = Done /\
  visited (snd (fst (demo 1 (fixed 3 None) demo_list demo_store [[ok 3]]))) = [3].
Proof. vm_compute. split; reflexivity. Qed.
Example C15_overshoot_not_close : ~ close 3 1.
Proof. unfold close. vm_compute. intros H. now elim H. Qed.

(** The csv written at the last step: header and the rows of steps 0 and 2. *)
Example C16_C17_example :
  exists t, last (written_by 2 demo_log) (0%nat, 0, WTxt "" "" []) =
    (3%nat, t, WCsv "out/d.csv" [Header ["t(s)"; "mean"; "max"]%string; Row 1 [310; 310]; Row 3 [330; 330]]) .
Proof. eexists. vm_compute. reflexivity. Qed.

Example C19_example :
  (forall t, no_comma (tx_format (demo_txt2 None true) t)) /\
  exists t, written_by 4 (snd (st_exp (fst (fst (demo 2 (fixed 1 None) demo_list demo_store (repeat [ok 3] 2)))))) =
    [(1%nat, t, WTxt "out/p.txt" "x,t=1e0s,t=2e0s" [0; 310; 320])].
Proof.
  split.
  - intros t. cbn. destruct (Qle_bool t 1); cbn; repeat split; discriminate.
  - eexists. vm_compute. reflexivity.
Qed.

(** times [0.75, 1.5], stepsize 0.5, final_time 2, on the grid 0.25. *)
Definition ex18 := [ETxt (F:=Q) (V:=Q) (demo_txt2 (Some [3 # 2; 3 # 4]) true)].
Example C18_C20_example :
  exists s', register_times (Some (fixed (1 # 2) None)) ex18 = Ok (Some s') /\
    milestones s' = Some [3 # 4; 3 # 2] /\
    snd (demo 2 s' ex18 demo_store (repeat [ok 3] 7)) = Done /\
    map Qred (visited (snd (fst (demo 2 s' ex18 demo_store (repeat [ok 3] 7))))) =
      ([1 # 2; 3 # 4; 1; 5 # 4] ++ (3 # 2) :: [7 # 4; 2])%list /\
    steps_written 0 (snd (st_exp (fst (fst (demo 2 s' ex18 demo_store (repeat [ok 3] 7)))))) = [4%nat] /\
    (forall v, In v [1 # 2; 2; 3 # 2; 3 # 4] -> 0 < v /\ multiple (1 # 4) v /\ (1 # 100000) * v < 1 # 4).
Proof.
  eexists. split; [vm_compute; reflexivity|]. split; [vm_compute; reflexivity|].
  split; [vm_compute; reflexivity|]. split; [vm_compute; reflexivity|]. split; [vm_compute; reflexivity|].
  intros x Hx. unfold multiple. cbn in Hx. repeat destruct Hx as [<-|Hx]; [..|destruct Hx];
    (split; [lra|]; split; [|lra]).
  - exists 2%Z. reflexivity.
  - exists 8%Z. reflexivity.
  - exists 6%Z. reflexivity.
  - exists 3%Z. reflexivity.
Qed.
Example C18_C20_no_near_miss :
  forall t' m', In t' [1 # 2; 3 # 4; 1; 5 # 4; 3 # 2; 7 # 4; 2] -> In m' [2; 3 # 4; 3 # 2] -> t' < m' -> ~ close t' m'.
Proof.
  intros t m' Ht Hm Hlt Hc. unfold close in Hc. apply Qle_bool_iff in Hc.
  assert (Hb : forallb (fun t => forallb (fun m => Qle_bool m t ||
             negb (Qle_bool (Qabs.Qabs (t - m)) ((1 # 100000) * Qabs.Qabs m)))%bool [2; 3 # 4; 3 # 2])
             [1 # 2; 3 # 4; 1; 5 # 4; 3 # 2; 7 # 4; 2] = true) by (vm_compute; reflexivity).
  rewrite forallb_forall in Hb. specialize (Hb t Ht). rewrite forallb_forall in Hb.
  specialize (Hb m' Hm). rewrite Hc in Hb. rewrite orb_false_r in Hb.
  apply Qle_bool_iff in Hb. lra.
Qed.

Example C50_example :
  forall i, In i [0; 1]%nat ->
    usable (fun _ => true) (demo_ltf tt 300) (demo_store i) /\ ~ surface_extremum (demo_store i).
Proof.
  intros i [<-|[<-|[]]]; (split; [split; [discriminate|]; exists 300; split; reflexivity|]);
    intros [H|H]; discriminate H.
Qed.
Example C50_refuted_example : surface_extremum (demo_q MaximumSurface "max") /\
  check_filename ".csv" (Some "out.csv"%string) = Ok (Some "out.csv"%string) /\ has_slash "out.csv" = false /\
  check_filename ".txt" (Some "a/b.txt"%string) = Ok (Some "a/b.txt"%string) /\ has_slash "a/b.txt" = true.
Proof. split; [left; reflexivity|]. vm_compute. repeat split; reflexivity. Qed.

Print Assumptions C14_every_nth_step.
Print Assumptions C15_last_written_once.
Print Assumptions C15_table_written_once.
Print Assumptions C15_overshoot_never_written.
Print Assumptions C15_steady_mode_last_fails.
Print Assumptions C16_table_is_rectangular.
Print Assumptions C16_times_increase.
Print Assumptions C16_empty_list_refuted.
Print Assumptions C16_repeated_object_refuted.
Print Assumptions C17_csv_intervals.
Print Assumptions C18_times_become_milestones.
Print Assumptions C18_requested_time_exported_partial.
Print Assumptions C18_requested_time_grid_partial.
Print Assumptions C18_requested_time_refuted.
Print Assumptions C19_header_matches_columns.
Print Assumptions C19_comma_format_refuted.
Print Assumptions C20_written_at_the_end.
Print Assumptions C20_written_at_last_time_partial.
Print Assumptions C20_last_time_refuted.
Print Assumptions C50_kinds_partial.
Print Assumptions C50_kinds_refuted.
Print Assumptions C52_files_partial.
Print Assumptions C52_folder_partial.
Print Assumptions C52_files_refuted.
