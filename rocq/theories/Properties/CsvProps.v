(** C67: the derived quantities file that a run writes. *)
From Coq Require Import ZArith QArith List Bool String Lia.
From Verif Require Import Base.Exc Base.Num Model.Stepsize Model.TimeLoop Model.Exports Model.Csv
  Spec.TimeSpec Spec.ExportSpec Proofs.TimeLoopProofs Proofs.TimeChain Proofs.TimeQ Proofs.TimeWitness
  Proofs.ExportProofs Proofs.ExportTrack Proofs.ExportRuns Properties.ExportProps Properties.TitleProps.
Import ListNotations.
Local Open Scope nat_scope.
Local Notation length := List.length.

Lemma mk_row_inj {A V} (l1 l2 : list (A * list V)) : map mk_row l1 = map mk_row l2 -> l1 = l2.
Proof.
  revert l2. induction l1 as [|[t v] l1 IH]; intros [|[t' v'] l2] H; try discriminate; [reflexivity|].
  cbn in H. injection H as -> -> H. f_equal. now apply IH.
Qed.

Section Runs.
Context {A : Type} {N : Num A} {U X D F V C : Type}.
Variable temp : temperature (A:=A) X.
Variable dens_solve : D -> D -> A -> X -> D.
Variable is_function : F -> bool.
Variable project : F -> F.
Hypothesis project_function : forall f, is_function (project f) = true.
Variable ltf : U -> X -> dict F.
Variables (T0 Tn0 : X) (u0 un0 : U) (d0 dn0 : D).
Local Notation run ft s ex0 sched :=
  (run_exports (V:=V) (C:=C) temp dens_solve is_function project ltf T0 Tn0 u0 un0 d0 dn0 ft s ex0 sched).
Local Notation st_log st := (snd (st_exp st)).
Variable show_t : A -> string.
Variable show_v : V -> string.
Hypothesis show_t_comma : forall t, no_comma (show_t t).
Hypothesis show_v_comma : forall v, no_comma (show_v v).

(** The fields of every line: the titles first, then the time and the values of each computation up to
    call k, in the order of the list. *)
Definition reads_back (s : store (A:=A) F V) (dq : derived (A:=A) V) (cs : list (A * dict F)) (lines : list string) : Prop :=
  exists rows, Forall2 (row_ok is_function project s dq) cs rows /\
    map entries lines = titles s dq :: map (fun r => show_t (fst r) :: map show_v (snd r)) rows /\
    Forall (fun line => length (entries line) = S (length (dq_list dq))) lines.
Lemma table_lines s dq cs rows : (forall q, In q (dq_list dq) -> no_comma (q_title (s q) (dq_units dq))) ->
  Forall2 (row_ok is_function project s dq) cs rows ->
  reads_back s dq cs (csv_lines show_t show_v (Header (titles s dq) :: map mk_row rows)).
Proof using show_t_comma show_v_comma.
  intros Ht Hrows. exists rows. split; [exact Hrows|].
  assert (Hlen : length (titles s dq) = S (length (dq_list dq))) by (unfold titles; cbn; now rewrite map_length).
  destruct (C67_lines show_t show_v show_t_comma show_v_comma (titles s dq) rows) as [E1 E2].
  - discriminate.
  - intros x [<-|Hx]; [cbn; repeat split; discriminate|]. apply in_map_iff in Hx as (q & <- & Hq). now apply Ht.
  - clear - Hrows Hlen. rewrite Hlen. induction Hrows as [|p r cs rows [_ H] Hrows IH]; constructor; [|exact IH].
    f_equal. clear - H. induction H; cbn; congruence.
  - split; [exact E1|]. rewrite Hlen in E2. exact E2.
Qed.

(** Missing: titles with a comma (C67_point_refuted), and an empty list of quantities. *)
Theorem C67_file_partial ft s ex0 sched st' evs stt i dq fn m :
  run ft s ex0 sched = (st', evs, stt) ->
  ex_nb ex0 = 0%Z -> nth_error (ex_list ex0) i = Some (EDerived dq) ->
  own_quantities (ex_list ex0) i dq -> dq_list dq <> [] -> (0 < dq_compute dq)%Z ->
  dq_filename dq = Some fn -> dq_exports dq = Some m ->
  (forall q, In q (dq_list dq) -> no_comma (q_title (ex_store ex0 q) (dq_units dq))) ->
  forall k t w, In (k, t, w) (written_by i (st_log st')) ->
  exists table, w = WCsv fn table /\
    reads_back (ex_store ex0) dq
      (firstn (S (Z.to_nat (Z.of_nat k / dq_compute dq))) (computed (dq_compute dq) 0 (fields_of ltf (posts evs))))
      (csv_lines show_t show_v table).
Proof using project_function show_t_comma show_v_comma.
  intros H Hnb Hi Hown Hne Hn Hfn Hm Ht k t w Hin.
  destruct (C17_csv_intervals temp dens_solve is_function project project_function ltf T0 Tn0 u0 un0 d0 dn0 ft s ex0 sched st' evs stt i dq fn m
    H Hnb Hi Hown Hne Hfn Hm Hn) as [_ Hw].
  destruct (Hw k t w Hin) as (dq1 & rows1 & Hd1 & Hdata1 & Hvis & ->).
  assert (Hv : visited evs <> []) by (intros E; rewrite E in Hvis; destruct k; discriminate).
  destruct (C16_table_is_rectangular temp dens_solve is_function project project_function ltf T0 Tn0 u0 un0 d0 dn0 ft s ex0 sched st' evs stt i dq
    H Hnb Hi Hown Hne Hv) as (dq2 & rows2 & Hd2 & Hdata2 & Hrows & _).
  rewrite Hd1 in Hd2. injection Hd2 as <-. rewrite Hdata1 in Hdata2. injection Hdata2 as E. apply mk_row_inj in E. subst rows2.
  eexists. split; [reflexivity|]. apply table_lines; [exact Ht|]. now apply Forall2_firstn.
Qed.
End Runs.

(** Exported at the end (nb_iterations_between_exports=None). *)
Section Last.
Context {U X D F V C : Type}.
Variable temp : temperature (A:=Q) X.
Variable dens_solve : D -> D -> Q -> X -> D.
Variable is_function : F -> bool.
Variable project : F -> F.
Hypothesis project_function : forall f, is_function (project f) = true.
Variable ltf : U -> X -> dict F.
Variables (T0 Tn0 : X) (u0 un0 : U) (d0 dn0 : D).
Local Notation run ft s ex0 sched :=
  (run_exports (V:=V) (C:=C) temp dens_solve is_function project ltf T0 Tn0 u0 un0 d0 dn0 ft s ex0 sched).
Variable show_t : Q -> string.
Variable show_v : V -> string.
Hypothesis show_t_comma : forall t, no_comma (show_t t).
Hypothesis show_v_comma : forall v, no_comma (show_v v).
Theorem C67_last_partial ft s ex0 sched st' evs i dq fn :
  run ft s ex0 sched = (st', evs, Done) -> (0 < ft)%Q -> (forall t, In t (visited evs) -> t <= ft)%Q ->
  ex_nb ex0 = 0%Z -> nth_error (ex_list ex0) i = Some (EDerived dq) -> own_quantities (ex_list ex0) i dq -> dq_list dq <> [] ->
  dq_filename dq = Some fn -> dq_exports dq = None ->
  (forall q, In q (dq_list dq) -> no_comma (q_title (ex_store ex0 q) (dq_units dq))) ->
  exists k t table, written_by i (snd (st_exp st')) = [(k, t, WCsv fn table)] /\
    reads_back is_function project show_t show_v (ex_store ex0) dq
      (computed (dq_compute dq) 0 (fields_of ltf (posts evs))) (csv_lines show_t show_v table).
Proof using project_function show_t_comma show_v_comma.
  intros H HF Hno Hnb Hi Hown Hne Hfn Hex Ht.
  destruct (C15_table_written_once temp dens_solve is_function project project_function ltf T0 Tn0 u0 un0 d0 dn0 ft s ex0 sched st' evs i dq fn
    H HF Hno Hi Hown Hfn Hex) as (t & u & T & dq1 & Hp & Hd1 & Hw).
  assert (Hv : visited evs <> []).
  { intros E. assert (Hl : length (posts evs) = length (visited evs)) by apply posts_length.
    rewrite E in Hl. destruct (posts evs); [|discriminate]. destruct (length (visited evs) - 1); discriminate. }
  destruct (C16_table_is_rectangular temp dens_solve is_function project project_function ltf T0 Tn0 u0 un0 d0 dn0 ft s ex0 sched st' evs Done i dq
    H Hnb Hi Hown Hne Hv) as (dq2 & rows & Hd2 & Hdata & Hrows & _).
  rewrite Hd1 in Hd2. injection Hd2 as <-. rewrite Hdata in Hw.
  do 3 eexists. split; [exact Hw|]. apply (table_lines is_function project show_t show_v show_t_comma show_v_comma); assumption.
Qed.
End Last.

(** The tables of the demonstration run: two quantities every 3 steps, one at the end. *)
Example C67_example :
  (forall q, no_comma (q_title (demo_store q) true)) /\
  (forall q, no_comma (q_title (demo_store q) false)) /\
  map (fun p => match snd p with WCsv _ table => map (fun l => length (entries l)) (csv_lines (fun _ => "0"%string) (fun _ => "1"%string) table) | _ => [] end)
    (written_by 2 demo_log) = [[3; 3]; [3; 3; 3]] /\
  map (fun p => match snd p with WCsv _ table => map entries (firstn 1 (csv_lines (fun _ => "0"%string) (fun _ => "1"%string) table)) | _ => [] end)
    (written_by 2 demo_log) = [[["t(s)"; "mean"; "max"]%string]; [["t(s)"; "mean"; "max"]%string]].
Proof.
  split; [intros [|q]; cbn; repeat split; discriminate|]. split; [intros [|q]; cbn; repeat split; discriminate|].
  vm_compute. split; reflexivity.
Qed.

Print Assumptions C67_file_partial.
Print Assumptions C67_last_partial.
