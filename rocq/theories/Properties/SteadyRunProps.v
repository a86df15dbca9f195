(** C61: what a steady run writes.

    [steady is_function project ltf u converged T ex0]: initialise() and run() of a steady simulation with
    exports [ex0]; [u], [converged]: what the Newton solver left and returned; [ltf]: label_to_function as
    computed from solution and temperature.  [output]: the exports and the log of what was written. *)
From Coq Require Import ZArith QArith List Bool String Lia.
From Verif Require Import Base.Exc Base.Num Model.Stepsize Model.TimeLoop Model.Paths Model.Exports Model.TxtTimes Model.Steady
  Spec.TimeSpec Spec.ExportSpec Spec.SteadySpec Proofs.NumQ Proofs.ExportProofs Proofs.ExportTrack Proofs.ExportDerived
  Proofs.ExportRuns Proofs.TxtRuns Proofs.SteadyProofs Properties.ExportProps.
Import ListNotations.
Local Open Scope nat_scope.
Local Notation length := List.length.

Section Steady.
Context {A : Type} {N : Num A} {U X F V C : Type}.
Variable is_function : F -> bool.
Variable project : F -> F.
(** fenics.project returns a fenics.Function. *)
Hypothesis project_function : forall f, is_function (project f) = true.
Variable ltf : U -> X -> dict F.
Local Notation steady := (steady (A:=A) (V:=V) (C:=C) is_function project ltf).

(** A new Exports object: not used by an earlier run. *)
Definition fresh (ex : exports (A:=A) F V C) : Prop := ex_nb ex = 0%Z /\ ex_final ex = None.

Lemma steady_calls u cv T ex0 e' : output (steady u cv T ex0) = Some e' ->
  calls is_function project (initialise_exports ex0) [(n0, ltf u T)] (fst e') (snd e') /\ map fst (snd e') = [n0].
Proof using Type.
  unfold Steady.steady, run_steady, post_processing. cbn [fst snd].
  destruct (write is_function project (initialise_exports ex0) (ltf u T) n0) as [[ex ws]|x] eqn:E; cbn [bind output];
    [|discriminate].
  intros H. assert (e' = (ex, [] ++ [(n0, ws)])) as ->.
  { destruct cv; cbn in H; injection H as <-; reflexivity. }
  cbn. split; [|reflexivity]. econstructor; [exact E|constructor].
Qed.

Lemma init_nth' ex0 i e : nth_error (ex_list ex0) i = Some e ->
  nth_error (ex_list (initialise_exports (A:=A) (F:=F) (V:=V) (C:=C) ex0)) i = Some (init_export e).
Proof using Type. intros H. destruct (initialise_exports_ok ex0) as (-> & _). now rewrite nth_error_map, H. Qed.
Lemma init_final ex0 : ex_final (initialise_exports (A:=A) (F:=F) (V:=V) (C:=C) ex0) = ex_final ex0.
Proof using Type. unfold initialise_exports. destruct (initialise_derived _ _). reflexivity. Qed.

Lemma written_one i (log : list (A * list (nat * written (A:=A) F V C))) (t : A) :
  map fst log = [t] -> steps_written i log = [0] -> exists w, written_by i log = [(0, t, w)].
Proof using Type.
  destruct log as [|[t' ws] [|]]; cbn; try discriminate. intros [= ->]. unfold steps_written, written_by. cbn.
  rewrite app_nil_r, map_map. cbn. destruct (of_export i ws) as [|w [|]]; cbn; try discriminate. eauto.
Qed.

(** C61: every export is written once, at time 0, with the solution of the solve - whether or not that solve
    converged. *)
Theorem C61_written_once u cv T ex0 e' :
  fresh ex0 -> output (steady u cv T ex0) = Some e' ->
  map fst (snd e') = [n0] /\
  (* XDMFExport: the mode does not matter *)
  (forall i x, nth_error (ex_list ex0) i = Some (EXdmf x) ->
     (exists n, xd_mode x = Every n) /\
     exists f, xdmf_writes is_function project x (ltf u T) f /\
       written_by i (snd e') = [(0, n0, WXdmf n0 f (xd_checkpoint x) (xd_append x))]) /\
  (* DerivedQuantities: the header and one row, whatever the intervals *)
  (forall i dq fn, nth_error (ex_list ex0) i = Some (EDerived dq) -> own_quantities (ex_list ex0) i dq ->
     dq_list dq <> [] -> dq_filename dq = Some fn ->
     exists r, row_ok is_function project (ex_store ex0) dq (n0, ltf u T) r /\
       written_by i (snd e') = [(0, n0, WCsv fn [Header (titles (ex_store ex0) dq); mk_row r])]) /\
  (* TXTExport: one column, with or without write_at_last *)
  (forall i x, nth_error (ex_list ex0) i = Some (ETxt x) -> tx_times x = None ->
     exists name c, tx_filename x = Some name /\ col_ok is_function project x (n0, ltf u T) c /\
       written_by i (snd e') = [(0, n0, WTxt name "x,t=steady" [tx_x x; c])]).
Proof using project_function.
  intros [Hnb Hfin] H. apply steady_calls in H as [Hc Ht]. split; [exact Ht|].
  destruct (initialise_exports_ok ex0) as (Hlist & Hnb0 & _ & Hst & Hreset). rewrite Hnb in Hnb0.
  pose proof (init_final ex0) as Hfin0. rewrite Hfin in Hfin0.
  split; [|split].
  - intros i x Hx. pose proof (init_nth' _ _ _ Hx) as Hi. cbn [init_export] in Hi.
    assert (Hm : exists n, xd_mode x = Every n).
    { destruct (xd_mode x) as [|n] eqn:Em; [|eauto]. exfalso.
      inversion Hc as [|? ? ? ? ? ? ? ? Hw]; subst.
      exact (write_no_last is_function project project_function _ _ _ _ _ _ Hw Hfin0 Hi Em). }
    split; [exact Hm|]. destruct Hm as (n & Hm).
    destruct (calls_xdmf is_function project project_function _ _ _ _ _ _ Hc Hi
                (fun _ k => (Z.of_nat k mod n =? 0)%Z)) as [Hs Hw].
    { intros k t b Hb. unfold xd_is_export in Hb. rewrite Hm, Hnb0 in Hb. now apply every_ok in Hb. }
    cbn [length seq filter nth_error] in Hs. change (Z.of_nat 0) with 0%Z in Hs. rewrite Zmod_0_l in Hs.
    cbn [Z.eqb] in Hs. destruct (written_one _ _ _ Ht Hs) as (w & Hwr).
    destruct (Hw 0 n0 w) as (d & f & app & Hd & -> & Hf & Happ); [rewrite Hwr; now left|].
    cbn in Hd. injection Hd as <-. exists f. split; [exact Hf|]. rewrite Hwr.
    replace app with (xd_append x); [reflexivity|]. apply eq_true_iff_eq. rewrite Happ. split; [auto|].
    intros [|(k' & Hlt & _)]; [assumption|lia].
  - intros i dq fn Hi Hown Hne Hfn. pose proof (init_nth' _ _ _ Hi) as Hi0. cbn [init_export] in Hi0.
    pose proof (own_private ex0 n0 i dq Hi Hown) as Hpr. destruct Hown as [Hnd _].
    destruct (calls_derived_at is_function project project_function _ _ _ _ _ _ 0 n0 (ltf u T) Hc Hi0
                ltac:(exact Hnd) Hpr eq_refl)
      as (dqk & dq2 & rows & rows' & sk & _ & (_ & Hd & _) & Hrows & (b & Hb & Hwb) & _ & _ & _).
    rewrite Hfin0 in Hb. cbn in Hb. injection Hb as <-.
    cbn [set_data dq_filename dq_data dq_list dq_compute firstn] in Hwb, Hd, Hrows. rewrite Hfn in Hwb.
    rewrite Hnb0 in Hrows. cbn [computed] in Hrows. rewrite Zmod_0_l in Hrows. cbn [Z.eqb] in Hrows.
    inversion Hrows as [|? r ? ? Hr Hr2]; subst. inversion Hr2; subst.
    destruct (dq_list dq) as [|q0 qs] eqn:El; [congruence|]. cbn [app map] in Hd.
    exists r. split.
    + destruct Hr as [Hr1 Hr2']. split; [exact Hr1|]. cbn [set_data dq_list] in Hr2'.
      eapply Forall2_weaken; [|exact Hr2']. intros q v (f & Hrd & ->). exists f.
      destruct (Hst q) as (Hk & Hf & Hsu & _ & _ & Has). rewrite Has. split; [|reflexivity].
      unfold ExportSpec.reads in *. now rewrite Hk, Hf, Hsu in Hrd.
    + destruct e' as [ex log]. cbn [fst snd] in *. destruct log as [|[t ws] [|]]; try discriminate.
      cbn in Ht. injection Ht as ->. cbn [map nth_error snd] in Hwb. injection Hwb as Hwb.
      unfold written_by. cbn [written_from]. rewrite Hwb, Hd.
      cbn [map app]. do 5 f_equal. exact (titles_static (ex_store ex0) _ dq Hst).
  - intros i x Hx Htm. pose proof (init_nth' _ _ _ Hx) as Hi. cbn [init_export] in Hi.
    destruct (calls_txt is_function project project_function _ _ _ _ _ _ _ _ Hc Hi eq_refl eq_refl)
      as (x' & cols & _ & _ & _ & _ & Hcols & Hs & Hw).
    change (tx_times (tx_initialise x)) with (tx_times x) in *. rewrite Htm in *. cbn in Hcols.
    inversion Hcols as [|? c ? ? Hcol Hc2]; subst. inversion Hc2; subst.
    assert (Hs' : steps_written i (snd e') = [0]).
    { rewrite Hs. cbn. unfold txt_file. cbn. rewrite Htm, Hfin0. cbn. destruct (tx_last x); reflexivity. }
    destruct (written_one _ _ _ Ht Hs') as (w & Hwr).
    destruct (Hw 0 n0 w) as (name & Hname & ->); [rewrite Hwr; now left|].
    exists name, c. split; [exact Hname|]. split; [exact Hcol|]. rewrite Hwr, Hfin0. reflexivity.
Qed.

(** ... and if every export can be written, run() ends normally when the solver converged, and with the
    ValueError otherwise; the files are those of C61_written_once in both cases. *)
Theorem C61_ends u T ex0 :
  fresh ex0 -> (forall e, In e (ex_list ex0) -> SteadySpec.ready is_function (ex_store ex0) (ltf u T) e) ->
  exists e', steady u true T ex0 = Completed e' /\
    exists m, steady u false T ex0 = Diverged (ValueError m) e'.
Proof using project_function.
  intros [Hnb Hfin] H. destruct (initialise_exports_ok ex0) as (Hlist & Hnb0 & _ & Hst & _).
  unfold Steady.steady, run_steady, post_processing, write. cbn [fst snd].
  rewrite init_final, Hfin, Hnb0, Hnb.
  edestruct (write_loop_progress is_function project project_function (N:=N) (C:=C) n0
              (ex_list (initialise_exports ex0)) (ex_store (initialise_exports ex0))
              (ex_fs (initialise_exports ex0)) (ltf u T) 0) as ([[[l s] fs] ws] & Hw).
  { intros e He. rewrite Hlist in He. apply in_map_iff in He as (e0 & <- & He0).
    apply (ready_le is_function project project_function (ex_store ex0) _ (ltf u T) (ltf u T));
      [apply dict_le_refl|exact Hst|].
    specialize (H e0 He0). destruct e0; exact H. }
  { intros x Hx. rewrite Hlist in Hx. apply in_map_iff in Hx as ([d|x0|x0] & Hx & _); try discriminate.
    injection Hx as <-. cbn. split; discriminate. }
  rewrite Hw. cbn [bind]. eexists. split; [reflexivity|]. eexists. reflexivity.
Qed.

(** A steady simulation with an XDMFExport of mode "last" always raises. *)
Theorem C61_last_raises u cv T ex0 i x :
  fresh ex0 -> nth_error (ex_list ex0) i = Some (EXdmf x) -> set_mode (MStr "last") = Ok (xd_mode x) ->
  exists exn, steady u cv T ex0 = Raised exn.
Proof using project_function.
  intros Hf Hi Hm. cbn in Hm. injection Hm as Hm.
  destruct (steady u cv T ex0) as [e|y e|y] eqn:E; [..|eauto]; exfalso;
    (destruct (C61_written_once u cv T ex0 e Hf) as (_ & Hx & _); [now rewrite E|]);
    destruct (Hx i x Hi) as ((n & Hn) & _); congruence.
Qed.

(** The requested times of a TXTExport cannot be used in a steady simulation: initialise() raises (dt is
    None there, generic_simulation.py L333-334). *)
Theorem C61_times_raise l i (x : txt (A:=A) F C) times :
  nth_error l i = Some (ETxt x) -> tx_times x = Some times -> times <> [] ->
  exists m, register_times (V:=V) None l = Err (AttributeError m).
Proof using Type.
  revert i. induction l as [|e r IH]; intros [|i] Hi Ht Hne; try discriminate; cbn [nth_error] in Hi.
  - injection Hi as ->. cbn. rewrite Ht. destruct times; [congruence|]. eauto.
  - destruct (IH i Hi Ht Hne) as (m & Hm). cbn. destruct e as [d|y|y]; eauto.
    destruct (tx_times y) as [[|a b]|]; eauto.
Qed.
End Steady.

(** ** Findings and examples *)
Local Open Scope Q_scope.
Definition demo_steady (cv : bool) (l : list (export (A:=Q) Q Q Q)) (final : option Q) (nb : Z) : outcome :=
  steady (fun _ => true) (fun f => f) demo_ltf tt cv 300 (mkExports l demo_store [] final nb).
Definition steady_list : list (export (A:=Q) Q Q Q) :=
  [EXdmf (mkXdmf (LStr "T") (Every 3) true None false);
   EDerived (demo_dq [0%nat; 1%nat] (Some 5%Z)); ETxt (demo_txt2 None true)].

(** A solve that diverged is reported, but its result has been written like any other. *)
Theorem C61_diverged_output_refuted :
  exists m e', demo_steady false steady_list None 0 = Diverged (ValueError m) e' /\
    forall i, (i < 3)%nat -> exists w, written_by i (snd e') = [(0%nat, 0, w)].
Proof.
  eexists. eexists. split; [vm_compute; reflexivity|].
  intros [|[|[|i]]] Hi; [eexists; vm_compute; reflexivity..|lia].
Qed.

(** Exports used before in a transient simulation keep its final_time: the table is computed but not written. *)
Theorem C61_reused_exports_refuted :
  exists e', demo_steady true [EDerived (demo_dq [0%nat; 1%nat] None)] (Some 10) 0 = Completed e' /\
    written_by 0 (snd e') = [].
Proof. eexists. split; [vm_compute; reflexivity|reflexivity]. Qed.

Example C61_example :
  fresh (mkExports steady_list demo_store [] None 0) /\
  (forall e, In e steady_list -> SteadySpec.ready (fun _ => true) demo_store (demo_ltf tt 300) e) /\
  own_quantities steady_list 1 (demo_dq [0%nat; 1%nat] (Some 5%Z)) /\
  exists e', demo_steady true steady_list None 0 = Completed e' /\
    written_by 0 (snd e') = [(0%nat, 0, WXdmf 0 (FFun 300) true false)] /\
    written_by 1 (snd e') = [(0%nat, 0, WCsv "out/d.csv" [Header ["t(s)"; "mean"; "max"]%string; Row 0 [300; 300]])] /\
    written_by 2 (snd e') = [(0%nat, 0, WTxt "out/p.txt" "x,t=steady" [0; 300])].
Proof.
  split; [split; reflexivity|]. split.
  { intros e [<-|[<-|[<-|[]]]]; cbn.
    - split; [exists 3%Z; split; [reflexivity|lia]|eauto].
    - split; [lia|]. split; [intros fn [= <-]; discriminate|].
      intros q [<-|[<-|[]]]; cbn; eauto.
    - split; [now left|]. split; [eauto|]. eexists. split; [reflexivity|]. discriminate. }
  split.
  { split; [repeat constructor; cbn; intuition discriminate|].
    intros [|[|[|k]]] dq2 q Hk Hd Hq; cbn in Hd; try congruence; try discriminate. destruct k; discriminate. }
  eexists. split; [vm_compute; reflexivity|]. repeat split; vm_compute; reflexivity.
Qed.
Example C61_last_example : demo_steady true [EXdmf (mkXdmf (LStr "T") Last true None false)] None 0 =
  Raised (TypeError "ufunc 'isfinite' not supported for the input types").
Proof. reflexivity. Qed.
Example C61_times_example :
  nth_error [ETxt (F:=Q) (V:=Q) (demo_txt2 (Some [3 # 2; 3 # 4]) true)] 0 = Some (ETxt (demo_txt2 (Some [3 # 2; 3 # 4]) true)) /\
  tx_times (demo_txt2 (Some [3 # 2; 3 # 4]) true) = Some [3 # 4; 3 # 2].
Proof. split; reflexivity. Qed.

Print Assumptions C61_written_once.
Print Assumptions C61_ends.
Print Assumptions C61_last_raises.
Print Assumptions C61_times_raise.
Print Assumptions C61_diverged_output_refuted.
Print Assumptions C61_reused_exports_refuted.
