(** C109: what an accepted simulation works with. *)
From Coq Require Import ZArith QArith List Bool String Lia Sorted.
From Verif Require Import Base.Exc Base.Num Base.Key Model.Stepsize Model.Materials Model.Mesh1D Model.Sources
  Model.Bcs Model.Fields Model.Exports Model.TxtTimes Model.TxtRows Model.Simulation
  Spec.MeshSpec Spec.FieldSpec Spec.LayoutSpec Spec.SimSpec
  Proofs.NumQ Proofs.KeyProofs Proofs.MaterialProofs Proofs.BcProofs Proofs.FieldProofs Proofs.BorderProofs
  Proofs.SimProofs.
From Verif Require Proofs.TxtRuns Properties.MaterialProps Properties.BcProps Properties.FieldProps Properties.SimProps.
Import ListNotations.
Local Open Scope string_scope.
Local Notation length := List.length.

Lemma selected_filter {B} (p : B -> bool) (Q : B -> Prop) l : (forall b, p b = true <-> Q b) -> selected Q l (filter p l).
Proof.
  intros H. induction l as [|b r IH]; cbn [filter]; [constructor|].
  destruct (p b) eqn:E; [apply sel_keep|apply sel_drop]; try assumption; rewrite <- H; congruence.
Qed.

Section Accepted.
Context {P S V F W C : Type}.
Local Notation material := (material (A:=Q) P).
Local Notation sim := (@sim Q P S V F W C).
Variable s_field : S -> key.
Variable s_decay : S -> bool.
Variable s_list : S -> bool.
Variable same : material -> material -> bool.
Variable eps : Q.
Variable dofs : bool -> list Q.
Variable argsort : list Q -> list nat.
Variable dx_list : res unit.
Variable reconvert : V -> res V.
Local Notation initialise := (initialise s_field s_decay s_list same eps (1 # 2) dofs argsort dx_list reconvert).
Ltac step H x E := apply bind_ok in H; destruct H as (x & E & H).
Lemma initialise_inv (s s1 : sim) p : initialise s = Ok (s1, p) ->
  exists T att bcs mk T1 w1 ids ini mss c e,
    check_time s = Ok tt /\ get_T s = Ok T /\
    attribute_source_terms s_field s_decay (length (sm_traps s)) (is_heat_problem T) (sm_sources s) (sm_attached s) = Ok att /\
    attribute_boundary_conditions (length (sm_traps s)) (is_heat_problem T) (ms_dim (sm_mesh s)) (sm_bcs s) = Ok bcs /\
    measures eps (1 # 2) (sm_mesh s) (sm_materials s) = Ok mk /\
    create_T reconvert T (sm_materials s) = Ok T1 /\
    check_materials (sm_materials s) (temp_kind_of T) false = Ok w1 /\
    initialise_h s_list same dx_list s att (snd bcs) = Ok (ids, ini, mss, c) /\
    export_loop dofs argsort s (initial_dt s) 0 (ex_list (sm_exports s)) = Ok e /\
    s1 = mkSim (sm_transient s) (sm_final s) (sm_chem s) (sm_soret s) (sm_dg s) (fst e) (Some (fst T1))
           (sm_sources s) (sm_bcs s) (sm_mesh s) (sm_materials s) (settle (sm_traps s) ids mss) (sm_inis s)
           (initialise_exports (sm_exports s)) (sm_filters s) att /\
    p = mkProblem att (fst bcs) (snd bcs) mk (snd T1) ids ini mss c (w1 ++ snd e)%list.
Proof.
  intros H. unfold Simulation.initialise in H. step H r0 E0; step H T ET; step H att Eatt; step H bcs Ebcs;
  step H r3 E3; step H mk Emk; step H T1 ET1; step H w1 Ew; step H r7 E7; step H r8 E8; step H h Eh.
  destruct h as [[[ids ini] mss] c]. step H e Ee. injection H as <- <-. destruct r0.
  exists T, att, bcs, mk, T1, w1, ids, ini, mss, c, e. repeat (split; [assumption|]). now split.
Qed.
Ltac open H := apply initialise_inv in H;
  destruct H as (T & att & bcs & mk & T1 & w1 & ids & ini & mss & c & e & Etime & ET & Eatt & Ebcs & Emk & ET1 & Ew & Eh & Ee & -> & ->);
  cbn [pb_sources pb_T_bcs pb_h_bcs pb_markers pb_T_ini pb_ids pb_initial pb_materials pb_constraints pb_warnings
       sm_transient sm_final sm_chem sm_soret sm_dg sm_dt sm_T sm_sources sm_bcs sm_mesh sm_materials sm_traps
       sm_inis sm_exports sm_filters sm_attached].

(** Sources: each equation gets exactly the sources of its field, in order. *)
Theorem C109_sources (s s1 : sim) p : initialise s = Ok (s1, p) -> forall sp, present (length (sm_traps s)) sp ->
  selected (fun src => belongs (length (sm_traps s)) (s_field src) (s_decay src) sp) (sm_sources s) (pb_sources p sp) /\
  sm_attached s1 sp = pb_sources p sp.
Proof.
  intros H sp Hp. open H. split; [|reflexivity]. exact (BcProps.C31_attached _ _ _ _ _ _ _ Eatt sp Hp).
Qed.

(** Boundary conditions: those with field T go to the heat equation, the others to the hydrogen problem,
    none is lost; each Dirichlet condition constrains the component of its field on all its surfaces. *)
Theorem C109_bcs (s s1 : sim) p : initialise s = Ok (s1, p) ->
  selected (fun b => bc_field b = KS "T") (sm_bcs s) (pb_T_bcs p) /\
  selected (fun b => bc_field b <> KS "T") (sm_bcs s) (pb_h_bcs p) /\
  exists ls, Forall2 (fun b l => (bc_kind_of b = Dirichlet -> contribution b l) /\ (bc_kind_of b <> Dirichlet -> l = []))
               (pb_h_bcs p) ls /\ pb_constraints p = List.concat ls.
Proof.
  intros H. open H. unfold attribute_boundary_conditions in Ebcs. step Ebcs u Ec. destruct u.
  injection Ebcs as <-. cbn [fst snd]. split; [|split].
  - apply selected_filter. intros b. apply key_eqb_eq.
  - apply selected_filter. intros b. rewrite negb_true_iff. apply key_eqb_neq.
  - apply check_ok in Ec as [Hok _]. unfold initialise_h in Eh. step Eh a1 A1. step Eh a2 A2. step Eh a3 A3. step Eh a4 A4.
    step Eh a5 A5. step Eh a6 A6. step Eh a7 A7. step Eh a8 A8. injection Eh as <- <- <- <-. cbn [snd] in A8.
    destruct (create_dirichlet_bcs_ok _ _ _ A8) as (g & -> & Hg).
    destruct (Forall2_flat (fun b l => (bc_kind_of b = Dirichlet -> contribution b l) /\ (bc_kind_of b <> Dirichlet -> l = [])) g
      (filter (fun b => negb (key_eqb (bc_field b) (KS "T"))) (sm_bcs s))) as (ls & Hl & Hc); [|exists ls; now split].
    intros b Hb. specialize (Hg b Hb). apply filter_In in Hb as [Hb HT]. rewrite HT in Hg. cbn [andb] in Hg.
    apply negb_true_iff, key_eqb_neq in HT. destruct (Hok b Hb) as [Hv _].
    destruct (bc_kind_of b) eqn:Ek; cbn [is_dirichlet] in Hg; (split; intros Hk; [|try congruence]); try discriminate Hk.
    destruct (create_dirichletbc_ok _ _ b (g b) Hv HT Hg) as (k & Hd & ->). now apply h_dirichlet.
Qed.

(** Materials: each cell of a 1D mesh is marked with the id of a material that contains its midpoint, the
    left end with 1, the right end with 2 and the other vertices with 0; other meshes bring their markers. *)
Theorem C109_cells (s s1 : sim) p vs m : initialise s = Ok (s1, p) ->
  ms_1d (sm_mesh s) = Some m -> mesh_from_vertices vs = Ok m -> 0 <= start m ->
  (forall mat, In mat (sm_materials s) -> well_shaped mat) ->
  exists vol surf, pb_markers p = Some (vol, surf) /\ length vol = length (cells m) /\
  (forall j a b, cell_interval m j a b ->
   exists z mat, nth_error vol j = Some z /\ In mat (sm_materials s) /\ find_material_from_id (sm_materials s) z = Ok mat /\
     ((exists i bd, nth_error (borders_of mat) i = Some bd /\ in_interval ((1 # 2) * (a + b)) bd /\ id_at mat i z) \/
      (sm_materials s = [mat] /\ m_borders mat = BNone))) /\
  (0 < eps -> separated eps vs -> start m < size m ->
   length surf = length (vertices m) /\
   forall i a, nth_error (vertices m) i = Some a ->
    (a == start m -> nth_error surf i = Some 1%Z) /\ (a == size m -> nth_error surf i = Some 2%Z) /\
    (~ a == start m -> ~ a == size m -> nth_error surf i = Some 0%Z)).
Proof.
  intros H Hm Hvs H0 Hw. open H. unfold measures in Emk. rewrite Hm in Emk. step Emk r Er. injection Emk as <-.
  assert (Hsurf : snd r = define_surface_markers eps m).
  { unfold define_measures in Er. destruct (_ && _)%bool; [discriminate|]. destruct (sm_materials s) as [|m0 l]; [discriminate|].
    step Er a1 A1. step Er a2 A2. now injection Er as <-. }
  destruct r as [vol surf]. cbn [snd] in Hsurf. subst surf. exists vol, (define_surface_markers eps m). split; [reflexivity|].
  cut (length vol = length (cells m) /\ (forall j a b, cell_interval m j a b ->
   exists z mat, nth_error vol j = Some z /\ In mat (sm_materials s) /\ find_material_from_id (sm_materials s) z = Ok mat /\
     ((exists i bd, nth_error (borders_of mat) i = Some bd /\ in_interval ((1 # 2) * (a + b)) bd /\ id_at mat i z) \/
      (sm_materials s = [mat] /\ m_borders mat = BNone)))).
  { intros [H1 H2]. split; [exact H1|]. split; [exact H2|]. intros He Hsep Hlt. now apply (MaterialProps.C28_surfaces eps vs m). }
  destruct (sm_materials s) as [|m0 l] eqn:Ems; [discriminate Er|].
  assert (Hu : check_unique_ids (m0 :: l) = Ok tt).
  { cbn [check_materials] in Ew. step Ew a1 A1. step Ew a2 A2. now destruct a2. }
  destruct (m_borders m0) eqn:Eb0.
  { pose proof (Hw m0 (or_introl eq_refl)) as Hw0. unfold well_shaped in Hw0. rewrite Eb0 in Hw0.
    destruct (m_id m0) as [z|zs] eqn:Eid; [|destruct Hw0].
    assert (l = []).
    { destruct l as [|m1 l]; [reflexivity|]. exfalso. unfold define_measures in Er. cbn [length Nat.ltb Nat.leb andb existsb] in Er.
      rewrite Eb0 in Er. discriminate Er. }
    subst l. destruct (MaterialProps.C25_single_material eps m m0 z Eb0 Eid) as [E1 E2]. rewrite E1 in Er. injection Er as <-.
    split; [apply repeat_length|]. intros j a b (q & q' & Hj & _). exists z, m0. split.
    { rewrite nth_error_repeat; [reflexivity|]. apply nth_error_Some. congruence. }
    split; [now left|]. split; [exact E2|]. right. now split. }
  all: assert (Hb : check_borders (m0 :: l) (size m) = Ok true)
      by (unfold define_measures in Er; destruct (_ && _)%bool; [discriminate|]; rewrite Eb0 in Er; step Er v Hv;
          rewrite Hv; f_equal; unfold check_borders in Hv; step Hv a1 A1; destruct (sort_borders a1); [discriminate Hv|];
          destruct (negb _); [discriminate Hv|]; step Hv a2 A2; destruct (neqb _ _); [now injection Hv|discriminate Hv]).
  all: destruct (MaterialProps.C25_cells_marked eps vs m (m0 :: l) Hvs H0 Hb Hw Hu) as (vol' & surf' & E1 & H1 & H2);
    rewrite E1 in Er; injection Er as <- _; split; [exact H1|]; intros j xa xb Hj;
    destruct (H2 j xa xb Hj) as (z & mat & i & bd & K1 & K2 & K3 & K4 & K5 & K6); exists z, mat; repeat (split; [assumption|]);
    left; now exists i, bd.
Qed.
Theorem C109_other_meshes (s s1 : sim) p : initialise s = Ok (s1, p) -> ms_1d (sm_mesh s) = None -> pb_markers p = None.
Proof. intros H Hm. open H. unfold measures in Emk. rewrite Hm in Emk. now injection Emk as <-. Qed.

(** Traps: a trap keeps its id or gets its position; its materials are those its entries refer to, none twice. *)
Theorem C109_traps (s s1 : sim) p : initialise s = Ok (s1, p) ->
  length (pb_ids p) = length (sm_traps s) /\
  (forall i t, nth_error (sm_traps s) i = Some t ->
     nth_error (pb_ids p) i = Some (match tr_id t with Some z => z | None => Z.of_nat (1 + i) end) /\
     exists l, nth_error (pb_materials p) i = Some l /\ Forall2 (refers (sm_materials s)) (tr_materials t) l /\
       (forall j k m m', (j < k)%nat -> nth_error l j = Some m -> nth_error l k = Some m' -> same m m' = false) /\
       exists t1, nth_error (sm_traps s1) i = Some t1 /\ tr_id t1 = nth_error (pb_ids p) i /\
         tr_materials t1 = map TagMaterial l /\ tr_has t1 = tr_has t).
Proof.
  intros H. open H. unfold initialise_h in Eh. step Eh a1 A1. step Eh a2 A2. step Eh a3 A3. step Eh a4 A4.
  step Eh a5 A5. step Eh a6 A6. step Eh a7 A7. step Eh a8 A8. injection Eh as <- <- <- <-.
  pose proof (make_traps_materials_spec same (sm_materials s) (sm_traps s)) as Hr. rewrite A3 in Hr.
  destruct (FieldProps.C33_ids_kept (map tr_id (sm_traps s))) as [Hl Hi].
  split; [rewrite Hl; apply map_length|]. intros i t Ht. destruct (Forall2_nth1 _ _ _ _ _ Hr Ht) as (l & Hli & H1 & H2).
  assert (Hid : nth_error (assign_traps_ids (map tr_id (sm_traps s))) i = Some (match tr_id t with Some z => z | None => Z.of_nat (1 + i) end)).
  { destruct (Hi i) as [K1 K2]. destruct (tr_id t) as [z|] eqn:Eid.
    - apply K1. unfold LayoutSpec.given. now rewrite nth_error_map, Ht, <- Eid.
    - apply K2. unfold LayoutSpec.missing. now rewrite nth_error_map, Ht, <- Eid. }
  split; [exact Hid|]. exists l. split; [exact Hli|]. split; [exact H1|].
  split. { pose proof (duplicates_spec same l) as Hd. rewrite H2 in Hd. intros j k m m' Hjk Hj Hk. exact (Hd j k m m' Hjk Hj Hk). }
  revert Hr Hid Hli Ht. assert (Hlen : length (assign_traps_ids (map tr_id (sm_traps s))) = length (sm_traps s))
    by (rewrite Hl; apply map_length). revert Hlen. generalize (assign_traps_ids (map tr_id (sm_traps s))) as ids.
  intros ids Hlen Hr Hid. rewrite Hid. generalize (match tr_id t with Some z => z | None => Z.of_nat (1 + i) end), Hid.
  clear - Hlen Hr. intros z. revert ids Hlen i. induction Hr as [|t0 l0 ts ms0 _ _ IH]; intros [|z0 ids] Hlen [|i] Hz Hm Ht;
    try discriminate; cbn [settle nth_error] in *.
  - injection Hz as ->. injection Hm as ->. injection Ht as ->. eexists. now repeat split.
  - apply (IH ids); [now injection Hlen|assumption..].
Qed.

(** Initial conditions: each species starts with the value of the last condition that names it. *)
Theorem C109_initial (s s1 : sim) p : initialise s = Ok (s1, p) -> positional (pb_ids p) ->
  forall sp, last_named (pb_ids p) sp (sm_inis s) (pb_initial p sp).
Proof.
  intros H. open H. unfold initialise_h in Eh. step Eh a1 A1. step Eh a2 A2. step Eh a3 A3. step Eh a4 A4.
  step Eh a5 A5. step Eh a6 A6. step Eh a7 A7. step Eh a8 A8. injection Eh as <- <- <- <-. intros Hp sp.
  now apply (initial_named _ _ Hp).
Qed.

(** Time: the stepsize restarts at its initial value; the milestones are those of the user and the times of
    the TXTExports; without time there is no stepsize. *)
Lemma export_loop_times (s : sim) l : forall dt i dt' w, export_loop dofs argsort s dt i l = Ok (dt', w) ->
  register_times (F:=F) (V:=W) dt l = Ok dt'.
Proof.
  induction l as [|[d|x|x] r IH]; intros dt i dt' w H; cbn [export_loop] in H.
  - now injection H as <- _.
  - step H a1 A1. apply bind_ok in H. destruct H as ([dt2 w2] & A2 & H). injection H as <- _. exact (IH _ _ _ _ A2).
  - exact (IH _ _ _ _ H).
  - step H a1 A1. step H a2 A2. apply IH in H. cbn [register_times] in A2 |- *.
    destruct (tx_times x) as [[|t0 ts]|]; [injection A2 as <-; exact H| |injection A2 as <-; exact H].
    destruct dt as [st|]; [injection A2 as <-; exact H|discriminate A2].
Qed.
Theorem C109_time (s s1 : sim) p : initialise s = Ok (s1, p) ->
  (sm_transient s = false -> sm_dt s1 = None) /\
  (sm_transient s = true -> exists dt dt1, sm_dt s = Some dt /\ sm_dt s1 = Some dt1 /\
     value dt1 = initial_value dt /\ initial_value dt1 = initial_value dt /\ adaptive_stepsize dt1 = adaptive_stepsize dt /\
     forall t, (exists m, In m (match milestones dt1 with Some l => l | None => [] end) /\ m == t) <->
       (exists m, In m (match milestones dt with Some l => l | None => [] end) /\ m == t) \/
       exists x times m, In (ETxt x) (ex_list (sm_exports s)) /\ tx_times x = Some times /\ In m times /\ m == t).
Proof.
  intros H. open H. destruct e as [dt1 w2]. apply export_loop_times in Ee. cbn [fst]. unfold initial_dt in Ee. unfold check_time in Etime. split; intros Ht; rewrite Ht in *.
  - destruct (sm_dt s) as [dt|]; [discriminate Etime|]. clear - Ee. induction (ex_list (sm_exports s)) as [|[d|x|x] r IH]; cbn [register_times] in Ee.
    + now injection Ee.
    + auto.
    + auto.
    + destruct (tx_times x) as [[|t0 ts]|]; auto. discriminate Ee.
  - destruct (sm_final s); [|discriminate Etime]. destruct (sm_dt s) as [dt|]; [|discriminate Etime]. cbn [option_map] in Ee.
    apply TxtRuns.register_times_ok in Ee as (dt' & -> & H1 & H2 & H3 & H4 & H5 & H6 & _ & _).
    exists dt, dt'. split; [reflexivity|]. split; [reflexivity|]. split; [exact H2|]. split; [exact H1|]. split; [exact H3|].
    intros t. split.
    + intros (m & Hm & Hq). destruct (H6 m Hm) as [K|(x & times & K1 & K2 & K3)]; [left; exists m; now split|].
      right. now exists x, times, m.
    + intros [(m & Hm & Hq)|(x & times & m & K1 & K2 & K3 & Hq)]; [exists m; split; [now apply H4|exact Hq]|].
      destruct (H5 x times m K1 K2 K3) as (m' & Hm' & Hq'). exists m'. split; [exact Hm'|]. now rewrite Hq'.
Qed.

(** What the user set is left as it is, except the stepsize, the initial temperature, the ids and materials
    of the traps, the sources attached and the exports. *)
Theorem C109_kept (s s1 : sim) p : initialise s = Ok (s1, p) ->
  sm_transient s1 = sm_transient s /\ sm_final s1 = sm_final s /\ sm_chem s1 = sm_chem s /\ sm_soret s1 = sm_soret s /\
  sm_dg s1 = sm_dg s /\ sm_sources s1 = sm_sources s /\ sm_bcs s1 = sm_bcs s /\ sm_mesh s1 = sm_mesh s /\
  sm_materials s1 = sm_materials s /\ sm_inis s1 = sm_inis s /\ sm_filters s1 = sm_filters s /\
  length (sm_traps s1) = length (sm_traps s) /\ exists T T1, sm_T s = Some T /\ sm_T s1 = Some T1 /\ is_steady_state T1 = is_steady_state T /\
    (T1 = T \/ exists v v', T = THeat true (IniValue v) /\ T1 = THeat true (IniExpression v) \/
                          T = THeat true (IniExpression v) /\ T1 = THeat true (IniExpression v')).
Proof.
  intros H. pose proof H as H'. apply C109_traps in H' as (Hids & Ht). open H. do 11 (split; [reflexivity|]). split.
  - cbn [pb_ids] in Hids. unfold initialise_h in Eh. step Eh a1 A1. step Eh a2 A2. step Eh a3 A3. step Eh a4 A4.
    step Eh a5 A5. step Eh a6 A6. step Eh a7 A7. step Eh a8 A8. injection Eh as <- <- <- <-. clear - A3 Hids.
    pose proof (make_traps_materials_spec same (sm_materials s) (sm_traps s)) as Hr. rewrite A3 in Hr.
    revert Hids. generalize (assign_traps_ids (map tr_id (sm_traps s))) as ids. clear - Hr.
    induction Hr as [|t0 l0 ts ms0 _ _ IH]; intros [|z ids] Hl; try discriminate Hl; cbn [settle length]; [reflexivity|].
    f_equal. apply IH. now injection Hl.
  - exists T, (fst T1). unfold get_T in ET. destruct (sm_T s) as [T'|]; [|discriminate ET]. injection ET as ->.
    split; [reflexivity|]. split; [reflexivity|]. unfold create_T in ET1.
    destruct T as [b| |[|] [| |v|v]]; try discriminate ET1; try (step ET1 a1 A1; try step ET1 a2 A2); injection ET1 as <-;
      (split; [reflexivity|]); try (now left); right; exists v.
    + exists v. left. now split.
    + exists a1. right. now split.
Qed.
End Accepted.

(** The simulation of C36_example is accepted and all hypotheses hold for it. *)
Example C109_example : exists s1 p, SimProps.ex_initialise SimProps.good = Ok (s1, p) /\
  ms_1d (sm_mesh SimProps.good) = Some SimProps.ex_mesh /\ mesh_from_vertices [3; 0; 1; 2]%Q = Ok SimProps.ex_mesh /\
  (0 <= start SimProps.ex_mesh)%Q /\ (forall mat, In mat (sm_materials SimProps.good) -> well_shaped mat) /\
  (0 < 1 # 1000000)%Q /\ separated (1 # 1000000) [3; 0; 1; 2]%Q /\ (start SimProps.ex_mesh < size SimProps.ex_mesh)%Q /\
  positional (pb_ids p) /\ pb_markers p = Some ([1; 2; 2]%Z, [1; 0; 0; 2]%Z) /\
  pb_materials p = [[SimProps.ex_left Sievert]] /\ pb_initial p Mobile = Some 5%Q /\
  pb_constraints p = [Constraint (mk_bc 1 Dirichlet (KI 0) [1]%Z) (OnComponent 0) 1%Z].
Proof.
  destruct (SimProps.ex_initialise SimProps.good) as [[s1 p]|e] eqn:E; [|exfalso; revert E; vm_compute; discriminate].
  exists s1, p. split; [reflexivity|]. split; [reflexivity|]. split; [vm_compute; reflexivity|]. split; [vm_compute; discriminate|].
  split. { intros mat [<-|[<-|[]]]; exact I. }
  split; [reflexivity|]. split.
  { intros x y Hx Hy. cbn in Hx, Hy. intuition (subst; vm_compute in *; congruence). }
  split; [reflexivity|].
  assert (Ep : pb_ids p = [1%Z] /\ pb_markers p = Some ([1; 2; 2]%Z, [1; 0; 0; 2]%Z) /\
    pb_materials p = [[SimProps.ex_left Sievert]] /\ pb_initial p Mobile = Some 5%Q /\
    pb_constraints p = [Constraint (mk_bc 1 Dirichlet (KI 0) [1]%Z) (OnComponent 0) 1%Z]).
  { revert E. vm_compute. intros [= <- <-]. repeat split. }
  destruct Ep as (-> & Ep). split; [|exact Ep]. intros [|[|i]] z Hi; cbn in Hi; try discriminate Hi. now injection Hi as <-.
Qed.

Print Assumptions C109_sources.
Print Assumptions C109_bcs.
Print Assumptions C109_cells.
Print Assumptions C109_other_meshes.
Print Assumptions C109_traps.
Print Assumptions C109_initial.
Print Assumptions C109_time.
Print Assumptions C109_kept.
