(** C65: checkpoint files and restarts. *)
From Coq Require Import ZArith QArith List Bool String Ascii Lia Lqa.
From Verif Require Import Base.Exc Base.Num Model.Stepsize Model.TimeLoop Model.Paths Model.Exports Model.Checkpoint
  Model.CheckpointFile Spec.TimeSpec Spec.ExportSpec Proofs.TimeLoopProofs Proofs.TimeChain Proofs.TimeQ Proofs.TimeWitness
  Proofs.ExportProofs Proofs.ExportTrack Proofs.ExportRuns Properties.ExportProps.
Import ListNotations.
Local Open Scope nat_scope.
Local Notation length := List.length.

(** ** The file of a run *)
Section Runs.
Context {A : Type} {N : Num A} {U X D F V C : Type}.
Variable temp : temperature (A:=A) X.
Variable dens_solve : D -> D -> A -> X -> D.
Variable is_function : F -> bool.
Variable project : F -> F.
Hypothesis project_function : forall f, is_function (project f) = true.
Variable ltf : U -> X -> dict F.
Variables (T0 Tn0 : X) (u0 un0 : U) (d0 dn0 : D).
Local Notation run ft s ex0 sched :=
  (run_exports (V:=V) (C:=C) temp dens_solve is_function project ltf T0 Tn0 u0 un0 d0 dn0 ft s ex0 sched).
Local Notation st_log st := (snd (st_exp st)).

(** Entry c is what export x wrote in call number k of the run. *)
Definition entry_of (x : xdmf F) (label : string) (evs : list (event (A:=A) U X D)) (k : nat)
  (c : checkpoint A (fval F)) : Prop :=
  exists t u T f, nth_error (posts evs) k = Some (t, u, T) /\ xdmf_writes is_function project x (ltf u T) f /\
    c = mkCheckpoint label t f.

Lemma append_all label (ws : list (nat * A * written (A:=A) F V C)) (x : xdmf F) old :
  (forall k t w, In (k, t, w) ws -> exists f, w = WXdmf t f true true) ->
  exists cs, file_after label old (map snd ws) = (old ++ cs)%list /\
    Forall2 (fun p c => exists f, snd p = WXdmf (snd (fst p)) f true true /\ c = mkCheckpoint label (snd (fst p)) f) ws cs.
Proof using Type.
  revert old. induction ws as [|[[k t] w] ws IH]; intros old H.
  - exists []. split; [cbn; now rewrite app_nil_r|constructor].
  - destruct (H k t w) as [f ->]; [now left|].
    destruct (IH (old ++ [mkCheckpoint label t f])%list) as (cs & Hc & HF); [intros; eapply H; right; eassumption|].
    exists (mkCheckpoint label t f :: cs). split.
    + cbn. unfold file_after in Hc. rewrite Hc, <- app_assoc. reflexivity.
    + constructor; [cbn; eauto|exact HF].
Qed.

(** The file holds the exported steps of this run, in order, whatever was in the file before. *)
Theorem C65_file ft s ex0 sched st' evs stt i x n label old :
  run ft s ex0 sched = (st', evs, stt) ->
  ex_nb ex0 = 0%Z -> nth_error (ex_list ex0) i = Some (EXdmf x) -> set_mode (MInt n) = Ok (xd_mode x) ->
  xd_checkpoint x = true -> xd_append x = false -> visited evs <> [] ->
  Forall2 (entry_of x label evs) (multiples_below n (length (visited evs)))
    (file_after label old (map snd (written_by i (st_log st')))).
Proof using project_function.
  intros H Hnb Hx Hm Hck Hap Hne.
  destruct (C14_every_nth_step _ _ _ _ project_function _ _ _ _ _ _ _ _ _ _ _ _ _ _ _ _ _ H Hnb Hx Hm) as (_ & Hs & Hw).
  rewrite <- Hs. unfold steps_written.
  assert (Hfirst : exists t w r, written_by i (st_log st') = (0, t, w) :: r /\ forall k t' w', In (k, t', w') r -> 0 < k).
  { assert (Hmul : exists r, multiples_below n (length (visited evs)) = 0 :: r /\ forall k, In k r -> 0 < k).
    { unfold multiples_below. destruct (visited evs) as [|t0 l]; [congruence|]. cbn [length seq filter].
      replace (Z.of_nat 0 mod n =? 0)%Z with true.
      - eexists. split; [reflexivity|]. intros k Hk. apply filter_In in Hk as [Hk _]. apply in_seq in Hk. lia.
      - symmetry. apply Z.eqb_eq. destruct (Z.eq_dec n 0) as [->|Hn]; [now rewrite Zmod_0_r|apply Z.mod_0_l; exact Hn]. }
    destruct Hmul as (r & Hr & Hk). rewrite Hr in Hs. unfold steps_written in Hs.
    destruct (written_by i (st_log st')) as [|[[k t] w] l]; [discriminate|]. cbn in Hs. injection Hs as -> Hs.
    exists t, w, l. split; [reflexivity|]. intros k t' w' Hin. apply Hk. rewrite <- Hs.
    apply in_map_iff. exists (k, t', w'). auto. }
  destruct Hfirst as (t & w & r & Hwr & Hpos). rewrite Hwr in *.
  destruct (Hw 0 t w) as (u & T & f & app & Hp & -> & Hf & Happ); [now left|]. specialize (Happ Hap). cbn in Happ. subst app.
  destruct (append_all label r x [mkCheckpoint label t f]) as (cs & Hc & HF).
  { intros k t' w' Hin. destruct (Hw k t' w') as (u' & T' & f' & app & _ & -> & _ & Happ); [now right|].
    specialize (Happ Hap). rewrite Hck. rewrite Happ. specialize (Hpos _ _ _ Hin). exists f'. f_equal. apply Nat.ltb_lt. lia. }
  cbn [map snd fst]. unfold file_after in *. cbn [fold_left write_to]. rewrite Hck. cbn [write_checkpoint].
  rewrite Hc. cbn [app]. constructor; [exists t, u, T, f; auto|].
  assert (Hall : forall p, In p r -> In p ((0, t, WXdmf t f (xd_checkpoint x) false) :: r)) by (intros; now right).
  revert Hw Hall. generalize ((0, t, WXdmf t f (xd_checkpoint x) false) :: r). intros all Hw Hall. clear - HF Hw Hall.
  induction HF as [|[[k t'] w'] c r cs (f' & Hw' & ->) HF IH]; [constructor|]. cbn [map fst snd] in *. constructor.
  - destruct (Hw k t' w') as (u1 & T1 & f1 & app & Hp & E & Hf & _); [apply Hall; now left|]. rewrite E in Hw'.
    injection Hw' as -> _ _. exists t', u1, T1, f'. auto.
  - apply IH. intros p Hp. apply Hall. now right.
Qed.
End Runs.

(** ** Reading *)
Section Reading.
Context {A V : Type}.
Variable show : A -> string.
Variable float : string -> res A.
Local Notation file := (file A V).

Definition only (label : string) (f : file) : Prop := forall c, In c f -> c_label c = label.
Lemma of_label_only label (f : file) : only label f -> of_label label f = f.
Proof using Type.
  induction f as [|c f IH]; intros H; [reflexivity|]. cbn. rewrite (H c) by now left. rewrite String.eqb_refl.
  f_equal. apply IH. intros c' Hc'. apply H. now right.
Qed.
Lemma labels_only label (f : file) : f <> [] -> only label f -> labels_of [] f = [label].
Proof using Type.
  destruct f as [|c f]; [congruence|]. intros _ H. cbn. rewrite (H c) by now left. f_equal.
  assert (Hf : only label f) by (intros c' Hc'; apply H; now right). clear H. induction f as [|c' f IH]; [reflexivity|].
  cbn. rewrite (Hf c') by now left. rewrite String.eqb_refl. cbn. apply IH. intros c'' Hc. apply Hf. now right.
Qed.
Lemma collect_times (l : file) :
  collect "Time" "Value" (flat_map children (map (step_xml show) l)) = Ok (map (fun c => show (c_time c)) l).
Proof using Type. induction l as [|c l IH]; [reflexivity|]. cbn [map flat_map children step_xml app]. cbn. now rewrite IH. Qed.
Lemma collect_labels (l : file) :
  collect "Attribute" "Name" (flat_map children (map (step_xml show) l)) = Ok (map c_label l).
Proof using Type. induction l as [|c l IH]; [reflexivity|]. cbn [map flat_map children step_xml app]. cbn. now rewrite IH. Qed.

(** extract_xdmf_times returns the times of the exports, in order, as they are printed. *)
Theorem C65_times label (f : file) : f <> [] -> only label f ->
  (forall t, float (show t) = Ok t) ->
  extract_xdmf_times float (to_xml show f) = Ok (map c_time f).
Proof using Type.
  intros Hne Hl Hfl. unfold extract_xdmf_times, collect_grid, to_xml. rewrite (labels_only label f Hne Hl).
  cbn [children first bind map]. rewrite (of_label_only label f Hl), collect_times. cbn [bind].
  clear Hne Hl. induction f as [|c f IH]; [reflexivity|]. cbn [map floats]. rewrite Hfl. cbn [bind]. rewrite IH. reflexivity.
Qed.
Theorem C65_labels label (f : file) : f <> [] -> only label f ->
  extract_xdmf_labels (to_xml show f) = Ok [label].
Proof using Type.
  intros Hne Hl. unfold extract_xdmf_labels, collect_grid, to_xml. rewrite (labels_only label f Hne Hl).
  cbn [children first bind map]. rewrite (of_label_only label f Hl), collect_labels. cbn [bind]. f_equal.
  destruct f as [|c f]; [congruence|]. clear Hne.
  assert (HL : map c_label (c :: f) = repeat label (S (length f))).
  { generalize dependent c. induction f as [|c' f IH]; intros c Hl; cbn.
    - rewrite (Hl c) by now left. reflexivity.
    - rewrite (Hl c) by now left. f_equal. apply IH. intros c'' Hc''. apply Hl. now right. }
  rewrite HL. generalize (length f) as k. clear. induction k as [|k IH]; [reflexivity|].
  change (repeat label (S (S k))) with (label :: repeat label (S k)). cbn [nodup].
  destruct (in_dec string_dec label (repeat label (S k))) as [_|Hn]; [exact IH|]. destruct Hn. now left.
Qed.

Lemma ends_xdmf p : endswith (p ++ ".xdmf") ".xdmf" = true.
Proof using Type.
  unfold endswith. assert (EL : forall x y, String.length (x ++ y)%string = (String.length x + String.length y)%nat).
  { induction x as [|q x IH]; intros y; cbn; [reflexivity|]. now rewrite IH. }
  rewrite EL. apply andb_true_iff. split; [apply Nat.leb_le; lia|]. apply String.eqb_eq.
  replace (String.length p + String.length ".xdmf" - String.length ".xdmf") with (String.length p) by lia.
  induction p as [|q p IH]; [reflexivity|exact IH].
Qed.

(** The initial conditions that are accepted. *)
Theorem C65_initial_condition (value : ini_value (V:=V)) label step :
  (exists ini, InitialCondition value label step = Ok ini /\ ini = mkIni value label step) <->
  (forall s, value = IStr (s ++ ".xdmf") -> label <> None /\ step <> None).
Proof using Type.
  assert (HE : forall s, endswith s ".xdmf" = true -> exists p, s = (p ++ ".xdmf")%string).
  { intros s. unfold endswith. rewrite andb_true_iff, Nat.leb_le, String.eqb_eq. intros [Hle Heq].
    assert (EP : forall k y, (k <= String.length y)%nat -> exists p, y = (p ++ substring k (String.length y - k) y)%string).
    { assert (ES : forall y, substring 0 (String.length y) y = y) by (induction y as [|q y IH]; cbn; [reflexivity|now rewrite IH]).
      induction k as [|k IH]; intros y Hy; [exists ""%string; now rewrite Nat.sub_0_r, ES|].
      destruct y as [|q y]; cbn in Hy; [lia|]. destruct (IH y) as [p Hp]; [lia|]. exists (String q p). cbn. now rewrite <- Hp. }
    destruct (EP (String.length s - String.length ".xdmf") s) as [p Hp]; [lia|].
    replace (String.length s - (String.length s - String.length ".xdmf")) with (String.length ".xdmf") in Hp by lia.
    rewrite Heq in Hp. eauto. }
  unfold InitialCondition. destruct value as [s|v]; [|split; [intros _ s H; discriminate|eauto]].
  destruct (endswith s ".xdmf") eqn:E.
  - destruct (HE s E) as [p ->]. destruct label, step; (split; [intros [ini [H1 H2]] q Hq|intros H]); try discriminate; eauto;
      try (split; discriminate); destruct (H p eq_refl); congruence.
  - split; [|eauto]. intros _ q Hq. injection Hq as ->. rewrite ends_xdmf in E. discriminate.
Qed.

(** The function number j with this label, and the last one, in the order of writing. *)
Definition nth_written (label : string) (f : file) (j : nat) (v : V) : Prop :=
  exists pre c post, f = (pre ++ c :: post)%list /\ c_label c = label /\ c_fun c = v /\
    count_occ string_dec (map c_label pre) label = j.
Definition last_written (label : string) (f : file) (v : V) : Prop :=
  exists pre c post, f = (pre ++ c :: post)%list /\ c_label c = label /\ c_fun c = v /\
    ~ In label (map c_label post).
Lemma of_label_app label (f g : file) : of_label label (f ++ g) = (of_label label f ++ of_label label g)%list.
Proof using Type. apply filter_app. Qed.
Lemma of_label_length label (f : file) : length (of_label label f) = count_occ string_dec (map c_label f) label.
Proof using Type.
  induction f as [|c f IH]; [reflexivity|]. cbn. destruct (String.eqb_spec (c_label c) label) as [E|E].
  - destruct (string_dec (c_label c) label); [cbn; f_equal; exact IH|contradiction].
  - destruct (string_dec (c_label c) label); [contradiction|exact IH].
Qed.
Lemma of_label_none label (f : file) : ~ In label (map c_label f) -> of_label label f = [].
Proof using Type.
  intros H. destruct (of_label label f) as [|c l] eqn:E; [reflexivity|]. destruct H.
  assert (Hc : In c (of_label label f)) by (rewrite E; now left). apply filter_In in Hc as [Hc Hl].
  apply String.eqb_eq in Hl. subst label. now apply in_map.
Qed.
Lemma read_nth label (f : file) j v : nth_written label f j v -> read_checkpoint f label (Z.of_nat j) = Ok v.
Proof using Type.
  intros (pre & c & post & -> & Hl & <- & Hj). unfold read_checkpoint.
  replace (Z.of_nat j =? -1)%Z with false by (symmetry; apply Z.eqb_neq; lia).
  replace (Z.of_nat j <? 0)%Z with false by (symmetry; apply Z.ltb_ge; lia).
  rewrite Nat2Z.id, of_label_app, nth_error_app2; rewrite of_label_length, Hj; [|lia]. rewrite Nat.sub_diag.
  cbn. rewrite Hl, String.eqb_refl. reflexivity.
Qed.
Lemma read_last label (f : file) v : last_written label f v -> read_checkpoint f label (-1) = Ok v.
Proof using Type.
  intros (pre & c & post & -> & Hl & <- & Hn). unfold read_checkpoint. cbn [Z.eqb Pos.eqb].
  rewrite of_label_app. cbn [of_label filter]. rewrite Hl, String.eqb_refl. fold (of_label label post).
  rewrite (of_label_none label post Hn), rev_app_distr. reflexivity.
Qed.

(** A restart gets the function written at the given position with the given label; -1 is the last one. *)
Theorem C65_restart parse (d : disk A V) name label f k v ini :
  InitialCondition (IStr (name ++ ".xdmf")) (Some label) (Some k) = Ok ini ->
  d (name ++ ".xdmf")%string = Some f ->
  (exists j, k = Z.of_nat j /\ nth_written label f j v) \/ (k = (-1)%Z /\ last_written label f v) ->
  get_comp parse d ini = Ok v /\ forall zero, heat_initial zero d true (Some ini) = Ok v.
Proof using Type.
  intros Hi Hd Hc. unfold InitialCondition in Hi. rewrite ends_xdmf in Hi. injection Hi as <-.
  assert (HR : read_checkpoint f label k = Ok v) by (destruct Hc as [(j & -> & Hj)|[-> Hj]]; [now apply read_nth|now apply read_last]).
  unfold get_comp, heat_initial. cbn [i_value]. rewrite ends_xdmf. unfold read_ini, open_file. rewrite Hd.
  cbn [bind i_label i_step]. rewrite HR. auto.
Qed.
(** If there is no such function the restart raises: nothing is read from elsewhere. *)
Theorem C65_restart_missing parse (d : disk A V) name label f k ini :
  InitialCondition (IStr (name ++ ".xdmf")) (Some label) (Some k) = Ok ini ->
  d (name ++ ".xdmf")%string = Some f ->
  (k < -1 \/ Z.of_nat (count_occ string_dec (map c_label f) label) <= k)%Z \/ ~ In label (map c_label f) ->
  exists s, get_comp parse d ini = Err (RuntimeError s) /\ forall zero, heat_initial zero d true (Some ini) = Err (RuntimeError s).
Proof using Type.
  intros Hi Hd Hc. unfold InitialCondition in Hi. rewrite ends_xdmf in Hi. injection Hi as <-.
  assert (HR : exists s, read_checkpoint f label k = Err (RuntimeError s)).
  { unfold read_checkpoint. destruct Hc as [[Hk|Hk]|Hn].
    - replace (k =? -1)%Z with false by (symmetry; apply Z.eqb_neq; lia).
      replace (k <? 0)%Z with true by (symmetry; apply Z.ltb_lt; lia). eauto.
    - replace (k =? -1)%Z with false by (symmetry; apply Z.eqb_neq; lia).
      replace (k <? 0)%Z with false by (symmetry; apply Z.ltb_ge; lia).
      replace (nth_error (of_label label f) (Z.to_nat k)) with (@None (checkpoint A V)); [eauto|].
      symmetry. apply nth_error_None. rewrite of_label_length. lia.
    - rewrite (of_label_none _ _ Hn). destruct (k =? -1)%Z, (k <? 0)%Z; cbn; try destruct (Z.to_nat k); cbn; eauto. }
  destruct HR as [s HR]. exists s.
  unfold get_comp, heat_initial. cbn [i_value]. rewrite ends_xdmf. unfold read_ini, open_file. rewrite Hd.
  cbn [bind i_label i_step]. rewrite HR. auto.
Qed.

(** TemperatureFromXDMF of a file with one label: T and T_n are the last temperature written. *)
Theorem C65_temperature (d : disk A V) name label label' f c : d name = Some (f ++ [c])%list -> only label (f ++ [c])%list ->
  (label' = label -> exists T, TemperatureFromXDMF show d name label' = Ok T /\ xdmf_temperature d T = Ok (c_fun c, c_fun c)) /\
  (label' <> label -> exists s, TemperatureFromXDMF show d name label' = Err (ValueError s)).
Proof using Type.
  intros Hd Hl. assert (Hne : (f ++ [c])%list <> []) by (destruct f; discriminate).
  assert (HT : TemperatureFromXDMF show d name label' =
    if String.eqb label' label then Ok (name, label') else Err (ValueError "Coudln't find label")).
  { unfold TemperatureFromXDMF, open_file. rewrite Hd. cbn [bind]. rewrite (C65_labels label _ Hne Hl). cbn [bind existsb].
    now rewrite orb_false_r. }
  split.
  - intros ->. rewrite HT, String.eqb_refl. eexists. split; [reflexivity|]. unfold xdmf_temperature, open_file. cbn [fst snd].
    rewrite Hd. cbn [bind]. unfold read_checkpoint. rewrite (of_label_only label _ Hl), rev_app_distr. reflexivity.
  - intros Hn. apply String.eqb_neq in Hn. rewrite HT, Hn. eauto.
Qed.

(** Outside the claim: an initial temperature given as any other string is not used. *)
Theorem C65_heat_string_refuted (d : disk A V) (zero : V) s ini : (forall p, s <> p ++ ".xdmf")%string ->
  InitialCondition (IStr s) None None = Ok ini ->
  heat_initial zero d true (Some ini) = Ok zero.
Proof using Type.
  intros E0 H. assert (E : endswith s ".xdmf" = false).
  { destruct (endswith s ".xdmf") eqn:E; [|reflexivity].
    pose proof (proj1 (C65_initial_condition (IStr s) None None)) as HI. unfold InitialCondition in H. rewrite E in H. discriminate. }
  unfold InitialCondition in H. rewrite E in H. injection H as <-. cbn [heat_initial i_value]. now rewrite E.
Qed.
End Reading.

(** ** A run followed by a restart *)
Lemma multiples_nth p m j : 0 < p -> j * p < m -> nth_error (multiples_below (Z.of_nat p) m) j = Some (j * p).
Proof.
  intros Hp. assert (E : forall m, multiples_below (Z.of_nat p) m = map (fun j => j * p) (seq 0 ((m + p - 1) / p))).
  { clear m. unfold multiples_below. induction m as [|m IH].
    - cbn. rewrite Nat.div_small by lia. reflexivity.
    - rewrite seq_S, filter_app, IH. cbn [filter]. change (0 + m) with m.
      rewrite <- Nat2Z.inj_mod. pose proof (Nat.div_mod m p ltac:(lia)) as Hd. pose proof (Nat.mod_upper_bound m p ltac:(lia)) as Hb.
      destruct (m mod p) as [|r] eqn:Er.
      + cbn [Z.of_nat Z.eqb]. replace ((S m + p - 1) / p) with (S ((m + p - 1) / p)).
        * rewrite seq_S, map_app. cbn [map]. f_equal. f_equal. cbn [Nat.add].
          replace ((m + p - 1) / p) with (m / p); [nia|]. apply (Nat.div_unique _ _ _ (p - 1)); nia.
        * replace ((m + p - 1) / p) with (m / p) by (apply (Nat.div_unique _ _ _ (p - 1)); nia).
          apply (Nat.div_unique _ _ _ 0); nia.
      + cbn [Z.of_nat Z.eqb]. rewrite app_nil_r. do 2 f_equal.
        transitivity (S (m / p)); [symmetry; apply (Nat.div_unique _ _ _ r); nia|apply (Nat.div_unique _ _ _ (S r)); nia]. }
  intros Hj. rewrite E. apply map_nth_error with (f := fun j => j * p).
  assert (Hl : j < (m + p - 1) / p).
  { apply Nat.div_le_lower_bound; nia. }
  rewrite nth_error_nth' with (d := 0); [|now rewrite seq_length]. now rewrite seq_nth.
Qed.
Lemma Forall2_nth {B D} (R : B -> D -> Prop) l1 l2 k b : Forall2 R l1 l2 -> nth_error l1 k = Some b ->
  exists d, nth_error l2 k = Some d /\ R b d.
Proof.
  intros H. revert k. induction H as [|x y l1 l2 Hxy H IH]; intros [|k] E; try discriminate.
  - injection E as <-. exists y. auto.
  - apply IH. exact E.
Qed.

Section Restart.
Context {A : Type} {N : Num A} {U X D F V C : Type}.
Variable temp : temperature (A:=A) X.
Variable dens_solve : D -> D -> A -> X -> D.
Variable is_function : F -> bool.
Variable project : F -> F.
Hypothesis project_function : forall f, is_function (project f) = true.
Variable ltf : U -> X -> dict F.
Variables (T0 Tn0 : X) (u0 un0 : U) (d0 dn0 : D).
Local Notation run ft s ex0 sched :=
  (run_exports (V:=V) (C:=C) temp dens_solve is_function project ltf T0 Tn0 u0 un0 d0 dn0 ft s ex0 sched).
Local Notation st_log st := (snd (st_exp st)).

(** A restart from time_step=j starts from the field after the step number j * n of the run. *)
Theorem C65_run_restart ft s ex0 sched st' evs stt i x n label old parse d name j ini :
  run ft s ex0 sched = (st', evs, stt) ->
  ex_nb ex0 = 0%Z -> nth_error (ex_list ex0) i = Some (EXdmf x) -> set_mode (MInt (Z.of_nat n)) = Ok (xd_mode x) ->
  xd_checkpoint x = true -> xd_append x = false -> j * n < length (visited evs) ->
  d (name ++ ".xdmf")%string = Some (file_after label old (map snd (written_by i (st_log st')))) ->
  InitialCondition (IStr (name ++ ".xdmf")) (Some label) (Some (Z.of_nat j)) = Ok ini ->
  exists t u T v, nth_error (posts evs) (j * n) = Some (t, u, T) /\ xdmf_writes is_function project x (ltf u T) v /\
    get_comp parse d ini = Ok v /\ forall zero, heat_initial zero d true (Some ini) = Ok v.
Proof using project_function.
  intros H Hnb Hx Hm Hck Hap Hj Hd Hi.
  assert (Hn : 0 < n). { cbn in Hm. destruct n; [cbn in Hm; discriminate|lia]. }
  assert (Hne : visited evs <> []) by (destruct (visited evs); [cbn in Hj; lia|discriminate]).
  pose proof (C65_file temp dens_solve is_function project project_function ltf T0 Tn0 u0 un0 d0 dn0 ft s ex0 sched st' evs stt i x _ label old
    H Hnb Hx Hm Hck Hap Hne) as HF.
  assert (Hon : only label (file_after label old (map snd (written_by i (st_log st'))))).
  { intros c Hc. clear - HF Hc. revert Hc. induction HF as [|k c' l1 l2 (t & u & T & f & _ & _ & ->) HF IH]; [intros []|].
    intros [<-|Hc]; [reflexivity|now apply IH]. }
  destruct (Forall2_nth _ _ _ _ _ HF (multiples_nth n _ j Hn Hj)) as (c & Hc & t & u & T & f & Hp & Hf & ->).
  exists t, u, T, f. split; [exact Hp|]. split; [exact Hf|].
  apply (C65_restart parse d name label (file_after label old (map snd (written_by i (st_log st')))) (Z.of_nat j) f ini Hi Hd).
  left. exists j. split; [reflexivity|]. destruct (nth_error_split _ _ Hc) as (pre & post & E & Hl).
  exists pre, (mkCheckpoint label t f), post. split; [exact E|]. split; [reflexivity|]. split; [reflexivity|].
  rewrite E in Hon. clear - Hon Hl. subst j. assert (H : only label pre) by (intros c Hc; apply Hon; apply in_or_app; now left).
  clear Hon. induction pre as [|c pre IH]; [reflexivity|]. cbn. rewrite (H c) by now left.
  destruct (string_dec label label); [|contradiction]. f_equal. apply IH. intros c' Hc'. apply H. now right.
Qed.
End Restart.

(** The file of an export with mode="last": the final field. *)
Section Last.
Context {U X D F V C : Type}.
Variable temp : temperature (A:=Q) X.
Variable dens_solve : D -> D -> Q -> X -> D.
Variable is_function : F -> bool.
Variable project : F -> F.
Hypothesis project_function : forall f, is_function (project f) = true.
Variable ltf : U -> X -> dict F.
Variables (T0 Tn0 : X) (u0 un0 : U) (d0 dn0 : D).
Local Notation run ft s ex0 sched :=
  (run_exports (V:=V) (C:=C) temp dens_solve is_function project ltf T0 Tn0 u0 un0 d0 dn0 ft s ex0 sched).
Theorem C65_last ft s ex0 sched st' evs i x label old :
  run ft s ex0 sched = (st', evs, Done) -> (0 < ft)%Q -> (forall t, In t (visited evs) -> t <= ft)%Q ->
  nth_error (ex_list ex0) i = Some (EXdmf x) -> set_mode (MStr "last") = Ok (xd_mode x) ->
  xd_checkpoint x = true -> xd_append x = false ->
  exists t u T v, nth_error (posts evs) (length (visited evs) - 1) = Some (t, u, T) /\
    xdmf_writes is_function project x (ltf u T) v /\
    file_after label old (map snd (written_by i (snd (st_exp st')))) = [mkCheckpoint label t v].
Proof using project_function.
  intros H HF Hno Hx Hm Hck Hap.
  destruct (C15_last_written_once temp dens_solve is_function project project_function ltf T0 Tn0 u0 un0 d0 dn0 ft s ex0 sched st' evs i x
    H HF Hno Hx Hm) as (t & u & T & f & Hp & Hf & Hw).
  exists t, u, T, f. split; [exact Hp|]. split; [exact Hf|]. rewrite Hw, Hck, Hap. reflexivity.
Qed.
End Last.

(** Outside the claim: of a file with two labels only the first is found by TemperatureFromXDMF. *)
Theorem C65_second_label_refuted : exists (f : file nat nat) label s, In label (map c_label f) /\
  read_checkpoint f label (-1) = Ok 7 /\
  TemperatureFromXDMF (fun _ => "0"%string) (fun _ => Some f) "a.xdmf" label = Err (ValueError s).
Proof.
  exists [mkCheckpoint "a" 0 5; mkCheckpoint "T" 0 7], "T"%string. eexists. split; [right; now left|]. split; reflexivity.
Qed.
(** Outside the claim: two exports writing to one file; the first write of the second removes the first's. *)
Theorem C65_shared_refuted : exists (f : file nat nat), write_checkpoint (write_checkpoint f "a" 0 5 false) "T" 0 7 false =
  [mkCheckpoint "T" 0 7].
Proof. exists []. reflexivity. Qed.

(** A file of three exported steps, read back. *)
Definition demo_file : file nat nat := [mkCheckpoint "T" 0 5; mkCheckpoint "T" 2 6; mkCheckpoint "T" 4 7].
Definition demo_show (n : nat) : string := String (ascii_of_nat (48 + n)) "".
Example C65_example :
  only "T" demo_file /\ demo_file <> [] /\
  extract_xdmf_times (fun s => match s with String a "" => Ok (nat_of_ascii a - 48) | _ => Err (ValueError "") end) (to_xml demo_show demo_file) = Ok [0; 2; 4] /\
  extract_xdmf_labels (to_xml demo_show demo_file) = Ok ["T"%string] /\
  nth_written "T" demo_file 1 6 /\ last_written "T" demo_file 7 /\
  (exists ini, InitialCondition (V:=nat) (IStr "out/T.xdmf") (Some "T"%string) (Some 1%Z) = Ok ini /\
     get_comp (fun _ => Err (ValueError "")) (fun n => if String.eqb n "out/T.xdmf" then Some demo_file else None) ini = Ok 6).
Proof.
  split; [intros c [<-|[<-|[<-|[]]]]; reflexivity|]. split; [discriminate|]. split; [reflexivity|]. split; [reflexivity|].
  split; [exists [mkCheckpoint "T" 0 5], (mkCheckpoint "T" 2 6), [mkCheckpoint "T" 4 7]; repeat split|].
  split; [exists [mkCheckpoint "T" 0 5; mkCheckpoint "T" 2 6], (mkCheckpoint "T" 4 7), []; repeat split; intros []|].
  eexists. split; reflexivity.
Qed.
(** Four steps, XDMFExport(mode=2) and XDMFExport(mode="last"). *)
Example C65_run_example :
  snd demo_run = Done /\ demo_list <> [] /\ length (visited (snd (fst demo_run))) = 4 /\
  map (fun c => (c_label c, Qred (c_time c), match c_fun c with FFun q => Qred q | FAds _ => 0%Q end))
    (file_after "T" [mkCheckpoint "old" 9%Q (FFun 1%Q)] (map snd (written_by 0 demo_log))) =
    [("T"%string, 1%Q, 310%Q); ("T"%string, 3%Q, 330%Q)] /\
  map (fun c => (c_label c, Qred (c_time c), match c_fun c with FFun q => Qred q | FAds _ => 0%Q end))
    (file_after "T" [] (map snd (written_by 1 demo_log))) = [("T"%string, 4%Q, 340%Q)].
Proof. split; [vm_compute; reflexivity|]. split; [discriminate|]. vm_compute. repeat split; reflexivity. Qed.

Print Assumptions C65_file.
Print Assumptions C65_last.
Print Assumptions C65_run_restart.
Print Assumptions C65_times.
Print Assumptions C65_labels.
Print Assumptions C65_initial_condition.
Print Assumptions C65_restart.
Print Assumptions C65_restart_missing.
Print Assumptions C65_temperature.
Print Assumptions C65_heat_string_refuted.
Print Assumptions C65_second_label_refuted.
Print Assumptions C65_shared_refuted.
