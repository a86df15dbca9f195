(** Lemmas about Simulation.initialise. *)
From Coq Require Import ZArith QArith List Bool String Lia.
From Verif Require Import Base.Exc Base.Num Base.Key Model.Stepsize Model.Materials Model.Mesh1D Model.Sources
  Model.Bcs Model.Fields Model.Exports Model.TxtTimes Model.TxtRows Model.Simulation
  Spec.MeshSpec Spec.FieldSpec Spec.SimSpec
  Proofs.NumQ Proofs.KeyProofs Proofs.MaterialProofs Proofs.SourceProofs Proofs.BcProofs Proofs.FieldProofs.
From Verif Require Properties.MaterialProps Properties.BcProps.
Import ListNotations.
Local Open Scope string_scope.
Local Notation length := List.length.

Lemma each_ok {B} (f : B -> res unit) l : each f l = Ok tt <-> forall x, In x l -> f x = Ok tt.
Proof.
  induction l as [|a r IH]; cbn [each]; [split; [intros _ x []|reflexivity]|].
  split.
  - intros H x [<-|Hx]; destruct (f a) as [[]|] eqn:E; try discriminate; [reflexivity|]. now apply IH.
  - intros H. rewrite (H a (or_introl eq_refl)). cbn. apply IH. intros x Hx. apply H. now right.
Qed.
Lemma each_err {B} (f : B -> res unit) l e : each f l = Err e -> exists x, In x l /\ f x = Err e.
Proof.
  induction l as [|a r IH]; cbn [each]; [discriminate|]. destruct (f a) eqn:E; cbn [bind].
  - intros H. destruct (IH H) as (x & Hx & Hf). exists x. split; [now right|assumption].
  - intros [= <-]. exists a. split; [now left|assumption].
Qed.
Lemma unit_ok {B} (f : B -> res unit) x u : f x = Ok u -> f x = Ok tt.
Proof. now destruct u. Qed.

Section Proofs.
Context {P S V F W C : Type}.
Local Notation material := (material (A:=Q) P).
Local Notation sim := (@sim Q P S V F W C).
Local Notation trap := (trap (A:=Q) (P:=P)).

(** ** Materials of the traps *)
Lemma first_such_unique (p : material -> Prop) ms m m' : first_such p ms m -> first_such p ms m' -> m = m'.
Proof.
  intros (k & Hk & Hp & Hf) (k' & Hk' & Hp' & Hf').
  destruct (Nat.lt_trichotomy k k') as [H|[H|H]].
  - now elim (Hf' k m H Hk).
  - subst k'. congruence.
  - now elim (Hf k' m' H Hk').
Qed.
Lemma refers_unique ms (t : tag (A:=Q) P) m m' : refers ms t m -> refers ms t m' -> m = m'.
Proof.
  destruct t; cbn [refers]; [apply first_such_unique|apply first_such_unique|congruence|tauto].
Qed.
Lemma find_id_first ms z : match find_material_from_id ms z with
  | Ok m => first_such (fun m : material => has_id m z) ms m
  | Err e => (exists msg, e = ValueError msg) /\ forall m, ~ first_such (fun m => has_id m z) ms m
  end.
Proof.
  induction ms as [|a r IH]; cbn [find_material_from_id].
  { split; [eauto|]. intros m (k & Hk & _). now destruct k. }
  destruct (existsb (Z.eqb z) (ids (m_id a))) eqn:E.
  - apply existsb_ids in E. exists 0%nat. split; [reflexivity|]. split; [assumption|]. intros; lia.
  - assert (Ha : ~ has_id a z) by (intros H; apply existsb_ids in H; congruence).
    destruct (find_material_from_id r z) as [m|e].
    + destruct IH as (k & Hk & Hp & Hf). exists (Datatypes.S k). split; [assumption|]. split; [assumption|].
      intros [|j] m' Hj Hm'; [injection Hm' as <-; assumption|]. apply (Hf j); [lia|assumption].
    + destruct IH as [He IH]. split; [assumption|]. intros m (k & Hk & Hp & Hf). destruct k as [|k].
      * injection Hk as <-. tauto.
      * apply (IH m). exists k. split; [assumption|]. split; [assumption|]. intros j m' Hj. apply (Hf (Datatypes.S j)). lia.
Qed.
Lemma find_name_first ms n : match find_material_from_name ms n with
  | Ok m => first_such (fun m : material => m_name m = Some n) ms m
  | Err e => (exists msg, e = ValueError msg) /\ forall m, ~ first_such (fun m => m_name m = Some n) ms m
  end.
Proof.
  induction ms as [|a r IH]; cbn [find_material_from_name].
  { split; [eauto|]. intros m (k & Hk & _). now destruct k. }
  assert (Hn : name_is n a = true <-> m_name a = Some n).
  { unfold name_is. destruct (m_name a) as [s|]; [|split; discriminate].
    rewrite String.eqb_eq. split; [now intros ->|now intros [= ->]]. }
  destruct (name_is n a) eqn:E.
  - exists 0%nat. split; [reflexivity|]. split; [tauto|]. intros; lia.
  - assert (Ha : m_name a <> Some n) by (intros H; apply Hn in H; congruence).
    destruct (find_material_from_name r n) as [m|e].
    + destruct IH as (k & Hk & Hp & Hf). exists (Datatypes.S k). split; [assumption|]. split; [assumption|].
      intros [|j] m' Hj Hm'; [injection Hm' as <-; assumption|]. apply (Hf j); [lia|assumption].
    + destruct IH as [He IH]. split; [assumption|]. intros m (k & Hk & Hp & Hf). destruct k as [|k].
      * injection Hk as <-. tauto.
      * apply (IH m). exists k. split; [assumption|]. split; [assumption|]. intros j m' Hj. apply (Hf (Datatypes.S j)). lia.
Qed.
Lemma find_material_spec ms (t : tag (A:=Q) P) : match find_material ms t with
  | Ok (Some m) => refers ms t m
  | Ok None => t = TagOther
  | Err e => (exists msg, e = ValueError msg) /\ t <> TagOther /\ forall m, ~ refers ms t m
  end.
Proof.
  destruct t as [z|n|m|]; cbn [find_material refers].
  - pose proof (find_id_first ms z) as H. destruct (find_material_from_id ms z); cbn [bind]; [assumption|].
    split; [tauto|]. split; [discriminate|tauto].
  - pose proof (find_name_first ms n) as H. destruct (find_material_from_name ms n); cbn [bind]; [assumption|].
    split; [tauto|]. split; [discriminate|tauto].
  - reflexivity.
  - reflexivity.
Qed.
Lemma find_materials_spec ms (ts : list (tag (A:=Q) P)) : match find_materials ms ts with
  | Ok l => Forall2 (refers ms) ts l
  | Err e => (exists tg msg, In tg ts /\ e = ValueError msg /\ tg <> TagOther /\ forall m, ~ refers ms tg m) \/
             (In TagOther ts /\ exists msg, e = TypeError msg)
  end.
Proof.
  induction ts as [|t r IH]; cbn [find_materials]; [constructor|].
  pose proof (find_material_spec ms t) as Ht. destruct (find_material ms t) as [[m|]|e]; cbn [bind].
  - destruct (find_materials ms r) as [l|e]; cbn [bind]; [now constructor|].
    destruct IH as [(tg & msg & H1 & H2)|[H1 H2]]; [left; exists tg, msg; split; [now right|assumption]|].
    right. split; [now right|assumption].
  - destruct (find_materials ms r) as [l|e]; cbn [bind].
    + right. split; [now left|eauto].
    + destruct IH as [(tg & msg & H1 & H2)|[H1 H2]]; [left; exists tg, msg; split; [now right|assumption]|].
      right. split; [now right|assumption].
  - left. destruct Ht as [[msg ->] Ht]. exists t, msg. split; [now left|]. tauto.
Qed.
Section Same.
Variable same : material -> material -> bool.
Lemma duplicates_spec (l : list material) :
  if duplicates same l
  then exists i j m m', (i < j)%nat /\ nth_error l i = Some m /\ nth_error l j = Some m' /\ same m m' = true
  else forall i j m m', (i < j)%nat -> nth_error l i = Some m -> nth_error l j = Some m' -> same m m' = false.
Proof.
  induction l as [|a r IH]; cbn [duplicates].
  { intros [|i] j m m' _ H; discriminate. }
  destruct (existsb (same a) r) eqn:E; cbn [orb].
  - apply existsb_exists in E as (m' & Hm' & E). apply In_nth_error in Hm' as (j & Hj).
    exists 0%nat, (Datatypes.S j), a, m'. repeat split; [lia|assumption..].
  - destruct (duplicates same r).
    + destruct IH as (i & j & m & m' & Hij & Hi & Hj & Hs). exists (Datatypes.S i), (Datatypes.S j), m, m'.
      repeat split; [lia|assumption..].
    + intros [|i] [|j] m m' Hij Hi Hj; cbn [nth_error] in *; try lia.
      * injection Hi as <-. destruct (same a m') eqn:Es; [|reflexivity].
        rewrite <- E. symmetry. apply existsb_exists. exists m'. split; [eapply nth_error_In, Hj|assumption].
      * apply (IH i j); [lia|assumption..].
Qed.

Lemma Forall2_nth1 {B D} (R : B -> D -> Prop) l1 l2 i a : Forall2 R l1 l2 -> nth_error l1 i = Some a ->
  exists b, nth_error l2 i = Some b /\ R a b.
Proof.
  intros H. revert i. induction H as [|x y l1 l2 Hr _ IH]; intros [|i] Hi; cbn in *; try discriminate.
  - injection Hi as <-. eauto.
  - now apply IH.
Qed.
Lemma Forall2_nth2 {B D} (R : B -> D -> Prop) l1 l2 i b : Forall2 R l1 l2 -> nth_error l2 i = Some b ->
  exists a, nth_error l1 i = Some a /\ R a b.
Proof.
  intros H. revert i. induction H as [|x y l1 l2 Hr _ IH]; intros [|i] Hi; cbn in *; try discriminate.
  - injection Hi as <-. eauto.
  - now apply IH.
Qed.
Lemma Forall2_len {B D} (R : B -> D -> Prop) l1 l2 : Forall2 R l1 l2 -> length l1 = length l2.
Proof. induction 1; cbn; congruence. Qed.

(** The materials of trap t are l. *)
Definition resolved (ms : list material) (t : trap) (l : list material) : Prop :=
  Forall2 (refers ms) (tr_materials t) l /\ duplicates same l = false.
Lemma resolved_lives ms t l m : resolved ms t l -> (In m l <-> lives_in ms t m).
Proof.
  intros [H _]. split.
  - intros Hm. apply In_nth_error in Hm as (i & Hi). destruct (Forall2_nth2 _ _ _ _ _ H Hi) as (tg & Ht & Hr).
    exists tg. split; [eapply nth_error_In, Ht|assumption].
  - intros (tg & Ht & Hr). apply In_nth_error in Ht as (i & Hi). destruct (Forall2_nth1 _ _ _ _ _ H Hi) as (m' & Hm' & Hr').
    rewrite (refers_unique _ _ _ _ Hr Hr'). eapply nth_error_In, Hm'.
Qed.

Lemma make_materials_spec ms (t : trap) : match make_materials same ms t with
  | Ok l => resolved ms t l
  | Err e => (exists tg msg, In tg (tr_materials t) /\ e = ValueError msg /\ tg <> TagOther /\ forall m, ~ refers ms tg m) \/
             (In TagOther (tr_materials t) /\ exists msg, e = TypeError msg) \/
             (exists i j tg tg' m m', (i < j)%nat /\ nth_error (tr_materials t) i = Some tg /\
                nth_error (tr_materials t) j = Some tg' /\ refers ms tg m /\ refers ms tg' m' /\ same m m' = true /\
                e = ValueError "Duplicate materials in trap")
  end.
Proof.
  unfold make_materials. pose proof (find_materials_spec ms (tr_materials t)) as H.
  destruct (find_materials ms (tr_materials t)) as [l|e]; cbn [bind]; [|tauto].
  pose proof (duplicates_spec l) as Hd. destruct (duplicates same l) eqn:E.
  - right. right. destruct Hd as (i & j & m & m' & Hij & Hi & Hj & Hs).
    destruct (Forall2_nth2 _ _ _ _ _ H Hi) as (tg & Ht & Hr). destruct (Forall2_nth2 _ _ _ _ _ H Hj) as (tg' & Ht' & Hr').
    exists i, j, tg, tg', m, m'. repeat split; assumption.
  - now split.
Qed.
Lemma make_traps_materials_spec ms ts : match make_traps_materials same ms ts with
  | Ok mss => Forall2 (resolved ms) ts mss
  | Err e => exists t, In t ts /\ make_materials same ms t = Err e
  end.
Proof.
  induction ts as [|t r IH]; cbn [make_traps_materials]; [constructor|].
  pose proof (make_materials_spec ms t) as Ht. destruct (make_materials same ms t) as [l|e] eqn:E; cbn [bind].
  - destruct (make_traps_materials same ms r) as [mss|e]; cbn [bind]; [now constructor|].
    destruct IH as (t' & Ht' & H). exists t'. split; [now right|assumption].
  - exists t. split; [now left|assumption].
Qed.

End Same.

(** ** Properties of the materials *)
Lemma need_S_spec (m : material) : match need_S m with
  | Ok _ => m_S0 m <> None /\ m_ES m <> None
  | Err e => (m_S0 m = None \/ m_ES m = None) /\ exists msg, e = TypeError msg
  end.
Proof.
  unfold need_S. destruct (m_S0 m), (m_ES m); cbn; (split; [|try eauto]); try discriminate; auto.
Qed.
Section Dx.
Variable dx_list : res unit.
Lemma dx_id_err (m : material) e : dx_id dx_list m = Err e -> dx_list = Err e /\ exists l, m_id m = IdMany l.
Proof. unfold dx_id. destruct (m_id m); [discriminate|eauto]. Qed.
Lemma heat_form_spec transient (ms : list material) : match heat_form transient ms with
  | Ok _ => forall m, In m ms -> ~ lacks_thermal transient m
  | Err e => (exists m, In m ms /\ lacks_thermal transient m) /\ exists msg, e = TypeError msg
  end.
Proof.
  induction ms as [|m r IH]; cbn [heat_form]; [intros m []|].
  unfold lacks_thermal.
  destruct (transient && negb (is_some (m_rho m) && is_some (m_heat m)))%bool eqn:E1.
  - apply andb_true_iff in E1 as [-> E1]. split; [|eauto]. exists m. split; [now left|]. right. split; [reflexivity|].
    destruct (m_rho m), (m_heat m); cbn in E1; auto; discriminate.
  - destruct (m_thermal m) as [th|] eqn:E2; cbn [is_some negb].
    + destruct (heat_form transient r) as [u|e].
      * intros m' [<-|Hm']; [|now apply IH]. rewrite E2. intros [H|[-> H]]; [discriminate|].
        destruct (m_rho m), (m_heat m); cbn in E1; destruct H; discriminate.
      * destruct IH as [(m' & Hm' & Hl) He]. split; [|assumption]. exists m'. split; [now right|assumption].
    + split; [|eauto]. exists m. split; [now left|]. now left.
Qed.
Lemma theta_form_err chem (ms : list material) e : theta_form dx_list chem ms = Err e ->
  chem = true /\ exists m, In m ms /\
    (((m_S0 m = None \/ m_ES m = None) /\ exists msg, e = TypeError msg) \/ (dx_list = Err e /\ exists l, m_id m = IdMany l)).
Proof.
  unfold theta_form. destruct chem; [|discriminate]. intros H. apply each_err in H as (m & Hm & H).
  split; [reflexivity|]. exists m. split; [assumption|].
  pose proof (need_S_spec m) as Hs. destruct (need_S m); cbn [bind] in H; [right; now apply dx_id_err|left].
  now injection H as <-.
Qed.
Lemma project_solubility_err chem T (ms : list material) e : project_solubility (V:=V) dx_list chem T ms = Err e ->
  chem = true /\ exists m, In m ms /\
    (((m_S0 m = None \/ m_ES m = None) /\ exists msg, e = TypeError msg) \/ (dx_list = Err e /\ exists l, m_id m = IdMany l)).
Proof.
  unfold project_solubility. destruct chem; [|discriminate]. destruct (is_steady_state T); [|discriminate]. intros H.
  cbn [andb] in H. apply each_err in H as (m & Hm & H). split; [reflexivity|]. exists m. split; [assumption|].
  destruct (dx_id dx_list m) eqn:E; cbn [bind] in H; [left|right; injection H as <-; now apply dx_id_err].
  pose proof (need_S_spec m) as Hs. now rewrite H in Hs.
Qed.
Lemma soret_form_err soret (ms : list material) e : soret_form soret ms = Err e ->
  soret = true /\ (exists m, In m ms /\ m_Q m = None) /\ exists msg, e = TypeError msg.
Proof.
  unfold soret_form. destruct soret; [|discriminate]. cbn [andb]. intros H. split; [reflexivity|].
  destruct (forallb (fun m => is_some (m_Q m)) ms) eqn:E; [discriminate|]. injection H as <-. split; [|eauto].
  clear -E. induction ms as [|m r IH]; [discriminate|]. cbn in E. destruct (m_Q m) eqn:Eq.
  - destruct (IH E) as (m' & Hm' & Hq). exists m'. split; [now right|assumption].
  - exists m. split; [now left|assumption].
Qed.

(** ** Trapping *)
Lemma mobile_one_err chem has l : forall i e, mobile_trapping_one dx_list chem has i l = Err e ->
  (exists k, (k < length l)%nat /\ has (i + k)%nat = false /\ exists msg, e = IndexError msg) \/
  exists m, In m l /\
   ((chem = true /\ (m_S0 m = None \/ m_ES m = None) /\ exists msg, e = TypeError msg) \/
    (dx_list = Err e /\ exists l, m_id (P:=P) (A:=Q) m = IdMany l)).
Proof.
  induction l as [|m r IH]; intros i e; cbn [mobile_trapping_one]; [discriminate|].
  destruct (has i) eqn:Eh.
  - destruct (if chem then need_S m else Ok tt) as [u|e'] eqn:Es; cbn [bind].
    + destruct (dx_id dx_list m) as [u'|e'] eqn:Ed; cbn [bind].
      * intros H. apply IH in H as [(k & Hk & Hh & He)|(m' & Hm' & H)].
        -- left. exists (Datatypes.S k). split; [cbn; lia|]. split; [|assumption].
           now replace (i + Datatypes.S k)%nat with (i + 1 + k)%nat by lia.
        -- right. exists m'. split; [now right|assumption].
      * intros [= <-]. right. exists m. split; [now left|]. right. now apply dx_id_err.
    + intros [= <-]. right. exists m. split; [now left|]. left. destruct chem; [|discriminate].
      pose proof (need_S_spec m) as Hs. rewrite Es in Hs. tauto.
  - intros [= <-]. left. exists 0%nat. rewrite Nat.add_0_r. split; [cbn; lia|]. eauto.
Qed.
Lemma mobile_trapping_err chem ts mss e : Forall2 (fun (t : trap) (l : list material) => True) ts mss ->
  mobile_trapping dx_list chem ts mss = Err e ->
  exists k t l, nth_error ts k = Some t /\ nth_error mss k = Some l /\ mobile_trapping_one dx_list chem (tr_has t) 0 l = Err e.
Proof.
  intros H. induction H as [|t l ts mss _ H IH]; cbn [mobile_trapping]; [discriminate|].
  destruct (mobile_trapping_one dx_list chem (tr_has t) 0 l) as [u|e'] eqn:E; cbn [bind].
  - intros He. destruct (IH He) as (k & t' & l' & H1 & H2 & H3). exists (Datatypes.S k), t', l'. auto.
  - intros [= <-]. exists 0%nat, t, l. auto.
Qed.
Section Trapping.
Variable s_list : S -> bool.
Variable same : material -> material -> bool.
Lemma trapping_forms_err transient chem ms att mss e : forall i,
  trapping_forms s_list same dx_list transient chem ms att i mss = Err e ->
  (exists m l, In m ms /\ dx_list = Err e /\ m_id m = IdMany l) \/
  (chem = true /\ (exists l m, In l mss /\ In m l /\ m_law m = Henry) /\
   e = NotImplementedError "Henry law of solubility is not implemented with traps") \/
  (exists k src, (i <= k < i + length mss)%nat /\ In src (att (Trap k)) /\ s_list src = true /\ dx_list = Err e).
Proof.
  induction mss as [|l r IH]; intros i; cbn [trapping_forms]; [discriminate|].
  destruct (trapping_form same dx_list transient chem ms l) as [u|e'] eqn:E; cbn [bind].
  - destruct (trap_source_form s_list dx_list (att (Trap i))) as [u'|e'] eqn:E2; cbn [bind].
    + intros H. apply IH in H as [H|[(H1 & (l' & m & H2 & H3) & H4)|(k & src & Hk & H)]].
      * now left.
      * right. left. split; [assumption|]. split; [|assumption]. exists l', m. split; [now right|assumption].
      * right. right. exists k, src. split; [cbn; lia|assumption].
    + intros [= <-]. right. right. apply each_err in E2 as (src & Hs & E2). exists i, src. split; [cbn; lia|].
      destruct (s_list src); [auto|discriminate].
  - intros [= <-]. unfold trapping_form in E.
    destruct (if transient then Ok tt else each _ ms) as [u|e2] eqn:E1; cbn [bind] in E.
    + right. left. apply each_err in E as (m & Hm & E). unfold is_henry in E. destruct chem; [|discriminate].
      split; [reflexivity|]. destruct (m_law m) eqn:El; [discriminate|]. injection E as <-. split; [|reflexivity].
      exists l, m. split; [now left|]. auto.
    + left. injection E as <-. destruct transient; [discriminate|]. apply each_err in E1 as (m & Hm & E1).
      destruct (existsb (same m) l); [discriminate|]. apply dx_id_err in E1 as [E1 (l' & El)]. eauto.
Qed.
Lemma trapping_forms_ok transient chem ms att mss : forall i u,
  trapping_forms s_list same dx_list transient chem ms att i mss = Ok u ->
  chem = true -> forall l m, In l mss -> In m l -> m_law m = Sievert.
Proof.
  induction mss as [|l r IH]; intros i u H Hc l' m Hl Hm; [now elim Hl|]. cbn [trapping_forms] in H.
  apply bind_ok in H as (u1 & H1 & H). apply bind_ok in H as (u2 & H2 & H).
  destruct Hl as [<-|Hl]; [|eapply IH; eauto].
  unfold trapping_form in H1. apply bind_ok in H1 as (u3 & _ & H1). destruct u1.
  rewrite each_ok in H1. specialize (H1 m Hm). unfold is_henry in H1. rewrite Hc in H1.
  now destruct (m_law m).
Qed.

End Trapping.

(** ** Initial conditions *)
Lemma component_none ids : forall i (d : Key.dict nat) k,
  (dict_get (component_entries i ids d) k = None <->
   dict_get d k = None /\ forall z, In z ids -> ~ of_id k z).
Proof.
  induction ids as [|a r IH]; intros i d k; cbn [component_entries]; [split; [intros H; split; [assumption|intros z []]|tauto]|].
  rewrite IH, !dict_get_set.
  destruct (key_eqb k (KS (str a)) || key_eqb k (KI a))%bool eqn:E.
  - split.
    + intros [H _]. apply orb_true_iff in E. destruct (key_eqb k (KS (str a))); [discriminate|].
      destruct E as [E|E]; [discriminate|]. rewrite E in H. discriminate.
    + apply of_id_bool in E. intros [_ H]. elim (H a); [now left|assumption].
  - assert (Ea : ~ of_id k a) by (intros H; apply of_id_bool in H; congruence).
    apply orb_false_iff in E as [-> ->]. split; intros [H1 H2]; (split; [assumption|]).
    + intros z [<-|Hz]; auto.
    + intros z Hz. apply H2. now right.
Qed.
Lemma component_some ids : forall i (d : Key.dict nat) k c,
  dict_get (component_entries i ids d) k = Some c ->
  dict_get d k = Some c \/ exists j z, nth_error ids j = Some z /\ of_id k z /\ c = (i + j)%nat.
Proof.
  induction ids as [|a r IH]; intros i d k c; cbn [component_entries]; [auto|].
  intros H. apply IH in H as [H|(j & z & Hj & Ho & ->)].
  - rewrite !dict_get_set in H. destruct (key_eqb k (KS (str a)) || key_eqb k (KI a))%bool eqn:E.
    + right. exists 0%nat, a. split; [reflexivity|]. split; [now apply of_id_bool|].
      apply orb_true_iff in E. destruct (key_eqb k (KS (str a))); [injection H; lia|].
      destruct E as [E|E]; [discriminate|]. rewrite E in H. injection H. lia.
    + apply orb_false_iff in E as [E1 E2]. rewrite E1, E2 in H. now left.
  - right. exists (Datatypes.S j), z. split; [assumption|]. split; [assumption|]. lia.
Qed.
Lemma initialised_spec ids k : match initialised ids k with
  | Ok _ => In k [KS "solute"; KS "0"; KI 0] \/ exists z, In z ids /\ of_id k z
  | Err e => (e = KeyError "field" /\ ~ In k [KS "solute"; KS "0"; KI 0] /\ forall z, In z ids -> ~ of_id k z) \/
             (exists i z msg, e = ValueError msg /\ nth_error ids i = Some z /\ of_id k z /\ ~ In (Z.of_nat (1 + i)) ids)
  end.
Proof.
  assert (Hb : forall c, dict_get [(KS "solute", 0%nat); (KS "0", 0%nat); (KI 0, 0%nat)] k = Some c ->
                 c = 0%nat /\ In k [KS "solute"; KS "0"; KI 0]).
  { intros c. cbn [dict_get].
    destruct (key_eqb k (KS "solute")) eqn:E1; [apply key_eqb_eq in E1; intros [= <-]; cbn; auto|].
    destruct (key_eqb k (KS "0")) eqn:E2; [apply key_eqb_eq in E2; intros [= <-]; cbn; auto|].
    destruct (key_eqb k (KI 0)) eqn:E3; [apply key_eqb_eq in E3; intros [= <-]; cbn; auto|]. discriminate. }
  unfold initialised. destruct (dict_get (field_to_component ids) k) as [c|] eqn:E.
  - unfold field_to_component in E. pose proof (component_some _ _ _ _ _ E) as Hs.
    assert (Hok : In k [KS "solute"; KS "0"; KI 0] \/ exists z, In z ids /\ of_id k z).
    { destruct Hs as [Hs|(j & z & Hj & Ho & _)]; [left; now apply Hb in Hs|].
      right. exists z. split; [eapply nth_error_In, Hj|assumption]. }
    destruct c as [|c]; [assumption|].
    destruct (get_trap ids (Z.of_nat (Datatypes.S c))) as [p|e] eqn:Eg; cbn [bind]; [assumption|].
    right. destruct Hs as [Hs|(j & z & Hj & Ho & Hc)]; [apply Hb in Hs as [Hs _]; discriminate|].
    apply get_from_err in Eg as [Eg ->]. exists j, z. eexists. split; [reflexivity|]. split; [assumption|].
    split; [assumption|]. now rewrite <- Hc.
  - left. split; [reflexivity|]. apply component_none in E as [E1 E2]. split; [|assumption].
    intros [<-|[<-|[<-|[]]]]; discriminate.
Qed.
Lemma initial_loop_ok ids (inis : list (key * V)) : forall s s', initial_loop ids s inis = Ok s' ->
  forall k v, In (k, v) inis -> exists sp, initialised ids k = Ok sp.
Proof.
  induction inis as [|[k v] r IH]; intros s s' H k' v' Hin; [now elim Hin|]. cbn [initial_loop] in H.
  apply bind_ok in H as (sp & H1 & H). destruct Hin as [[= <- <-]|Hin]; [eauto|eapply IH; eauto].
Qed.
Lemma initial_loop_err ids (inis : list (key * V)) e : forall s, initial_loop ids s inis = Err e ->
  exists k v, In (k, v) inis /\ initialised ids k = Err e.
Proof.
  induction inis as [|[k v] r IH]; intros s H; [discriminate|]. cbn [initial_loop] in H.
  apply bind_err in H as [H|(sp & _ & H)]; [exists k, v; split; [now left|assumption]|].
  destruct (IH _ H) as (k' & v' & Hin & He). exists k', v'. split; [now right|assumption].
Qed.
Lemma check_initial_err chem (ms : list material) ids (inis : list (key * V)) e :
  check_initial dx_list chem ms ids inis = Err e ->
  (exists k v, In (k, v) inis /\ initialised ids k = Err e) \/ theta_form dx_list chem ms = Err e.
Proof.
  induction inis as [|[k v] r IH]; [discriminate|]. cbn [check_initial]. intros H.
  apply bind_err in H as [H|(sp & _ & H)]; [left; exists k, v; split; [now left|assumption]|].
  apply bind_err in H as [H|(u & _ & H)]; [right; destruct sp; [assumption|discriminate..]|].
  destruct (IH H) as [(k' & v' & Hin & He)|He]; [left; exists k', v'; split; [now right|assumption]|now right].
Qed.

End Dx.

(** ** Boundary conditions *)
Lemma create_dirichlet_err n heat dim l e : check_boundary_conditions n heat dim l = Ok tt ->
  forall h, (forall b, In b h -> In b l) -> forall m, (m = 0 \/ n < m)%nat ->
  Bcs.create_dirichlet_bcs m h = Err e ->
  exists b f msg, In b l /\ bc_kind_of b = Dirichlet /\ bc_field b = KS f /\ f <> "T" /\ e = TypeError msg.
Proof.
  intros Hc h. induction h as [|b r IH]; intros Hl m Hm; [discriminate|]. cbn [Bcs.create_dirichlet_bcs].
  destruct (negb (key_eqb (bc_field b) (KS "T")) && is_dirichlet (bc_kind_of b))%bool eqn:E.
  - apply andb_true_iff in E as [E1 E2]. intros H. apply bind_err in H as [H|(c & _ & H)].
    + assert (Hb : In b l) by (apply Hl; now left). apply (proj1 (check_ok n heat dim l)) in Hc as [Hc _].
      destruct (Hc b Hb) as (Hf & _). unfold create_dirichletbc in H.
      assert (Hk : bc_kind_of b = Dirichlet) by (destruct (bc_kind_of b); [reflexivity|discriminate..]).
      apply bind_err in H as [H|(k & _ & H)]; [|discriminate].
      destruct (Nat.eqb_spec m 0) as [->|Hm0]; [discriminate|].
      destruct (bc_field b) as [z|f] eqn:Eb.
      * exfalso. assert (Hz : (0 <= z <= Z.of_nat n)%Z).
        { destruct Hf as [Hf|(i & Hi & [Hf|Hf])]; [discriminate| |discriminate]. injection Hf as ->. lia. }
        replace (((0 <=? z) && (z <? Z.of_nat m))%Z)%bool with true in H; [discriminate|].
        symmetry. apply andb_true_iff. split; [apply Z.leb_le|apply Z.ltb_lt]; lia.
      * injection H as <-. exists b, f. eexists. split; [assumption|]. split; [assumption|]. split; [assumption|].
        split; [|reflexivity]. intros ->. cbn in E1. discriminate.
    + apply bind_err in H as [H|(c' & _ & H)]; [|discriminate]. apply IH in H; [assumption| |assumption].
      intros b' Hb'. apply Hl. now right.
  - intros H. apply IH in H; [assumption| |assumption]. intros b' Hb'. apply Hl. now right.
Qed.
Lemma num_sub_spaces_bound n h : (num_sub_spaces n h = 0 \/ n < num_sub_spaces n h)%nat.
Proof. unfold num_sub_spaces. destruct (_ && _)%bool; lia. Qed.

(** ** Exports *)
Lemma surf_kin_present_spec bcs surface : surf_kin_present bcs surface = true <->
  exists z b, surface = Some z /\ In b bcs /\ bc_kind_of b = SurfKin /\ In z (bc_surfaces b).
Proof.
  unfold surf_kin_present. rewrite existsb_exists. split.
  - intros (b & Hb & H). apply andb_true_iff in H as [H1 H2]. destruct surface as [z|]; [|discriminate].
    apply existsb_exists in H2 as (z' & Hz & H2). apply Z.eqb_eq in H2 as <-. exists z, b.
    repeat split; [assumption| |assumption]. destruct (bc_kind_of b); try discriminate. reflexivity.
  - intros (z & b & -> & Hb & Hk & Hz). exists b. split; [assumption|]. rewrite Hk. cbn.
    apply existsb_exists. exists z. split; [assumption|apply Z.eqb_refl].
Qed.
Lemma check_quantities_spec m bcs (st : store (A:=Q) F W) qs : match check_quantities m bcs st qs with
  | Ok _ => forall i, In i qs -> q_kind (st i) = AdsorbedHydrogen -> surf_kin_present bcs (q_surface (st i)) = true
  | Err e => e = AttributeError "SurfaceKinetics boundary condition must be defined on surface" /\
             exists i, In i qs /\ q_kind (st i) = AdsorbedHydrogen /\ surf_kin_present bcs (q_surface (st i)) = false
  end.
Proof.
  induction qs as [|i r IH]; cbn [check_quantities]; [intros i []|].
  destruct (is_adsorbed (q_kind (st i)) && negb (surf_kin_present bcs (q_surface (st i))))%bool eqn:E.
  - split; [reflexivity|]. apply andb_true_iff in E as [E1 E2]. exists i. split; [now left|].
    split; [|now apply negb_true_iff]. destruct (q_kind (st i)); try discriminate. reflexivity.
  - destruct (check_quantities m bcs st r) as [w|e]; cbn [bind].
    + intros j [<-|Hj] Hk; [|now apply IH]. rewrite Hk in E. cbn in E. now apply negb_false_iff.
    + destruct IH as (He & j & Hj & H). split; [assumption|]. exists j. split; [now right|assumption].
Qed.
Lemma np_borders_err (ms : list material) e : np_borders (flat_map border_items ms) = Err e ->
  (exists msg, e = ValueError msg) /\ exists m m' a b, In m ms /\ In m' ms /\ m_borders m = BOne a /\ m_borders m' = BMany b.
Proof.
  unfold np_borders. destruct (orb _ _) eqn:E; [discriminate|]. intros [= <-]. split; [eauto|].
  apply orb_false_iff in E as [E1 E2].
  assert (H : forall p : item (A:=Q) -> bool, forallb p (flat_map border_items ms) = false ->
            exists m i, In m ms /\ In i (border_items m) /\ p i = false).
  { intros p Hp. clear -Hp. induction ms as [|m r IH]; [discriminate|]. cbn [flat_map] in Hp.
    rewrite forallb_app in Hp. apply andb_false_iff in Hp as [Hp|Hp].
    - assert (exists i, In i (border_items m) /\ p i = false) as (i & Hi & Hpi).
      { clear -Hp. induction (border_items m) as [|i l IH]; [discriminate|]. cbn in Hp. apply andb_false_iff in Hp as [Hp|Hp].
        - exists i. split; [now left|assumption].
        - destruct (IH Hp) as (j & Hj & Hpj). exists j. split; [now right|assumption]. }
      exists m, i. split; [now left|auto].
    - destruct (IH Hp) as (m' & i & Hm' & Hi). exists m', i. split; [now right|assumption]. }
  apply H in E1 as (m' & i' & Hm' & Hi' & E1). apply H in E2 as (m & i & Hm & Hi & E2).
  apply negb_false_iff in E2. unfold border_items in Hi, Hi'.
  destruct (m_borders m) as [|[a b]|l] eqn:Eb; [now elim Hi| |].
  - destruct (m_borders m') as [|[a' b']|l'] eqn:Eb'; [now elim Hi'| |].
    + destruct Hi' as [<-|[<-|[]]]; discriminate.
    + exists m, m', (a, b), l'. auto.
  - apply in_map_iff in Hi as (? & <- & _). discriminate.
Qed.
Lemma border_indices_err (x : list Q) bs e : border_indices x bs = Err e -> x = [] /\ exists msg, e = ValueError msg.
Proof.
  induction bs as [|b r IH]; cbn [border_indices]; [discriminate|]. intros H.
  apply bind_err in H as [H|(c & _ & H)].
  - destruct x; [|discriminate]. injection H as <-. eauto.
  - apply bind_err in H as [H|(c' & _ & H)]; [auto|discriminate].
Qed.
Lemma unique_indices_err dg filter (ms : list material) (x : list Q) order e :
  unique_indices dg filter (Some ms) x order = Err e ->
  (exists msg, e = ValueError msg) /\ (x = [] \/ exists m m' a b, In m ms /\ In m' ms /\ m_borders m = BOne a /\ m_borders m' = BMany b).
Proof.
  unfold unique_indices. destruct (dg && filter)%bool; [|discriminate]. intros H.
  apply bind_err in H as [H|(c & _ & H)]; [apply np_borders_err in H; tauto|].
  apply bind_err in H as [H|(c' & _ & H)]; [apply border_indices_err in H; tauto|discriminate].
Qed.
Lemma register_one (dt : option (stepsize Q)) (x : txt (A:=Q) F C) : match register_times (F:=F) (V:=W) dt [ETxt x] with
  | Ok dt' => dt' = None <-> dt = None
  | Err e => dt = None /\ (exists t l, tx_times x = Some (t :: l)) /\ exists msg, e = AttributeError msg
  end.
Proof.
  cbn [register_times]. destruct (tx_times x) as [[|t l]|]; [tauto| |tauto].
  destruct dt as [s|]; [split; discriminate|]. eauto 6.
Qed.
Section Export.
Variable dofs : bool -> list Q.
Variable argsort : list Q -> list nat.
Lemma export_loop_spec (s : sim) l : forall dt i, match export_loop dofs argsort s dt i l with
  | Ok _ => forall d j, In (EDerived d) l -> In j (dq_list d) ->
      q_kind (ex_store (sm_exports s) j) = AdsorbedHydrogen ->
      surf_kin_present (sm_bcs s) (q_surface (ex_store (sm_exports s) j)) = true
  | Err e =>
      (e = AttributeError "SurfaceKinetics boundary condition must be defined on surface" /\
       exists d j, In (EDerived d) l /\ In j (dq_list d) /\
         q_kind (ex_store (sm_exports s) j) = AdsorbedHydrogen /\
         surf_kin_present (sm_bcs s) (q_surface (ex_store (sm_exports s) j)) = false) \/
      ((exists msg, e = ValueError msg) /\
       ((exists dg, dofs dg = []) \/ exists m m' a b, In m (sm_materials s) /\ In m' (sm_materials s) /\
          m_borders m = BOne a /\ m_borders m' = BMany b)) \/
      (dt = None /\ (exists msg, e = AttributeError msg) /\
       exists x t r, In (ETxt x) l /\ tx_times x = Some (t :: r))
  end.
Proof.
  induction l as [|[d|x|x] r IH]; intros dt i; cbn [export_loop].
  - intros d j [].
  - pose proof (check_quantities_spec (ms_type (sm_mesh s)) (sm_bcs s) (ex_store (sm_exports s)) (dq_list d)) as Hc.
    destruct (check_quantities _ _ _ (dq_list d)) as [w|e]; cbn [bind].
    + specialize (IH dt (i + 1)%nat). destruct (export_loop dofs argsort s dt (i + 1) r) as [[dt' w']|e]; cbn [bind].
      * intros d' j [[= <-]|Hd']; [apply Hc|now apply IH].
      * destruct IH as [(He & d' & j & H1 & H2)|[H|(H1 & H2 & x & t & r' & H3 & H4)]].
        -- left. split; [assumption|]. exists d', j. split; [now right|assumption].
        -- now (right; left).
        -- right. right. split; [assumption|]. split; [assumption|]. exists x, t, r'. split; [now right|assumption].
    + left. destruct Hc as (He & j & Hj & H). split; [assumption|]. exists d, j. split; [now left|auto].
  - specialize (IH dt (i + 1)%nat). destruct (export_loop dofs argsort s dt (i + 1) r) as [p|e].
    + intros d' j [Hd'|Hd']; [discriminate|now apply IH].
    + destruct IH as [(He & d' & j & H1 & H2)|[H|(H1 & H2 & x' & t & r' & H3 & H4)]].
      * left. split; [assumption|]. exists d', j. split; [now right|assumption].
      * now (right; left).
      * right. right. split; [assumption|]. split; [assumption|]. exists x', t, r'. split; [now right|assumption].
  - destruct (unique_indices _ _ _ _ _) as [ui|e] eqn:Eu; cbn [bind].
    + pose proof (register_one dt x) as Hr. destruct (register_times dt [ETxt x]) as [dt1|e] eqn:Er; cbn [bind].
      * specialize (IH dt1 (i + 1)%nat). destruct (export_loop dofs argsort s dt1 (i + 1) r) as [p|e].
        -- intros d' j [Hd'|Hd']; [discriminate|now apply IH].
        -- destruct IH as [(He & d' & j & H1 & H2)|[H|(H1 & H2 & x' & t & r' & H3 & H4)]].
           ++ left. split; [assumption|]. exists d', j. split; [now right|assumption].
           ++ now (right; left).
           ++ right. right. split; [tauto|]. split; [assumption|]. exists x', t, r'. split; [now right|assumption].
      * destruct Hr as (-> & (t & l' & Ht) & He). right. right. split; [reflexivity|]. split; [assumption|].
        exists x, t, l'. split; [now left|assumption].
    + apply unique_indices_err in Eu as [He [Hx|H]]; right; left; (split; [assumption|]); [|now right].
      left. eauto.
Qed.
End Export.
End Proofs.
