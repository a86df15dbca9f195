(** Proofs about a DerivedQuantities across repeated calls of Exports.write. *)
From Coq Require Import ZArith List Bool String Lia.
From Verif Require Import Base.Exc Base.Num Model.Paths Model.Exports
  Spec.ExportSpec Proofs.ExportProofs Proofs.ExportTrack.
Import ListNotations.
Local Notation length := List.length.

Lemma Forall2_weaken {X Y} (P Q : X -> Y -> Prop) a b :
  (forall x y, P x y -> Q x y) -> Forall2 P a b -> Forall2 Q a b.
Proof. intros H. induction 1; constructor; auto. Qed.

Section Derived.
Context {A : Type} {N : Num A} {F V C : Type}.
Variable is_function : F -> bool.
Variable project : F -> F.
Hypothesis project_function : forall f, is_function (project f) = true.

Local Notation dict := (dict F).
Local Notation export := (export (A:=A) F V C).
Local Notation exports := (exports (A:=A) F V C).
Local Notation written := (written (A:=A) F V C).
Local Notation store := (store (A:=A) F V).
Local Notation quantity := (quantity (A:=A) F V).
Local Notation derived := (derived (A:=A) V).
Local Notation write_one := (write_one (V:=V) (C:=C) is_function project).
Local Notation calls := (calls (V:=V) (C:=C) is_function project).
Local Notation value_ok := (value_ok is_function project).
Local Notation dict_le := (dict_le is_function project).
Local Notation reads := (reads (A:=A) (V:=V) is_function project).
Local Notation row_ok := (row_ok (A:=A) (V:=V) is_function project).

Lemma reads_iff (q : quantity) d f : reads q d f <->
  if is_adsorbed (q_kind q) then
    exists l surf, lookup d (q_field q) = Some (FAds l) /\ q_surface q = Some surf /\
      ((exists g, f = FFun g /\ adsorbed_on surf l g) \/
         forall sols surfs, In (sols, surfs) l -> ~ In surf surfs)
  else exists v, lookup d (q_field q) = Some v /\ value_ok v f.
Proof. unfold ExportSpec.reads. destruct (q_kind q); cbn; tauto. Qed.

Lemma index_of_some z l i : index_of z l = Some i -> nth_error l i = Some z.
Proof.
  revert i. induction l as [|a r IH]; intros i; cbn; [discriminate|].
  destruct (Z.eqb a z) eqn:E.
  - intros [= <-]. apply Z.eqb_eq in E. now subst.
  - destruct (index_of z r) as [j|]; [|discriminate]. intros [= <-]. cbn. auto.
Qed.
Lemma index_of_none z l : index_of z l = None -> ~ In z l.
Proof.
  induction l as [|a r IH]; cbn; [tauto|].
  destruct (Z.eqb a z) eqn:E; [discriminate|]. apply Z.eqb_neq in E.
  destruct (index_of z r); [discriminate|]. intros _ [H|H]; [congruence|]. now apply IH.
Qed.

Lemma adsorbed_function_spec surf (l : list (list F * list Z)) cur f :
  adsorbed_function surf l cur = Ok (Some f) ->
  (exists g, f = FFun g /\ adsorbed_on surf l g) \/
  (cur = Some f /\ forall sols surfs, In (sols, surfs) l -> ~ In surf surfs).
Proof.
  revert cur. induction l as [|[sols surfs] r IH]; intros cur H; cbn in H.
  - injection H as ->. right. split; [reflexivity|]. intros ? ? [].
  - destruct (index_of surf surfs) as [ind|] eqn:Ei.
    + destruct (nth_error sols ind) as [g|] eqn:En; [|discriminate].
      apply IH in H as [(g' & -> & so & su & i & Hin & H1 & H2)|([= <-] & Hno)].
      * left. exists g'. split; [reflexivity|]. exists so, su, i. split; [now right|auto].
      * left. exists g. split; [reflexivity|]. exists sols, surfs, ind.
        split; [now left|]. split; [now apply index_of_some|assumption].
    + apply IH in H as [(g' & -> & so & su & i & Hin & H1 & H2)|(-> & Hno)].
      * left. exists g'. split; [reflexivity|]. exists so, su, i. split; [now right|auto].
      * right. split; [reflexivity|]. intros so su [[= <- <-]|Hin]; [now apply index_of_none|eauto].
Qed.

Lemma value_ok_ads l v : value_ok (FAds l) v -> v = FAds l.
Proof. intros [->|(f & H & _)]; [reflexivity|discriminate]. Qed.

Lemma prepare_reads s d qs s' d' :
  prepare is_function project s d qs = Ok (s', d') -> NoDup qs ->
  forall q, In q qs -> forall f, q_function (s' q) = Some f -> reads (s q) d f.
Proof using project_function.
  revert s d. induction qs as [|j r IH]; intros s d H Hnd q Hq f Hf; [now elim Hq|].
  inversion Hnd as [|? ? Hj Hnd']; subst.
  cbn in H. bind_as H d1 Hd. bind_as H g Hg.
  assert (Hd1 : dict_le d d1).
  { destruct (is_extremum_volume _); [now apply project_item_le in Hd|].
    injection Hd as <-. apply dict_le_refl. }
  apply prepare_ok in H as Hok; [|assumption]. destruct Hok as (_ & Hqs & Ho).
  destruct Hq as [->|Hq].
  - (* head: unchanged afterwards *)
    rewrite (Ho q Hj), upd_same in Hf. cbn in Hf. subst g.
    apply reads_iff. destruct (is_adsorbed (q_kind (s q))) eqn:Ea.
    + bind_as Hg v Hv. unfold getitem in Hv.
      destruct (lookup d1 (q_field (s q))) as [v0|] eqn:El; [|discriminate]. injection Hv as ->.
      destruct v as [|l]; [discriminate|]. destruct (q_surface (s q)) as [surf|] eqn:Es; [|discriminate].
      edestruct (value_le is_function project) as (v0 & Hv0 & Hok); [exact Hd1|exact El|].
      destruct Hok as [<- | (f0 & _ & _ & ?)]; [|discriminate].
      exists l, surf. split; [assumption|]. split; [reflexivity|].
      apply adsorbed_function_spec in Hg as [Hg|(_ & Hg)]; auto.
    + bind_as Hg v Hv. injection Hg as ->. unfold getitem in Hv.
      destruct (lookup d1 (q_field (s q))) as [v0|] eqn:El; [|discriminate]. injection Hv as ->.
      eapply (value_le is_function project); [exact Hd1|exact El].
  - assert (Hne : q <> j) by (intros ->; auto).
    assert (Hr : reads (upd s j (set_function (s j) g) q) d1 f).
    { eapply IH; eauto. }
    rewrite upd_other in Hr by assumption.
    apply reads_iff in Hr. apply reads_iff. destruct (is_adsorbed (q_kind (s q))).
    + destruct Hr as (l & surf & Hl & Hs & Hc).
      edestruct (value_le is_function project) as (v0 & Hv0 & Hok); [exact Hd1|exact Hl|].
      destruct Hok as [Hx|(f0 & _ & _ & ?)]; [|discriminate]. exists l, surf. subst. auto.
    + destruct Hr as (v & Hl & Hv).
      edestruct (value_le is_function project) as (v0 & Hv0 & Hok); [exact Hd1|exact Hl|].
      exists v0. split; [assumption|]. eapply value_ok_trans; eauto.
Qed.

Lemma titles_static (s s' : store) (d : derived) : (forall i, qstatic (s i) (s' i)) -> titles s' d = titles s d.
Proof.
  intros H. unfold titles. f_equal. apply map_ext. intros i.
  destruct (H i) as (_ & _ & _ & _ & -> & _). reflexivity.
Qed.

Lemma compute_loop_detail (s : store) (d : derived) t data vals qs s' data' vals' :
  compute_loop is_function s d t data vals qs = Ok (s', data', vals') -> NoDup qs ->
  exists vs, vals' = vals ++ vs /\ length vs = length qs /\
    data' = match data, qs with [], _ :: _ => [Header (titles s d)] | _, _ => data end /\
    forall j q, nth_error qs j = Some q ->
      exists f v, nth_error vs j = Some v /\ q_function (s q) = Some f /\ v = q_assemble (s q) f /\
        q_t (s' q) = q_t (s q) ++ [t] /\ q_data (s' q) = q_data (s q) ++ [v].
Proof.
  revert s data vals. induction qs as [|i r IH]; intros s data vals H Hnd; cbn in H.
  - injection H as <- <- <-. exists []. rewrite app_nil_r.
    split; [reflexivity|]. split; [reflexivity|]. split; [destruct data; reflexivity|].
    intros [|j]; discriminate.
  - inversion Hnd as [|? ? Hi Hnd']; subst.
    bind_as H [q0 v0] Hc.
    apply compute_quantity_static in Hc as (Hqs & Ht & Hdt & Hfn & f & Hf & Hv).
    set (s1 := upd s i q0) in *.
    set (s2 := upd s1 i (record_value q0 t v0)) in *.
    assert (Hst1 : forall k, qstatic (s k) (s1 k)).
    { intros k. unfold s1. destruct (Nat.eq_dec k i) as [->|Hne].
      - now rewrite upd_same.
      - rewrite upd_other by assumption. apply qstatic_refl. }
    assert (Hst2 : forall k, qstatic (s k) (s2 k)).
    { intros k. unfold s2. destruct (Nat.eq_dec k i) as [->|Hne].
      - rewrite upd_same. exact Hqs.
      - rewrite upd_other by assumption. apply Hst1. }
    apply compute_loop_ok in H as Ho. destruct Ho as (_ & Ho).
    apply IH in H as (vs & -> & Hlen & Hdata & Hj); [|assumption].
    exists (v0 :: vs). rewrite <- app_assoc. split; [reflexivity|]. split; [cbn; lia|].
    split.
    { rewrite Hdata. destruct data as [|x data]; [|reflexivity].
      assert (Hh : make_header s1 d = Header (titles s d)).
      { rewrite <- (titles_static s s1 d Hst1). reflexivity. }
      rewrite Hh. reflexivity. }
    intros [|j] q Hq.
    + cbn in Hq. injection Hq as <-. exists f, v0. split; [reflexivity|]. split; [assumption|].
      split; [assumption|]. rewrite (Ho i Hi). unfold s2. rewrite upd_same. cbn.
      split; congruence.
    + cbn in Hq. destruct (Hj j q Hq) as (f' & v' & Hv' & Hf' & Hvv & Htt & Hdd).
      assert (Hne : q <> i). { intros ->. apply Hi. eapply nth_error_In; eauto. }
      assert (Hs2 : s2 q = s q). { unfold s2, s1. now rewrite !upd_other by assumption. }
      rewrite Hs2 in *. exists f', v'. auto.
Qed.

Definition same_derived (d d' : derived) : Prop :=
  dq_list d' = dq_list d /\ dq_filename d' = dq_filename d /\ dq_compute d' = dq_compute d /\
  dq_exports d' = dq_exports d /\ dq_units d' = dq_units d.

(** State of a table and of its quantities after some rows. *)
Definition table_after (s s' : store) (dq dq' : derived) (rows : list (A * list V)) : Prop :=
  dq_t dq' = dq_t dq ++ map fst rows /\
  dq_data dq' = dq_data dq ++
    (match dq_data dq, rows, dq_list dq with
     | [], _ :: _, _ :: _ => [Header (titles s dq)]
     | _, _, _ => []
     end) ++ map mk_row rows /\
  forall j q, nth_error (dq_list dq) j = Some q ->
    q_t (s' q) = q_t (s q) ++ map fst rows /\
    exists col, q_data (s' q) = q_data (s q) ++ col /\
      map Some col = map (fun r => nth_error (snd r) j) rows.

Lemma dq_one s fs d t fin nb dq e' s' fs' d' w :
  write_one s fs d t fin nb (EDerived dq) = Ok (e', s', fs', d', w) ->
  NoDup (dq_list dq) ->
  exists dq' rows, e' = EDerived dq' /\ same_derived dq dq' /\
    table_after s s' dq dq' rows /\
    Forall2 (row_ok s dq) (if (nb mod dq_compute dq =? 0)%Z then [(t, d)] else []) rows /\
    exists b, dq_is_export dq t fin nb = Ok b /\
      w = match b, dq_filename dq with true, Some fn => [WCsv fn (dq_data dq')] | _, _ => [] end.
Proof using project_function.
  intros H Hnd. unfold Exports.write_one in H.
  bind_as H b Hb. bind_as H [[s2 dq2] d1] Hc. bind_as H b2 Hb2. bind_as H [fs1 w1] Hw.
  injection H as <- <- <- <- <-.
  unfold dq_is_compute in Hb. apply every_ok in Hb. subst b.
  assert (Hww : same_derived dq dq2 -> exists b, dq_is_export dq t fin nb = Ok b /\
      w1 = match b, dq_filename dq with true, Some fn => [WCsv fn (dq_data dq2)] | _, _ => [] end).
  { intros (_ & Hfn & _ & Hex & _). exists b2.
    unfold dq_is_export in *. rewrite Hex in Hb2. split; [assumption|].
    destruct b2; [|now injection Hw as <- <-].
    unfold dq_write in Hw. rewrite Hfn in Hw. destruct (dq_filename dq) as [fn|].
    - bind_as Hw fsx Hfs. now injection Hw as <- <-.
    - now injection Hw as <- <-. }
  destruct (nb mod dq_compute dq =? 0)%Z.
  - bind_as Hc [s1 d2] Hp. bind_as Hc [s3 dq3] Hr. injection Hc as <- <- <-.
    pose proof Hp as Hp0. apply prepare_ok in Hp0 as (_ & Hq & _); [|assumption].
    unfold dq_run_compute in Hr. bind_as Hr [[s4 data] vals] Hl. injection Hr as <- <-.
    apply compute_loop_detail in Hl as (vs & -> & Hlen & Hdata & Hj); [|assumption].
    exists (set_data dq (data ++ [Row t ([] ++ vs)]) (dq_t dq ++ [t])), [(t, vs)].
    split; [reflexivity|]. split; [unfold same_derived; cbn; auto 10|].
    split; [|split; [|apply Hww; unfold same_derived; cbn; auto 10]].
    + split; [reflexivity|]. split.
      * cbn. rewrite Hdata.
        rewrite (titles_static s s1 dq) by (intros; apply Hq).
        destruct (dq_data dq); [|reflexivity]. destruct (dq_list dq); reflexivity.
      * intros j q Hjq. destruct (Hj j q Hjq) as (f & v & Hv & Hf & Hvv & Htt & Hdd).
        destruct (Hq q) as (_ & Hqt & Hqd & _). rewrite Htt, Hdd, Hqt, Hqd.
        split; [reflexivity|]. exists [v]. split; [reflexivity|]. cbn. now rewrite Hv.
    + constructor; [|constructor]. split; [reflexivity|]. cbn.
      assert (Hgen : forall qs vs', length vs' = length qs ->
         (forall j q, nth_error qs j = Some q -> In q (dq_list dq) /\
             exists f v, nth_error vs' j = Some v /\ q_function (s1 q) = Some f /\ v = q_assemble (s1 q) f) ->
         Forall2 (fun q v => exists f, reads (s q) d f /\ v = q_assemble (s q) f) qs vs').
      { induction qs as [|q r IH]; intros [|v vs'] Hl2 Hall; try discriminate; constructor.
        - destruct (Hall 0 q eq_refl) as (Hin & f & v' & [= <-] & Hf & ->).
          exists f. split.
          + eapply prepare_reads; eauto.
          + destruct (Hq q) as ((_ & _ & _ & _ & _ & ->) & _). reflexivity.
        - apply IH; [cbn in Hl2; lia|]. intros j q' Hj'. apply (Hall (S j) q' Hj'). }
      apply Hgen; [assumption|]. intros j q Hjq.
      split; [eapply nth_error_In; eauto|].
      destruct (Hj j q Hjq) as (f & v & Hv & Hf & Hvv & _). eauto.
  - injection Hc as <- <- <-. exists dq, []. split; [reflexivity|].
    split; [unfold same_derived; auto 10|]. split; [|split; [constructor|apply Hww; unfold same_derived; auto 10]].
    split; [now rewrite app_nil_r|]. split.
    + destruct (dq_data dq); now rewrite app_nil_r.
    + intros j q _. rewrite app_nil_r. split; [reflexivity|]. exists []. rewrite app_nil_r. auto.
Qed.

(** The quantities of export i belong to no other export. *)
Definition private (l : list export) (i : nat) : Prop :=
  forall k e e2 j, k <> i -> nth_error l i = Some e -> nth_error l k = Some e2 ->
    In j (refs e) -> ~ In j (refs e2).

Lemma calls_derived ex cs ex' log i dq :
  calls ex cs ex' log -> nth_error (ex_list ex) i = Some (EDerived dq) ->
  NoDup (dq_list dq) -> private (ex_list ex) i ->
  exists dq' rows, nth_error (ex_list ex') i = Some (EDerived dq') /\ same_derived dq dq' /\
    table_after (ex_store ex) (ex_store ex') dq dq' rows /\
    Forall2 (row_ok (ex_store ex) dq) (computed (dq_compute dq) (ex_nb ex) cs) rows /\
    (forall j, qstatic (ex_store ex j) (ex_store ex' j)) /\
    private (ex_list ex') i.
Proof using project_function.
  intros H. revert dq. induction H as [ex|ex t d ex1 ws cs ex' log Hw Hc IH]; intros dq He Hnd Hpr.
  - exists dq, []. split; [assumption|]. split; [unfold same_derived; auto 10|].
    split; [|split; [constructor|split; [intros; apply qstatic_refl|assumption]]].
    split; [now rewrite app_nil_r|]. split.
    + destruct (dq_data dq); now rewrite app_nil_r.
    + intros j q _. rewrite app_nil_r. split; [reflexivity|]. exists []. rewrite app_nil_r. auto.
  - apply write_inv in Hw as (H1 & H2 & l & s & fs & -> & Hl).
    pose proof Hl as Hl0.
    apply write_loop_nth in Hl as (_ & Hqst & _ & Hlen & Hn); [|assumption].
    destruct (Hn i _ He) as (s1 & fs1 & d1 & e1 & s2 & fs2 & d2 & Hone & Hne & Hd & Hq1 & Hs).
    assert (Hs' : forall j, In j (dq_list dq) -> s1 j = ex_store ex j /\ s j = s2 j).
    { intros j Hj. apply Hs. intros k e2 Hk Hke. eapply Hpr; eauto. }
    pose proof Hone as Hone0.
    apply dq_one in Hone as (dq1 & rows1 & -> & Hsame & Htab & Hrows & _).
    2: assumption.
    cbn [ex_list ex_store ex_nb ex_final] in IH.
    assert (Hlist : dq_list dq1 = dq_list dq) by apply Hsame.
    assert (Hpr1 : private l i).
    { intros k e e2 j Hk Hi Hke. rewrite Hne in Hi. injection Hi as <-. cbn. rewrite Hlist.
      intros Hin. destruct (nth_error (ex_list ex) k) as [ek|] eqn:Ek.
      - destruct (Hn k ek Ek) as (sa & fsa & da & e' & sb & fsb & db & Hwk & Hnk & _).
        rewrite Hke in Hnk. injection Hnk as <-.
        apply write_one_ok in Hwk as (Hst & _); [|assumption]. rewrite (static_refs _ _ Hst).
        eapply (Hpr k (EDerived dq)); eauto.
      - apply nth_error_None in Ek. assert (k < length l) by (apply nth_error_Some; congruence). lia. }
    destruct (IH dq1) as (dq2 & rows2 & Hi2 & Hsame2 & Htab2 & Hrows2 & Hq2 & Hpr2).
    + assumption.
    + now rewrite Hlist.
    + assumption.
    + exists dq2, (rows1 ++ rows2). split; [assumption|].
      split. { unfold same_derived in *. intuition congruence. }
      assert (Hst1 : forall j, qstatic (ex_store ex j) (s j)) by exact Hqst.
      split; [|split; [|split]].
      * destruct Htab as (Ht1 & Hd1 & Hc1). destruct Htab2 as (Ht2 & Hd2 & Hc2).
        split. { rewrite Ht2, Ht1, map_app, app_assoc. reflexivity. }
        split.
        { rewrite Hd2, Hd1, Hlist.
          assert (Htit : titles s dq1 = titles (ex_store ex) dq).
          { rewrite (titles_static (ex_store ex) s) by assumption. unfold titles.
            destruct Hsame as (-> & _ & _ & _ & ->). reflexivity. }
          assert (Htit1 : titles s1 dq = titles (ex_store ex) dq) by (apply titles_static; exact Hq1).
          rewrite Htit, Htit1, map_app.
          destruct (dq_data dq) as [|x0 xs]; destruct rows1 as [|r1 rs1]; destruct rows2 as [|r2 rs2];
            destruct (dq_list dq) as [|q0 qs]; cbn; rewrite ?app_nil_r, <- ?app_assoc; reflexivity. }
        intros j q Hj. destruct (Hc1 j q Hj) as (Hqt1 & col1 & Hqd1 & Hcol1).
        rewrite <- Hlist in Hj. destruct (Hc2 j q Hj) as (Hqt2 & col2 & Hqd2 & Hcol2).
        rewrite Hlist in Hj.
        destruct (Hs' q) as [Ha Hb]; [eapply nth_error_In; eauto|].
        cbn in Hqt2, Hqd2. rewrite Hqt2, Hqd2, Hb, Hqt1, Hqd1, Ha, map_app, app_assoc.
        split; [reflexivity|]. exists (col1 ++ col2). rewrite app_assoc. split; [reflexivity|].
        rewrite !map_app. congruence.
      * assert (Hr1 : Forall2 (row_ok (ex_store ex) dq)
                  (if (ex_nb ex mod dq_compute dq =? 0)%Z then [(t, d)] else []) rows1).
        { destruct (ex_nb ex mod dq_compute dq =? 0)%Z; [|inversion Hrows; constructor].
          inversion Hrows as [|? ? ? ? Hr Hrest]; subst. inversion Hrest; subst.
          constructor; [|constructor]. destruct Hr as [Hr1 Hr2]. split; [exact Hr1|].
          cbn [snd] in *.
          assert (Hgen : forall qs vs, (forall q, In q qs -> In q (dq_list dq)) ->
             Forall2 (fun q v => exists f, reads (s1 q) d1 f /\ v = q_assemble (s1 q) f) qs vs ->
             Forall2 (fun q v => exists f, reads (ex_store ex q) d f /\ v = q_assemble (ex_store ex q) f) qs vs).
          { intros qs vs Hsub HF. induction HF as [|q v qs vs (f & Hr & ->) HF IHF]; constructor.
            - destruct (Hs' q) as [Hsq _]; [apply Hsub; now left|]. rewrite Hsq in *. exists f.
              split; [|reflexivity].
              apply reads_iff in Hr. apply reads_iff. destruct (is_adsorbed (q_kind (ex_store ex q))).
              + destruct Hr as (l0 & surf & Hl1 & Hsf & Hcur).
                edestruct (value_le is_function project) as (v0 & Hv0 & Hok); [exact Hd|exact Hl1|].
                destruct Hok as [Hx|(f0 & _ & _ & ?)]; [|discriminate]. exists l0, surf. subst. auto.
              + destruct Hr as (v & Hl1 & Hv).
                edestruct (value_le is_function project) as (v0 & Hv0 & Hok); [exact Hd|exact Hl1|].
                exists v0. split; [assumption|]. eapply value_ok_trans; eauto.
            - apply IHF. intros. apply Hsub. now right. }
          apply Hgen; [auto|exact Hr2]. }
        assert (Hr2 : Forall2 (row_ok (ex_store ex) dq) (computed (dq_compute dq) (ex_nb ex + 1) cs) rows2).
        { destruct Hsame as (_ & _ & Hcp & _ & _). rewrite Hcp in Hrows2.
          eapply Forall2_weaken; [|exact Hrows2].
          intros p r [Hp1 Hp2]. split; [assumption|]. rewrite Hlist in Hp2.
          eapply Forall2_weaken; [|exact Hp2]. intros q v (f & Hr & ->). exists f.
          destruct (Hst1 q) as (Hk & Hf & Hsu & _ & _ & Has).
          rewrite Has. split; [|reflexivity].
          unfold ExportSpec.reads in *. rewrite Hk, Hf, Hsu in Hr. exact Hr. }
        cbn [computed]. destruct (ex_nb ex mod dq_compute dq =? 0)%Z.
        -- change ((t, d) :: ?l) with ([(t, d)] ++ l). now apply Forall2_app.
        -- inversion Hr1; subst. exact Hr2.
      * intros j. eapply qstatic_trans; [apply Hst1|apply Hq2].
      * assumption.
Qed.

(** Calls can be split at any point. *)
Lemma calls_split ex cs ex' log k :
  calls ex cs ex' log ->
  exists exk, calls ex (firstn k cs) exk (firstn k log) /\ calls exk (skipn k cs) ex' (skipn k log).
Proof.
  intros H. revert k. induction H as [ex|ex t d ex1 ws cs ex' log Hw Hc IH]; intros k.
  - exists ex. rewrite !firstn_nil, !skipn_nil. split; constructor.
  - destruct k as [|k]; cbn.
    + exists ex. split; [constructor|]. econstructor; eauto.
    + destruct (IH k) as (exk & H1 & H2). exists exk. split; [|assumption]. econstructor; eauto.
Qed.

Lemma computed_length {B} n nb (cs : list B) : (0 < n)%Z -> (0 <= nb)%Z ->
  Z.of_nat (length (computed n nb cs)) =
  ((nb + Z.of_nat (length cs) + n - 1) / n - (nb + n - 1) / n)%Z.
Proof.
  intros Hn. revert nb. induction cs as [|c r IH]; intros nb Hnb; cbn [computed length].
  - rewrite Z.add_0_r. cbn. lia.
  - assert (Hstep : ((nb + 1 + n - 1) / n = (nb + n - 1) / n + if (nb mod n =? 0)%Z then 1 else 0)%Z).
    { destruct (nb mod n =? 0)%Z eqn:E.
      - apply Z.eqb_eq in E. apply Z.div_exact in E; [|lia].
        set (q := (nb / n)%Z) in *.
        replace (nb + 1 + n - 1)%Z with (0 + (q + 1) * n)%Z by lia.
        rewrite Z.div_add by lia. rewrite Z.div_0_l by lia.
        replace (nb + n - 1)%Z with ((n - 1) + q * n)%Z by lia.
        rewrite Z.div_add by lia. rewrite (Z.div_small (n - 1)) by lia. lia.
      - apply Z.eqb_neq in E. pose proof (Z.mod_pos_bound nb n Hn).
        pose proof (Z.div_mod nb n ltac:(lia)) as Hdm.
        set (q := (nb / n)%Z) in *. set (m := (nb mod n)%Z) in *.
        replace (nb + 1 + n - 1)%Z with (m + (q + 1) * n)%Z by lia.
        rewrite Z.div_add by lia. rewrite (Z.div_small m) by lia.
        replace (nb + n - 1)%Z with ((m - 1) + (q + 1) * n)%Z by lia.
        rewrite Z.div_add by lia. rewrite (Z.div_small (m - 1)) by lia. lia. }
    destruct (nb mod n =? 0)%Z; cbn [length];
      rewrite ?Nat2Z.inj_succ, IH by lia;
      replace (nb + 1 + Z.of_nat (length r) + n - 1)%Z with (nb + Z.succ (Z.of_nat (length r)) + n - 1)%Z by lia;
      rewrite Hstep; lia.
Qed.

Lemma computed_app {B} n nb (a b : list B) :
  computed n nb (a ++ b) = computed n nb a ++ computed n (nb + Z.of_nat (length a)) b.
Proof.
  revert nb. induction a as [|c r IH]; intros nb; cbn [computed app length].
  - now rewrite Z.add_0_r.
  - rewrite IH. replace (nb + Z.of_nat (S (length r)))%Z with (nb + 1 + Z.of_nat (length r))%Z by lia.
    destruct (nb mod n =? 0)%Z; reflexivity.
Qed.
End Derived.
