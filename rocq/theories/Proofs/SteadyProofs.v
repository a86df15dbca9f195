(** Proofs about steady runs: when Exports.write succeeds. *)
From Coq Require Import ZArith List Bool String Lia.
From Verif Require Import Base.Exc Base.Num Model.Paths Model.Exports Model.Steady Spec.ExportSpec
  Spec.SteadySpec Proofs.ExportProofs Proofs.ExportTrack Proofs.ExportDerived Proofs.ExportRuns.
Import ListNotations.
Local Open Scope nat_scope.
Local Notation length := List.length.

Section Progress.
Context {A : Type} {N : Num A} {F V C : Type}.
Variable is_function : F -> bool.
Variable project : F -> F.
Hypothesis project_function : forall f, is_function (project f) = true.
Local Notation dict := (dict F).
Local Notation store := (store (A:=A) F V).
Local Notation quantity := (quantity (A:=A) F V).
Local Notation dict_le := (dict_le is_function project).
Local Notation readable := (readable (A:=A) (V:=V) is_function).
Local Notation ready := (ready (C:=C) is_function).
Local Notation isf := (is_function_val is_function).

Lemma le_fun d d' k f : dict_le d d' -> lookup d k = Some (FFun f) ->
  exists f', lookup d' k = Some (FFun f') /\ (is_function f = true -> is_function f' = true).
Proof using project_function.
  intros [H _] Hl. apply H in Hl as (v' & Hv & [->|(g & [= <-] & _ & ->)]); eauto.
Qed.
Lemma le_ads d d' k l : dict_le d d' -> lookup d k = Some (FAds l) -> lookup d' k = Some (FAds l).
Proof using Type.
  intros [H _] Hl. apply H in Hl as (v' & Hv & Hok). now apply value_ok_ads in Hok as ->.
Qed.

Lemma readable_le d d' q q' : dict_le d d' -> qstatic q q' -> readable d q -> readable d' q'.
Proof using project_function.
  intros Hd (Hk & Hf & Hs & _) H. unfold SteadySpec.readable in *. rewrite Hk, Hf, Hs.
  destruct (q_kind q); try exact H;
    try (destruct H as (f & Hl & H2); destruct (le_fun _ _ _ _ Hd Hl) as (f' & Hl' & Hi); exists f'; split; [exact Hl'|]; tauto);
    try (destruct H as (f & Hl); destruct (le_fun _ _ _ _ Hd Hl) as (f' & Hl' & Hi); eauto).
  destruct H as (l & surf & Hl & H2). exists l, surf. split; [eapply le_ads; eauto|exact H2].
Qed.
Lemma ready_le (s s' : store) d d' e : dict_le d d' -> (forall i, qstatic (s i) (s' i)) -> ready s d e -> ready s' d' e.
Proof using project_function.
  intros Hd Hq H. destruct e as [dq|x|x]; cbn in *.
  - destruct H as (H1 & H2 & H3). do 2 (split; [assumption|]). intros q Hin. eapply readable_le; eauto.
  - destruct H as (H1 & f & Hl). split; [assumption|]. destruct (le_fun _ _ _ _ Hd Hl) as (f' & Hl' & _). eauto.
  - destruct H as (H1 & (f & Hl) & H2). split; [assumption|]. split; [|assumption].
    destruct (le_fun _ _ _ _ Hd Hl) as (f' & Hl' & _). eauto.
Qed.

(** The quantity has a function its compute accepts. *)
Definition fn_ok (q : quantity) : Prop :=
  q_kind q <> MaximumSurface /\ q_kind q <> MinimumSurface /\
  exists f, q_function q = Some f /\ (is_extremum_volume (q_kind q) = true -> isf f = true) /\
    (uses_r (q_kind q) = true -> isf f = true) /\ (is_flux (q_kind q) = true -> has_prop (q_field q) = true).

Lemma compute_progress q : fn_ok q -> exists q' v, compute_quantity is_function q = Ok (q', v).
Proof using Type.
  intros (H1 & H2 & f & Hf & He & Hr & Hp). unfold compute_quantity. rewrite Hf.
  assert (E1 : (is_extremum_volume (q_kind q) && negb (isf f))%bool = false).
  { destruct (is_extremum_volume _); [now rewrite He|reflexivity]. }
  assert (E2 : (uses_r (q_kind q) && negb (q_r q) && negb (isf f))%bool = false).
  { destruct (uses_r _); [now rewrite Hr, andb_false_r|reflexivity]. }
  assert (E3 : (is_flux (q_kind q) && negb (has_prop (q_field q)))%bool = false).
  { destruct (is_flux _); [now rewrite Hp|reflexivity]. }
  destruct (q_kind q); try congruence; rewrite E1, E2, E3; eauto.
Qed.

Lemma project_progress d k f : lookup d k = Some (FFun f) ->
  exists d' f', project_item is_function project d k = Ok d' /\ lookup d' k = Some (FFun f') /\ is_function f' = true.
Proof using project_function.
  intros Hl. unfold project_item, getitem. rewrite Hl. cbn. destruct (is_function f) eqn:Ef; [eauto|].
  exists (set_item d k (FFun (project f))), (project f). split; [reflexivity|].
  rewrite lookup_set, label_eqb_refl. auto.
Qed.

Lemma index_of_in z l : In z l -> exists i, index_of z l = Some i /\ i < length l.
Proof using Type.
  induction l as [|a r IH]; intros []; cbn.
  - subst. rewrite Z.eqb_refl. exists 0. cbn. split; [reflexivity|lia].
  - destruct (Z.eqb a z); [exists 0; split; [reflexivity|lia]|].
    destruct (IH H) as (i & -> & Hi). exists (S i). cbn. split; [reflexivity|lia].
Qed.

Lemma adsorbed_progress surf l cur :
  (forall sols surfs, In (sols, surfs) l -> length sols = length surfs) ->
  (cur <> None \/ exists sols surfs, In (sols, surfs) l /\ In surf surfs) ->
  exists f : fval F, adsorbed_function surf l cur = Ok (Some f).
Proof using Type.
  revert cur. induction l as [|[sols surfs] r IH]; intros cur Hlen H; cbn [adsorbed_function].
  - destruct H as [H|(s1 & s2 & [] & _)]. destruct cur; [eauto|congruence].
  - assert (Hr : forall sols surfs, In (sols, surfs) r -> length sols = length surfs) by (intros; apply Hlen; now right).
    destruct (index_of surf surfs) as [i|] eqn:Ei.
    + apply index_of_some in Ei as Hn.
      assert (Hi : i < length sols).
      { rewrite (Hlen sols surfs) by now left. apply nth_error_Some. congruence. }
      destruct (nth_error sols i) as [f|] eqn:En; [|apply nth_error_None in En; lia].
      apply IH; [assumption|]. left. discriminate.
    + apply IH; [assumption|]. destruct H as [H|(s1 & s2 & [E|Hin] & Hs)]; [now left| |right; eauto].
      injection E as <- <-. apply index_of_none in Ei. contradiction.
Qed.

Lemma flux_prop k : In k [LStr "0"; LStr "solute"; LInt 0; LStr "T"] -> has_prop k = true.
Proof using Type. intros [<-|[<-|[<-|[<-|[]]]]]; reflexivity. Qed.

Lemma prepare_one (q : quantity) d : readable d q ->
  exists d1 f,
    (if is_extremum_volume (q_kind q) then project_item is_function project d (q_field q) else Ok d) = Ok d1 /\
    dict_le d d1 /\
    (if is_adsorbed (q_kind q) then
       let! v := getitem d1 (q_field q) in
       match v, q_surface q with
       | FAds l, Some surf => adsorbed_function surf l (q_function q)
       | _, _ => Err (TypeError "adsorbed")
       end
     else let! v := getitem d1 (q_field q) in Ok (Some v)) = Ok f /\
    fn_ok (set_function q f).
Proof using project_function.
  intros H. unfold SteadySpec.readable in H.
  destruct (q_kind q) eqn:Ek; cbn [is_extremum_volume is_adsorbed]; try contradiction.
  all: try (match type of H with exists l surf, _ => idtac end;
    destruct H as (l & surf & Hl & Hs & Hex & Hlen);
    destruct (adsorbed_progress surf l (q_function q) Hlen (or_intror Hex)) as (f & Hf);
    exists d, (Some f); unfold getitem; rewrite Hl, Hs; cbn [bind];
    split; [reflexivity|]; split; [apply dict_le_refl|]; split; [exact Hf|];
    unfold fn_ok; cbn; rewrite Ek; cbn;
    (split; [discriminate|]); (split; [discriminate|]); exists f; repeat split; discriminate).
  1,4,5: destruct H as (f & Hl & Hp); exists d, (Some (FFun f)); unfold getitem; rewrite Hl; cbn [bind];
    (split; [reflexivity|]); (split; [apply dict_le_refl|]); (split; [reflexivity|]);
    unfold fn_ok; cbn; rewrite Ek; cbn;
    (split; [discriminate|]); (split; [discriminate|]); exists (FFun f); repeat split; try discriminate;
    intros _; now apply flux_prop.
  1,2: destruct H as (f & Hl & Hfn & Hp); exists d, (Some (FFun f)); unfold getitem; rewrite Hl; cbn [bind];
    (split; [reflexivity|]); (split; [apply dict_le_refl|]); (split; [reflexivity|]);
    unfold fn_ok; cbn; rewrite Ek; cbn;
    (split; [discriminate|]); (split; [discriminate|]); exists (FFun f); repeat split; try discriminate;
    intros _; cbn; try assumption; now apply flux_prop.
  all: try (destruct H as (f & Hl & Hfn); exists d, (Some (FFun f)); unfold getitem; rewrite Hl; cbn [bind];
    (split; [reflexivity|]); (split; [apply dict_le_refl|]); (split; [reflexivity|]);
    unfold fn_ok; cbn; rewrite Ek; cbn;
    (split; [discriminate|]); (split; [discriminate|]); exists (FFun f); repeat split; try discriminate;
    intros _; exact Hfn).
  all: destruct H as (f & Hl).
  all: try (destruct (project_progress _ _ _ Hl) as (d1 & f1 & Hp & Hl1 & Hf1);
    exists d1, (Some (FFun f1)); unfold getitem; rewrite Hl1; cbn [bind];
    (split; [exact Hp|]); (split; [eapply project_item_le; eassumption|]); (split; [reflexivity|]);
    unfold fn_ok; cbn; rewrite Ek; cbn;
    (split; [discriminate|]); (split; [discriminate|]); exists (FFun f1); repeat split; try discriminate;
    intros _; exact Hf1).
  all: exists d, (Some (FFun f)); unfold getitem; rewrite Hl; cbn [bind];
    (split; [reflexivity|]); (split; [apply dict_le_refl|]); (split; [reflexivity|]);
    unfold fn_ok; cbn; rewrite Ek; cbn;
    (split; [discriminate|]); (split; [discriminate|]); exists (FFun f); repeat split; discriminate.
Qed.

Lemma prepare_progress qs : forall (s : store) d, (forall q, In q qs -> readable d (s q)) ->
  exists s' d', prepare is_function project s d qs = Ok (s', d') /\
    forall i, In i qs \/ fn_ok (s i) -> fn_ok (s' i).
Proof using project_function.
  induction qs as [|j r IH]; intros s d H; cbn [prepare].
  - exists s, d. split; [reflexivity|]. intros i [[]|Hi]. exact Hi.
  - destruct (prepare_one (s j) d) as (d1 & f & Hp & Hle & Hf & Hok); [apply H; now left|].
    rewrite Hp. cbn [bind]. rewrite Hf. cbn [bind].
    destruct (IH (upd s j (set_function (s j) f)) d1) as (s' & d' & Hp' & Hall).
    { intros q Hq. apply (readable_le d d1 (s q)); [assumption| |apply H; now right].
      unfold upd. destruct (Nat.eqb_spec q j) as [->|]; [destruct (s j); repeat split|apply qstatic_refl]. }
    exists s', d'. split; [exact Hp'|]. intros i Hi. apply Hall.
    destruct (Nat.eq_dec i j) as [->|Hne]; [right; now rewrite upd_same|].
    destruct Hi as [[->|Hi]|Hi]; [congruence|now left|right; now rewrite upd_other].
Qed.

Lemma loop_progress (dq : derived (A:=A) V) t qs : forall (s : store) data vals, (forall q, In q qs -> fn_ok (s q)) ->
  exists r, compute_loop is_function s dq t data vals qs = Ok r.
Proof using Type.
  induction qs as [|j r IH]; intros s data vals H; cbn [compute_loop]; [eauto|].
  destruct (compute_progress (s j)) as (q' & v & Hc); [apply H; now left|]. rewrite Hc. cbn [bind].
  apply IH. intros q Hq. apply compute_quantity_static in Hc as (Hst & _ & _ & Hfun & _).
  destruct (Nat.eq_dec q j) as [->|Hne].
  - rewrite upd_same. destruct (H j (or_introl eq_refl)) as (H1 & H2 & f & Hf & H3).
    destruct Hst as (Hk & Hfi & _). unfold fn_ok. cbn. rewrite Hk, Hfi, Hfun. eauto 10.
  - rewrite !upd_other by assumption. apply H. now right.
Qed.

Lemma folder_progress fs fn : has_folder fn -> exists fs', ensure_folder fs fn = Ok fs'.
Proof using Type.
  unfold has_folder, ensure_folder, makedirs. intros H. destruct (path_exists _ _); [eauto|].
  destruct (String.eqb_spec (dirname fn) ""); [contradiction|eauto].
Qed.

Lemma write_one_progress (s : store) fs d (t : A) e : ready s d e ->
  (forall x, e = ETxt x -> tx_data x <> None /\ tx_header x <> None) ->
  exists r, write_one is_function project s fs d t None 0 e = Ok r.
Proof using project_function.
  intros H Hinit. destruct e as [dq|x|x]; cbn [ready SteadySpec.ready] in H; unfold write_one.
  - destruct H as (Hc & Hfn & Hq). unfold dq_is_compute, every.
    destruct (Z.eqb_spec (dq_compute dq) 0); [lia|]. cbn [bind]. rewrite Zmod_0_l. cbn [Z.eqb].
    destruct (prepare_progress (dq_list dq) s d Hq) as (s1 & d1 & Hp & Hok). rewrite Hp. cbn [bind].
    unfold dq_run_compute.
    destruct (loop_progress dq t (dq_list dq) s1 (dq_data dq) []) as ([[s2 data] vals] & Hl); [auto|].
    rewrite Hl. cbn [bind]. unfold dq_is_export. cbn [bind]. unfold dq_write. cbn [set_data dq_filename].
    destruct (dq_filename dq) as [fn|] eqn:Ef; cbn [bind]; [|eauto].
    destruct (folder_progress fs fn (Hfn _ eq_refl)) as (fs' & ->). cbn [bind]. eauto.
  - destruct H as ((n & Hm & Hn) & f & Hl). unfold xd_is_export. rewrite Hm. unfold every.
    destruct (Z.eqb_spec n 0); [lia|]. cbn [bind]. rewrite Zmod_0_l. cbn [Z.eqb].
    destruct (label_eqb (xd_field x) (LStr "retention")) eqn:Er.
    + apply label_eqb_eq in Er. rewrite Er in *.
      destruct (project_progress _ _ _ Hl) as (d1 & f1 & -> & Hl1 & _). cbn [bind]. unfold getitem.
      rewrite Hl1. cbn [bind]. eauto.
    + cbn [bind]. unfold getitem. rewrite Hl. cbn [bind]. eauto.
  - destruct H as (Ht & (f & Hl) & name & Hname & Hfo).
    destruct (Hinit x eq_refl) as [Hd Hh].
    destruct (project_progress _ _ _ Hl) as (d1 & f1 & -> & Hl1 & _). cbn [bind]. unfold getitem.
    rewrite Hl1. cbn [bind]. unfold tx_write. destruct (tx_is_time x t); [|cbn [bind]; eauto].
    rewrite Hname. destruct (tx_data x) as [data|]; [|congruence]. destruct (tx_header x) as [h|]; [|congruence].
    destruct (folder_progress fs name Hfo) as (fs' & ->). cbn [bind]. unfold tx_is_last.
    destruct (tx_last x); cbn [bind]; eauto.
Qed.

Lemma write_loop_progress (t : A) l : forall (s : store) fs d i,
  (forall e, In e l -> ready s d e) ->
  (forall x, In (ETxt x) l -> tx_data x <> None /\ tx_header x <> None) ->
  exists r, write_loop is_function project s fs d t None 0 i l = Ok r.
Proof using project_function.
  induction l as [|e r IH]; intros s fs d i H Hinit; cbn [write_loop]; [eauto|].
  destruct (write_one_progress s fs d t e) as ([[[[e' s1] fs1] d1] w] & Hw).
  { apply H. now left. } { intros x ->. apply Hinit. now left. }
  rewrite Hw. cbn [bind]. apply write_one_ok in Hw as (_ & Hd & Hq & _); [|assumption].
  destruct (IH s1 fs1 d1 (S i)) as ([[[r' s2] fs2] ws] & Hr).
  { intros e0 He. eapply ready_le; [exact Hd|exact Hq|]. apply H. now right. }
  { intros x Hx. apply Hinit. now right. }
  rewrite Hr. cbn [bind]. eauto.
Qed.

(** A successful write has no export of mode "last" when there is no final time. *)
Lemma write_no_last (ex : exports (A:=A) F V C) d (t : A) r i x :
  write is_function project ex d t = Ok r -> ex_final ex = None ->
  nth_error (ex_list ex) i = Some (EXdmf x) -> xd_mode x <> Last.
Proof using project_function.
  intros H Hfin Hi Hm. unfold write in H. destruct (write_loop _ _ _ _ _ _ _ _ _ _) as [[[[l s] fs] ws]|] eqn:E; [|discriminate].
  apply write_loop_nth in E as (_ & _ & _ & _ & Hn); [|assumption].
  destruct (Hn i _ Hi) as (s1 & fs1 & d1 & e1 & s2 & fs2 & d2 & Hw & _).
  apply write_one_xdmf in Hw. unfold xd_is_export in Hw. rewrite Hm, Hfin in Hw.
  destruct Hw as [(Hw & _)|(Hw & _)]; discriminate.
Qed.
End Progress.
