(** Proofs about one export across repeated calls of Exports.write: XDMFExport and TXTExport. *)
From Coq Require Import ZArith List Bool String Ascii Lia.
From Verif Require Import Base.Exc Base.Num Model.Paths Model.Exports
  Spec.ExportSpec Proofs.ExportProofs.
Import ListNotations.
Local Notation length := List.length.

(** ** Which calls wrote *)
Section Steps.
Context {A F V C : Type}.
Local Notation written := (written (A:=A) F V C).

Lemma steps_filter (p : nat -> bool) i k (log : list (A * list (nat * written))) :
  (forall j t ws, nth_error log j = Some (t, ws) ->
     length (of_export i ws) = if p (k + j) then 1 else 0) ->
  map (fun x => fst (fst x)) (written_from i k log) = filter p (seq k (length log)).
Proof.
  revert k. induction log as [|[t ws] r IH]; intros k H; cbn; [reflexivity|].
  rewrite map_app, map_map. cbn. rewrite (IH (S k)).
  - specialize (H 0 t ws eq_refl). rewrite Nat.add_0_r in H.
    destruct (p k); destruct (of_export i ws) as [|w [|w2 l]]; cbn in *; try discriminate; reflexivity.
  - intros j t' ws' Hj. replace (S k + j) with (k + S j) by lia. now apply (H (S j) t').
Qed.

Lemma written_from_in i k (log : list (A * list (nat * written))) n t w :
  In (n, t, w) (written_from i k log) <->
  exists j ws, n = k + j /\ nth_error log j = Some (t, ws) /\ In w (of_export i ws).
Proof.
  revert k. induction log as [|[t0 ws0] r IH]; intros k; cbn.
  - split; [tauto|]. intros (j & ws & _ & H & _). destruct j; discriminate.
  - rewrite in_app_iff, IH, in_map_iff. split.
    + intros [(w' & [= <- <- <-] & Hw)|(j & ws & -> & Hj & Hw)].
      * exists 0, ws0. rewrite Nat.add_0_r. auto.
      * exists (S j), ws. split; [lia|auto].
    + intros (j & ws & -> & Hj & Hw). destruct j as [|j].
      * cbn in Hj. injection Hj as -> ->. left. exists w. rewrite Nat.add_0_r. auto.
      * right. exists j, ws. split; [lia|auto].
Qed.
End Steps.

Section Track.
Context {A : Type} {N : Num A} {F V C : Type}.
Variable is_function : F -> bool.
Variable project : F -> F.
Hypothesis project_function : forall f, is_function (project f) = true.

Local Notation dict := (dict F).
Local Notation export := (export (A:=A) F V C).
Local Notation exports := (exports (A:=A) F V C).
Local Notation written := (written (A:=A) F V C).
Local Notation write_one := (write_one (V:=V) (C:=C) is_function project).
Local Notation calls := (calls (V:=V) (C:=C) is_function project).
Local Notation value_ok := (value_ok is_function project).
Local Notation dict_le := (dict_le is_function project).
Local Notation xdmf_writes := (xdmf_writes is_function project).
Local Notation col_ok := (col_ok is_function project).
Local Notation header_entry := (header_entry (A:=A) (F:=F) (C:=C)).

(** The calls seen from one export. *)
Inductive track (fin : option A) : export -> Z -> list (A * dict) -> export -> list (list written) -> Prop :=
| track_nil e nb : track fin e nb [] e []
| track_cons e nb t d cs s1 fs1 d1 e1 s2 fs2 d2 w e' ws :
    write_one s1 fs1 d1 t fin nb e = Ok (e1, s2, fs2, d2, w) -> dict_le d d1 ->
    track fin e1 (nb + 1)%Z cs e' ws -> track fin e nb ((t, d) :: cs) e' (w :: ws).

Lemma calls_track ex cs ex' log i e :
  calls ex cs ex' log -> nth_error (ex_list ex) i = Some e ->
  exists e', nth_error (ex_list ex') i = Some e' /\
    track (ex_final ex) e (ex_nb ex) cs e' (map (fun p => of_export i (snd p)) log).
Proof using project_function.
  intros H. revert e. induction H as [ex|ex t d ex1 ws cs ex' log Hw Hc IH]; intros e He.
  - exists e. split; [assumption|constructor].
  - apply write_inv in Hw as (H1 & H2 & l & s & fs & -> & Hl).
    apply write_loop_nth in Hl as (_ & _ & _ & _ & Hn); [|assumption].
    destruct (Hn i e He) as (s1 & fs1 & d1 & e1 & s2 & fs2 & d2 & Hw & Hne & Hd & _).
    destruct (IH e1 Hne) as (e' & He' & Ht). exists e'. split; [assumption|].
    cbn in Ht. cbn. econstructor; eauto.
Qed.

Lemma track_length fin e nb cs e' ws : track fin e nb cs e' ws -> length ws = length cs.
Proof. induction 1; cbn; congruence. Qed.

Lemma track_static fin e nb cs e' ws : track fin e nb cs e' ws -> static e e'.
Proof using project_function.
  induction 1 as [|e nb t d cs s1 fs1 d1 e1 s2 fs2 d2 w e' ws Hw Hd Ht IH]; [apply static_refl|].
  apply write_one_ok in Hw as (Hs & _); [|assumption]. eapply static_trans; eauto.
Qed.

(** ** XDMFExport *)

Lemma value_le d d1 k v : dict_le d d1 -> lookup d1 k = Some v ->
  exists v0, lookup d k = Some v0 /\ value_ok v0 v.
Proof.
  intros [Hd Hn] Hl. destruct (lookup d k) as [v0|] eqn:E; [|apply Hn in E; congruence].
  destruct (Hd _ _ E) as (v1 & Hv1 & Hok). rewrite Hl in Hv1. injection Hv1 as <-. eauto.
Qed.

Lemma write_one_xdmf s fs d t fin nb x e' s' fs' d' w :
  write_one s fs d t fin nb (EXdmf x) = Ok (e', s', fs', d', w) ->
  (xd_is_export x t fin nb = Ok false /\ e' = EXdmf x /\ w = []) \/
  (xd_is_export x t fin nb = Ok true /\
   e' = EXdmf (mkXdmf (xd_field x) (xd_mode x) (xd_checkpoint x) (xd_trap x) true) /\
   exists f, w = [WXdmf t f (xd_checkpoint x) (xd_append x)] /\
     exists v, lookup d' (xd_field x) = Some v /\ f = match xd_trap x with Some g => FFun g | None => v end).
Proof.
  unfold Exports.write_one. intros H. bind_as H b Hb. destruct b.
  - bind_as H d1 Hd. bind_as H v Hv. injection H as <- <- <- <- <-. right.
    unfold getitem in Hv. destruct (lookup d1 (xd_field x)) as [v0|] eqn:El; [|discriminate].
    injection Hv as ->. split; [assumption|]. split; [reflexivity|].
    eexists. split; [reflexivity|]. eauto.
  - injection H as <- <- <- <- <-. left. auto.
Qed.

(** Each call of an XDMFExport with integer mode; [app0] is the append flag at the start. *)
Lemma track_xdmf fin x nb cs e' ws :
  track fin (EXdmf x) nb cs e' ws ->
  forall k t d w, nth_error cs k = Some (t, d) -> nth_error ws k = Some w ->
  exists b, xd_is_export x t fin (nb + Z.of_nat k) = Ok b /\
  if b then exists f app, w = [WXdmf t f (xd_checkpoint x) app] /\ xdmf_writes x d f /\
         (app = (xd_append x || existsb (fun v => negb (match v with [] => true | _ => false end)) (firstn k ws))%bool)
  else w = [].
Proof using project_function.
  intros H. remember (EXdmf x) as e eqn:He. revert x He.
  induction H as [|e nb t d cs s1 fs1 d1 e1 s2 fs2 d2 w e' ws Hw Hd Ht IH]; intros x -> k t0 d0 w0 Hk Hwk.
  - destruct k; discriminate.
  - pose proof Hw as Hw0. apply write_one_ok in Hw0 as (Hst & Hle & _); [|assumption].
    apply write_one_xdmf in Hw as Hc.
    assert (He1 : exists x1, e1 = EXdmf x1 /\ xd_field x1 = xd_field x /\ xd_mode x1 = xd_mode x /\
              xd_checkpoint x1 = xd_checkpoint x /\ xd_trap x1 = xd_trap x /\
              xd_append x1 = (xd_append x || negb (match w with [] => true | _ => false end))%bool).
    { destruct Hc as [(_ & -> & ->)|(_ & -> & f & -> & _)].
      - exists x. rewrite orb_false_r. auto 10.
      - eexists. split; [reflexivity|]. cbn. rewrite orb_true_r. auto 10. }
    destruct He1 as (x1 & -> & Hf & Hm & Hck & Htr & Hap).
    destruct k as [|k].
    + cbn in Hk, Hwk. injection Hk as <- <-. injection Hwk as <-. rewrite Z.add_0_r.
      destruct Hc as [(Hb & _ & ->)|(Hb & _ & f & -> & v & Hv & ->)]; [exists false; auto|].
      exists true. split; [assumption|]. eexists. exists (xd_append x). split; [reflexivity|].
      split; [|cbn; now rewrite orb_false_r].
      unfold xdmf_writes. destruct (xd_trap x); [reflexivity|].
      eapply value_le; [|exact Hv].
      eapply dict_le_trans; [|exact Hd|exact Hle]. assumption.
    + cbn in Hk, Hwk.
      destruct (IH x1 eq_refl) with (k:=k) (t:=t0) (d:=d0) (w:=w0) as (b & Hb & Hbw); auto.
      replace (nb + Z.of_nat (S k))%Z with (nb + 1 + Z.of_nat k)%Z by lia.
      exists b. split; [unfold xd_is_export in *; now rewrite Hm in Hb|].
      destruct b; [|assumption].
      destruct Hbw as (f & app & -> & Hxw & ->). rewrite Hck.
      eexists. eexists. split; [reflexivity|]. split.
      * unfold xdmf_writes in *. now rewrite Htr, Hf in Hxw.
      * rewrite Hap. cbn. now rewrite orb_assoc.
Qed.

Lemma every_ok nb n b : every nb n = Ok b -> b = (nb mod n =? 0)%Z.
Proof. unfold every. destruct (n =? 0)%Z; [discriminate|]. now intros [= <-]. Qed.

Lemma combine_nth {B} (log : list (A * list (nat * written))) (g : list (nat * written) -> B) j t ws :
  nth_error log j = Some (t, ws) -> nth_error (map (fun p => g (snd p)) log) j = Some (g ws).
Proof. intros H. now rewrite nth_error_map, H. Qed.

(** ** TXTExport *)

Definition txt_exports (x : txt (A:=A) F C) (p : A * dict) : bool := tx_is_time x (fst p).

Definition add_entries (h : string) (l : list string) : string :=
  fold_left (fun a e => (a ++ "," ++ e)%string) l h.

Lemma str_app_assoc a b c : ((a ++ b) ++ c)%string = (a ++ b ++ c)%string.
Proof. induction a; cbn; congruence. Qed.

Lemma write_one_txt s fs d t fin nb x e' s' fs' d' w :
  write_one s fs d t fin nb (ETxt x) = Ok (e', s', fs', d', w) ->
  exists f, lookup d' (tx_field x) = Some f /\ is_function_val is_function f = true /\
  if tx_is_time x t then
    exists fn name data h, f = FFun fn /\ tx_filename x = Some name /\ tx_data x = Some data /\ tx_header x = Some h /\
      let data' := data ++ [tx_sample x fn] in
      let h' := add_entries h [header_entry x fin t] in
      e' = ETxt (set_txt x (Some data') (Some h')) /\
      exists b, (if tx_last x then tx_is_last x t fin else Ok true) = Ok b /\
        w = if b then [WTxt name h' data'] else []
  else e' = ETxt x /\ w = [].
Proof using project_function.
  unfold Exports.write_one. intros H. bind_as H d1 Hd. bind_as H v Hv. bind_as H [[fs1 x1] w1] Hw.
  injection H as <- <- <- <- <-.
  unfold getitem in Hv. destruct (lookup d1 (tx_field x)) as [v0|] eqn:El; [|discriminate].
  injection Hv as ->. exists v. split; [reflexivity|].
  split; [eapply project_item_function; eauto|].
  unfold tx_write in Hw. destruct (tx_is_time x t).
  - destruct v as [fn|]; [|destruct (tx_filename x); discriminate].
    destruct (tx_filename x) as [name|] eqn:En; [|discriminate].
    destruct (tx_data x) as [data|] eqn:Ed; [|discriminate].
    destruct (tx_header x) as [h|] eqn:Eh; [|discriminate].
    bind_as Hw fs2 Hf. bind_as Hw b Hb. injection Hw as <- <- <-.
    exists fn, name, data, h. repeat (split; [reflexivity|]). cbn zeta.
    assert (Hh : add_entries h [header_entry x fin t] =
      match fin with None => (h ++ ",t=steady")%string | Some _ => (h ++ ",t=" ++ tx_format x t ++ "s")%string end).
    { unfold add_entries, header_entry. cbn. destruct fin; reflexivity. }
    rewrite Hh. split; [reflexivity|]. exists b. auto.
  - injection Hw as <- <- <-. auto.
Qed.

(** What a TXTExport has stored after the calls, and what each call wrote: the initial columns and
    header extended by the exports so far. *)
Definition exported (x : txt (A:=A) F C) (cs : list (A * dict)) : list (A * dict) := filter (txt_exports x) cs.

Lemma add_entries_app h a b : add_entries h (a ++ b) = add_entries (add_entries h a) b.
Proof. unfold add_entries. apply fold_left_app. Qed.

Definition same_txt (x x' : txt (A:=A) F C) : Prop :=
  tx_field x' = tx_field x /\ tx_filename x' = tx_filename x /\ tx_times x' = tx_times x /\
  tx_last x' = tx_last x /\ tx_format x' = tx_format x /\ tx_x x' = tx_x x /\ tx_sample x' = tx_sample x.

Lemma track_txt fin x nb cs e' ws data h :
  track fin (ETxt x) nb cs e' ws ->
  tx_data x = Some data -> tx_header x = Some h ->
  exists x' cols, e' = ETxt x' /\ same_txt x x' /\
    tx_data x' = Some (data ++ cols) /\
    tx_header x' = Some (add_entries h (map (header_entry x fin) (map fst (exported x cs)))) /\
    Forall2 (col_ok x) (exported x cs) cols /\
    forall k t d w, nth_error cs k = Some (t, d) -> nth_error ws k = Some w ->
      let m := length (exported x (firstn (S k) cs)) in
      if tx_is_time x t then
        exists b name, (if tx_last x then tx_is_last x t fin else Ok true) = Ok b /\
        tx_filename x = Some name /\
        w = if b then [WTxt name (add_entries h (map (header_entry x fin) (map fst (exported x (firstn (S k) cs)))))
                         (data ++ firstn m cols)] else []
      else w = [].
Proof using project_function.
  intros H. remember (ETxt x) as e eqn:He. revert x He data h.
  induction H as [|e nb t d cs s1 fs1 d1 e1 s2 fs2 d2 w e' ws Hw Hd Ht IH]; intros x -> data h Hdata Hh.
  - exists x, []. rewrite app_nil_r. split; [reflexivity|].
    split; [unfold same_txt; auto 10|]. split; [assumption|]. split; [assumption|].
    split; [constructor|]. intros [|k]; discriminate.
  - pose proof Hw as Hw0. apply write_one_ok in Hw0 as (Hst & Hle & _); [|assumption].
    apply write_one_txt in Hw as (f & Hl & Hfv & Hc).
    destruct (tx_is_time x t) eqn:Et.
    + destruct Hc as (fn & name & data0 & h0 & -> & Hname & Hd0 & Hh0 & -> & b & Hb & ->).
      rewrite Hdata in Hd0. rewrite Hh in Hh0. injection Hd0 as <-. injection Hh0 as <-.
      edestruct (IH _ eq_refl) as (x' & cols & -> & Hsame & Hx'd & Hx'h & Hcols & Hws);
        [reflexivity|reflexivity|].
      assert (Hex : exported x ((t, d) :: cs) = (t, d) :: exported x cs).
      { unfold exported, txt_exports. cbn. now rewrite Et. }
      exists x', (tx_sample x fn :: cols). split; [reflexivity|].
      split; [exact Hsame|].
      split. { rewrite Hx'd, <- app_assoc. reflexivity. }
      split. { rewrite Hx'h, Hex. cbn [map fst]. change (?a :: ?l) with ([a] ++ l).
               rewrite add_entries_app. reflexivity. }
      split. { rewrite Hex. constructor; [|exact Hcols].
               edestruct (value_le d d2) as (v0 & Hv0 & Hok); [eapply dict_le_trans; eauto|exact Hl|].
               exists v0, fn. auto. }
      intros [|k] t0 d0 w0 Hk Hwk.
      * cbn in Hk, Hwk. injection Hk as <- <-. injection Hwk as <-. rewrite Et.
        exists b, name. split; [assumption|]. split; [assumption|].
        destruct b; [|reflexivity].
        assert (He1 : exported x (firstn 1 ((t, d) :: cs)) = [(t, d)]).
        { unfold exported, txt_exports. cbn. now rewrite Et. }
        rewrite He1. reflexivity.
      * cbn in Hk, Hwk. specialize (Hws k t0 d0 w0 Hk Hwk). cbn zeta in *.
        change (tx_is_time _ t0) with (tx_is_time x t0) in Hws.
        destruct (tx_is_time x t0); [|assumption].
        destruct Hws as (b0 & name0 & Hb0 & Hn0 & ->). exists b0, name0.
        split; [assumption|]. split; [assumption|].
        destruct b0; [|reflexivity].
        change (firstn (S (S k)) ((t, d) :: cs)) with ((t, d) :: firstn (S k) cs).
        assert (Hexk : exported x ((t, d) :: firstn (S k) cs) = (t, d) :: exported x (firstn (S k) cs)).
        { unfold exported, txt_exports. cbn [filter fst]. now rewrite Et. }
        rewrite Hexk. cbn [map fst length firstn].
        change (header_entry x fin t :: ?l) with ([header_entry x fin t] ++ l).
        rewrite add_entries_app, <- app_assoc. reflexivity.
    + destruct Hc as (-> & ->).
      edestruct (IH _ eq_refl) as (x' & cols & -> & Hsame & Hx'd & Hx'h & Hcols & Hws);
        [exact Hdata|exact Hh|].
      assert (Hex : forall l, exported x ((t, d) :: l) = exported x l).
      { intros l. unfold exported, txt_exports. cbn. now rewrite Et. }
      exists x', cols. split; [reflexivity|]. split; [assumption|].
      rewrite Hex. split; [assumption|]. split; [assumption|]. split; [assumption|].
      intros [|k] t0 d0 w0 Hk Hwk.
      * cbn in Hk, Hwk. injection Hk as <- <-. injection Hwk as <-. rewrite Et. reflexivity.
      * cbn in Hk, Hwk. specialize (Hws k t0 d0 w0 Hk Hwk).
        change (firstn (S (S k)) ((t, d) :: cs)) with ((t, d) :: firstn (S k) cs).
        now rewrite Hex.
Qed.

(** The comma separated entries of the header. *)
Lemma entries_app a b : entries (a ++ "," ++ b) = entries a ++ entries b.
Proof.
  induction a as [|c r IH]; cbn; [reflexivity|].
  cbn in IH. destruct (Ascii.eqb c ",") eqn:E.
  - rewrite IH. reflexivity.
  - rewrite IH. destruct (entries r) as [|e l] eqn:Er; [|reflexivity].
    exfalso. clear -Er. induction r as [|c r IH]; cbn in Er; [discriminate|].
    destruct (Ascii.eqb c ","); [discriminate|]. destruct (entries r) as [|e l]; [auto|discriminate].
Qed.
Lemma entries_no_comma s : no_comma s -> entries s = [s].
Proof.
  induction s as [|c r IH]; cbn; [reflexivity|]. intros [Hc Hr].
  apply Ascii.eqb_neq in Hc. rewrite Hc, IH by assumption. reflexivity.
Qed.
Lemma no_comma_app a b : no_comma a -> no_comma b -> no_comma (a ++ b).
Proof. induction a; cbn; tauto. Qed.
Lemma entries_add h l : (forall e, In e l -> no_comma e) ->
  entries (add_entries h l) = entries h ++ l.
Proof.
  revert h. induction l as [|e r IH]; intros h H; cbn.
  - now rewrite app_nil_r.
  - unfold add_entries in IH. rewrite IH by (intros; apply H; now right).
    change (h ++ String "," e)%string with (h ++ "," ++ e)%string.
    rewrite entries_app, (entries_no_comma e) by (apply H; now left).
    now rewrite <- app_assoc.
Qed.
Lemma header_entry_no_comma x fin t : (forall t, no_comma (tx_format x t)) -> no_comma (header_entry x fin t).
Proof.
  intros H. unfold header_entry. destruct fin; [|cbn; repeat split; discriminate].
  apply no_comma_app; [cbn; repeat split; discriminate|].
  apply no_comma_app; [apply H|cbn; repeat split; discriminate].
Qed.
End Track.
