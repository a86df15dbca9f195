(** C64: the names of XDMF files. *)
From Coq Require Import ZArith List String Ascii Bool Lia.
From Verif Require Import Base.Exc Model.Paths Model.XdmfInit Spec.XdmfInitSpec.
Import ListNotations.
Local Open Scope string_scope.

Lemma is_digit_iff c : is_digit c = true <-> digit c.
Proof.
  unfold digit. split.
  - destruct c as [[] [] [] [] [] [] [] []]; cbn; try discriminate; tauto.
  - cbn. intros [<-|[<-|[<-|[<-|[<-|[<-|[<-|[<-|[<-|[<-|[]]]]]]]]]]]; reflexivity.
Qed.
Lemma isdigit_iff s : isdigit s = true <-> numeral s.
Proof.
  unfold isdigit, numeral. rewrite andb_true_iff, negb_true_iff, String.eqb_neq.
  assert (H : all_digits s = true <-> forall c, In c (list_ascii_of_string s) -> digit c).
  { induction s as [|c s IH]; cbn [all_digits list_ascii_of_string In]; [split; [intros _ c []|auto]|]. rewrite andb_true_iff, is_digit_iff, IH.
    split; [intros [H1 H2] d [<-|Hd]; auto|]. intros H. split; [apply H; now left|]. intros d Hd. apply H. now right. }
  now rewrite H.
Qed.
Lemma app_inj_l a b c : a ++ b = a ++ c -> b = c.
Proof. induction a as [|x a IH]; cbn; [auto|]. intros H. injection H as H. auto. Qed.
Lemma app_inj_r a b c : a ++ c = b ++ c -> a = b.
Proof.
  intros H. assert (HL : String.length a = String.length b).
  { assert (E : forall x y, String.length (x ++ y) = (String.length x + String.length y)%nat).
    { induction x as [|q x IH]; intros y; cbn; [reflexivity|]. now rewrite IH. }
    apply (f_equal String.length) in H. rewrite !E in H. lia. }
  revert b H HL. induction a as [|x a IH]; intros [|y b]; cbn; intros H HL; try discriminate; [reflexivity|].
  injection H as <- H. f_equal. apply IH; [exact H|]. now injection HL.
Qed.
Lemma numeral_not s : numeral s -> lookup s field_to_label = None.
Proof.
  intros [Hs H]. destruct s as [|c s]; [congruence|]. assert (Hc : digit c) by (apply H; now left).
  unfold digit in Hc. cbn in Hc. cbn [lookup field_to_label String.eqb].
  destruct Hc as [<-|[<-|[<-|[<-|[<-|[<-|[<-|[<-|[<-|[<-|[]]]]]]]]]]]; reflexivity.
Qed.
Lemma default_label s l : named s l -> set_label (VStr s) None = Ok (Some l).
Proof.
  intros [| | |n Hn]; cbn [set_label]; try reflexivity. rewrite (numeral_not n Hn).
  apply isdigit_iff in Hn. rewrite Hn. reflexivity.
Qed.
Lemma named_inj f1 l1 f2 l2 : named f1 l1 -> named f2 l2 -> l1 = l2 -> f1 = f2.
Proof.
  intros H1 H2. destruct H1 as [| | |n1 _], H2 as [| | |n2 _]; intros E; try reflexivity; try discriminate E.
  apply (app_inj_l "trap_") in E. now apply app_inj_r in E.
Qed.
Lemma endswith_spec s x : endswith s x = true <-> exists p, s = p ++ x.
Proof.
  assert (EL : forall x y, String.length (x ++ y) = (String.length x + String.length y)%nat).
  { induction x0 as [|q x0 IH]; intros y; cbn; [reflexivity|]. now rewrite IH. }
  assert (ES : forall y, substring 0 (String.length y) y = y).
  { induction y as [|q y IH]; cbn; [reflexivity|]. now rewrite IH. }
  assert (EA : forall p y, substring (String.length p) (String.length y) (p ++ y) = y).
  { induction p as [|q p IH]; intros y; cbn; [apply ES|apply IH]. }
  assert (EP : forall k y, (k <= String.length y)%nat -> exists p, y = p ++ substring k (String.length y - k) y).
  { induction k as [|k IH]; intros y Hy.
    - exists "". rewrite Nat.sub_0_r, ES. reflexivity.
    - destruct y as [|q y]; cbn in Hy; [lia|]. destruct (IH y) as [p Hp]; [lia|]. exists (String q p).
      cbn. now rewrite <- Hp. }
  unfold endswith. rewrite andb_true_iff, Nat.leb_le, String.eqb_eq. split.
  - intros [H1 H2]. destruct (EP (String.length s - String.length x)%nat s) as [p Hp]; [lia|].
    replace (String.length s - (String.length s - String.length x))%nat with (String.length x) in Hp by lia.
    rewrite H2 in Hp. eauto.
  - intros [p ->]. rewrite EL. split; [lia|]. replace (String.length p + String.length x - String.length x)%nat
      with (String.length p) by lia. apply EA.
Qed.
(** The filename setters of DerivedQuantities, TXTExport and XDMFExport accept None and the names with the extension,
    unchanged, and nothing else. *)
Theorem C52_filename ext v :
  (check_filename ext v = Ok v <-> v = None \/ exists p, v = Some (p ++ ext)) /\
  (forall w, check_filename ext v = Ok w -> w = v) /\
  (forall e, check_filename ext v = Err e -> exists msg, e = ValueError msg).
Proof.
  destruct v as [s|]; cbn [check_filename].
  - pose proof (endswith_spec s ext) as H. destruct (endswith s ext).
    + split; [|split; [congruence|discriminate]]. split; [|reflexivity]. intros _. right.
      destruct (proj1 H eq_refl) as [p ->]. eauto.
    + split; [|split; [discriminate|intros e [= <-]; eauto]]. split; [discriminate|].
      intros [[=]|[p [= ->]]]. enough (false = true) by discriminate. apply H. eauto.
  - split; [|split; [congruence|discriminate]]. tauto.
Qed.
Example C52_filename_example : check_filename ".csv" (Some "out/f.csv") = Ok (Some "out/f.csv") /\
  (exists msg, check_filename ".csv" (Some "out/f.txt") = Err (ValueError msg)).
Proof. split; [reflexivity|]. eexists. reflexivity. Qed.

(** Without label and file name the file of a field is named after its data. *)
Theorem C64_default_path field l mode checkpoint folder x :
  named field l -> XDMFExport (VStr field) None VNone mode checkpoint folder = Ok x ->
  x_label x = Some l /\
  ((folder = VNone /\ x_path x = l ++ ".xdmf") \/
   exists d, folder = VStr d /\ x_path x = d ++ "/" ++ l ++ ".xdmf").
Proof.
  intros Hn. unfold XDMFExport. rewrite (default_label _ _ Hn). cbn [bind].
  destruct folder as [|d|z|b|]; cbn [set_folder bind set_filename]; try discriminate;
    destruct (set_mode mode) as [m|e]; cbn [bind]; try discriminate;
    destruct checkpoint; try discriminate; intros H; injection H as <-; cbn; split; eauto.
Qed.
Print Assumptions C64_default_path.

(** Different fields get different files. *)
Theorem C64_distinct f1 f2 l1 l2 m1 m2 c1 c2 folder x1 x2 :
  named f1 l1 -> named f2 l2 ->
  XDMFExport (VStr f1) None VNone m1 c1 folder = Ok x1 -> XDMFExport (VStr f2) None VNone m2 c2 folder = Ok x2 ->
  x_path x1 = x_path x2 \/ x_label x1 = x_label x2 -> f1 = f2.
Proof.
  intros H1 H2 X1 X2 H. destruct (C64_default_path _ _ _ _ _ _ H1 X1) as [L1 P1].
  destruct (C64_default_path _ _ _ _ _ _ H2 X2) as [L2 P2].
  assert (E : l1 = l2).
  { destruct H as [H|H]; [|congruence].
    destruct P1 as [[-> P1]|[d [-> P1]]]; destruct P2 as [[E P2]|[d' [E P2]]]; try discriminate E.
    - apply (app_inj_r _ _ ".xdmf"). congruence.
    - injection E as <-. apply (app_inj_r _ _ ".xdmf"). apply (app_inj_l "/"). apply (app_inj_l d). congruence. }
  exact (named_inj _ _ _ _ H1 H2 E).
Qed.
Print Assumptions C64_distinct.

(** What is accepted. *)
Theorem C64_accepted_iff field label filename mode checkpoint folder :
  (exists x, XDMFExport field label filename mode checkpoint folder = Ok x) <->
  good_name field label filename /\ good_mode mode /\ good_folder folder /\ good_checkpoint checkpoint.
Proof.
  assert (Hm : (exists m, set_mode mode = Ok m) <-> good_mode mode).
  { unfold good_mode. destruct mode as [|s|z|b|]; cbn [set_mode].
    - split; [intros [m H]; discriminate|intros [H|[H|[z [H _]]]]; discriminate].
    - destruct (String.eqb_spec s "last") as [->|Hs]; [split; eauto|].
      split; [intros [m H]; discriminate|]. intros [H|[H|[z [H _]]]]; [injection H as H; congruence|discriminate|discriminate].
    - destruct (Z.leb_spec z 0) as [Hz|Hz].
      + split; [intros [m H]; discriminate|]. intros [H|[H|[z' [H H']]]]; [discriminate|discriminate|]. injection H as <-. lia.
      + split; eauto.
    - destruct b; [split; eauto|]. split; [intros [m H]; discriminate|]. intros [H|[H|[z [H _]]]]; discriminate.
    - split; [intros [m H]; discriminate|intros [H|[H|[z [H _]]]]; discriminate]. }
  assert (Hd : (exists d, set_folder folder = Ok d) <-> good_folder folder).
  { unfold good_folder. destruct folder; cbn [set_folder]; split; eauto; try (intros [m H]; discriminate);
      intros [H|[s' H]]; discriminate. }
  assert (Hf : (exists f, (let! l := set_label field label in set_filename l filename) = Ok f) <-> good_name field label filename).
  { unfold good_name. destruct label as [lb|].
    - cbn [set_label bind]. destruct filename as [|s|z|b|]; cbn [set_filename].
      + split; eauto. intros _. split; [left; discriminate|]. right. split; [reflexivity|left; discriminate].
      + destruct (endswith s ".xdmf") eqn:E.
        * apply endswith_spec in E as [p ->]. split; eauto. intros _. split; [left; discriminate|eauto].
        * split; [intros [f H]; discriminate|]. intros [_ [[p H]|[H _]]]; [|discriminate]. injection H as ->.
          apply not_true_iff_false in E. destruct E. apply endswith_spec. eauto.
      + split; [intros [f H]; discriminate|]. intros [_ [[p H]|[H _]]]; discriminate.
      + split; [intros [f H]; discriminate|]. intros [_ [[p H]|[H _]]]; discriminate.
      + split; [intros [f H]; discriminate|]. intros [_ [[p H]|[H _]]]; discriminate.
    - destruct field as [|s|z|b|];
        try (split; [intros [f H]; discriminate|intros [[H|[s H]] _]; [congruence|discriminate]]).
      assert (Hex : exists o, set_label (VStr s) None = Ok o /\
        (o <> None <-> s = "trap" \/ exists l, named s l)).
      { destruct (lookup s field_to_label) as [l|] eqn:El.
        - cbn [set_label]. rewrite El. exists (Some l). split; [reflexivity|]. split; [|discriminate]. intros _.
          cbn [lookup field_to_label] in El.
          destruct (String.eqb_spec s "solute") as [->|]; [right; eauto using named|].
          destruct (String.eqb_spec s "T") as [->|]; [right; eauto using named|].
          destruct (String.eqb_spec s "retention") as [->|]; [right; eauto using named|].
          destruct (String.eqb_spec s "trap") as [->|]; [now left|discriminate].
        - cbn [set_label]. rewrite El. destruct (isdigit s) eqn:Ed.
          + eexists. split; [reflexivity|]. split; [|discriminate]. intros _. apply isdigit_iff in Ed. right. eexists.
            now constructor.
          + exists None. split; [reflexivity|]. split; [congruence|]. intros [->|[l Hl]]; [discriminate El|].
            destruct Hl as [| | |n Hn]; try discriminate El. apply isdigit_iff in Hn. congruence. }
      destruct Hex as (o & Ho & Hiff). rewrite Ho. cbn [bind].
      destruct filename as [|p|z|b|]; cbn [set_filename].
      + destruct o as [l|].
        * split; eauto. intros _. split; [right; eauto|]. right. split; [reflexivity|right].
          destruct (proj1 Hiff) as [->|[l' Hl]]; [discriminate|now left|right; eauto].
        * split; [intros [f H]; discriminate|]. intros [_ [[p H]|[_ [H|[H|(s' & l & H & Hl)]]]]]; [discriminate|congruence| |];
            injection H as H; exfalso; apply (proj2 Hiff); auto. right. subst s'. eauto.
      + destruct (endswith p ".xdmf") eqn:E.
        * apply endswith_spec in E as [q ->]. split; eauto. intros _. split; [right; eauto|left; eauto].
        * split; [intros [f H]; discriminate|]. intros [_ [[q H]|[H _]]]; [|discriminate]. injection H as ->.
          apply not_true_iff_false in E. destruct E. apply endswith_spec. eauto.
      + split; [intros [f H]; discriminate|]. intros [_ [[p H]|[H _]]]; discriminate.
      + split; [intros [f H]; discriminate|]. intros [_ [[p H]|[H _]]]; discriminate.
      + split; [intros [f H]; discriminate|]. intros [_ [[p H]|[H _]]]; discriminate. }
  rewrite <- Hm, <- Hd, <- Hf. unfold XDMFExport, good_checkpoint. split.
  - intros [x H]. destruct (set_label field label) as [l|e]; cbn [bind] in *; [|discriminate].
    destruct (set_folder folder) as [d|e]; cbn [bind] in *; [|discriminate].
    destruct (set_filename l filename) as [f|e]; cbn [bind] in *; [|discriminate].
    destruct (set_mode mode) as [m|e]; cbn [bind] in *; [|discriminate].
    destruct checkpoint; try discriminate. eauto 8.
  - intros [[f H1] [[m H2] [[d H3] [b ->]]]]. destruct (set_label field label) as [l|e]; cbn [bind] in *; [|discriminate].
    rewrite H3. cbn [bind]. rewrite H1. cbn [bind]. rewrite H2. cbn [bind]. eauto.
Qed.
Print Assumptions C64_accepted_iff.

(** Outside the claim: the density of a trap is by default written over the concentration of trap 1. *)
Theorem C64_density_refuted folder x1 x2 :
  XDMFExport (VStr "1") None VNone (VInt 1) (VBool true) folder = Ok x1 ->
  TrapDensityXDMF None VNone (VInt 1) (VBool true) folder = Ok x2 -> x_path x1 = x_path x2 /\ x_label x1 = x_label x2.
Proof. unfold TrapDensityXDMF. intros H1 H2. rewrite H1 in H2. injection H2 as <-. auto. Qed.
Print Assumptions C64_density_refuted.
(** A field without a name is accepted with a file name; its label cannot be read when it is written. *)
Theorem C64_unnamed_refuted :
  exists x, XDMFExport (VStr "mobile") None (VStr "a.xdmf") (VInt 1) (VBool true) VNone = Ok x /\
    written_name x = Err (AttributeError "'XDMFExport' object has no attribute '_label'").
Proof. eexists. split; reflexivity. Qed.
Print Assumptions C64_unnamed_refuted.
Example C64_example :
  named "12" "trap_12_concentration" /\
  (exists x, XDMFExport (VStr "12") None VNone (VStr "last") (VBool false) (VStr "out") = Ok x /\
    x_path x = "out/trap_12_concentration.xdmf") /\
  (exists x, XDMFExport (VStr "solute") None VNone (VInt 2) (VBool true) (VStr "out") = Ok x) /\
  XDMFExport (VInt 1) None VNone (VInt 1) (VBool true) VNone = Err (AttributeError "object has no attribute 'isdigit'") /\
  exists x, TrapDensityXDMF None VNone (VInt 1) (VBool true) (VStr "out") = Ok x.
Proof.
  split; [apply (N_trap "12"); apply isdigit_iff; reflexivity|]. split; [eexists; split; reflexivity|].
  split; [eexists; reflexivity|]. split; [reflexivity|]. eexists; reflexivity.
Qed.
Print Assumptions C52_filename.
