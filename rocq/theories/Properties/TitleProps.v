(** C66 and C67: the columns of the derived quantities file. *)
From Coq Require Import Reals ZArith List Bool String Ascii Lia Lra.
From Verif Require Import Base.Exc Base.Num Base.Key Base.Dual Model.Exports Model.Laws Model.Forms Model.Quantities Model.Fields Model.Csv
  Spec.ExportSpec Spec.TitleSpec Proofs.KeyProofs Proofs.ExportTrack.
Import ListNotations.
Local Open Scope string_scope.
Local Open Scope list_scope.

(** ** Words *)
Fixpoint words (s : string) : list string :=
  match s with
  | "" => [""]
  | String c r =>
      if Ascii.eqb c " " then "" :: words r
      else match words r with
           | e :: l => String c e :: l
           | [] => []
           end
  end%string.
Lemma words_app a b : without " " a -> words (a ++ String " " b) = a :: words b.
Proof.
  induction a as [|c a IH]; cbn; [reflexivity|]. intros [Hc Ha]. rewrite IH by assumption.
  destruct (Ascii.eqb_spec c " "); [contradiction|reflexivity].
Qed.
Lemma words_one a : without " " a -> words a = [a].
Proof.
  induction a as [|c a IH]; cbn; [reflexivity|]. intros [Hc Ha]. rewrite IH by assumption.
  destruct (Ascii.eqb_spec c " "); [contradiction|reflexivity].
Qed.
Lemma without_uint c d : (nat_of_ascii c < 45)%nat -> without c (DecimalString.NilEmpty.string_of_uint d).
Proof.
  intros Hc. induction d; cbn; try exact I; (split; [|assumption]); intros E; subst c; cbn in Hc; lia.
Qed.
Lemma without_str c z : (nat_of_ascii c < 45)%nat -> without c (str z).
Proof.
  intros Hc. unfold str. destruct (Z.to_int z) as [d|d]; cbn.
  - destruct d; try (apply without_uint; assumption). cbn. split; [|exact I]. intros E; subst c; cbn in Hc; lia.
  - split; [intros E; subst c; cbn in Hc; lia|]. destruct d; try (apply without_uint; assumption). cbn.
    split; [|exact I]. intros E; subst c; cbn in Hc; lia.
Qed.
Lemma str_space z : without " " (str z).
Proof. apply without_str. cbn. lia. Qed.
Lemma str_comma z : without "," (str z).
Proof. apply without_str. cbn. lia. Qed.
Lemma str_nil a : (a ++ "")%string = a.
Proof. induction a as [|c a IH]; cbn; [reflexivity|now rewrite IH]. Qed.
Lemma str_assoc a b c : ((a ++ b) ++ c)%string = (a ++ b ++ c)%string.
Proof. induction a as [|x a IH]; cbn; [reflexivity|now rewrite IH]. Qed.
Lemma app_inj_r (a b c : string) : (a ++ c)%string = (b ++ c)%string -> a = b.
Proof.
  assert (EL : forall x y, String.length (x ++ y)%string = (String.length x + String.length y)%nat).
  { induction x as [|q x IH]; intros y; cbn; [reflexivity|]. now rewrite IH. }
  revert b. induction a as [|x a IH]; intros [|y b] E; cbn in E.
  - reflexivity.
  - apply (f_equal String.length) in E. cbn in E. rewrite EL in E. lia.
  - apply (f_equal String.length) in E. cbn in E. rewrite EL in E. lia.
  - injection E as -> E. f_equal. now apply IH.
Qed.

Section Titles.
Context {P : Type}.
Implicit Types q : dquantity P.

(** The last word of a title, with or without the unit. *)
Lemma last_words z u : exists r, words (str z ++ u) = str z :: r \/ (exists c v, u = String c v /\ c <> " "%char).
Proof.
  destruct u as [|c v]; [exists []; left; rewrite str_nil; apply words_one, str_space|].
  destruct (Ascii.eqb_spec c " ") as [->|Hc]; [exists (words v); left; apply words_app, str_space|exists []; right; eauto].
Qed.

Definition suffix q dim : string := (if d_show q then " (" ++ export_unit (d_kind q) (d_field q) dim ++ ")" else "")%string.
Lemma title_split q dim : title q dim = (quantity_title q ++ suffix q dim)%string.
Proof. unfold title, suffix. destruct (d_show q); [reflexivity|now rewrite str_nil]. Qed.
Lemma suffix_words z q dim : exists r, words (str z ++ suffix q dim) = str z :: r.
Proof.
  destruct (last_words z (suffix q dim)) as [r [H|(c & v & H & Hc)]]; [eauto|].
  unfold suffix in H. destruct (d_show q); [|discriminate]. injection H as <- _. contradiction.
Qed.

(** Two titles with the same words. *)
Lemma title_words q dim : plain_field (d_field q) ->
  match d_kind q with
  | PointValue => exists r, words (title q dim) = str_label (d_field q) :: "value" :: "at" :: r
  | AdsorbedHydrogen => exists r, words (title q dim) = "Adsorbed" :: "H" :: "on" :: "surface" :: str (d_id q) :: r
  | _ =>
    match statistic_of (d_kind q) with
    | Flux => exists r, words (title q dim) =
                (if is_T (d_field q) then "Heat" else str_label (d_field q)) :: "flux" :: "surface" :: str (d_id q) :: r
    | s => exists r, words (title q dim) =
                match s with Average => "Average" | Total => "Total" | Maximum => "Maximum" | _ => "Minimum" end
                :: str_label (d_field q) :: (if on_volume (d_kind q) then "volume" else "surface") :: str (d_id q) :: r
    end
  end.
Proof.
  intros (Hsp & _ & _ & _). fold (str_label (d_field q)) in Hsp. rewrite title_split.
  destruct (suffix_words (d_id q) q dim) as [r Hr]. generalize dependent (suffix q dim). intros u Hr.
  unfold quantity_title. set (f := str_label (d_field q)) in *. set (z := str (d_id q)) in *.
  assert (Hz : without " " z) by apply str_space. clearbody f z.
  assert (HW : forall b, words (f ++ String " " b) = f :: words b) by (intros; now apply words_app).
  destruct (d_kind q); cbn [statistic_of on_volume]; try destruct (is_T (d_field q));
    rewrite !str_assoc; cbn [append words Ascii.eqb Bool.eqb]; rewrite ?HW, ?Hr; cbn [append words Ascii.eqb Bool.eqb];
    rewrite ?Hr; eexists; reflexivity.
Qed.

(** Quantities as the constructors make them. *)
Definition constructed q : Prop := d_field q = class_field (d_kind q) (d_field q).
Definition name_of (s : statistic) : string :=
  match s with Average => "Average" | Total => "Total" | Maximum => "Maximum" | _ => "Minimum" end.
Lemma is_T_str l : is_T l = String.eqb (str_label l) "T".
Proof.
  destruct l as [s|z]; cbn; [reflexivity|]. symmetry. apply String.eqb_neq. apply str_not. reflexivity.
Qed.
Lemma title_cases q dim : plain_field (d_field q) -> constructed q ->
  (exists p r, d_kind q = PointValue /\ subject q = (Point, str_label (d_field q), At p) /\
     quantity_title q = (str_label (d_field q) ++ " value at " ++ p)%string /\
     words (title q dim) = str_label (d_field q) :: "value" :: "at" :: r) \/
  (exists r, subject q = (Adsorbed, "adsorbed", Surface (d_id q)) /\
     words (title q dim) = "Adsorbed" :: "H" :: "on" :: "surface" :: str (d_id q) :: r) \/
  (exists r, subject q = (Flux, str_label (d_field q), Surface (d_id q)) /\
     words (title q dim) = (if String.eqb (str_label (d_field q)) "T" then "Heat" else str_label (d_field q))
                           :: "flux" :: "surface" :: str (d_id q) :: r) \/
  (exists s w r, (s = Average \/ s = Total \/ s = Maximum \/ s = Minimum) /\
     subject q = (s, str_label (d_field q), w) /\
     words (title q dim) = name_of s :: str_label (d_field q) ::
       match w with Volume _ => "volume" | _ => "surface" end :: str (d_id q) :: r /\
     (w = Volume (d_id q) \/ w = Surface (d_id q))).
Proof.
  intros Hp Hc. pose proof (title_words q dim Hp) as H. unfold constructed in Hc. unfold subject.
  rewrite is_T_str in H. fold (str_label (d_field q)). unfold quantity_title. unfold quantity_title in H.
  destruct (d_kind q); cbn [statistic_of on_volume class_field] in *; destruct H as [r H].
  all: try (right; right; left; exists r; split; [reflexivity|exact H]).
  all: try (right; right; right; match goal with |- exists s w r, _ /\ (?s0, _, ?w0) = _ /\ _ => exists s0, w0, r end;
    split; [tauto|]; split; [reflexivity|]; split; [exact H|tauto]).
  all: try (right; left; exists r; rewrite Hc; split; [reflexivity|exact H]).
  left. destruct (d_point q) as [[x p]|]; [exists p, r|exists ""%string, r]; repeat (split; [reflexivity|]); exact H.
Qed.

(** Equal titles are about the same statistic of the same field in the same place. *)
Theorem C66_distinct q1 q2 dim : plain_field (d_field q1) -> plain_field (d_field q2) ->
  constructed q1 -> constructed q2 -> d_show q1 = d_show q2 ->
  title q1 dim = title q2 dim -> subject q1 = subject q2.
Proof.
  intros P1 P2 C1 C2 Hs H. pose proof (f_equal words H) as HW.
  assert (HT : forall f, f <> "flux" -> f <> "Heat" -> (if String.eqb f "T" then "Heat" else f) <> "flux").
  { intros f Hf Hh. destruct (String.eqb f "T"); [discriminate|exact Hf]. }
  pose proof P1 as (_ & _ & F1 & G1). pose proof P2 as (_ & _ & F2 & G2).
  fold (str_label (d_field q1)) in F1, G1. fold (str_label (d_field q2)) in F2, G2.
  destruct (title_cases q1 dim P1 C1) as [(p1 & r1 & K1 & S1 & Q1 & W1)|[(r1 & S1 & W1)|[(r1 & S1 & W1)|(s1 & w1 & r1 & N1 & S1 & W1 & R1)]]];
  destruct (title_cases q2 dim P2 C2) as [(p2 & r2 & K2 & S2 & Q2 & W2)|[(r2 & S2 & W2)|[(r2 & S2 & W2)|(s2 & w2 & r2 & N2 & S2 & W2 & R2)]]];
  rewrite W1, W2 in HW; rewrite S1, S2.
  - injection HW as E _. rewrite !title_split, Q1, Q2 in H. unfold suffix in H.
    rewrite Hs, K1, K2, E in H. unfold export_unit in H. rewrite !is_T_str, E in H. apply app_inj_r in H.
    rewrite E. do 2 f_equal. clear - H. induction (str_label (d_field q2)) as [|c f IH]; cbn in H.
    + now injection H.
    + injection H as H. now apply IH.
  - discriminate HW.
  - discriminate HW.
  - exfalso. injection HW as _ _ E _. destruct R2 as [-> | ->]; discriminate.
  - discriminate HW.
  - injection HW as E _. apply str_inj in E. now rewrite E.
  - exfalso. injection HW as _ E _. discriminate.
  - exfalso. injection HW as _ _ E _. destruct R2 as [-> | ->]; discriminate.
  - discriminate HW.
  - exfalso. injection HW as _ E _. discriminate.
  - injection HW as E Ez _. apply str_inj in Ez. rewrite Ez. do 2 f_equal.
    destruct (String.eqb_spec (str_label (d_field q1)) "T") as [E1|E1], (String.eqb_spec (str_label (d_field q2)) "T") as [E2|E2]; congruence.
  - exfalso. injection HW as _ E _. congruence.
  - exfalso. injection HW as _ _ E _. destruct R1 as [-> | ->]; discriminate.
  - exfalso. injection HW as _ _ E _. destruct R1 as [-> | ->]; discriminate.
  - exfalso. injection HW as _ E _. congruence.
  - injection HW as En Ef Ew Ez _. apply str_inj in Ez. rewrite Ef.
    assert (Hss : s1 = s2) by (destruct N1 as [->|[->|[->| ->]]], N2 as [->|[->|[->| ->]]]; try reflexivity; discriminate En).
    rewrite Hss. f_equal. destruct R1 as [-> | ->], R2 as [-> | ->]; cbn in Ew; try discriminate Ew; now rewrite Ez.
Qed.

(** The title says it in words, and the unit if asked to. *)
Theorem C66_words q dim : exists u,
  title q dim = (sentence (subject q) ++ (if d_show q then " (" ++ u ++ ")" else ""))%string.
Proof.
  exists (export_unit (d_kind q) (d_field q) dim). rewrite title_split. unfold suffix. f_equal.
  unfold quantity_title, subject, sentence. rewrite is_T_str. fold (str_label (d_field q)).
  destruct (d_kind q); cbn [statistic_of on_volume]; try reflexivity; destruct (String.eqb (str_label (d_field q)) "T"); reflexivity.
Qed.

(** Without the units the title says nothing else. *)
Theorem C66_same_subject q1 q2 dim : constructed q1 -> constructed q2 -> d_show q1 = false -> d_show q2 = false ->
  subject q1 = subject q2 -> title q1 dim = title q2 dim.
Proof.
  intros C1 C2 H1 H2 H. unfold title. rewrite H1, H2. unfold subject in H. injection H as Hs Hf Hw.
  unfold quantity_title. rewrite !is_T_str. unfold str_label at 1 2 3 4 5 6 7 8 9 10. 
  fold (str_label (d_field q1)) in Hf. fold (str_label (d_field q2)) in Hf.
  fold (str_label (d_field q1)). fold (str_label (d_field q2)). rewrite Hf.
  destruct (d_kind q1), (d_kind q2); cbn in Hs; try discriminate Hs; cbn in Hw; try discriminate Hw; injection Hw as Hw; rewrite Hw; reflexivity.
Qed.

(** Two columns with the same title hold the same values if the class, the angles and the point agree. *)
Theorem C66_same_values q1 q2 dim M V x : plain_field (d_field q1) -> plain_field (d_field q2) ->
  constructed q1 -> constructed q2 -> d_show q1 = d_show q2 -> title q1 dim = title q2 dim ->
  d_kind q1 = d_kind q2 -> d_azimuth q1 = d_azimuth q2 -> d_polar q1 = d_polar q2 -> d_point q1 = d_point q2 ->
  compute M V x q1 = compute M V x q2.
Proof.
  intros P1 P2 C1 C2 Hs H Hk Ha Hpo Hpt. pose proof (C66_distinct _ _ _ P1 P2 C1 C2 Hs H) as HS.
  unfold subject in HS. injection HS as _ Hf Hw. fold (str_label (d_field q1)) in Hf. fold (str_label (d_field q2)) in Hf.
  assert (Hpr : prop_of x (d_field q1) = prop_of x (d_field q2) /\ is_solute (d_field q1) = is_solute (d_field q2)).
  { assert (Hl : forall l, label_eqb l (LStr "0") || label_eqb l (LInt 0) = String.eqb (str_label l) "0").
    { intros [s|z]; cbn; [apply orb_false_r|]. destruct (Z.eqb_spec z 0) as [->|Hz]; [reflexivity|].
      symmetry. apply String.eqb_neq. intros E. apply Hz. now apply str_inj. }
    assert (Hl2 : forall l s, DecimalString.NilZero.int_of_string s = None -> label_eqb l (LStr s) = String.eqb (str_label l) s).
    { intros [s'|z] s E; cbn; [reflexivity|]. symmetry. apply String.eqb_neq. now apply str_not. }
    split.
    - assert (Hprop : forall l, prop_of x l = if String.eqb (str_label l) "0" then Ok (x_D x) else
        if String.eqb (str_label l) "solute" then Ok (x_D x) else if String.eqb (str_label l) "T" then Ok (x_cond x) else Err (KeyError (str_label l))).
      { intros l. unfold prop_of. rewrite <- Hl, <- !Hl2 by reflexivity.
        destruct (label_eqb l (LStr "0")), (label_eqb l (LStr "solute")), (label_eqb l (LInt 0)), (label_eqb l (LStr "T")); reflexivity. }
      now rewrite !Hprop, Hf.
    - assert (Hsol : forall l, is_solute l = (String.eqb (str_label l) "0" || String.eqb (str_label l) "solute")%bool).
      { intros l. unfold is_solute. rewrite <- Hl, <- Hl2 by reflexivity.
        destruct (label_eqb l (LStr "0")), (label_eqb l (LStr "solute")), (label_eqb l (LInt 0)); reflexivity. }
      now rewrite !Hsol, Hf. }
  destruct Hpr as [Hpr Hso].
  assert (Hid : d_kind q1 <> PointValue -> d_id q1 = d_id q2).
  { intros Hn. rewrite <- Hk in Hw. destruct (d_kind q1); cbn in Hw; try (now injection Hw); contradiction. }
  assert (Han : angle q1 = angle q2) by (unfold angle; now rewrite Hk, Ha, Hpo).
  unfold compute. rewrite <- Hpt, <- Hpr, <- Han. unfold flux_integral. rewrite <- Hso. rewrite <- Hk.
  destruct (d_kind q1); try (rewrite Hid by discriminate; reflexivity). reflexivity.
Qed.
End Titles.

(** ** Field names *)
Definition key_str (k : key) : string := match k with KI z => str z | KS s => s end.
Lemma plain_str z : plain (str z).
Proof. split; [apply str_space|]. split; [apply str_comma|]. split; apply str_not; reflexivity. Qed.
Lemma dict_get_In {V} (d : Key.dict V) k v : dict_get d k = Some v -> exists k', In (k', v) d /\ key_eqb k k' = true.
Proof.
  induction d as [|[k' v'] r IH]; cbn; [discriminate|]. destruct (key_eqb k k') eqn:E.
  - intros [= <-]. exists k'. auto.
  - intros H. destruct (IH H) as (k2 & H1 & H2). exists k2. auto.
Qed.
(** Every field that exists prints as a plain name. *)
Theorem C66_fields {F} (zero : F) add mobile trap ids k v :
  dict_get (label_to_function zero add mobile trap ids) k = Some v -> plain (key_str k).
Proof.
  assert (HG : forall ids i (d : Key.dict F), (forall k v, In (k, v) d -> plain (key_str k)) ->
            forall k v, In (k, v) (label_entries trap i ids d) -> plain (key_str k)).
  { clear. induction ids as [|z r IH]; intros i d Hd k v Hin; [eapply Hd; exact Hin|]. cbn in Hin. eapply IH; [|exact Hin].
    intros k' v' Hk. destruct Hk as [[= <- <-]|Hk]; [apply plain_str|]. apply filter_In in Hk as [Hk _].
    destruct Hk as [[= <- <-]|Hk]; [apply plain_str|]. apply filter_In in Hk as [Hk _]. eapply Hd; exact Hk. }
  intros H. apply dict_get_In in H as (k' & Hin & E). apply key_eqb_eq in E. subst k'. eapply HG; [|exact Hin].
  intros k0 v0 [[= <- <-]|[[= <- <-]|[[= <- <-]|[[= <- <-]|[]]]]]; cbn; repeat split; discriminate.
Qed.

(** ** Commas *)
Lemma without_comma s : without "," s <-> no_comma s.
Proof. induction s as [|c s IH]; cbn; [reflexivity|]. now rewrite IH. Qed.
Lemma without_app c a b : without c a -> without c b -> without c (a ++ b).
Proof. induction a as [|x a IH]; cbn; [auto|]. intros [H1 H2] Hb. auto. Qed.
Lemma without_drop c n : forall s, without c s -> without c (drop n s).
Proof. induction n as [|n IH]; intros [|x s] H; cbn in *; auto. apply IH. apply H. Qed.
Lemma without_replace c s old new : without c s -> without c new -> without c (replace s old new).
Proof.
  intros Hs Hn. unfold replace. revert Hs. generalize (String.length s) at 1. intros n. revert s.
  induction n as [|n IH]; intros [|x s] Hs; cbn [replace_from]; auto.
  destruct (String.prefix old (String x s)).
  - apply without_app; [exact Hn|]. apply IH. apply without_drop. exact Hs.
  - cbn. split; [apply Hs|]. apply IH. apply Hs.
Qed.
Lemma unit_comma k l dim : without "," (export_unit k l dim).
Proof.
  unfold export_unit. destruct k; try destruct (is_T l);
    repeat (apply without_replace); repeat (apply without_app); try apply str_comma; cbn; repeat split; discriminate.
Qed.
(** A title has no comma unless the point of a PointValue is printed with one. *)
Theorem C67_no_comma {P} (q : dquantity P) dim : plain_field (d_field q) ->
  (forall x s, d_kind q = PointValue -> d_point q = Some (x, s) -> no_comma s) -> no_comma (title q dim).
Proof.
  intros (_ & Hf & _) Hp. fold (str_label (d_field q)) in Hf. rewrite <- without_comma.
  assert (HQ : without "," (quantity_title q)).
  { unfold quantity_title. pose proof (str_comma (d_id q)) as Hz.
    destruct (d_kind q); try destruct (is_T (d_field q)); try (destruct (d_point q) as [[x s]|]; [specialize (Hp x s eq_refl eq_refl); rewrite <- without_comma in Hp|]);
      repeat (apply without_app); try assumption; cbn; repeat split; try discriminate; auto. }
  unfold title. destruct (d_show q); [|exact HQ]. repeat (apply without_app); try assumption; try apply unit_comma; cbn; repeat split; discriminate.
Qed.
(** Points in one dimension are printed without a comma, all others (and tuples) with one. *)
Lemma comma_app a b : no_comma (a ++ b) <-> no_comma a /\ no_comma b.
Proof. induction a as [|c a IH]; cbn; [tauto|]. rewrite IH. tauto. Qed.
Theorem C67_points x : (forall s, match x with PNumber t => s = t | PList l | PTuple l => In s l end -> no_comma s) ->
  (no_comma (print_point x) <-> match x with PNumber _ | PList [] | PList [_] | PTuple [] => True | _ => False end).
Proof.
  intros H. destruct x as [t|[|a [|b l]]|[|a [|b l]]]; cbn [print_point join].
  - cbn. rewrite comma_app. specialize (H t eq_refl). cbn. repeat split; auto; discriminate.
  - cbn. repeat split; discriminate.
  - cbn. rewrite comma_app. specialize (H a (or_introl eq_refl)). cbn. repeat split; auto; discriminate.
  - rewrite !comma_app. cbn. tauto.
  - cbn. repeat split; discriminate.
  - rewrite !comma_app. cbn. tauto.
  - rewrite !comma_app. cbn. tauto.
Qed.

(** ** The file *)
Section File.
Context {A V : Type}.
Variable show_t : A -> string.
Variable show_v : V -> string.
Hypothesis show_t_comma : forall t, no_comma (show_t t).
Hypothesis show_v_comma : forall v, no_comma (show_v v).
Lemma entries_join l : l <> [] -> (forall s, In s l -> no_comma s) -> entries (join "," l) = l.
Proof using Type.
  induction l as [|s r IH]; [congruence|]. intros _ H. destruct r as [|s' r].
  - cbn. apply entries_no_comma. apply H. now left.
  - change (join "," (s :: s' :: r)) with (s ++ "," ++ join "," (s' :: r))%string. rewrite entries_app, (entries_no_comma s) by (apply H; now left). rewrite IH; [reflexivity|discriminate|].
    intros x Hx. apply H. now right.
Qed.
(** Reading the lines of the file gives the titles and the rows, with as many fields in each line. *)
Theorem C67_lines titles (rows : list (A * list V)) : titles <> [] -> (forall s, In s titles -> no_comma s) ->
  Forall (fun r => S (List.length (snd r)) = List.length titles) rows ->
  map entries (csv_lines show_t show_v (Header titles :: map mk_row rows)) =
    titles :: map (fun r => show_t (fst r) :: map show_v (snd r)) rows /\
  Forall (fun line => List.length (entries line) = List.length titles) (csv_lines show_t show_v (Header titles :: map mk_row rows)).
Proof using show_t_comma show_v_comma.
  intros Hne Ht Hr.
  assert (E : map entries (csv_lines show_t show_v (Header titles :: map mk_row rows)) =
    titles :: map (fun r => show_t (fst r) :: map show_v (snd r)) rows).
  { unfold csv_lines. cbn [map]. f_equal; [now apply entries_join|]. rewrite !map_map. apply map_ext. intros [t vs]. unfold csv_line, mk_row. cbn [cells fst snd].
    apply entries_join; [discriminate|]. intros s [<-|Hs]; [apply show_t_comma|]. apply in_map_iff in Hs as (v & <- & _). apply show_v_comma. }
  split; [exact E|]. rewrite <- Forall_map with (f := entries) (P := fun l => List.length l = List.length titles). rewrite E.
  constructor; [reflexivity|]. apply Forall_map. eapply Forall_impl; [|exact Hr]. intros [t vs] H. cbn in *. rewrite map_length. exact H.
Qed.
End File.

(** ** Refutations *)
(** A PointValue in two dimensions: the header has one field more than the rows. *)
Definition point_q : dquantity unit := mkDq PointValue (LStr "T") 0 (0, 0)%R (0, 0)%R true (Some (tt, print_point (PList ["0.5"; "0.5"]))).
Theorem C67_point_refuted : forall (show_t show_v : nat -> string),
  (forall n, no_comma (show_t n)) -> (forall n, no_comma (show_v n)) ->
  map (fun l => List.length (entries l)) (csv_lines show_t show_v [Header ["t(s)"; title point_q 2]; Row 1%nat [300%nat]]) = [3; 2]%nat.
Proof.
  intros st sv Ht Hv.
  assert (E : entries (csv_line st sv (Row 1%nat [300%nat])) = [st 1%nat; sv 300%nat]).
  { apply (entries_join [st 1%nat; sv 300%nat]); [discriminate|]. intros s [<-|[<-|[]]]; auto. }
  unfold csv_lines. cbn [map]. rewrite E. reflexivity.
Qed.

(** Two totals over different angles have the same title but not the same value. *)
Definition half_q (a : R) : dquantity unit := mkDq TotalVolumeCylindrical (LStr "solute") 1 (0, a)%R (0, 0)%R true None.
Definition ring : mesh unit := mkMesh [tt] [] (fun _ => 1%R) (fun _ => 1%Z) (fun _ => 0%Z) (fun _ => 1%R) 1 Cylindrical.
Definition ring_x : context unit :=
  mkCtx (fun _ => dconst 1) (fun _ => 1%R) (fun _ => 1%R) (fun _ => 0%R) (fun _ => dconst 300) (fun _ _ => 0%R) false.
Theorem C66_angles_refuted : exists q1 q2 v1 v2,
  make_quantity TotalVolumeCylindrical (LStr "solute") (IdInt 1) None None = Ok q1 /\
  make_quantity TotalVolumeCylindrical (LStr "solute") (IdInt 1) (Some (0, PI)%R) None = Ok q2 /\
  (forall dim, title q1 dim = title q2 dim) /\
  compute ring (mkFe [] [] [] []) ring_x q1 = Ok v1 /\ compute ring (mkFe [] [] [] []) ring_x q2 = Ok v2 /\ v1 <> v2.
Proof.
  exists (half_q (2 * PI)), (half_q PI), (2 * PI)%R, PI. pose proof PI_RGT_0 as HP.
  assert (HR : forall a, (0 <= a <= 2 * PI)%R -> set_range (0, 2 * PI)%R (0, a)%R = Ok (0, a)%R).
  { intros a Ha. unfold set_range. cbn [fst snd]. destruct (Rlt_dec 0 0) as [H|H]; [lra|]. destruct (Rgt_dec a (2 * PI)) as [H'|H']; [lra|reflexivity]. }
  split; [unfold make_quantity; cbn [set_id bind range_arg azimuth_bounds polar_bounds is_volume]; rewrite HR by lra; reflexivity|].
  split; [unfold make_quantity; cbn [set_id bind range_arg azimuth_bounds polar_bounds is_volume]; rewrite HR by lra; reflexivity|].
  split; [reflexivity|].
  assert (HC : forall a, compute ring (mkFe [] [] [] []) ring_x (half_q a) = Ok a).
  { intros a. unfold compute. cbn [half_q d_kind d_id]. f_equal. unfold integral, points, angle, ring, ring_x, one_r_r2.
    cbn. ring. }
  split; [apply HC|]. split; [apply HC|]. lra.
Qed.

(** ** Example *)
Definition flux_q (z : Z) : dquantity unit := mkDq SurfaceFlux (LStr "solute") z (0, 0)%R (0, 0)%R true None.
Definition mean_q : dquantity unit := mkDq AverageVolume (LInt 1) 2 (0, 0)%R (0, 0)%R true None.
Example C66_example :
  plain_field (d_field (flux_q 1)) /\ plain_field (d_field mean_q) /\ constructed (flux_q 1) /\ constructed mean_q /\
  title (flux_q 1) 1 = "solute flux surface 1 (H m-2 s-1)" /\ title mean_q 1 = "Average 1 volume 2 (H m-3)" /\
  subject (flux_q 1) <> subject (flux_q 2) /\ subject mean_q = (Average, "1", Volume 2) /\
  no_comma (print_point (PNumber "0.5")) /\
  map entries (csv_lines (fun _ => "0") (fun _ => "7") [Header ["t(s)"; title (flux_q 1) 1; title mean_q 1]; Row tt [tt; tt]]) =
    [["t(s)"; "solute flux surface 1 (H m-2 s-1)"; "Average 1 volume 2 (H m-3)"]; ["0"; "7"; "7"]].
Proof.
  split; [cbn; repeat split; discriminate|]. split; [apply plain_str|]. split; [reflexivity|]. split; [reflexivity|].
  split; [reflexivity|]. split; [reflexivity|]. split; [discriminate|]. split; [reflexivity|].
  split; [cbn; repeat split; discriminate|reflexivity].
Qed.

Print Assumptions C66_distinct.
Print Assumptions C66_words.
Print Assumptions C66_same_subject.
Print Assumptions C66_same_values.
Print Assumptions C66_fields.
Print Assumptions C67_no_comma.
Print Assumptions C67_points.
Print Assumptions C67_lines.
Print Assumptions C67_point_refuted.
Print Assumptions C66_angles_refuted.
