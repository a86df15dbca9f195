(** Proofs for C93: a text has at most one reading as an expression of C. *)
From Coq Require Import ZArith List Bool String Ascii Reals Lia DecimalString DecimalPos DecimalN DecimalZ DecimalFacts.
From Verif Require Import Base.Key Model.SympyAst Spec.CcodeSpec Proofs.CcodeProofs.
Import ListNotations.
Local Open Scope string_scope.
Local Notation length := String.length.

(** ** Separators outside parentheses.  [P]: a separator begins here. *)
Fixpoint ok (P : string -> bool) (d : nat) (s : string) : bool :=
  match s with
  | "" => Nat.eqb d 0
  | String c r =>
      if Ascii.eqb c "(" then ok P (S d) r
      else if Ascii.eqb c ")" then match d with O => false | S d => ok P d r end
      else if (Nat.eqb d 0 && P s)%bool then false
      else ok P d r
  end.
Definition local (P : string -> bool) : Prop := forall c s r, P (String c s) = false -> P (String c s ++ r) = false.
Definition starts (P : string -> bool) (r : string) : Prop :=
  r = "" \/ P r = true /\ match r with String "(" _ | String ")" _ | "" => False | _ => True end.

Lemma ok_app P d a b : local P -> ok P d a = true -> ok P 0 b = true -> ok P d (a ++ b) = true.
Proof.
  intros HP. revert d. induction a as [|c a IH]; intros d Ha Hb; cbn [append].
  - cbn in Ha. apply Nat.eqb_eq in Ha. now subst d.
  - cbn [ok] in *. destruct (Ascii.eqb c "("); [now apply IH|].
    destruct (Ascii.eqb c ")"); [destruct d; [discriminate|now apply IH]|].
    destruct (Nat.eqb d 0); cbn [andb] in *; [|now apply IH].
    destruct (P (String c a)) eqn:E; [discriminate|].
    pose proof (HP c a b E) as E'. cbn [append] in E'. rewrite E'. now apply IH.
Qed.
Lemma ok_split P d : local P -> forall a a' r r', ok P d a = true -> ok P d a' = true -> starts P r -> starts P r' ->
  a ++ r = a' ++ r' -> a = a' /\ r = r'.
Proof.
  intros HP. revert d.
  assert (Hnil : forall c a' r r', ok P 0 (String c a') = true -> starts P r -> r = String c a' ++ r' -> False).
  { intros c a' r r' Ha' [Hr|[Hr Hc]] E; subst r; [discriminate|]. cbn [append] in Hc.
    cbn [ok] in Ha'. destruct (Ascii.eqb c "(") eqn:E1; [apply Ascii.eqb_eq in E1; subst c; exact Hc|].
    destruct (Ascii.eqb c ")") eqn:E2; [discriminate|]. cbn [Nat.eqb andb] in Ha'.
    destruct (P (String c a')) eqn:E; [discriminate|]. rewrite (HP _ _ _ E) in Hr. discriminate. }
  intros d a. revert d. induction a as [|c a IH]; intros d a' r r' Ha Ha' Hr Hr' E.
  - cbn in Ha. apply Nat.eqb_eq in Ha. subst d. destruct a' as [|c a']; [now split|].
    exfalso. exact (Hnil _ _ _ _ Ha' Hr E).
  - destruct a' as [|c' a'].
    + cbn in Ha'. apply Nat.eqb_eq in Ha'. subst d. exfalso. exact (Hnil _ _ _ _ Ha Hr' (eq_sym E)).
    + cbn [append] in E. injection E as <- E. cbn [ok] in Ha, Ha'.
      assert (G : exists d', ok P d' a = true /\ ok P d' a' = true).
      { destruct (Ascii.eqb c "("); [now exists (S d)|].
        destruct (Ascii.eqb c ")"); [destruct d; [discriminate|now exists d]|]. exists d.
        destruct (Nat.eqb d 0); cbn [andb] in Ha, Ha'; [|now split].
        destruct (P (String c a)); [discriminate|]. destruct (P (String c a')); [discriminate|now split]. }
      destruct G as (d' & G & G'). destruct (IH d' a' r r' G G' Hr Hr' E) as [-> ->]. now split.
Qed.
Definition none : string -> bool := fun _ => false.
Lemma ok_inside P d s r : ok none d s = true -> ok P (S d) (s ++ r) = ok P 1 r.
Proof.
  revert d. induction s as [|c s IH]; intros d H; cbn [append].
  - cbn in H. apply Nat.eqb_eq in H. now subst d.
  - cbn [ok] in *. destruct (Ascii.eqb c "("); [now apply IH|].
    destruct (Ascii.eqb c ")"); [destruct d; [discriminate|now apply IH]|].
    unfold none in H at 1. rewrite andb_false_r in H. cbn [Nat.eqb andb]. now apply IH.
Qed.

(** ** The separators of each level: one character, or the one after a space *)
Definition one (q : ascii -> bool) (s : string) : bool := match s with String c _ => q c | "" => false end.
Definition two (q : ascii -> bool) (s : string) : bool :=
  match s with
  | String c r => if Ascii.eqb c " " then match r with String c' _ => q c' | "" => true end else false
  | "" => false
  end.
Definition is_in (l : list ascii) (c : ascii) : bool := existsb (Ascii.eqb c) l.
Lemma local_one q : local (one q).
Proof. intros c s r H. exact H. Qed.
Lemma local_two q : local (two q).
Proof.
  intros c s r H. cbn [two append] in *. destruct (Ascii.eqb c " "); [|reflexivity]. destruct s; [discriminate|exact H].
Qed.
Definition pat (k : nat) : string -> bool :=
  match k with
  | 2 => one (is_in ["*"; "/"]%char)
  | 3 => two (is_in ["+"; "-"]%char)
  | 4 => two (is_in ["<"; ">"]%char)
  | 5 => two (is_in ["="; "!"]%char)
  | 6 => two (is_in ["&"]%char)
  | 7 => two (is_in ["|"]%char)
  | 8 => two (is_in ["?"; ":"]%char)
  | 9 => one (is_in [","]%char)
  | _ => none
  end.
Lemma local_pat k : local (pat k).
Proof. do 10 (destruct k as [|k]; [first [apply local_one|apply local_two|now intros ? ? ? ?]|]). now intros ? ? ? ?. Qed.
Definition rank (l : level) : nat :=
  match l with
  | Postfix => 0 | Unary => 1 | Mult => 2 | Additive => 3 | Relational => 4 | Equality => 5 | And => 6 | Or => 7 | Cond => 8
  end.
Definition clean (l : level) (s : string) : Prop := forall k, (rank l < k)%nat -> ok (pat k) 0 s = true.

(** ** Atoms *)
Definition plain (c : ascii) : bool :=
  (letter c || (if digit c then true else false) || is_in ["."; "+"; "-"; "["; "]"]%char c)%bool.
Fixpoint plains (s : string) : bool := match s with "" => true | String c r => (plain c && plains r)%bool end.
Lemma plain_pat c s k : plain c = true -> pat k (String c s) = false /\ Ascii.eqb c "(" = false /\ Ascii.eqb c ")" = false.
Proof.
  destruct c as [[] [] [] [] [] [] [] []]; intros H; try discriminate H;
    (split; [|split; reflexivity]); do 10 (destruct k as [|k]; [reflexivity|]); reflexivity.
Qed.
Lemma plains_ok s k : plains s = true -> ok (pat k) 0 s = true.
Proof.
  induction s as [|c s IH]; [reflexivity|]. cbn [plains ok]. intros H. apply andb_prop in H as [H1 H2].
  destruct (plain_pat c s k H1) as (-> & -> & ->). cbn. now apply IH.
Qed.
Lemma plains_app a b : plains a = true -> plains b = true -> plains (a ++ b) = true.
Proof. intros Ha Hb. induction a as [|c a IH]; [exact Hb|]. cbn in *. apply andb_prop in Ha as [-> Ha]. now apply IH. Qed.
Lemma digit_plain c z : digit c = Some z -> plain c = true.
Proof. unfold plain. intros ->. now rewrite orb_true_r. Qed.
Lemma letter_plain c : letter c = true -> plain c = true.
Proof. unfold plain. now intros ->. Qed.
(** digits only *)
Fixpoint digits (s : string) : bool :=
  match s with "" => true | String c r => ((if digit c then true else false) && digits r)%bool end.
Lemma digits_plains s : digits s = true -> plains s = true.
Proof.
  induction s as [|c s IH]; [reflexivity|]. cbn [digits plains]. destruct (digit c) eqn:E; [|discriminate].
  rewrite (digit_plain _ _ E). exact IH.
Qed.
Lemma uint_digits u : digits (NilEmpty.string_of_uint u) = true.
Proof. induction u; [reflexivity|..]; exact IHu. Qed.
Lemma str_digits z : (0 <= z)%Z -> digits (str z) = true /\ str z <> "".
Proof.
  intros H. destruct z as [|p|p]; [now split| |lia]. destruct (str_not_minus (Zpos p) H) as [_ Hn].
  split; [|exact Hn]. destruct (str_pos p) as [-> _]. apply uint_digits.
Qed.
Lemma exponent_plains s : forall neg acc r, read_exponent neg acc s = Some r -> plains s = true.
Proof.
  induction s as [|c s IH]; [reflexivity|]. cbn [read_exponent plains]. intros neg acc r H.
  destruct (digit c) eqn:E; [|discriminate]. rewrite (digit_plain _ _ E). exact (IH _ _ _ H).
Qed.
Lemma fraction_plains s : forall acc n r, read_fraction acc n s = Some r -> plains s = true.
Proof.
  induction s as [|c s IH]; [reflexivity|]. cbn [read_fraction]. intros acc n r H.
  destruct (digit c) eqn:E; [cbn [plains]; rewrite (digit_plain _ _ E); exact (IH _ _ _ H)|].
  destruct (Ascii.eqb c "e") eqn:Ec; [|discriminate]. apply Ascii.eqb_eq in Ec. subst c. cbn [plains].
  change (plain "e") with true. cbn [andb].
  destruct s as [|c s]; [discriminate|].
  assert (G : (exists neg, read_exponent neg 0 s <> None /\ plain c = true) \/ read_exponent false 0 (String c s) <> None).
  { destruct c as [[] [] [] [] [] [] [] []];
      try (right; intros E'; cbn beta iota in H; rewrite E' in H; discriminate H);
      (left; destruct s as [|c s];
        [exfalso; cbn in H; discriminate H
        |first [exists true; split; [intros E'; cbn beta iota in H; rewrite E' in H; discriminate H|reflexivity]
               |exists false; split; [intros E'; cbn beta iota in H; rewrite E' in H; discriminate H|reflexivity]]]). }
  destruct G as [(neg & G & Hc)|G].
  - cbn [plains]. rewrite Hc. destruct (read_exponent neg 0 s) eqn:E'; [|congruence]. exact (exponent_plains _ _ _ _ E').
  - destruct (read_exponent false 0 (String c s)) eqn:E'; [|congruence]. exact (exponent_plains _ _ _ _ E').
Qed.
Lemma units_plains s : forall acc r, read_units acc s = Some r -> plains s = true /\ digits s = false.
Proof.
  induction s as [|c s IH]; [discriminate|]. cbn [read_units plains digits]. intros acc r H. destruct (digit c) eqn:E.
  - rewrite (digit_plain _ _ E). exact (IH _ _ H).
  - destruct (Ascii.eqb c ".") eqn:Ec; [|discriminate]. apply Ascii.eqb_eq in Ec. subst c.
    split; [exact (fraction_plains _ _ _ _ H)|reflexivity].
Qed.
Lemma decimal_plains s r : decimal s = Some r -> plains s = true /\ digits s = false.
Proof.
  destruct s as [|c s]; [discriminate|]. cbn [decimal plains digits]. destruct (digit c) eqn:E; [|discriminate].
  rewrite (digit_plain _ _ E). apply units_plains.
Qed.
Lemma word_end_plains s : word_end s = true -> plains s = true.
Proof.
  induction s as [|c s IH]; [reflexivity|]. cbn [word_end plains]. intros H. apply andb_prop in H as [H1 H2].
  unfold plain. rewrite H1. exact (IH H2).
Qed.
Lemma word_plains s : word s = true -> plains s = true.
Proof.
  destruct s as [|c s]; [discriminate|]. cbn [word plains]. intros H. apply andb_prop in H as [H1 H2].
  rewrite (letter_plain _ H1). now apply word_end_plains.
Qed.
Lemma name_plains s : name s -> plains s = true /\ exists c r, s = String c r /\ letter c = true.
Proof.
  assert (G : forall a, word a = true -> exists c r, a = String c r /\ letter c = true).
  { intros [|c a] H; [discriminate|]. exists c, a. split; [reflexivity|]. cbn in H. now apply andb_prop in H as [H _]. }
  intros [H|(a & k & H & ->)].
  - split; [now apply word_plains|now apply G].
  - split; [|destruct (G a H) as (c & r & -> & Hc); now exists c, (r ++ "[" ++ str (Z.of_N k) ++ "]")].
    apply plains_app; [now apply word_plains|]. apply (plains_app "["); [reflexivity|].
    apply plains_app; [|reflexivity]. apply digits_plains. now destruct (str_digits (Z.of_N k) (N2Z.is_nonneg k)).
Qed.
Lemma letter_digit c : letter c = true -> digit c = None.
Proof. destruct c as [[] [] [] [] [] [] [] []]; intros H; try discriminate H; reflexivity. Qed.

(** ** What begins an expression *)
Definition opens (c : ascii) : bool := (letter c || (if digit c then true else false) || is_in ["("; "-"]%char c)%bool.
Definition opening (s : string) : Prop := match s with String c _ => opens c = true | "" => False end.
Lemma opening_app a b : opening a -> opening (a ++ b).
Proof. destruct a; [easy|]. exact (fun H => H). Qed.
Lemma digits_opening s : digits s = true -> s <> "" -> opening s.
Proof.
  destruct s as [|c s]; [congruence|]. cbn. intros H _. apply andb_prop in H as [H _]. unfold opens. rewrite H. now rewrite orb_true_r.
Qed.
Lemma decimal_opening s r : decimal s = Some r -> opening s.
Proof.
  destruct s as [|c s]; [discriminate|]. cbn. unfold opens. destruct (digit c); [|discriminate]. now rewrite orb_true_r.
Qed.
Lemma letter_opening c s : letter c = true -> opening (String c s).
Proof. intros H. cbn. unfold opens. now rewrite H. Qed.

Scheme parses_mut := Induction for parses Sort Prop
  with args_mut := Induction for parses_args Sort Prop.

Section Grammar.
Variable w : world.


(** A separator between two parts is clean for the looser levels. *)
Lemma opens_pat c s k : opens c = true -> (4 <= k)%nat -> pat k (String " " (String c s)) = false.
Proof.
  intros H Hk. destruct k as [|[|[|[|k]]]]; [lia..|].
  destruct c as [[] [] [] [] [] [] [] []]; try discriminate H;
    do 6 (destruct k as [|k]; [reflexivity|]); reflexivity.
Qed.
Lemma ok_space b k : opening b -> (4 <= k)%nat -> ok (pat k) 0 b = true -> ok (pat k) 0 (" " ++ b) = true.
Proof.
  intros Hb Hk H. destruct b as [|c b]; [easy|]. change (" " ++ String c b) with (String " " (String c b)).
  cbn [ok]. cbn [Ascii.eqb Bool.eqb]. cbn [Nat.eqb andb]. rewrite (opens_pat c b k Hb Hk). exact H.
Qed.
(** one character of an operator after a space *)
Definition opchar (c : ascii) : bool := is_in ["+"; "-"; "<"; ">"; "="; "!"; "&"; "|"; "?"; ":"]%char c.
Lemma ok_opchar c s k : opchar c = true -> ok (pat k) 0 s = true -> ok (pat k) 0 (String c s) = true.
Proof.
  intros Hc H. destruct c as [[] [] [] [] [] [] [] []]; try discriminate Hc;
    cbn [ok]; cbn [Ascii.eqb Bool.eqb]; (replace (pat k _) with false; [exact H|]);
    do 10 (destruct k as [|k]; [reflexivity|]); reflexivity.
Qed.

Lemma ok_sep1 c a b k : local (pat k) -> is_in ["*"; "/"]%char c = true -> (3 <= k)%nat ->
  ok (pat k) 0 a = true -> ok (pat k) 0 b = true -> ok (pat k) 0 (a ++ String c b) = true.
Proof.
  intros HL Hc Hk Ha Hb. apply ok_app; [exact HL|exact Ha|].
  destruct k as [|[|[|k]]]; [lia..|].
  destruct c as [[] [] [] [] [] [] [] []]; try discriminate Hc;
    cbn [ok]; cbn [Ascii.eqb Bool.eqb]; (replace (pat _ _) with false; [exact Hb|]);
    do 7 (destruct k as [|k]; [reflexivity|]); reflexivity.
Qed.
(** " op " : the pattern does not see the first character of op *)
Lemma ok_sep o op a b k : ok (pat k) 0 a = true -> ok (pat k) 0 b = true -> opening b -> (4 <= k)%nat ->
  pat k (String " " (String o "")) = false -> opchar o = true ->
  (op = "" \/ exists o', opchar o' = true /\ op = String o' "") ->
  ok (pat k) 0 (a ++ String " " (String o (op ++ String " " b))) = true.
Proof.
  intros Ha Hb Hop Hk Hp Ho Hop'. apply ok_app; [apply local_pat|exact Ha|].
  assert (E : ok (pat k) 0 (String o (op ++ String " " b)) = true).
  { apply ok_opchar; [exact Ho|]. destruct Hop' as [->|(o' & Ho' & ->)].
    - now apply (ok_space b).
    - cbn [append]. apply ok_opchar; [exact Ho'|]. now apply (ok_space b). }
  cbn [ok]. cbn [Ascii.eqb Bool.eqb]. cbn [Nat.eqb andb].
  change (String " " (String o (op ++ String " " b))) with (String " " (String o "") ++ (op ++ String " " b)).
  rewrite (local_pat k _ _ _ Hp). exact E.
Qed.
Lemma ok_none_pat k s : ok (pat 10) 0 s = true -> (9 < k)%nat -> ok (pat k) 0 s = true.
Proof. intros H Hk. do 10 (destruct k as [|k]; [lia|]). exact H. Qed.
Lemma ok_paren k s : ok none 0 s = true -> ok (pat k) 0 ("(" ++ s ++ ")") = true.
Proof.
  intros H. change ("(" ++ s ++ ")") with (String "(" (s ++ ")")). cbn [ok]. cbn [Ascii.eqb Bool.eqb].
  rewrite (ok_inside (pat k) 0 s ")" H). reflexivity.
Qed.
Lemma relop_cases op : relop op = true -> op = "<" \/ op = "<=" \/ op = ">" \/ op = ">=".
Proof. unfold relop. rewrite !orb_true_iff, !String.eqb_eq. tauto. Qed.
Lemma eqop_cases op : eqop op = true -> op = "==" \/ op = "!=".
Proof. unfold eqop. rewrite !orb_true_iff, !String.eqb_eq. tauto. Qed.

Lemma clean_all :
  (forall l s c, parses w l s c -> opening s /\ clean l s) /\
  (forall s l, parses_args w s l -> ok none 0 s = true).
Proof.
  assert (G : forall l s c (H : parses w l s c), opening s /\ clean l s).
  { apply (parses_mut w (fun l s c _ => opening s /\ clean l s) (fun s l _ => ok none 0 s = true)).
    - intros z Hz. destruct (str_digits z Hz) as [H1 H2]. split; [now apply digits_opening|].
      intros k _. apply plains_ok. now apply digits_plains.
    - intros s r H. split; [now apply (decimal_opening s r)|]. intros k _. apply plains_ok. now destruct (decimal_plains s r H).
    - intros s H. destruct (name_plains s H) as (H1 & c & r & -> & Hc). split; [now apply letter_opening|].
      intros k _. now apply plains_ok.
    - intros n s l Hn _ IH. split.
      + apply opening_app. destruct n as [|c n]; [discriminate|]. cbn in Hn. apply andb_prop in Hn as [Hn _]. now apply letter_opening.
      + intros k _. apply ok_app; [apply local_pat|apply plains_ok; now apply word_plains|]. now apply ok_paren.
    - intros s c _ [_ IH]. split; [reflexivity|]. intros k _. apply ok_paren. apply (IH 10). cbn. lia.
    - intros s c _ [_ IH] _. split; [reflexivity|]. intros k Hk.
      change ("-" ++ s) with (String "-" s). apply ok_opchar; [reflexivity|]. now apply IH.
    - intros a b x y _ [Ia Ca] _ [_ Cb]. split; [now apply opening_app|]. intros k Hk. cbn in Hk.
      apply (ok_sep1 "*"); [apply local_pat|reflexivity|lia|now apply Ca|apply Cb; cbn; lia].
    - intros a b x y _ [Ia Ca] _ [_ Cb]. split; [now apply opening_app|]. intros k Hk. cbn in Hk.
      apply (ok_sep1 "/"); [apply local_pat|reflexivity|lia|now apply Ca|apply Cb; cbn; lia].
    - intros a b x y _ [Ia Ca] _ [Ib Cb]. split; [now apply opening_app|]. intros k Hk. cbn in Hk.
      apply (ok_sep "+" ""); [now apply Ca|apply Cb; cbn; lia|exact Ib|lia| |reflexivity|now left].
      do 4 (destruct k as [|k]; [lia|]). do 6 (destruct k as [|k]; [reflexivity|]). reflexivity.
    - intros a b x y _ [Ia Ca] _ [Ib Cb]. split; [now apply opening_app|]. intros k Hk. cbn in Hk.
      apply (ok_sep "-" ""); [now apply Ca|apply Cb; cbn; lia|exact Ib|lia| |reflexivity|now left].
      do 4 (destruct k as [|k]; [lia|]). do 6 (destruct k as [|k]; [reflexivity|]). reflexivity.
    - intros op a b x y Ho _ [Ia Ca] _ [Ib Cb]. split; [now apply opening_app|]. intros k Hk. cbn in Hk.
      assert (Hp : forall o, o = "<"%char \/ o = ">"%char -> pat k (String " " (String o "")) = false).
      { intros o Hoo. do 5 (destruct k as [|k]; [lia|]). destruct Hoo as [-> | ->]; do 5 (destruct k as [|k]; [reflexivity|]); reflexivity. }
      destruct (relop_cases op Ho) as [-> |[-> |[-> | ->]]];
        (eapply ok_sep; [now apply Ca|apply Cb; cbn; lia|exact Ib|lia|apply Hp; tauto|reflexivity|]).
      + now left. + right. now exists "="%char. + now left. + right. now exists "="%char.
    - intros op a b x y Ho _ [Ia Ca] _ [Ib Cb]. split; [now apply opening_app|]. intros k Hk. cbn in Hk.
      assert (Hp : forall o, o = "="%char \/ o = "!"%char -> pat k (String " " (String o "")) = false).
      { intros o Hoo. do 6 (destruct k as [|k]; [lia|]). destruct Hoo as [-> | ->]; do 4 (destruct k as [|k]; [reflexivity|]); reflexivity. }
      destruct (eqop_cases op Ho) as [-> | ->];
        (eapply ok_sep; [now apply Ca|apply Cb; cbn; lia|exact Ib|lia|apply Hp; tauto|reflexivity|]);
        right; now exists "="%char.
    - intros a b x y _ [Ia Ca] _ [Ib Cb]. split; [now apply opening_app|]. intros k Hk. cbn in Hk.
      apply (ok_sep "&" "&"); [now apply Ca|apply Cb; cbn; lia|exact Ib|lia| |reflexivity|right; now exists "&"%char].
      do 7 (destruct k as [|k]; [lia|]). do 3 (destruct k as [|k]; [reflexivity|]). reflexivity.
    - intros a b x y _ [Ia Ca] _ [Ib Cb]. split; [now apply opening_app|]. intros k Hk. cbn in Hk.
      apply (ok_sep "|" "|"); [now apply Ca|apply Cb; cbn; lia|exact Ib|lia| |reflexivity|right; now exists "|"%char].
      do 8 (destruct k as [|k]; [lia|]). do 2 (destruct k as [|k]; [reflexivity|]). reflexivity.
    - intros c a b x y z _ [Ic Cc] _ [Ia Ca] _ [Ib Cb]. split; [now apply opening_app|]. intros k Hk. cbn in Hk.
      assert (Hp : forall o, o = "?"%char \/ o = ":"%char -> pat k (String " " (String o "")) = false).
      { intros o Hoo. do 9 (destruct k as [|k]; [lia|]). destruct Hoo as [-> | ->]; do 1 (destruct k as [|k]; [reflexivity|]); reflexivity. }
      apply (ok_sep "?" ""); [apply Cc; cbn; lia| |now apply opening_app|lia|apply Hp; tauto|reflexivity|now left].
      apply (ok_sep ":" ""); [now apply Ca|now apply Cb|exact Ib|lia|apply Hp; tauto|reflexivity|now left].
    - intros l s c _ [I C]. split; [exact I|]. intros k Hk. apply C. destruct l; cbn in *; lia.
    - reflexivity.
    - intros s c _ [_ C]. apply (C 10). cbn. lia.
    - intros s r c d l _ [_ C] _ IH. apply ok_app; [exact (local_pat 10)|apply (C 10); cbn; lia|exact IH]. }
  split; [exact G|].
  intros s l H. induction H as [|s c H|s r c d l H H' IH]; [reflexivity| |].
  - apply (proj2 (G _ _ _ H) 10). cbn. lia.
  - apply ok_app; [exact (local_pat 10)|apply (proj2 (G _ _ _ H) 10); cbn; lia|exact IH].
Qed.
Lemma parses_opening l s c : parses w l s c -> opening s.
Proof. intros H. exact (proj1 (proj1 clean_all _ _ _ H)). Qed.
Lemma parses_clean l s c k : parses w l s c -> (rank l < k)%nat -> ok (pat k) 0 s = true.
Proof. intros H. exact (proj2 (proj1 clean_all _ _ _ H) k). Qed.

(** ** One level: operands and operators from the left *)
Section Chain.
Variables (lo : level) (k : nat) (step : string -> (cval -> cval -> cval) -> Prop).
Hypothesis lower : (rank lo < k)%nat.
Hypothesis step_starts : forall sep f u, step sep f -> starts (pat k) (sep ++ u) /\ sep <> "".
Hypothesis step_one : forall sep f sep' f' u u', step sep f -> step sep' f' -> opening u -> opening u' ->
  sep ++ u = sep' ++ u' -> sep = sep' /\ f = f'.
Inductive tail (x : cval) : string -> cval -> Prop :=
| t_nil : tail x "" x
| t_cons sep f b y r c : step sep f -> parses w lo b y -> tail (f x y) r c -> tail x (sep ++ b ++ r) c.
Lemma tail_snoc x r c sep f b y : tail x r c -> step sep f -> parses w lo b y -> tail x (r ++ sep ++ b) (f c y).
Proof.
  intros H Hs Hb. induction H as [x|x sep' f' b' y' r c Hs' Hb' H IH].
  - cbn [append]. replace b with (b ++ "") by apply app_nil_s. eapply t_cons; [exact Hs|exact Hb|constructor].
  - rewrite !app_assoc_s. eapply t_cons; [exact Hs'|exact Hb'|exact IH].
Qed.
Lemma tail_starts x r c : tail x r c -> starts (pat k) r.
Proof. intros [|]; [now left|]. eapply step_starts; eassumption. Qed.
Lemma length_app a b : length (a ++ b) = (length a + length b)%nat.
Proof. induction a; [reflexivity|]. cbn. now rewrite IHa. Qed.
Lemma tail_one n (IH : forall s c c', (length s <= n)%nat -> parses w lo s c -> parses w lo s c' -> c = c') :
  forall x r c c', (length r <= n)%nat -> tail x r c -> tail x r c' -> c = c'.
Proof.
  intros x r c c' Hn H. revert c' Hn. induction H as [x|x sep f b y r c Hs Hb H IHt]; intros c' Hn H'.
  - inversion H' as [|sep f b y r c Hs Hb Ht E]; [reflexivity|]. subst.
    destruct (step_starts _ _ "" Hs) as [_ Hne]. destruct sep; [congruence|discriminate].
  - inversion H' as [E|sep' f' b' y' r' c0 Hs' Hb' Ht E Ec]; subst.
    + destruct (step_starts _ _ "" Hs) as [_ Hne]. destruct sep; [congruence|discriminate].
    + destruct (step_one sep f sep' f' (b ++ r) (b' ++ r') Hs Hs') as [<- <-].
      * apply opening_app. eapply parses_opening; exact Hb.
      * apply opening_app. eapply parses_opening; exact Hb'.
      * now symmetry.
      * assert (Eb : b ++ r = b' ++ r').
        { clear - E. induction sep as [|a sep IHs]; [now symmetry|]. cbn in E. injection E as E. now apply IHs. }
        destruct (ok_split (pat k) 0 (local_pat k) b b' r r') as [<- <-].
        -- eapply parses_clean; [exact Hb|exact lower].
        -- eapply parses_clean; [exact Hb'|exact lower].
        -- eapply tail_starts; exact H.
        -- eapply tail_starts; exact Ht.
        -- exact Eb.
        -- rewrite !length_app in Hn. rewrite (IH b y' y) in Ht; [|lia|exact Hb'|exact Hb]. apply IHt; [lia|exact Ht].
Qed.
Definition chained (s : string) (c : cval) : Prop := exists a x r, parses w lo a x /\ s = a ++ r /\ tail x r c.
Lemma chained_snoc s c sep f b y : chained s c -> step sep f -> parses w lo b y -> chained (s ++ sep ++ b) (f c y).
Proof.
  intros (a & x & r & Ha & -> & H) Hs Hb. exists a, x, (r ++ sep ++ b). split; [exact Ha|].
  split; [now rewrite app_assoc_s|]. now apply tail_snoc.
Qed.
Lemma chained_base s c : parses w lo s c -> chained s c.
Proof. intros H. exists s, c, "". split; [exact H|]. split; [now rewrite app_nil_s|constructor]. Qed.
Lemma chained_one n (IH : forall s c c', (length s <= n)%nat -> parses w lo s c -> parses w lo s c' -> c = c') s c c' :
  (length s <= n)%nat -> chained s c -> chained s c' -> c = c'.
Proof.
  intros Hn (a & x & r & Ha & -> & H) (a' & x' & r' & Ha' & E & H').
  destruct (ok_split (pat k) 0 (local_pat k) a a' r r') as [<- <-].
  - eapply parses_clean; [exact Ha|exact lower].
  - eapply parses_clean; [exact Ha'|exact lower].
  - eapply tail_starts; exact H.
  - eapply tail_starts; exact H'.
  - exact E.
  - rewrite length_app in Hn. rewrite (IH a x' x) in H'; [|lia|exact Ha'|exact Ha]. eapply (tail_one n IH); [|exact H|exact H']. lia.
Qed.
End Chain.

(** The operators of each level *)
Definition step_mult (sep : string) (f : cval -> cval -> cval) : Prop :=
  sep = "*" /\ f = arith Z.mul Rmult \/ sep = "/" /\ f = arith Z.quot Rdiv.
Definition step_add (sep : string) (f : cval -> cval -> cval) : Prop :=
  sep = " + " /\ f = arith Z.add Rplus \/ sep = " - " /\ f = arith Z.sub Rminus.
Definition step_rel (sep : string) (f : cval -> cval -> cval) : Prop :=
  exists op, relop op = true /\ sep = " " ++ op ++ " " /\ f = fun x y => cbool (relation op (real x) (real y)).
Definition step_eq (sep : string) (f : cval -> cval -> cval) : Prop :=
  exists op, eqop op = true /\ sep = " " ++ op ++ " " /\ f = fun x y => cbool (relation op (real x) (real y)).
Definition step_and (sep : string) (f : cval -> cval -> cval) : Prop :=
  sep = " && " /\ f = fun x y => cbool (nonzero x && nonzero y).
Definition step_or (sep : string) (f : cval -> cval -> cval) : Prop :=
  sep = " || " /\ f = fun x y => cbool (nonzero x || nonzero y).

Lemma to_chain l s c : parses w l s c ->
  match l with
  | Mult => chained Unary step_mult s c
  | Additive => chained Mult step_add s c
  | Relational => chained Additive step_rel s c
  | Equality => chained Relational step_eq s c
  | And => chained Equality step_and s c
  | Or => chained And step_or s c
  | _ => True
  end.
Proof.
  intros H. induction H as [| | | | | |a b x y Ha IHa Hb IHb|a b x y Ha IHa Hb IHb|a b x y Ha IHa Hb IHb|a b x y Ha IHa Hb IHb
    |op a b x y Ho Ha IHa Hb IHb|op a b x y Ho Ha IHa Hb IHb|a b x y Ha IHa Hb IHb|a b x y Ha IHa Hb IHb| |l s c H IH]; try exact I.
  - apply chained_snoc with (f := arith Z.mul Rmult); [exact IHa|now left|exact Hb].
  - apply chained_snoc with (f := arith Z.quot Rdiv); [exact IHa|now right|exact Hb].
  - apply chained_snoc with (f := arith Z.add Rplus); [exact IHa|now left|exact Hb].
  - apply chained_snoc with (f := arith Z.sub Rminus); [exact IHa|now right|exact Hb].
  - replace (a ++ " " ++ op ++ " " ++ b) with (a ++ (" " ++ op ++ " ") ++ b) by (cbn [append]; now rewrite app_assoc_s).
    apply (chained_snoc Additive step_rel a x _ (fun x y => cbool (relation op (real x) (real y)))); [exact IHa|now exists op|exact Hb].
  - replace (a ++ " " ++ op ++ " " ++ b) with (a ++ (" " ++ op ++ " ") ++ b) by (cbn [append]; now rewrite app_assoc_s).
    apply (chained_snoc Relational step_eq a x _ (fun x y => cbool (relation op (real x) (real y)))); [exact IHa|now exists op|exact Hb].
  - apply (chained_snoc Equality step_and a x _ (fun x y => cbool (nonzero x && nonzero y))); [exact IHa|now split|exact Hb].
  - apply (chained_snoc And step_or a x _ (fun x y => cbool (nonzero x || nonzero y))); [exact IHa|now split|exact Hb].
  - destruct l; cbn [above]; try exact I; now apply chained_base.
Qed.

Lemma inv_postfix s c : parses w Postfix s c ->
  (exists z, (0 <= z)%Z /\ s = str z /\ c = CI z) \/
  (exists r, decimal s = Some r /\ c = CD r) \/
  (name s /\ c = CD (w_name w s)) \/
  (exists n a l, word n = true /\ parses_args w a l /\ s = n ++ "(" ++ a ++ ")" /\ c = CD (w_fun w n (map real l))) \/
  (exists a, parses w Cond a c /\ s = "(" ++ a ++ ")").
Proof.
  intros H. remember Postfix as l eqn:El. destruct H; try discriminate El.
  - left. now exists z.
  - right. left. now exists r.
  - right. right. left. now split.
  - right. right. right. left. now exists n, s, l.
  - right. right. right. right. now exists s.
  - destruct l; discriminate El.
Qed.
Lemma inv_unary s c : parses w Unary s c ->
  parses w Postfix s c \/
  (exists a x, parses w Unary a x /\ s = "-" ++ a /\ c = match x with CI z => CI (- z) | CD r => CD (- r) end).
Proof.
  intros H. remember Unary as l eqn:El. destruct H; try discriminate El.
  - right. now exists s, c.
  - left. destruct l; try discriminate El. exact H.
Qed.
Lemma inv_cond s c : parses w Cond s c ->
  parses w Or s c \/
  (exists q a b x y z, parses w Or q z /\ parses w Cond a x /\ parses w Cond b y /\
    s = q ++ " ? " ++ a ++ " : " ++ b /\ c = choose (nonzero z) x y).
Proof.
  intros H. remember Cond as l eqn:El. induction H; try discriminate El.
  - right. now exists c, a, b, x, y, z.
  - destruct l; try discriminate El; [now left|]. now apply IHparses.
Qed.
Lemma app_inv_head a b b' : a ++ b = a ++ b' -> b = b'.
Proof. induction a as [|c a IH]; [exact (fun H => H)|]. cbn. intros H. injection H as H. now apply IH. Qed.
Lemma app_inv_tail1 : forall a a' c, a ++ String c "" = a' ++ String c "" -> a = a'.
Proof.
  induction a as [|x a IH]; intros [|x' a'] c H; cbn in H.
  - reflexivity.
  - injection H as -> H. destruct a'; discriminate.
  - injection H as -> H. destruct a; discriminate.
  - injection H as -> H. f_equal. exact (IH _ _ H).
Qed.
(** a word before a parenthesis *)
Lemma plains_paren a a' r r' : plains a = true -> plains a' = true -> a ++ String "(" r = a' ++ String "(" r' -> a = a' /\ r = r'.
Proof.
  revert a'. induction a as [|c a IH]; intros [|c' a'] Ha Ha' E; cbn in *.
  - now injection E as ->.
  - injection E as <- E. discriminate.
  - injection E as -> E. discriminate.
  - injection E as <- E. apply andb_prop in Ha as [_ Ha]. apply andb_prop in Ha' as [_ Ha'].
    destruct (IH a' Ha Ha' E) as [-> ->]. now split.
Qed.
Lemma plains_no_paren a b r : plains a = true -> a = b ++ String "(" r -> False.
Proof.
  revert a. induction b as [|c b IH]; intros [|c' a] Ha E; cbn in *; try discriminate.
  - injection E as -> E. discriminate.
  - injection E as -> E. apply andb_prop in Ha as [_ Ha]. exact (IH a Ha E).
Qed.
Lemma str_inj z z' : (0 <= z)%Z -> (0 <= z')%Z -> str z = str z' -> z = z'.
Proof.
  intros Hz Hz' E. pose proof (str_decimal z Hz) as H. rewrite E, (str_decimal z' Hz') in H. injection H as H. now apply eq_IZR.
Qed.

(** Where a conditional expression ends *)
Definition colon (r : string) : Prop := r = "" \/ exists u, r = " : " ++ u.
Lemma colon_starts r : colon r -> starts (pat 8) r.
Proof. intros [-> |[u ->]]; [now left|]. right. now split. Qed.
Lemma cond_split n : forall a a' r r' c c', (length a <= n)%nat -> parses w Cond a c -> parses w Cond a' c' ->
  colon r -> colon r' -> a ++ r = a' ++ r' -> a = a' /\ r = r'.
Proof.
  induction n as [|n IH]; intros a a' r r' c c' Hn H H' Hr Hr' E.
  { pose proof (parses_opening _ _ _ H) as Ho. destruct a; [easy|cbn in Hn; lia]. }
  destruct (inv_cond a c H) as [Ho|(q & x & y & ? & ? & ? & Hq & Hx & Hy & -> & ->)];
    destruct (inv_cond a' c' H') as [Ho'|(q' & x' & y' & ? & ? & ? & Hq' & Hx' & Hy' & -> & ->)].
  - apply (ok_split (pat 8) 0 (local_pat 8)); [eapply parses_clean; [exact Ho|cbn; lia]|eapply parses_clean; [exact Ho'|cbn; lia]|
      now apply colon_starts|now apply colon_starts|exact E].
  - exfalso. rewrite !app_assoc_s in E.
    destruct (ok_split (pat 8) 0 (local_pat 8) a q' r (" ? " ++ x' ++ (" : " ++ y') ++ r')) as [_ E'];
      [eapply parses_clean; [exact Ho|cbn; lia]|eapply parses_clean; [exact Hq'|cbn; lia]|now apply colon_starts|right; now split
      |rewrite E; now rewrite !app_assoc_s|].
    destruct Hr as [-> |[u ->]]; discriminate E'.
  - exfalso. rewrite !app_assoc_s in E.
    destruct (ok_split (pat 8) 0 (local_pat 8) q a' (" ? " ++ x ++ (" : " ++ y) ++ r) r') as [_ E'];
      [eapply parses_clean; [exact Hq|cbn; lia]|eapply parses_clean; [exact Ho'|cbn; lia]|right; now split|now apply colon_starts
      |rewrite <- E; now rewrite !app_assoc_s|].
    destruct Hr' as [-> |[u ->]]; discriminate E'.
  - rewrite !app_assoc_s in E.
    destruct (ok_split (pat 8) 0 (local_pat 8) q q' (" ? " ++ x ++ " : " ++ y ++ r) (" ? " ++ x' ++ " : " ++ y' ++ r')) as [<- E'];
      [eapply parses_clean; [exact Hq|cbn; lia]|eapply parses_clean; [exact Hq'|cbn; lia]|right; now split|right; now split|exact E|].
    apply (app_inv_head " ? ") in E'. rewrite !length_app in Hn. cbn [length] in Hn.
    destruct (IH x x' (" : " ++ y ++ r) (" : " ++ y' ++ r') _ _ ltac:(lia) Hx Hx' (or_intror (ex_intro _ _ eq_refl)) (or_intror (ex_intro _ _ eq_refl)) E') as [<- E2].
    apply (app_inv_head " : ") in E2.
    destruct (IH y y' r r' _ _ ltac:(lia) Hy Hy' Hr Hr' E2) as [<- <-]. now split.
Qed.

Lemma args_one n (IH : forall s c c', (length s <= n)%nat -> parses w Cond s c -> parses w Cond s c' -> c = c') :
  forall s l, parses_args w s l -> forall l', (length s <= n)%nat -> parses_args w s l' -> l = l'.
Proof.
  assert (Hc : forall s r c, parses w Cond s c -> starts (pat 9) (", " ++ r)) by (intros; right; now split).
  intros s l H. induction H as [|s c H|s r c d l H H' IHa]; intros l' Hn G.
  - inversion G as [|s' c' G1 E|s' r' c' d' l0 G1 G2 E]; [reflexivity|subst|].
    + now pose proof (parses_opening _ _ _ G1).
    + destruct s'; discriminate.
  - inversion G as [E|s' c' G1 E|s' r' c' d' l0 G1 G2 E]; subst.
    + now pose proof (parses_opening _ _ _ H).
    + f_equal. now apply (IH s).
    + exfalso. destruct (ok_split (pat 9) 0 (local_pat 9) (s' ++ ", " ++ r') s' "" (", " ++ r')) as [_ E'];
        [eapply parses_clean; [exact H|cbn; lia]|eapply parses_clean; [exact G1|cbn; lia]|now left|now apply (Hc _ _ _ G1)|apply app_nil_s|].
      discriminate.
  - inversion G as [E|s' c' G1 E|s' r' c' d' l0 G1 G2 E]; subst.
    + destruct s; discriminate.
    + exfalso. destruct (ok_split (pat 9) 0 (local_pat 9) (s ++ ", " ++ r) s "" (", " ++ r)) as [_ E'];
        [eapply parses_clean; [exact G1|cbn; lia]|eapply parses_clean; [exact H|cbn; lia]|now left|now apply (Hc _ _ _ H)|apply app_nil_s|].
      discriminate.
    + destruct (ok_split (pat 9) 0 (local_pat 9) s' s (", " ++ r') (", " ++ r)) as [-> E'];
        [eapply parses_clean; [exact G1|cbn; lia]|eapply parses_clean; [exact H|cbn; lia]|now apply (Hc _ _ _ G1)|now apply (Hc _ _ _ H)|exact E|].
      apply (app_inv_head ", ") in E'. subst r'. rewrite length_app in Hn. cbn [append length] in Hn.
      f_equal; [apply (IH s); [lia|exact H|exact G1]|]. apply IHa; [lia|exact G2].
Qed.

Theorem parses_one : forall n l s c c', (length s <= n)%nat -> parses w l s c -> parses w l s c' -> c = c'.
Proof.
  induction n as [|n IH]; intros l s c c' Hn H H'.
  { pose proof (parses_opening _ _ _ H) as Ho. destruct s; [easy|cbn in Hn; lia]. }
  assert (Dp : forall s c c', (length s <= S n)%nat -> parses w Postfix s c -> parses w Postfix s c' -> c = c').
  { clear l s c c' Hn H H'. intros s c c' Hn H H'.
    destruct (inv_postfix s c H) as [(z & Hz & E & ->)|[(r & E & ->)|[[E ->]|[(f & a & l & Hf & Ha & E & ->)|(a & Ha & E)]]]];
    destruct (inv_postfix s c' H') as [(z' & Hz' & E' & ->)|[(r' & E' & ->)|[[E' ->]|[(f' & a' & l' & Hf' & Ha' & E' & ->)|(a' & Ha' & E')]]]].
    - f_equal. apply str_inj; congruence.
    - exfalso. destruct (decimal_plains s r' E') as [_ G]. subst s. destruct (str_digits z Hz) as [G' _]. congruence.
    - exfalso. destruct (name_plains s E') as (_ & x & u & Es & Hx). destruct (str_digits z Hz) as [G' _]. rewrite <- E, Es in G'.
      cbn in G'. rewrite (letter_digit x Hx) in G'. discriminate.
    - exfalso. destruct (str_digits z Hz) as [G' _]. apply digits_plains in G'. rewrite <- E, E' in G'.
      exact (plains_no_paren _ f' (a' ++ ")") G' eq_refl).
    - exfalso. destruct (str_digits z Hz) as [G' _]. rewrite <- E, E' in G'. discriminate.
    - exfalso. destruct (decimal_plains s r E) as [_ G]. subst s. destruct (str_digits z' Hz') as [G' _]. congruence.
    - congruence.
    - exfalso. destruct (name_plains s E') as (_ & x & u & -> & Hx). cbn in E. rewrite (letter_digit x Hx) in E. discriminate.
    - exfalso. destruct (decimal_plains s r E) as [G _]. exact (plains_no_paren s f' (a' ++ ")") G E').
    - exfalso. destruct (decimal_plains s r E) as [G _]. exact (plains_no_paren s "" (a' ++ ")") G E').
    - exfalso. destruct (name_plains s E) as (_ & x & u & Es & Hx). destruct (str_digits z' Hz') as [G' _]. rewrite <- E', Es in G'.
      cbn in G'. rewrite (letter_digit x Hx) in G'. discriminate.
    - exfalso. destruct (name_plains s E) as (_ & x & u & -> & Hx). cbn in E'. rewrite (letter_digit x Hx) in E'. discriminate.
    - reflexivity.
    - exfalso. destruct (name_plains s E) as (G & _). exact (plains_no_paren s f' (a' ++ ")") G E').
    - exfalso. destruct (name_plains s E) as (G & _). exact (plains_no_paren s "" (a' ++ ")") G E').
    - exfalso. destruct (str_digits z' Hz') as [G' _]. apply digits_plains in G'. rewrite <- E', E in G'.
      exact (plains_no_paren _ f (a ++ ")") G' eq_refl).
    - exfalso. destruct (decimal_plains s r' E') as [G _]. exact (plains_no_paren s f (a ++ ")") G E).
    - exfalso. destruct (name_plains s E') as (G & _). exact (plains_no_paren s f (a ++ ")") G E).
    - subst s. destruct (plains_paren f f' (a ++ ")") (a' ++ ")") (word_plains _ Hf) (word_plains _ Hf') E') as [<- E2].
      apply app_inv_tail1 in E2. subst a'. do 2 f_equal. f_equal. 
      apply (args_one n (fun s c c' => IH Cond s c c') a l Ha l'); [|exact Ha'].
      rewrite !length_app in Hn. cbn in Hn. lia.
    - exfalso. subst s. destruct f as [|x f]; [discriminate|]. cbn in E'. injection E' as -> _. discriminate Hf.
    - exfalso. destruct (str_digits z' Hz') as [G' _]. rewrite <- E', E in G'. discriminate.
    - exfalso. destruct (decimal_plains s r' E') as [G _]. exact (plains_no_paren s "" (a ++ ")") G E).
    - exfalso. destruct (name_plains s E') as (G & _). exact (plains_no_paren s "" (a ++ ")") G E).
    - exfalso. subst s. destruct f' as [|x f']; [discriminate|]. cbn in E'. injection E' as <- _. discriminate Hf'.
    - subst s. cbn in E'. injection E' as E2. apply app_inv_tail1 in E2. subst a'.
      apply (IH Cond a); [|exact Ha|exact Ha']. cbn in Hn. rewrite length_app in Hn. lia. }
  assert (Du : forall s c c', (length s <= S n)%nat -> parses w Unary s c -> parses w Unary s c' -> c = c').
  { clear l s c c' Hn H H'. intros s c c' Hn H H'.
    assert (Hm : forall a c, parses w Postfix ("-" ++ a) c -> False).
    { intros a x G. destruct (inv_postfix _ _ G) as [(z & Hz & E & _)|[(r & E & _)|[[E _]|[(f & b & l & Hf & Ha & E & _)|(b & Ha & E)]]]].
      - destruct (str_digits z Hz) as [G' _]. rewrite <- E in G'. discriminate.
      - discriminate E.
      - destruct (name_plains _ E) as (_ & y & u & Es & Hx). injection Es as <- _. discriminate Hx.
      - destruct f as [|y f]; [discriminate|]. cbn in E. injection E as <- _. discriminate Hf.
      - discriminate E. }
    destruct (inv_unary s c H) as [G|(a & x & Ha & E & ->)]; destruct (inv_unary s c' H') as [G'|(a' & x' & Ha' & E' & ->)].
    - now apply (Dp s).
    - subst s. now apply Hm in G.
    - subst s. now apply Hm in G'.
    - subst s. injection E' as <-. rewrite (IH Unary a x x'); [reflexivity|cbn in Hn; lia|exact Ha|exact Ha']. }
  assert (Dm : forall s c c', (length s <= S n)%nat -> parses w Mult s c -> parses w Mult s c' -> c = c').
  { intros s0 x y Hl G G'. apply (chained_one Unary 2 step_mult ltac:(cbn; lia)) with (n := S n) (s := s0);
      [| |exact Du|exact Hl|exact (to_chain _ _ _ G)|exact (to_chain _ _ _ G')].
    - intros sep f u [[-> _]|[-> _]]; (split; [right; now split|discriminate]).
    - intros sep f sep' f' u u' [[-> ->]|[-> ->]] [[-> ->]|[-> ->]] _ _ E; try discriminate E; now split. }
  assert (Da : forall s c c', (length s <= S n)%nat -> parses w Additive s c -> parses w Additive s c' -> c = c').
  { intros s0 x y Hl G G'. apply (chained_one Mult 3 step_add ltac:(cbn; lia)) with (n := S n) (s := s0);
      [| |exact Dm|exact Hl|exact (to_chain _ _ _ G)|exact (to_chain _ _ _ G')].
    - intros sep f u [[-> _]|[-> _]]; (split; [right; now split|discriminate]).
    - intros sep f sep' f' u u' [[-> ->]|[-> ->]] [[-> ->]|[-> ->]] _ _ E; try discriminate E; now split. }
  assert (Dr : forall s c c', (length s <= S n)%nat -> parses w Relational s c -> parses w Relational s c' -> c = c').
  { intros s0 x y Hl G G'. apply (chained_one Additive 4 step_rel ltac:(cbn; lia)) with (n := S n) (s := s0);
      [| |exact Da|exact Hl|exact (to_chain _ _ _ G)|exact (to_chain _ _ _ G')].
    - intros sep f u (op & Ho & -> & ->). split; [|discriminate].
      destruct (relop_cases op Ho) as [-> |[-> |[-> | ->]]]; right; now split.
    - intros sep f sep' f' u u' (op & Ho & -> & ->) (op' & Ho' & -> & ->) _ _ E.
      destruct (relop_cases op Ho) as [-> |[-> |[-> | ->]]]; destruct (relop_cases op' Ho') as [-> |[-> |[-> | ->]]];
        try discriminate E; now split. }
  assert (De : forall s c c', (length s <= S n)%nat -> parses w Equality s c -> parses w Equality s c' -> c = c').
  { intros s0 x y Hl G G'. apply (chained_one Relational 5 step_eq ltac:(cbn; lia)) with (n := S n) (s := s0);
      [| |exact Dr|exact Hl|exact (to_chain _ _ _ G)|exact (to_chain _ _ _ G')].
    - intros sep f u (op & Ho & -> & ->). split; [|discriminate].
      destruct (eqop_cases op Ho) as [-> | ->]; right; now split.
    - intros sep f sep' f' u u' (op & Ho & -> & ->) (op' & Ho' & -> & ->) _ _ E.
      destruct (eqop_cases op Ho) as [-> | ->]; destruct (eqop_cases op' Ho') as [-> | ->]; try discriminate E; now split. }
  assert (Dn : forall s c c', (length s <= S n)%nat -> parses w And s c -> parses w And s c' -> c = c').
  { intros s0 x y Hl G G'. apply (chained_one Equality 6 step_and ltac:(cbn; lia)) with (n := S n) (s := s0);
      [| |exact De|exact Hl|exact (to_chain _ _ _ G)|exact (to_chain _ _ _ G')].
    - intros sep f u [-> _]. split; [right; now split|discriminate].
    - intros sep f sep' f' u u' [-> ->] [-> ->] _ _ E. now split. }
  assert (Do : forall s c c', (length s <= S n)%nat -> parses w Or s c -> parses w Or s c' -> c = c').
  { intros s0 x y Hl G G'. apply (chained_one And 7 step_or ltac:(cbn; lia)) with (n := S n) (s := s0);
      [| |exact Dn|exact Hl|exact (to_chain _ _ _ G)|exact (to_chain _ _ _ G')].
    - intros sep f u [-> _]. split; [right; now split|discriminate].
    - intros sep f sep' f' u u' [-> ->] [-> ->] _ _ E. now split. }
  destruct l; [now apply (Dp s)|now apply (Du s)|now apply (Dm s)|now apply (Da s)|now apply (Dr s)|now apply (De s)
    |now apply (Dn s)|now apply (Do s)|].
  destruct (inv_cond s c H) as [G|(q & a & b & x & y & z & Hq & Ha & Hb & E & ->)];
    destruct (inv_cond s c' H') as [G'|(q' & a' & b' & x' & y' & z' & Hq' & Ha' & Hb' & E' & ->)].
  - now apply (Do s).
  - exfalso. destruct (ok_split (pat 8) 0 (local_pat 8) s q' "" (" ? " ++ a' ++ " : " ++ b')) as [_ E2];
      [eapply parses_clean; [exact G|cbn; lia]|eapply parses_clean; [exact Hq'|cbn; lia]|now left|right; now split|now rewrite app_nil_s|].
    discriminate.
  - exfalso. destruct (ok_split (pat 8) 0 (local_pat 8) s q "" (" ? " ++ a ++ " : " ++ b)) as [_ E2];
      [eapply parses_clean; [exact G'|cbn; lia]|eapply parses_clean; [exact Hq|cbn; lia]|now left|right; now split|now rewrite app_nil_s|].
    discriminate.
  - subst s. destruct (ok_split (pat 8) 0 (local_pat 8) q q' (" ? " ++ a ++ " : " ++ b) (" ? " ++ a' ++ " : " ++ b')) as [<- E2];
      [eapply parses_clean; [exact Hq|cbn; lia]|eapply parses_clean; [exact Hq'|cbn; lia]|right; now split|right; now split|exact E'|].
    apply (app_inv_head " ? ") in E2.
    destruct (cond_split (length a) a a' (" : " ++ b) (" : " ++ b') _ _ (le_n _) Ha Ha' (or_intror (ex_intro _ _ eq_refl)) (or_intror (ex_intro _ _ eq_refl)) E2) as [<- E3].
    apply (app_inv_head " : ") in E3. subst b'. rewrite !length_app in Hn. cbn [length] in Hn.
    rewrite (IH Or q z z'), (IH Cond a x x'), (IH Cond b y y'); [reflexivity|lia|exact Hb|exact Hb'|lia|exact Ha|exact Ha'|lia|exact Hq|exact Hq'].
Qed.
End Grammar.
