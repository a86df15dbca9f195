(** Lemmas about printed expressions. *)
From Coq Require Import ZArith List Bool String Ascii Lia DecimalString DecimalZ.
From Verif Require Import Base.Key Model.SympyAst Spec.SympySpec.
Import ListNotations.
Local Open Scope string_scope.

Lemma contains_app a b : contains_t (a ++ b) = (contains_t a || contains_t b)%bool.
Proof.
  induction a as [|c r IH]; [reflexivity|]. cbn [append contains_t]. destruct (Ascii.eqb c "t"); [reflexivity|exact IH].
Qed.
Lemma contains_spec s : contains_t s = true <-> has_letter s.
Proof.
  split.
  - induction s as [|c r IH]; [discriminate|]. cbn [contains_t]. destruct (Ascii.eqb_spec c "t") as [->|_].
    + intros _. exists "", r. reflexivity.
    + intros H. destruct (IH H) as (a & b & ->). exists (String c a), b. reflexivity.
  - intros (a & b & ->). rewrite !contains_app. cbn. apply orb_true_r.
Qed.
Lemma join_cons sep a b r : join sep (a :: b :: r) = a ++ sep ++ join sep (b :: r).
Proof. reflexivity. Qed.
Lemma contains_join sep l x : In x l -> contains_t x = true -> contains_t (join sep l) = true.
Proof.
  induction l as [|a r IH]; [easy|]. intros [->|Hx] H; destruct r as [|b r].
  - assumption.
  - now rewrite join_cons, contains_app, H.
  - easy.
  - rewrite join_cons, !contains_app. rewrite IH by assumption. now rewrite !orb_true_r.
Qed.
Lemma join_none sep l : contains_t sep = false -> (forall x, In x l -> contains_t x = false) -> contains_t (join sep l) = false.
Proof.
  intros Hs. induction l as [|a r IH]; intros H; [reflexivity|]. destruct r as [|b r].
  - apply H. now left.
  - rewrite join_cons, !contains_app, Hs, (H a) by now left. cbn [orb]. apply IH. intros x Hx. apply H. now right.
Qed.
Lemma contains_paren e s n : contains_t (parenthesize e s n) = contains_t s.
Proof. unfold parenthesize. destruct (Nat.leb _ _); [|reflexivity]. cbn. rewrite contains_app. cbn. apply orb_false_r. Qed.

(** ** Digits *)
Lemma uint_none d : contains_t (NilEmpty.string_of_uint d) = false.
Proof. induction d; cbn; try reflexivity; assumption. Qed.
Lemma uint_none0 d : contains_t (NilZero.string_of_uint d) = false.
Proof. destruct d; try reflexivity; apply uint_none. Qed.
Lemma str_none z : contains_t (str z) = false.
Proof. unfold str. destruct (Z.to_int z) as [d|d]; cbn; apply uint_none0. Qed.
Lemma rational_none p q : contains_t (rational p q) = false.
Proof. unfold rational. rewrite !contains_app, !str_none. reflexivity. Qed.

(** ** Printing of composed expressions *)
Lemma pow_base b pb e x : contains_t b = true -> contains_t pb = true -> contains_t (print_pow b pb e x) = true.
Proof.
  intros H1 H2. unfold print_pow. 
  assert (Hp : contains_t ("pow(" ++ b ++ ", " ++ x ++ ")") = true) by now rewrite !contains_app, H1.
  assert (Hs : contains_t ("sqrt(" ++ b ++ ")") = true) by reflexivity.
  assert (Hc : contains_t ("cbrt(" ++ b ++ ")") = true) by reflexivity.
  assert (Hi : contains_t ("1.0/" ++ pb) = true) by now rewrite contains_app, H2.
  destruct e as [z|p q|n d| | | | | | | |]; try assumption.
  - destruct z as [| |p]; try assumption. destruct p; assumption.
  - destruct p as [|p|p]; try assumption. destruct p; try assumption. destruct q as [q|q|]; try assumption; destruct q; assumption.
  - destruct n; try assumption.
    repeat (match goal with |- context [match ?s with EmptyString => _ | _ => _ end] => destruct s; try assumption
                          | |- context [match ?c with Ascii _ _ _ _ _ _ _ _ => _ end] => destruct c; try assumption
                          | |- context [if ?b then _ else _] => destruct b; try assumption end).
Qed.
Lemma pow_exponent b pb e x : contains_t x = true -> contains_t (ccode e) = true -> (forall d n, e <> EFloat d n) ->
  contains_t (print_pow b pb e x) = true.
Proof.
  intros H1 H2 Hf.
  assert (Hp : contains_t ("pow(" ++ b ++ ", " ++ x ++ ")") = true) by (rewrite !contains_app, H1; now rewrite !orb_true_r).
  destruct e as [z|p q|n d| | | | | | | |]; try assumption.
  - cbn [ccode] in H2. now rewrite str_none in H2.
  - cbn [ccode] in H2. now rewrite rational_none in H2.
  - now elim (Hf n d).
Qed.
Lemma sum_term l t : In t l -> contains_t (snd t) = true -> contains_t (print_sum l) = true.
Proof.
  intros Ht Hc. unfold print_sum.
  assert (H : exists s x, In (s, x) (map term_text l) /\ contains_t x = true).
  { exists (fst (term_text t)), (snd (term_text t)). split; [rewrite <- surjective_pairing; now apply in_map|].
    destruct t as [[add prec] text]. cbn [snd] in Hc. unfold term_text.
    destruct (match text with String "-" r => if add then ("+", text) else ("-", r) | _ => ("+", text) end) as [s x] eqn:E.
    assert (Hx : contains_t x = true).
    { destruct text as [|c r]; [discriminate|]. revert E.
      assert (H0 : ("+", String c r) = (s, x) -> contains_t x = true) by (intros [= <- <-]; exact Hc).
      repeat (match goal with |- context [match ?c with Ascii _ _ _ _ _ _ _ _ => _ end] => destruct c
                          | |- context [if ?b then _ else _] => destruct b end; try exact H0).
      intros [= <- <-]. exact Hc. }
    cbn [snd]. destruct (_ || add)%bool; [|exact Hx]. rewrite !contains_app, Hx. apply orb_true_r. }
  destruct H as (s & x & Hin & Hx). destruct (map term_text l) as [|[s0 x0] r]; [easy|].
  rewrite contains_app. apply orb_true_iff. right. apply (contains_join " " _ x); [|assumption].
  destruct Hin as [[= <- <-]|Hin]; [now left|]. right. apply in_flat_map. exists (s, x). cbn. auto.
Qed.
Lemma sum_none l : (forall t, In t l -> contains_t (snd t) = false) -> contains_t (print_sum l) = false.
Proof.
  intros H. unfold print_sum.
  assert (Hl : forall p, In p (map term_text l) -> contains_t (fst p) = false /\ contains_t (snd p) = false).
  { intros p Hp. apply in_map_iff in Hp as (t & <- & Ht). specialize (H t Ht). destruct t as [[add prec] text].
    cbn [snd] in H. unfold term_text.
    destruct (match text with String "-" r => if add then ("+", text) else ("-", r) | _ => ("+", text) end) as [s x] eqn:E.
    assert (Hx : contains_t s = false /\ contains_t x = false).
    { destruct text as [|c r]; [injection E as <- <-; auto|]. revert E.
      assert (H0 : ("+", String c r) = (s, x) -> contains_t s = false /\ contains_t x = false) by (intros [= <- <-]; auto).
      repeat (match goal with |- context [match ?c with Ascii _ _ _ _ _ _ _ _ => _ end] => destruct c
                          | |- context [if ?b then _ else _] => destruct b end; try exact H0).
      intros [= <- <-]. cbn in H. auto. }
    cbn [fst snd]. split; [apply Hx|]. destruct (_ || add)%bool; [|apply Hx]. rewrite !contains_app, (proj2 Hx). reflexivity. }
  destruct (map term_text l) as [|[s0 x0] r]; [reflexivity|].
  rewrite contains_app. apply orb_false_iff. split; [destruct (String.eqb s0 "+"); [reflexivity|apply (Hl (s0, x0)); now left]|].
  apply join_none; [reflexivity|]. intros x [<-|Hx]; [apply (Hl (s0, x0)); now left|].
  apply in_flat_map in Hx as (p & Hp & Hx). destruct (Hl p (or_intror Hp)) as [H1 H2].
  destruct Hx as [<-|[<-|[]]]; assumption.
Qed.
Lemma mul_factor l f : In f l -> match f with Numer t | Denom t => contains_t t = true | Minus _ => False end ->
  contains_t (print_mul l) = true.
Proof.
  intros Hf Ht. unfold print_mul. rewrite !contains_app.
  destruct f as [t|t|o]; [| |easy].
  - assert (Hn : In t (numerator l)).
    { clear Ht. induction l as [|g r IH]; [easy|]. destruct Hf as [->|Hf]; [now left|].
      destruct g as [u|u|[u|]]; cbn [numerator]; auto; right; auto. }
    destruct (numerator l) as [|a r]; [easy|]. rewrite (contains_join "*" _ t Hn Ht). cbn [orb]. apply orb_true_r.
  - assert (Hn : In t (denominator l)).
    { clear Ht. induction l as [|g r IH]; [easy|]. destruct Hf as [->|Hf]; [now left|].
      destruct g as [u|u|o]; cbn [denominator]; auto; right; auto. }
    apply orb_true_iff. right. apply orb_true_iff. right.
    destruct (denominator l) as [|a [|b r]]; [easy|..].
    + destruct Hn as [->|[]]. rewrite contains_app, Ht. apply orb_true_r.
    + rewrite !contains_app, (contains_join "*" _ t Hn Ht). apply orb_true_r.
Qed.
Lemma mul_none l : (forall f, In f l -> match f with Numer t | Denom t | Minus (Some t) => contains_t t = false | Minus None => True end) ->
  contains_t (print_mul l) = false.
Proof.
  intros H. unfold print_mul. rewrite !contains_app.
  assert (Hn : forall x, In x (numerator l) -> contains_t x = false).
  { clear - H. induction l as [|g r IH]; [easy|]. specialize (IH (fun f Hf => H f (or_intror Hf))).
    pose proof (H g (or_introl eq_refl)) as Hg. destruct g as [u|u|[u|]]; cbn [numerator]; auto; intros x [<-|Hx]; auto. }
  assert (Hd : forall x, In x (denominator l) -> contains_t x = false).
  { clear - H. induction l as [|g r IH]; [easy|]. specialize (IH (fun f Hf => H f (or_intror Hf))).
    pose proof (H g (or_introl eq_refl)) as Hg. destruct g as [u|u|o]; cbn [denominator]; auto; intros x [<-|Hx]; auto. }
  apply orb_false_iff. split; [destruct l as [|[]]; reflexivity|]. apply orb_false_iff. split.
  - destruct (numerator l) as [|a r]; [reflexivity|]. now apply join_none.
  - destruct (denominator l) as [|a [|b r]]; [reflexivity|..].
    + rewrite contains_app, (Hd a) by now left. reflexivity.
    + rewrite !contains_app. rewrite join_none; [reflexivity|reflexivity|assumption].
Qed.
Lemma pieces_term l o : forall p, In p l -> contains_t (fst p) = true \/ contains_t (snd p) = true ->
  contains_t (print_pieces l o) = true.
Proof.
  induction l as [|[v c] r IH]; [easy|]. intros p [<-|Hp] H; cbn [print_pieces fst snd] in *; rewrite !contains_app.
  - destruct H as [-> | ->]; now rewrite ?orb_true_r.
  - rewrite (IH p Hp H). now rewrite ?orb_true_r.
Qed.
Lemma pieces_other l o : contains_t o = true -> contains_t (print_pieces l o) = true.
Proof.
  intros H. induction l as [|[v c] r IH]; [assumption|]. cbn [print_pieces]. rewrite !contains_app, IH. now rewrite ?orb_true_r.
Qed.
Lemma pieces_none l o : (forall p, In p l -> contains_t (fst p) = false /\ contains_t (snd p) = false) -> contains_t o = false ->
  contains_t (print_pieces l o) = false.
Proof.
  intros H Ho. induction l as [|[v c] r IH]; [assumption|]. cbn [print_pieces]. rewrite !contains_app.
  destruct (H (v, c) (or_introl eq_refl)) as [H1 H2]. cbn [fst snd] in *. rewrite H1, H2, IH; [reflexivity|].
  intros p Hp. apply H. now right.
Qed.

Lemma print_pow_neg b pb p x :
  print_pow b pb (EInt (Zneg p)) x = if Pos.eqb p 1 then "1.0/" ++ pb else "pow(" ++ b ++ ", " ++ x ++ ")".
Proof. destruct p; reflexivity. Qed.

(** ** Induction on expressions *)
Section Induction.
Variable Pr : expr -> Prop.
Hypothesis HInt : forall z, Pr (EInt z).
Hypothesis HRat : forall p q, Pr (ERat p q).
Hypothesis HFloat : forall n d, Pr (EFloat n d).
Hypothesis HSym : forall n, Pr (ESym n).
Hypothesis HAdd : forall l, Forall Pr l -> Pr (EAdd l).
Hypothesis HMul : forall l, Forall Pr l -> Pr (EMul l).
Hypothesis HPow : forall a b, Pr a -> Pr b -> Pr (EPow a b).
Hypothesis HFun : forall n l, Forall Pr l -> Pr (EFun n l).
Hypothesis HRel : forall op a b, Pr a -> Pr b -> Pr (ERel op a b).
Hypothesis HBool : forall op l, Forall Pr l -> Pr (EBool op l).
Hypothesis HPiece : forall l d, Forall (fun p => Pr (fst p) /\ Pr (snd p)) l -> Pr d -> Pr (EPiece l d).
Fixpoint expr_all (e : expr) : Pr e :=
  let all := fix all (l : list expr) : Forall Pr l :=
    match l with [] => Forall_nil _ | a :: r => Forall_cons a (expr_all a) (all r) end in
  match e with
  | EInt z => HInt z
  | ERat p q => HRat p q
  | EFloat n d => HFloat n d
  | ESym n => HSym n
  | EAdd l => HAdd l (all l)
  | EMul l => HMul l (all l)
  | EPow a b => HPow a b (expr_all a) (expr_all b)
  | EFun n l => HFun n l (all l)
  | ERel op a b => HRel op a b (expr_all a) (expr_all b)
  | EBool op l => HBool op l (all l)
  | EPiece l d =>
      HPiece l d ((fix pieces (l : list (expr * expr)) : Forall (fun p => Pr (fst p) /\ Pr (snd p)) l :=
        match l with [] => Forall_nil _
        | p :: r => Forall_cons p (conj (expr_all (fst p)) (expr_all (snd p))) (pieces r) end) l) (expr_all d)
  end.
End Induction.

Definition factor_of (a : expr) : factor :=
  match a with
  | EPow b (EInt (Zneg 1)) => Denom (parenthesize b (ccode b) 50)
  | EPow b (EInt (Zneg p)) => Denom (print_pow (ccode b) (parenthesize b (ccode b) 60) (EInt (Zpos p)) (str (Zpos p)))
  | EPow b (ERat (Zneg p) q) =>
      Denom (print_pow (ccode b) (parenthesize b (ccode b) 60) (ERat (Zpos p) q) (rational (Zpos p) q))
  | _ => match minus a with
         | Some o => Minus o
         | None => Numer (parenthesize a (ccode a) 50)
         end
  end.
Lemma ccode_mul l : ccode (EMul l) = print_mul (map factor_of l).
Proof. reflexivity. Qed.
Lemma factor_minus a o : minus a = Some o -> exists z p q n d, a = EInt z \/ a = ERat p q \/ a = EFloat n d.
Proof. destruct a; try discriminate; intros _; repeat eexists; eauto. Unshelve. all: try exact 0%Z; try exact 1%positive; try exact true; exact "". Qed.

(** ** A text without the letter t *)
Section Constant.
Context {B : Type} (m : meaning B) (env : string -> B) (t1 t2 : B).
Definition same (e : expr) : Prop := value_at m env t1 e = value_at m env t2 e.
Definition constant (e : expr) : Prop := contains_t (ccode e) = false -> same e.

Lemma same_list l : Forall same l -> map (value_at m env t1) l = map (value_at m env t2) l.
Proof. induction 1 as [|a r Ha _ IH]; [reflexivity|]. cbn [map]. now rewrite Ha, IH. Qed.
Lemma not_true b : b = false -> b = true -> False.
Proof. congruence. Qed.
Lemma constant_pow a b : constant a -> constant b -> constant (EPow a b).
Proof.
  intros Ha Hb H. cbn [ccode] in H. unfold same. cbn [value_at].
  assert (Ea : same a).
  { apply Ha. destruct (contains_t (ccode a)) eqn:E; [|reflexivity].
    rewrite pow_base in H; [discriminate|assumption|]. now rewrite contains_paren. }
  assert (Eb : same b).
  { destruct b as [z|p q|n d|n|l|l|b x|n l|op b x|op l|l d]; try reflexivity.
    all: apply Hb; match goal with |- ?l = false => destruct l eqn:E; [|reflexivity] end.
    all: exfalso; apply (not_true _ H); apply pow_exponent; [exact E|exact E|discriminate]. }
  now rewrite Ea, Eb.
Qed.
Lemma constant_factor a : constant a ->
  match factor_of a with Numer t | Denom t => contains_t t = false | Minus _ => True end -> same a.
Proof.
  intros Ha.
  assert (Hg : match (match minus a with Some o => Minus o | None => Numer (parenthesize a (ccode a) 50) end) with
               | Numer t | Denom t => contains_t t = false | Minus _ => True end -> same a).
  { destruct (minus a) as [o|] eqn:E.
    - intros _. destruct (factor_minus a o E) as (z & p & q & n & d & [ -> | [ -> | -> ] ]); reflexivity.
    - rewrite contains_paren. apply Ha. }
  destruct a as [z|p q|n d|n|l|l|b x|n l|op b x|op l|l d]; try exact Hg.
  assert (Hpow : forall e y, contains_t (print_pow (ccode b) (parenthesize b (ccode b) 60) e y) = false -> contains_t (ccode b) = false).
  { intros e y H. destruct (contains_t (ccode b)) eqn:E; [|reflexivity].
    rewrite pow_base in H; [discriminate|assumption|]. now rewrite contains_paren. }
  assert (Hz : forall p, x = EInt (Zneg p) -> contains_t (ccode b) = false -> same (EPow b x)).
  { intros p -> H. apply Ha. cbn [ccode]. rewrite print_pow_neg.
    destruct (Pos.eqb p 1); rewrite !contains_app, ?contains_paren, H, ?str_none; reflexivity. }
  assert (Hq : forall p q, x = ERat (Zneg p) q -> contains_t (ccode b) = false -> same (EPow b x)).
  { intros p q -> H. apply Ha. cbn [ccode]. unfold print_pow. rewrite !contains_app, H, rational_none. reflexivity. }
  destruct x as [z|p q|n d|n|l|l|b' x|n l|op b' x|op l|l d]; try exact Hg.
  - destruct z as [|p|p]; try exact Hg. intros H. apply (Hz p eq_refl). cbn [factor_of] in H.
    destruct p as [p|p|]; [exact (Hpow _ _ H)|exact (Hpow _ _ H)|now rewrite contains_paren in H].
  - destruct p as [|p|p]; try exact Hg. intros H. apply (Hq p q eq_refl). exact (Hpow _ _ H).
Qed.

Theorem constant_all e : constant e.
Proof.
  induction e as [z|p q|n d|n|l IH|l IH|a b IHa IHb|n l IH|op a b IHa IHb|op l IH|l d IH IHd] using expr_all; intros H.
  - reflexivity.
  - reflexivity.
  - reflexivity.
  - unfold same. cbn [value_at]. cbn [ccode] in H. destruct (String.eqb_spec n "t") as [ -> |_]; [discriminate H|reflexivity].
  - unfold same. cbn [value_at]. f_equal. apply same_list. apply Forall_forall. intros a Ha.
    apply (proj1 (Forall_forall _ _) IH a Ha). destruct (contains_t (ccode a)) eqn:E; [|reflexivity].
    exfalso. apply (not_true _ H). cbn [ccode].
    eapply sum_term; [apply in_map_iff; exists a; split; [reflexivity|exact Ha]|exact E].
  - unfold same. cbn [value_at]. f_equal. apply same_list. apply Forall_forall. intros a Ha.
    apply constant_factor; [exact (proj1 (Forall_forall _ _) IH a Ha)|].
    rewrite ccode_mul in H. pose proof (mul_factor (map factor_of l) (factor_of a) (in_map _ _ _ Ha)) as Hm.
    destruct (factor_of a) as [t|t|o]; [| |exact I];
      (destruct (contains_t t) eqn:E; [|reflexivity]; rewrite (Hm eq_refl) in H; discriminate).
  - exact (constant_pow a b IHa IHb H).
  - unfold same. cbn [value_at]. f_equal. apply same_list. apply Forall_forall. intros a Ha.
    apply (proj1 (Forall_forall _ _) IH a Ha). destruct (contains_t (ccode a)) eqn:E; [|reflexivity].
    exfalso. apply (not_true _ H). cbn [ccode]. rewrite !contains_app.
    rewrite (contains_join ", " _ (ccode a)); [now rewrite ?orb_true_r|now apply in_map|assumption].
  - cbn [ccode] in H. rewrite !contains_app in H. apply orb_false_iff in H as [H1 H]. repeat apply orb_false_iff in H as [? H].
    unfold same. cbn [value_at]. now rewrite (IHa H1), (IHb H).
  - unfold same. cbn [value_at]. f_equal. apply same_list. apply Forall_forall. intros a Ha.
    apply (proj1 (Forall_forall _ _) IH a Ha). destruct (contains_t (ccode a)) eqn:E; [|reflexivity].
    exfalso. apply (not_true _ H). cbn [ccode].
    eapply contains_join; [apply in_map_iff; exists a; split; [reflexivity|exact Ha]|now rewrite contains_paren].
  - unfold same. cbn [value_at]. cbn [ccode] in H.
    assert (Ed : same d).
    { apply IHd. destruct (contains_t (ccode d)) eqn:E; [|reflexivity]. exfalso. apply (not_true _ H). now apply pieces_other. }
    rewrite Ed. f_equal. apply map_ext_in. intros [v c] Hp. pose proof (proj1 (Forall_forall _ _) IH _ Hp) as [Hv Hc].
    cbn [fst snd] in *.
    assert (Hn : contains_t (ccode v) = false /\ contains_t (ccode c) = false).
    { destruct (contains_t (ccode v)) eqn:E1; [|destruct (contains_t (ccode c)) eqn:E2; [|auto]];
        exfalso; apply (not_true _ H); eapply pieces_term;
        try (apply in_map_iff; exists (v, c); split; [reflexivity|exact Hp]); cbn [fst snd]; auto. }
    now rewrite (Hv (proj1 Hn)), (Hc (proj2 Hn)).
Qed.
End Constant.

(** ** Names without the letter t *)
Lemma none_spec s : ~ has_letter s -> contains_t s = false.
Proof. intros H. destruct (contains_t s) eqn:E; [|reflexivity]. elim H. now apply contains_spec. Qed.
Lemma plain_list l a : fold_right (fun a p => plain a /\ p) True l -> In a l -> plain a.
Proof. induction l as [|b r IH]; [easy|]. intros [Hb Hr] [ <- |Ha]; auto. Qed.
Lemma no_root_float d : d <> "0.5" -> forall b pb x, print_pow b pb (EFloat false d) x = "pow(" ++ b ++ ", " ++ x ++ ")".
Proof.
  intros H b pb x. unfold print_pow.
  repeat (match goal with |- context [match ?s with EmptyString => _ | _ => _ end] => destruct s; try reflexivity
                        | |- context [match ?c with Ascii _ _ _ _ _ _ _ _ => _ end] => destruct c; try reflexivity
                        | |- context [if ?b then _ else _] => destruct b; try reflexivity end).
  now elim H.
Qed.
Lemma pow_none b pb e x : ~ root e -> contains_t b = false -> contains_t pb = false -> contains_t x = false ->
  contains_t (print_pow b pb e x) = false.
Proof.
  intros Hr H1 H2 H3.
  assert (Hp : contains_t ("pow(" ++ b ++ ", " ++ x ++ ")") = false) by now rewrite !contains_app, H1, H3.
  assert (Hi : contains_t ("1.0/" ++ pb) = false) by now rewrite contains_app, H2.
  destruct e as [z|p q|n d| | | | | | | |]; try exact Hp.
  - destruct z as [| |[]]; assumption.
  - unfold print_pow. destruct p as [|p|p]; try exact Hp. destruct p; try exact Hp.
    destruct q as [q|q|]; try exact Hp; destruct q; try exact Hp; elim Hr; cbn; auto.
  - destruct n; [exact Hp|]. destruct (string_dec d "0.5") as [ -> |Hd]; [elim Hr; exact I|]. now rewrite no_root_float.
Qed.
Lemma minus_none a o : minus a = Some o -> plain a -> match o with Some t => contains_t t = false | None => True end.
Proof.
  destruct a as [[|p|p]|[|p|p] q|[] d| | | | | | | |]; try discriminate; cbn.
  - destruct p; intros [= <-] _; [exact (str_none (Zpos _))|exact (str_none (Zpos _))|exact I].
  - intros [= <-] _. exact (rational_none (Zpos p) q).
  - intros [= <-]. apply none_spec.
Qed.

Lemma root_neg p q : ~ root (ERat (Zneg p) q) -> ~ root (ERat (Zpos p) q).
Proof. cbn. intros H [[H1|H1] H2]; apply H; split; auto; [injection H1 as ->; auto|discriminate]. Qed.
Lemma factor_none a : plain a -> contains_t (ccode a) = false -> (forall b x, a = EPow b x -> contains_t (ccode b) = false) ->
  match factor_of a with Numer t | Denom t | Minus (Some t) => contains_t t = false | Minus None => True end.
Proof.
  intros Hp Hc Hb.
  assert (Hg : match (match minus a with Some o => Minus o | None => Numer (parenthesize a (ccode a) 50) end) with
               | Numer t | Denom t | Minus (Some t) => contains_t t = false | Minus None => True end).
  { destruct (minus a) as [o|] eqn:E; [exact (minus_none a o E Hp)|]. now rewrite contains_paren. }
  destruct a as [z|p q|n d|n|l|l|b x|n l|op b x|op l|l d]; try exact Hg.
  specialize (Hb b x eq_refl). destruct Hp as (_ & _ & Hr).
  destruct x as [z|p q|n d|n|l|l|b' x|n l|op b' x|op l|l d]; try exact Hg.
  - destruct z as [|p|p]; try exact Hg. cbn [factor_of].
    assert (Hd : forall p, contains_t (print_pow (ccode b) (parenthesize b (ccode b) 60) (EInt (Zpos p)) (str (Zpos p))) = false)
      by (intros p'; apply pow_none; rewrite ?contains_paren; auto; apply str_none).
    destruct p; [apply Hd|apply Hd|now rewrite contains_paren].
  - destruct p as [|p|p]; try exact Hg. cbn [factor_of].
    apply pow_none; rewrite ?contains_paren; auto; [now apply root_neg|apply rational_none].
Qed.

Theorem plain_none e : plain e ->
  contains_t (ccode e) = false /\ (forall b x, e = EPow b x -> contains_t (ccode b) = false).
Proof.
  induction e as [z|p q|n d|n|l IH|l IH|a b IHa IHb|n l IH|op a b IHa IHb|op l IH|l d IH IHd] using expr_all; intros H;
    (split; [|try discriminate]).
  - apply str_none.
  - apply rational_none.
  - cbn [ccode]. rewrite contains_app, (none_spec _ H). now destruct n.
  - exact (none_spec _ H).
  - cbn [ccode]. apply sum_none. intros t Ht. apply in_map_iff in Ht as (a & <- & Ha). cbn [snd].
    apply (proj1 (Forall_forall _ _) IH a Ha). exact (plain_list l a H Ha).
  - rewrite ccode_mul. apply mul_none. intros f Hf. apply in_map_iff in Hf as (a & <- & Ha).
    pose proof (plain_list l a H Ha) as Hp. destruct (proj1 (Forall_forall _ _) IH a Ha Hp) as [H1 H2].
    now apply factor_none.
  - destruct H as (Ha & Hb & Hr). cbn [ccode]. destruct (IHa Ha) as [H1 _], (IHb Hb) as [H2 _].
    apply pow_none; rewrite ?contains_paren; auto.
  - intros b' x [= <- <-]. exact (proj1 (IHa (proj1 H))).
  - destruct H as [Hn Hl]. cbn [ccode]. rewrite !contains_app, (none_spec _ Hn). cbn. rewrite orb_false_r.
    apply join_none; [reflexivity|]. intros x Hx. apply in_map_iff in Hx as (a & <- & Ha).
    apply (proj1 (Forall_forall _ _) IH a Ha). exact (plain_list l a Hl Ha).
  - destruct H as (Hn & Ha & Hb). cbn [ccode]. rewrite !contains_app, (none_spec _ Hn).
    rewrite (proj1 (IHa Ha)), (proj1 (IHb Hb)). reflexivity.
  - destruct H as [Hn Hl]. cbn [ccode]. apply join_none; [rewrite !contains_app, (none_spec _ Hn); reflexivity|].
    intros x Hx. apply in_map_iff in Hx as (a & <- & Ha). rewrite contains_paren.
    apply (proj1 (Forall_forall _ _) IH a Ha). exact (plain_list l a Hl Ha).
  - destruct H as [Hl Hd]. cbn [ccode]. apply pieces_none; [|now apply IHd].
    intros p Hp. apply in_map_iff in Hp as (c & <- & Hc). cbn [fst snd].
    assert (Hpl : plain (fst c) /\ plain (snd c)).
    { clear IH. induction l as [|c' r IHr]; [easy|]. destruct Hl as [Hc' Hr]. destruct Hc as [ -> |Hc]; auto. }
    destruct (proj1 (Forall_forall _ _) IH c Hc) as [H1 H2]. split; [now apply H1|now apply H2].
Qed.
