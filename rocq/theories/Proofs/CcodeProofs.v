(** Proofs for C93: the printed text parses to the value of the expression. *)
From Coq Require Import ZArith List Bool String Ascii Reals Lia Lra DecimalString DecimalPos DecimalN DecimalZ DecimalFacts.
From Verif Require Import Base.Key Model.SympyAst Spec.CcodeSpec Proofs.SympyProofs.
Import ListNotations.
Local Open Scope string_scope.

(** ** Strings *)
Lemma app_nil_s a : (a ++ "")%string = a.
Proof. induction a as [|c a IH]; [reflexivity|]. cbn. now rewrite IH. Qed.
Lemma app_assoc_s a b c : ((a ++ b) ++ c)%string = (a ++ b ++ c)%string.
Proof. induction a as [|x a IH]; [reflexivity|]. cbn. now rewrite IH. Qed.
Lemma not_minus_app a b : not_minus (a ++ b) -> not_minus a.
Proof. destruct a; [intros; exact I|]. exact (fun H => H). Qed.
Lemma not_minus_head a b : a <> "" -> not_minus a -> not_minus (a ++ b).
Proof. destruct a; [congruence|]. intros _ H. exact H. Qed.

(** ** Decimal notation *)
Fixpoint rd (acc : Z) (u : Decimal.uint) : Z :=
  match u with
  | Decimal.Nil => acc
  | Decimal.D0 u => rd (10 * acc) u
  | Decimal.D1 u => rd (10 * acc + 1) u
  | Decimal.D2 u => rd (10 * acc + 2) u
  | Decimal.D3 u => rd (10 * acc + 3) u
  | Decimal.D4 u => rd (10 * acc + 4) u
  | Decimal.D5 u => rd (10 * acc + 5) u
  | Decimal.D6 u => rd (10 * acc + 6) u
  | Decimal.D7 u => rd (10 * acc + 7) u
  | Decimal.D8 u => rd (10 * acc + 8) u
  | Decimal.D9 u => rd (10 * acc + 9) u
  end%Z.
Lemma rd_pos u : forall acc, rd (Zpos acc) u = Zpos (Pos.of_uint_acc u acc).
Proof.
  induction u as [|u IH|u IH|u IH|u IH|u IH|u IH|u IH|u IH|u IH|u IH]; intros acc; cbn [rd Pos.of_uint_acc]; [reflexivity|..].
  all: rewrite <- IH; f_equal; lia.
Qed.
Lemma rd_zero u : rd 0 u = Z.of_N (Pos.of_uint u).
Proof.
  induction u as [|u IH|u IH|u IH|u IH|u IH|u IH|u IH|u IH|u IH|u IH]; cbn [rd Pos.of_uint]; [reflexivity|exact IH|..].
  all: cbn [Z.of_N Z.mul Z.add]; apply rd_pos.
Qed.
Lemma read_uint u s : forall acc, read_units acc (NilEmpty.string_of_uint u ++ s) = read_units (rd acc u) s.
Proof.
  induction u as [|u IH|u IH|u IH|u IH|u IH|u IH|u IH|u IH|u IH|u IH]; intros acc; [reflexivity|..].
  all: cbn [NilEmpty.string_of_uint append rd]; cbn [read_units];
    match goal with |- context [digit ?c] => let v := eval vm_compute in (digit c) in change (digit c) with v end;
    cbv iota; rewrite IH; f_equal; f_equal; lia.
Qed.
Lemma decimal_uint u s : u <> Decimal.Nil -> decimal (NilEmpty.string_of_uint u ++ s) = read_units (rd 0 u) s.
Proof.
  intros Hu. rewrite <- read_uint. destruct u; [congruence|..]; reflexivity.
Qed.
Lemma str_pos p : str (Zpos p) = NilEmpty.string_of_uint (Pos.to_uint p) /\ Pos.to_uint p <> Decimal.Nil.
Proof.
  pose proof (DecimalPos.Unsigned.to_uint_nonnil p) as H.
  split; [|exact H]. unfold str. cbn [Z.to_int NilZero.string_of_int NilZero.string_of_uint].
  destruct (Pos.to_uint p); [congruence|..]; reflexivity.
Qed.
Lemma str_decimal z : (0 <= z)%Z -> decimal (str z ++ ".0") = Some (IZR z).
Proof.
  intros H. destruct z as [|p|p]; [| |lia].
  - change (decimal (str 0 ++ ".0")) with (Some (IZR 0 / 10 ^ 1)%R). f_equal. lra.
  - destruct (str_pos p) as [E Hn]. rewrite E, decimal_uint by exact Hn. rewrite rd_zero.
    change (Pos.of_uint (Pos.to_uint p)) with (N.of_uint (N.to_uint (Npos p))). rewrite DecimalN.Unsigned.of_to.
    cbn [Z.of_N]. cbn [read_units read_fraction].
    change (digit ".") with (@None Z). change (digit "0") with (Some 0%Z). cbv iota. cbn [Ascii.eqb Bool.eqb].
    f_equal. rewrite plus_IZR, mult_IZR. cbn [pow]. lra.
Qed.
Lemma str_neg p : str (Zneg p) = "-" ++ str (Zpos p).
Proof. reflexivity. Qed.
Lemma uint_minus u s : not_minus (NilEmpty.string_of_uint u ++ s) \/ u = Decimal.Nil.
Proof. destruct u; [now right|..]; left; exact I. Qed.
Lemma str_not_minus z : (0 <= z)%Z -> not_minus (str z) /\ str z <> "".
Proof.
  intros H. destruct z as [|p|p]; [split; [exact I|discriminate]| |lia].
  destruct (str_pos p) as [-> Hn]. destruct (Pos.to_uint p); [congruence|..]; (split; [exact I|discriminate]).
Qed.
Lemma decimal_not_minus s r : decimal s = Some r -> not_minus s /\ s <> "".
Proof.
  destruct s as [|c s]; [discriminate|]. cbn [decimal]. intros H. split; [|discriminate].
  destruct (Ascii.eqb_spec c "-") as [->|Hc]; [discriminate H|].
  cbn. destruct c as [[] [] [] [] [] [] [] []]; try exact I. congruence.
Qed.
Lemma word_not_minus s : word s = true -> not_minus s /\ s <> "".
Proof.
  destruct s as [|c s]; [discriminate|]. intros H. split; [|discriminate].
  destruct (Ascii.eqb_spec c "-") as [->|Hc]; [discriminate H|].
  cbn. destruct c as [[] [] [] [] [] [] [] []]; try exact I. congruence.
Qed.
Lemma name_not_minus s : name s -> not_minus s /\ s <> "".
Proof.
  intros [H|(a & k & H & ->)]; [now apply word_not_minus|].
  destruct (word_not_minus a H) as [H1 H2]. destruct a; [congruence|]. split; [exact H1|discriminate].
Qed.

(** ** Parsing *)
Definition isint (c : cval) : bool := match c with CI _ => true | CD _ => false end.
Lemma real_arith fz fr a b :
  (forall x y, a = CI x -> b = CI y -> IZR (fz x y) = fr (IZR x) (IZR y)) -> real (arith fz fr a b) = fr (real a) (real b).
Proof. destruct a, b; cbn; intros H; auto. Qed.
Lemma isint_arith fz fr a b : isint (arith fz fr a b) = (isint a && isint b)%bool.
Proof. destruct a, b; reflexivity. Qed.

Section World.
Variable w : world.
Notation parses := (parses w).

Lemma up_unary s c : parses Postfix s c -> parses Unary s c.
Proof. apply (p_up w Postfix). Qed.
Lemma up_mult s c : parses Postfix s c -> parses Mult s c.
Proof. intros H. apply (p_up w Unary). now apply up_unary. Qed.
Lemma up_add s c : parses Mult s c -> parses Additive s c.
Proof. apply (p_up w Mult). Qed.
Lemma up_rel s c : parses Additive s c -> parses Relational s c.
Proof. apply (p_up w Additive). Qed.
Lemma up_eq s c : parses Relational s c -> parses Equality s c.
Proof. apply (p_up w Relational). Qed.
Lemma up_and s c : parses Equality s c -> parses And s c.
Proof. apply (p_up w Equality). Qed.
Lemma up_or s c : parses And s c -> parses Or s c.
Proof. apply (p_up w And). Qed.
Lemma up_cond s c : parses Or s c -> parses Cond s c.
Proof. apply (p_up w Or). Qed.
Lemma add_cond s c : parses Additive s c -> parses Cond s c.
Proof. intros H. now apply up_cond, up_or, up_and, up_eq, up_rel. Qed.

Lemma postfix_not_minus s c : parses Postfix s c -> not_minus s /\ s <> "".
Proof.
  intros H. remember Postfix as l eqn:E. destruct H; try discriminate E.
  - now apply str_not_minus.
  - eapply decimal_not_minus; eassumption.
  - now apply name_not_minus.
  - destruct (word_not_minus n H) as [H1 H2]. destruct n; [congruence|]. split; [exact H1|discriminate].
  - split; [exact I|discriminate].
  - destruct l; discriminate E.
Qed.

Definition opp (c : cval) : cval := match c with CI z => CI (- z) | CD r => CD (- r) end.
Lemma real_opp c : real (opp c) = (- real c)%R.
Proof. destruct c; cbn; [apply opp_IZR|reflexivity]. Qed.
Lemma unary_minus s c : parses Unary s c -> not_minus s -> parses Mult ("-" ++ s) (opp c).
Proof. intros H Hs. apply (p_up w Unary). exact (p_minus w s c H Hs). Qed.
Lemma mult_minus l s c : parses l s c -> l = Mult \/ l = Unary \/ l = Postfix -> not_minus s -> parses Mult ("-" ++ s) (opp c).
Proof.
  induction 1 as [| | | | | |a b x y Ha IHa Hb IHb|a b x y Ha IHa Hb IHb| | | | | | | |l s c H IH];
    intros E Hs; try (destruct E as [E|[E|E]]; discriminate E).
  all: try (apply unary_minus; [apply up_unary; econstructor; eassumption|exact Hs]).
  - exfalso. exact Hs.
  - pose proof (IHa (or_introl eq_refl) (not_minus_app _ _ Hs)) as H1.
    assert (Ho : opp (arith Z.mul Rmult x y) = arith Z.mul Rmult (opp x) y).
    { destruct x, y; cbn; f_equal; try lia; rewrite ?opp_IZR; lra. }
    rewrite Ho. exact (p_mul w _ _ _ _ H1 Hb).
  - pose proof (IHa (or_introl eq_refl) (not_minus_app _ _ Hs)) as H1.
    assert (Ho : opp (arith Z.quot Rdiv x y) = arith Z.quot Rdiv (opp x) y).
    { destruct x as [z|r], y as [z'|r']; cbn; f_equal; rewrite ?opp_IZR; try (unfold Rdiv; lra).
      destruct (Z.eq_dec z' 0) as [->|Hz]; [now rewrite !Z.quot_0_r_ext by reflexivity|].
      now rewrite Z.quot_opp_l. }
    rewrite Ho. exact (p_div w _ _ _ _ H1 Hb).
  - destruct l; cbn [above] in E; try (destruct E as [E|[E|E]]; discriminate E).
    + apply unary_minus; [now apply up_unary|exact Hs].
    + apply unary_minus; [exact H|exact Hs].
Qed.

(** Products *)
Definition rprod (l : list cval) : R := fold_right (fun c p => real c * p)%R 1%R l.
Lemma join_head t a r : join "*" (a :: t :: r) = join "*" ((a ++ "*" ++ t) :: r).
Proof. destruct r; [reflexivity|]. rewrite !join_cons, !app_assoc_s. reflexivity. Qed.
Lemma parse_join ts cs : Forall2 (parses Postfix) ts cs -> forall a x, parses Mult a x ->
  exists y, parses Mult (join "*" (a :: ts)) y /\ real y = (real x * rprod cs)%R /\ isint y = (isint x && forallb isint cs)%bool.
Proof.
  induction 1 as [|t c ts cs Ht _ IH]; intros a x Ha.
  - exists x. split; [exact Ha|]. cbn. rewrite andb_true_r. split; [lra|reflexivity].
  - rewrite join_head. destruct (IH (a ++ "*" ++ t) (arith Z.mul Rmult x c)) as (y & H1 & H2 & H3).
    { apply p_mul; [exact Ha|now apply up_unary]. }
    exists y. split; [exact H1|]. rewrite H2, H3, isint_arith, real_arith by (intros; apply mult_IZR).
    cbn [rprod fold_right forallb]. fold (rprod cs). split; [lra|now rewrite andb_assoc].
Qed.
Definition den_text (b : list string) : string :=
  match b with
  | [] => ""
  | [b] => "/" ++ b
  | b => "/(" ++ join "*" b ++ ")"
  end.
Lemma parse_quotient s y dt ds : parses Mult s y -> Forall2 (parses Postfix) dt ds ->
  exists c, parses Mult (s ++ den_text dt) c /\
    (dt = [] -> c = y) /\
    (dt <> [] -> (isint y && forallb isint ds)%bool = false -> isint c = false /\ real c = (real y * / rprod ds)%R).
Proof.
  intros Hs Hd. destruct Hd as [|t d dt ds Ht Hd].
  - exists y. cbn [den_text]. rewrite app_nil_s. split; [exact Hs|]. split; [reflexivity|congruence].
  - assert (Hp : exists q, parses Postfix (match dt with [] => t | _ => "(" ++ join "*" (t :: dt) ++ ")" end) q /\
               real q = rprod (d :: ds) /\ isint q = forallb isint (d :: ds)).
    { destruct (parse_join dt ds Hd t d (up_mult _ _ Ht)) as (q & H1 & H2 & H3).
      destruct Hd as [|t' d' dt ds Ht' Hd].
      - exists d. split; [exact Ht|]. cbn. rewrite andb_true_r. split; [lra|reflexivity].
      - exists q. split; [apply p_paren, add_cond, up_add; exact H1|]. split; [exact H2|exact H3]. }
    destruct Hp as (q & H1 & H2 & H3). exists (arith Z.quot Rdiv y q).
    assert (Et : s ++ den_text (t :: dt) = s ++ "/" ++ match dt with [] => t | _ => "(" ++ join "*" (t :: dt) ++ ")" end).
    { destruct dt; reflexivity. }
    rewrite Et. split; [apply p_div; [exact Hs|now apply up_unary]|]. split; [congruence|].
    intros _ Hi. rewrite isint_arith, H3, Hi. split; [reflexivity|].
    rewrite real_arith; [now rewrite H2|]. intros x z -> ->. cbn [isint] in H3. rewrite <- H3 in Hi. discriminate Hi.
Qed.

(** ** The printed text *)
Hypothesis L : lawful w.
Notation defined := (defined w).
Notation value := (value w).
Definition fits (e : expr) (c : cval) : Prop := isint c = integral e /\ (defined e -> real c = value e).
Definition is_add (e : expr) : bool := match e with EAdd _ => true | _ => false end.
Definition is_inverse (e : expr) : bool := match e with EPow _ (EInt (-1)) => true | _ => false end.
Definition sgn (neg : bool) : string := if neg then "-" else "".
Definition signed (e : expr) : Prop := exists neg r c, ccode e = sgn neg ++ r /\ parses Mult r c /\ not_minus r /\ r <> "" /\
  isint c = integral e /\ (defined e -> real c = if neg then - value e else value e)%R.
Definition printed (e : expr) : Prop :=
  (exists c, parses Additive (ccode e) c /\ fits e c) /\
  (is_add e = false -> signed e) /\
  (50 < precedence e -> is_inverse e = false -> exists c, parses Postfix (ccode e) c /\ fits e c)%nat.

Lemma printed_signed e : is_add e = false -> signed e ->
  ((50 < precedence e)%nat -> is_inverse e = false -> exists c, parses Postfix (ccode e) c /\ fits e c) -> printed e.
Proof.
  intros Ha Hs Hp. split; [|split; [intros _; exact Hs|exact Hp]].
  destruct Hs as (neg & r & c & E & H1 & H2 & _ & H3 & H4). rewrite E. destruct neg; cbn [sgn].
  - exists (opp c). split; [apply up_add; eapply mult_minus; eauto|]. split; [destruct c; exact H3|].
    intros Hd. rewrite real_opp, (H4 Hd). lra.
  - exists c. split; [now apply up_add|]. split; [exact H3|exact H4].
Qed.
Lemma printed_postfix e : is_add e = false -> (exists c, parses Postfix (ccode e) c /\ fits e c) -> printed e.
Proof.
  intros Ha H. apply printed_signed; [exact Ha| |intros; exact H].
  destruct H as (c & H1 & H2 & H3). destruct (postfix_not_minus _ _ H1) as [Hm Hn].
  exists false, (ccode e), c. repeat split; auto using up_mult.
Qed.
Lemma printed_paren e n : printed e -> (n = 50 /\ is_inverse e = false \/ n = 60)%nat ->
  exists c, parses Postfix (parenthesize e (ccode e) n) c /\ fits e c.
Proof.
  intros (H1 & _ & H3) Hn. unfold parenthesize. destruct (Nat.leb_spec (precedence e) n) as [Hle|Hlt].
  - destruct H1 as (c & Hc & Hf). exists c. split; [apply p_paren, add_cond; exact Hc|exact Hf].
  - apply H3; [destruct Hn as [[-> _]| ->]; lia|]. destruct Hn as [[_ Hi]| ->]; [exact Hi|].
    destruct e as [| | | | | |a b| | | |]; try reflexivity. cbn in Hlt. lia.
Qed.

Lemma printed_int z : printed (EInt z).
Proof.
  apply printed_signed; [reflexivity| |].
  - destruct z as [|p|p].
    + exists false, (str 0), (CI 0). repeat split; try discriminate. apply up_mult, p_int. lia.
    + destruct (str_not_minus (Zpos p) ltac:(lia)) as [Hm Hn].
      exists false, (str (Zpos p)), (CI (Zpos p)). repeat split; auto. apply up_mult, p_int. lia.
    + destruct (str_not_minus (Zpos p) ltac:(lia)) as [Hm Hn].
      exists true, (str (Zpos p)), (CI (Zpos p)). repeat split; auto.
      * apply up_mult, p_int. lia.
      * intros _. cbn. change (Zneg p) with (- Zpos p)%Z. rewrite opp_IZR. lra.
  - intros Hp _. destruct z as [|p|p]; [| |cbn in Hp; lia].
    all: eexists; split; [apply p_int; lia|]; split; [reflexivity|reflexivity].
Qed.
Lemma parse_rational p q : (0 <= p)%Z -> parses Mult (rational p q) (CD (IZR p / IZR (Zpos q))).
Proof.
  intros Hp. unfold rational.
  assert (E : str p ++ ".0/" ++ str (Zpos q) ++ ".0" = (str p ++ ".0") ++ "/" ++ (str (Zpos q) ++ ".0")).
  { rewrite app_assoc_s. reflexivity. }
  rewrite E. change (CD (IZR p / IZR (Zpos q))) with (arith Z.quot Rdiv (CD (IZR p)) (CD (IZR (Zpos q)))).
  apply p_div; [apply up_mult|apply up_unary]; apply p_double, str_decimal; lia.
Qed.
Lemma rational_head p q : (0 <= p)%Z -> not_minus (rational p q) /\ rational p q <> "".
Proof.
  intros Hp. destruct (str_not_minus p Hp) as [Hm Hn]. unfold rational. destruct (str p); [congruence|].
  split; [exact Hm|discriminate].
Qed.
Lemma rational_neg p q : rational (Zneg p) q = "-" ++ rational (Zpos p) q.
Proof. reflexivity. Qed.
Lemma printed_rat p q : printed (ERat p q).
Proof.
  apply printed_signed; [reflexivity| |intros H; cbn in H; destruct p; cbn in H; lia].
  destruct p as [|p|p].
  - exists false, (rational 0 q), (CD (IZR 0 / IZR (Zpos q))). destruct (rational_head 0 q) as [H1 H2]; [lia|].
    repeat split; auto. apply parse_rational. lia.
  - exists false, (rational (Zpos p) q), (CD (IZR (Zpos p) / IZR (Zpos q))). destruct (rational_head (Zpos p) q) as [H1 H2]; [lia|].
    repeat split; auto. apply parse_rational. lia.
  - exists true, (rational (Zpos p) q), (CD (IZR (Zpos p) / IZR (Zpos q))). destruct (rational_head (Zpos p) q) as [H1 H2]; [lia|].
    repeat split; auto; [apply parse_rational; lia|].
    intros _. cbn [real value CcodeSpec.value fst meaning]. change (Zneg p) with (- Zpos p)%Z. unfold CcodeSpec.value. cbn [meaning fst]. rewrite opp_IZR. unfold Rdiv. lra.
Qed.
Lemma printed_float n d : decimal d <> None -> printed (EFloat n d).
Proof.
  intros Hd. destruct (decimal d) as [r|] eqn:E; [|congruence].
  destruct (decimal_not_minus d r E) as [Hm Hn].
  apply printed_signed; [reflexivity| |].
  - exists n, d, (CD r). repeat split; auto; [apply up_mult, p_double, E|].
    intros _. unfold CcodeSpec.value. cbn [meaning fst]. rewrite E. cbn [real]. destruct n; lra.
  - intros Hp _. destruct n; [cbn in Hp; lia|]. exists (CD r). split; [apply p_double, E|]. split; [reflexivity|].
    intros _. unfold CcodeSpec.value. cbn [meaning fst]. rewrite E. cbn [real]. lra.
Qed.
Lemma printed_sym n : name n -> printed (ESym n).
Proof. intros H. apply printed_postfix; [reflexivity|]. exists (CD (w_name w n)). split; [now apply p_name|]. split; reflexivity. Qed.

(** Sums *)
Lemma fold_all {A} (P : A -> Prop) l : fold_right (fun a p => P a /\ p) True l <-> Forall P l.
Proof. induction l as [|a r IH]; cbn; [split; auto|]. rewrite IH. split; [intros [? ?]; auto|intros H; inversion H; auto]. Qed.
Definition term_of (a : expr) : bool * nat * string := (is_add a, precedence a, ccode a).
Lemma ccode_add l : ccode (EAdd l) = print_sum (map term_of l).
Proof. reflexivity. Qed.
Lemma arithmetic_precedence a : regular false a -> (40 <= precedence a)%nat.
Proof.
  unfold precedence. destruct a; cbn [negative_number regular]; intros H; repeat match goal with |- context [if ?b then _ else _] => destruct b end; try lia.
  all: try (destruct H as [H _]; discriminate H).
  all: destruct l as [|a l]; [lia|]; destruct (negative_number a); lia.
Qed.
Lemma printed_term a : regular false a -> printed a ->
  exists (s : bool) t c, term_text (term_of a) = ((if s then "-" else "+"), t) /\ parses Mult t c /\
    isint c = integral a /\ (defined a -> real c = if s then - value a else value a)%R.
Proof.
  intros Hr (H1 & H2 & _). pose proof (arithmetic_precedence a Hr) as Hp.
  assert (Hlt : Nat.ltb (precedence a) 40 = false) by (apply Nat.ltb_ge; exact Hp).
  destruct (is_add a) eqn:Ea.
  - destruct H1 as (c & Hc & Hi & Hv). exists false, ("(" ++ ccode a ++ ")"), c. split.
    + unfold term_text, term_of. rewrite Ea, orb_true_r.
      destruct (ccode a) as [|[[] [] [] [] [] [] [] []] r]; reflexivity.
    + split; [apply up_mult, p_paren, add_cond, Hc|]. auto.
  - destruct (H2 eq_refl) as (neg & r & c & E & Hc & Hm & Hn & Hi & Hv).
    exists neg, r, c. split; [|auto]. unfold term_text, term_of. rewrite Ea, E, Hlt. cbn [orb].
    destruct neg; cbn [sgn append]; [reflexivity|].
    destruct r as [|[[] [] [] [] [] [] [] []] r]; try reflexivity. exfalso. exact Hm.
Qed.

Definition rsum_of (l : list expr) : R := fold_right (fun a s => value a + s)%R 0%R l.
Definition rprod_of (l : list expr) : R := fold_right (fun a s => value a * s)%R 1%R l.
Lemma join_step s u t r : join " " (s :: u :: t :: r) = join " " ((s ++ " " ++ u ++ " " ++ t) :: r).
Proof. destruct r; [reflexivity|]. rewrite !join_cons. rewrite !app_assoc_s. reflexivity. Qed.
Lemma join_prefix u s t r : u ++ join s (t :: r) = join s ((u ++ t) :: r).
Proof. destruct r; [reflexivity|]. rewrite !join_cons. now rewrite app_assoc_s. Qed.
Lemma sum_fold l : Forall (fun a => regular false a /\ printed a) l -> forall s x, parses Additive s x ->
  exists y, parses Additive (join " " (s :: flat_map (fun p => [fst p; snd p]) (map term_text (map term_of l)))) y /\
    isint y = (isint x && forallb integral l)%bool /\ (Forall defined l -> real y = real x + rsum_of l)%R.
Proof.
  induction 1 as [|a l [Hr Ha] _ IH]; intros s x Hs.
  - exists x. split; [exact Hs|]. cbn. rewrite andb_true_r. split; [reflexivity|]. intros _. lra.
  - destruct (printed_term a Hr Ha) as (sg & t & c & Et & Hc & Hi & Hv).
    cbn [map flat_map]. rewrite Et. cbn [fst snd app]. rewrite join_step.
    assert (Hn : exists y, parses Additive (s ++ " " ++ (if sg then "-" else "+") ++ " " ++ t) y /\
               isint y = (isint x && integral a)%bool /\ (defined a -> real y = real x + value a)%R).
    { destruct sg; cbn [append].
      - exists (arith Z.sub Rminus x c). split; [exact (p_sub w _ _ _ _ Hs Hc)|]. rewrite isint_arith, Hi. split; [reflexivity|].
        intros Hd. rewrite real_arith by (intros; apply minus_IZR). rewrite (Hv Hd). lra.
      - exists (arith Z.add Rplus x c). split; [exact (p_add w _ _ _ _ Hs Hc)|]. rewrite isint_arith, Hi. split; [reflexivity|].
        intros Hd. rewrite real_arith by (intros; apply plus_IZR). now rewrite (Hv Hd). }
    destruct Hn as (y & H1 & H2 & H3). destruct (IH _ y H1) as (z & H4 & H5 & H6).
    exists z. split; [exact H4|]. rewrite H5, H2. cbn [forallb]. split; [now rewrite andb_assoc|].
    intros Hd. inversion Hd as [|? ? Hd1 Hd2]; subst. rewrite (H6 Hd2), (H3 Hd1). cbn [rsum_of fold_right]. fold (rsum_of l). lra.
Qed.
Lemma printed_add l : l <> [] -> Forall (fun a => regular false a /\ printed a) l -> printed (EAdd l).
Proof.
  intros Hl H. split; [|split; [discriminate|cbn; lia]].
  destruct H as [|a l [Hr Ha] Hrest]; [congruence|]. rewrite ccode_add.
  destruct (printed_term a Hr Ha) as (sg & t & c & Et & Hc & Hi & Hv).
  assert (Hn : exists y, parses Additive ((if String.eqb (if sg then "-" else "+") "+" then "" else (if sg then "-" else "+")) ++ t) y /\
             isint y = integral a /\ (defined a -> real y = value a)%R).
  { destruct (proj1 Ha) as (y & _). clear y.
    destruct (is_add a) eqn:Ea.
    - unfold term_text, term_of in Et. rewrite Ea in Et.
      assert (Es : sg = false).
      { destruct sg; [|reflexivity]. exfalso. destruct (ccode a) as [|[[] [] [] [] [] [] [] []] r]; discriminate Et. }
      subst sg. cbn. exists c. split; [now apply up_add|]. auto.
    - destruct sg; cbn [String.eqb Ascii.eqb Bool.eqb].
      + destruct Ha as (_ & H2 & _). destruct (H2 Ea) as (neg & r & c' & E & Hc' & Hm & Hne & Hi' & Hv').
        unfold term_text, term_of in Et. rewrite Ea, E in Et.
        pose proof (arithmetic_precedence a Hr) as Hp.
        assert (Hlt : Nat.ltb (precedence a) 40 = false) by (apply Nat.ltb_ge; exact Hp). rewrite Hlt in Et. cbn [orb] in Et.
        destruct neg; cbn [sgn append] in Et.
        * injection Et as <-. exists (opp c'). split; [apply up_add; eapply mult_minus; eauto|].
          split; [destruct c'; exact Hi'|]. intros Hd. rewrite real_opp, (Hv' Hd). lra.
        * exfalso. destruct r as [|[[] [] [] [] [] [] [] []] r]; try discriminate Et. exact Hm.
      + exists c. cbn [append]. split; [now apply up_add|]. auto. }
  destruct Hn as (y & H1 & H2 & H3).
  destruct (sum_fold l Hrest _ y H1) as (z & H4 & H5 & H6).
  exists z. split.
  - unfold print_sum. cbn [map]. rewrite Et. rewrite join_prefix. exact H4.
  - split; [cbn [integral forallb]; now rewrite H5, H2|].
    intros Hd. cbn [CcodeSpec.defined fold_right] in Hd. destruct Hd as [Hd1 Hd2]. apply fold_all in Hd2.
    rewrite (H6 Hd2), (H3 Hd1). reflexivity.
Qed.

(** Function calls *)
Lemma args_parse l : Forall printed l ->
  exists cs, parses_args w (join ", " (map ccode l)) cs /\ List.length cs = List.length l /\
    (Forall defined l -> map real cs = map value l).
Proof.
  induction 1 as [|a l Ha Hl IH]; [exists []; split; [constructor|split; reflexivity]|].
  destruct IH as (cs & H1 & Hn & H2). destruct Ha as ((c & Hc & _ & Hv) & _). apply add_cond in Hc.
  destruct l as [|b l].
  - exists [c]. split; [now constructor|]. split; [reflexivity|]. intros Hd. inversion Hd; subst. cbn. now rewrite Hv.
  - exists (c :: cs). split; [|split; [cbn in *; now rewrite Hn|]].
    + cbn [map] in H1 |- *. rewrite join_cons. destruct cs as [|d cs]; [discriminate Hn|]. now constructor.
    + intros Hd. inversion Hd; subst. cbn [map]. rewrite Hv by assumption. f_equal. now apply H2.
Qed.
Lemma printed_fun n l : word n = true -> Forall printed l -> printed (EFun n l).
Proof.
  intros Hw H. apply printed_postfix; [reflexivity|]. destruct (args_parse l H) as (cs & H1 & _ & H2).
  eexists. split; [apply p_call; [exact Hw|exact H1]|]. split; [reflexivity|].
  intros Hd. cbn [CcodeSpec.defined] in Hd. apply fold_all in Hd. cbn [real]. rewrite (H2 Hd). reflexivity.
Qed.

(** Powers *)
Lemma call_1 n a x : word n = true -> parses Additive a x -> parses Postfix (n ++ "(" ++ a ++ ")") (CD (w_fun w n [real x])).
Proof. intros Hn H. change [real x] with (map real [x]). apply p_call; [exact Hn|]. apply a_one, add_cond, H. Qed.
Lemma call_2 n a b x y : word n = true -> parses Additive a x -> parses Additive b y ->
  parses Postfix (n ++ "(" ++ (a ++ ", " ++ b) ++ ")") (CD (w_fun w n [real x; real y])).
Proof.
  intros Hn H H'. change [real x; real y] with (map real [x; y]). apply p_call; [exact Hn|].
  apply a_more; [now apply add_cond|]. apply a_one, add_cond, H'.
Qed.
Inductive pow_case (b pb x : string) (e : expr) : string -> Prop :=
| pc_inverse : e = EInt (-1) -> pow_case b pb x e ("1.0/" ++ pb)
| pc_sqrt : e = ERat 1 2 \/ e = EFloat false "0.5" -> pow_case b pb x e ("sqrt(" ++ b ++ ")")
| pc_cbrt : e = ERat 1 3 -> pow_case b pb x e ("cbrt(" ++ b ++ ")")
| pc_pow : e <> EInt (-1) -> pow_case b pb x e ("pow(" ++ b ++ ", " ++ x ++ ")").
Lemma print_pow_case b pb e x : pow_case b pb x e (print_pow b pb e x).
Proof.
  destruct e as [z|p q|n d|n|l|l|a c|n l|op a c|op l|l d]; try (apply pc_pow; discriminate).
  - destruct z as [|p|[p|p|]]; try (apply pc_pow; discriminate). now apply pc_inverse.
  - destruct p as [|[p|p|]|p]; try (apply pc_pow; discriminate).
    destruct q as [[q|q|]|[q|q|]|]; try (apply pc_pow; discriminate); [now apply pc_cbrt|apply pc_sqrt; now left].
  - destruct n; [apply pc_pow; discriminate|].
    destruct (string_dec d "0.5") as [->|Hd]; [apply pc_sqrt; now right|]. rewrite no_root_float by exact Hd.
    apply pc_pow. discriminate.
Qed.
Lemma printed_pow b x : printed b -> printed x -> printed (EPow b x).
Proof.
  intros Hb Hx.
  assert (Hpost : is_inverse (EPow b x) = false -> exists c, parses Postfix (ccode (EPow b x)) c /\ fits (EPow b x) c).
  { intros Hi. pose proof (proj1 Hb) as (cb & Hcb & _ & Hvb). pose proof (proj1 Hx) as (cx & Hcx & _ & Hvx).
    cbn [ccode]. destruct (print_pow_case (ccode b) (parenthesize b (ccode b) 60) x (ccode x)) as [E|E|E|E].
    - subst x. discriminate Hi.
    - exists (CD (w_fun w "sqrt" [real cb])). split; [exact (call_1 "sqrt" (ccode b) cb eq_refl Hcb)|]. split; [reflexivity|].
      intros (Hd & _ & _). cbn [real]. rewrite (l_sqrt w L), (Hvb Hd). unfold CcodeSpec.value. cbn [meaning fst]. f_equal.
      destruct E as [->| ->]; cbn [meaning fst]; [reflexivity|].
      change (decimal "0.5") with (Some (IZR 5 / 10 ^ 1)%R). cbv iota. lra.
    - exists (CD (w_fun w "cbrt" [real cb])). split; [exact (call_1 "cbrt" (ccode b) cb eq_refl Hcb)|]. split; [reflexivity|].
      intros (Hd & _ & _). cbn [real]. rewrite (l_cbrt w L), (Hvb Hd). subst x. reflexivity.
    - exists (CD (w_fun w "pow" [real cb; real cx])). split.
      + pose proof (call_2 "pow" (ccode b) (ccode x) cb cx eq_refl Hcb Hcx) as H. rewrite !app_assoc_s in H. exact H.
      + split; [reflexivity|]. intros (Hd & Hdx & _). cbn [real]. rewrite (l_pow w L), (Hvb Hd), (Hvx Hdx). reflexivity. }
  apply printed_signed; [reflexivity| |intros _ Hi; exact (Hpost Hi)].
  destruct (is_inverse (EPow b x)) eqn:Ei.
  - assert (E : x = EInt (-1)) by (cbn in Ei; destruct x as [[|p|[p|p|]]| | | | | | | | | |]; try discriminate Ei; reflexivity). subst x.
    destruct (printed_paren b 60 Hb (or_intror eq_refl)) as (c & Hc & _ & Hv).
    exists false, ("1.0/" ++ parenthesize b (ccode b) 60), (arith Z.quot Rdiv (CD 1) c).
    split; [reflexivity|]. split; [|split; [exact I|split; [discriminate|split; [reflexivity|]]]].
    + change ("1.0/" ++ parenthesize b (ccode b) 60) with ("1.0" ++ "/" ++ parenthesize b (ccode b) 60).
      apply p_div; [|now apply up_unary]. apply up_mult. apply p_double. exact (str_decimal 1 ltac:(lia)).
    + intros (Hd & _ & Hn). cbn [arith real]. rewrite (Hv Hd). unfold CcodeSpec.value. cbn [meaning fst].
      change (-1)%Z with (- (1))%Z. rewrite opp_IZR, (l_inv w L) by exact Hn. rewrite (l_one w L). unfold Rdiv. lra.
  - destruct (Hpost eq_refl) as (c & H1 & H2 & H3). destruct (postfix_not_minus _ _ H1) as [Hm Hne].
    exists false, (ccode (EPow b x)), c. repeat split; auto using up_mult.
Qed.

(** Products *)
Definition item (a : expr) : Prop :=
  if inverse a then exists t c, factor_of a = Denom t /\ parses Postfix t c /\ isint c = negb (makes_double a) /\
                    integral a = false /\ (defined a -> value a = / real c)%R
  else exists t c, factor_of a = Numer t /\ parses Postfix t c /\ isint c = integral a /\ makes_double a = negb (integral a) /\
                    (defined a -> real c = value a).
Lemma printed_item a : regular false a -> printed a -> (forall b x, a = EPow b x -> printed b) -> negative_number a = false -> item a.
Proof.
  intros Hr Ha Hb Hneg. unfold item.
  assert (Hplain : factor_of a = Numer (parenthesize a (ccode a) 50) -> is_inverse a = false -> makes_double a = negb (integral a) ->
            exists t c, factor_of a = Numer t /\ parses Postfix t c /\ isint c = integral a /\ makes_double a = negb (integral a) /\
                    (defined a -> real c = value a)).
  { intros E Ei Em. destruct (printed_paren a 50 Ha (or_introl (conj eq_refl Ei))) as (c & Hc & Hi & Hv).
    exists (parenthesize a (ccode a) 50), c. auto. }
  destruct a as [z|p q|n d|n|l|l|b x|n l|op b x|op l|l d]; try (apply Hplain; reflexivity).
  - apply Hplain; try reflexivity. destruct z as [|p|p]; try reflexivity. discriminate Hneg.
  - apply Hplain; try reflexivity. destruct p as [|p|p]; try reflexivity. discriminate Hneg.
  - apply Hplain; try reflexivity. destruct n; [discriminate Hneg|reflexivity].
  - specialize (Hb b x eq_refl).
    destruct x as [z|p q|n d|n|l|l|b' x|n l|op b' x|op l|l d]; try (apply Hplain; reflexivity).
    + destruct z as [|p|p]; try (apply Hplain; reflexivity). cbn [inverse].
      assert (Hpow : forall t, factor_of (EPow b (EInt (Zneg p))) = Denom t -> t = ccode (EPow b (EInt (Zpos p))) -> Zneg p <> (-1)%Z ->
          exists t c, factor_of (EPow b (EInt (Zneg p))) = Denom t /\ parses Postfix t c /\ isint c = negb (makes_double (EPow b (EInt (Zneg p)))) /\
                    integral (EPow b (EInt (Zneg p))) = false /\ (defined (EPow b (EInt (Zneg p))) -> value (EPow b (EInt (Zneg p))) = / real c)%R).
      { intros t E Et Hp. pose proof (printed_pow b (EInt (Zpos p)) Hb (printed_int (Zpos p))) as (_ & _ & H3).
        destruct (H3 ltac:(cbn; lia) eq_refl) as (c & Hc & Hi & Hv). exists t, c. split; [exact E|]. rewrite Et. split; [exact Hc|].
        split; [rewrite Hi; cbn; destruct p; try reflexivity; congruence|]. split; [reflexivity|].
        intros (Hd & _ & Hn). rewrite Hv by (repeat split; exact Hd). unfold CcodeSpec.value. cbn [meaning fst].
        change (Zneg p) with (- Zpos p)%Z. rewrite opp_IZR, (l_inv w L) by exact Hn. reflexivity. }
      destruct p as [p|p|]; [apply (Hpow _ eq_refl); [reflexivity|discriminate]|apply (Hpow _ eq_refl); [reflexivity|discriminate]|].
      cbn [factor_of makes_double].
      assert (Ei : is_inverse b = false).
      { cbn [regular] in Hr. destruct Hr as (_ & _ & _ & Hr). destruct b as [| | | | | |c x| | | |]; try reflexivity.
        destruct x as [[|p|[p|p|]]| | | | | | | | | |]; try reflexivity. contradiction. }
      destruct (printed_paren b 50 Hb (or_introl (conj eq_refl Ei))) as (c & Hc & Hi & Hv).
      exists (parenthesize b (ccode b) 50), c. split; [reflexivity|]. split; [exact Hc|]. rewrite negb_involutive.
      split; [exact Hi|]. split; [reflexivity|]. intros (Hd & _ & Hn). rewrite (Hv Hd). unfold CcodeSpec.value. cbn [meaning fst].
      change (-1)%Z with (- (1))%Z. rewrite opp_IZR, (l_inv w L) by exact Hn. now rewrite (l_one w L).
    + destruct p as [|p|p]; try (apply Hplain; reflexivity). cbn [inverse].
      pose proof (printed_pow b (ERat (Zpos p) q) Hb (printed_rat (Zpos p) q)) as (_ & _ & H3).
      destruct (H3 ltac:(cbn; lia) eq_refl) as (c & Hc & Hi & Hv). eexists _, c. split; [reflexivity|]. split; [exact Hc|].
      split; [exact Hi|]. split; [reflexivity|].
      intros (Hd & _ & Hn). rewrite Hv by (repeat split; exact Hd). unfold CcodeSpec.value. cbn [meaning fst].
      change (Zneg p) with (- Zpos p)%Z. rewrite opp_IZR. unfold Rdiv. rewrite <- Ropp_mult_distr_l, (l_inv w L) by exact Hn. reflexivity.
Qed.

Lemma split_items l : Forall item l -> exists cs ds,
  Forall2 (parses Postfix) (numerator (map factor_of l)) cs /\ Forall2 (parses Postfix) (denominator (map factor_of l)) ds /\
  existsb inverse l = negb (match ds with [] => true | _ => false end) /\
  (forallb isint cs && forallb isint ds)%bool = negb (existsb makes_double l) /\
  (ds = [] -> forallb isint cs = forallb integral l) /\
  (ds <> [] -> forallb integral l = false) /\
  (Forall defined l -> rprod_of l = rprod cs * / rprod ds)%R.
Proof.
  induction 1 as [|a l Ha _ IH].
  - exists [], []. cbn. repeat split; try constructor; try congruence. intros _. unfold rprod_of, rprod. cbn [fold_right]. rewrite Rinv_1. lra.
  - destruct IH as (cs & ds & H1 & H2 & H3 & H4 & H5 & H6 & H7). unfold item in Ha. cbn [map existsb forallb].
    destruct (inverse a) eqn:Ei; destruct Ha as (t & c & E & Hc & Hi & Hm & Hv); rewrite E; cbn [numerator denominator].
    + exists cs, (c :: ds). split; [exact H1|]. split; [now constructor|]. split; [reflexivity|].
      split; [|split; [discriminate|split; [intros _; now rewrite Hm|]]].
      * cbn [forallb]. rewrite Hi, negb_orb, <- H4. destruct (negb (makes_double a)), (forallb isint cs); reflexivity.
      * intros Hd. inversion Hd; subst. unfold rprod_of, rprod. cbn [fold_right]. fold (rprod_of l). fold (rprod ds). fold (rprod cs).
        rewrite H7, Hv, Rinv_mult by assumption. lra.
    + exists (c :: cs), ds. split; [now constructor|]. split; [exact H2|]. split; [exact H3|].
      split; [|split; [|split]].
      * cbn [forallb]. rewrite Hi, negb_orb, <- H4, Hm, negb_involutive, andb_assoc. reflexivity.
      * intros Hd. cbn [forallb]. now rewrite Hi, (H5 Hd).
      * intros Hd. rewrite (H6 Hd). apply andb_false_r.
      * intros Hd. inversion Hd; subst. unfold rprod_of. cbn [rprod fold_right]. fold (rprod_of l). fold (rprod cs).
        rewrite H7, Hv by assumption. lra.
Qed.

Definition or_one (ns : list string) : list string := match ns with [] => ["1"] | _ => ns end.
(** The numerator: a first factor that may be a quotient, and factors that are not *)
Lemma parse_numerator ns cs : Forall2 (parses Postfix) ns cs ->
  exists y, parses Mult (join "*" (or_one ns)) y /\ real y = rprod cs /\ isint y = forallb isint cs /\
    not_minus (join "*" (or_one ns)) /\ join "*" (or_one ns) <> "".
Proof.
  intros H. destruct H as [|n c ns cs Hn H].
  - exists (CI 1). split; [apply up_mult; exact (p_int w 1 ltac:(lia))|]. repeat split; discriminate.
  - destruct (parse_join ns cs H n c (up_mult _ _ Hn)) as (y & H1 & H2 & H3). exists y. split; [exact H1|].
    split; [exact H2|]. split; [exact H3|]. destruct (postfix_not_minus _ _ Hn) as [Hm He].
    destruct ns; [split; assumption|]. cbn [or_one]. rewrite join_cons. destruct n; [congruence|]. split; [exact Hm|discriminate].
Qed.
Lemma print_mul_text l : print_mul l = sign l ++ (join "*" (or_one (numerator l)) ++ den_text (denominator l)).
Proof. unfold print_mul. destruct (numerator l), (denominator l) as [|b [|b' r]]; reflexivity. Qed.

Lemma minus_item a : negative_number a = true -> regular false a ->
  factor_of a = Minus None /\ a = EInt (-1) \/
  exists t c, factor_of a = Minus (Some t) /\ parses Mult t c /\ not_minus t /\ t <> "" /\ isint c = integral a /\ (real c = - value a)%R.
Proof.
  intros Hn Hr. destruct a as [z|p q|n d| | | | | | | |]; try discriminate Hn.
  - destruct z as [|p|p]; try discriminate Hn. destruct (Pos.eq_dec p 1) as [->|Hp]; [left; split; reflexivity|].
    right. destruct (str_not_minus (Zpos p) ltac:(lia)) as [H1 H2]. exists (str (Zpos p)), (CI (Zpos p)).
    split; [destruct p; try reflexivity; congruence|]. split; [apply up_mult, p_int; lia|]. repeat split; auto.
    cbn. change (Zneg p) with (- Zpos p)%Z. rewrite opp_IZR. lra.
  - destruct p as [|p|p]; try discriminate Hn. right. destruct (rational_head (Zpos p) q) as [H1 H2]; [lia|].
    exists (rational (Zpos p) q), (CD (IZR (Zpos p) / IZR (Zpos q))). split; [reflexivity|].
    split; [apply parse_rational; lia|]. repeat split; auto.
    unfold CcodeSpec.value. cbn [meaning fst real]. change (Zneg p) with (- Zpos p)%Z. rewrite opp_IZR. unfold Rdiv. lra.
  - destruct n; [|discriminate Hn]. right. cbn [regular] in Hr. destruct Hr as [_ Hr].
    destruct (decimal d) as [r|] eqn:E; [|congruence]. destruct (decimal_not_minus d r E) as [H1 H2].
    exists d, (CD r). split; [reflexivity|]. split; [apply up_mult, p_double, E|]. repeat split; auto.
    unfold CcodeSpec.value. cbn [meaning fst real]. rewrite E. lra.
Qed.
Lemma defined_list l : fold_right (fun a p => defined a /\ p) True l -> Forall defined l.
Proof. apply fold_all. Qed.
Lemma printed_mul l : l <> [] -> Forall (regular false) l -> Forall (fun a => negative_number a = false) (tl l) ->
  Forall (fun a => printed a /\ (forall b x, a = EPow b x -> printed b)) l ->
  (existsb inverse l = true -> existsb makes_double l = true) -> printed (EMul l).
Proof.
  intros Hl Hr Hneg Hp Hq.
  assert (Hs : signed (EMul l)).
  2:{ apply printed_signed; [reflexivity|exact Hs|]. intros H _. exfalso. cbn in H. destruct l as [|a l]; [lia|].
      destruct (negative_number a); lia. }
  destruct l as [|a l]; [congruence|]. cbn [tl] in Hneg.
  inversion Hr as [|? ? Hra Hrl]; subst. inversion Hp as [|? ? [Hpa Hba] Hpl]; subst.
  assert (Hit : Forall item l).
  { clear -Hrl Hpl Hneg L. induction l as [|b l IH]; [constructor|].
    inversion Hrl; subst. inversion Hpl as [|? ? [? ?] ?]; subst. inversion Hneg; subst.
    constructor; [now apply printed_item|]. now apply IH. }
  unfold signed. rewrite ccode_mul, print_mul_text.
  destruct (negative_number a) eqn:Ea.
  - destruct (split_items l Hit) as (cs & ds & H1 & H2 & H3 & H4 & H5 & H6 & H7).
    assert (Hinv : inverse a = false /\ makes_double a = negb (integral a)) by (destruct a; try discriminate Ea; split; reflexivity).
    destruct Hinv as [Hinv Hmd].
    assert (Hnum : exists y, parses Mult (join "*" (or_one (numerator (map factor_of (a :: l))))) y /\
              (defined a -> real y = - value a * rprod cs)%R /\ isint y = (integral a && forallb isint cs)%bool /\
              not_minus (join "*" (or_one (numerator (map factor_of (a :: l))))) /\
              join "*" (or_one (numerator (map factor_of (a :: l)))) <> "" /\
              sign (map factor_of (a :: l)) = "-" /\ denominator (map factor_of (a :: l)) = denominator (map factor_of l)).
    { destruct (minus_item a Ea Hra) as [[E Ee]|(t & c & E & Hc & Hm & Hne & Hi & Hv)]; cbn [map]; rewrite E; cbn [numerator].
      - destruct (parse_numerator _ _ H1) as (y & Hy & Hyv & Hyi & Hym & Hyn). exists y. split; [exact Hy|].
        split; [|split; [subst a; exact Hyi|split; [exact Hym|split; [exact Hyn|split; reflexivity]]]].
        intros _. rewrite Hyv. subst a. unfold CcodeSpec.value. cbn [meaning fst]. lra.
      - destruct (parse_join _ _ H1 t c Hc) as (y & Hy & Hyv & Hyi). exists y. split; [exact Hy|].
        split; [intros _; rewrite Hyv, Hv; reflexivity|]. split; [now rewrite Hyi, Hi|].
        destruct t as [|x t]; [congruence|]. split; [|split; [|split; reflexivity]];
          (destruct (numerator (map factor_of l)); [cbn [or_one join]; first [exact Hm|discriminate]|cbn [or_one]; rewrite join_cons; first [exact Hm|discriminate]]). }
    destruct Hnum as (y & Hy & Hyv & Hyi & Hym & Hyn & Hsg & Hden). rewrite Hsg, Hden.
    destruct (parse_quotient _ y _ ds Hy H2) as (c & Hc & Hc1 & Hc2).
    exists true. eexists. exists c. split; [reflexivity|]. split; [exact Hc|].
    split; [now apply not_minus_head|]. split; [intros E; destruct (join "*" _); [congruence|discriminate E]|].
    cbn [integral forallb]. cbn [existsb] in Hq. rewrite Hinv in Hq. cbn [orb] in Hq.
    destruct (denominator (map factor_of l)) as [|d dt] eqn:Ed.
    + inversion H2; subst. rewrite (Hc1 eq_refl), Hyi, (H5 eq_refl). split; [reflexivity|].
      intros (Hd & Hdl). apply defined_list in Hdl. rewrite (Hyv Hd). pose proof (H7 Hdl) as H8. cbn [rprod fold_right] in H8.
      change (value (EMul (a :: l))) with (value a * rprod_of l)%R. rewrite H8. rewrite Rinv_1. fold (rprod cs). lra.
    + assert (Hds : ds <> []) by (intros ->; inversion H2).
      assert (Hi : (isint y && forallb isint ds)%bool = false).
      { rewrite H3 in Hq. specialize (Hq ltac:(destruct ds; [congruence|reflexivity])).
        rewrite Hyi, <- andb_assoc, H4. rewrite Hmd in Hq. destruct (integral a); cbn [negb orb] in Hq; [now rewrite Hq|reflexivity]. }
      destruct (Hc2 ltac:(discriminate) Hi) as [Hci Hcv]. split; [rewrite Hci, (H6 Hds); now rewrite andb_false_r|].
      intros (Hd & Hdl). apply defined_list in Hdl. rewrite Hcv, (Hyv Hd).
      change (value (EMul (a :: l))) with (value a * rprod_of l)%R. rewrite (H7 Hdl). lra.
  - assert (Hita : Forall item (a :: l)) by (constructor; [now apply printed_item|exact Hit]).
    destruct (split_items (a :: l) Hita) as (cs & ds & H1 & H2 & H3 & H4 & H5 & H6 & H7).
    destruct (parse_numerator _ _ H1) as (y & Hy & Hyv & Hyi & Hym & Hyn).
    assert (Hsg : sign (map factor_of (a :: l)) = "").
    { inversion Hita as [|? ? Hx _]; subst. unfold item in Hx. cbn [map sign].
      destruct (inverse a); destruct Hx as (t & c & E & _); rewrite E; reflexivity. }
    rewrite Hsg. destruct (parse_quotient _ y _ ds Hy H2) as (c & Hc & Hc1 & Hc2).
    exists false. eexists. exists c. split; [reflexivity|]. split; [exact Hc|].
    split; [now apply not_minus_head|]. split; [intros E; destruct (join "*" _); [congruence|discriminate E]|].
    change (integral (EMul (a :: l))) with (forallb integral (a :: l)).
    destruct (denominator (map factor_of (a :: l))) as [|d dt] eqn:Ed.
    + inversion H2; subst. rewrite (Hc1 eq_refl), Hyi, (H5 eq_refl). split; [reflexivity|].
      intros Hd. apply defined_list in Hd. rewrite Hyv. pose proof (H7 Hd) as H8. cbn [rprod fold_right] in H8.
      change (value (EMul (a :: l))) with (rprod_of (a :: l)). rewrite H8. rewrite Rinv_1. fold (rprod cs). lra.
    + assert (Hds : ds <> []) by (intros ->; inversion H2).
      assert (Hi : (isint y && forallb isint ds)%bool = false).
      { rewrite H3 in Hq. specialize (Hq ltac:(destruct ds; [congruence|reflexivity])). now rewrite Hyi, H4, Hq. }
      destruct (Hc2 ltac:(discriminate) Hi) as [Hci Hcv]. split; [rewrite Hci; now rewrite (H6 Hds)|].
      intros Hd. apply defined_list in Hd. rewrite Hcv, Hyv.
      change (value (EMul (a :: l))) with (rprod_of (a :: l)). rewrite (H7 Hd). reflexivity.
Qed.

(** Conditions *)
Definition tells (e : expr) (c : cval) : Prop := isint c = true /\ (defined e -> nonzero c = holds w e).
Definition condition (e : expr) : Prop := exists c, parses Or (ccode e) c /\ tells e c.
Lemma nonzero_cbool b : nonzero (cbool b) = b.
Proof. destruct b; reflexivity. Qed.
Lemma parse_rel op a b : (relop op || eqop op)%bool = true -> printed a -> printed b ->
  exists c, parses Equality (ccode (ERel op a b)) c /\ tells (ERel op a b) c.
Proof.
  intros Ho ((x & Hx & _ & Hvx) & _) ((y & Hy & _ & Hvy) & _).
  exists (cbool (relation op (real x) (real y))). split.
  - cbn [ccode]. apply orb_true_iff in Ho as [Ho|Ho].
    + apply up_eq. apply p_rel; [exact Ho|now apply up_rel|exact Hy].
    + apply p_eq; [exact Ho|now apply up_eq, up_rel|now apply up_rel].
  - split; [reflexivity|]. intros [Hda Hdb]. rewrite nonzero_cbool, (Hvx Hda), (Hvy Hdb). reflexivity.
Qed.
Definition operand (e : expr) : Prop := exists c, parses Equality (parenthesize e (ccode e) 30) c /\ tells e c.
Lemma operand_rel op a b : (relop op || eqop op)%bool = true -> printed a -> printed b -> operand (ERel op a b).
Proof. intros Ho Ha Hb. exact (parse_rel op a b Ho Ha Hb). Qed.
Lemma operand_bool op l : condition (EBool op l) -> operand (EBool op l).
Proof.
  intros (c & Hc & Ht). exists c. split; [|exact Ht]. apply up_eq, up_rel, up_add, up_mult. apply (p_paren w). now apply up_cond.
Qed.
Lemma and_fold l : Forall operand l -> forall s x, parses And s x -> isint x = true ->
  exists y, parses And (join " && " (s :: map (fun a => parenthesize a (ccode a) 30) l)) y /\ isint y = true /\
    (Forall defined l -> nonzero y = (nonzero x && forallb (holds w) l)%bool).
Proof.
  induction 1 as [|a l (c & Hc & Hci & Hcv) _ IH]; intros s x Hs Hx.
  - exists x. split; [exact Hs|]. split; [exact Hx|]. intros _. cbn. now rewrite andb_true_r.
  - destruct (IH (s ++ " && " ++ parenthesize a (ccode a) 30) (cbool (nonzero x && nonzero c))) as (y & H1 & H2 & H3).
    { now apply p_and. } { reflexivity. }
    exists y. split; [|split; [exact H2|]].
    + cbn [map]. destruct (map (fun a => parenthesize a (ccode a) 30) l) as [|t r]; [exact H1|].
      rewrite !join_cons in *. rewrite !app_assoc_s in H1. exact H1.
    + intros Hd. inversion Hd; subst. rewrite H3, nonzero_cbool, Hcv by assumption. cbn [forallb]. now rewrite andb_assoc.
Qed.
Lemma or_fold l : Forall operand l -> forall s x, parses Or s x -> isint x = true ->
  exists y, parses Or (join " || " (s :: map (fun a => parenthesize a (ccode a) 30) l)) y /\ isint y = true /\
    (Forall defined l -> nonzero y = (nonzero x || existsb (holds w) l)%bool).
Proof.
  induction 1 as [|a l (c & Hc & Hci & Hcv) _ IH]; intros s x Hs Hx.
  - exists x. split; [exact Hs|]. split; [exact Hx|]. intros _. cbn. now rewrite orb_false_r.
  - destruct (IH (s ++ " || " ++ parenthesize a (ccode a) 30) (cbool (nonzero x || nonzero c))) as (y & H1 & H2 & H3).
    { apply p_or; [exact Hs|now apply up_and]. } { reflexivity. }
    exists y. split; [|split; [exact H2|]].
    + cbn [map]. destruct (map (fun a => parenthesize a (ccode a) 30) l) as [|t r]; [exact H1|].
      rewrite !join_cons in *. rewrite !app_assoc_s in H1. exact H1.
    + intros Hd. inversion Hd; subst. rewrite H3, nonzero_cbool, Hcv by assumption. cbn [existsb]. now rewrite orb_assoc.
Qed.
Lemma condition_bool op l : op = "&&" \/ op = "||" -> l <> [] -> Forall operand l -> condition (EBool op l).
Proof.
  intros Ho Hl H. destruct H as [|a l (c & Hc & Hci & Hcv) H]; [congruence|]. unfold condition. cbn [ccode map].
  destruct Ho as [->| ->].
  - destruct (and_fold l H _ c (up_and _ _ Hc) Hci) as (y & H1 & H2 & H3). exists y. split; [apply up_or; exact H1|].
    split; [exact H2|]. intros Hd. apply defined_list in Hd. inversion Hd; subst. rewrite H3, Hcv by assumption. reflexivity.
  - destruct (or_fold l H _ c (up_or _ _ (up_and _ _ Hc)) Hci) as (y & H1 & H2 & H3). exists y. split; [exact H1|].
    split; [exact H2|]. intros Hd. apply defined_list in Hd. inversion Hd; subst. rewrite H3, Hcv by assumption. reflexivity.
Qed.

(** Piecewise *)
Lemma parse_pieces l d : printed d -> Forall (fun p => printed (fst p) /\ condition (snd p)) l ->
  exists c, parses (match l with [] => Additive | _ => Postfix end)
              (print_pieces (map (fun p => (ccode (fst p), ccode (snd p))) l) (ccode d)) c /\ fits (EPiece l d) c.
Proof.
  intros (Hd & _) H. induction H as [|[v cnd] l [Hv Hc] _ IH].
  - destruct Hd as (c & H1 & H2 & H3). exists c. split; [exact H1|]. split; [exact H2|exact H3].
  - destruct IH as (r & Hr & Hri & Hrv). cbn [fst snd] in Hv, Hc.
    destruct Hv as ((x & Hx & Hxi & Hxv) & _). destruct Hc as (z & Hz & _ & Hzv).
    assert (Hr' : parses Cond (print_pieces (map (fun p => (ccode (fst p), ccode (snd p))) l) (ccode d)) r).
    { destruct l; [now apply add_cond|now apply add_cond, up_add, up_mult]. }
    exists (choose (nonzero z) x r). split.
    + cbn [map print_pieces fst snd]. set (rest := print_pieces _ _) in *.
      pose proof (p_paren w _ _ (p_cond w _ _ _ _ _ _
        (up_or _ _ (up_and _ _ (up_eq _ _ (up_rel _ _ (up_add _ _ (up_mult _ _ (p_paren w _ _ (up_cond _ _ Hz))))))))
        (add_cond _ _ (up_add _ _ (up_mult _ _ (p_paren w _ _ (add_cond _ _ Hx)))))
        (add_cond _ _ (up_add _ _ (up_mult _ _ (p_paren w _ _ Hr')))))) as Hp.
      rewrite !app_assoc_s in Hp. exact Hp.
    + split.
      * cbn [integral forallb fst]. rewrite <- Hxi. cbn [integral] in Hri. rewrite <- andb_assoc, <- Hri. destruct x, r; reflexivity.
      * intros Hdef. cbn [CcodeSpec.defined fold_right fst snd] in Hdef. destruct Hdef as [Hdc Hdr]. rewrite (Hzv Hdc).
        unfold CcodeSpec.value. cbn [meaning fst snd fold_right].
        change (snd (meaning w cnd)) with (holds w cnd). destruct (holds w cnd).
        -- assert (E : real (choose true x r) = real x) by (destruct x, r; reflexivity). rewrite E. exact (Hxv Hdr).
        -- assert (E : real (choose false x r) = real r) by (destruct x, r; reflexivity). rewrite E. exact (Hrv Hdr).
Qed.

(** ** All expressions *)
Definition correct (e : expr) : Prop := no_integer_quotient e ->
  (regular false e -> printed e /\ (forall b x, e = EPow b x -> printed b)) /\ (regular true e -> condition e /\ operand e).
Lemma both {A} (P Q : A -> Prop) l : Forall P l -> Forall Q l -> Forall (fun a => P a /\ Q a) l.
Proof. induction 1; intros H'; inversion H'; subst; constructor; auto. Qed.
Theorem correct_all e : correct e.
Proof.
  induction e as [z|p q|n d|n|l IH|l IH|a b IHa IHb|n l IH|op a b IHa IHb|op l IH|l d IH IHd] using expr_all; intros Hq; split; cbn [regular no_integer_quotient] in *.
  - intros _. split; [apply printed_int|discriminate].
  - discriminate.
  - intros _. split; [apply printed_rat|discriminate].
  - discriminate.
  - intros [_ H]. split; [now apply printed_float|discriminate].
  - intros [H _]. discriminate H.
  - intros [_ H]. split; [now apply printed_sym|discriminate].
  - intros [H _]. discriminate H.
  - intros (_ & Hl & Hr). split; [|discriminate]. apply fold_all in Hr, Hq. apply printed_add; [exact Hl|].
    apply Forall_forall. intros a Ha. rewrite Forall_forall in IH, Hr, Hq. split; [now apply Hr|].
    apply (IH a Ha (Hq a Ha)). now apply Hr.
  - intros [H _]. discriminate H.
  - intros (_ & Hl & Hr & Hn). split; [|discriminate]. destruct Hq as [Hq Hi]. apply fold_all in Hr, Hq, Hn.
    apply printed_mul; try assumption. apply Forall_forall. intros a Ha. rewrite Forall_forall in IH, Hr, Hq.
    apply (IH a Ha (Hq a Ha)). now apply Hr.
  - intros [H _]. discriminate H.
  - intros (_ & Hra & Hrb & _). destruct Hq as [Hqa Hqb].
    destruct (IHa Hqa) as [Ha _]. destruct (IHb Hqb) as [Hb _]. destruct (Ha Hra) as [Hpa _]. destruct (Hb Hrb) as [Hpb _].
    split; [now apply printed_pow|]. intros b' x E. injection E as <- _. exact Hpa.
  - intros [H _]. discriminate H.
  - intros (_ & Hw & Hr). split; [|discriminate]. apply fold_all in Hr, Hq. apply printed_fun; [exact Hw|].
    apply Forall_forall. intros a Ha. rewrite Forall_forall in IH, Hr, Hq. apply (IH a Ha (Hq a Ha)). now apply Hr.
  - intros [H _]. discriminate H.
  - intros [H _]. discriminate H.
  - intros (_ & Ho & Hra & Hrb). destruct Hq as [Hqa Hqb]. destruct (IHa Hqa) as [Ha _]. destruct (IHb Hqb) as [Hb _].
    destruct (Ha Hra) as [Hpa _]. destruct (Hb Hrb) as [Hpb _]. split.
    + destruct (parse_rel op a b Ho Hpa Hpb) as (c & Hc & Ht). exists c. split; [now apply up_or, up_and|exact Ht].
    + now apply operand_rel.
  - intros [H _]. discriminate H.
  - intros (_ & Ho & Hl & Hr). apply fold_all in Hr, Hq.
    assert (Hc : condition (EBool op l)).
    { apply condition_bool; [exact Ho|exact Hl|]. apply Forall_forall. intros a Ha. rewrite Forall_forall in IH, Hr, Hq.
      apply (IH a Ha (Hq a Ha)). now apply Hr. }
    split; [exact Hc|now apply operand_bool].
  - intros (_ & Hl & Hr & Hrd). destruct Hq as [Hq Hqd]. split; [|discriminate].
    apply printed_postfix; [reflexivity|]. destruct (IHd Hqd) as [Hd _]. destruct (Hd Hrd) as [Hpd _].
    destruct (parse_pieces l d Hpd) as (c & Hc & Hf).
    { clear Hl. induction IH as [|[v c] l [Hv Hc] _ IHl]; constructor; cbn [fst snd fold_right] in *.
      - destruct Hr as (Hr1 & Hr2 & _). destruct Hq as (Hq1 & Hq2 & _). split; [apply (Hv Hq1), Hr1|apply (Hc Hq2), Hr2].
      - apply IHl; [apply Hq|apply Hr]. }
    exists c. split; [|exact Hf]. destruct l; [congruence|exact Hc].
  - intros [H _]. discriminate H.
Qed.
End World.
