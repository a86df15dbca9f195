(** C93: the C code that stands for an expression of the user computes the value of the expression. *)
From Coq Require Import ZArith List Bool String Reals Lia Lra.
From Verif Require Import Base.Key Model.SympyAst Spec.CcodeSpec Proofs.CcodeProofs Proofs.GrammarProofs.
Import ListNotations.
Local Open Scope string_scope.

(** Every number of sympy: the text is an expression of C, and where no division by zero is evaluated its
    value is that of the expression, whatever the coordinates and the time. *)
Theorem C93_value : forall w e, lawful w -> regular false e -> no_integer_quotient e ->
  exists c, parses w Cond (ccode e) c /\ (defined w e -> real c = value w e).
Proof.
  intros w e L Hr Hq. destruct (correct_all w L e Hq) as [H _]. destruct (H Hr) as [((c & Hc & _ & Hv) & _) _].
  exists c. split; [now apply add_cond|exact Hv].
Qed.

(** Every condition of sympy: the text is an expression of C that is not 0 exactly when the condition holds. *)
Theorem C93_condition : forall w e, lawful w -> regular true e -> no_integer_quotient e ->
  exists c, parses w Cond (ccode e) c /\ (defined w e -> nonzero c = holds w e).
Proof.
  intros w e L Hr Hq. destruct (correct_all w L e Hq) as [_ H]. destruct (H Hr) as [(c & Hc & _ & Hv) _].
  exists c. split; [now apply up_cond|exact Hv].
Qed.

(** The grammar of C is not ambiguous: a text, printed by sympy or not, has at most one value at each level. *)
Theorem C93_one_reading : forall w l s c c', parses w l s c -> parses w l s c' -> c = c'.
Proof. intros w l s c c'. exact (parses_one w (String.length s) l s c c' (le_n _)). Qed.
(** So the value of the expression is the only one that its code can have. *)
Theorem C93_only_value : forall w e c, lawful w -> regular false e -> no_integer_quotient e -> defined w e ->
  (parses w Cond (ccode e) c -> real c = value w e) /\ (exists c, parses w Cond (ccode e) c).
Proof.
  intros w e c L Hr Hq Hd. destruct (C93_value w e L Hr Hq) as (c0 & H0 & Hv). split; [|now exists c0].
  intros H. rewrite (C93_one_reading w Cond _ c c0 H H0). now apply Hv.
Qed.
Theorem C93_only_condition : forall w e c, lawful w -> regular true e -> no_integer_quotient e -> defined w e ->
  (parses w Cond (ccode e) c -> nonzero c = holds w e) /\ (exists c, parses w Cond (ccode e) c).
Proof.
  intros w e c L Hr Hq Hd. destruct (C93_condition w e L Hr Hq) as (c0 & H0 & Hv). split; [|now exists c0].
  intros H. rewrite (C93_one_reading w Cond _ c c0 H H0). now apply Hv.
Qed.

(** Without the condition on quotients it does not hold: 3 divided by a Piecewise of 1 and 2 is a division of
    integers in C. *)
Definition three_halves : expr :=
  EMul [EInt 3; EPow (EPiece [(EInt 1, ERel "<" (ESym "x[0]") (EInt 1))] (EInt 2)) (EInt (-1))].
Example C93_quotient_text : ccode three_halves = "3/((x[0] < 1) ? (1) : (2))".
Proof. reflexivity. Qed.
Lemma x0_name : name "x[0]".
Proof. right. exists "x", 0%N. split; reflexivity. Qed.
Theorem C93_quotient_refuted : forall w, lawful w -> (w_name w "x[0]" = 5)%R ->
  exists e c, regular false e /\ defined w e /\ parses w Cond (ccode e) c /\ real c = 1%R /\ value w e = (3 / 2)%R.
Proof.
  intros w L Hx. exists three_halves, (CI 1).
  assert (Hrel : relation "<" (w_name w "x[0]") 1 = false).
  { unfold relation. cbn [String.eqb Ascii.eqb Bool.eqb]. destruct (Rlt_dec (w_name w "x[0]") 1); [lra|reflexivity]. }
  assert (Hbase : value w (EPiece [(EInt 1, ERel "<" (ESym "x[0]") (EInt 1))] (EInt 2)) = 2%R).
  { unfold value. cbn [meaning fst snd fold_right]. rewrite Hrel. reflexivity. }
  split; [|split; [|split; [|split]]].
  - cbn. repeat split; try discriminate; try exact x0_name; try exact I.
  - split; [exact I|]. split; [|exact I]. split; [|split; [exact I|rewrite Hbase; lra]].
    cbn [defined fold_right fst snd]. split; [split; exact I|]. destruct (holds w _); exact I.
  - rewrite C93_quotient_text. change "3/((x[0] < 1) ? (1) : (2))" with ("3" ++ "/" ++ "(" ++ ("(x[0] < 1) ? (1) : (2)") ++ ")").
    apply add_cond, up_add. change (CI 1) with (arith Z.quot Rdiv (CI 3) (CI 2)).
    apply p_div; [apply up_mult; exact (p_int w 3 ltac:(lia))|]. apply up_unary, p_paren.
    change "(x[0] < 1) ? (1) : (2)" with ("(x[0] < 1)" ++ " ? " ++ "(1)" ++ " : " ++ "(2)").
    change (CI 2) with (choose (nonzero (cbool false)) (CI 1) (CI 2)). apply p_cond.
    + apply up_or, up_and, up_eq, up_rel, up_add, up_mult. apply (p_paren w "x[0] < 1").
      assert (Eb : cbool false = cbool (relation "<" (w_name w "x[0]") 1)) by now rewrite Hrel. rewrite Eb.
      apply up_cond, up_or, up_and, up_eq. apply (p_rel w "<" "x[0]" "1" (CD (w_name w "x[0]")) (CI 1)); [reflexivity| |].
      * apply up_rel, up_add, up_mult, p_name, x0_name.
      * apply up_add, up_mult. exact (p_int w 1 ltac:(lia)).
    + apply add_cond, up_add, up_mult. apply (p_paren w "1"). apply add_cond, up_add, up_mult. exact (p_int w 1 ltac:(lia)).
    + apply add_cond, up_add, up_mult. apply (p_paren w "2"). apply add_cond, up_add, up_mult. exact (p_int w 2 ltac:(lia)).
  - reflexivity.
  - change (value w three_halves) with (IZR 3 * (w_pow w (value w (EPiece [(EInt 1, ERel "<" (ESym "x[0]") (EInt 1))] (EInt 2))) (IZR (-1)) * 1))%R.
    rewrite Hbase. change (-1)%Z with (- (1))%Z. rewrite opp_IZR, (l_inv w L) by lra. rewrite (l_one w L). lra.
Qed.

(** The same quotient with a number that is not an integer is right. *)
Theorem C93_quotient_float : forall w, lawful w ->
  exists c, parses w Cond "3.0/((x[0] < 1) ? (1) : (2))" c /\ (w_name w "x[0]" = 5 -> real c = 3 / 2)%R.
Proof.
  intros w L. set (e := EMul [EFloat false "3.0"; EPow (EPiece [(EInt 1, ERel "<" (ESym "x[0]") (EInt 1))] (EInt 2)) (EInt (-1))]).
  assert (H30 : decimal "3.0" = Some (IZR 30 / 10 ^ 1)%R) by reflexivity.
  destruct (C93_value w e L) as (c & Hc & Hv).
  - subst e. cbn [regular fold_right tl]. repeat split; try discriminate; try exact x0_name; try exact I.
  - cbn. repeat split; auto.
  - exists c. split; [exact Hc|]. intros Hx.
    assert (Hrel : relation "<" (w_name w "x[0]") 1 = false).
    { unfold relation. cbn [String.eqb Ascii.eqb Bool.eqb]. destruct (Rlt_dec (w_name w "x[0]") 1); [lra|reflexivity]. }
    assert (Hbase : value w (EPiece [(EInt 1, ERel "<" (ESym "x[0]") (EInt 1))] (EInt 2)) = 2%R).
    { unfold value. cbn [meaning fst snd fold_right]. rewrite Hrel. reflexivity. }
    rewrite Hv.
    + change (value w e) with (1 * (match decimal "3.0" with Some r => r | None => 0 end) *
        (w_pow w (value w (EPiece [(EInt 1, ERel "<" (ESym "x[0]") (EInt 1))] (EInt 2))) (IZR (-1)) * 1))%R.
      rewrite Hbase, H30. change (-1)%Z with (- (1))%Z. rewrite opp_IZR, (l_inv w L) by lra. rewrite (l_one w L). lra.
    + split; [exact I|]. split; [|exact I]. split; [|split; [exact I|rewrite Hbase; lra]].
      cbn [defined fold_right fst snd]. split; [split; exact I|]. destruct (holds w _); exact I.
Qed.

(** ** Examples *)
(** A world: real numbers, with x = 5 and t = 2. *)
Definition integer_part (y : R) : option Z := if Req_EM_T y (IZR (Int_part y)) then Some (Int_part y) else None.
Definition power (a y : R) : R := match integer_part y with Some k => powerRZ a k | None => Rpower (Rabs a) y end.
Definition real_world : world :=
  mkWorld (fun n => if String.eqb n "t" then 2%R else 5%R)
          (fun n l => match l with
                      | [a; b] => power a b
                      | [a] => if String.eqb n "sqrt" then power a (1 / 2)%R else if String.eqb n "cbrt" then power a (1 / 3)%R else exp a
                      | _ => 0%R
                      end) power.
Lemma integer_part_IZR k : integer_part (IZR k) = Some k.
Proof.
  assert (E : Int_part (IZR k) = k).
  { destruct (base_Int_part (IZR k)) as [H1 H2]. apply le_IZR in H1.
    assert (H3 : (IZR k < IZR (Int_part (IZR k) + 1))%R) by (rewrite plus_IZR; lra). apply lt_IZR in H3. lia. }
  unfold integer_part. rewrite E. destruct (Req_EM_T (IZR k) (IZR k)); [reflexivity|congruence].
Qed.
Lemma integer_part_some y k : integer_part y = Some k -> y = IZR k.
Proof. unfold integer_part. destruct (Req_EM_T y (IZR (Int_part y))) as [H|]; [|discriminate]. intros E. injection E as <-. exact H. Qed.
Example C93_world : lawful real_world /\ w_name real_world "x[0]" = 5%R.
Proof.
  split; [|reflexivity]. constructor; try (intros; reflexivity); cbn [w_pow real_world]; unfold power.
  - intros a. change 1%R with (IZR 1). rewrite integer_part_IZR. apply powerRZ_1.
  - intros a b Ha. destruct (integer_part b) as [k|] eqn:E.
    + apply integer_part_some in E. subst b. rewrite <- opp_IZR, integer_part_IZR, powerRZ_neg'. reflexivity.
    + destruct (integer_part (- b)) as [k|] eqn:E'; [|apply Rpower_Ropp].
      apply integer_part_some in E'. assert (Eb : b = IZR (- k)) by (rewrite opp_IZR; lra). rewrite Eb, integer_part_IZR in E. discriminate.
Qed.
(** -2*x**2/(3*t) + Piecewise((sqrt(x), t < 10), (1/x, True)) + 300.5 + exp(-x/2)*(t - 1) *)
Definition mixed : expr :=
  EAdd [EMul [ERat (-2) 3; EPow (ESym "x[0]") (EInt 2); EPow (ESym "t") (EInt (-1))];
        EPiece [(EPow (ESym "x[0]") (ERat 1 2), EBool "&&" [ERel "<" (ESym "t") (EInt 10); ERel ">=" (ESym "t") (EInt 0)])]
               (EPow (ESym "x[0]") (EInt (-1)));
        EFloat false "300.5";
        EMul [EFun "exp" [EMul [ERat (-1) 2; ESym "x[0]"]]; EAdd [ESym "t"; EInt (-1)]]].
Example C93_mixed_text : ccode mixed =
  "-2.0/3.0*pow(x[0], 2)/t + ((t < 10 && t >= 0) ? (sqrt(x[0])) : (1.0/x[0])) + 300.5 + exp(-1.0/2.0*x[0])*(t - 1)".
Proof. reflexivity. Qed.
Example C93_mixed : regular false mixed /\ no_integer_quotient mixed /\ defined real_world mixed.
Proof.
  assert (Ht : name "t") by (left; reflexivity). pose proof x0_name as Hx.
  assert (Hd : decimal "300.5" <> None) by discriminate.
  split; [|split].
  - unfold mixed. cbn [regular fold_right tl negative_number fst snd]. repeat split; try discriminate; try exact I; auto; try (left; reflexivity).
  - cbn. repeat split; auto.
  - unfold mixed. cbn [defined fold_right fst snd]. repeat split; try exact I.
    + unfold value. cbn [meaning fst w_name real_world String.eqb Ascii.eqb Bool.eqb]. lra.
    + destruct (holds real_world _); repeat split; try exact I. unfold value. cbn [meaning fst w_name real_world String.eqb Ascii.eqb Bool.eqb]. lra.
Qed.
(** A condition *)
Example C93_condition_example :
  let e := EBool "||" [ERel "<" (ESym "t") (EInt 10); EBool "&&" [ERel ">" (ESym "x[0]") (EFloat true "1.5e-3"); ERel "!=" (ESym "t") (EInt 2)]] in
  ccode e = "t < 10 || (x[0] > -1.5e-3 && t != 2)" /\ regular true e /\ no_integer_quotient e /\ defined real_world e.
Proof.
  assert (Ht : name "t") by (left; reflexivity). pose proof x0_name as Hx.
  assert (Hd : decimal "1.5e-3" <> None) by discriminate.
  split; [reflexivity|]. split; [|split].
  - cbn [regular fold_right]. repeat split; try discriminate; auto.
  - cbn. repeat split.
  - cbn. repeat split.
Qed.

(** 1 - 2 - 3 is read from the left, and only so. *)
Example C93_left : forall w c, parses w Cond "1 - 2 - 3" c <-> c = CI (-4).
Proof.
  intros w c. assert (H : parses w Cond "1 - 2 - 3" (CI (-4))).
  { assert (N : forall z, (0 <= z)%Z -> parses w Mult (str z) (CI z)) by (intros; apply (p_up w Unary), (p_up w Postfix); now constructor).
    apply (p_up w Or), (p_up w And), (p_up w Equality), (p_up w Relational), (p_up w Additive).
    apply (p_sub w "1 - 2" "3" (CI (-1)) (CI 3)); [|now apply (N 3%Z)].
    apply (p_sub w "1" "2" (CI 1) (CI 2)); [apply (p_up w Mult); now apply (N 1%Z)|now apply (N 2%Z)]. }
  split; [|now intros ->]. intros H'. exact (C93_one_reading w Cond _ _ _ H' H).
Qed.

Print Assumptions C93_value.
Print Assumptions C93_one_reading.
Print Assumptions C93_only_value.
Print Assumptions C93_only_condition.
Print Assumptions C93_condition.
Print Assumptions C93_quotient_refuted.
Print Assumptions C93_quotient_float.
