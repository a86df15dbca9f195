(** C113: the value of a boundary condition at a point and a time. *)
From Coq Require Import Reals ZArith List Bool String Lra.
From Verif Require Import Base.Exc Base.Key Model.SympyAst Model.Materials Model.Laws Model.Theta Model.Imposed
  Spec.CcodeSpec Spec.PhysSpec Spec.ThetaSpec Spec.ImposedSpec Proofs.LawProofs Proofs.ThetaProofs Proofs.BcProofs Properties.CcodeProps.
Import ListNotations.
Local Open Scope R_scope.
Local Open Scope string_scope.

Lemma read w code l e : lawful w -> readable w code l -> In e l -> code (ccode e) = value w e.
Proof.
  intros L H Hin. destruct (H e Hin) as (Hr & Hq & Hd & Hc).
  destruct (C93_only_value w e (CI 0) L Hr Hq Hd) as [_ [c G]]. rewrite (Hc c G).
  now apply (C93_only_value w e c L Hr Hq Hd).
Qed.
Lemma converted w code l : lawful w -> readable w code (flat_map of_given l) -> new_prms code (convert_prms l) = map (at_point w) l.
Proof.
  intros L. induction l as [|[k g] l IH]; intros H; [reflexivity|]. cbn [convert_prms new_prms map].
  rewrite IH by (intros e He; apply H; cbn [flat_map]; apply in_or_app; now right). f_equal.
  unfold at_point. cbn [fst snd]. destruct g as [x|e]; [reflexivity|]. cbn [local_value]. do 2 f_equal.
  apply (read w code _ e L H). cbn [flat_map]. apply in_or_app. left. now left.
Qed.
Lemma ok_iff {A} (x v : A) : Ok x = Ok v <-> v = x.
Proof. split; [now intros [= ->]|now intros ->]. Qed.

(** Every class of Dirichlet condition gives at a point exactly what it stands for there, and an exception
    exactly if its arguments are not complete (or the function of the user raises it). *)
Theorem C113_dirichlet : forall w code ms z T c v, lawful w -> readable w code (inputs c) -> 0 < T ->
  (evaluate ms z code T (create_expression c) = Ok v <-> stands_for w T c v).
Proof.
  intros w code ms z T c v L H HT.
  assert (Hv : forall e, In e (inputs c) -> code (ccode e) = value w e) by (intros e; now apply read).
  destruct c as [e|f l|phi R_p D_0 E_D Kr_0 E_Kr Kd_0 E_Kd P|S_0 E_S p|H_0 E_H p]; cbn [create_expression evaluate].
  - rewrite (Hv e) by now left. rewrite ok_iff. split; [intros ->; constructor|]. intros G. now inversion G.
  - rewrite (converted w code l L H). split; [now constructor|]. intros G. now inversion G.
  - cbn [new_prms local_value]. unfold call_dc_imp, numeric.
    cbn [argument String.eqb Ascii.eqb Bool.eqb bind number].
    rewrite (Hv phi) by now left. rewrite (Hv R_p) by (right; now left).
    assert (Hp : local_value code match P with Some P => Expression (ccode P) | None => NoneValue end = option_map (value w) P).
    { destruct P as [P|]; [|reflexivity]. cbn. f_equal. apply Hv. right. right. now left. }
    rewrite Hp. clear Hp. assert (Ho : forall o, local_value code (optional o) = o) by now intros [|]. rewrite !Ho. clear Ho.
    unfold dc_imp. cbv zeta. rewrite (arrhenius_model D_0 E_D T HT). destruct Kr_0 as [Kr_0|].
    + destruct E_Kr as [E_Kr|]; cbn [number bind];
        [|split; [discriminate|intros G; inversion G]].
      rewrite (arrhenius_model Kr_0 E_Kr T HT). destruct Kd_0 as [Kd_0|].
      * destruct E_Kd as [E_Kd|]; cbn [number bind]; [|split; [discriminate|intros G; inversion G]].
        rewrite (arrhenius_model Kd_0 E_Kd T HT).
        destruct P as [P|]; cbn [option_map number bind]; [|split; [discriminate|intros G; inversion G]].
        rewrite ok_iff. split; [intros ->; constructor|]. intros G. now inversion G.
      * rewrite ok_iff. split; [intros ->; constructor|]. intros G. now inversion G.
    + rewrite ok_iff. split; [intros ->; constructor|]. intros G. now inversion G.
  - cbn [new_prms local_value]. unfold call_sieverts_law, numeric.
    cbn [argument String.eqb Ascii.eqb Bool.eqb bind number]. unfold sieverts_law. cbv zeta.
    rewrite (arrhenius_model S_0 E_S T HT), (Hv p) by now left. rewrite ok_iff. split; [intros ->; constructor|]. intros G. now inversion G.
  - cbn [new_prms local_value]. unfold call_henrys_law, numeric.
    cbn [argument String.eqb Ascii.eqb Bool.eqb bind number]. unfold henrys_law. cbv zeta.
    rewrite (arrhenius_model H_0 E_H T HT), (Hv p) by now left. rewrite ok_iff. split; [intros ->; constructor|]. intros G. now inversion G.
Qed.

(** After create_dirichletbc: the same, except for the mobile species with chemical potentials, where the value
    is the one of the unknown of the material at the point; that is refused for functions of the user. *)
Theorem C113_finished : forall w code ms m z T S field chemical_pot c, lawful w -> readable w code (inputs c) -> 0 < T ->
  owner ms m z -> has_solubility m T S ->
  let mobile := field = KI 0 \/ field = KS "0" \/ field = KS "solute" in
  ((exists x, finished chemical_pot field c = Err x) <->
     mobile /\ chemical_pot = true /\ exists f l, c = CustomDirichlet f l) /\
  forall e, finished chemical_pot field c = Ok e -> forall u,
    (evaluate ms z code T e = Ok u <->
     exists v, stands_for w T c v /\
       ((mobile /\ chemical_pot = true) /\ u = match m_law m with Sievert => v / S | Henry => sqrt (v / S + 3 / 10 ^ 16) end \/
        ~ (mobile /\ chemical_pot = true) /\ u = v)).
Proof.
  intros w code ms m z T S field cp c L H HT [Hn [Hm Hz]] (S0 & ES & HS & HE & Hpos & ->) mobile.
  assert (Hb : existsb (key_eqb field) [KI 0; KS "0"; KS "solute"] = true <-> mobile).
  { unfold mobile. rewrite existsb_key. cbn [In]. intuition congruence. }
  assert (Hth : forall v, bc_theta ms z T v = Ok match m_law m with Sievert => v / arrhenius S0 ES T
                                                | Henry => sqrt (v / arrhenius S0 ES T + 3 / 10 ^ 16) end).
  { intros v. unfold bc_theta. rewrite (find_unique ms m z Hn Hm Hz). cbn [bind]. rewrite HS, HE. cbn [float_of bind]. cbv zeta.
    rewrite (arrhenius_model S0 ES T HT). destruct (m_law m); [reflexivity|]. do 3 f_equal. unfold DOLFIN_EPS. f_equal. f_equal. ring. }
  unfold finished. cbv zeta. destruct (existsb (key_eqb field) [KI 0; KS "0"; KS "solute"]) eqn:Eb; cbn [andb].
  - assert (M : mobile) by now apply Hb. destruct cp.
    + split.
      * split; [|intros (_ & _ & f & l & ->); eexists; reflexivity].
        intros [x Hx]. split; [exact M|]. split; [reflexivity|]. destruct c; try discriminate Hx. now exists f, prms.
      * intros e He u. assert (Ee : e = BcTheta (create_expression c)) by (destruct c; congruence). subst e. cbn [evaluate].
        split.
        -- destruct (evaluate ms z code T (create_expression c)) as [v|x] eqn:Ev; cbn [bind]; [|discriminate]. rewrite Hth. intros [= <-].
           exists v. split; [now apply (C113_dirichlet w code ms z)|]. left. now split.
        -- intros (v & Hv & [[_ ->]|[G _]]); [|exfalso; apply G; now split].
           apply (C113_dirichlet w code ms z T c v L H HT) in Hv. rewrite Hv. cbn [bind]. apply Hth.
    + split.
      * split; [intros [x Hx]; discriminate|intros (_ & G & _); discriminate].
      * intros e [= <-] u. rewrite (C113_dirichlet w code ms z T c u L H HT). split.
        -- intros G. exists u. split; [exact G|]. right. split; [intros [_ G']; discriminate|reflexivity].
        -- intros (v & Hv & [[[_ G] _]|[_ ->]]); [discriminate|exact Hv].
  - assert (M : ~ mobile) by (intros M; apply Hb in M; discriminate). split.
    + split; [intros [x Hx]; discriminate|intros (G & _); contradiction].
    + intros e [= <-] u. rewrite (C113_dirichlet w code ms z T c u L H HT). split.
      * intros G. exists u. split; [exact G|]. right. split; [intros [G' _]; contradiction|reflexivity].
      * intros (v & Hv & [[[G _] _]|[_ ->]]); [contradiction|exact Hv].
Qed.

(** Every class of flux. *)
Theorem C113_flux : forall w code T solute fl, lawful w -> readable w code (flux_inputs fl) -> 0 < T ->
  create_form code T solute fl = flows_in w T solute fl.
Proof.
  intros w code T solute fl L H HT.
  assert (Hv : forall e, In e (flux_inputs fl) -> code (ccode e) = value w e) by (intros e; now apply read).
  destruct fl as [v|f l|Kr_0 E_Kr order|Kd_0 E_Kd P|h c_ext|h T_ext]; cbn [create_form flows_in].
  - apply Hv. now left.
  - now rewrite (converted w code l L H).
  - rewrite (Hv Kr_0), (Hv E_Kr) by (cbn; tauto). unfold recombination_form. cbv zeta. rewrite arrhenius_model by exact HT. ring.
  - rewrite (Hv Kd_0), (Hv E_Kd), (Hv P) by (cbn; tauto). unfold dissociation_form. cbv zeta. now rewrite arrhenius_model.
  - rewrite (Hv h), (Hv c_ext) by (cbn; tauto). unfold mass_form. ring.
  - rewrite (Hv h), (Hv T_ext) by (cbn; tauto). unfold convective_form. ring.
Qed.

(** ** Examples: a pressure 3*t*x + 1.5, at x = 5 and t = 2 *)
Definition pressure : expr := EAdd [EMul [SympyAst.EInt 3; ESym "t"; ESym "x[0]"]; EFloat false "1.5"].
Definition compiled (s : string) : R := if String.eqb s "3*t*x[0] + 1.5" then 63 / 2 else 0.
Example C113_pressure : ccode pressure = "3*t*x[0] + 1.5" /\ value real_world pressure = 63 / 2.
Proof.
  split; [reflexivity|]. change (value real_world pressure) with
    (3 * (w_name real_world "t" * (w_name real_world "x[0]" * 1)) + (1 * (IZR 15 / 10 ^ 1) + 0)).
  cbn [w_name real_world String.eqb Ascii.eqb Bool.eqb]. lra.
Qed.
Example C113_readable : lawful real_world /\ readable real_world compiled (inputs (SievertsBC 2 (1 / 5) pressure)).
Proof.
  split; [exact (proj1 C93_world)|]. intros e [<-|[]].
  assert (Hr : regular false pressure).
  { unfold pressure. cbn [regular fold_right tl negative_number]. pose proof x0_name. assert (name "t") by (left; reflexivity).
    assert (decimal "1.5" <> None) by discriminate. repeat split; try discriminate; auto. }
  assert (Hq : no_integer_quotient pressure) by (cbn; repeat split; intros; discriminate).
  assert (Hd : defined real_world pressure) by (cbn; repeat split).
  split; [exact Hr|]. split; [exact Hq|]. split; [exact Hd|].
  intros c Hc. rewrite (proj1 (C93_only_value _ _ c (proj1 C93_world) Hr Hq Hd) Hc), (proj2 C113_pressure). reflexivity.
Qed.
(** The concentration of Sieverts' law at 600 K there. *)
Example C113_sieverts : forall ms z,
  evaluate ms z compiled 600 (create_expression (SievertsBC 2 (1 / 5) pressure)) = Ok (arrhenius 2 (1 / 5) 600 * sqrt (63 / 2)).
Proof.
  intros ms z. apply (C113_dirichlet real_world); [exact (proj1 C113_readable)|exact (proj2 C113_readable)|lra|].
  rewrite <- (proj2 C113_pressure). constructor.
Qed.
(** A function of the user with two parameters. *)
Example C113_custom : forall ms z,
  evaluate ms z compiled 600 (create_expression (CustomDirichlet
    (fun T l => let! a := numeric l "a" in let! b := numeric l "b" in Ok (T + a * b)) [("b", GivenNumber 2); ("a", GivenExpr pressure)]))
  = Ok 663.
Proof. intros ms z. cbn -[ccode compiled]. change (ccode pressure) with "3*t*x[0] + 1.5". cbn [compiled String.eqb Ascii.eqb Bool.eqb]. f_equal. unfold compiled. cbn. lra. Qed.
(** With chemical potentials in a Henry material of solubility 2 at any temperature: the value is another one. *)
Definition salt : mat :=
  mkMaterial (IdOne 1) None (Const 1) (Const 0) (Some (Const 2)) (Some (Const 0)) None None None BNone None Henry.
Example C113_salt : owner [salt] salt 1 /\ has_solubility salt 600 2 /\
  (exists e, finished true (KI 0) (SievertsBC 2 (1 / 5) pressure) = Ok e /\
     evaluate [salt] 1 compiled 600 e = Ok (sqrt (arrhenius 2 (1 / 5) 600 * sqrt (63 / 2) / 2 + 3 / 10 ^ 16))) /\
  (exists x, finished true (KI 0) (CustomDirichlet (fun T _ => Ok T) []) = Err x).
Proof.
  assert (O : owner [salt] salt 1).
  { split; [repeat constructor; intros []|]. split; left; reflexivity. }
  assert (HS : has_solubility salt 600 2).
  { exists 2, 0. repeat split; [lra|]. unfold arrhenius. replace (0 / (boltzmann * 600)) with 0 by (unfold boltzmann; field; lra). rewrite exp_0. field. }
  split; [exact O|]. split; [exact HS|]. split; [|eexists; reflexivity].
  eexists. split; [reflexivity|].
  eapply (C113_finished real_world compiled [salt] salt 1 600 2 (KI 0) true (SievertsBC 2 (1 / 5) pressure));
    [exact (proj1 C113_readable)|exact (proj2 C113_readable)|lra|exact O|exact HS|reflexivity|].
  exists (arrhenius 2 (1 / 5) 600 * sqrt (63 / 2)). split.
  - rewrite <- (proj2 C113_pressure). constructor.
  - left. split; [split; [now left|reflexivity]|reflexivity].
Qed.
(** A flux by dissociation under that pressure. *)
Example C113_dissociation : readable real_world (fun s => if String.eqb s "2" then 2 else if String.eqb s "0" then 0 else compiled s)
    (flux_inputs (DissociationFlux (SympyAst.EInt 2) (SympyAst.EInt 0) pressure)) /\
  flows_in real_world 600 1 (DissociationFlux (SympyAst.EInt 2) (SympyAst.EInt 0) pressure) = 63.
Proof.
  split.
  - intros e [<-|[<-|[<-|[]]]].
    1: pose proof (fun c => proj1 (C93_only_value real_world (SympyAst.EInt 2) c (proj1 C93_world) eq_refl I I)) as G.
    2: pose proof (fun c => proj1 (C93_only_value real_world (SympyAst.EInt 0) c (proj1 C93_world) eq_refl I I)) as G.
    1,2: split; [reflexivity|]; split; [exact I|]; split; [exact I|]; intros c Hc; rewrite (G c Hc); reflexivity.
    destruct (proj2 C113_readable pressure (or_introl eq_refl)) as (H1 & H2 & H3 & H4).
    split; [exact H1|]. split; [exact H2|]. split; [exact H3|]. exact H4.
  - unfold flows_in. rewrite (proj2 C113_pressure). change (value real_world (SympyAst.EInt 2)) with 2. change (value real_world (SympyAst.EInt 0)) with 0.
    unfold arrhenius. replace (0 / (boltzmann * 600)) with 0 by (unfold boltzmann; field; lra). rewrite exp_0. field.
Qed.

Print Assumptions C113_dirichlet.
Print Assumptions C113_finished.
Print Assumptions C113_flux.
