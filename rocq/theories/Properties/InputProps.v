(** C91: arguments in several forms, and wrong arguments. *)
From Coq Require Import Reals ZArith QArith List Bool Lqa Lia String.
From Verif Require Model.Bcs Model.Materials.
From Verif Require Import Base.Exc Base.Num Base.Key Model.Paths Model.XdmfInit Model.SympyAst Model.Exports Model.Quantities Model.Inputs
  Spec.XdmfInitSpec Spec.InputSpec Spec.TimeSpec Proofs.NumQ Proofs.StepsizeProofs Proofs.TimeLoopProofs Proofs.TimeChain Proofs.TimeQ2
  Properties.XdmfInitProps.
From Verif Require Import Model.Stepsize Model.TimeLoop.
Import ListNotations.
Local Open Scope string_scope.

(** ** Simulation.T and Simulation.dt *)
Theorem C91_T v :
  (forall t, set_T v = Ok t <-> is_temperature v t) /\
  (forall e, set_T v = Err e -> type_error e /\ forall t, ~ is_temperature v t).
Proof.
  assert (HE : forall t, is_temperature v t -> set_T v = Ok t) by (intros t [ |k|w x []|e]; reflexivity).
  split.
  - intros t. split; [|apply HE].
    destruct v as [|[]|z|x|s|e|k|k|k|k|s|k]; cbn [set_T]; try discriminate; intros E; injection E as <-;
      try (eapply TempNumber; constructor); constructor.
  - intros e He. split; [|intros t Ht; apply HE in Ht; congruence].
    revert He. destruct v; cbn [set_T]; try discriminate; intros E; injection E as <-; eexists; reflexivity.
Qed.

(** A number gives the stepsize that is this number for the whole run: every step is as long as the previous one, or ends at final_time. *)
Section Runs.
Local Open Scope Q_scope.
Context {U X D E : Type}.
Variable temp : temperature (A:=Q) X.
Variable dens_solve : D -> D -> Q -> X -> D.
Variable post : Q -> U -> X -> E -> res E.
Theorem C91_dt v :
  (v = PNone <-> set_dt v = Ok None) /\
  (forall s, v = PStepsize s -> set_dt v = Ok (Some s)) /\
  (forall x, is_number v x -> exists s, set_dt v = Ok (Some s) /\
     forall F T Tn u un d dn e sched st' evs stt, run_transient temp dens_solve post F (start s T Tn u un d dn e) sched = (st', evs, stt) ->
       (forall c r, solves evs = c :: r -> sv_dt c = x) /\
       chain (fun c1 c2 => sv_dt c2 = sv_dt c1 \/ sv_t c2 == F) (solves evs)) /\
  (forall e, set_dt v = Err e -> type_error e /\ v <> PNone /\ (forall s, v <> PStepsize s) /\ forall x, ~ is_number v x).
Proof.
  split; [|split; [|split]].
  - split; [intros ->; reflexivity|]. destruct v; cbn; try discriminate. reflexivity.
  - intros s ->. reflexivity.
  - intros x Hx. exists (mk_stepsize x None None None MaxNone None None).
    split; [destruct Hx; reflexivity|]. intros F T Tn u un d dn e sched st' evs stt H. split.
    + intros c r Hc. destruct (run_first_solve temp dens_solve post F _ _ _ _ _ _ _ H Hc) as (_ & _ & Hd & _). exact Hd.
    + eapply chain_impl; [|exact (run_chain_start temp dens_solve post F _ _ _ _ _ _ _ _ _ _ _ _ H)].
      intros c1 c2 [Hr|Hn].
      * left. destruct Hr as (_ & _ & _ & _ & _ & _ & _ & s1 & s2 & [Hs1 Hs2] & Hv & Had & <-).
        unfold adapted, calls_adapt in Had. rewrite Hs1, Hs2 in Had. cbn in Had. now subst s2.
      * destruct Hn as (_ & _ & _ & Ht & _ & s1 & s2 & [Hs1 Hs2] & Hv & Had & Hdt & _).
        unfold adapted, calls_adapt in Had. rewrite Hs1, Hs2 in Had. cbn in Had. subst s2.
        unfold clamp_final in Hdt. cbn [nltb] in Hdt. destruct (nltb F (nadd (sv_t c1) (value s1))).
        -- right. rewrite Ht, Hdt, assign_value. cbn. ring.
        -- left. congruence.
  - intros e. destruct v as [|[]|z|x|s|e0|k|k|k|k|s|k]; cbn; try discriminate; intros H; injection H as <-;
      (split; [eexists; reflexivity|]); (split; [discriminate|]); (split; [discriminate|]); intros x Hx; inversion Hx.
Qed.
End Runs.

(** ** Sources and exports *)
Theorem C91_decay v :
  (forall x, set_decay_constant v = Ok x <-> is_number v x /\ 0 < x)%Q /\
  (forall e, set_decay_constant v = Err e ->
    (type_error e /\ forall x, ~ is_number v x) \/ (value_error e /\ exists x, is_number v x /\ x <= 0)%Q).
Proof.
  assert (HN : (exists x, is_number v x /\ number v = Some x) \/ (number v = None /\ forall x, ~ is_number v x)).
  { destruct v as [|[]|z|x|s|e0|k|k|k|k|s|k]; cbn; try (left; eexists; split; [constructor|reflexivity]); right; (split; [reflexivity|]);
      intros y H; inversion H. }
  unfold set_decay_constant. destruct HN as [(x & Hx & ->)|(-> & Hn)].
  - assert (HU : forall y, is_number v y -> y = x) by (intros y Hy; destruct Hx; inversion Hy; reflexivity).
    destruct (Qle_bool x 0) eqn:E.
    + apply Qle_bool_iff in E. split.
      * intros y. split; [discriminate|]. intros [Hy Hp]. rewrite (HU y Hy) in Hp. lra.
      * intros e H; injection H as <-. right. split; [eexists; reflexivity|]. eauto.
    + assert (Hp : (0 < x)%Q) by (apply Qnot_le_lt; intros H; apply Qle_bool_iff in H; congruence). split.
      * intros y. split; [intros H; injection H as <-; auto|]. intros [Hy _]. now rewrite (HU y Hy).
      * discriminate.
  - split; [intros x; split; [discriminate|intros [H _]; now elim (Hn x)]|].
    intros e H; injection H as <-. left. split; [eexists; reflexivity|exact Hn].
Qed.

Theorem C91_filename ext v :
  (forall f, set_filename ext v = Ok f <-> (v = PNone /\ f = None) \/ exists p, v = PStr (p ++ ext) /\ f = Some (p ++ ext)) /\
  (forall e, set_filename ext v = Err e -> (value_error e /\ exists s, v = PStr s) \/ (type_error e /\ v <> PNone /\ forall s, v <> PStr s)).
Proof.
  destruct v as [|b|z|x|s|e0|k|k|k|k|s|k]; cbn [set_filename];
    try (split; [intros f; split; [discriminate|intros [[H _]|(p & H & _)]; discriminate]|];
         intros e H; injection H as <-; right; split; [eexists; reflexivity|split; discriminate]).
  - split; [|discriminate]. intros f. split; [intros H; injection H as <-; auto|]. intros [[_ ->]|(p & H & _)]; [reflexivity|discriminate].
  - pose proof (endswith_spec s ext) as H. destruct (endswith s ext).
    + destruct (proj1 H eq_refl) as [p ->]. split; [|discriminate]. intros f. split; [intros E; injection E as <-; eauto|].
      intros [[E _]|(q & E & ->)]; [discriminate|]. now injection E as ->.
    + split.
      * intros f. split; [discriminate|]. intros [[E _]|(q & E & ->)]; [discriminate|]. injection E as ->.
        enough (false = true) by discriminate. apply H. eauto.
      * intros e E; injection E as <-. left. split; [eexists; reflexivity|eauto].
Qed.

(** Why an XDMFExport is refused, and with which class of error. *)
Theorem C91_xdmf field label filename mode checkpoint folder e :
  XDMFExport field label filename mode checkpoint folder = Err e -> xdmf_refused field label filename mode checkpoint folder e.
Proof.
  unfold XDMFExport. destruct (set_label field label) as [l|e1] eqn:El; cbn [bind].
  2:{ intros H; injection H as <-. revert El. unfold set_label. destruct label; [discriminate|].
      destruct field as [|s|z|b|]; try (intros H; injection H as <-; apply NoLabel; [reflexivity|discriminate]).
      destruct (XdmfInit.lookup s field_to_label); [discriminate|]. destruct (isdigit s); discriminate. }
  destruct (set_folder folder) as [d|e1] eqn:Ed; cbn [bind].
  2:{ intros H; injection H as <-. revert Ed. unfold set_folder.
      destruct folder; try discriminate; intros H; injection H as <-; apply BadFolder; intros [H|[s H]]; discriminate. }
  destruct (XdmfInit.set_filename l filename) as [f|e1] eqn:Ef; cbn [bind].
  2:{ intros H; injection H as <-. revert Ef. unfold XdmfInit.set_filename.
      destruct filename as [|s|z|b|]; try (intros H; injection H as <-; apply NameKind; discriminate).
      - destruct l as [l|]; [discriminate|]. intros H; injection H as <-.
        unfold set_label in El. destruct label as [lb|]; [discriminate|]. apply NoName; [reflexivity|reflexivity|].
        intros s l -> Hn. pose proof (default_label s l Hn) as Hd. unfold set_label in Hd. rewrite Hd in El. discriminate.
      - pose proof (endswith_spec s ".xdmf") as Hs. destruct (endswith s ".xdmf"); [discriminate|].
        intros H; injection H as <-. apply (NameEnd _ _ _ _ _ _ s); [reflexivity|]. intros p ->.
        enough (false = true) by discriminate. apply Hs. eauto. }
  destruct (XdmfInit.set_mode mode) as [m|e1] eqn:Em; cbn [bind].
  2:{ intros H; injection H as <-. revert Em. unfold XdmfInit.set_mode. unfold good_mode.
      destruct mode as [|s|z|b|].
      - intros H; injection H as <-. apply BadMode. intros [H|[H|(z & H & _)]]; discriminate.
      - destruct (String.eqb_spec s "last"); [discriminate|]. intros H; injection H as <-. apply BadMode.
        intros [H|[H|(z & H & _)]]; [injection H as H; congruence|discriminate|discriminate].
      - destruct (Z.leb_spec z 0); [|discriminate]. intros H'; injection H' as <-. apply BadMode.
        intros [H'|[H'|(z' & H' & Hz)]]; [discriminate|discriminate|]. injection H' as <-. lia.
      - destruct b; [discriminate|]. intros H'; injection H' as <-. apply BadMode. intros [H'|[H'|(z' & H' & Hz)]]; discriminate.
      - intros H; injection H as <-. apply BadMode. intros [H|[H|(z & H & _)]]; discriminate. }
  destruct checkpoint; try discriminate; intros H; injection H as <-; apply BadCheckpoint; intros [b' H]; discriminate.
Qed.

(** Volume and surface ids, and angular ranges. *)
Theorem C91_quantity {P} (k : qkind) field id az pol :
  (forall z, id <> IdInt z) <-> exists m, make_quantity (P:=P) k field id az pol = Err (TypeError m).
Proof.
  unfold make_quantity. split.
  - intros H. destruct id as [z|b|]; [now elim (H z)| |]; cbn; eauto.
  - intros [m H] z ->. cbn in H. revert H. unfold range_arg, set_range.
    destruct (azimuth_bounds k) as [ba|], (polar_bounds k) as [bp|];
      repeat (match goal with |- context [Rlt_dec ?a ?b] => destruct (Rlt_dec a b) | |- context [Rgt_dec ?a ?b] => destruct (Rgt_dec a b) end; cbn);
      discriminate.
Qed.
Theorem C91_range {P} (k : qkind) field z az pol e :
  make_quantity (P:=P) k field (IdInt z) az pol = Err e -> value_error e.
Proof.
  unfold make_quantity. cbn. unfold range_arg, set_range.
  destruct (azimuth_bounds k) as [ba|], (polar_bounds k) as [bp|];
    repeat (match goal with |- context [Rlt_dec ?a ?b] => destruct (Rlt_dec a b) | |- context [Rgt_dec ?a ?b] => destruct (Rgt_dec a b) end; cbn);
    try discriminate; intros H; injection H as <-; eexists; reflexivity.
Qed.

(** ** Parameters of extrinsic traps *)
(** Numbers become constants, sympy expressions their C code, objects of fenics stay; where as_constant or as_expression
    understand their argument they give the same, except that as_expression makes code from numbers. *)
Theorem C91_coefficient v :
  (forall x, is_number v x -> as_constant_or_expression v = Some (Constant x) /\ as_constant v = Some (Constant x)) /\
  (forall e, v = PExpr e -> as_constant_or_expression v = Some (Code (ccode e)) /\ as_expression v = Some (Code (ccode e))) /\
  (forall k, v = PConstant k -> as_constant_or_expression v = Some (UserObject v) /\ as_constant v = Some (UserObject v)) /\
  (forall k, v = PExpression k \/ v = PUserExpression k -> as_constant_or_expression v = Some (UserObject v) /\ as_expression v = Some (UserObject v)) /\
  (forall c, as_constant v = Some c -> as_constant_or_expression v = Some c) /\
  (forall c, as_expression v = Some c -> (forall x, ~ is_number v x) -> as_constant_or_expression v = Some c).
Proof.
  split; [|split; [|split; [|split; [|split]]]].
  - intros x Hx. destruct Hx; split; reflexivity.
  - intros e ->. split; reflexivity.
  - intros k ->. split; reflexivity.
  - intros k [-> | ->]; split; reflexivity.
  - destruct v as [|[]|z|x|s|e0|k|k|k|k|s|k]; cbn; intros c; try discriminate; auto.
  - destruct v as [|[]|z|x|s|e0|k|k|k|k|s|k]; cbn; intros c H Hn; try discriminate; auto. elim (Hn _ (NumInt z)).
Qed.
(** Outside the claim: as_constant gives None for anything but a number or a constant, without an error. *)
Theorem C91_as_constant_refuted : exists e : expr, as_constant (PExpr e) = None /\ as_constant (PStr "1") = None.
Proof. exists (EInt 2). split; reflexivity. Qed.

Print Assumptions C91_T.
Print Assumptions C91_dt.
Print Assumptions C91_decay.
Print Assumptions C91_filename.
Print Assumptions C91_xdmf.
Print Assumptions C91_quantity.
Print Assumptions C91_range.
Print Assumptions C91_coefficient.
Print Assumptions C91_as_constant_refuted.

(** ** Examples *)
Example C91_example :
  set_T (PFloat (1201 # 4)) = Ok (Some (NewTemperature (PFloat (1201 # 4)))) /\ (exists m, set_T (PStr "300") = Err (TypeError m)) /\
  is_number (PFloat (1 # 10)) (1 # 10) /\ (exists m, set_dt (PExpr (ESym "t")) = Err (TypeError m)) /\
  (exists m, set_decay_constant (PInt (-1)) = Err (ValueError m)) /\ (exists m, set_decay_constant (PStr "1") = Err (TypeError m)) /\
  (exists m, set_filename ".csv" (PInt 1) = Err (TypeError m)) /\
  (exists m, XDMFExport (VStr "solute") None XdmfInit.VNone (VInt 0) (VBool true) XdmfInit.VNone = Err (ValueError m)) /\
  (exists m, XDMFExport (VStr "solute") None (VInt 3) (VInt 1) (VBool true) XdmfInit.VNone = Err (TypeError m)) /\
  (exists m, make_quantity (P:=nat) SurfaceFluxSpherical (LStr "solute") (IdInt 1) (Some (0, 5)%R) None = Err (ValueError m)).
Proof.
  split; [reflexivity|]. split; [eexists; reflexivity|]. split; [constructor|]. do 6 (split; [eexists; reflexivity|]).
  unfold make_quantity, range_arg, set_range. cbn [set_id azimuth_bounds bind fst snd].
  destruct (Rlt_dec 0 0) as [H|_]; [destruct (Rlt_irrefl 0 H)|].
  destruct (Rgt_dec 5 PI) as [_|H]; [eexists; reflexivity|]. elim H. pose proof PI_4. apply Rle_lt_trans with 4%R; [assumption|]. apply IZR_lt. reflexivity.
Qed.

(** The field "solute" of a boundary condition is the field 0 ... *)
Theorem C91_solute u k s :
  Bcs.mk_bc u k (KS "solute") s = Bcs.mkBc u k (KI 0) s /\
  (forall field, field <> KS "solute" -> Bcs.mk_bc u k field s = Bcs.mkBc u k field s).
Proof.
  split; [reflexivity|]. intros [z|f] H; unfold Bcs.mk_bc; cbn [key_eqb]; [reflexivity|].
  destruct (String.eqb_spec f "solute"); [congruence|reflexivity].
Qed.
Print Assumptions C91_solute.

(** ... and "henry" and "sievert" are the solubility laws; any other name is a ValueError. *)
Theorem C91_law s :
  (Materials.parse_law s = Ok Materials.Henry <-> s = "henry") /\
  (Materials.parse_law s = Ok Materials.Sievert <-> s = "sievert") /\
  (forall e, Materials.parse_law s = Err e -> value_error e).
Proof.
  unfold Materials.parse_law. destruct (String.eqb_spec s "henry") as [->|H1]; [|destruct (String.eqb_spec s "sievert") as [->|H2]].
  - split; [tauto|]. split; [split; discriminate|discriminate].
  - split; [split; discriminate|]. split; [tauto|discriminate].
  - split; [split; [discriminate|contradiction]|]. split; [split; [discriminate|contradiction]|]. intros e [= <-]. eexists. reflexivity.
Qed.
Print Assumptions C91_law.
Example ex_C91_names : Bcs.bc_field (Bcs.mk_bc 0 Bcs.Flux (KS "solute") [1%Z]) = KI 0 /\
  Materials.parse_law "henry" = Ok Materials.Henry /\ (exists m, Materials.parse_law "sieverts" = Err (ValueError m)).
Proof. split; [reflexivity|]. split; [reflexivity|]. eexists. reflexivity. Qed.
