(** C29-C31: boundary conditions and sources of a simulation. *)
From Coq Require Import ZArith List Bool String Lia Permutation.
From Verif Require Import Base.Exc Base.Key Model.Bcs Model.Sources Spec.FieldSpec
  Proofs.KeyProofs Proofs.SourceProofs Proofs.BcProofs.
Import ListNotations.
Local Open Scope string_scope.

(** * C29 *)

(** The boundary conditions are accepted exactly if each has a valid field, SurfaceKinetics are used in 1D
    only, conditions on T only with a HeatTransferProblem, and no two different conditions on the same
    field, one of them fixing the solution, share a surface. *)
Theorem C29_accepted (n : nat) (heat : bool) (dim : nat) (l : list bc) :
  check_boundary_conditions n heat dim l = Ok tt <->
  (forall b, In b l -> bc_field_ok n (bc_field b) /\ (bc_kind_of b = SurfKin -> dim = 1%nat) /\
                       (bc_field b = KS "T" -> heat = true)) /\
  (forall a b, In a l -> In b l -> ~ conflict a b).
Proof. exact (check_ok n heat dim l). Qed.

(** When they are refused the exception says why. *)
Theorem C29_refused (n : nat) (heat : bool) (dim : nat) (l : list bc) (e : exc) :
  check_boundary_conditions n heat dim l = Err e ->
  exists b, In b l /\
    ((~ bc_field_ok n (bc_field b) /\ e = ValueError "not a valid field for BC") \/
     (bc_kind_of b = SurfKin /\ dim <> 1%nat /\
      e = ValueError "SurfaceKinetics can only be used in 1D simulations") \/
     (bc_field b = KS "T" /\ heat = false /\
      e = TypeError "Heat transfer boundary conditions can only be used with HeatTransferProblem") \/
     (exists d t, In d l /\ conflict b d /\
        e = ValueError (t ++ " is simultaneously set with another boundary condition"))).
Proof.
  unfold check_boundary_conditions. intros H.
  assert (Hf : forall d, In d (filter dc_sk l) -> fixes d).
  { intros d Hd. apply filter_In in Hd as [_ Hd]. now apply dc_sk_iff. }
  destruct (check_loop_err _ _ _ _ _ _ Hf H) as (b & Hb & He). exists b. split; [assumption|].
  destruct He as [He|[He|[He|(d & Hd & (Hu & Hk & Ho) & t & He)]]]; [tauto..|].
  right. right. right. exists d, t. pose proof (Hf d Hd). apply filter_In in Hd as [Hd _].
  split; [assumption|]. split; [|assumption]. split; [assumption|]. split; [assumption|].
  split; [now right|assumption].
Qed.

(** The two spellings 0 and "0" of the mobile concentration are not recognised as the same field: a flux
    and a fixed value on the same surface are accepted and both apply to component 0. *)
Theorem C29_spelling_refuted :
  let d := mk_bc 0 Dirichlet (KS "0") [1%Z] in
  let f := mk_bc 1 Flux (KI 0) [1%Z] in
  apply_boundary_conditions 0 false 1 [d; f] =
  Ok [FluxTerm f (OnComponent 0) 1%Z; Constraint d (OnComponent 0) 1%Z].
Proof. reflexivity. Qed.

(** Accepted and refused lists. *)
Example C29_example :
  let d := mk_bc 0 Dirichlet (KS "solute") [1; 2]%Z in
  let f := mk_bc 1 Flux (KI 0) [3]%Z in
  let g := mk_bc 2 Flux (KI 0) [3; 2]%Z in
  check_boundary_conditions 1 false 2 [d; f; mk_bc 3 Dirichlet (KI 1) [1]%Z] = Ok tt /\
  check_boundary_conditions 1 false 2 [f; g] = Ok tt /\
  (exists e, check_boundary_conditions 1 false 2 [g; d] = Err e) /\ conflict g d.
Proof.
  cbn zeta. split; [reflexivity|]. split; [reflexivity|]. split; [eexists; reflexivity|].
  split; [discriminate|]. split; [reflexivity|]. split; [right; now left|]. exists 2%Z. cbn. tauto.
Qed.

(** * C30 *)

(** What is applied is exactly what each condition should contribute, each once, provided flux conditions
    are on the mobile species (0) or on T. *)
Theorem C30_applied_partial (n : nat) (heat : bool) (dim : nat) (l : list bc) (ts : list term) :
  apply_boundary_conditions n heat dim l = Ok ts ->
  (forall b, In b l -> bc_kind_of b <> OtherBC /\
     (bc_kind_of b = Flux \/ bc_kind_of b = SurfKin -> bc_field b = KI 0 \/ bc_field b = KS "T")) ->
  exists ls, Forall2 contribution l ls /\ Permutation ts (List.concat ls).
Proof.
  intros H Ht. apply (apply_ok n heat dim); [assumption|]. intros b Hb. unfold treated.
  destruct (Ht b Hb) as [H1 H2]. destruct (bc_kind_of b); tauto.
Qed.
(** Each condition has only one possible contribution. *)
Theorem C30_contribution_unique (b : bc) t1 t2 : contribution b t1 -> contribution b t2 -> t1 = t2.
Proof.
  assert (Hc : forall c c', designates_component (bc_field b) c -> designates_component (bc_field b) c' -> c = c').
  { intros c c' [H|H] [H'|H']; rewrite H in H'; try discriminate; injection H' as H'; [lia|].
    apply str_inj in H'. lia. }
  assert (HT : forall c, designates_component (bc_field b) c -> bc_field b <> KS "T").
  { intros c [H|H]; rewrite H; [discriminate|]. intros [= E]. revert E. apply str_not. reflexivity. }
  intros [H1 H1'|H1 H1'|c H1 H1'|c H1 H1'] [H2 H2'|H2 H2'|c' H2 H2'|c' H2 H2'];
    try reflexivity; try (now apply HT in H1); try (now apply HT in H2);
    try (rewrite (Hc _ _ H1 H2); reflexivity);
    exfalso; intuition congruence.
Qed.
(** Accepted conditions whose fields are written as ints (or "T") are applied without error. *)
Theorem C30_applied_success (n : nat) (heat : bool) (dim : nat) (l : list bc) :
  check_boundary_conditions n heat dim l = Ok tt ->
  (forall b, In b l -> bc_field b = KS "T" \/ exists z, bc_field b = KI z) ->
  exists ts, apply_boundary_conditions n heat dim l = Ok ts.
Proof. exact (apply_success n heat dim l). Qed.

(** A flux condition on the mobile species spelled "0", or on a trap, is accepted and silently dropped. *)
Theorem C30_dropped_refuted :
  apply_boundary_conditions 1 false 1 [mk_bc 0 Flux (KS "0") [1%Z]] = Ok [] /\
  apply_boundary_conditions 1 false 1 [mk_bc 0 Flux (KI 1) [1%Z]] = Ok [] /\
  (exists t, contribution (mk_bc 0 Flux (KS "0") [1%Z]) [t]) /\
  (exists t, contribution (mk_bc 0 Flux (KI 1) [1%Z]) [t]).
Proof.
  split; [reflexivity|]. split; [reflexivity|]. split.
  - exists (FluxTerm (mk_bc 0 Flux (KS "0") [1%Z]) (OnComponent 0) 1%Z).
    apply (h_flux (mk_bc 0 Flux (KS "0") [1%Z]) 0); [right; reflexivity|now left].
  - exists (FluxTerm (mk_bc 0 Flux (KI 1) [1%Z]) (OnComponent 1) 1%Z).
    apply (h_flux (mk_bc 0 Flux (KI 1) [1%Z]) 1); [left; reflexivity|now left].
Qed.
(** A condition on a trap written "1" is accepted by the check but fails afterwards. *)
Theorem C30_string_field_refuted :
  let d := mk_bc 0 Dirichlet (KS "1") [1%Z] in
  check_boundary_conditions 1 false 1 [d] = Ok tt /\ exists e, apply_boundary_conditions 1 false 1 [d] = Err e.
Proof. split; [reflexivity|eexists; reflexivity]. Qed.

Example C30_example :
  let d := mk_bc 0 Dirichlet (KS "solute") [1; 2]%Z in
  let f := mk_bc 1 Flux (KI 0) [3]%Z in
  let h := mk_bc 2 Flux (KS "T") [1; 3]%Z in
  let t := mk_bc 3 Dirichlet (KI 1) [1]%Z in
  apply_boundary_conditions 1 true 1 [d; f; h; t] =
  Ok [FluxTerm h OnTemperature 1; FluxTerm h OnTemperature 3; FluxTerm f (OnComponent 0) 3;
      Constraint d (OnComponent 0) 1; Constraint d (OnComponent 0) 2; Constraint t (OnComponent 1) 1]%Z.
Proof. reflexivity. Qed.

(** * C31 *)

(** Each equation gets exactly the sources that belong to it, each once, in list order, and nothing from
    an earlier initialise. *)
Theorem C31_attached {S : Type} (s_field : S -> key) (s_decay : S -> bool) (n : nat) (heat : bool)
  (sources : list S) (before after : species -> list S) :
  attribute_source_terms s_field s_decay n heat sources before = Ok after ->
  forall sp, present n sp -> selected (fun s => belongs n (s_field s) (s_decay s) sp) sources (after sp).
Proof.
  unfold attribute_source_terms. intros H sp Hp.
  destruct (selected_loop s_field s_decay n heat sources _ _ H sp) as (m & Hm & Hs).
  replace (reset_sources n before sp) with (@nil S) in Hm; [now rewrite Hm|].
  destruct sp as [| |i]; cbn in *; [reflexivity..|].
  replace (match i with 0%nat => false | S _ => true end) with true by (destruct i; [lia|reflexivity]).
  cbn. replace (i <=? n)%nat with true by (symmetry; apply Nat.leb_le; lia). reflexivity.
Qed.
(** [selected] determines the attached list. *)
Theorem C31_unique {A} (P : A -> Prop) (l l1 l2 : list A) : selected P l l1 -> selected P l l2 -> l1 = l2.
Proof.
  intros H. revert l2. induction H as [|x l l1 Hx _ IH|x l l1 Hx _ IH]; intros l2 H2; inversion H2; subst; try tauto.
  - f_equal. auto.
  - auto.
Qed.
(** An ordinary source belongs to one equation only; a decay on 'all' to those of all concentrations. *)
Theorem C31_one_equation (n : nat) (k : key) (sp1 sp2 : species) :
  designates n k sp1 -> designates n k sp2 -> sp1 = sp2.
Proof. intros H1 H2. apply field_to_object_get in H1, H2. congruence. Qed.
(** It succeeds exactly if every source names an equation and those on T have a HeatTransferProblem. *)
Theorem C31_accepted {S : Type} (s_field : S -> key) (s_decay : S -> bool) (n : nat) (heat : bool)
  (sources : list S) (before : species -> list S) :
  (exists after, attribute_source_terms s_field s_decay n heat sources before = Ok after) <->
  Forall (fun s => (s_field s = KS "T" -> heat = true) /\
                   exists sp, belongs n (s_field s) (s_decay s) sp) sources.
Proof. apply loop_success. Qed.
Theorem C31_refused {S : Type} (s_field : S -> key) (s_decay : S -> bool) (n : nat) (heat : bool)
  (sources : list S) (before : species -> list S) (e : exc) :
  attribute_source_terms s_field s_decay n heat sources before = Err e ->
  exists s, In s sources /\
    ((s_field s = KS "T" /\ heat = false /\ exists m, e = TypeError m) \/
     ((forall sp, ~ belongs n (s_field s) (s_decay s) sp) /\ exists m, e = KeyError m)).
Proof. apply loop_error. Qed.

Example C31_example :
  let src := [(KI 0, false); (KS "all", true); (KS "2", false); (KS "T", false); (KS "mobile", true)] in
  exists a, attribute_source_terms fst snd 2 true src (fun _ => [(KI 7, false)]) = Ok a /\
    a Mobile = [(KI 0, false); (KS "all", true); (KS "mobile", true)] /\
    a (Trap 1) = [(KS "all", true)] /\ a (Trap 2) = [(KS "all", true); (KS "2", false)] /\
    a Temp = [(KS "T", false)].
Proof. eexists. split; [reflexivity|]. repeat split. Qed.

Print Assumptions C29_accepted.
Print Assumptions C29_refused.
Print Assumptions C29_spelling_refuted.
Print Assumptions C30_applied_partial.
Print Assumptions C30_contribution_unique.
Print Assumptions C30_applied_success.
Print Assumptions C30_dropped_refuted.
Print Assumptions C30_string_field_refuted.
Print Assumptions C31_attached.
Print Assumptions C31_unique.
Print Assumptions C31_one_equation.
Print Assumptions C31_accepted.
Print Assumptions C31_refused.
