(** C80: the lists of one simulation are not those of another. *)
From Coq Require Import List Bool Arith.
From Verif Require Import Model.Sharing Spec.SharingSpec Proofs.SharingProofs.
Import ListNotations.

Section Independent.
Context {item : Type}.

(** Part of C80: traps and exports always, also when the user gives one list of their own to several simulations; sources, boundary conditions and initial conditions if every
    simulation was given a list when it was made.  Missing: simulations made without these lists, where it is
    false, see C80_default_refuted. *)
Theorem C80_independent_partial (l : list (op item)) w a :
  Forall own l ->
  a = ATraps \/ a = AExports \/ Forall (given_at_construction a) l ->
  exec world0 l = Some w ->
  forall k, content w k a = expected l k a.
Proof.
  intros Ho Hg H k. apply (exec_separate a l world0 w (fun _ => []) k None); [exact Ho| |apply separate0|apply apart0|apply known0|reflexivity|exact H].
  destruct Hg as [->|[->|Hg]]; [left; left; reflexivity|left; right; reflexivity|right; exact Hg].
Qed.

(** The list that a simulation should have does not depend on the operations on other simulations. *)
Theorem C80_others_do_not_matter (l : list (op item)) k a :
  expected l k a =
  expected (filter (fun o => match o with New j _ | Assign j _ _ | Append j _ _ => Nat.eqb j k | _ => true end) l) k a.
Proof.
  unfold expected. generalize (@None (list item)), (fun _ : nat => @nil item). induction l as [|o r IH]; intros c e; [reflexivity|].
  destruct o as [j args|j b v|j b x|n m|n x]; cbn [filter history var_op]; try apply IH;
    (destruct (Nat.eqb j k) eqn:E; [apply IH|]); cbn [after_op]; rewrite E; apply IH.
Qed.

(** A collection of traps (exports) that is given to another simulation is the same object for both. *)
Theorem C80_collection_kept (w w' : world item) j k a s x w'' :
  a = ATraps \/ a = AExports -> sims w j = Some s -> j <> k ->
  exec w [Assign k a (Of j a)] = Some w' -> exec w' [Append k a x] = Some w'' ->
  content w'' j a = option_map (fun l => l ++ [x]) (content w j a) /\ content w'' k a = content w'' j a.
Proof.
  intros Ha Hj Hjk H1 H2. cbn [exec step] in H1. destruct (sims w k) as [s'|] eqn:Hk; [|discriminate].
  unfold hold in H1. cbn [denote] in H1. rewrite Hj in H1.
  assert (Hk' : attr_eqb a a = true) by now destruct a.
  assert (E : w' = set_sim w k (upd_attr s' a (s a))).
  { destruct Ha as [-> | ->]; cbn in H1; injection H1 as <-; reflexivity. }
  subst w'. cbn [exec step sims set_sim] in H2. unfold upd at 1 in H2. rewrite Nat.eqb_refl in H2. injection H2 as <-.
  assert (Ejk : Nat.eqb j k = false) by now apply Nat.eqb_neq.
  unfold content. cbn. unfold upd, upd_attr. rewrite Ejk, Nat.eqb_refl, Hj, Hk', Nat.eqb_refl. cbn. now split.
Qed.

(** Different attributes never share a list: what is appended to one leaves the others as they are, in all
    simulations; so does what the user appends to a list of their own. *)
Theorem C80_attributes_apart (l : list (op item)) w :
  Forall tidy l -> exec world0 l = Some w ->
  (forall k a x w', step w (Append k a x) = Some w' -> forall j b, b <> a -> content w' j b = content w j b) /\
  (forall n x w', step w (AppendVar n x) = Some w' -> forall j b, content w' j b = content w j b).
Proof.
  intros Ho H. destruct (exec_tagged l tag0 world0 w tagged0 Ho H) as (tag & _ & _ & Hs & Hv). split.
  - intros k a x w' Hw j b Hab. cbn [step] in Hw. destruct (sims w k) as [s|] eqn:Ek; [|discriminate Hw]. injection Hw as <-.
    unfold content. cbn [sims heap]. destruct (sims w j) as [s'|] eqn:Ej; [|reflexivity]. f_equal. unfold upd.
    destruct (Nat.eqb_spec (s' b) (s a)) as [E|_]; [|reflexivity].
    destruct (Hs k s a Ek) as [_ A]. destruct (Hs j s' b Ej) as [_ B]. congruence.
  - intros n x w' Hw j b. cbn [step] in Hw. destruct (vars w n) as [p|] eqn:En; [|discriminate Hw]. injection Hw as <-.
    unfold content. cbn [sims heap]. destruct (sims w j) as [s'|] eqn:Ej; [|reflexivity]. f_equal. unfold upd.
    destruct (Nat.eqb_spec (s' b) p) as [E|_]; [|reflexivity].
    destruct (Hv n p En) as [_ A]. destruct (Hs j s' b Ej) as [_ B]. congruence.
Qed.
End Independent.

(** C80 is false: two simulations made without arguments, a source (boundary condition, initial condition)
    appended to the first one is in the second one, even if this one is made later. *)
Theorem C80_default_refuted :
  forall a, a = ASources \/ a = ABcs \/ a = AIcs ->
  forall x : nat,
  let nothing := fun _ => Omitted in
  let l := [New 0 nothing; Append 0 a x; New 1 nothing] in
  option_map (fun w => content w 1 a) (exec world0 l) = Some (Some [x]) /\ expected l 1 a = Some [].
Proof. intros a Ha x. destruct Ha as [->|[->| ->]]; vm_compute; split; reflexivity. Qed.

Example C80_example :
  let mine (n : nat) := fun a => match a with ATraps => Literal [n; n] | AExports => Omitted | _ => Literal [n] end in
  let l := [New 0 (mine 0); New 1 (mine 1); Append 0 ASources 5; Append 1 ATraps 6; Assign 1 ABcs (Literal [7]);
            Append 1 AExports 8; New 2 (mine 2); Append 2 AExports 9;
            Let 0 [10; 11]; Assign 0 ATraps (Var 0); Assign 2 ATraps (Var 0); AppendVar 0 12; Append 0 ATraps 13] in
  Forall own l /\ Forall (given_at_construction ASources) l /\
  option_map (fun w => [content w 0 ASources; content w 1 ASources; content w 1 ATraps; content w 1 ABcs;
                        content w 1 AExports; content w 2 AExports;
                        content w 0 ATraps; content w 2 ATraps]) (exec world0 l) =
  Some [Some [0; 5]; Some [1]; Some [1; 1; 6]; Some [7]; Some [8]; Some [9]; Some [10; 11; 13]; Some [10; 11]].
Proof.
  cbn zeta. split; [|split].
  - repeat constructor; try (intros []; exact I).
  - repeat constructor; discriminate.
  - vm_compute. reflexivity.
Qed.

Example C80_attributes_example :
  let l := [New 0 (fun _ => Omitted); New 1 (fun a => match a with ABcs => Of 0 ABcs | _ => Omitted end);
            Append 1 ABcs 5; Append 0 ASources 6; Let 0 [1]; Assign 0 ATraps (Var 0)] in
  Forall tidy l /\
  option_map (fun w => [content w 0 ASources; content w 0 ABcs; content w 0 AIcs; content w 1 ABcs; content w 0 ATraps]) (exec world0 l) =
  Some [Some [6]; Some [5]; Some []; Some [5]; Some [1]].
Proof. cbn zeta. split; [repeat constructor; intros []; exact I || reflexivity|vm_compute; reflexivity]. Qed.

Print Assumptions C80_attributes_apart.
Print Assumptions C80_independent_partial.
Print Assumptions C80_others_do_not_matter.
Print Assumptions C80_collection_kept.
Print Assumptions C80_default_refuted.
