(** C96: the function written by a TrapDensityXDMF is the density of the sites of its trap. *)
From Coq Require Import String Reals ZArith List Lia Lra.
From Verif Require Import Base.Exc Base.Dual Base.Key Model.Fields Proofs.KeyProofs Model.Materials Model.Laws Model.Theta Model.Forms
  Model.TrapDensity
  Spec.TrapDensitySpec Proofs.FormProofs Proofs.TrapDensityProofs Properties.FormProps.
Import ListNotations.
Local Open Scope R_scope.

(** The sites of Spec/TrapDensitySpec are those of the equations: where the trapped concentration equals the density of
    sites there is no trapping, in the equation of the mobile species and in that of the trap. *)
Theorem C96_equations {P} (M : mesh P) mb T (t : trap P) i m z F :
  NoDup (map (fun m => m_id (attrs m)) (t_materials t)) -> nth_error (t_materials t) i = Some m ->
  m_id (attrs m) = IdOne z ->
  (mobile_trapping_terms mb T t i m = Ok F \/ trapping_terms mb T t i m = Ok F) ->
  exists e1 e2, F = [(Dx z, e1); (Dx z, e2)] /\
    forall p n, q_volume M p = z -> sites M t p n -> val (t_solution t p) = n -> e1 p = 0.
Proof.
  intros Hnd Hi Hm HF.
  assert (Hd : forall p n d, q_volume M p = z -> sites M t p n ->
    index (t_density t) (match t_k0 t with Scalar _ => O | PerMat _ => i end) = Ok d -> d p = n).
  { intros p n d Hp Hs Hd. unfold index in Hd.
    destruct (nth_error (t_density t) _) as [e|] eqn:Ee in Hd; [|discriminate]. injection Hd as <-.
    destruct Hs as [(j & m' & e' & Hj & Hm' & He' & ->)|[Hno _]].
    - assert (j = i) as ->; [|rewrite Ee in He'; now injection He' as <-].
      apply (proj1 (NoDup_nth_error (map (fun m => m_id (attrs m)) (t_materials t))) Hnd).
      + rewrite map_length. apply nth_error_Some. now rewrite Hj.
      + erewrite !map_nth_error by eassumption. now rewrite Hm, Hm', Hp.
    - exfalso. apply (Hno m); [now apply nth_error_In in Hi|now rewrite Hp]. }
  unfold mobile_trapping_terms, trapping_terms in HF.
  assert (Hgo : forall k E1 p0 E2 d (c : field P) (w : field P), index (t_density t) (match t_k0 t with Scalar _ => O | PerMat _ => i end) = Ok d ->
    forall p n, q_volume M p = z -> sites M t p n -> val (t_solution t p) = n ->
    - k * exp (- E1 / k_B / val (T_T T p)) * val (c p) * (d p - val (t_solution t p)) * val (w p) = 0 * (p0 + E2)).
  { intros k E1 p0 E2 d c w Hid p n Hp Hs Hn. rewrite (Hd p n d Hp Hs Hid), Hn. ring. }
  destruct (t_k0 t) as [k|k].
  - destruct (arg_number (t_Ek t)) as [E1|]; [|destruct HF; discriminate].
    destruct (arg_number (t_p0 t)) as [p0|]; [|destruct HF; discriminate].
    destruct (arg_number (t_Ep t)) as [E2|]; [|destruct HF; discriminate].
    destruct (index (t_density t) 0) as [d|]; [|destruct HF; discriminate]. cbn [bind] in HF.
    destruct HF as [HF|HF].
    + destruct (get_concentration mb (attrs m) T) as [c|]; [|discriminate]. rewrite Hm in HF. cbn in HF.
      injection HF as <-. eexists _, _. split; [reflexivity|]. intros p n Hp Hs Hn. cbv beta.
      rewrite (Hgo k E1 p0 E2 d (fst c) (mb_test mb) eq_refl p n Hp Hs Hn). ring.
    + destruct (match mb_class mb with ClassMobile => _ | ClassTheta _ _ => _ end) as [x|]; [|discriminate].
      destruct (get_concentration mb (attrs m) T) as [c|]; [|discriminate]. rewrite Hm in HF. cbn in HF.
      injection HF as <-. eexists _, _. split; [reflexivity|]. intros p n Hp Hs Hn. cbv beta.
      rewrite (Hgo k E1 p0 E2 d (fst c) (t_test t) eq_refl p n Hp Hs Hn). ring.
  - destruct (index k i) as [k'|]; [|destruct HF; discriminate].
    destruct (arg_index (t_Ek t) i) as [E1|]; [|destruct HF; discriminate].
    destruct (arg_index (t_p0 t) i) as [p0|]; [|destruct HF; discriminate].
    destruct (arg_index (t_Ep t) i) as [E2|]; [|destruct HF; discriminate].
    destruct (index (t_density t) i) as [d|]; [|destruct HF; discriminate]. cbn [bind] in HF.
    destruct HF as [HF|HF].
    + destruct (get_concentration mb (attrs m) T) as [c|]; [|discriminate]. rewrite Hm in HF. cbn in HF.
      injection HF as <-. eexists _, _. split; [reflexivity|]. intros p n Hp Hs Hn. cbv beta.
      rewrite (Hgo k' E1 p0 E2 d (fst c) (mb_test mb) eq_refl p n Hp Hs Hn). ring.
    + destruct (match mb_class mb with ClassMobile => _ | ClassTheta _ _ => _ end) as [x|]; [|discriminate].
      destruct (get_concentration mb (attrs m) T) as [c|]; [|discriminate]. rewrite Hm in HF. cbn in HF.
      injection HF as <-. eexists _, _. split; [reflexivity|]. intros p n Hp Hs Hn. cbv beta.
      rewrite (Hgo k' E1 p0 E2 d (fst c) (t_test t) eq_refl p n Hp Hs Hn). ring.
Qed.
Print Assumptions C96_equations.

(** With one density, what is written has the same total as the density of sites (if the constants are in the function
    space), is the closest to it in the function space, and equals it wherever it is in the function space. *)
Theorem C96_projection_partial {P} (M : mesh P) (V : (P -> R) -> Prop) (t : trap P) u d :
  one_density t -> NoDup (map (fun m => m_id (attrs m)) (t_materials t)) ->
  (forall p, In p (q_cells M) -> 0 <= q_weight M p) ->
  (forall v w, V v -> V w -> V (fun p => v p - w p)) ->
  (forall p, In p (q_cells M) -> sites M t p (d p)) -> solved M V t u ->
  (V (fun _ => 1) -> amount M u = amount M d) /\
  (forall w, V w -> distance2 M u d <= distance2 M w d) /\
  (V d -> forall p, In p (q_cells M) -> 0 < q_weight M p -> u p = d p).
Proof.
  intros H1 Hnd Hw Hsub Hs Hu. pose proof (solved_orthogonal M V t u d H1 Hnd Hs Hu) as Ho. destruct Hu as [HV _].
  split; [|split].
  - intros Hone. apply Ho in Hone. rewrite !amount_integral.
    rewrite (integral_ext M DxAll (fun p => (u p - d p) * 1) (fun p => u p + - d p)) in Hone by (intros; ring).
    rewrite integral_plus, integral_opp in Hone. lra.
  - intros w Hw'. rewrite !distance2_integral.
    rewrite (integral_ext M DxAll (fun p => (w p - d p) * (w p - d p))
      (fun p => (u p - d p) * (u p - d p) + ((w p - u p) * (w p - u p)
                + ((u p - d p) * (w p - u p) + (u p - d p) * (w p - u p))))) by (intros; ring).
    rewrite !integral_plus, (Ho (fun p => w p - u p)) by (now apply Hsub).
    assert (0 <= integral M DxAll (fun p => (w p - u p) * (w p - u p))); [|lra].
    apply integral_nonneg; [exact Hw|]. intros p _. apply Rle_0_sqr.
  - intros Hd p Hp Hwp. assert (E : (u p - d p) * (u p - d p) = 0).
    { apply (integral_null M (fun p => (u p - d p) * (u p - d p))); [exact Hw|intros q _; apply Rle_0_sqr| |exact Hp|exact Hwp].
      apply (Ho (fun p => u p - d p)). now apply Hsub. }
    apply Rmult_integral in E as [E|E]; lra.
Qed.
Print Assumptions C96_projection_partial.

(** A trap with lists of parameters in the two materials of the example: the density of the first material is written in
    the second one too. *)
Definition trap_lists (n1 n2 : R) : trap nat :=
  mkTrap (PerMat [6; 6]) (PerMat [1/10; 1/10]) (PerMat [8; 8]) (PerMat [2/10; 2/10]) [fun _ => n1; fun _ => n2] two_mats
    (fun _ => dconst 5) (fun _ => dconst 4) ones [].
Theorem C96_lists_refuted n1 n2 u : let M := mesh_ty Cartesian in
  solved M (fun _ => True) (trap_lists n1 n2) u ->
  sites M (trap_lists n1 n2) 2%nat n2 /\ u 2%nat = n1.
Proof.
  intros M [_ Hu]. split.
  - left. exists 1%nat, (mkMatObj 1 mat_2), (fun _ => n2). repeat split; reflexivity.
  - destruct (Hu (fun p => if Nat.eqb p 2 then 1 else 0) I) as (F & HF & H0). cbn in HF. injection HF as <-.
    unfold assemble, integral, rsum in H0. cbn in H0. lra.
Qed.
Print Assumptions C96_lists_refuted.
Example ex_C96_lists : solved (mesh_ty Cartesian) (fun _ => True) (trap_lists 3 5) (fun _ => 3) /\
  sites (mesh_ty Cartesian) (trap_lists 3 5) 2%nat 5.
Proof.
  split; [|apply (C96_lists_refuted 3 5 (fun _ => 3))].
  all: split; [exact I|]; intros v _; eexists; split; [reflexivity|]; unfold assemble, integral, rsum; cbn; lra.
Qed.

(** Continuous elements of degree 1 on two cells of length 1, of markers 1 and 2; the points of a cell are its ends and its
    middle, with the weights of Simpson's rule. *)
Definition hats : mesh (bool * nat) :=
  mkMesh [(false, 0); (false, 1); (false, 2); (true, 0); (true, 1); (true, 2)]%nat []
    (fun p => match snd p with 1%nat => 4 / 6 | _ => 1 / 6 end) (fun p => if fst p then 2%Z else 1%Z) (fun _ => 0%Z)
    (fun p => INR (snd p)) 1 Cartesian.
Definition CG1 (u : bool * nat -> R) : Prop :=
  exists a b c, forall s k, u (s, k) = if s then b + (c - b) * INR k / 2 else a + (b - a) * INR k / 2.
Definition trap_right : trap (bool * nat) :=
  mkTrap (Scalar 6) (Scalar (1/10)) (Scalar 8) (Scalar (2/10)) [fun _ => 1] [mkMatObj 1 mat_2]
    (fun _ => dconst 0) (fun _ => dconst 0) (fun _ => dconst 1) [].
(** The density is 0 on the left and 1 on the right; what is written is negative at the left end and more than 1 at the
    right end. *)
Theorem C96_bounds_refuted u : solved hats CG1 trap_right u -> u (false, 0%nat) = - 1 / 4 /\ u (true, 2%nat) = 5 / 4.
Proof.
  intros [(a & b & c & Hu) Hs].
  assert (Ht : forall a' b' c' : R, CG1 (fun p => if fst p then b' + (c' - b') * INR (snd p) / 2 else a' + (b' - a') * INR (snd p) / 2))
    by (intros a' b' c'; exists a', b', c'; reflexivity).
  pose proof (Hs _ (Ht 1 0 0)) as (F1 & E1 & H1). pose proof (Hs _ (Ht 0 1 0)) as (F2 & E2 & H2).
  pose proof (Hs _ (Ht 0 0 1)) as (F3 & E3 & H3). cbn in E1, E2, E3. injection E1 as <-. injection E2 as <-. injection E3 as <-.
  unfold assemble, integral, rsum in H1, H2, H3. cbn in H1, H2, H3. rewrite !Hu in *. cbn in *. lra.
Qed.
Print Assumptions C96_bounds_refuted.
Example ex_C96_bounds :
  let u (p : bool * nat) := if fst p then 1 / 2 + (5 / 4 - 1 / 2) * INR (snd p) / 2 else - 1 / 4 + (1 / 2 - - 1 / 4) * INR (snd p) / 2 in
  solved hats CG1 trap_right u.
Proof.
  split; [exists (- 1 / 4), (1 / 2), (5 / 4); reflexivity|]. intros v (a & b & c & Hv). eexists. split; [reflexivity|].
  unfold assemble, integral, rsum. cbn. rewrite !Hv. cbn. lra.
Qed.

(** A case for [C96_projection_partial]: all conditions hold, with a density which is not in the space. *)
Example ex_C96 : one_density trap_right /\ NoDup (map (fun m => m_id (attrs m)) (t_materials trap_right)) /\
  (forall p, In p (q_cells hats) -> 0 <= q_weight hats p) /\
  (forall v w, CG1 v -> CG1 w -> CG1 (fun p => v p - w p)) /\ CG1 (fun _ => 1) /\
  (forall p, In p (q_cells hats) -> sites hats trap_right p (if fst p then 1 else 0)) /\
  ~ CG1 (fun p => if fst p then 1 else 0).
Proof.
  split; [left; now exists 6|]. split; [repeat constructor; intros []|]. split.
  { intros [s [|[|k]]] _; cbn; lra. }
  split.
  { intros v w (a & b & c & Hv) (a' & b' & c' & Hw). exists (a - a'), (b - b'), (c - c'). intros s k.
    rewrite Hv, Hw. destruct s; field. }
  split; [exists 1, 1, 1; intros [|] k; field|]. split.
  - intros [[|] k] _; [left; exists 0%nat, (mkMatObj 1 mat_2), (fun _ => 1); now repeat split|].
    right. split; [|reflexivity]. intros m [<-|[]]. discriminate.
  - intros (a & b & c & H). pose proof (H true 0%nat) as H1. pose proof (H false 2%nat) as H2. cbn in H1, H2. lra.
Qed.

(** The field of a TrapDensityXDMF is always "1": label_to_function has an entry for it exactly if a trap of the simulation
    has the id 1, whatever the trap to be exported (else Exports.write raises KeyError, C95). *)
Theorem C96_field {F} zero add (mob : F) trap ids :
  (exists f, dict_get (label_to_function zero add mob trap ids) (KS "1") = Some f) <-> In 1%Z ids.
Proof.
  unfold label_to_function.
  assert (G : forall ids i d, (exists f, dict_get (label_entries trap i ids d) (KS "1") = Some f) <->
    In 1%Z ids \/ exists f, dict_get d (KS "1") = Some f).
  { clear ids. induction ids as [|z ids IH]; intros i d; cbn [label_entries].
    - split; [now right|intros [[]|H]; exact H].
    - rewrite IH, !dict_get_set. cbn [In]. destruct (key_eqb (KS "1") (KS (str z))) eqn:E.
      + apply key_eqb_eq in E. injection E as E. change "1"%string with (str 1) in E. apply str_inj in E. subst z.
        split; [left; now left|intros _; right; eexists; reflexivity].
      + cbn [key_eqb]. assert (z <> 1%Z); [|tauto]. intros ->. now rewrite key_eqb_refl in E. }
  rewrite G. split; [|now left]. intros [H|[f H]]; [exact H|discriminate].
Qed.
Print Assumptions C96_field.
Example ex_C96_field : ~ In 1%Z [2; 5]%Z /\
  dict_get (label_to_function 0 Rplus 3 INR [2; 5]%Z) (KS "1") = None /\
  dict_get (label_to_function 0 Rplus 3 INR [2; 1]%Z) (KS "1") = Some (INR 2).
Proof. split; [intros [H|[H|[]]]; discriminate|]. split; reflexivity. Qed.
