(** What solves the form of a TrapDensityXDMF is the projection of the density of sites. *)
From Coq Require Import Reals ZArith List Lia Lra.
From Verif Require Import Base.Exc Base.Dual Model.Materials Model.Theta Model.Forms Model.TrapDensity
  Spec.TrapDensitySpec Proofs.FormProofs.
Import ListNotations.
Local Open Scope R_scope.

Section Density.
Context {P : Type}.
Implicit Types (M : mesh P) (t : trap P) (u v d : P -> R).

Lemma add_rsum l : add l = rsum l.
Proof. induction l as [|a l IH]; [reflexivity|]. cbn. now rewrite IH. Qed.
Lemma amount_integral M u : amount M u = integral M DxAll u.
Proof. unfold amount. now rewrite add_rsum. Qed.
Lemma distance2_integral M u d : distance2 M u d = integral M DxAll (fun p => (u p - d p) * (u p - d p)).
Proof. unfold distance2. now rewrite add_rsum. Qed.

Lemma integral_marked M z u :
  integral M (Dx z) u = integral M DxAll (fun p => if Z.eqb (q_volume M p) z then u p else 0).
Proof.
  unfold integral. cbn [points]. induction (q_cells M) as [|p l IH]; [reflexivity|].
  cbn [filter map]. destruct (q_volume M p =? z)%Z eqn:E; cbn [map]; rewrite ?rsum_cons, IH; rewrite ?E; lra.
Qed.

(** The point is in one of these materials. *)
Definition within_mats M (l : list mat_obj) (p : P) : bool :=
  existsb (fun m => match m_id (attrs m) with IdOne z => Z.eqb (q_volume M p) z | IdMany _ => false end) l.

Lemma within_spec M l p : within_mats M l p = true <->
  exists m, In m l /\ m_id (attrs m) = IdOne (q_volume M p).
Proof.
  unfold within_mats. rewrite existsb_exists. split; intros (m & Hm & H); exists m; split; [exact Hm| |exact Hm|].
  - destruct (m_id (attrs m)) as [z|]; [|discriminate]. apply Z.eqb_eq in H. now rewrite H.
  - rewrite H. apply Z.eqb_refl.
Qed.

Lemma density_terms_ok t v l : forall F, sum_forms (density_terms t v) l = Ok F ->
  (forall m, In m l -> exists z, m_id (attrs m) = IdOne z) /\
  (l = [] \/ exists d0, nth_error (t_density t) 0 = Some d0) /\
  forall d0, (l = [] \/ nth_error (t_density t) 0 = Some d0) -> NoDup (map (fun m => m_id (attrs m)) l) ->
  forall M, assemble M F = integral M DxAll (fun p => if within_mats M l p then d0 p * v p else 0).
Proof.
  induction l as [|m l IH]; intros F H; cbn [sum_forms] in H.
  - injection H as <-. split; [intros m []|]. split; [now left|]. intros d0 _ _ M.
    rewrite assemble_nil, integral_zero; [reflexivity|]. reflexivity.
  - unfold density_terms at 1 in H. unfold index in H.
    destruct (nth_error (t_density t) 0) as [d|] eqn:Ed; [|discriminate]. cbn [bind] in H.
    destruct (m_id (attrs m)) as [z|] eqn:Ez; [|discriminate]. cbn [dx_id bind] in H.
    destruct (sum_forms (density_terms t v) l) as [G|] eqn:EG; [|discriminate]. cbn [bind] in H. injection H as <-.
    destruct (IH G eq_refl) as (Hids & _ & Hint). split; [|split].
    + intros x [<-|Hx]; [now exists z|now apply Hids].
    + right. now exists d.
    + intros d0 [E|E] Hnd M; [discriminate|]. injection E as <-. inversion Hnd as [|? ? Hn Hnd' Heq].
      cbn [app]. rewrite assemble_cons. cbn [fst snd]. rewrite (Hint d (or_intror eq_refl) Hnd' M), integral_marked,
        <- integral_plus.
      apply integral_ext. intros p _. cbn [within_mats existsb]. fold (within_mats M l p). rewrite Ez.
      destruct (q_volume M p =? z)%Z eqn:E; cbn [orb]; [|destruct (within_mats M l p); lra].
      destruct (within_mats M l p) eqn:Ew; [|lra]. exfalso. apply within_spec in Ew as (m' & Hm' & Em').
      apply Z.eqb_eq in E. apply Hn. rewrite Ez, <- E, <- Em'. now apply (in_map (fun m => m_id (attrs m))).
Qed.

(** At every point, what the form compares with is the density of sites. *)
Lemma sites_within M t d0 (d : P -> R) p : one_density t ->
  (t_materials t = [] \/ nth_error (t_density t) 0 = Some d0) -> sites M t p (d p) ->
  (if within_mats M (t_materials t) p then d0 p else 0) = d p.
Proof.
  intros H1 Hd [(i & m & e & Hi & Hm & He & ->)|[Hno ->]].
  - assert (E : within_mats M (t_materials t) p = true)
      by (apply within_spec; exists m; split; [now apply nth_error_In in Hi|exact Hm]).
    rewrite E. destruct Hd as [Hd|Hd]; [rewrite Hd in Hi; destruct i; discriminate|].
    assert (Hj : (match t_k0 t with Scalar _ => O | PerMat _ => i end) = O).
    { destruct H1 as [[k ->]|H1]; [reflexivity|]. destruct (t_k0 t); [reflexivity|].
      assert (i < 1)%nat; [|lia]. rewrite <- H1. apply nth_error_Some. now rewrite Hi. }
    rewrite Hj in He. rewrite Hd in He. now injection He as <-.
  - destruct (within_mats M (t_materials t) p) eqn:E; [|reflexivity].
    apply within_spec in E as (m & Hm & Em). now apply Hno in Em.
Qed.

(** The Galerkin condition: the error is orthogonal to the space. *)
Lemma solved_orthogonal M V t u d : one_density t -> NoDup (map (fun m => m_id (attrs m)) (t_materials t)) ->
  (forall p, In p (q_cells M) -> sites M t p (d p)) -> solved M V t u ->
  forall v, V v -> integral M DxAll (fun p => (u p - d p) * v p) = 0.
Proof.
  intros H1 Hnd Hs [_ Hu] v Hv. destruct (Hu v Hv) as (F & HF & H0). unfold density_form in HF.
  destruct (sum_forms (density_terms t v) (t_materials t)) as [G|] eqn:EG; [|discriminate]. cbn [bind] in HF.
  injection HF as <-. destruct (density_terms_ok t v _ _ EG) as (_ & Hd & Hint).
  rewrite assemble_cons, assemble_neg in H0. cbn [fst snd] in H0.
  assert (Hd0 : exists d0, t_materials t = [] \/ nth_error (t_density t) 0 = Some d0).
  { destruct Hd as [E|[d0 E]]; [exists (fun _ => 0); now left|exists d0; now right]. }
  destruct Hd0 as [d0 Hd0]. rewrite (Hint d0 Hd0 Hnd M) in H0.
  rewrite (integral_ext M DxAll (fun p => if within_mats M (t_materials t) p then d0 p * v p else 0)
             (fun p => d p * v p)) in H0.
  - rewrite <- integral_opp, <- integral_plus in H0. rewrite <- H0. apply integral_ext. intros p _. ring.
  - intros p Hp. rewrite <- (sites_within M t d0 d p H1 Hd0 (Hs p Hp)).
    destruct (within_mats M (t_materials t) p); ring.
Qed.

Lemma integral_nonneg M (e : P -> R) : (forall p, In p (q_cells M) -> 0 <= q_weight M p) ->
  (forall p, In p (q_cells M) -> 0 <= e p) -> 0 <= integral M DxAll e.
Proof.
  unfold integral. cbn [points]. induction (q_cells M) as [|p l IH]; intros Hw He; [cbn; lra|]. cbn [map].
  rewrite rsum_cons. assert (0 <= q_weight M p * e p) by (apply Rmult_le_pos; [apply Hw|apply He]; now left).
  assert (0 <= rsum (map (fun p => q_weight M p * e p) l)); [|lra].
  apply IH; intros q Hq; [apply Hw|apply He]; now right.
Qed.
Lemma integral_null M (e : P -> R) : (forall p, In p (q_cells M) -> 0 <= q_weight M p) ->
  (forall p, In p (q_cells M) -> 0 <= e p) -> integral M DxAll e = 0 ->
  forall p, In p (q_cells M) -> 0 < q_weight M p -> e p = 0.
Proof.
  intros Hw He H0 p Hp Hwp. unfold integral in H0. cbn [points] in H0.
  revert Hw He H0 Hp. induction (q_cells M) as [|q l IH]; intros Hw He H0 Hp; [destruct Hp|]. cbn [map] in H0.
  rewrite rsum_cons in H0.
  assert (Hq : 0 <= q_weight M q * e q) by (apply Rmult_le_pos; [apply Hw|apply He]; now left).
  assert (Hl : 0 <= rsum (map (fun p => q_weight M p * e p) l)).
  { clear - Hw He. induction l as [|r l IH]; [cbn; lra|]. cbn [map]. rewrite rsum_cons.
    assert (0 <= q_weight M r * e r) by (apply Rmult_le_pos; [apply Hw|apply He]; right; now left).
    assert (0 <= rsum (map (fun p => q_weight M p * e p) l)); [|lra].
    apply IH; intros s [<-|Hs]; try (apply Hw; now left); try (apply He; now left);
      [apply Hw|apply He]; right; now right. }
  destruct Hp as [<-|Hp].
  - assert (E : q_weight M q * e q = 0) by lra. apply Rmult_integral in E as [E|E]; [lra|exact E].
  - apply IH; [intros s Hs; apply Hw; now right|intros s Hs; apply He; now right|lra|exact Hp].
Qed.
End Density.
