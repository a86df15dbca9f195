(** Linear elements are exact at the nodes. *)
From Coq Require Import Reals ZArith List Bool Arith Lra Lia Psatz.
From Verif Require Import Base.Exc Base.Dual Model.Materials Model.Laws Model.Theta Model.Forms Model.NonlinearProblem
  Spec.PhysSpec Spec.BalanceSpec Spec.NewtonSpec Spec.MaximumSpec Spec.PermeationSpec Spec.ConductionSpec Spec.ExactSpec
  Proofs.LawProofs Proofs.ThetaProofs Proofs.FormProofs Proofs.MaximumProofs Proofs.PermeationProofs Proofs.ConductionProofs.
Import ListNotations.
Local Open Scope R_scope.

(** * One element *)

Lemma diff_0 a : a - a = 0. Proof. ring. Qed.

Lemma constant_slope (g : R -> R) s a b : (forall t, a <= t <= b -> derivable_pt_lim g t (- s)) ->
  forall t, a <= t <= b -> g t = g a - s * (t - a).
Proof.
  intros Hg t [[Ht|<-] Htb]; [|ring].
  destruct (MVT_cor2 g (fun _ => - s) a t Ht (fun c Hc => Hg c ltac:(lra))) as [c [E _]]. lra.
Qed.
Lemma parabola (f g : R -> R) d s a b : d <> 0 ->
  (forall t, a <= t <= b -> derivable_pt_lim f t (g t) /\ derivable_pt_lim (fun t => d * g t) t (- s)) ->
  forall t, a <= t <= b -> d * g t = d * g a - s * (t - a) /\ d * f t = d * f a + d * g a * (t - a) - s * (t - a) * (t - a) / 2.
Proof.
  intros Hd H t Ht.
  assert (Hg := constant_slope (fun t => d * g t) s a b (fun t Ht => proj2 (H t Ht))). cbv beta in Hg.
  split; [now apply Hg|]. destruct Ht as [[Ht|<-] Htb]; [|field].
  set (w := fun t => f t - (g a * (t - a) - s / d * ((t - a) * (t - a)) / 2)).
  assert (Hw : forall c, a <= c <= t -> derivable_pt_lim w c 0).
  { intros c Hc. destruct (H c ltac:(lra)) as [H1 _]. specialize (Hg c ltac:(lra)). unfold w.
    assert (Ea : derivable_pt_lim (fun t => t - a) c (1 - 0)).
    { apply (derivable_pt_lim_minus id (fun _ => a)); [apply derivable_pt_lim_id|apply derivable_pt_lim_const]. }
    assert (Eg : g c - g a + s / d * (c - a) = 0).
    { apply (Rmult_eq_reg_l d); [|exact Hd]. replace (d * (g c - g a + s / d * (c - a))) with (d * g c - d * g a + s * (c - a)) by (field; exact Hd). lra. }
    assert (E0 : g c - (g a * (1 - 0) - (s / d * ((1 - 0) * (c - a) + (c - a) * (1 - 0)) * / 2 + s / d * ((c - a) * (c - a)) * 0)) = 0)
      by (etransitivity; [|exact Eg]; field; exact Hd).
    refine (eq_ind _ (fun l => derivable_pt_lim _ c l) _ 0 E0).
    apply (derivable_pt_lim_minus f (fun t => g a * (t - a) - s / d * ((t - a) * (t - a)) / 2)); [exact H1|].
    apply (derivable_pt_lim_minus (fun t => g a * (t - a)) (fun t => s / d * ((t - a) * (t - a)) / 2)).
    - apply (derivable_pt_lim_scal (fun t => t - a)). exact Ea.
    - unfold Rdiv at 1. apply (derivable_pt_lim_mult (fun t => s / d * ((t - a) * (t - a))) (fun _ => / 2)); [|apply derivable_pt_lim_const].
      apply (derivable_pt_lim_scal (fun t => (t - a) * (t - a))). apply (derivable_pt_lim_mult (fun t => t - a) (fun t => t - a)); exact Ea. }
  destruct (MVT_cor2 w (fun _ => 0) a t Ht (fun c Hc => Hw c Hc)) as [c [E _]].
  assert (E0 : w t = f a).
  { assert (Ea : w a = f a) by (unfold w; rewrite !diff_0; lra). lra. }
  replace (f t) with (w t + (g a * (t - a) - s / d * ((t - a) * (t - a)) / 2)) by (unfold w; ring). rewrite E0. field. exact Hd.
Qed.

(** * The nodes *)

Section Nodes.
Variables (K : nat) (X : nat -> R) (d s : nat -> R) (bcs : list (list (nat * R))) (eL eR : R -> R).
Hypotheses (HK : (0 < K)%nat) (HX : forall e, (e < K)%nat -> X e < X (S e)) (Hd : forall e, (e < K)%nat -> 0 < d e) (Hends : ends_only K bcs).
Local Notation h e := (length_of X e).

(** The residual of node i. *)
Definition node_with (x : nat -> R) (i : nat) : R :=
  match i with O => 0 | S j => d j / h j * (x i - x j) - s j * h j / 2 end
  - (if Nat.eqb i K then 0 else d i / h i * (x (S i) - x i) + s i * h i / 2)
  - (if Nat.eqb i 0 then eL (x 0%nat) else 0) - (if Nat.eqb i K then eR (x K) else 0).

Lemma node_first x : node_with x 0 = - (d 0%nat / h 0%nat * (x 1%nat - x 0%nat) + s 0%nat * h 0%nat / 2) - eL (x 0%nat).
Proof using All. unfold node_with. destruct (Nat.eqb_spec 0 K); [lia|]. cbn [Nat.eqb]. ring. Qed.
Lemma node_last x k : K = S k -> node_with x K = d k / h k * (x (S k) - x k) - s k * h k / 2 - eR (x (S k)).
Proof using All. intros E. unfold node_with. rewrite Nat.eqb_refl, E. cbn [Nat.eqb]. ring. Qed.
Lemma node_inner x j : (S j < K)%nat -> node_with x (S j)
  = d j / h j * (x (S j) - x j) - s j * h j / 2 - (d (S j) / h (S j) * (x (S (S j)) - x (S j)) + s (S j) * h (S j) / 2).
Proof using All. intros Hj. unfold node_with. destruct (Nat.eqb_spec (S j) K); [lia|]. cbn [Nat.eqb]. ring. Qed.

Lemma element_ends u u' e : exact_solution K X d s bcs eL eR u u' -> (e < K)%nat ->
  d e * u' e (X e) = d e / h e * (u e (X (S e)) - u e (X e)) + s e * h e / 2 /\
  d e * u' e (X (S e)) = d e / h e * (u e (X (S e)) - u e (X e)) - s e * h e / 2.
Proof using HX Hd.
  intros [Hu _] He. pose proof (HX e He) as Hx. pose proof (Hd e He) as Hde.
  destruct (parabola (u e) (u' e) (d e) (s e) (X e) (X (S e)) ltac:(lra) (fun t Ht => Hu e t He Ht) (X (S e)) ltac:(lra)) as [H1 H2].
  unfold length_of. set (hh := X (S e) - X e) in *. assert (Hh : 0 < hh) by (unfold hh; lra).
  assert (E : d e / hh * (u e (X (S e)) - u e (X e)) = d e * u' e (X e) - s e * hh / 2).
  { replace (d e / hh * (u e (X (S e)) - u e (X e))) with ((d e * u e (X (S e)) - d e * u e (X e)) / hh) by (field; lra). rewrite H2. field. lra. }
  rewrite E, H1. split; field.
Qed.
Lemma left_value u u' e : exact_solution K X d s bcs eL eR u u' -> (e < K)%nat -> u e (X e) = at_node X u e.
Proof using Type. intros (_ & Hc & _) He. destruct e as [|e]; [reflexivity|]. symmetry. now apply (Hc e). Qed.

(** The values of the exact solution at the nodes satisfy the equations of the nodes. *)
Lemma exact_nodes (r : (nat -> R) -> nat -> R) x u u' : (forall x i, (i < S K)%nat -> r x i = node_with x i) ->
  exact_solution K X d s bcs eL eR u u' -> (forall i, (i <= K)%nat -> x i = at_node X u i) -> solves (S K) bcs r x.
Proof using All.
  intros Hr Hu Hx i Hi. unfold problem_F.
  assert (F : forall e, (e < K)%nat -> d e * u' e (X e) = d e / h e * (x (S e) - x e) + s e * h e / 2 /\
                        d e * u' e (X (S e)) = d e / h e * (x (S e) - x e) - s e * h e / 2).
  { intros e He. rewrite (Hx (S e)), (Hx e) by lia. cbn [at_node]. rewrite <- (left_value u u' e Hu He). now apply element_ends. }
  destruct Hu as (_ & Hc & HL & HR).
  destruct (Nat.eq_dec i 0) as [->|Hi0]; [|destruct (Nat.eq_dec i K) as [->|HiK]].
  - destruct (boundary_value bcs 0) as [c|]; [rewrite Hx by lia; cbn [at_node]; lra|].
    rewrite Hr, node_first by lia. destruct (F 0%nat HK) as [F0 _]. rewrite <- (Hx 0%nat ltac:(lia) : x 0%nat = u 0%nat (X 0%nat)) in HL. lra.
  - assert (HKk : exists k, K = S k) by (exists (pred K); lia). destruct HKk as [k Ek].
    destruct (boundary_value bcs K) as [c|].
    + rewrite Hx by lia. rewrite Ek in *. cbn [at_node]. replace (S k - 1)%nat with k in HR by lia. lra.
    + rewrite Hr by lia. rewrite (node_last x k Ek). destruct (F k ltac:(lia)) as [_ F1].
      rewrite Ek in HR. replace (S k - 1)%nat with k in HR by lia. rewrite <- (Hx (S k) ltac:(lia) : x (S k) = u k (X (S k))) in HR. lra.
  - rewrite Hends by lia. rewrite Hr by lia. destruct i as [|j]; [lia|]. rewrite node_inner by lia.
    destruct (F j ltac:(lia)) as [_ F1]. destruct (F (S j) ltac:(lia)) as [F2 _]. destruct (Hc j ltac:(lia)) as [_ Hj]. lra.
Qed.

(** Through the solution of the equations of the nodes goes an exact solution. *)
Lemma nodes_exact (r : (nat -> R) -> nat -> R) x : (forall x i, (i < S K)%nat -> r x i = node_with x i) -> solves (S K) bcs r x ->
  exists u u', exact_solution K X d s bcs eL eR u u' /\ forall i, (i <= K)%nat -> x i = at_node X u i.
Proof using All.
  intros Hr Hs.
  set (p := fun e => (x (S e) - x e) / h e + s e / d e * h e / 2).
  exists (fun e t => x e + p e * (t - X e) - s e / d e / 2 * ((t - X e) * (t - X e))), (fun e t => p e - s e / d e * (t - X e)).
  assert (Hend : forall e, (e < K)%nat -> x e + p e * (X (S e) - X e) - s e / d e / 2 * ((X (S e) - X e) * (X (S e) - X e)) = x (S e)).
  { intros e He. unfold p, length_of. pose proof (HX e He). pose proof (Hd e He). field. split; lra. }
  assert (Hp : forall e, (e < K)%nat -> d e * p e = d e / h e * (x (S e) - x e) + s e * h e / 2).
  { intros e He. unfold p, length_of. pose proof (HX e He). pose proof (Hd e He). field. split; lra. }
  assert (Hp' : forall e, (e < K)%nat -> d e * (p e - s e / d e * (X (S e) - X e)) = d e / h e * (x (S e) - x e) - s e * h e / 2).
  { intros e He. unfold p, length_of. pose proof (HX e He). pose proof (Hd e He). field. split; lra. }
  assert (Hres : forall i, (i < S K)%nat -> boundary_value bcs i = None -> node_with x i = 0).
  { intros i Hi E. rewrite <- Hr by exact Hi. specialize (Hs i Hi). unfold problem_F in Hs. now rewrite E in Hs. }
  assert (HKk : exists k, K = S k) by (exists (pred K); lia). destruct HKk as [k Ek].
  split.
  - split; [|split; [|split]].
    + intros e t He Ht. pose proof (Hd e He) as Hde.
      assert (Ea : derivable_pt_lim (fun t => t - X e) t (1 - 0)).
      { apply (derivable_pt_lim_minus id (fun _ => X e)); [apply derivable_pt_lim_id|apply derivable_pt_lim_const]. }
      split.
      * replace (p e - s e / d e * (t - X e)) with (0 + p e * (1 - 0) - s e / d e / 2 * ((1 - 0) * (t - X e) + (t - X e) * (1 - 0))) by (field; lra).
        apply (derivable_pt_lim_minus (fun t => x e + p e * (t - X e)) (fun t => s e / d e / 2 * ((t - X e) * (t - X e)))).
        -- apply (derivable_pt_lim_plus (fun _ => x e) (fun t => p e * (t - X e))); [apply derivable_pt_lim_const|].
           apply (derivable_pt_lim_scal (fun t => t - X e)). exact Ea.
        -- apply (derivable_pt_lim_scal (fun t => (t - X e) * (t - X e))). apply (derivable_pt_lim_mult (fun t => t - X e) (fun t => t - X e)); exact Ea.
      * replace (- s e) with (d e * (0 - s e / d e * (1 - 0))) by (field; lra).
        apply (derivable_pt_lim_scal (fun t => p e - s e / d e * (t - X e))).
        apply (derivable_pt_lim_minus (fun _ => p e) (fun t => s e / d e * (t - X e))); [apply derivable_pt_lim_const|].
        apply (derivable_pt_lim_scal (fun t => t - X e)). exact Ea.
    + intros e He. split; [rewrite Hend by lia; ring|]. rewrite Hp' by lia. rewrite diff_0. rewrite Rmult_0_r, Rminus_0_r, Hp by lia.
      pose proof (Hres (S e) ltac:(lia) (Hends (S e) ltac:(lia))) as E. rewrite node_inner in E by lia. lra.
    + destruct (boundary_value bcs 0) as [c|] eqn:E.
      * specialize (Hs 0%nat ltac:(lia)). unfold problem_F in Hs. rewrite E in Hs. lra.
      * pose proof (Hres 0%nat ltac:(lia) E) as E0. rewrite node_first in E0.
        rewrite !diff_0. rewrite !Rmult_0_r, !Rminus_0_r, Rplus_0_r, Hp by lia. lra.
    + replace (K - 1)%nat with k by lia. rewrite (f_equal X Ek), Hend by lia. destruct (boundary_value bcs K) as [c|] eqn:E.
      * specialize (Hs K ltac:(lia)). unfold problem_F in Hs. rewrite E, (f_equal x Ek) in Hs. lra.
      * pose proof (Hres K ltac:(lia) E) as E0. rewrite (node_last x k Ek) in E0. rewrite Hp' by lia. lra.
  - intros [|j] Hi; cbn [at_node]; [rewrite !diff_0; ring|]. symmetry. apply Hend. lia.
Qed.
End Nodes.

(** * The residuals of the model *)

Section Residuals.
Variables (K : nat) (X : nat -> R) (rule : list (R * R)) (vol : nat -> Z) (left right : Z).
Hypotheses (HK : (0 < K)%nat) (HX : forall e, (e < K)%nat -> X e < X (S e)) (Hrule : exact_2 rule).
Local Notation M := (segment K X rule vol left right).
Local Notation phi := (linear K X).
Local Notation N := (S K).

Lemma sources_row ss s i : generation K rule vol ss s -> (i < N)%nat ->
  assemble M (flat_map (fun src => map (fun z => (Dx z, fun p => - s_value src p * val (phi i p))) (ids (s_volume src))) ss)
  = - match i with O => 0 | S j => s j * length_of X j / 2 end - (if Nat.eqb i K then 0 else s i * length_of X i / 2).
Proof using All.
  intros Hs Hi. rewrite assemble_flat_map.
  set (G := fun p => rsum (map (fun src => rsum (map (fun z => if Z.eqb (q_volume M p) z then s_value src p else 0) (ids (s_volume src)))) ss)).
  assert (E : sum_over ss (fun src => assemble M (map (fun z => (Dx z, fun p => - s_value src p * val (phi i p))) (ids (s_volume src))))
              = integral M DxAll (fun p => - (G p * val (phi i p)))).
  { unfold integral at 1. cbn [points].
    assert (E1 : forall src z, integral M (Dx z) (fun p => - s_value src p * val (phi i p))
      = rsum (map (fun p => q_weight M p * ((if Z.eqb (q_volume M p) z then s_value src p else 0) * - val (phi i p))) (q_cells M))).
    { intros src z. unfold integral. cbn [points]. induction (q_cells M) as [|p l IH]; [reflexivity|]. cbn [filter map]. rewrite rsum_cons, <- IH.
      destruct (Z.eqb (q_volume M p) z); cbn [map]; rewrite ?rsum_cons; ring. }
    unfold sum_over. rewrite (rsum_map_ext _ (fun src => rsum (map (fun z => rsum (map (fun p => q_weight M p *
       ((if Z.eqb (q_volume M p) z then s_value src p else 0) * - val (phi i p))) (q_cells M))) (ids (s_volume src))))).
    2:{ intros src _. rewrite assemble_map. unfold sum_over. apply rsum_map_ext. intros z _. cbn [fst snd]. apply E1. }
    clear E1. induction (q_cells M) as [|p l IH].
    - cbn [map]. rewrite rsum_nil. apply rsum_map_zero. intros src _. apply rsum_map_zero. reflexivity.
    - cbn [map]. rewrite rsum_cons, <- IH.
      rewrite (rsum_map_ext _ (fun src => q_weight M p * - val (phi i p) *
         rsum (map (fun z => if Z.eqb (q_volume M p) z then s_value src p else 0) (ids (s_volume src)))
         + rsum (map (fun z => rsum (map (fun p0 => q_weight M p0 * ((if Z.eqb (q_volume M p0) z then s_value src p0 else 0) * - val (phi i p0))) l)) (ids (s_volume src))))).
      + rewrite rsum_map_plus, rsum_map_scale. unfold G. ring.
      + intros src _. rewrite <- rsum_map_scale, <- rsum_map_plus. apply rsum_map_ext. intros z _. rewrite rsum_cons. ring. }
  rewrite E. clear E. rewrite all_elements.
  rewrite (sum_over_ext _ _ (fun e => - (if Nat.eqb i (S e) then s e * length_of X e / 2 else 0) - (if Nat.eqb i e then s e * length_of X e / 2 else 0))).
  - rewrite <- sum_over_minus. unfold sum_over. rewrite rsum_map_opp, (seq_up K HK), (seq_down K HK) by exact Hi. reflexivity.
  - intros e He. apply in_seq in He.
    rewrite (sum_over_ext _ _ (fun q => (if Nat.eqb i e then - (s e * length_of X e) else 0) * (snd q - snd q * fst q)
      + (if Nat.eqb i (S e) then - (s e * length_of X e) else 0) * (snd q * fst q))).
    + rewrite sum_over_plus, !sum_over_scale. rewrite <- sum_over_minus. unfold sum_over. destruct Hrule as (_ & -> & -> & _).
      destruct (Nat.eqb i e); destruct (Nat.eqb i (S e)); field.
    + intros q Hq. assert (EG : G (Cell e (fst q) (snd q)) = s e) by (unfold G; cbn [q_volume segment element]; apply Hs; [lia|exact Hq]).
      rewrite EG. cbn [linear val element local]. destruct (Nat.eqb_spec i e) as [E|E]; destruct (Nat.eqb_spec i (S e)) as [E'|E']; try lia; ring.
Qed.

Lemma uniform_conductance D d e : by_element K rule D d -> (e < K)%nat -> conductance X rule D e = d e / length_of X e.
Proof using All.
  intros Hd He. unfold conductance. rewrite (rsum_map_ext _ (fun q => d e * snd q)) by (intros q Hq; rewrite Hd by assumption; ring).
  rewrite rsum_map_scale. destruct Hrule as (_ & -> & _). now rewrite Rmult_1_r.
Qed.
Lemma uniform_pos D d e : by_element K rule D d -> (forall p, In p (q_cells M) -> 0 < D p) -> (e < K)%nat -> 0 < d e.
Proof using All.
  intros Hd HD He. destruct (rule_inner rule Hrule) as (q & Hq & _). rewrite <- (Hd e q He Hq). apply HD, segment_cells; eauto.
Qed.

Lemma hydrogen_node mb ms T D d s r x i : mb_class mb = ClassMobile -> (forall src, In src (mb_sources mb) -> s_decay src = None) ->
  generation K rule vol (mb_sources mb) s ->
  (forall b, In b (mb_bcs mb) -> match b with BSurf _ => False | _ => True end) ->
  covered M ms -> positive_temperature M T -> diffusivity K X rule vol left right ms T D -> by_element K rule D d ->
  hydrogen_residual M mb ms T None false N phi r -> (i < N)%nat ->
  r x i = node_with K X d s (fun c => entering K X rule vol left right (mb_bcs mb) T c LeftEnd)
            (fun c => entering K X rule vol left right (mb_bcs mb) T c RightEnd) x i.
Proof using All.
  intros Hcl Hdec Hs Hb Hcov HT HD Hd Hr Hi.
  set (S0 := fun i => assemble M (flat_map (fun src => map (fun z => (Dx z, fun p => - s_value src p * val (phi i p))) (ids (s_volume src))) (mb_sources mb))).
  set (mb0 := mkMobile (mb_class mb) (mb_solution mb) (mb_previous mb) (mb_test mb) [] (mb_bcs mb)).
  assert (Hr0 : hydrogen_residual M mb0 ms T None false N phi (fun x i => r x i - S0 i)).
  { intros y j Hj. destruct (Hr y j Hj) as (F & HF & <-).
    set (m1 := mkMobile (mb_class mb) (span N phi y) (mb_previous mb) (phi j) (mb_sources mb) (mb_bcs mb)) in *.
    destruct (hydrogen_split M m1 ms T None F Hcl HF) as [_ EF].
    cbn [mb_class mb_previous mb_sources mb_bcs mb0].
    set (m0 := mkMobile (mb_class mb) (span N phi y) (mb_previous mb) (phi j) [] (mb_bcs mb)).
    assert (HF0 : exists F0, define_variational_problem M m0 ms T None [] false = Ok F0).
    { unfold define_variational_problem, mobile_create_form, create_diffusion_form in HF |- *. cbn [sum_forms bind] in HF |- *.
      change (material_form M m1 T None false) with (material_form M m0 T None false) in HF.
      destruct (sum_forms (material_form M m0 T None false) ms); cbn [bind] in HF |- *; [eauto|discriminate]. }
    destruct HF0 as [F0 HF0]. exists F0. split; [exact HF0|].
    destruct (hydrogen_split M m0 ms T None F0 Hcl HF0) as [_ ->]. rewrite EF.
    change (create_fluxes_form M m0 T None) with (create_fluxes_form M m1 T None).
    unfold create_mobile_source_form at 1. cbn [m0 mb_sources flat_map]. rewrite assemble_nil.
    cbn [m0 m1 mb_solution mb_previous mb_test].
    assert (ES : assemble M (create_mobile_source_form M m1) = S0 j).
    { unfold create_mobile_source_form, S0. cbn [m1 mb_sources]. rewrite !assemble_flat_map. apply sum_over_ext. intros src Hin.
      unfold mobile_source_terms. rewrite (Hdec src Hin). reflexivity. }
    rewrite ES. ring. }
  assert (E := steady_residual K X rule vol left right HK HX Hrule mb0 ms T D _ x i Hcl eq_refl Hb Hcov HT HD Hr0 Hi). cbv beta in E.
  cbn [mb0 mb_bcs] in E. unfold S0 in E. rewrite (sources_row _ s i Hs Hi) in E.
  unfold node_with. destruct i as [|j].
  - destruct (Nat.eqb_spec 0 K); [lia|]. rewrite (uniform_conductance D d) in E by (assumption || lia). lra.
  - rewrite (uniform_conductance D d j) in E by (assumption || lia). destruct (Nat.eqb_spec (S j) K).
    + lra.
    + rewrite (uniform_conductance D d (S j)) in E by (assumption || lia). lra.
Qed.

Lemma heat_node ms dt T_n ss bcs k d s r x i : covered M ms -> conductivity K X rule vol left right ms (fun _ => k) -> by_element K rule k d ->
  generation K rule vol ss s ->
  (forall b, In b bcs -> match snd b with FluxBC _ | ConvectiveFlux _ _ | CustomFlux _ => True | _ => False end) ->
  heat_residual M false dt T_n ms ss bcs N phi r -> (i < N)%nat ->
  r x i = node_with K X d s (fun t => heat_entering K X rule vol left right bcs t LeftEnd)
            (fun t => heat_entering K X rule vol left right bcs t RightEnd) x i.
Proof using All.
  intros Hcov Hk Hd Hs Hb Hr Hi.
  set (S0 := fun i => assemble M (flat_map (fun src => map (fun z => (Dx z, fun p => - s_value src p * val (phi i p))) (ids (s_volume src))) ss)).
  assert (Hr0 : heat_residual M false dt T_n ms [] bcs N phi (fun x i => r x i - S0 i)).
  { intros y j Hj. destruct (Hr y j Hj) as (F & HF & Er). cbv beta. rewrite <- Er. clear Er. unfold heat_form in HF |- *. cbv zeta in HF |- *.
    match type of HF with bind ?x _ = _ => destruct x as [G|e] eqn:EG; cbn [bind] in HF |- *; [|discriminate] end.
    match type of HF with bind ?x _ = _ => destruct x as [H|e] eqn:EH; cbn [bind] in HF |- *; [|discriminate] end.
    apply Ok_inj in HF. subst F. eexists. split; [reflexivity|]. rewrite !assemble_app. cbn [flat_map]. rewrite assemble_nil. unfold S0. ring. }
  assert (E := heat_steady K X rule vol left right HK HX Hrule ms dt T_n bcs (fun _ => k) _ x i Hcov Hk Hb Hr0 Hi). cbv beta in E.
  unfold S0 in E. rewrite (sources_row _ s i Hs Hi) in E. unfold node in E.
  unfold node_with. destruct i as [|j].
  - destruct (Nat.eqb_spec 0 K); [lia|]. rewrite (uniform_conductance (fun p => k p) d) in E by (assumption || lia). lra.
  - rewrite (uniform_conductance (fun p => k p) d j) in E by (assumption || lia). destruct (Nat.eqb_spec (S j) K).
    + lra.
    + rewrite (uniform_conductance (fun p => k p) d (S j)) in E by (assumption || lia). lra.
Qed.
End Residuals.
