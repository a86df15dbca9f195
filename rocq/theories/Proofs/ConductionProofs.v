(** Chains of conductances, and the steady heat equation on a segment. *)
From Coq Require Import Reals ZArith List Bool Arith Lra Lia Psatz.
From Verif Require Import Base.Exc Base.Dual Model.Materials Model.Laws Model.Theta Model.Forms Model.NonlinearProblem
  Spec.PhysSpec Spec.BalanceSpec Spec.NewtonSpec Spec.MaximumSpec Spec.PermeationSpec Spec.ConductionSpec
  Proofs.LawProofs Proofs.ThetaProofs Proofs.FormProofs Proofs.MaximumProofs Proofs.PermeationProofs.
Import ListNotations.
Local Open Scope R_scope.

Section Chain.
Variables (K : nat) (a : nat -> R) (bcs : list (list (nat * R))).
Hypotheses (HK : (0 < K)%nat) (Ha : forall e, (e < K)%nat -> 0 < a e) (Hends : ends_only K bcs).
Definition rho (i : nat) : R := rsum (map (fun e => / a e) (seq 0 i)).
Definition node (x : nat -> R) (eL eR : R) (i : nat) : R :=
  match i with O => 0 | S j => a j * (x i - x j) end - (if Nat.eqb i K then 0 else a i * (x (S i) - x i))
  - (if Nat.eqb i 0 then eL else 0) - (if Nat.eqb i K then eR else 0).

Lemma rho_0 : rho 0 = 0. Proof. reflexivity. Qed.
Lemma rho_S i : rho (S i) = rho i + / a i.
Proof. unfold rho. rewrite seq_S, map_app, rsum_app. cbn [map plus]. rewrite rsum_cons, rsum_nil. ring. Qed.
Lemma rho_mono i j : (i <= j <= K)%nat -> rho i <= rho j.
Proof.
  intros [Hij HjK]. induction Hij as [|j Hij IH]; [lra|]. rewrite rho_S. specialize (IH ltac:(lia)).
  pose proof (Rinv_0_lt_compat _ (Ha j ltac:(lia))). lra.
Qed.
Lemma rho_pos : 0 < rho K.
Proof.
  assert (E : rho K = rho (pred K) + / a (pred K)) by (rewrite <- rho_S; f_equal; lia).
  pose proof (Rinv_0_lt_compat _ (Ha (pred K) ltac:(lia))). pose proof (rho_mono 0 (pred K) ltac:(lia)) as G. rewrite rho_0 in G. lra.
Qed.

Lemma chain_series (x r : nat -> R) eL eR : (forall i, (i < S K)%nat -> r i = node x eL eR i) ->
  (forall i, (i < S K)%nat -> boundary_value bcs i = None -> r i = 0) ->
  exists J, (forall e, (e < K)%nat -> a e * (x (S e) - x e) = J) /\ (forall i, (i <= K)%nat -> x i - x 0%nat = J * rho i) /\
    (boundary_value bcs 0 = None -> J = - eL) /\ (boundary_value bcs K = None -> J = eR).
Proof.
  intros Hr Hres. unfold node in Hr. set (J := a 0%nat * (x 1%nat - x 0%nat)).
  assert (HJ : forall e, (e < K)%nat -> a e * (x (S e) - x e) = J).
  { induction e as [|e IH]; intros He; [reflexivity|]. specialize (IH ltac:(lia)).
    pose proof (Hres (S e) ltac:(lia) (Hends (S e) ltac:(lia))) as E. rewrite (Hr (S e)) in E by lia.
    destruct (Nat.eqb_spec (S e) K); [lia|]. cbn [Nat.eqb] in E. lra. }
  exists J. split; [exact HJ|]. split; [|split].
  - induction i as [|i IH]; intros Hi; [rewrite rho_0; ring|].
    rewrite rho_S, Rmult_plus_distr_l, <- IH by lia. rewrite <- (HJ i) by lia. pose proof (Ha i ltac:(lia)). field. lra.
  - intros E. pose proof (Hres 0%nat ltac:(lia) E) as H0. rewrite (Hr 0%nat) in H0 by lia.
    destruct (Nat.eqb_spec 0 K); [lia|]. cbn [Nat.eqb] in H0. fold J in H0. lra.
  - intros E. pose proof (Hres K ltac:(lia) E) as H0. rewrite (Hr K) in H0 by lia.
    rewrite Nat.eqb_refl in H0. destruct K as [|k]; [lia|]. cbn [Nat.eqb] in H0. rewrite (HJ k ltac:(lia)) in H0. lra.
Qed.

Lemma film_nonneg enter i e : at_end bcs enter i e -> 0 <= film e.
Proof. destruct e as [c|h c]; cbn; [lra|]. intros (_ & H & _). left. now apply Rinv_0_lt_compat. Qed.

Lemma chain_solution (r : (nat -> R) -> nat -> R) eL eR l e :
  (forall x i, (i < S K)%nat -> r x i = node x (eL (x 0%nat)) (eR (x K)) i) -> at_end bcs eL 0 l -> at_end bcs eR K e ->
  forall x,
  (MaximumSpec.solves (S K) bcs r x <->
   forall i, (i <= K)%nat -> x i = outside l + (outside e - outside l) / (film l + rho K + film e) * (film l + rho i)) /\
  (MaximumSpec.solves (S K) bcs r x -> monotone_between K x (outside l) (outside e)).
Proof.
  intros Hr Hl He x. pose proof (film_nonneg _ _ _ Hl) as Fl. pose proof (film_nonneg _ _ _ He) as Fe. pose proof rho_pos as RK.
  set (tot := film l + rho K + film e). assert (Htot : 0 < tot) by (unfold tot; lra).
  assert (Himp : MaximumSpec.solves (S K) bcs r x ->
    forall i, (i <= K)%nat -> x i = outside l + (outside e - outside l) / tot * (film l + rho i)).
  { intros Hs. destruct (chain_series x (r x) (eL (x 0%nat)) (eR (x K)) (Hr x)) as (J & _ & Hx & JL & JR).
    { intros i Hi E. specialize (Hs i Hi). unfold problem_F in Hs. now rewrite E in Hs. }
    assert (E0 : x 0%nat = outside l + J * film l).
    { specialize (Hs 0%nat ltac:(lia)). unfold problem_F in Hs. destruct l as [c|h c]; cbn in *; [rewrite Hl in Hs; lra|].
      destruct Hl as (HN & Hh & Hu). rewrite (JL HN), Hu. field. lra. }
    assert (EK : x K = outside e - J * film e).
    { specialize (Hs K ltac:(lia)). unfold problem_F in Hs. destruct e as [c|h c]; cbn in *; [rewrite He in Hs; lra|].
      destruct He as (HN & Hh & Hu). rewrite (JR HN), Hu. field. lra. }
    pose proof (Hx K ltac:(lia)) as HJ.
    assert (EJ : (outside e - outside l) / tot = J).
    { replace (outside e - outside l) with (J * tot) by (unfold tot; lra). field. lra. }
    intros i Hi. specialize (Hx i Hi). rewrite EJ. lra. }
  split; [split; [exact Himp|]|].
  - intros Hx i Hi. unfold problem_F. rewrite (Hr x i Hi). unfold node.
    set (J := (outside e - outside l) / tot) in *.
    assert (EJ : J * tot = outside e - outside l) by (unfold J; field; lra). unfold tot in EJ. clearbody J.
    assert (Hst : forall j, (j < K)%nat -> a j * (x (S j) - x j) = J).
    { intros j Hj. rewrite (Hx j), (Hx (S j)) by lia. rewrite rho_S. pose proof (Ha j Hj). field. lra. }
    assert (H0 := Hx 0%nat ltac:(lia)). rewrite rho_0 in H0. assert (HKx := Hx K ltac:(lia)).
    destruct (Nat.eq_dec i 0) as [->|Hi0].
    + destruct (Nat.eqb_spec 0 K); [lia|]. cbn [Nat.eqb]. rewrite (Hst 0%nat) by lia. destruct l as [c|h c]; cbn in *.
      * rewrite Hl. lra.
      * destruct Hl as (-> & Hh & Hu). rewrite Hu, H0. field. lra.
    + destruct i as [|j]; [lia|]. rewrite Hst by lia. destruct (Nat.eqb_spec (S j) K) as [E|E]; cbn [Nat.eqb].
      * rewrite E. assert (EE : x K = outside e - J * film e) by lra. destruct e as [c|h c]; cbn in *.
        -- rewrite He. lra.
        -- destruct He as (-> & Hh & Hu). rewrite Hu, EE. field. lra.
      * rewrite Hends, Hst by lia. ring.
  - intros Hs. specialize (Himp Hs). unfold monotone_between.
    assert (Hi : 0 < / tot) by now apply Rinv_0_lt_compat.
    assert (E1 : / tot * tot = 1) by (field; lra).
    split; intros Hc i j Hij; rewrite (Himp i), (Himp j) by lia; unfold Rdiv;
      pose proof (rho_mono 0%nat i ltac:(lia)) as M0; pose proof (rho_mono i j Hij) as M1; pose proof (rho_mono j K ltac:(lia)) as M2; rewrite rho_0 in M0.
    all: assert (G : forall u v, u <= v -> / tot * u <= / tot * v) by (intros u v Huv; apply Rmult_le_compat_l; lra).
    all: pose proof (G 0 (film l + rho i) ltac:(lra)) as G0; pose proof (G (film l + rho i) (film l + rho j) ltac:(lra)) as G1;
      pose proof (G (film l + rho j) tot ltac:(unfold tot; lra)) as G2.
    all: rewrite E1 in G2; rewrite Rmult_0_r in G0; rewrite !Rmult_assoc; set (ti := / tot * (film l + rho i)) in *;
      set (tj := / tot * (film l + rho j)) in *; clearbody ti tj; repeat split; nra.
Qed.
End Chain.

Section Heat.
Variables (K : nat) (X : nat -> R) (rule : list (R * R)) (vol : nat -> Z) (left right : Z).
Hypotheses (HK : (0 < K)%nat) (HX : forall e, (e < K)%nat -> X e < X (S e)) (Hrule : exact_2 rule).
Local Notation M := (segment K X rule vol left right).
Local Notation phi := (linear K X).
Local Notation N := (S K).

Lemma end_left x : val (span N phi x LeftEnd) = x 0%nat.
Proof using All.
  assert (HL : point M LeftEnd) by (right; now left).
  rewrite (proj1 (span_segment K X rule vol left right HK Hrule x _ HL)). cbn [element local]. ring.
Qed.
Lemma end_right x : val (span N phi x RightEnd) = x K.
Proof using All.
  assert (HR : point M RightEnd) by (right; right; now left).
  rewrite (proj1 (span_segment K X rule vol left right HK Hrule x _ HR)). cbn [element local]. replace (S (K - 1)) with K by lia. ring.
Qed.

Lemma heat_fluxes_ends bcs x i H : (i < N)%nat ->
  (forall b, In b bcs -> match snd b with FluxBC _ | ConvectiveFlux _ _ | CustomFlux _ => True | _ => False end) ->
  sum_forms (fun b => let! g := heat_flux_form (snd b) (span N phi x) in
                      Ok (map (fun surf => (Ds surf, fun p => - g p * val (phi i p))) (fst b))) bcs = Ok H ->
  assemble M H = - (if Nat.eqb i 0 then heat_entering K X rule vol left right bcs (x 0%nat) LeftEnd else 0)
                 - (if Nat.eqb i K then heat_entering K X rule vol left right bcs (x K) RightEnd else 0).
Proof using All.
  intros Hi Hb EH.
  assert (PL : val (phi i LeftEnd) = if Nat.eqb i 0 then 1 else 0).
  { cbn [linear val element local]. destruct (Nat.eqb i 0); [ring|]. destruct (Nat.eqb i 1); reflexivity. }
  assert (PR : val (phi i RightEnd) = if Nat.eqb i K then 1 else 0).
  { cbn [linear val element local]. replace (S (K - 1)) with K by lia.
    destruct (Nat.eqb_spec i (K - 1)) as [->|]; [destruct (Nat.eqb_spec (K - 1) K); [lia|ring]|]. destruct (Nat.eqb i K); reflexivity. }
  rewrite (sum_forms_assemble M _ (fun b =>
    - (if Nat.eqb i 0 then 1 else 0) * rsum (map (fun z => if Z.eqb (q_surface M LeftEnd) z then flux_into (snd b) (x 0%nat) 0 LeftEnd else 0) (fst b))
    + - (if Nat.eqb i K then 1 else 0) * rsum (map (fun z => if Z.eqb (q_surface M RightEnd) z then flux_into (snd b) (x K) 0 RightEnd else 0) (fst b))) bcs H EH).
  - rewrite sum_over_plus, !sum_over_scale. unfold heat_entering, sum_over. destruct (Nat.eqb i 0); destruct (Nat.eqb i K); ring.
  - intros b G Hin E. specialize (Hb b Hin). destruct (heat_flux_form (snd b) (span N phi x)) as [g|e] eqn:Eg; cbn [bind] in E; [|discriminate].
    apply Ok_inj in E. subst G.
    assert (Hg : forall p, g p = flux_into (snd b) (val (span N phi x p)) 0 p).
    { intros p. destruct (snd b); cbn [heat_flux_form] in Eg; try contradiction; apply Ok_inj in Eg; subst g; cbn [flux_form flux_into];
        unfold convective_form; try reflexivity; ring. }
    rewrite assemble_map. unfold sum_over. cbn [fst snd]. rewrite <- !rsum_map_scale, <- rsum_map_plus. apply rsum_map_ext. intros z _.
    unfold integral, points. cbn [q_facets segment filter]. cbn [q_surface segment].
    destruct (Z.eqb left z); destruct (Z.eqb right z); cbn [map]; rewrite ?rsum_cons, ?rsum_nil; cbn [q_weight segment];
      rewrite ?Hg, ?PL, ?PR, ?end_left, ?end_right; ring.
Qed.

Lemma heat_steady ms dt T_n bcs k r x i : covered M ms -> conductivity K X rule vol left right ms k ->
  (forall b, In b bcs -> match snd b with FluxBC _ | ConvectiveFlux _ _ | CustomFlux _ => True | _ => False end) ->
  heat_residual M false dt T_n ms [] bcs N phi r -> (i < N)%nat ->
  r x i = node K (conductance X rule (fun p => k (val (span N phi x p)) p)) x
            (heat_entering K X rule vol left right bcs (x 0%nat) LeftEnd) (heat_entering K X rule vol left right bcs (x K) RightEnd) i.
Proof using All.
  intros [Hnd Hcov] Hk Hb Hr Hi. destruct (Hr x i Hi) as (F & HF & <-).
  unfold heat_form in HF. cbv zeta in HF. set (u := span N phi x) in *. set (D := fun p => k (val (u p)) p).
  match type of HF with bind ?x _ = _ => destruct x as [G|e] eqn:EG; cbn [bind] in HF; [|discriminate] end.
  match type of HF with bind ?x _ = _ => destruct x as [H|e] eqn:EH; cbn [bind] in HF; [|discriminate] end.
  apply Ok_inj in HF. subst F. rewrite !assemble_app. cbn [flat_map]. rewrite assemble_nil.
  rewrite (heat_fluxes_ends bcs x i H Hi Hb EH).
  assert (HG : assemble M G = integral M DxAll (fun p => D p * grd (u p) 0 * grd (phi i p) 0)).
  { rewrite <- total_cartesian, <- (sum_materials_total M (BalanceSpec.all_ids ms)) by auto.
    unfold BalanceSpec.all_ids. rewrite sum_over_flat_map.
    apply (sum_forms_assemble M _ _ ms G EG). intros m W Hm E. unfold heat_material_form in E.
    destruct (value_at (m_thermal (attrs m))) as [f|e] eqn:Ef; cbn [bind] in E; [|discriminate]. apply Ok_inj in E. subst W. cbn [app].
    rewrite assemble_map. apply sum_over_ext. intros z Hz. rewrite total_in_cartesian. cbn [fst snd q_type segment]. apply integral_ext. intros p Hp.
    cbn [q_dim segment]. rewrite dot1. apply in_points_cells in Hp as [Hp Ez]. unfold D.
    specialize (Hk m p (val (u p)) Hm (or_introl Hp) ltac:(now rewrite Ez)).
    destruct (m_thermal (attrs m)) as [[c|g]|]; cbn in Ef; try discriminate; apply Ok_inj in Ef; subst f; rewrite Hk; ring. }
  rewrite HG, all_elements.
  rewrite (sum_over_ext _ _ (fun e => (if Nat.eqb i (S e) then conductance X rule D e * (x (S e) - x e) else 0)
    - (if Nat.eqb i e then conductance X rule D e * (x (S e) - x e) else 0))).
  - rewrite <- sum_over_minus. unfold sum_over. rewrite (seq_up K HK), (seq_down K HK) by exact Hi. unfold node.
    destruct i as [|j]; ring.
  - intros e He. apply in_seq in He. unfold u. apply (element_flux K X rule vol left right HK HX Hrule D x i e). lia.
Qed.
End Heat.
