(** C107: with linear elements on a segment, the steady values at the nodes are those of the exact solution. *)
From Coq Require Import String Reals ZArith List Bool Arith Lra Lia Psatz.
From Verif Require Import Base.Exc Base.Dual Model.Materials Model.Laws Model.Theta Model.Exports Model.Forms Model.Quantities Model.NonlinearProblem
  Spec.PhysSpec Spec.BalanceSpec Spec.NewtonSpec Spec.MaximumSpec Spec.PermeationSpec Spec.ConductionSpec Spec.ExactSpec Spec.QuantitySpec Spec.FluxSpec
  Proofs.LawProofs Proofs.ThetaProofs Proofs.FormProofs Proofs.MaximumProofs Proofs.PermeationProofs Proofs.ConductionProofs Proofs.ExactProofs
  Properties.MaximumProps Properties.QuantityProps Properties.FluxProps Properties.PermeationProps Properties.ConductionProps.
Import ListNotations.
Local Open Scope R_scope.

(** Hydrogen: the nodal values solve the problem if and only if an exact solution goes through them. *)
Theorem C107_hydrogen K X rule vol left right mb ms T D d s r bcs x :
  fed_slab K X rule vol left right mb ms T D d s ->
  hydrogen_residual (segment K X rule vol left right) mb ms T None false (S K) (linear K X) r -> ends_only K bcs ->
  (solves (S K) bcs r x <-> exists u u',
     exact_solution K X d s bcs (fun c => entering K X rule vol left right (mb_bcs mb) T c LeftEnd)
       (fun c => entering K X rule vol left right (mb_bcs mb) T c RightEnd) u u' /\
     forall i, (i <= K)%nat -> x i = at_node X u i).
Proof.
  intros ((HK & HX & HR & Hcov & HT & HD & HDp & Hcl & _ & Hb) & Hd & Hdec & Hs) Hr Hends. cbn [mb_class mb_bcs] in Hcl, Hb.
  assert (Hrn := fun x i Hi => hydrogen_node K X rule vol left right HK HX HR mb ms T D d s r x i Hcl Hdec Hs Hb Hcov HT HD Hd Hr Hi).
  assert (Hdp := fun e He => uniform_pos K X rule vol left right HK HX HR D d e Hd HDp He).
  split.
  - now apply nodes_exact.
  - intros (u & u' & Hu & Hx). exact (exact_nodes K X d s bcs _ _ HK HX Hdp Hends r x u u' Hrn Hu Hx).
Qed.
Print Assumptions C107_hydrogen.

(** Heat. *)
Theorem C107_heat K X rule vol left right ms dt T_n ss fluxes k d s r bcs x :
  heated_wall K X rule vol left right ms fluxes ss k d s ->
  heat_residual (segment K X rule vol left right) false dt T_n ms ss fluxes (S K) (linear K X) r -> ends_only K bcs ->
  (solves (S K) bcs r x <-> exists u u',
     exact_solution K X d s bcs (fun t => heat_entering K X rule vol left right fluxes t LeftEnd)
       (fun t => heat_entering K X rule vol left right fluxes t RightEnd) u u' /\
     forall i, (i <= K)%nat -> x i = at_node X u i).
Proof.
  intros ((HK & HX & HR & Hcov & Hk & Hkp & Hb) & Hd & Hs) Hr Hends.
  assert (Hrn := fun x i Hi => heat_node K X rule vol left right HK HX HR ms dt T_n ss fluxes k d s r x i Hcov Hk Hd Hs Hb Hr Hi).
  assert (Hdp := fun e He => uniform_pos K X rule vol left right HK HX HR k d e Hd (Hkp 0) He).
  split.
  - now apply nodes_exact.
  - intros (u & u' & Hu & Hx). exact (exact_nodes K X d s bcs _ _ HK HX Hdp Hends r x u u' Hrn Hu Hx).
Qed.
Print Assumptions C107_heat.

(** Between the nodes the computed function, a straight line, is below the exact solution (where hydrogen or heat is
    generated), by at most s h^2 / (8 d), attained in the middle. *)
Theorem C107_between K X d s bcs eL eR u u' : (forall e, (e < K)%nat -> X e < X (S e)) -> (forall e, (e < K)%nat -> 0 < d e) ->
  exact_solution K X d s bcs eL eR u u' ->
  forall e t, (e < K)%nat -> X e <= t <= X (S e) ->
  let h := X (S e) - X e in
  let line := at_node X u e + (t - X e) / h * (at_node X u (S e) - at_node X u e) in
  u e t - line = s e / (2 * d e) * ((t - X e) * (X (S e) - t)) /\
  Rabs (u e t - line) <= Rabs (s e) * (h * h) / (8 * d e) /\
  (t = X e + h / 2 -> u e t - line = s e * (h * h) / (8 * d e)).
Proof.
  intros HX Hd Hu e t He Ht h line. pose proof (HX e He) as Hx. pose proof (Hd e He) as Hde. assert (Hh : 0 < h) by (unfold h; lra).
  destruct Hu as [Hu0 Hu1]. assert (Hu := conj Hu0 Hu1 : exact_solution K X d s bcs eL eR u u').
  destruct (parabola (u e) (u' e) (d e) (s e) (X e) (X (S e)) ltac:(lra) (fun t Ht => Hu0 e t He Ht) t Ht) as [_ P1].
  destruct (parabola (u e) (u' e) (d e) (s e) (X e) (X (S e)) ltac:(lra) (fun t Ht => Hu0 e t He Ht) (X (S e)) ltac:(lra)) as [_ P2].
  assert (E : u e t - line = s e / (2 * d e) * ((t - X e) * (X (S e) - t))).
  { unfold line. rewrite <- (left_value K X d s bcs eL eR u u' e Hu He). cbn [at_node].
    apply (Rmult_eq_reg_l (d e)); [|lra].
    replace (d e * (u e t - (u e (X e) + (t - X e) / h * (u e (X (S e)) - u e (X e)))))
      with (d e * u e t - d e * u e (X e) - (t - X e) / h * (d e * u e (X (S e)) - d e * u e (X e))) by (field; lra).
    rewrite P1, P2. fold h. replace (X (S e) - t) with (h - (t - X e)) by (unfold h; ring). field. split; lra. }
  assert (Hq : 0 <= (t - X e) * (X (S e) - t) <= h * h / 4).
  { split; [apply Rmult_le_pos; lra|]. unfold h. pose proof (Rle_0_sqr (t - X e - (X (S e) - t))) as Hs. unfold Rsqr in Hs. lra. }
  split; [exact E|]. split.
  - rewrite E, Rabs_mult, (Rabs_pos_eq ((t - X e) * (X (S e) - t))) by lra.
    unfold Rdiv at 1. rewrite Rabs_mult, (Rabs_pos_eq (/ (2 * d e))) by (left; apply Rinv_0_lt_compat; lra).
    replace (Rabs (s e) * (h * h) / (8 * d e)) with (Rabs (s e) * / (2 * d e) * (h * h / 4)) by (field; lra).
    apply Rmult_le_compat_l; [|lra]. apply Rmult_le_pos; [apply Rabs_pos|left; apply Rinv_0_lt_compat; lra].
  - intros Et. rewrite E. replace (t - X e) with (h / 2) by lra. replace (X (S e) - t) with (h / 2) by (unfold h in *; lra). field. lra.
Qed.
Print Assumptions C107_between.

(** The exact fluxes at the ends take away what is generated. *)
Theorem C107_balance K X d s bcs eL eR u u' : (0 < K)%nat -> (forall e, (e < K)%nat -> X e < X (S e)) -> (forall e, (e < K)%nat -> 0 < d e) ->
  exact_solution K X d s bcs eL eR u u' ->
  d (K - 1)%nat * u' (K - 1)%nat (X K) - d 0%nat * u' 0%nat (X 0%nat) = - rsum (map (fun e => s e * (X (S e) - X e)) (seq 0 K)).
Proof.
  intros HK HX Hd Hu.
  assert (H : forall n, (n < K)%nat -> d n * u' n (X (S n)) - d 0%nat * u' 0%nat (X 0%nat) = - rsum (map (fun e => s e * (X (S e) - X e)) (seq 0 (S n)))).
  { induction n as [|n IH]; intros Hn.
    - destruct (element_ends K X d s bcs eL eR HX Hd u u' 0 Hu Hn) as [E1 E2]. rewrite E1, E2. cbn [seq map]. rewrite rsum_cons, rsum_nil. unfold length_of. field.
      pose proof (HX 0%nat Hn). lra.
    - rewrite seq_S, map_app, rsum_app. cbn [map plus]. rewrite rsum_cons, rsum_nil. specialize (IH ltac:(lia)).
      destruct (element_ends K X d s bcs eL eR HX Hd u u' (S n) Hu Hn) as [E1 E2].
      destruct Hu as (_ & Hc & _). destruct (Hc n Hn) as [_ E3]. unfold length_of in *. lra. }
  specialize (H (K - 1)%nat ltac:(lia)). replace (S (K - 1)) with K in H by lia. exact H.
Qed.
Print Assumptions C107_balance.

(** The SurfaceFlux (HydrogenFlux) of an end misses half of what is generated in the element of this end. *)
Theorem C107_reported K X rule vol left right mb ms T D d s bcs eL eR u u' x ctx V k field id q v :
  let M := segment K X rule vol left right in
  fed_slab K X rule vol left right mb ms T D d s ->
  exact_solution K X d s bcs eL eR u u' -> (forall i, (i <= K)%nat -> x i = at_node X u i) -> left <> right ->
  x_function ctx = span (S K) (linear K X) x -> x_soret ctx = false -> (forall p, point M p -> x_D ctx p = D p) ->
  x_n ctx LeftEnd 0%nat = - 1 -> x_n ctx RightEnd 0%nat = 1 ->
  D LeftEnd = d 0%nat -> D RightEnd = d (K - 1)%nat ->
  is_flux k = true -> solute_label (class_field k field) -> allowed_mesh k Cartesian = true ->
  make_quantity k field id None None = Ok q -> compute M V ctx q = Ok v ->
  (d_id q = right -> v = d (K - 1)%nat * u' (K - 1)%nat (X K) + s (K - 1)%nat * (X K - X (K - 1)%nat) / 2) /\
  (d_id q = left -> v = - (d 0%nat * u' 0%nat (X 0%nat)) + s 0%nat * (X 1%nat - X 0%nat) / 2).
Proof.
  intros M ((HK & HX & HR & Hcov & HT & HD & HDp & Hcl & _ & Hb) & Hd & Hdec & Hs) Hu Hx Hlr Hf Hso HxD HnL HnR HdL HdR Hk Hl Ha Hq Hv.
  assert (Hdp := fun e He => uniform_pos K X rule vol left right HK HX HR D d e Hd HDp He).
  assert (F : forall e, (e < K)%nat -> d e * u' e (X e) = d e / length_of X e * (x (S e) - x e) + s e * length_of X e / 2 /\
                        d e * u' e (X (S e)) = d e / length_of X e * (x (S e) - x e) - s e * length_of X e / 2).
  { intros e He. rewrite (Hx (S e)), (Hx e) by lia. cbn [at_node]. rewrite <- (left_value K X d s bcs eL eR u u' e Hu He).
    now apply (element_ends K X d s bcs eL eR). }
  rewrite (printed_solute M V ctx k field id q v Hk Hl Ha Hq Hv).
  assert (Hang : full_angle k = 1) by (destruct k; try discriminate Hk; try discriminate Ha; reflexivity). rewrite Hang, Rmult_1_l.
  assert (Hg : forall p, In p [LeftEnd; RightEnd] -> dot (q_dim M) (flux_vector ctx p) (x_n ctx p)
      = D p / length_of X (element K p) * (x (S (element K p)) - x (element K p)) * x_n ctx p 0%nat).
  { intros p Hp. assert (Hpp : point M p) by (right; exact Hp). cbn [M q_dim segment]. rewrite dot1. unfold flux_vector. rewrite Hso, HxD, Hf by exact Hpp.
    rewrite (proj2 (span_segment K X rule vol left right HK HR x p Hpp)). unfold Rdiv. ring. }
  destruct (F 0%nat HK) as [F0 _]. destruct (F (K - 1)%nat ltac:(lia)) as [_ F1]. unfold length_of in F0, F1. replace (S (K - 1)) with K in F1 by lia.
  unfold total_on, wsum. cbn [M q_facets segment filter q_surface].
  split; intros ->; [destruct (Z.eqb_spec left right) as [E|_]; [contradiction|]; rewrite Z.eqb_refl
                    |rewrite Z.eqb_refl; destruct (Z.eqb_spec right left) as [E|_]; [now destruct Hlr|]];
    cbn [map]; rewrite rsum_cons, rsum_nil; unfold weight; cbn [q_type q_weight M segment]; rewrite Hg by (cbn; tauto); rewrite ?HnL, ?HnR; cbn [element];
    unfold length_of; rewrite ?HdL, ?HdR, ?F0; replace (S (K - 1)) with K by lia; rewrite ?F1; ring.
Qed.
Print Assumptions C107_reported.

(** The ThermalFlux (SurfaceFlux of T) likewise. *)
Theorem C107_reported_heat K X rule vol left right ms fluxes ss D d s bcs eL eR u u' x ctx V k field id q v :
  let M := segment K X rule vol left right in
  heated_wall K X rule vol left right ms fluxes ss D d s ->
  exact_solution K X d s bcs eL eR u u' -> (forall i, (i <= K)%nat -> x i = at_node X u i) -> left <> right ->
  x_function ctx = span (S K) (linear K X) x -> (forall p, point M p -> x_cond ctx p = D p) ->
  x_n ctx LeftEnd 0%nat = - 1 -> x_n ctx RightEnd 0%nat = 1 ->
  D LeftEnd = d 0%nat -> D RightEnd = d (K - 1)%nat ->
  is_flux k = true -> class_field k field = LStr "T" -> allowed_mesh k Cartesian = true ->
  make_quantity k field id None None = Ok q -> compute M V ctx q = Ok v ->
  (d_id q = right -> v = d (K - 1)%nat * u' (K - 1)%nat (X K) + s (K - 1)%nat * (X K - X (K - 1)%nat) / 2) /\
  (d_id q = left -> v = - (d 0%nat * u' 0%nat (X 0%nat)) + s 0%nat * (X 1%nat - X 0%nat) / 2).
Proof.
  intros M ((HK & HX & HR & Hcov & HD & HDp & Hb) & Hd & Hs) Hu Hx Hlr Hf HxD HnL HnR HdL HdR Hk Hl Ha Hq Hv.
  assert (Hdp := fun e He => uniform_pos K X rule vol left right HK HX HR D d e Hd (HDp 0) He).
  assert (F : forall e, (e < K)%nat -> d e * u' e (X e) = d e / length_of X e * (x (S e) - x e) + s e * length_of X e / 2 /\
                        d e * u' e (X (S e)) = d e / length_of X e * (x (S e) - x e) - s e * length_of X e / 2).
  { intros e He. rewrite (Hx (S e)), (Hx e) by lia. cbn [at_node]. rewrite <- (left_value K X d s bcs eL eR u u' e Hu He).
    now apply (element_ends K X d s bcs eL eR). }
  rewrite (printed_heat M V ctx k field id q v Hk Hl Ha Hq Hv).
  assert (Hang : full_angle k = 1) by (destruct k; try discriminate Hk; try discriminate Ha; reflexivity). rewrite Hang, Rmult_1_l.
  assert (Hg : forall p, In p [LeftEnd; RightEnd] -> dot (q_dim M) (heat_vector ctx p) (x_n ctx p)
      = D p / length_of X (element K p) * (x (S (element K p)) - x (element K p)) * x_n ctx p 0%nat).
  { intros p Hp. assert (Hpp : point M p) by (right; exact Hp). cbn [M q_dim segment]. rewrite dot1. unfold heat_vector. rewrite HxD, Hf by exact Hpp.
    rewrite (proj2 (span_segment K X rule vol left right HK HR x p Hpp)). unfold Rdiv. ring. }
  destruct (F 0%nat HK) as [F0 _]. destruct (F (K - 1)%nat ltac:(lia)) as [_ F1]. unfold length_of in F0, F1. replace (S (K - 1)) with K in F1 by lia.
  unfold total_on, wsum. cbn [M q_facets segment filter q_surface].
  split; intros ->; [destruct (Z.eqb_spec left right) as [E|_]; [contradiction|]; rewrite Z.eqb_refl
                    |rewrite Z.eqb_refl; destruct (Z.eqb_spec right left) as [E|_]; [now destruct Hlr|]];
    cbn [map]; rewrite rsum_cons, rsum_nil; unfold weight; cbn [q_type q_weight M segment]; rewrite Hg by (cbn; tauto); rewrite ?HnL, ?HnR; cbn [element];
    unfold length_of; rewrite ?HdL, ?HdR, ?F0; replace (S (K - 1)) with K by lia; rewrite ?F1; ring.
Qed.
Print Assumptions C107_reported_heat.

(** Two layers of length 1 with D = 1 and D = 2, nothing at the ends, and a source of 4 in the first one. *)
Definition source_4 : source pt := mkSource (IdOne 1) (fun _ => 4) None.
Definition fed_mobile : mobile pt := mkMobile ClassMobile (fun _ => dconst 0) (fun _ => dconst 0) (fun _ => dconst 0) [source_4] [].
Definition d_12 (e : nat) : R := match e with O => 1 | _ => 2 end.
Definition s_40 (e : nat) : R := match e with O => 4 | _ => 0 end.
Definition x_fed (i : nat) : R := match i with 1%nat => 2 / 3 | _ => 0 end.
Definition bcs_00 : list (list (nat * R)) := [[(0%nat, 0)]; [(2%nat, 0)]].
Lemma fed_example : fed_slab 2 INR simpson vol2 1 2 fed_mobile layers T300 D2 d_12 s_40 /\
  hydrogen_residual (segment 2 INR simpson vol2 1 2) fed_mobile layers T300 None false 3 (linear 2 INR) (residual2 fed_mobile) /\
  ends_only 2 bcs_00 /\ solves 3 bcs_00 (residual2 fed_mobile) x_fed.
Proof.
  destruct (slab2 [] (fun b H => match H with end)) as [H1 _].
  assert (Hf : fed_slab 2 INR simpson vol2 1 2 fed_mobile layers T300 D2 d_12 s_40).
  { split; [exact H1|]. split; [intros [|e] q _ _; reflexivity|]. split; [now intros src [<-|[]]|].
    intros [|[|e]] q He _; [| |lia]; cbn; rewrite ?rsum_cons, ?rsum_nil; ring. }
  assert (Hr : hydrogen_residual (segment 2 INR simpson vol2 1 2) fed_mobile layers T300 None false 3 (linear 2 INR) (residual2 fed_mobile)).
  { intros x i _. eexists. split; [|unfold residual2; cbn [mb_class mb_previous mb_sources mb_bcs fed_mobile]]; cbn; reflexivity. }
  assert (He : ends_only 2 bcs_00) by (intros i Hi; replace i with 1%nat by lia; reflexivity).
  split; [exact Hf|]. split; [exact Hr|]. split; [exact He|].
  assert (Hn : forall x i, (i < 3)%nat -> residual2 fed_mobile x i = node_with 2 INR d_12 s_40
      (fun c => entering 2 INR simpson vol2 1 2 [] T300 c LeftEnd) (fun c => entering 2 INR simpson vol2 1 2 [] T300 c RightEnd) x i).
  { destruct Hf as ((HK & HX & HR & Hcov & HT & HD & HDp & Hcl & _ & Hb) & Hd & Hdec & Hs). intros x i Hi.
    exact (hydrogen_node 2 INR simpson vol2 1 2 HK HX HR fed_mobile layers T300 D2 d_12 s_40 _ x i Hcl Hdec Hs Hb Hcov HT HD Hd Hr Hi). }
  intros [|[|[|i]]] Hi; [| | |lia]; unfold problem_F; cbn [bcs_00 boundary_value]; try (cbn; lra).
  rewrite Hn by lia. unfold node_with, length_of. cbn. field.
Qed.
(** The fluxes it reports at the ends are 2/3 and 4/3 outwards: half of what is generated. *)
Theorem C107_outflow_refuted :
  let M := segment 2 INR simpson vol2 1 2 in
  let ctx := mkCtx (span 3 (linear 2 INR) x_fed) D2 (fun _ => 0) (fun _ => 0) (fun _ => dconst 300)
               (fun p _ => match p with LeftEnd => - 1 | _ => 1 end) false in
  solves 3 bcs_00 (residual2 fed_mobile) x_fed /\ rsum (map (fun e => s_40 e * (INR (S e) - INR e)) (seq 0 2)) = 4 /\
  exists q_l q_r v_l v_r, make_quantity HydrogenFlux (LStr "solute") (IdInt 1) None None = Ok q_l /\
    make_quantity HydrogenFlux (LStr "solute") (IdInt 2) None None = Ok q_r /\
    compute M (mkFe [] [] [] []) ctx q_l = Ok v_l /\ compute M (mkFe [] [] [] []) ctx q_r = Ok v_r /\
    v_l = - (2 / 3) /\ v_r = - (4 / 3).
Proof.
  intros M ctx. split; [apply fed_example|]. split; [cbn; rewrite ?rsum_cons, ?rsum_nil; ring|].
  eexists. eexists. eexists. eexists. split; [reflexivity|]. split; [reflexivity|]. split; [reflexivity|]. split; [reflexivity|].
  unfold flux_integral, integral, points, angle. cbn. rewrite ?rsum_cons, ?rsum_nil. unfold dot. cbn. unfold length_of. cbn. split; field.
Qed.
Print Assumptions C107_outflow_refuted.
(** The hypotheses of C107_hydrogen, and the exact solution of the example. *)
Example C107_example : exists u u',
  exact_solution 2 INR d_12 s_40 bcs_00 (fun c => entering 2 INR simpson vol2 1 2 [] T300 c LeftEnd)
    (fun c => entering 2 INR simpson vol2 1 2 [] T300 c RightEnd) u u' /\ forall i, (i <= 2)%nat -> x_fed i = at_node INR u i.
Proof.
  destruct fed_example as (H1 & H2 & H3 & H4).
  exact (proj1 (C107_hydrogen 2 INR simpson vol2 1 2 fed_mobile layers T300 D2 d_12 s_40 _ bcs_00 x_fed H1 H2 H3) H4).
Qed.
(** A wall of the same layers, k = 1 and 2, heated by 4 in the first one, between two fluids. *)
Definition heated_residual (x : nat -> R) (i : nat) : R :=
  let M := segment 2 INR simpson vol2 1 2 in
  match heat_form M false 1 (span 3 (linear 2 INR) x) (fun _ => dconst 0) (linear 2 INR i) wall_layers [source_4] fluids with
  | Ok F => assemble M F
  | Err _ => 0
  end.
Example C107_heat_example : heated_wall 2 INR simpson vol2 1 2 wall_layers fluids [source_4] D2 d_12 s_40 /\
  heat_residual (segment 2 INR simpson vol2 1 2) false 1 (fun _ => dconst 0) wall_layers [source_4] fluids 3 (linear 2 INR) heated_residual /\
  ends_only 2 [].
Proof.
  split; [|split].
  - split; [apply wall2|]. split; [intros [|e] q _ _; reflexivity|].
    intros [|[|e]] q He _; [| |lia]; cbn; rewrite ?rsum_cons, ?rsum_nil; ring.
  - intros x i _. eexists. split; [|unfold heated_residual]; cbn; reflexivity.
  - intros i Hi. reflexivity.
Qed.
