(** C99: steady permeation through a slab of layers. *)
From Coq Require Import String Reals ZArith List Bool Arith Lra Lia.
From Verif Require Import Base.Exc Base.Dual Model.Materials Model.Laws Model.Theta Model.Exports Model.Forms Model.Quantities Model.NonlinearProblem
  Spec.PhysSpec Spec.BalanceSpec Spec.NewtonSpec Spec.MaximumSpec Spec.PermeationSpec Spec.QuantitySpec Spec.FluxSpec Proofs.LawProofs Proofs.ThetaProofs Proofs.FormProofs
  Proofs.MaximumProofs Proofs.PermeationProofs Properties.MaximumProps Properties.QuantityProps Properties.FluxProps.
Import ListNotations.
Local Open Scope R_scope.

(** The same flux J crosses every element: the differences of concentration are those of resistances in series. *)
Theorem C99_series K X rule vol left right mb ms T D r bcs x :
  let M := segment K X rule vol left right in
  slab K X rule vol left right mb ms T D -> hydrogen_residual M mb ms T None false (S K) (linear K X) r ->
  ends_only K bcs -> solves (S K) bcs r x ->
  exists J, (forall e, (e < K)%nat -> conductance X rule D e * (x (S e) - x e) = J) /\
    (forall i, (i <= K)%nat -> x i - x 0%nat = J * resistance X rule D i) /\
    (boundary_value bcs 0 = None -> J = - entering K X rule vol left right (mb_bcs mb) T (x 0%nat) LeftEnd) /\
    (boundary_value bcs K = None -> J = entering K X rule vol left right (mb_bcs mb) T (x K) RightEnd).
Proof.
  intros M (HK & HX & HR & Hcov & HT & HD & HDp & Hcl & Hsrc & Hb) Hr Hends Hs.
  assert (Hres : forall i, (i < S K)%nat -> boundary_value bcs i = None -> r x i = 0).
  { intros i Hi E. specialize (Hs i Hi). unfold problem_F in Hs. now rewrite E in Hs. }
  pose proof (steady_residual K X rule vol left right HK HX HR mb ms T D r x) as Hst.
  set (a := conductance X rule D) in *. set (J := a 0%nat * (x 1%nat - x 0%nat)).
  assert (HJ : forall e, (e < K)%nat -> a e * (x (S e) - x e) = J).
  { induction e as [|e IH]; intros He; [reflexivity|]. specialize (IH ltac:(lia)).
    pose proof (Hres (S e) ltac:(lia) (Hends (S e) ltac:(lia))) as E. rewrite (Hst (S e)) in E by (assumption || lia).
    destruct (Nat.eqb_spec (S e) K); [lia|]. cbn [Nat.eqb] in E. lra. }
  exists J. split; [exact HJ|]. split; [|split].
  - induction i as [|i IH]; intros Hi; [unfold resistance; cbn [seq map]; rewrite rsum_nil; ring|].
    unfold resistance in *. rewrite seq_S, map_app, rsum_app. cbn [map plus]. rewrite rsum_cons, rsum_nil, Rmult_plus_distr_l, <- IH by lia.
    fold a. pose proof (conductance_pos K X rule vol left right HK HX HR D i ltac:(lia) HDp) as Ha. fold a in Ha.
    rewrite <- (HJ i) by lia. field. lra.
  - intros E. pose proof (Hres 0%nat ltac:(lia) E) as H0. rewrite (Hst 0%nat) in H0 by (assumption || lia).
    destruct (Nat.eqb_spec 0 K); [lia|]. cbn [Nat.eqb] in H0. fold J in H0. lra.
  - intros E. pose proof (Hres K ltac:(lia) E) as H0. rewrite (Hst K) in H0 by (assumption || lia).
    rewrite Nat.eqb_refl in H0. destruct K as [|k]; [lia|]. cbn [Nat.eqb] in H0. rewrite (HJ k ltac:(lia)) in H0. lra.
Qed.

(** With concentrations imposed at both ends there is exactly one solution: its flux is the difference of concentration over the
    total resistance, and the concentration goes monotonically from one imposed value to the other. *)
Theorem C99_solution K X rule vol left right mb ms T D r bcs c_0 c_K x :
  let M := segment K X rule vol left right in
  slab K X rule vol left right mb ms T D -> hydrogen_residual M mb ms T None false (S K) (linear K X) r ->
  ends_only K bcs -> boundary_value bcs 0 = Some c_0 -> boundary_value bcs K = Some c_K ->
  (solves (S K) bcs r x <-> forall i, (i <= K)%nat -> x i = c_0 + (c_K - c_0) / resistance X rule D K * resistance X rule D i) /\
  (solves (S K) bcs r x -> (c_0 <= c_K -> forall i j, (i <= j <= K)%nat -> c_0 <= x i <= x j /\ x j <= c_K) /\
                           (c_K <= c_0 -> forall i j, (i <= j <= K)%nat -> c_K <= x j <= x i /\ x i <= c_0)).
Proof.
  intros M Hslab Hr Hends H0 HKv. pose proof Hslab as (HK & HX & HR & Hcov & HT & HD & HDp & Hcl & Hsrc & Hb).
  set (a := conductance X rule D).
  assert (Ha : forall e, (e < K)%nat -> 0 < a e) by (intros e He; now apply (conductance_pos K X rule vol left right HK HX HR)).
  assert (Rs : forall i, resistance X rule D (S i) = resistance X rule D i + / a i).
  { intros i. unfold resistance. rewrite seq_S, map_app, rsum_app. cbn [map plus]. rewrite rsum_cons, rsum_nil. unfold a. ring. }
  assert (R0 : resistance X rule D 0 = 0) by reflexivity.
  assert (Rmono : forall i j, (i <= j <= K)%nat -> resistance X rule D i <= resistance X rule D j).
  { intros i j [Hij HjK]. induction Hij as [|j Hij IH]; [lra|]. rewrite Rs. specialize (IH ltac:(lia)).
    pose proof (Rinv_0_lt_compat _ (Ha j ltac:(lia))). lra. }
  assert (RK : 0 < resistance X rule D K).
  { destruct K as [|k]; [lia|]. rewrite Rs. pose proof (Rmono 0%nat k ltac:(lia)). pose proof (Rinv_0_lt_compat _ (Ha k ltac:(lia))). lra. }
  assert (Himp : solves (S K) bcs r x -> forall i, (i <= K)%nat -> x i = c_0 + (c_K - c_0) / resistance X rule D K * resistance X rule D i).
  { intros Hs. destruct (C99_series K X rule vol left right mb ms T D r bcs x Hslab Hr Hends Hs) as (J & _ & Hx & _).
    pose proof (Hs 0%nat ltac:(lia)) as E0. pose proof (Hs K ltac:(lia)) as EK. unfold problem_F in E0, EK. rewrite H0 in E0. rewrite HKv in EK.
    pose proof (Hx K ltac:(lia)) as HJ. replace ((c_K - c_0) / resistance X rule D K) with J.
    - intros i Hi. specialize (Hx i Hi). lra.
    - replace (c_K - c_0) with (J * resistance X rule D K) by lra. field. lra. }
  split; [split; [exact Himp|]|].
  - intros Hx i Hi. unfold problem_F. destruct (Nat.eq_dec i 0) as [->|Hi0].
    + rewrite H0, (Hx 0%nat) by lia. rewrite R0. ring.
    + destruct (Nat.eq_dec i K) as [->|HiK].
      * rewrite HKv, (Hx K) by lia. field. lra.
      * rewrite Hends by lia. rewrite (steady_residual K X rule vol left right HK HX HR mb ms T D r x) by (assumption || lia).
        destruct i as [|j]; [lia|]. destruct (Nat.eqb_spec (S j) K); [lia|]. cbn [Nat.eqb].
        rewrite (Hx j), (Hx (S j)), (Hx (S (S j))) by lia. rewrite !Rs. fold a.
        pose proof (Ha j ltac:(lia)). pose proof (Ha (S j) ltac:(lia)). field. repeat split; lra.
  - intros Hs. specialize (Himp Hs).
    assert (Hi : 0 < / resistance X rule D K) by now apply Rinv_0_lt_compat.
    assert (E1 : resistance X rule D K * / resistance X rule D K = 1) by (field; lra).
    split; intros Hc i j Hij; rewrite (Himp i), (Himp j) by lia; unfold Rdiv;
      pose proof (Rmono 0%nat i ltac:(lia)); pose proof (Rmono i j Hij); pose proof (Rmono j K ltac:(lia));
      set (Ri := resistance X rule D i) in *; set (Rj := resistance X rule D j) in *; set (RT := resistance X rule D K) in *; rewrite R0 in *.
    all: assert (G : forall u v, u <= v -> / RT * u <= / RT * v) by (intros u v Huv; apply Rmult_le_compat_l; lra).
    all: pose proof (G 0 Ri ltac:(lra)); pose proof (G Ri Rj ltac:(lra)); pose proof (G Rj RT ltac:(lra)).
    all: replace ((c_K - c_0) * / RT * Ri) with ((c_K - c_0) * (/ RT * Ri)) by ring;
      replace ((c_K - c_0) * / RT * Rj) with ((c_K - c_0) * (/ RT * Rj)) by ring; rewrite (Rmult_comm RT) in E1; rewrite E1, Rmult_0_r in *.
    all: set (ti := / RT * Ri) in *; set (tj := / RT * Rj) in *; clearbody ti tj; repeat split; nra.
Qed.

(** With a diffusivity which is uniform in each element the resistances are h / D: the flux does not depend on the mesh. *)
Theorem C99_layers K X rule vol left right mb ms T D d :
  slab K X rule vol left right mb ms T D ->
  (forall e q, (e < K)%nat -> In q rule -> D (Cell e (fst q) (snd q)) = d e) ->
  resistance X rule D K = rsum (map (fun e => (X (S e) - X e) / d e) (seq 0 K)) /\
  (forall u, (forall e, (e < K)%nat -> d e = u) -> resistance X rule D K = (X K - X 0%nat) / u).
Proof.
  intros (HK & HX & HR & Hcov & HT & HD & HDp & Hcl & Hsrc & Hb) Hd.
  assert (E : resistance X rule D K = rsum (map (fun e => (X (S e) - X e) / d e) (seq 0 K))).
  { unfold resistance. apply rsum_map_ext. intros e He. apply in_seq in He. unfold conductance.
    rewrite (rsum_map_ext _ (fun q => d e * snd q)) by (intros q Hq; rewrite Hd by (lia || assumption); ring).
    rewrite rsum_map_scale. pose proof (HR) as (_ & H1 & _). rewrite H1.
    destruct (rule_inner rule HR) as (q & Hq & _). specialize (HDp (Cell e (fst q) (snd q))). rewrite Hd in HDp by (lia || assumption).
    assert (0 < d e) by (apply HDp, segment_cells; [assumption|exists e, q; repeat split; auto; lia]).
    pose proof (HX e ltac:(lia)). unfold length_of. field. split; lra. }
  split; [exact E|]. intros u Hu. rewrite E. rewrite (rsum_map_ext _ (fun e => / u * (X (S e) - X e))) by
    (intros e He; apply in_seq in He; rewrite Hu by lia; unfold Rdiv; ring).
  rewrite rsum_map_scale. replace (rsum (map (fun e => X (S e) - X e) (seq 0 K))) with (X K - X 0%nat); [unfold Rdiv; ring|].
  clear. induction K as [|k IH]; [cbn [seq map]; rewrite rsum_nil; ring|]. rewrite seq_S, map_app, rsum_app, <- IH. cbn [map plus]. rewrite rsum_cons, rsum_nil. ring.
Qed.

(** The SurfaceFlux (HydrogenFlux) of an end is this flux, into the slab, when the diffusivity is uniform in its element. *)
Theorem C99_reported K X rule vol left right mb ms T D r bcs x ctx V k field id q v :
  let M := segment K X rule vol left right in
  slab K X rule vol left right mb ms T D -> hydrogen_residual M mb ms T None false (S K) (linear K X) r ->
  ends_only K bcs -> solves (S K) bcs r x -> left <> right ->
  x_function ctx = span (S K) (linear K X) x -> x_soret ctx = false -> (forall p, point M p -> x_D ctx p = D p) ->
  x_n ctx LeftEnd 0%nat = - 1 -> x_n ctx RightEnd 0%nat = 1 ->
  (forall p s, In p [LeftEnd; RightEnd] -> In s rule -> D (Cell (element K p) (fst s) (snd s)) = D p) ->
  is_flux k = true -> solute_label (class_field k field) -> allowed_mesh k Cartesian = true ->
  make_quantity k field id None None = Ok q -> compute M V ctx q = Ok v ->
  (d_id q = right -> v * resistance X rule D K = x K - x 0%nat) /\ (d_id q = left -> v * resistance X rule D K = x 0%nat - x K).
Proof.
  intros M Hslab Hr Hends Hs Hlr Hf Hso HD HnL HnR Hu Hk Hl Ha Hq Hv.
  destruct (C99_series K X rule vol left right mb ms T D r bcs x Hslab Hr Hends Hs) as (J & HJ & Hx & _).
  destruct Hslab as (HK & HX & HR & _ & _ & _ & HDp & _). specialize (Hx K ltac:(lia)).
  rewrite (printed_solute M V ctx k field id q v Hk Hl Ha Hq Hv).
  assert (Hang : full_angle k = 1) by (destruct k; try discriminate Hk; try discriminate Ha; reflexivity). rewrite Hang, Rmult_1_l.
  assert (Hc : forall p, In p [LeftEnd; RightEnd] -> D p * ((x (S (element K p)) - x (element K p)) / length_of X (element K p)) = J).
  { intros p Hp. assert (He : (element K p < K)%nat) by (destruct Hp as [<-|[<-|[]]]; cbn; lia).
    rewrite <- (HJ (element K p) He). unfold conductance.
    rewrite (rsum_map_ext _ (fun s => D p * snd s)) by (intros s Hin; rewrite Hu by assumption; ring).
    rewrite rsum_map_scale. destruct HR as (_ & -> & _). pose proof (length_pos K X HX _ He). field. lra. }
  assert (Hg : forall p, In p [LeftEnd; RightEnd] -> dot (q_dim M) (flux_vector ctx p) (x_n ctx p) = J * x_n ctx p 0%nat).
  { intros p Hp. assert (Hpp : point M p) by (right; exact Hp). cbn [M q_dim segment]. rewrite dot1. unfold flux_vector. rewrite Hso, HD, Hf by exact Hpp.
    rewrite (proj2 (span_segment K X rule vol left right HK HR x p Hpp)), <- (Hc p Hp). ring. }
  unfold total_on, wsum. cbn [M q_facets segment filter q_surface].
  split; intros ->; [destruct (Z.eqb_spec left right) as [E|_]; [contradiction|]; rewrite Z.eqb_refl
                    |rewrite Z.eqb_refl; destruct (Z.eqb_spec right left) as [E|_]; [now destruct Hlr|]];
    cbn [map]; rewrite rsum_cons, rsum_nil; unfold weight; cbn [q_type q_weight M segment]; rewrite Hg by (cbn; tauto); rewrite ?HnL, ?HnR; lra.
Qed.
Print Assumptions C99_series.
Print Assumptions C99_solution.
Print Assumptions C99_layers.
Print Assumptions C99_reported.

(** Two layers of length 1 with D = 1 and D = 2; 3 imposed at the left, 0 at the right: 1 at the interface, flux -2. *)
Definition layer (z : Z) (D : R) : mat_obj :=
  mkMatObj (Z.to_nat z) (mkMaterial (IdOne z) None (Const D) (Const 0) None None None None None BNone None Sievert).
Definition layers : list mat_obj := [layer 1 1; layer 2 2].
Definition vol2 (e : nat) : Z := match e with O => 1%Z | _ => 2%Z end.
Definition D2 (p : pt) : R := match element 2 p with O => 1 | _ => 2 end.
Definition residual2 (mb : mobile pt) (x : nat -> R) (i : nat) : R :=
  let M := segment 2 INR simpson vol2 1 2 in
  match define_variational_problem M (mkMobile (mb_class mb) (span 3 (linear 2 INR) x) (mb_previous mb) (linear 2 INR i) (mb_sources mb) (mb_bcs mb))
          layers T300 None [] false with
  | Ok F => assemble M F
  | Err _ => 0
  end.
Definition x_310 (i : nat) : R := match i with 0%nat => 3 | 1%nat => 1 | _ => 0 end.
Lemma slab2 bcs : (forall b, In b bcs -> match b with BSurf _ => False | _ => True end) ->
  let mb := mkMobile ClassMobile (fun _ => dconst 0) (fun _ => dconst 0) (fun _ => dconst 0) [] bcs in
  slab 2 INR simpson vol2 1 2 mb layers T300 D2 /\
  hydrogen_residual (segment 2 INR simpson vol2 1 2) mb layers T300 None false 3 (linear 2 INR) (residual2 mb).
Proof.
  intros Hb mb. split.
  - split; [lia|]. split; [intros e _; rewrite S_INR; lra|]. split; [apply simpson_exact|]. split.
    { split; [repeat constructor; cbn; intuition discriminate|]. intros p _. cbn. unfold vol2. destruct (element 2 p); auto. }
    split; [intros p _; cbn; lra|]. split; [|split; [intros p _; unfold D2; destruct (element 2 p); lra|]].
    + intros m D_0 E_D p [<-|[<-|[]]] H1 H2 Hp Hz; cbn in H1, H2; injection H1 as <-; injection H2 as <-;
        unfold arrhenius, Rdiv; rewrite Rmult_0_l, exp_0, Rinv_1, Rmult_1_r; unfold D2; cbn in Hz; unfold vol2 in Hz; destruct (element 2 p);
        try reflexivity; destruct Hz as [Hz|[]]; discriminate.
    + split; [reflexivity|]. split; [reflexivity|exact Hb].
  - intros x i _. eexists. split; [|unfold residual2, mb; cbn [mb_class mb_previous mb_sources mb_bcs]]; cbn; reflexivity.
Qed.
Lemma resistance2 : resistance INR simpson D2 1 = 1 /\ resistance INR simpson D2 2 = 3 / 2.
Proof.
  assert (E : conductance INR simpson D2 0 = 1 /\ conductance INR simpson D2 1 = 2).
  { unfold conductance, length_of, simpson, D2. cbn [map fst snd element]. rewrite !rsum_cons, !rsum_nil, !S_INR. cbn [INR]. split; field. }
  destruct E as [E0 E1]. unfold resistance. cbn [seq map]. rewrite !rsum_cons, !rsum_nil, E0, E1. split; field.
Qed.
Example C99_example :
  let bcs := [[(0%nat, 3)]; [(2%nat, 0)]] in
  let mb := mkMobile ClassMobile (fun _ => dconst 0) (fun _ => dconst 0) (fun _ => dconst 0) [] [] in
  slab 2 INR simpson vol2 1 2 mb layers T300 D2 /\
  hydrogen_residual (segment 2 INR simpson vol2 1 2) mb layers T300 None false 3 (linear 2 INR) (residual2 mb) /\
  ends_only 2 bcs /\ boundary_value bcs 0 = Some 3 /\ boundary_value bcs 2 = Some 0 /\ solves 3 bcs (residual2 mb) x_310 /\
  (forall e q, (e < 2)%nat -> In q simpson -> D2 (Cell e (fst q) (snd q)) = match e with O => 1 | _ => 2 end) /\
  (forall p s, In p [LeftEnd; RightEnd] -> In s simpson -> D2 (Cell (element 2 p) (fst s) (snd s)) = D2 p).
Proof.
  intros bcs mb. destruct (slab2 [] (fun b H => match H with end)) as [H1 H2]. split; [exact H1|]. split; [exact H2|].
  assert (He : ends_only 2 bcs) by (intros i Hi; replace i with 1%nat by lia; reflexivity).
  split; [exact He|]. split; [reflexivity|]. split; [reflexivity|]. split.
  - apply (C99_solution 2 INR simpson vol2 1 2 mb layers T300 D2 (residual2 mb) bcs 3 0 x_310 H1 H2 He); try reflexivity.
    destruct resistance2 as [R1 R2]. intros [|[|[|i]]] Hi; cbn [x_310]; rewrite ?R1, ?R2; try lia; try field.
    unfold resistance. cbn [seq map]. rewrite rsum_nil. ring.
  - split; [intros [|e] q _ _; reflexivity|]. intros p s [<-|[<-|[]]] _; reflexivity.
Qed.
(** 3 imposed at the left, an exchange 2 (0 - c) with the outside at the right: 3, 3/2, 3/4; the flux is what the
    exchange takes away. *)
Example C99_exchange_example x :
  let bcs := [[(0%nat, 3)]] in
  let mb := mkMobile ClassMobile (fun _ => dconst 0) (fun _ => dconst 0) (fun _ => dconst 0) [] [BFlux false [2%Z] (MassFlux (fun _ => 2) (fun _ => 0))] in
  solves 3 bcs (residual2 mb) x -> x 2%nat = 3 / 4 /\ 2 * (x 2%nat - x 1%nat) = - (3 / 2).
Proof.
  intros bcs mb Hs. destruct (slab2 (mb_bcs mb)) as [H1 H2]; [intros b [<-|[]]; exact I|].
  assert (He : ends_only 2 bcs) by (intros i Hi; replace i with 1%nat by lia; reflexivity).
  destruct (C99_series 2 INR simpson vol2 1 2 mb layers T300 D2 (residual2 mb) bcs x H1 H2 He Hs) as (J & HJ & Hx & _ & HK).
  specialize (HK eq_refl). pose proof (Hx 2%nat ltac:(lia)) as E2. pose proof (Hx 1%nat ltac:(lia)) as E1. destruct resistance2 as [R1 R2].
  rewrite R1 in E1. rewrite R2 in E2. pose proof (Hs 0%nat ltac:(lia)) as E0. unfold problem_F in E0. cbn in E0.
  unfold entering in HK. cbn in HK. lra.
Qed.
(** The HydrogenFlux of the right end in the first example: 2 leave per unit time and area. *)
Example C99_reported_example :
  let ctx := mkCtx (span 3 (linear 2 INR) x_310) D2 (fun _ => 0) (fun _ => 0) (fun _ => dconst 300)
               (fun p _ => match p with LeftEnd => - 1 | _ => 1 end) false in
  exists q v, make_quantity HydrogenFlux (LStr "solute") (IdInt 2) None None = Ok q /\
    compute (segment 2 INR simpson vol2 1 2) (mkFe [] [] [] []) ctx q = Ok v /\ d_id q = 2%Z /\ v = - 2.
Proof.
  eexists. eexists. split; [reflexivity|]. split; [reflexivity|]. split; [reflexivity|].
  unfold flux_integral, integral, points, angle. cbn. rewrite ?rsum_cons, ?rsum_nil. unfold dot. cbn. unfold length_of. cbn. field.
Qed.
