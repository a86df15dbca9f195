(** C102 (and C99 with exchanges): walls of layers are resistances in series, exchanges at their ends included. *)
From Coq Require Import String Reals ZArith List Bool Arith Lra Lia Psatz.
From Verif Require Import Base.Exc Base.Dual Model.Materials Model.Laws Model.Theta Model.Exports Model.Forms Model.Quantities Model.NonlinearProblem
  Spec.PhysSpec Spec.BalanceSpec Spec.NewtonSpec Spec.MaximumSpec Spec.PermeationSpec Spec.ConductionSpec Spec.QuantitySpec Spec.FluxSpec
  Proofs.LawProofs Proofs.ThetaProofs Proofs.FormProofs Proofs.MaximumProofs Proofs.PermeationProofs Proofs.ConductionProofs
  Properties.MaximumProps Properties.QuantityProps Properties.FluxProps Properties.PermeationProps.
Import ListNotations.
Local Open Scope R_scope.

(** Hydrogen: each end has an imposed concentration or an exchange with an external concentration. *)
Theorem C99_exchange K X rule vol left right mb ms T D r bcs l e x :
  let M := segment K X rule vol left right in
  slab K X rule vol left right mb ms T D -> hydrogen_residual M mb ms T None false (S K) (linear K X) r -> ends_only K bcs ->
  at_end bcs (fun u => entering K X rule vol left right (mb_bcs mb) T u LeftEnd) 0 l ->
  at_end bcs (fun u => entering K X rule vol left right (mb_bcs mb) T u RightEnd) K e ->
  (solves (S K) bcs r x <-> forall i, (i <= K)%nat ->
     x i = outside l + (outside e - outside l) / (film l + resistance X rule D K + film e) * (film l + resistance X rule D i)) /\
  (solves (S K) bcs r x -> monotone_between K x (outside l) (outside e)).
Proof.
  intros M (HK & HX & HR & Hcov & HT & HD & HDp & Hcl & Hsrc & Hb) Hr Hends Hl He.
  refine (chain_solution K (conductance X rule D) bcs HK
    (fun e0 He0 => conductance_pos K X rule vol left right HK HX HR D e0 He0 HDp) Hends r _ _ l e _ Hl He x).
  intros y i Hi. exact (steady_residual K X rule vol left right HK HX HR mb ms T D r y i Hcl Hsrc Hb Hcov HT HD Hr Hi).
Qed.
Print Assumptions C99_exchange.

(** Heat: the same flux crosses every element, also when the conductivity depends on the temperature. *)
Theorem C102_series K X rule vol left right ms dt T_n fluxes k r bcs x :
  let M := segment K X rule vol left right in
  let D := fun p => k (val (span (S K) (linear K X) x p)) p in
  wall K X rule vol left right ms fluxes k -> heat_residual M false dt T_n ms [] fluxes (S K) (linear K X) r ->
  ends_only K bcs -> solves (S K) bcs r x ->
  exists J, (forall e, (e < K)%nat -> conductance X rule D e * (x (S e) - x e) = J) /\
    (forall i, (i <= K)%nat -> x i - x 0%nat = J * resistance X rule D i) /\
    (boundary_value bcs 0 = None -> J = - heat_entering K X rule vol left right fluxes (x 0%nat) LeftEnd) /\
    (boundary_value bcs K = None -> J = heat_entering K X rule vol left right fluxes (x K) RightEnd).
Proof.
  intros M D (HK & HX & HR & Hcov & Hk & Hkp & Hb) Hr Hends Hs.
  refine (chain_series K (conductance X rule D) bcs HK _ Hends x (r x) _ _ _ _).
  - intros e He. apply (conductance_pos K X rule vol left right HK HX HR D e He). intros p Hp. now apply Hkp.
  - intros i Hi. exact (heat_steady K X rule vol left right HK HX HR ms dt T_n fluxes k r x i Hcov Hk Hb Hr Hi).
  - intros i Hi E. specialize (Hs i Hi). unfold problem_F in Hs. now rewrite E in Hs.
Qed.
Print Assumptions C102_series.

(** With conductivities independent of the temperature: the overall coefficient of heat transfer. *)
Theorem C102_solution K X rule vol left right ms dt T_n fluxes k r bcs l e x :
  let M := segment K X rule vol left right in
  wall K X rule vol left right ms fluxes (fun _ => k) -> heat_residual M false dt T_n ms [] fluxes (S K) (linear K X) r -> ends_only K bcs ->
  at_end bcs (fun t => heat_entering K X rule vol left right fluxes t LeftEnd) 0 l ->
  at_end bcs (fun t => heat_entering K X rule vol left right fluxes t RightEnd) K e ->
  (solves (S K) bcs r x <-> forall i, (i <= K)%nat ->
     x i = outside l + (outside e - outside l) / (film l + resistance X rule k K + film e) * (film l + resistance X rule k i)) /\
  (solves (S K) bcs r x -> monotone_between K x (outside l) (outside e)).
Proof.
  intros M (HK & HX & HR & Hcov & Hk & Hkp & Hb) Hr Hends Hl He.
  refine (chain_solution K (conductance X rule k) bcs HK
    (fun e0 He0 => conductance_pos K X rule vol left right HK HX HR k e0 He0 (Hkp 0)) Hends r _ _ l e _ Hl He x).
  intros y i Hi. exact (heat_steady K X rule vol left right HK HX HR ms dt T_n fluxes (fun _ => k) r y i Hcov Hk Hb Hr Hi).
Qed.
Print Assumptions C102_solution.

(** With a conductivity which is uniform in each element the resistances are h / k: the flux does not depend on the mesh. *)
Theorem C102_layers K X rule vol left right ms fluxes k d : wall K X rule vol left right ms fluxes (fun _ => k) ->
  (forall e q, (e < K)%nat -> In q rule -> k (Cell e (fst q) (snd q)) = d e) ->
  forall i, (i <= K)%nat -> resistance X rule k i = rsum (map (fun e => (X (S e) - X e) / d e) (seq 0 i)).
Proof.
  intros (HK & HX & HR & _ & _ & Hkp & _) Hd i Hi. unfold resistance. apply rsum_map_ext. intros e He. apply in_seq in He. unfold conductance.
  rewrite (rsum_map_ext _ (fun q => d e * snd q)) by (intros q Hq; rewrite Hd by (lia || assumption); ring).
  rewrite rsum_map_scale. pose proof (HR) as (_ & H1 & _). rewrite H1.
  destruct (rule_inner rule HR) as (q & Hq & _). specialize (Hkp 0 (Cell e (fst q) (snd q))). rewrite Hd in Hkp by (lia || assumption).
  assert (0 < d e) by (apply Hkp, segment_cells; [assumption|exists e, q; repeat split; auto; lia]).
  pose proof (HX e ltac:(lia)). unfold length_of. field. split; lra.
Qed.
Print Assumptions C102_layers.

(** The ThermalFlux (SurfaceFlux of T) of an end is this flux, into the wall. *)
Theorem C102_reported K X rule vol left right ms dt T_n fluxes k r bcs x ctx V kind field id q v :
  let M := segment K X rule vol left right in
  let D := fun p => k (val (span (S K) (linear K X) x p)) p in
  wall K X rule vol left right ms fluxes k -> heat_residual M false dt T_n ms [] fluxes (S K) (linear K X) r ->
  ends_only K bcs -> solves (S K) bcs r x -> left <> right ->
  x_function ctx = span (S K) (linear K X) x -> (forall p, point M p -> x_cond ctx p = D p) ->
  x_n ctx LeftEnd 0%nat = - 1 -> x_n ctx RightEnd 0%nat = 1 ->
  (forall p s, In p [LeftEnd; RightEnd] -> In s rule -> D (Cell (element K p) (fst s) (snd s)) = D p) ->
  is_flux kind = true -> class_field kind field = LStr "T" -> allowed_mesh kind Cartesian = true ->
  make_quantity kind field id None None = Ok q -> compute M V ctx q = Ok v ->
  (d_id q = right -> v * resistance X rule D K = x K - x 0%nat) /\ (d_id q = left -> v * resistance X rule D K = x 0%nat - x K).
Proof.
  intros M D Hwall Hr Hends Hs Hlr Hf HD HnL HnR Hu Hk Hl Ha Hq Hv.
  destruct (C102_series K X rule vol left right ms dt T_n fluxes k r bcs x Hwall Hr Hends Hs) as (J & HJ & Hx & _). fold D in HJ, Hx.
  destruct Hwall as (HK & HX & HR & _). specialize (Hx K ltac:(lia)).
  rewrite (printed_heat M V ctx kind field id q v Hk Hl Ha Hq Hv).
  assert (Hang : full_angle kind = 1) by (destruct kind; try discriminate Hk; try discriminate Ha; reflexivity). rewrite Hang, Rmult_1_l.
  assert (Hc : forall p, In p [LeftEnd; RightEnd] -> D p * ((x (S (element K p)) - x (element K p)) / length_of X (element K p)) = J).
  { intros p Hp. assert (He : (element K p < K)%nat) by (destruct Hp as [<-|[<-|[]]]; cbn; lia).
    rewrite <- (HJ (element K p) He). unfold conductance.
    rewrite (rsum_map_ext _ (fun s => D p * snd s)) by (intros s Hin; rewrite Hu by assumption; ring).
    rewrite rsum_map_scale. destruct HR as (_ & -> & _). pose proof (length_pos K X HX _ He). field. lra. }
  assert (Hg : forall p, In p [LeftEnd; RightEnd] -> dot (q_dim M) (heat_vector ctx p) (x_n ctx p) = J * x_n ctx p 0%nat).
  { intros p Hp. assert (Hpp : point M p) by (right; exact Hp). cbn [M q_dim segment]. rewrite dot1. unfold heat_vector. rewrite HD, Hf by exact Hpp.
    rewrite (proj2 (span_segment K X rule vol left right HK HR x p Hpp)), <- (Hc p Hp). ring. }
  unfold total_on, wsum. cbn [M q_facets segment filter q_surface].
  split; intros ->; [destruct (Z.eqb_spec left right) as [E|_]; [contradiction|]; rewrite Z.eqb_refl
                    |rewrite Z.eqb_refl; destruct (Z.eqb_spec right left) as [E|_]; [now destruct Hlr|]];
    cbn [map]; rewrite rsum_cons, rsum_nil; unfold weight; cbn [q_type q_weight M segment]; rewrite Hg by (cbn; tauto); rewrite ?HnL, ?HnR; lra.
Qed.
Print Assumptions C102_reported.

(** Two layers of length 1 with k = 1 and k = 2 between a fluid at 400 (h = 2) and a fluid at 240 (h = 1/2):
    resistances 1/2, 1, 1/2 and 2, so the flux is 40 per unit area, and the temperatures are 380, 340 and 320. *)
Definition wall_layer (z : Z) (k : prop) : mat_obj :=
  mkMatObj (Z.to_nat z) (mkMaterial (IdOne z) None (Const 1) (Const 0) None None (Some k) None None BNone None Sievert).
Definition wall_layers : list mat_obj := [wall_layer 1 (Const 1); wall_layer 2 (Const 2)].
Definition fluids : list (list Z * flux pt) :=
  [([1%Z], ConvectiveFlux (fun _ => 2) (fun _ => 400)); ([2%Z], ConvectiveFlux (fun _ => 1 / 2) (fun _ => 240))].
Definition heat_residual2 (ms : list mat_obj) (fluxes : list (list Z * flux pt)) (x : nat -> R) (i : nat) : R :=
  let M := segment 2 INR simpson vol2 1 2 in
  match heat_form M false 1 (span 3 (linear 2 INR) x) (fun _ => dconst 0) (linear 2 INR i) ms [] fluxes with
  | Ok F => assemble M F
  | Err _ => 0
  end.
Definition t_380 (i : nat) : R := match i with 0%nat => 380 | 1%nat => 340 | _ => 320 end.
Lemma wall2 : wall 2 INR simpson vol2 1 2 wall_layers fluids (fun _ => D2) /\
  heat_residual (segment 2 INR simpson vol2 1 2) false 1 (fun _ => dconst 0) wall_layers [] fluids 3 (linear 2 INR) (heat_residual2 wall_layers fluids).
Proof.
  split.
  - split; [lia|]. split; [intros e _; rewrite S_INR; lra|]. split; [apply simpson_exact|]. split.
    { split; [repeat constructor; cbn; intuition discriminate|]. intros p _. cbn. unfold vol2. destruct (element 2 p); auto. }
    split; [|split; [intros _ p _; unfold D2; destruct (element 2 p); lra|]].
    + intros m p t [<-|[<-|[]]] Hp Hz; cbn in *; unfold D2; unfold vol2 in Hz; destruct (element 2 p); try reflexivity; destruct Hz as [Hz|[]]; discriminate.
    + intros b [<-|[<-|[]]]; exact I.
  - intros x i _. eexists. split; [|unfold heat_residual2]; cbn; reflexivity.
Qed.
Example C102_example :
  wall 2 INR simpson vol2 1 2 wall_layers fluids (fun _ => D2) /\
  heat_residual (segment 2 INR simpson vol2 1 2) false 1 (fun _ => dconst 0) wall_layers [] fluids 3 (linear 2 INR) (heat_residual2 wall_layers fluids) /\
  ends_only 2 [] /\ at_end [] (fun t => heat_entering 2 INR simpson vol2 1 2 fluids t LeftEnd) 0 (Exchange 2 400) /\
  at_end [] (fun t => heat_entering 2 INR simpson vol2 1 2 fluids t RightEnd) 2 (Exchange (1 / 2) 240) /\
  solves 3 [] (heat_residual2 wall_layers fluids) t_380 /\
  (forall e q, (e < 2)%nat -> In q simpson -> D2 (Cell e (fst q) (snd q)) = match e with O => 1 | _ => 2 end) /\
  (forall p s, In p [LeftEnd; RightEnd] -> In s simpson -> D2 (Cell (element 2 p) (fst s) (snd s)) = D2 p).
Proof.
  destruct wall2 as [H1 H2]. split; [exact H1|]. split; [exact H2|].
  assert (He : ends_only 2 []) by (intros i _; reflexivity). split; [exact He|].
  assert (HL : at_end [] (fun t => heat_entering 2 INR simpson vol2 1 2 fluids t LeftEnd) 0 (Exchange 2 400)).
  { split; [reflexivity|]. split; [lra|]. intros u. unfold heat_entering. cbn. ring. }
  assert (HR : at_end [] (fun t => heat_entering 2 INR simpson vol2 1 2 fluids t RightEnd) 2 (Exchange (1 / 2) 240)).
  { split; [reflexivity|]. split; [lra|]. intros u. unfold heat_entering. cbn. ring. }
  split; [exact HL|]. split; [exact HR|]. split.
  - apply (C102_solution 2 INR simpson vol2 1 2 wall_layers 1 (fun _ => dconst 0) fluids D2 _ [] _ _ t_380 H1 H2 He HL HR).
    destruct resistance2 as [R1 R2]. intros [|[|[|i]]] Hi; cbn [t_380 film outside]; rewrite ?R1, ?R2; try lia; try field.
    replace (resistance INR simpson D2 0) with 0 by reflexivity. field.
  - split; [intros [|e] q _ _; reflexivity|]. intros p s [<-|[<-|[]]] _; reflexivity.
Qed.
(** The ThermalFlux of the right end: 40 leave per unit time and area. *)
Example C102_reported_example :
  let ctx := mkCtx (span 3 (linear 2 INR) t_380) (fun _ => 0) D2 (fun _ => 0) (fun _ => dconst 300)
               (fun p _ => match p with LeftEnd => - 1 | _ => 1 end) false in
  exists q v, make_quantity ThermalFlux (LStr "T") (IdInt 2) None None = Ok q /\
    compute (segment 2 INR simpson vol2 1 2) (mkFe [] [] [] []) ctx q = Ok v /\ d_id q = 2%Z /\ v = - 40.
Proof.
  eexists. eexists. split; [reflexivity|]. split; [reflexivity|]. split; [reflexivity|].
  unfold flux_integral, integral, points, angle. cbn. rewrite ?rsum_cons, ?rsum_nil. unfold dot. cbn. unfold length_of. cbn. field.
Qed.
(** A conductivity that grows with the temperature: k = T in both layers, 4 imposed at the left and 2 at the right. *)
Example C102_nonlinear_example x : let ms := [wall_layer 1 (Fun (fun t => Rmax t 1)); wall_layer 2 (Fun (fun t => Rmax t 1))] in
  let bcs := [[(0%nat, 4)]; [(2%nat, 2)]] in
  wall 2 INR simpson vol2 1 2 ms [] (fun t _ => Rmax t 1) /\
  (solves 3 bcs (heat_residual2 ms []) x -> 1 <= x 1%nat -> x 1%nat ^ 2 = 10).
Proof.
  intros ms bcs.
  assert (H1 : wall 2 INR simpson vol2 1 2 ms [] (fun t _ => Rmax t 1)).
  { split; [lia|]. split; [intros e _; rewrite S_INR; lra|]. split; [apply simpson_exact|]. split.
    { split; [repeat constructor; cbn; intuition discriminate|]. intros p _. cbn. unfold vol2. destruct (element 2 p); auto. }
    split; [|split; [intros t p _; pose proof (Rmax_r t 1); lra|intros b []]].
    intros m p t [<-|[<-|[]]] _ _; reflexivity. }
  split; [exact H1|]. intros Hs Hx.
  assert (H2 : heat_residual (segment 2 INR simpson vol2 1 2) false 1 (fun _ => dconst 0) ms [] [] 3 (linear 2 INR) (heat_residual2 ms [])).
  { intros y i _. eexists. split; [|unfold heat_residual2]; cbn; reflexivity. }
  assert (He : ends_only 2 bcs) by (intros i Hi; replace i with 1%nat by lia; reflexivity).
  pose proof (Hs 0%nat ltac:(lia)) as E0. pose proof (Hs 2%nat ltac:(lia)) as E2. unfold problem_F in E0, E2. cbn in E0, E2.
  destruct (C102_series 2 INR simpson vol2 1 2 ms 1 (fun _ => dconst 0) [] (fun t _ => Rmax t 1) (heat_residual2 ms []) bcs x H1 H2 He Hs) as (J & HJ & _).
  pose proof (HJ 0%nat ltac:(lia)) as J0. pose proof (HJ 1%nat ltac:(lia)) as J1.
  assert (Hc : forall e, (e < 2)%nat -> 1 <= x e -> 1 <= x (S e) -> conductance INR simpson (fun p => Rmax (val (span 3 (linear 2 INR) x p)) 1) e = (x e + x (S e)) / 2).
  { intros e He2 Ha Hb. unfold conductance.
    rewrite (rsum_map_ext _ (fun q => x e * snd q + (x (S e) - x e) * (snd q * fst q))).
    - rewrite rsum_map_plus, !rsum_map_scale. destruct simpson_exact as (_ & -> & -> & _). unfold length_of. rewrite S_INR. field. pose proof (pos_INR e). lra.
    - intros q Hq. assert (Hp : point (segment 2 INR simpson vol2 1 2) (Cell e (fst q) (snd q))) by (left; apply segment_cells; [lia|exists e, q; auto]).
      rewrite (proj1 (span_segment 2 INR simpson vol2 1 2 ltac:(lia) simpson_exact x _ Hp)). cbn [element local].
      destruct simpson_exact as (Hs01 & _). destruct (Hs01 q Hq) as [[Hs0 Hs1] _].
      rewrite Rmax_left by nra. ring. }
  rewrite Hc in J0 by (lia || lra). rewrite Hc in J1 by (lia || lra). nra.
Qed.
