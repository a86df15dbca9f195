(** Lemmas on derived quantities. *)
From Coq Require Import Reals ZArith List Bool String Lra Lia.
From Verif Require Import Base.Exc Base.Key Base.Dual Model.Exports Model.Laws Model.Forms Model.Quantities
  Spec.BalanceSpec Spec.QuantitySpec Proofs.FormProofs.
Import ListNotations.
Local Open Scope R_scope.

(** * Integrals of 1 and sin *)
Lemma is_integral_derivable (F f : R -> R) a b :
  (forall x, derivable_pt_lim F x (f x)) -> continuity f -> is_integral f a b (F b - F a).
Proof.
  intros HF Hc.
  assert (pr0 : derivable F) by (intros x; exists (f x); apply HF).
  assert (E : forall x, derive F pr0 x = f x)
    by (intros x; unfold derive; apply derive_pt_eq_0, HF).
  assert (Hc' : continuity (derive F pr0)).
  { intros x. unfold continuity_pt, continue_in, limit1_in, limit_in in *. intros eps He.
    destruct (Hc x eps He) as (d & Hd & H). exists d. split; [exact Hd|]. intros y Hy.
    rewrite !E. apply H, Hy. }
  set (G := {| c1 := F; diff0 := pr0; cont1 := Hc' |}).
  assert (prG : Riemann_integrable (derive G (diff0 G)) a b).
  { destruct (Rle_dec a b) as [Hab|Hab].
    - apply continuity_implies_RiemannInt; [exact Hab|]. intros x _. apply Hc'.
    - apply RiemannInt_P1, continuity_implies_RiemannInt; [lra|]. intros x _. apply Hc'. }
  assert (Q := FTC_Riemann G prG). cbn [c1 G] in Q.
  assert (prf : Riemann_integrable f a b).
  { apply (@Riemann_integrable_ext (derive G (diff0 G)) f a b); [|exact prG]. intros x _. apply E. }
  exists prf. rewrite <- Q. destruct (Rle_dec a b) as [Hab|Hab].
  - apply RiemannInt_P18; [exact Hab|]. intros x _. symmetry. apply E.
  - transitivity (- RiemannInt (RiemannInt_P1 prf)); [apply RiemannInt_P8|].
    transitivity (- RiemannInt (RiemannInt_P1 prG)); [|symmetry; apply RiemannInt_P8].
    f_equal. apply RiemannInt_P18; [lra|]. intros x _. symmetry. apply E.
Qed.
Lemma is_integral_unique f a b v w : is_integral f a b v -> is_integral f a b w -> v = w.
Proof. intros [p <-] [q <-]. apply RiemannInt_P5. Qed.
Lemma is_integral_one a b : is_integral (fun _ => 1) a b (b - a).
Proof.
  apply (is_integral_derivable (fun x => x) (fun _ => 1)).
  - intros x. apply derivable_pt_lim_id.
  - intros x. apply continuity_const. intros y z. reflexivity.
Qed.
Lemma is_integral_sin a b : is_integral sin a b (cos a - cos b).
Proof.
  replace (cos a - cos b) with ((fun x => - cos x) b - (fun x => - cos x) a) by (cbv beta; ring).
  apply (is_integral_derivable (fun x => - cos x) sin).
  - intros x. assert (H := derivable_pt_lim_opp cos x _ (derivable_pt_lim_cos x)).
    rewrite Ropp_involutive in H. exact H.
  - exact continuity_sin.
Qed.

Section Quantity.
Context {P : Type}.
Implicit Types (M : mesh P) (x : context P) (q : dquantity P).

Lemma one_r_weight M k p :
  allowed_mesh k (q_type M) = true -> (is_total k || is_average k || is_flux k = true)%bool ->
  k <> AverageSurface -> one_r_r2 M k p = weight M p.
Proof.
  unfold weight. destruct k, (q_type M); cbn; try discriminate; try reflexivity; intros; congruence.
Qed.

Lemma dot_plus d (a b c : nat -> R) : dot d (fun i => a i + b i) c = dot d a c + dot d b c.
Proof. unfold dot. rewrite <- rsum_map_plus. apply rsum_map_ext. intros. ring. Qed.
Lemma dot_scale d k (a b : nat -> R) : dot d (fun i => k * a i) b = k * dot d a b.
Proof. unfold dot. rewrite <- rsum_map_scale. apply rsum_map_ext. intros. ring. Qed.
Lemma dot_ext d (a a' b : nat -> R) : (forall i, a i = a' i) -> dot d a b = dot d a' b.
Proof. intros H. apply rsum_map_ext. intros i _. now rewrite H. Qed.

Lemma label_eqb_eq a b : label_eqb a b = true -> a = b.
Proof.
  destruct a as [s|z], b as [s'|z']; cbn; try discriminate.
  - intros H. apply String.eqb_eq in H. now subst.
  - intros H. apply Z.eqb_eq in H. now subst.
Qed.
Lemma prop_of_cases x l prop : prop_of x l = Ok prop ->
  (solute_label l /\ is_solute l = true /\ prop = x_D x) \/
  (l = LStr "T" /\ is_solute l = false /\ prop = x_cond x).
Proof.
  unfold prop_of, is_solute, solute_label.
  destruct (label_eqb l (LStr "0")) eqn:E1.
  { intros H. injection H as <-. left. apply label_eqb_eq in E1. subst l. cbn. auto. }
  destruct (label_eqb l (LStr "solute")) eqn:E2.
  { intros H. injection H as <-. left. apply label_eqb_eq in E2. subst l. cbn. auto. }
  destruct (label_eqb l (LInt 0)) eqn:E3.
  { intros H. injection H as <-. left. apply label_eqb_eq in E3. subst l. cbn. auto. }
  destruct (label_eqb l (LStr "T")) eqn:E4; [|discriminate].
  intros H. injection H as <-. right. apply label_eqb_eq in E4. subst l. cbn. auto.
Qed.

Lemma flux_density_solute M x l p : solute_label l ->
  flux_density M x l p
  = x_D x p * dot (q_dim M)
      (fun i => grd (x_function x p) i +
                (if x_soret x
                 then x_Q x p * val (x_function x p) / (k_B * val (x_T x p) ^ 2) * grd (x_T x p) i
                 else 0)) (x_n x p).
Proof. intros [ -> | [ -> | -> ] ]; reflexivity. Qed.

Lemma flux_integral_value M x prop l z (w : P -> R) :
  prop_of x l = Ok prop -> (forall p, In p (q_facets M) -> w p = weight M p) ->
  flux_integral M x prop w l z = total_on M z (flux_density M x l).
Proof.
  intros Hp Hw. rewrite <- (total_on_integral M z _ w Hw). unfold flux_integral.
  destruct (prop_of_cases _ _ _ Hp) as [(Hl & Hs & ->)|(-> & Hs & ->)]; rewrite Hs.
  - destruct (x_soret x) eqn:So; cbn [andb].
    + rewrite <- integral_plus. apply integral_ext. intros p _. rewrite flux_density_solute by exact Hl.
      rewrite So, dot_plus.
      rewrite dot_scale.
      unfold Rdiv. ring.
    + apply integral_ext. intros p _. rewrite flux_density_solute by exact Hl. rewrite So.
      rewrite (dot_ext _ (fun i => grd (x_function x p) i + 0) (grd (x_function x p))) by (intros; ring). ring.
  - rewrite andb_false_r. apply integral_ext. intros p _. unfold flux_density. ring.
Qed.

Lemma compute_value M V x q v :
  allowed_mesh (d_kind q) (q_type M) = true -> (is_total (d_kind q) || is_flux (d_kind q) = true)%bool ->
  compute M V x q = Ok v ->
  v = angle q * measure_of M (d_kind q) (d_id q) (integrand M x q).
Proof.
  intros Ha Hk.
  assert (Hw : forall p, one_r_r2 M (d_kind q) p = weight M p).
  { intros p. apply one_r_weight; [exact Ha| |].
    - destruct (d_kind q); cbn in *; congruence.
    - destruct (d_kind q); cbn in *; congruence. }
  unfold compute, measure_of, integrand.
  assert (Hf : forall l z, forall prop, prop_of x l = Ok prop ->
    flux_integral M x prop (one_r_r2 M (d_kind q)) l z = total_on M z (flux_density M x l)).
  { intros. apply flux_integral_value; auto. }
  assert (Hv : forall z (u : P -> R), integral M (Dx z) (fun p => u p * one_r_r2 M (d_kind q) p) = total_in M z u)
    by (intros; apply total_in_integral; auto).
  assert (Hs : forall z (u : P -> R), integral M (Ds z) (fun p => u p * one_r_r2 M (d_kind q) p) = total_on M z u)
    by (intros; apply total_on_integral; auto).
  destruct (d_kind q) eqn:K; try discriminate Hk; cbn [is_flux over_volume];
    try (intros H; injection H as <-; rewrite ?Hv, ?Hs; apply Rmult_comm);
    destruct (prop_of x (d_field q)) as [prop|e] eqn:Hp; try discriminate; cbn [bind];
    intros H; injection H as <-; rewrite (Hf _ _ _ Hp); apply Rmult_comm.
Qed.

(** The factor is the angular integral, SurfaceFluxSpherical aside. *)
Lemma angle_angular q : d_kind q <> SurfaceFluxSpherical -> is_average (d_kind q) = false ->
  angular (d_kind q) (d_azimuth q) (d_polar q) (angle q).
Proof.
  intros Hk Hav. unfold angular, angle.
  destruct (d_kind q); try congruence; try discriminate; cbn [coordinates_of]; try reflexivity;
    try apply is_integral_one.
  - eexists _, _. split; [reflexivity|]. split; [apply is_integral_one|apply is_integral_sin].
  - eexists _, _. split; [reflexivity|]. split; [apply is_integral_one|apply is_integral_sin].
Qed.

Lemma make_quantity_fields k field id az pol q : make_quantity k field id az pol = Ok q ->
  d_kind q = k /\ d_field q = class_field k field /\ IdInt (d_id q) = id /\
  range_arg (azimuth_bounds k) az = Ok (d_azimuth q) /\ range_arg (polar_bounds k) pol = Ok (d_polar q).
Proof.
  unfold make_quantity. destruct id as [z|b|]; cbn [set_id bind]; try discriminate.
  destruct (range_arg (azimuth_bounds k) az) as [a|]; cbn [bind]; [|discriminate].
  destruct (range_arg (polar_bounds k) pol) as [p|]; cbn [bind]; [|discriminate].
  intros H. injection H as <-. cbn. auto 6.
Qed.
Lemma set_range_ok b v r : set_range b v = Ok r <-> (r = v /\ within v b).
Proof.
  unfold set_range, within. destruct (Rlt_dec (fst v) (fst b)) as [H|H].
  { split; [discriminate|]. intros (_ & A & _). lra. }
  destruct (Rgt_dec (snd v) (snd b)) as [H'|H'].
  { split; [discriminate|]. intros (_ & _ & A). lra. }
  split; [|intros ( -> & _); reflexivity]. intros E. injection E as <-. repeat split; lra.
Qed.

(** * Averages *)
Lemma rdiv_ok a b v : rdiv a b = Ok v <-> (b <> 0 /\ v = a / b).
Proof.
  unfold rdiv. destruct (Req_EM_T b 0); split; try discriminate; try tauto.
  - intros H. injection H as <-. auto.
  - intros (_ & ->). reflexivity.
Qed.

Lemma integral_le M m (f g : P -> R) : (forall p, 0 <= q_weight M p) ->
  (forall p, In p (points M m) -> f p <= g p) -> integral M m f <= integral M m g.
Proof.
  intros Hw H. unfold integral. induction (points M m) as [|p ps IH]; [cbn; lra|].
  cbn [map]. rewrite !rsum_cons. apply Rplus_le_compat.
  - apply Rmult_le_compat_l; [apply Hw|]. apply H. now left.
  - apply IH. intros p' Hp'. apply H. now right.
Qed.
Lemma integral_scale M m k (f : P -> R) : integral M m (fun p => k * f p) = k * integral M m f.
Proof. unfold integral. rewrite <- rsum_map_scale. apply rsum_map_ext. intros. ring. Qed.

(** The points and weights of an average. *)
Definition avg_measure (k : qkind) (z : Z) : measure := if over_volume k then Dx z else Ds z.
Lemma compute_average M V x q :
  is_average (d_kind q) = true ->
  compute M V x q
  = rdiv (integral M (avg_measure (d_kind q) (d_id q)) (fun p => val (x_function x p) * one_r_r2 M (d_kind q) p))
         (integral M (avg_measure (d_kind q) (d_id q)) (fun p => 1 * one_r_r2 M (d_kind q) p)).
Proof. intros H. unfold compute, avg_measure. destruct (d_kind q); try discriminate; reflexivity. Qed.
Lemma located_points M k z p : In p (points M (avg_measure k z)) <-> located M k z p.
Proof.
  unfold avg_measure, located. destruct (over_volume k); cbn [points];
    rewrite filter_In, Z.eqb_eq; tauto.
Qed.
Lemma one_r_nonneg M k p : proper M -> 0 <= one_r_r2 M k p.
Proof.
  intros [_ Hx]. unfold one_r_r2. assert (H := Hx p). assert (0 <= q_x0 M p ^ 2) by (apply pow2_ge_0).
  destruct k; lra.
Qed.

Lemma average_bounds M V x q v lo hi :
  is_average (d_kind q) = true -> proper M -> compute M V x q = Ok v ->
  (forall p, located M (d_kind q) (d_id q) p -> lo <= val (x_function x p) <= hi) -> lo <= v <= hi.
Proof.
  intros Hk HM. rewrite compute_average by exact Hk.
  set (m := avg_measure _ _). set (w := one_r_r2 M (d_kind q)).
  rewrite rdiv_ok. intros [Hd ->] Hb.
  assert (Hw : forall p, 0 <= w p) by (intros p; apply one_r_nonneg, HM).
  assert (D0 : 0 <= integral M m (fun p => 1 * w p)).
  { rewrite <- (integral_zero M m (fun _ => 0)) by reflexivity. apply integral_le; [apply HM|].
    intros p _. assert (H := Hw p). lra. }
  set (d := integral M m (fun p => 1 * w p)) in *.
  assert (Hlo : lo * d <= integral M m (fun p => val (x_function x p) * w p)).
  { unfold d. rewrite <- integral_scale. apply integral_le; [apply HM|]. intros p Hp.
    apply located_points in Hp. destruct (Hb p Hp). assert (H' := Hw p).
    rewrite Rmult_1_l. apply Rmult_le_compat_r; lra. }
  assert (Hhi : integral M m (fun p => val (x_function x p) * w p) <= hi * d).
  { unfold d. rewrite <- integral_scale. apply integral_le; [apply HM|]. intros p Hp.
    apply located_points in Hp. destruct (Hb p Hp). assert (H' := Hw p).
    rewrite Rmult_1_l. apply Rmult_le_compat_r; lra. }
  split.
  - apply (Rmult_le_reg_r d); [lra|]. unfold Rdiv. rewrite Rmult_assoc, Rinv_l by lra. lra.
  - apply (Rmult_le_reg_r d); [lra|]. unfold Rdiv. rewrite Rmult_assoc, Rinv_l by lra. lra.
Qed.

(** * Extrema *)
Lemma map_res_ok {A B} (f : A -> res B) l bs : map_res f l = Ok bs -> Forall2 (fun a b => f a = Ok b) l bs.
Proof.
  revert bs. induction l as [|a l IH]; intros bs; cbn.
  - intros H. injection H as <-. constructor.
  - destruct (f a) as [b|] eqn:E; cbn [bind]; [|discriminate].
    destruct (map_res f l) as [bs'|] eqn:E'; cbn [bind]; [|discriminate].
    intros H. injection H as <-. constructor; auto.
Qed.
Lemma subset_from_in i ms z c : In c (subset_from i ms z) <-> ((i <= c)%nat /\ nth_error ms (c - i) = Some z).
Proof.
  revert i. induction ms as [|m ms IH]; intros i; cbn.
  - split; [tauto|]. intros [_ H]. destruct (c - i)%nat; discriminate.
  - destruct (Z.eqb_spec m z) as [->|N].
    + cbn [In]. rewrite IH. split.
      * intros [->|[H H']]; [rewrite Nat.sub_diag; cbn; auto|]. split; [lia|].
        destruct (c - i)%nat eqn:Q; [lia|]. replace (c - S i)%nat with n in H' by lia. exact H'.
      * intros [H H']. destruct (Nat.eq_dec i c); [auto|right]. split; [lia|].
        destruct (c - i)%nat eqn:Q; [lia|]. replace (c - S i)%nat with n0 by lia. exact H'.
    + rewrite IH. split.
      * intros [H H']. split; [lia|].
        destruct (c - i)%nat eqn:Q; [lia|]. replace (c - S i)%nat with n in H' by lia. exact H'.
      * intros [H H']. destruct (c - i)%nat eqn:Q; [cbn in H'; congruence|]. split; [lia|].
        replace (c - S i)%nat with n by lia. exact H'.
Qed.
Lemma subset_in ms z c : In c (subset ms z) <-> nth_error ms c = Some z.
Proof. unfold subset. rewrite subset_from_in, Nat.sub_0_r. intuition lia. Qed.

Lemma fold_max l v : is_largest (fun w => In w (v :: l)) (fold_left Rmax l v).
Proof.
  revert v. induction l as [|a l IH]; intros v; cbn.
  - split; [now left|]. intros w [->|[]]. lra.
  - destruct (IH (Rmax v a)) as [H1 H2]. split.
    + destruct H1 as [H1|H1]; [|auto]. rewrite <- H1. unfold Rmax. destruct (Rle_dec v a); auto.
    + intros w [->|[->|H]].
      * eapply Rle_trans; [apply Rmax_l|]. apply H2. now left.
      * eapply Rle_trans; [apply Rmax_r|]. apply H2. now left.
      * apply H2. now right.
Qed.
Lemma fold_min l v : is_smallest (fun w => In w (v :: l)) (fold_left Rmin l v).
Proof.
  revert v. induction l as [|a l IH]; intros v; cbn.
  - split; [now left|]. intros w [->|[]]. lra.
  - destruct (IH (Rmin v a)) as [H1 H2]. split.
    + destruct H1 as [H1|H1]; [|auto]. rewrite <- H1. unfold Rmin. destruct (Rle_dec v a); auto.
    + intros w [->|[->|H]].
      * eapply Rle_trans; [apply H2; now left|]. apply Rmin_l.
      * eapply Rle_trans; [apply H2; now left|]. apply Rmin_r.
      * apply H2. now right.
Qed.

(** The values an extremum is taken over. *)
Definition entity_value (V : fespace) (entities : list nat) (v : R) : Prop :=
  exists c dofs d, In c entities /\ nth_error (fe_cell_dofs V) c = Some dofs /\ In d dofs /\
    nth_error (fe_vector V) d = Some v.
Lemma extremum_values op V es r : extremum op V es = Ok r ->
  exists v l, np_extremum op (v :: l) = Ok r /\ forall w, In w (v :: l) <-> entity_value V es w.
Proof.
  unfold extremum, subd_dofs. destruct (map_res (cell_dofs V) es) as [ds|] eqn:E; cbn [bind]; [|discriminate].
  apply map_res_ok in E.
  assert (HD : forall d, In d (List.concat ds) <-> exists c dofs, In c es /\ nth_error (fe_cell_dofs V) c = Some dofs /\ In d dofs).
  { intros d. induction E as [|c dofs es' ds' Hc HE IH].
    - cbn. split; [tauto|]. intros (c & dofs & [] & _).
    - unfold cell_dofs in Hc. destruct (nth_error (fe_cell_dofs V) c) as [l|] eqn:N; [|discriminate].
      injection Hc as ->. cbn [List.concat]. rewrite in_app_iff, IH. split.
      + intros [H|(c' & l & H1 & H2 & H3)]; [exists c, dofs; cbn; auto|exists c', l; cbn; auto].
      + intros (c' & l & [->|H1] & H2 & H3); [left; congruence|right; exists c', l; auto]. }
  assert (G : forall dofs, bind (values_at V dofs) (np_extremum op) = Ok r ->
     exists v l, np_extremum op (v :: l) = Ok r /\
       forall w, In w (v :: l) <-> exists d, In d dofs /\ nth_error (fe_vector V) d = Some w).
  { intros dofs. destruct (values_at V dofs) as [vs|] eqn:Ev; cbn [bind]; [|discriminate].
    apply map_res_ok in Ev. destruct vs as [|v l]; [discriminate|]. intros H. exists v, l. split; [exact H|].
    clear H. intros w. revert Ev. generalize (v :: l). intros vs. clear v l. revert vs.
    induction dofs as [|d dofs IH]; intros vs Ev; inversion Ev as [|d' v' ds' vs' H1 H2]; subst.
    - cbn. split; [tauto|]. intros (d & [] & _).
    - cbn [In]. rewrite (IH _ H2). destruct (nth_error (fe_vector V) d) as [v|] eqn:N; [|discriminate].
      injection H1 as ->. split.
      + intros [->|(d' & Hd & Hn)]; [exists d; auto|exists d'; auto].
      + intros (d' & [->|Hd] & Hn); [left; congruence|right; exists d'; auto]. }
  destruct ds as [|d0 ds0] eqn:Eds; [discriminate|]. rewrite <- Eds in *. clear d0 ds0 Eds. cbn [bind].
  intros H. destruct (G _ H) as (v & l & Hr & Hin). exists v, l. split; [exact Hr|].
  intros w. rewrite Hin. unfold entity_value. split.
  - intros (d & Hd & Hn). apply HD in Hd. destruct Hd as (c & dofs & H1 & H2 & H3). exists c, dofs, d. auto.
  - intros (c & dofs & d & H1 & H2 & H3 & H4). exists d. split; [|exact H4]. apply HD. exists c, dofs. auto.
Qed.
Lemma extremum_max V es r : extremum Rmax V es = Ok r -> is_largest (entity_value V es) r.
Proof.
  intros H. destruct (extremum_values _ _ _ _ H) as (v & l & Hr & Hin). cbn in Hr. injection Hr as <-.
  destruct (fold_max l v) as [H1 H2]. split; [now apply Hin|]. intros w Hw. apply H2, Hin, Hw.
Qed.
Lemma extremum_min V es r : extremum Rmin V es = Ok r -> is_smallest (entity_value V es) r.
Proof.
  intros H. destruct (extremum_values _ _ _ _ H) as (v & l & Hr & Hin). cbn in Hr. injection Hr as <-.
  destruct (fold_min l v) as [H1 H2]. split; [now apply Hin|]. intros w Hw. apply H2, Hin, Hw.
Qed.
Lemma entity_nodal V z v : entity_value V (subset (fe_cell_markers V) z) v <-> nodal_value V z v.
Proof.
  unfold entity_value, nodal_value. split; intros (c & dofs & d & H & R1); exists c, dofs, d;
    [rewrite subset_in in H|rewrite subset_in]; auto.
Qed.

(** Convex combinations stay between the nodal values. *)
Lemma convex_bounds V dofs u lo hi : convex V dofs u ->
  (forall d, In d dofs -> lo <= nth d (fe_vector V) 0 <= hi) -> lo <= u <= hi.
Proof.
  intros (ls & Hlen & Hpos & Hsum & ->) Hb.
  assert (G : forall ds ks, List.length ks = List.length ds -> (forall l, In l ks -> 0 <= l) ->
     (forall d, In d ds -> lo <= nth d (fe_vector V) 0 <= hi) ->
     lo * rsum ks <= rsum (map (fun ld => fst ld * nth (snd ld) (fe_vector V) 0) (combine ks ds)) <= hi * rsum ks).
  { clear. induction ds as [|d ds IH]; intros [|k ks] Hl Hp Hb; try discriminate.
    - cbn. lra.
    - cbn [combine map fst snd]. rewrite !rsum_cons.
      assert (A : 0 <= k) by (apply Hp; now left).
      assert (B : lo <= nth d (fe_vector V) 0 <= hi) by (apply Hb; now left).
      destruct (IH ks) as [C D]; [cbn in Hl; lia|intros; apply Hp; now right|intros; apply Hb; now right|].
      rewrite !Rmult_plus_distr_l. split; apply Rplus_le_compat; try assumption.
      + rewrite Rmult_comm. apply Rmult_le_compat_l; lra.
      + rewrite (Rmult_comm hi). apply Rmult_le_compat_l; lra. }
  specialize (G dofs ls Hlen Hpos Hb). rewrite Hsum in G. lra.
Qed.
End Quantity.
