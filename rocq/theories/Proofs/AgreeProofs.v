(** Lemmas on derived quantities of unions and sums. *)
From Coq Require Import Reals ZArith List Bool Lra Lia String DecimalString.
From Verif Require Import Base.Exc Base.Key Base.Dual Model.Exports Model.Laws Model.Fields Model.Forms Model.Quantities
  Spec.BalanceSpec Spec.QuantitySpec Spec.AgreeSpec Proofs.ThetaProofs Proofs.FormProofs Proofs.KeyProofs Proofs.FieldProofs Proofs.QuantityProofs.
Import ListNotations.
Local Open Scope R_scope.
Local Open Scope string_scope.
Local Open Scope list_scope.

Section Union.
Context {P : Type}.
Implicit Types (M : mesh P) (x : context P) (q : dquantity P).

Lemma rsum_split (l : list P) (f : P -> R) (b b1 b2 : P -> bool) :
  (forall p, In p l -> b p = (b1 p || b2 p)%bool /\ (b1 p && b2 p)%bool = false) ->
  rsum (map f (filter b l)) = rsum (map f (filter b1 l)) + rsum (map f (filter b2 l)).
Proof.
  induction l as [|p l IH]; intros H; [cbn; ring|]. specialize (IH (fun p Hp => H p (or_intror Hp))).
  destruct (H p (or_introl eq_refl)) as [E1 E2]. cbn [filter]. rewrite E1.
  destruct (b1 p), (b2 p); try discriminate; cbn [orb map]; rewrite ?rsum_cons; rewrite IH; ring.
Qed.
Lemma stands_bool z1 z2 z m m' : z1 <> z2 -> stands z1 z2 z m m' ->
  Z.eqb m' z = (Z.eqb m z1 || Z.eqb m z2)%bool /\ (Z.eqb m z1 && Z.eqb m z2)%bool = false.
Proof.
  unfold stands. intros Hn H. destruct (Z.eqb_spec m z1), (Z.eqb_spec m z2), (Z.eqb_spec m' z); cbn; split; try reflexivity; try congruence; exfalso; tauto.
Qed.
Lemma united_dx M M' z1 z2 z e e' : united z1 z2 z M M' -> (forall p, e' p = e p) ->
  integral M' (Dx z) e' = integral M (Dx z1) e + integral M (Dx z2) e.
Proof.
  intros U He. pose proof U as [Hn Hc Hf Hw Hx Hd Hv Hs]. unfold integral. cbn [points]. rewrite Hc, Hw.
  rewrite (rsum_map_ext (fun p => q_weight M p * e' p) (fun p => q_weight M p * e p)) by (intros; now rewrite He).
  apply rsum_split. intros p Hp. apply stands_bool; auto.
Qed.
Lemma united_ds M M' z1 z2 z e e' : united z1 z2 z M M' -> (forall p, e' p = e p) ->
  integral M' (Ds z) e' = integral M (Ds z1) e + integral M (Ds z2) e.
Proof.
  intros U He. pose proof U as [Hn Hc Hf Hw Hx Hd Hv Hs]. unfold integral. cbn [points]. rewrite Hf, Hw.
  rewrite (rsum_map_ext (fun p => q_weight M p * e' p) (fun p => q_weight M p * e p)) by (intros; now rewrite He).
  apply rsum_split. intros p Hp. apply stands_bool; auto.
Qed.
Lemma united_weight M M' z1 z2 z k p : united z1 z2 z M M' -> one_r_r2 M' k p = one_r_r2 M k p.
Proof. intros [Hn Hc Hf Hw Hx Hd Hv Hs]. unfold one_r_r2. now rewrite Hx. Qed.

Lemma union_sum M M' V V' z1 z2 z x q v1 v2 :
  united z1 z2 z M M' -> sort_of (d_kind q) = Sum ->
  compute M V x (on z1 q) = Ok v1 -> compute M V x (on z2 q) = Ok v2 -> compute M' V' x (on z q) = Ok (v1 + v2).
Proof.
  intros U Hk. pose proof (un_dim _ _ _ _ _ U) as Hdim.
  assert (Hd : forall k e, integral M' (Dx z) (fun p => e p * one_r_r2 M' k p)
    = integral M (Dx z1) (fun p => e p * one_r_r2 M k p) + integral M (Dx z2) (fun p => e p * one_r_r2 M k p)).
  { intros k e. apply united_dx; [exact U|]. intros p. now rewrite (united_weight M M' z1 z2 z k p U). }
  assert (Hs : forall k e, integral M' (Ds z) (fun p => e p * one_r_r2 M' k p)
    = integral M (Ds z1) (fun p => e p * one_r_r2 M k p) + integral M (Ds z2) (fun p => e p * one_r_r2 M k p)).
  { intros k e. apply united_ds; [exact U|]. intros p. now rewrite (united_weight M M' z1 z2 z k p U). }
  assert (Hf : forall k prop l, flux_integral M' x prop (one_r_r2 M' k) l z
    = flux_integral M x prop (one_r_r2 M k) l z1 + flux_integral M x prop (one_r_r2 M k) l z2).
  { intros k prop l. unfold flux_integral. rewrite Hdim.
    rewrite (united_ds M M' z1 z2 z (fun p => prop p * one_r_r2 M k p * dot (q_dim M) (grd (x_function x p)) (x_n x p))
      (fun p => prop p * one_r_r2 M' k p * dot (q_dim M) (grd (x_function x p)) (x_n x p)) U)
      by (intros p; now rewrite (united_weight M M' z1 z2 z k p U)).
    destruct (x_soret x && is_solute l)%bool; [|reflexivity].
    rewrite (united_ds M M' z1 z2 z
      (fun p => prop p * one_r_r2 M k p * val (x_function x p) * x_Q x p / (k_B * val (x_T x p) ^ 2) * dot (q_dim M) (grd (x_T x p)) (x_n x p))
      (fun p => prop p * one_r_r2 M' k p * val (x_function x p) * x_Q x p / (k_B * val (x_T x p) ^ 2) * dot (q_dim M) (grd (x_T x p)) (x_n x p)) U)
      by (intros p; now rewrite (united_weight M M' z1 z2 z k p U)).
    ring. }
  assert (Ha : forall z', angle (on z' q) = angle q) by reflexivity.
  assert (Hfl : forall k, (let! prop := prop_of x (d_field q) in Ok (flux_integral M x prop (one_r_r2 M k) (d_field q) z1 * angle q)) = Ok v1 ->
    (let! prop := prop_of x (d_field q) in Ok (flux_integral M x prop (one_r_r2 M k) (d_field q) z2 * angle q)) = Ok v2 ->
    (let! prop := prop_of x (d_field q) in Ok (flux_integral M' x prop (one_r_r2 M' k) (d_field q) z * angle q)) = Ok (v1 + v2)).
  { intros k. destruct (prop_of x (d_field q)) as [prop|e]; cbn [bind]; [|discriminate]. intros H1 H2. apply Ok_inj in H1, H2. subst v1 v2.
    f_equal. rewrite Hf. ring. }
  intros H1 H2. unfold compute in *. rewrite !Ha in *. cbn [on d_kind d_id d_field d_point] in *.
  destruct (d_kind q) eqn:K; try discriminate Hk; try exact (Hfl _ H1 H2); apply Ok_inj in H1, H2; subst v1 v2; f_equal.
  all: try (rewrite Hd; ring). all: try (rewrite Hs; ring).
  apply united_ds; auto.
Qed.

Lemma union_mean M M' V V' z1 z2 z x q v1 v2 e1 e2 :
  united z1 z2 z M M' -> sort_of (d_kind q) = Mean -> proper M ->
  compute M V x (on z1 q) = Ok v1 -> compute M V x (on z2 q) = Ok v2 ->
  (let unit_total := as_kind (total_of (d_kind q)) (mkDq (d_kind q) (d_field q) z (0, 1) (0, PI / 2) (d_show q) (d_point q)) in
   compute M V (reading (fun _ => dconst 1) x) (on z1 unit_total) = Ok e1 /\
   compute M V (reading (fun _ => dconst 1) x) (on z2 unit_total) = Ok e2) ->
  e1 + e2 <> 0 /\ compute M' V' x (on z q) = Ok ((e1 * v1 + e2 * v2) / (e1 + e2)).
Proof.
  intros U Hk HM H1 H2 [E1 E2].
  assert (Hav : is_average (d_kind q) = true) by (destruct (d_kind q); (reflexivity || discriminate Hk)).
  set (w := one_r_r2 M (d_kind q)). set (mu := avg_measure (d_kind q)).
  assert (He : forall z' e', compute M V (reading (fun _ => dconst 1) x) (on z' (as_kind (total_of (d_kind q))
     (mkDq (d_kind q) (d_field q) z (0, 1) (0, PI / 2) (d_show q) (d_point q)))) = Ok e' -> e' = integral M (mu z') (fun p => 1 * w p)).
  { intros z' e'. unfold compute, mu, w, avg_measure, angle. cbn.
    destruct (d_kind q) eqn:K; try discriminate Hk; cbn; rewrite ?cos_0, ?cos_PI2; intros H; apply Ok_inj in H; subst e'; ring. }
  apply He in E1, E2. clear He.
  assert (Hp : forall z', 0 <= integral M (mu z') (fun p => 1 * w p)).
  { intros z'. rewrite <- (integral_zero M (mu z') (fun _ => 0)) by reflexivity. apply integral_le; [exact (proj1 HM)|].
    intros p _. pose proof (one_r_nonneg M (d_kind q) p HM). unfold w. lra. }
  rewrite compute_average in H1, H2 |- * by exact Hav. cbn [d_kind d_id on] in *. fold mu w in H1, H2.
  apply rdiv_ok in H1 as [N1 ->]. apply rdiv_ok in H2 as [N2 ->]. rewrite <- E1 in *. rewrite <- E2 in *.
  pose proof (Hp z1) as P1. pose proof (Hp z2) as P2. rewrite <- E1 in P1. rewrite <- E2 in P2.
  split; [lra|]. apply rdiv_ok.
  assert (G : forall e, integral M' (avg_measure (d_kind q) z) (fun p => e p * one_r_r2 M' (d_kind q) p)
    = integral M (mu z1) (fun p => e p * w p) + integral M (mu z2) (fun p => e p * w p)).
  { intros e. unfold mu, avg_measure, w. destruct (over_volume (d_kind q)).
    - apply united_dx; [exact U|]. intros p. now rewrite (united_weight M M' z1 z2 z _ p U).
    - apply united_ds; [exact U|]. intros p. now rewrite (united_weight M M' z1 z2 z _ p U). }
  rewrite (G (fun _ => 1)), (G (fun p => val (x_function x p))). cbv beta. rewrite <- E1, <- E2.
  split; [lra|]. field. repeat split; lra.
Qed.

(** Extrema succeed as soon as every entity has its nodes and there is a value. *)
Definition complete (V : fespace) (es : list nat) : Prop :=
  forall c, In c es -> exists dofs, nth_error (fe_cell_dofs V) c = Some dofs /\ forall d, In d dofs -> nth_error (fe_vector V) d <> None.
Lemma map_res_all {A B} (f : A -> res B) l : (forall a, In a l -> exists b, f a = Ok b) -> exists bs, map_res f l = Ok bs.
Proof.
  induction l as [|a l IH]; intros H; [now exists []|]. destruct (H a (or_introl eq_refl)) as [b Hb].
  destruct IH as [bs Hbs]; [intros; apply H; now right|]. exists (b :: bs). cbn [map_res]. now rewrite Hb, Hbs.
Qed.
Lemma map_res_each {A B} (f : A -> res B) l bs : map_res f l = Ok bs -> forall a, In a l -> exists b, f a = Ok b /\ In b bs.
Proof.
  intros H. apply map_res_ok in H. induction H; [intros ? []|]. intros a [<-|Ha]; [exists y; cbn; auto|].
  destruct (IHForall2 a Ha) as (b & Hb & Hi). exists b. cbn. auto.
Qed.
Lemma extremum_complete op V es r : extremum op V es = Ok r -> complete V es.
Proof.
  unfold extremum, subd_dofs. destruct (map_res (cell_dofs V) es) as [ds|] eqn:E; cbn [bind]; [|discriminate].
  intros H c Hc. destruct (map_res_each _ _ _ E c Hc) as (l & Hl & Hi).
  unfold cell_dofs in Hl. destruct (nth_error (fe_cell_dofs V) c) as [l'|] eqn:N; [|discriminate]. apply Ok_inj in Hl. subst l'.
  exists l. split; [reflexivity|]. intros d Hd.
  destruct ds as [|d0 ds0]; [destruct Hi|]. cbn [bind] in H.
  destruct (values_at V (List.concat (d0 :: ds0))) as [vs|] eqn:Ev; cbn [bind] in H; [|discriminate].
  destruct (map_res_each _ _ _ Ev d) as (b & Hb & _); [apply in_concat; exists l; auto|].
  destruct (nth_error (fe_vector V) d); [discriminate|discriminate Hb].
Qed.
Lemma extremum_exists op V es w : complete V es -> entity_value V es w -> exists r, extremum op V es = Ok r.
Proof.
  intros HC (c & dofs & d & Hc & Hd & Hi & Hw). unfold extremum, subd_dofs.
  destruct (map_res_all (cell_dofs V) es) as [ds E].
  { intros c' Hc'. destruct (HC c' Hc') as (l & Hl & _). exists l. unfold cell_dofs. now rewrite Hl. }
  rewrite E. cbn [bind].
  destruct (map_res_each _ _ _ E c Hc) as (l & Hl & Hil). unfold cell_dofs in Hl. rewrite Hd in Hl. apply Ok_inj in Hl. subst l.
  destruct ds as [|d0 ds0]; [destruct Hil|]. cbn [bind].
  destruct (map_res_all (fun d => match nth_error (fe_vector V) d with Some v => Ok v | None => Err (IndexError "index out of bounds") end)
    (List.concat (d0 :: ds0))) as [vs Ev].
  { intros d' Hd'. apply in_concat in Hd' as (l & Hl & Hdl).
    assert (HE := map_res_ok _ _ _ E).
    assert (exists c', In c' es /\ cell_dofs V c' = Ok l) as (c' & Hc' & Hcl).
    { clear - HE Hl. induction HE; [destruct Hl|]. destruct Hl as [<-|Hl]; [exists x; cbn; auto|].
      destruct (IHHE Hl) as (c' & H1 & H2). exists c'. cbn; auto. }
    destruct (HC c' Hc') as (l' & Hl' & Hn). unfold cell_dofs in Hcl. rewrite Hl' in Hcl. apply Ok_inj in Hcl. subst l'.
    specialize (Hn d' Hdl). destruct (nth_error (fe_vector V) d') as [v|]; [now exists v|congruence]. }
  unfold values_at. rewrite Ev. cbn [bind].
  destruct (map_res_each _ _ _ Ev d) as (b & _ & Hb); [apply in_concat; exists dofs; auto|].
  destruct vs as [|v vs]; [destruct Hb|]. cbn [np_extremum]. eauto.
Qed.
Lemma subset_stands z1 z2 z ms ms' : Forall2 (stands z1 z2 z) ms ms' ->
  forall c, In c (subset ms' z) <-> In c (subset ms z1) \/ In c (subset ms z2).
Proof.
  intros H c. rewrite !subset_in. revert c. induction H as [|m m' ms ms' Hm H IH]; intros [|c]; cbn [nth_error].
  - split; [discriminate|intros [E|E]; discriminate E].
  - split; [discriminate|intros [E|E]; discriminate E].
  - unfold stands in Hm. split; [intros E; injection E as E; apply Hm in E as [->| ->]; auto|].
    intros [E|E]; injection E as E; f_equal; apply Hm; auto.
  - apply IH.
Qed.
Lemma entity_value_or V es es1 es2 v : (forall c, In c es <-> In c es1 \/ In c es2) ->
  entity_value V es v <-> entity_value V es1 v \/ entity_value V es2 v.
Proof.
  intros H. unfold entity_value. split.
  - intros (c & l & d & Hc & R1). apply H in Hc as [Hc|Hc]; [left|right]; exists c, l, d; auto.
  - intros [(c & l & d & Hc & R1)|(c & l & d & Hc & R1)]; exists c, l, d; rewrite H; auto.
Qed.
Lemma entity_value_space V V' es v : fe_cell_dofs V' = fe_cell_dofs V -> fe_vector V' = fe_vector V -> entity_value V' es v <-> entity_value V es v.
Proof. intros E1 E2. unfold entity_value. now rewrite E1, E2. Qed.
Lemma extremum_or op V V' es es1 es2 v1 v2 :
  fe_cell_dofs V' = fe_cell_dofs V -> fe_vector V' = fe_vector V -> (forall c, In c es <-> In c es1 \/ In c es2) ->
  (exists w, entity_value V es1 w) ->
  extremum op V es1 = Ok v1 -> extremum op V es2 = Ok v2 -> exists r, extremum op V' es = Ok r.
Proof.
  intros E1 E2 H [w Hw] H1 H2. apply extremum_exists with (w := w).
  - apply extremum_complete in H1, H2. intros c Hc. unfold complete in *. rewrite E1, E2. apply H in Hc as [Hc|Hc]; auto.
  - apply (entity_value_space V V' es w E1 E2). apply (entity_value_or V es es1 es2 w H). now left.
Qed.
Lemma extremum_or_max V V' es es1 es2 v1 v2 :
  fe_cell_dofs V' = fe_cell_dofs V -> fe_vector V' = fe_vector V -> (forall c, In c es <-> In c es1 \/ In c es2) ->
  extremum Rmax V es1 = Ok v1 -> extremum Rmax V es2 = Ok v2 -> extremum Rmax V' es = Ok (Rmax v1 v2).
Proof.
  intros E1 E2 H H1 H2. destruct (extremum_max _ _ _ H1) as [A1 B1]. destruct (extremum_max _ _ _ H2) as [A2 B2].
  destruct (extremum_or Rmax V V' es es1 es2 v1 v2 E1 E2 H (ex_intro _ v1 A1) H1 H2) as [r Hr]. rewrite Hr. f_equal.
  destruct (extremum_max _ _ _ Hr) as [A B].
  assert (G : forall w, entity_value V' es w <-> entity_value V es1 w \/ entity_value V es2 w).
  { intros w. rewrite (entity_value_space V V' es w E1 E2). now apply entity_value_or. }
  apply Rle_antisym.
  - apply G in A as [A|A]; [apply B1 in A|apply B2 in A]; [pose proof (Rmax_l v1 v2)|pose proof (Rmax_r v1 v2)]; lra.
  - apply Rmax_lub; apply B, G; auto.
Qed.
Lemma extremum_or_min V V' es es1 es2 v1 v2 :
  fe_cell_dofs V' = fe_cell_dofs V -> fe_vector V' = fe_vector V -> (forall c, In c es <-> In c es1 \/ In c es2) ->
  extremum Rmin V es1 = Ok v1 -> extremum Rmin V es2 = Ok v2 -> extremum Rmin V' es = Ok (Rmin v1 v2).
Proof.
  intros E1 E2 H H1 H2. destruct (extremum_min _ _ _ H1) as [A1 B1]. destruct (extremum_min _ _ _ H2) as [A2 B2].
  destruct (extremum_or Rmin V V' es es1 es2 v1 v2 E1 E2 H (ex_intro _ v1 A1) H1 H2) as [r Hr]. rewrite Hr. f_equal.
  destruct (extremum_min _ _ _ Hr) as [A B].
  assert (G : forall w, entity_value V' es w <-> entity_value V es1 w \/ entity_value V es2 w).
  { intros w. rewrite (entity_value_space V V' es w E1 E2). now apply entity_value_or. }
  apply Rle_antisym.
  - apply Rmin_glb; apply B, G; auto.
  - apply G in A as [A|A]; [apply B1 in A|apply B2 in A]; [pose proof (Rmin_l v1 v2)|pose proof (Rmin_r v1 v2)]; lra.
Qed.
Lemma union_extremum M V V' z1 z2 z x q v1 v2 :
  united_space z1 z2 z V V' ->
  compute M V x (on z1 q) = Ok v1 -> compute M V x (on z2 q) = Ok v2 ->
  (sort_of (d_kind q) = Largest -> compute M V' x (on z q) = Ok (Rmax v1 v2)) /\
  (sort_of (d_kind q) = Smallest -> compute M V' x (on z q) = Ok (Rmin v1 v2)).
Proof.
  intros [Uc Uf Ud Uv] H1 H2. unfold compute in *. cbn [on d_kind d_id d_field] in *.
  split; intros K; destruct (d_kind q); try discriminate K.
  - apply (extremum_or_max V V' _ _ _ v1 v2 Ud Uv (subset_stands _ _ _ _ _ Uc) H1 H2).
  - apply (extremum_or_max V V' _ _ _ v1 v2 Ud Uv (subset_stands _ _ _ _ _ Uf) H1 H2).
  - apply (extremum_or_min V V' _ _ _ v1 v2 Ud Uv (subset_stands _ _ _ _ _ Uc) H1 H2).
  - apply (extremum_or_min V V' _ _ _ v1 v2 Ud Uv (subset_stands _ _ _ _ _ Uf) H1 H2).
Qed.

(** * Sums of species *)
Lemma compute_plus M V x q f g u v :
  is_total (d_kind q) = true \/ is_average (d_kind q) = true \/ d_kind q = PointValue ->
  compute M V (reading f x) q = Ok u -> compute M V (reading g x) q = Ok v ->
  compute M V (reading (fplus f g) x) q = Ok (u + v).
Proof.
  intros Hk.
  assert (Hi : forall m w, integral M m (fun p => val (fplus f g p) * w p)
    = integral M m (fun p => val (f p) * w p) + integral M m (fun p => val (g p) * w p)).
  { intros m w. rewrite <- integral_plus. apply integral_ext. intros p _. unfold fplus. cbn [dadd val]. ring. }
  unfold compute. cbn [reading x_function].
  assert (Hr : forall a b n, rdiv a n = Ok u -> rdiv b n = Ok v -> rdiv (a + b) n = Ok (u + v)).
  { intros a b n. unfold rdiv. destruct (Req_EM_T n 0); [discriminate|]. intros H1 H2. apply Ok_inj in H1, H2. subst. f_equal. field. assumption. }
  destruct (d_kind q) eqn:K; try (destruct Hk as [Hk|[Hk|Hk]]; discriminate Hk); rewrite ?Hi.
  all: try (apply Hr). all: try (intros H1 H2; apply Ok_inj in H1, H2; subst; f_equal; ring).
  destruct (d_point q) as [[p s]|]; [|discriminate]. intros H1 H2. apply Ok_inj in H1, H2. now subst.
Qed.
Lemma compute_zero M V x q f u :
  is_total (d_kind q) = true \/ is_average (d_kind q) = true \/ d_kind q = PointValue ->
  compute M V (reading f x) q = Ok u -> compute M V (reading fzero x) q = Ok 0.
Proof.
  intros Hk.
  assert (Hi : forall m (w : P -> R), integral M m (fun p => val (fzero p) * w p) = 0).
  { intros m w. apply integral_zero. intros p _. cbn. ring. }
  unfold compute. cbn [reading x_function].
  assert (Hr : forall a n, rdiv a n = Ok u -> rdiv 0 n = Ok 0).
  { intros a n. unfold rdiv. destruct (Req_EM_T n 0); [discriminate|]. intros _. f_equal. field. assumption. }
  destruct (d_kind q) eqn:K; try (destruct Hk as [Hk|[Hk|Hk]]; discriminate Hk); rewrite ?Hi.
  all: try (apply Hr). all: try (intros _; f_equal; ring).
  destruct (d_point q) as [[p s]|]; [|discriminate]. reflexivity.
Qed.
Lemma compute_fold M V x q : is_total (d_kind q) = true \/ is_average (d_kind q) = true \/ d_kind q = PointValue ->
  forall fs us f u, compute M V (reading f x) q = Ok u ->
  Forall2 (fun g v => compute M V (reading g x) q = Ok v) fs us ->
  compute M V (reading (fold_left fplus fs f) x) q = Ok (fold_right Rplus u us).
Proof.
  intros Hk fs us f u Hu H. revert f u Hu. induction H as [|g v fs us Hg H IH]; intros f u Hu; [exact Hu|].
  cbn [fold_left fold_right]. rewrite (IH (fplus f g) (u + v)); [|now apply compute_plus].
  f_equal. clear. induction us as [|w us IH]; cbn; [ring|]. rewrite IH. ring.
Qed.
Lemma retention_sum M V x q (mobile : P -> dual) (trap : nat -> P -> dual) (ids : list Z) f u us :
  NoDup ids ->
  is_total (d_kind q) = true \/ is_average (d_kind q) = true \/ d_kind q = PointValue ->
  let d := label_to_function fzero fplus mobile trap ids in
  dict_get d (KS "retention") = Some f ->
  (exists g, dict_get d (KS "solute") = Some g /\ compute M V (reading g x) q = Ok u) ->
  Forall2 (fun z v => exists g, dict_get d (KI z) = Some g /\ compute M V (reading g x) q = Ok v) ids us ->
  compute M V (reading f x) q = Ok (fold_right Rplus u us).
Proof.
  intros Hn Hk d Hf (g & Hg & Hu) Hus. unfold d, label_to_function in *.
  match type of Hf with context [label_entries trap 1 ids ?y] => set (d0 := y) in * end.
  assert (Hs : forall s, NilZero.int_of_string s = None -> forall z, In z ids -> ~ of_id (KS s) z).
  { intros s Hs z _ [E|E]; [discriminate|]. injection E as E. symmetry in E. revert E. now apply str_not. }
  rewrite (proj2 (label_get trap ids 1 d0 (KS "retention") Hn) (Hs "retention" eq_refl)) in Hf.
  rewrite (proj2 (label_get trap ids 1 d0 (KS "solute") Hn) (Hs "solute" eq_refl)) in Hg.
  cbn in Hg. injection Hg as <-. cbn in Hf. injection Hf as <-.
  assert (HF : Forall2 (fun g v => compute M V (reading g x) q = Ok v) (map trap (seq 1 (List.length ids))) us).
  { assert (G : forall ids' i us', (forall j z, nth_error ids' j = Some z -> dict_get (label_entries trap 1 ids d0) (KI z) = Some (trap (i + j)%nat)) ->
      Forall2 (fun z v => exists g, dict_get (label_entries trap 1 ids d0) (KI z) = Some g /\ compute M V (reading g x) q = Ok v) ids' us' ->
      Forall2 (fun g v => compute M V (reading g x) q = Ok v) (map trap (seq i (List.length ids'))) us').
    { induction ids' as [|z r IH]; intros i us' HD HF; inversion HF as [|? v ? vs Hz Hr]; subst; cbn [List.length seq map]; constructor.
      - destruct Hz as (g & Hg & Hc). rewrite (HD 0%nat z eq_refl) in Hg. injection Hg as <-. now rewrite Nat.add_0_r in Hc.
      - apply IH; [|exact Hr]. intros j z' Hj. rewrite (HD (S j) z' Hj). do 2 f_equal. lia. }
    apply G; [|exact Hus]. intros j z Hj. apply (proj1 (label_get trap ids 1 d0 (KI z) Hn) j z Hj). now left. }
  apply compute_fold; [exact Hk| |exact HF].
  replace u with (0 + u) by ring. apply compute_plus; [exact Hk| |exact Hu]. apply (compute_zero M V x q mobile u Hk Hu).
Qed.

Lemma same_flux M V x field id q :
  (make_quantity HydrogenFlux field id None None = Ok q ->
   forall l, solute_label l -> exists q', make_quantity SurfaceFlux l id None None = Ok q' /\ compute M V x q = compute M V x q') /\
  (make_quantity ThermalFlux field id None None = Ok q ->
   exists q', make_quantity SurfaceFlux (LStr "T") id None None = Ok q' /\ compute M V x q = compute M V x q').
Proof.
  unfold make_quantity. cbn [is_volume azimuth_bounds polar_bounds range_arg].
  destruct (set_id "surface" id) as [z|e]; cbn [bind]; [|split; discriminate].
  split; intros H; apply Ok_inj in H; subst q.
  - intros l Hl. eexists. split; [reflexivity|]. destruct Hl as [->|[->| ->]]; reflexivity.
  - eexists. split; [reflexivity|]. reflexivity.
Qed.

Lemma spherical_average M V x q v t e r :
  d_kind q = TotalSurfaceSpherical -> (forall p, In p (q_facets M) -> q_surface M p = d_id q -> q_x0 M p = r) ->
  compute M V x (as_kind AverageSurface q) = Ok v ->
  compute M V x q = Ok t -> compute M V (reading (fun _ => dconst 1) x) q = Ok e -> t = v * e.
Proof.
  intros K Hr. unfold compute. rewrite K. cbn [as_kind d_kind d_id reading x_function dconst val one_r_r2].
  intros Hv Ht He. apply Ok_inj in Ht, He. subst t e. apply rdiv_ok in Hv as [Hn ->].
  assert (G : forall f, integral M (Ds (d_id q)) (fun p => f p * q_x0 M p ^ 2) = r ^ 2 * integral M (Ds (d_id q)) (fun p => f p * 1)).
  { intros f. rewrite <- integral_scale. apply integral_ext. intros p Hp. cbn [points] in Hp. apply filter_In in Hp as [H1 H2].
    apply Z.eqb_eq in H2. rewrite (Hr p H1 H2). ring. }
  rewrite (G (fun p => val (x_function x p))), (G (fun _ => 1)). field. exact Hn.
Qed.
End Union.
