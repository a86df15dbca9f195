(** The description of a problem does not matter (C72). *)
From Coq Require Import Reals ZArith List Bool String Permutation FunctionalExtensionality Lra Lia.
From Verif Require Import Base.Exc Base.Dual Model.Materials Model.Exports Model.Laws Model.Theta Model.Forms Model.Quantities
  Spec.BalanceSpec Spec.NameSpec Proofs.LawProofs Proofs.ThetaProofs Proofs.FormProofs Proofs.SurfaceProofs.
Import ListNotations.
Local Open Scope string_scope.
Local Open Scope R_scope.
Local Open Scope list_scope.

(** * Other ids *)
Section Rename.
Context {P : Type}.
Variables vol surf : Z -> Z.
Hypothesis Hvol : injective vol.
Hypothesis Hsurf : injective surf.
Definition ren_measure (m : measure) : measure := match m with DxAll => DxAll | Dx z => Dx (vol z) | Ds z => Ds (surf z) end.
Definition ren_form (F : form P) : form P := map (fun i => (ren_measure (fst i), snd i)) F.
Definition ren_res (r : res (form P)) : res (form P) := let! F := r in Ok (ren_form F).
Local Notation ro := (ren_obj vol).
Local Notation rmesh := (ren_mesh vol surf).

Lemma ren_eqb (f : Z -> Z) x y : injective f -> Z.eqb (f x) (f y) = Z.eqb x y.
Proof. intros H. destruct (Z.eqb_spec x y) as [->|N]; [apply Z.eqb_refl|]. apply Z.eqb_neq. intros E. apply N, H, E. Qed.
Lemma ren_points (M : mesh P) m : points (rmesh M) (ren_measure m) = points M m.
Proof. destruct m as [|z|z]; cbn; [reflexivity| |]; apply filter_ext; intros p; now apply ren_eqb. Qed.
Lemma ren_integral (M : mesh P) m e : integral (rmesh M) (ren_measure m) e = integral M m e.
Proof. unfold integral. now rewrite ren_points. Qed.
Lemma ren_assemble (M : mesh P) F : assemble (rmesh M) (ren_form F) = assemble M F.
Proof. induction F as [|i F IH]; [reflexivity|]. cbn [ren_form map]. rewrite !assemble_cons. cbn [fst snd]. rewrite ren_integral. f_equal. exact IH. Qed.
Lemma ren_app F G : ren_form (F ++ G) = ren_form F ++ ren_form G.
Proof. apply map_app. Qed.
Lemma ren_neg F : ren_form (neg F) = neg (ren_form F).
Proof. unfold ren_form, neg. now rewrite !map_map. Qed.
Lemma ren_flat_map {A B} (g : A -> B) (f : A -> form P) (f' : B -> form P) l :
  (forall a, f' (g a) = ren_form (f a)) -> flat_map f' (map g l) = ren_form (flat_map f l).
Proof. intros H. induction l as [|a l IH]; [reflexivity|]. cbn [map flat_map]. now rewrite H, IH, ren_app. Qed.
Lemma ren_sum {A B} (g : A -> B) (f : A -> res (form P)) (f' : B -> res (form P)) l :
  (forall a, f' (g a) = ren_res (f a)) -> sum_forms f' (map g l) = ren_res (sum_forms f l).
Proof.
  intros H. induction l as [|a l IH]; [reflexivity|]. cbn [map sum_forms]. rewrite H, IH. unfold ren_res.
  destruct (f a) as [F|]; cbn [bind]; [|reflexivity]. destruct (sum_forms f l) as [G|]; cbn [bind]; [|reflexivity]. now rewrite ren_app.
Qed.
Lemma ren_sum_id {A} (f f' : A -> res (form P)) l : (forall a, f' a = ren_res (f a)) -> sum_forms f' l = ren_res (sum_forms f l).
Proof. intros H. rewrite <- (map_id l) at 1. now apply ren_sum. Qed.
Lemma ren_enum {A B} (g : A -> B) (f : nat -> A -> res (form P)) (f' : nat -> B -> res (form P)) l :
  (forall i a, f' i (g a) = ren_res (f i a)) -> forall i, sum_forms_enum f' i (map g l) = ren_res (sum_forms_enum f i l).
Proof.
  intros H. induction l as [|a l IH]; intros i; [reflexivity|]. cbn [map sum_forms_enum]. rewrite H, IH. unfold ren_res.
  destruct (f i a) as [F|]; cbn [bind]; [|reflexivity]. destruct (sum_forms_enum f (S i) l) as [G|]; cbn [bind]; [|reflexivity]. now rewrite ren_app.
Qed.
Lemma ren_ids i : ids (ren_id vol i) = map vol (ids i).
Proof. destruct i; reflexivity. Qed.
Lemma ren_dx i : dx_id (ren_id vol i) = let! z := dx_id i in Ok (vol z).
Proof. destruct i; reflexivity. Qed.

Lemma ren_marker l ms z : law_marker l (map (ren_mat vol) ms) (vol z) = law_marker l ms z.
Proof.
  unfold law_marker. f_equal. rewrite !flat_map_concat_map, map_map. f_equal. apply map_ext. intros m. cbn [ren_mat with_id m_law m_id].
  rewrite ren_ids, map_map. destruct (law_eqb (m_law m) l); [|reflexivity]. apply map_ext. intros i. now rewrite ren_eqb.
Qed.
Lemma ren_concentration (M : mesh P) mb : mobile_concentration (rmesh M) (ren_mobile vol surf mb) = mobile_concentration M mb.
Proof.
  unfold mobile_concentration. cbn [ren_mobile mb_class mb_solution]. destruct (mb_class mb) as [|S_ ms]; cbn [ren_class]; [reflexivity|].
  apply functional_extensionality. intros p. unfold theta_mobile_concentration. cbn [ren_mesh q_volume]. now rewrite !ren_marker.
Qed.
Lemma ren_get mb m (T : temperature P) : get_concentration (ren_mobile vol surf mb) (ren_mat vol m) T = get_concentration mb m T.
Proof. unfold get_concentration, check_concentration. cbn [ren_mobile mb_class]. destruct (mb_class mb); reflexivity. Qed.

Lemma ren_material (M : mesh P) mb T dt soret m :
  material_form (rmesh M) (ren_mobile vol surf mb) T dt soret (ro m) = ren_res (material_form M mb T dt soret m).
Proof.
  unfold material_form. cbn [ren_obj attrs]. rewrite ren_get.
  destruct (get_concentration mb (attrs m) T) as [c|]; cbn [bind]; [|reflexivity]. cbn [ren_mat with_id m_D0 m_ED m_Q m_id].
  destruct (float_of (Some (m_D0 (attrs m)))) as [D|]; cbn [bind]; [|reflexivity].
  destruct (float_of (Some (m_ED (attrs m)))) as [E|]; cbn [bind]; [|reflexivity].
  destruct (if soret then value_at (m_Q (attrs m)) else Ok (fun _ => 0)) as [Q|]; cbn [bind]; [|reflexivity].
  unfold ren_res. cbn [bind]. f_equal. rewrite ren_ids. apply ren_flat_map. intros z. unfold diffusion_terms. cbn [ren_mesh q_type q_x0 q_dim ren_mobile mb_test].
  destruct dt, (q_type M), soret; reflexivity.
Qed.
Lemma ren_mobile_trapping mb T t i m :
  mobile_trapping_terms (ren_mobile vol surf mb) T (ren_trap vol t) i (ro m) = ren_res (mobile_trapping_terms mb T t i m).
Proof.
  unfold mobile_trapping_terms. cbn [ren_trap t_k0 t_Ek t_p0 t_Ep t_density].
  match goal with |- bind ?x _ = _ => destruct x as [[[[[k0 Ek] p0] Ep] n]|e] end; cbn [bind]; [|reflexivity].
  cbn [ren_obj attrs]. rewrite ren_get. destruct (get_concentration mb (attrs m) T) as [c|]; cbn [bind]; [|reflexivity].
  cbn [ren_mat with_id m_id]. rewrite ren_dx. destruct (dx_id (m_id (attrs m))); reflexivity.
Qed.
Lemma ren_trapping mb T t i m :
  trapping_terms (ren_mobile vol surf mb) T (ren_trap vol t) i (ro m) = ren_res (trapping_terms mb T t i m).
Proof.
  unfold trapping_terms. cbn [ren_trap t_k0 t_Ek t_p0 t_Ep t_density].
  match goal with |- bind ?x _ = _ => destruct x as [[[[[k0 Ek] p0] Ep] n]|e] end; cbn [bind]; [|reflexivity].
  cbn [ren_obj attrs ren_mat with_id m_law m_id]. rewrite ren_get. cbn [ren_mobile mb_class].
  destruct (mb_class mb) as [|S_ l]; cbn [ren_class]; [|destruct (m_law (attrs m))]; cbn [bind]; try reflexivity;
    (destruct (get_concentration mb (attrs m) T) as [c|]; cbn [bind]; [|reflexivity]; rewrite ren_dx; destruct (dx_id (m_id (attrs m))); reflexivity).
Qed.
Lemma ren_mat_in m l : mat_in (ro m) (map ro l) = mat_in m l.
Proof. unfold mat_in. induction l as [|a l IH]; [reflexivity|]. cbn [map existsb]. now rewrite IH. Qed.
Lemma ren_bind2 r s r' s' : r' = ren_res r -> s' = ren_res s ->
  (let! F := r' in let! G := s' in Ok (F ++ G)) = ren_res (let! F := r in let! G := s in Ok (F ++ G)).
Proof. intros -> ->. destruct r as [F|]; cbn; [|reflexivity]. destruct s as [G|]; cbn; [|reflexivity]. now rewrite ren_app. Qed.
Lemma ren_trap_form mb ms T dt t :
  trap_create_form (ren_mobile vol surf mb) (map ro ms) T dt (ren_trap vol t) = ren_res (trap_create_form mb ms T dt t).
Proof.
  unfold trap_create_form. apply ren_bind2.
  - unfold create_trapping_form. apply ren_bind2.
    + destruct dt as [dt|]; [reflexivity|]. apply ren_sum. intros m. cbn [ren_trap t_materials]. rewrite ren_mat_in.
      destruct (mat_in m (t_materials t)); [reflexivity|]. cbn [ren_obj attrs ren_mat with_id m_id]. rewrite ren_dx.
      destruct (dx_id (m_id (attrs m))); reflexivity.
    + cbn [ren_trap t_materials]. apply ren_enum. intros i m. apply (ren_trapping mb T t).
  - cbn [ren_trap t_sources]. apply ren_sum. intros s. unfold trap_source_terms. cbn [ren_source s_volume s_decay s_value].
    rewrite ren_dx. destruct (dx_id (s_volume s)); reflexivity.
Qed.
Lemma ren_sources (M : mesh P) mb : create_mobile_source_form (rmesh M) (ren_mobile vol surf mb) = ren_form (create_mobile_source_form M mb).
Proof.
  unfold create_mobile_source_form. cbn [ren_mobile mb_sources]. apply ren_flat_map. intros s. unfold mobile_source_terms. cbv zeta.
  fold (ren_mobile vol surf mb). rewrite ren_concentration. cbn [ren_source s_volume s_decay s_value]. rewrite ren_ids, map_map.
  unfold ren_form. rewrite map_map. reflexivity.
Qed.
Lemma ren_fluxes (M : mesh P) mb T dt : create_fluxes_form (rmesh M) (ren_mobile vol surf mb) T dt = ren_form (create_fluxes_form M mb T dt).
Proof.
  unfold create_fluxes_form. cbn [ren_mobile mb_bcs]. apply ren_flat_map. intros b. unfold flux_terms. cbv zeta.
  fold (ren_mobile vol surf mb). rewrite ren_concentration. destruct b as [[|] l f|s]; cbn [ren_bc].
  - reflexivity.
  - unfold ren_form. rewrite !map_map. reflexivity.
  - cbn [ren_sk sk_adsorbed]. apply ren_flat_map. intros a. destruct dt; reflexivity.
Qed.
Lemma ren_define (M : mesh P) mb ms T dt traps soret :
  define_variational_problem (rmesh M) (ren_mobile vol surf mb) (map ro ms) T dt (map (ren_trap vol) traps) soret
  = ren_res (define_variational_problem M mb ms T dt traps soret).
Proof.
  unfold define_variational_problem. apply ren_bind2.
  - unfold mobile_create_form, create_diffusion_form.
    rewrite (ren_sum ro (material_form M mb T dt soret)) by (intros; apply ren_material).
    rewrite (ren_sum (ren_trap vol) (fun t => sum_forms_enum (mobile_trapping_terms mb T t) 0 (t_materials t))).
    + unfold ren_res.
      destruct (sum_forms (material_form M mb T dt soret) ms) as [F|]; cbn [bind]; [|reflexivity].
      match goal with |- bind (bind (bind ?x _) _) _ = _ => destruct x as [G|] end; cbn [bind]; [|reflexivity].
      now rewrite !ren_app, ren_neg, ren_sources, ren_fluxes.
    + intros t. cbn [ren_trap t_materials]. apply ren_enum. intros i m. apply (ren_mobile_trapping mb T t).
  - apply ren_sum. intros t. apply ren_trap_form.
Qed.

Lemma ren_heat (M : mesh P) tr dt T Tn v ms sources bcs :
  heat_form (rmesh M) tr dt T Tn v (map ro ms) (map (ren_source vol) sources) (map (fun b => (map surf (fst b), snd b)) bcs)
  = ren_res (heat_form M tr dt T Tn v ms sources bcs).
Proof.
  unfold heat_form. rewrite (ren_sum ro (heat_material_form M tr dt T Tn v)).
  - unfold ren_res at 1. destruct (sum_forms (heat_material_form M tr dt T Tn v) ms) as [F|]; cbn [bind]; [|reflexivity].
    rewrite (ren_sum (fun b : list Z * flux P => (map surf (fst b), snd b))
       (fun b => let! g := heat_flux_form (snd b) T in Ok (map (fun surf => (Ds surf, fun p => - g p * val (v p))) (fst b)))).
    + unfold ren_res at 1. match goal with |- bind (bind ?x _) _ = _ => destruct x as [G|] end; cbn [bind]; [|reflexivity].
      unfold ren_res. cbn [bind]. f_equal. rewrite !ren_app. f_equal. f_equal. apply ren_flat_map. intros s.
      cbn [ren_source s_volume s_value]. rewrite ren_ids, map_map. unfold ren_form. rewrite map_map. reflexivity.
    + intros [l f]. cbn [fst snd]. destruct (heat_flux_form f T) as [g|]; cbn [bind]; [|reflexivity]. unfold ren_res. cbn [bind]. f_equal.
      unfold ren_form. rewrite !map_map. reflexivity.
  - intros m. unfold heat_material_form. cbn [ren_obj attrs ren_mat with_id m_thermal m_heat m_rho m_id].
    destruct (value_at (m_thermal (attrs m))) as [k|]; cbn [bind]; [|reflexivity]. rewrite ren_ids, !map_map. cbn [ren_mesh q_type q_x0 q_dim].
    assert (E : map (fun x => match q_type M with
             | Cartesian => (Dx (vol x), fun p => dot (q_dim M) (fun i => k (val (T p)) * grd (T p) i) (grd (v p)))
             | Cylindrical => (Dx (vol x), fun p => val (dcoord0 (q_x0 M p)) * dot (q_dim M) (fun i => k (val (T p)) * grd (T p) i)
                                                 (grd (ddiv (v p) (dcoord0 (q_x0 M p)))))
             | Spherical => (Dx (vol x), fun p => k (val (T p)) * val (dcoord0 (q_x0 M p)) * val (dcoord0 (q_x0 M p))
                                   * dot (q_dim M) (grd (T p)) (grd (ddiv (ddiv (v p) (dcoord0 (q_x0 M p))) (dcoord0 (q_x0 M p)))))
             end) (ids (m_id (attrs m)))
             = ren_form (map (fun x => match q_type M with
             | Cartesian => (Dx x, fun p => dot (q_dim M) (fun i => k (val (T p)) * grd (T p) i) (grd (v p)))
             | Cylindrical => (Dx x, fun p => val (dcoord0 (q_x0 M p)) * dot (q_dim M) (fun i => k (val (T p)) * grd (T p) i)
                                                 (grd (ddiv (v p) (dcoord0 (q_x0 M p)))))
             | Spherical => (Dx x, fun p => k (val (T p)) * val (dcoord0 (q_x0 M p)) * val (dcoord0 (q_x0 M p))
                                   * dot (q_dim M) (grd (T p)) (grd (ddiv (ddiv (v p) (dcoord0 (q_x0 M p))) (dcoord0 (q_x0 M p)))))
             end) (ids (m_id (attrs m))))).
    { unfold ren_form. rewrite map_map. apply map_ext. intros z. destruct (q_type M); reflexivity. }
    cbv zeta. rewrite E. destruct tr; cbn [bind].
    + destruct (value_at (m_heat (attrs m))); cbn [bind]; [|reflexivity]. destruct (value_at (m_rho (attrs m))); cbn [bind]; [|reflexivity].
      unfold ren_res. cbn [bind]. rewrite ren_app. f_equal. f_equal. unfold ren_form. rewrite !map_map. reflexivity.
    + unfold ren_res. cbn [bind]. reflexivity.
Qed.

Lemma ren_subset_from f i l z : injective f -> subset_from i (map f l) (f z) = subset_from i l z.
Proof.
  intros Hf. revert i. induction l as [|a l IH]; intros i; [reflexivity|]. cbn [map subset_from]. rewrite ren_eqb by exact Hf. now rewrite !IH.
Qed.
Lemma ren_extremum op (V : fespace) l : extremum op (ren_space vol surf V) l = extremum op V l.
Proof. reflexivity. Qed.
Lemma ren_compute (M : mesh P) V x q : compute (rmesh M) (ren_space vol surf V) x (ren_quantity vol surf q) = compute M V x q.
Proof.
  assert (Iv : forall z e, integral (rmesh M) (Dx (vol z)) e = integral M (Dx z) e) by (intros z e; apply (ren_integral M (Dx z))).
  assert (Is : forall z e, integral (rmesh M) (Ds (surf z)) e = integral M (Ds z) e) by (intros z e; apply (ren_integral M (Ds z))).
  unfold compute. cbv zeta. destruct q as [k f z az po sh pt]. cbn [ren_quantity d_kind d_field d_id d_azimuth d_polar d_point].
  unfold flux_integral, subset, angle. cbn [d_kind d_azimuth d_polar].
  destruct k; cbn [is_volume]; rewrite ?Iv, ?Is, ?ren_extremum; cbn [ren_space fe_cell_markers fe_facet_markers]; rewrite ?ren_subset_from by assumption;
    try reflexivity;
    destruct (prop_of x f); cbn [bind]; try reflexivity; destruct (x_soret x && is_solute f)%bool; rewrite ?Is; reflexivity.
Qed.
End Rename.

(** * Another order *)
Section Reorder.
Context {P : Type}.
Implicit Types (M : mesh P) (F G : form P).
Definition pm (r r' : res (form P)) : Prop :=
  match r, r' with Ok F, Ok F' => Permutation F F' | Err _, Err _ => True | _, _ => False end.

Lemma rsum_perm (l l' : list R) : Permutation l l' -> rsum l = rsum l'.
Proof. induction 1; rewrite ?rsum_cons; try lra. Qed.
Lemma assemble_perm M F F' : Permutation F F' -> assemble M F' = assemble M F.
Proof. intros H. unfold assemble. symmetry. apply rsum_perm, Permutation_map, H. Qed.
Lemma pm_agree M r r' : pm r r' -> agree M M r r'.
Proof. destruct r, r'; cbn; auto. apply assemble_perm. Qed.
Lemma pm_refl r : pm r r.
Proof. destruct r; cbn; auto. Qed.
Lemma pm_eq r r' : r = r' -> pm r r'.
Proof. intros ->. apply pm_refl. Qed.
Lemma pm_trans a b c : pm a b -> pm b c -> pm a c.
Proof. destruct a, b, c; cbn; try tauto. apply Permutation_trans. Qed.
Lemma pm_bind2 r r' s s' : pm r r' -> pm s s' -> pm (let! F := r in let! G := s in Ok (F ++ G)) (let! F := r' in let! G := s' in Ok (F ++ G)).
Proof. destruct r, r', s, s'; cbn; try tauto. apply Permutation_app. Qed.
Lemma pm_sum {A B} (f : A -> res (form P)) (g : B -> res (form P)) l l' :
  Forall2 (fun a b => pm (f a) (g b)) l l' -> pm (sum_forms f l) (sum_forms g l').
Proof. induction 1 as [|a b l l' H _ IH]; cbn [sum_forms]; [constructor|]. now apply pm_bind2. Qed.
Lemma pm_sum_ext {A} (f g : A -> res (form P)) l : (forall a, pm (f a) (g a)) -> pm (sum_forms f l) (sum_forms g l).
Proof. intros H. apply pm_sum. induction l; constructor; auto. Qed.
Lemma pm_perm {A} (f : A -> res (form P)) l l' : Permutation l l' -> pm (sum_forms f l) (sum_forms f l').
Proof.
  induction 1 as [|a l l' _ IH|a b l|l l' l'' _ IH1 _ IH2]; cbn [sum_forms].
  - constructor.
  - apply pm_bind2; [apply pm_refl|exact IH].
  - destruct (f a) as [F|], (f b) as [G|], (sum_forms f l) as [H|]; cbn; auto. rewrite !app_assoc. apply Permutation_app_tail, Permutation_app_comm.
  - now apply pm_trans with (sum_forms f l').
Qed.
Lemma pm_reordered {A} (rel : A -> A -> Prop) (f g : A -> res (form P)) l l' :
  reordered rel l l' -> (forall a b, rel a b -> pm (f a) (g b)) -> pm (sum_forms f l) (sum_forms g l').
Proof.
  intros [k [H1 H2]] H. apply pm_trans with (sum_forms f k); [now apply pm_perm|]. clear H1. apply pm_sum. induction H2; constructor; auto.
Qed.
Lemma flat_reordered {A} (rel : A -> A -> Prop) (f g : A -> form P) l l' :
  reordered rel l l' -> (forall a b, rel a b -> Permutation (f a) (g b)) -> Permutation (flat_map f l) (flat_map g l').
Proof.
  intros [k [H1 H2]] H. apply Permutation_trans with (flat_map f k); [now apply Permutation_flat_map|].
  clear H1. induction H2 as [|a b k l' Hab _ IH]; cbn; [constructor|]. apply Permutation_app; auto.
Qed.
Lemma neg_perm F F' : Permutation F F' -> Permutation (neg F) (neg F').
Proof. apply Permutation_map. Qed.

(** Enumerations whose body does not depend on the position, or reads the row. *)
Lemma enum_const {A} (f : nat -> A -> res (form P)) (g : A -> res (form P)) l : (forall i a, f i a = g a) ->
  forall i, sum_forms_enum f i l = sum_forms g l.
Proof. intros H. induction l as [|a l IH]; intros i; [reflexivity|]. cbn. now rewrite H, IH. Qed.
Lemma enum_rows {A B} (f : nat -> A -> res (form P)) (g : B -> res (form P)) (h : B -> A) (rows : list B) :
  (forall i r, nth_error rows i = Some r -> f i (h r) = g r) -> sum_forms_enum f 0 (map h rows) = sum_forms g rows.
Proof.
  intros H. assert (K : forall l k, (forall i r, nth_error l i = Some r -> f (k + i)%nat (h r) = g r) -> sum_forms_enum f k (map h l) = sum_forms g l).
  { induction l as [|r l IH]; intros k Hk; [reflexivity|]. cbn [map sum_forms_enum sum_forms].
    rewrite <- (Nat.add_0_r k) at 1. rewrite (Hk 0%nat r eq_refl). rewrite (IH (S k)); [reflexivity|].
    intros i r' Hi. rewrite <- (Hk (S i) r' Hi). f_equal. lia. }
  apply (K rows 0%nat). exact H.
Qed.

Section Mobile.
Variables mb mb' : mobile P.
Hypothesis Hmb : mobile_reordered mb mb'.
Lemma marker_perm l ms ms' z : Permutation ms ms' -> law_marker l ms z = law_marker l ms' z.
Proof. intros H. apply rsum_perm, Permutation_flat_map, H. Qed.
Lemma reorder_concentration M : mobile_concentration M mb' = mobile_concentration M mb.
Proof.
  destruct Hmb as (Hc & Hs & _). unfold mobile_concentration. rewrite Hs. destruct (mb_class mb) as [|S_ ms], (mb_class mb') as [|S' ms'];
    cbn in Hc; try contradiction; [reflexivity|]. destruct Hc as [-> Hp]. apply functional_extensionality. intros p.
  unfold theta_mobile_concentration. now rewrite <- !(marker_perm _ ms ms' _ Hp).
Qed.
Lemma reorder_get m T : get_concentration mb' m T = get_concentration mb m T.
Proof.
  destruct Hmb as (Hc & Hs & Hp & _). unfold get_concentration, check_concentration. rewrite Hs, Hp.
  destruct (mb_class mb), (mb_class mb'); cbn in Hc; try contradiction; reflexivity.
Qed.
Lemma reorder_test : mb_test mb' = mb_test mb.
Proof. apply Hmb. Qed.
Lemma reorder_material M T dt soret m : material_form M mb' T dt soret m = material_form M mb T dt soret m.
Proof. unfold material_form. now rewrite reorder_get, reorder_test. Qed.
Lemma reorder_mobile_trapping T t i m : mobile_trapping_terms mb' T t i m = mobile_trapping_terms mb T t i m.
Proof. unfold mobile_trapping_terms. now rewrite reorder_get, reorder_test. Qed.
Lemma reorder_trapping T t i m : trapping_terms mb' T t i m = trapping_terms mb T t i m.
Proof.
  unfold trapping_terms. rewrite reorder_get. destruct Hmb as (Hc & _).
  destruct (mb_class mb), (mb_class mb'); cbn in Hc; try contradiction; reflexivity.
Qed.

Lemma reorder_mobile_traps T t t' : trap_reordered t t' ->
  pm (sum_forms_enum (mobile_trapping_terms mb T t) 0 (t_materials t)) (sum_forms_enum (mobile_trapping_terms mb' T t') 0 (t_materials t')).
Proof.
  destruct 1 as [k Ek p Ep n ms ms' u un v ss ss' Hm Hs|rows rows' u un v ss ss' Hr Hs]; cbn [t_materials trap_of].
  - rewrite (enum_const _ (mobile_trapping_terms mb T (mkTrap (Scalar k) Ek p Ep n ms u un v ss) 0)) by (intros; reflexivity).
    rewrite (enum_const _ (mobile_trapping_terms mb T (mkTrap (Scalar k) Ek p Ep n ms u un v ss) 0)) by (intros; rewrite reorder_mobile_trapping; reflexivity).
    now apply pm_perm.
  - set (g := fun r : row P => mobile_trapping_terms mb T (trap_of [r] u un v ss) 0 (r_m r)).
    rewrite (enum_rows _ g r_m rows), (enum_rows _ g r_m rows'); [now apply pm_perm| |].
    + intros i r Hi. rewrite reorder_mobile_trapping. unfold g, mobile_trapping_terms, index, arg_index, index. cbn [trap_of t_k0 t_Ek t_p0 t_Ep t_density t_solution map nth_error].
      rewrite !nth_error_map, Hi. reflexivity.
    + intros i r Hi. unfold g, mobile_trapping_terms, index, arg_index, index. cbn [trap_of t_k0 t_Ek t_p0 t_Ep t_density t_solution map nth_error].
      rewrite !nth_error_map, Hi. reflexivity.
Qed.
Lemma reorder_trap_traps T t t' : trap_reordered t t' ->
  pm (sum_forms_enum (trapping_terms mb T t) 0 (t_materials t)) (sum_forms_enum (trapping_terms mb' T t') 0 (t_materials t')).
Proof.
  destruct 1 as [k Ek p Ep n ms ms' u un v ss ss' Hm Hs|rows rows' u un v ss ss' Hr Hs]; cbn [t_materials trap_of].
  - rewrite (enum_const _ (trapping_terms mb T (mkTrap (Scalar k) Ek p Ep n ms u un v ss) 0)) by (intros; reflexivity).
    rewrite (enum_const _ (trapping_terms mb T (mkTrap (Scalar k) Ek p Ep n ms u un v ss) 0)) by (intros; rewrite reorder_trapping; reflexivity).
    now apply pm_perm.
  - set (g := fun r : row P => trapping_terms mb T (trap_of [r] u un v ss) 0 (r_m r)).
    rewrite (enum_rows _ g r_m rows), (enum_rows _ g r_m rows'); [now apply pm_perm| |].
    + intros i r Hi. rewrite reorder_trapping. unfold g, trapping_terms, index, arg_index, index. cbn [trap_of t_k0 t_Ek t_p0 t_Ep t_density t_solution t_test map nth_error].
      rewrite !nth_error_map, Hi. reflexivity.
    + intros i r Hi. unfold g, trapping_terms, index, arg_index, index. cbn [trap_of t_k0 t_Ek t_p0 t_Ep t_density t_solution t_test map nth_error].
      rewrite !nth_error_map, Hi. reflexivity.
Qed.
Lemma mat_in_perm m l l' : Permutation l l' -> mat_in m l = mat_in m l'.
Proof.
  intros H. unfold mat_in. apply eq_iff_eq_true. rewrite !existsb_exists.
  split; intros [x [Hx E]]; exists x; (split; [|exact E]); [now apply (Permutation_in x H)|]. apply Permutation_sym in H. now apply (Permutation_in x H).
Qed.
Lemma reorder_fields (t t' : trap P) : trap_reordered t t' ->
  t_solution t' = t_solution t /\ t_previous t' = t_previous t /\ t_test t' = t_test t /\ Permutation (t_materials t) (t_materials t') /\
  Permutation (t_sources t) (t_sources t').
Proof.
  destruct 1; cbn; repeat split; auto. now apply Permutation_map.
Qed.
Lemma reorder_trap_form ms ms' T dt t t' : Permutation ms ms' -> trap_reordered t t' ->
  pm (trap_create_form mb ms T dt t) (trap_create_form mb' ms' T dt t').
Proof.
  intros Hms Ht. destruct (reorder_fields t t' Ht) as (H1 & H2 & H3 & H4 & H5). unfold trap_create_form. apply pm_bind2.
  - unfold create_trapping_form. apply pm_bind2.
    + rewrite H1, H2, H3. destruct dt as [dt|]; [apply pm_refl|]. eapply pm_trans; [apply pm_perm, Hms|].
      apply pm_sum_ext. intros m. rewrite (mat_in_perm m _ _ H4). apply pm_refl.
    + now apply reorder_trap_traps.
  - eapply pm_trans; [apply pm_perm, H5|]. apply pm_sum_ext. intros s. unfold trap_source_terms. rewrite H1, H3. apply pm_refl.
Qed.
Lemma reorder_sources M : Permutation (create_mobile_source_form M mb) (create_mobile_source_form M mb').
Proof.
  unfold create_mobile_source_form. apply Permutation_trans with (flat_map (mobile_source_terms M mb) (mb_sources mb')).
  - apply Permutation_flat_map. apply Hmb.
  - erewrite flat_map_ext; [apply Permutation_refl|]. intros s. unfold mobile_source_terms. now rewrite reorder_concentration, reorder_test.
Qed.
Lemma reorder_fluxes M T dt : Permutation (create_fluxes_form M mb T dt) (create_fluxes_form M mb' T dt).
Proof.
  unfold create_fluxes_form. apply (flat_reordered bc_reordered); [apply Hmb|]. intros a b H. unfold flux_terms. cbv zeta.
  rewrite reorder_concentration, reorder_test. destruct Hmb as (_ & _ & -> & _).
  destruct H as [ft l l' f Hl|k1 k2 J la ns ni l l' Hl].
  - destruct ft; [constructor|]. now apply Permutation_map.
  - cbn [sk_adsorbed]. match goal with |- Permutation (flat_map ?f l) _ => change (Permutation (flat_map f l) (flat_map f l')) end. now apply Permutation_flat_map.
Qed.
Lemma reorder_define M ms ms' T dt traps traps' soret : Permutation ms ms' -> reordered trap_reordered traps traps' ->
  pm (define_variational_problem M mb ms T dt traps soret) (define_variational_problem M mb' ms' T dt traps' soret).
Proof.
  intros Hms Ht. unfold define_variational_problem. apply pm_bind2.
  - unfold mobile_create_form, create_diffusion_form.
    assert (A : pm (sum_forms (material_form M mb T dt soret) ms) (sum_forms (material_form M mb' T dt soret) ms')).
    { eapply pm_trans; [apply pm_perm, Hms|]. apply pm_sum_ext. intros m. rewrite reorder_material. apply pm_refl. }
    assert (B : pm (sum_forms (fun t => sum_forms_enum (mobile_trapping_terms mb T t) 0 (t_materials t)) traps)
                   (sum_forms (fun t => sum_forms_enum (mobile_trapping_terms mb' T t) 0 (t_materials t)) traps')).
    { apply (pm_reordered trap_reordered); [exact Ht|]. intros a b. apply reorder_mobile_traps. }
    assert (C := reorder_sources M). assert (D := reorder_fluxes M T dt).
    destruct (sum_forms (material_form M mb T dt soret) ms) as [F|], (sum_forms (material_form M mb' T dt soret) ms') as [F'|]; cbn in A; try contradiction; cbn [bind]; [|exact I].
    match type of B with pm ?x ?y => destruct x as [G|], y as [G'|] end; cbn in B; try contradiction; cbn [bind]; [|exact I].
    cbn [pm]. apply Permutation_app; [apply Permutation_app; [exact A|apply neg_perm, B]|]. now apply Permutation_app.
  - apply (pm_reordered trap_reordered); [exact Ht|]. intros a b. now apply reorder_trap_form.
Qed.
End Mobile.

Lemma reorder_heat M tr dt T Tn v ms ms' sources sources' bcs bcs' :
  Permutation ms ms' -> Permutation sources sources' -> reordered (fun b b' => Permutation (fst b) (fst b') /\ snd b' = snd b) bcs bcs' ->
  pm (heat_form M tr dt T Tn v ms sources bcs) (heat_form M tr dt T Tn v ms' sources' bcs').
Proof.
  intros Hm Hs Hb. unfold heat_form.
  assert (A := pm_perm (heat_material_form M tr dt T Tn v) ms ms' Hm).
  match goal with |- pm (bind _ (fun F => bind (sum_forms ?f bcs) _)) _ => assert (B : pm (sum_forms f bcs) (sum_forms f bcs')) end.
  { apply (pm_reordered _ _ _ _ _ Hb). intros [l f] [l' f'] [H E]. cbn in H, E. subst f'. cbn [fst snd].
    destruct (heat_flux_form f T); cbn; [|exact I]. now apply Permutation_map. }
  destruct (sum_forms (heat_material_form M tr dt T Tn v) ms) as [F|], (sum_forms (heat_material_form M tr dt T Tn v) ms') as [F'|]; cbn in A; try contradiction; cbn [bind]; [|exact I].
  match type of B with pm ?x ?y => destruct x as [G|], y as [G'|] end; cbn in B; try contradiction; cbn [bind]; [|exact I].
  cbn [pm]. apply Permutation_app; [exact A|]. apply Permutation_app; [|exact B]. now apply Permutation_flat_map.
Qed.

(** * One per id *)
Lemma split_marker l ms z : law_marker l (flat_map split_mat ms) z = law_marker l ms z.
Proof.
  unfold law_marker. f_equal. induction ms as [|m ms IH]; [reflexivity|]. cbn [flat_map]. rewrite flat_map_app. f_equal; [|exact IH].
  unfold split_mat. induction (ids (m_id m)) as [|i k IH']; [destruct (law_eqb (m_law m) l); reflexivity|].
  cbn [map flat_map with_id m_law m_id ids]. rewrite IH'. destruct (law_eqb (m_law m) l); reflexivity.
Qed.
Lemma split_concentration M (mb : mobile P) : mobile_concentration M (split_mobile mb) = mobile_concentration M mb.
Proof.
  unfold mobile_concentration. cbn [split_mobile mb_class mb_solution]. destruct (mb_class mb) as [|S_ ms]; cbn [split_class]; [reflexivity|].
  apply functional_extensionality. intros p. unfold theta_mobile_concentration. now rewrite !split_marker.
Qed.
Lemma split_get (mb : mobile P) m T : get_concentration (split_mobile mb) m T = get_concentration mb m T.
Proof. unfold get_concentration, check_concentration. cbn [split_mobile mb_class]. destruct (mb_class mb); reflexivity. Qed.
Lemma flat_map_flat_map {A B C} (f : A -> list B) (g : B -> list C) l : flat_map g (flat_map f l) = flat_map (fun a => flat_map g (f a)) l.
Proof. induction l as [|a l IH]; [reflexivity|]. cbn. now rewrite flat_map_app, IH. Qed.
Lemma flat_map_single {A B} (f : A -> B) l : flat_map (fun a => [f a]) l = map f l.
Proof. induction l as [|a l IH]; [reflexivity|]. cbn. now rewrite IH. Qed.
Lemma split_sources M (mb : mobile P) : create_mobile_source_form M (split_mobile mb) = create_mobile_source_form M mb.
Proof.
  unfold create_mobile_source_form. cbn [split_mobile mb_sources]. rewrite flat_map_flat_map. apply flat_map_ext. intros s.
  unfold split_source. rewrite flat_map_concat_map, map_map, <- flat_map_concat_map. unfold mobile_source_terms. cbv zeta.
  fold (split_mobile mb). rewrite split_concentration. cbn [s_decay s_value s_volume ids map split_mobile mb_test]. apply (flat_map_single (fun z => _)).
Qed.
Lemma split_fluxes M (mb : mobile P) T dt : create_fluxes_form M (split_mobile mb) T dt = create_fluxes_form M mb T dt.
Proof.
  unfold create_fluxes_form. cbn [split_mobile mb_bcs]. rewrite flat_map_flat_map. apply flat_map_ext. intros b.
  unfold flux_terms. cbv zeta. fold (split_mobile mb). rewrite split_concentration. cbn [split_mobile mb_test mb_previous].
  destruct b as [[|] l f|s]; cbn [split_bc]; rewrite flat_map_concat_map, map_map, <- flat_map_concat_map.
  - induction l; auto.
  - cbn [map]. apply (flat_map_single (fun z => _)).
  - cbn [sk_adsorbed]. apply flat_map_ext. intros a. cbn [flat_map]. apply app_nil_r.
Qed.
Lemma sum_forms_app {A} (f : A -> res (form P)) l l' :
  sum_forms f (l ++ l') = let! F := sum_forms f l in let! G := sum_forms f l' in Ok (F ++ G).
Proof.
  induction l as [|a l IH]; cbn [app sum_forms].
  - cbn [bind]. destruct (sum_forms f l'); reflexivity.
  - rewrite IH. destruct (f a); cbn [bind]; [|reflexivity]. destruct (sum_forms f l); cbn [bind]; [|reflexivity].
    destruct (sum_forms f l'); cbn [bind]; [|reflexivity]. now rewrite app_assoc.
Qed.
Lemma split_material M (mb : mobile P) T dt soret m : ids (m_id (attrs m)) <> [] ->
  sum_forms (material_form M (split_mobile mb) T dt soret) (split_obj m) = material_form M mb T dt soret m.
Proof.
  intros Hn. unfold split_obj, split_mat. rewrite map_map. unfold material_form at 2.
  assert (E : forall z, material_form M (split_mobile mb) T dt soret (mkMatObj (uid m) (with_id (attrs m) (IdOne z)))
    = let! c := get_concentration mb (attrs m) T in let! D_0 := float_of (Some (m_D0 (attrs m))) in let! E_D := float_of (Some (m_ED (attrs m))) in
      let! Q := (if soret then value_at (m_Q (attrs m)) else Ok (fun _ => 0)) in
      Ok (diffusion_terms M soret D_0 E_D Q (fst c) (snd c) (mb_test mb) (T_T T) dt z)).
  { intros z. unfold material_form. cbn [attrs]. rewrite split_get.
    replace (get_concentration mb (with_id (attrs m) (IdOne z)) T) with (get_concentration mb (attrs m) T) by reflexivity.
    cbn [with_id m_D0 m_ED m_Q m_id ids flat_map split_mobile mb_test].
    destruct (get_concentration mb (attrs m) T); cbn [bind]; [|reflexivity]. destruct (float_of (Some (m_D0 (attrs m)))); cbn [bind]; [|reflexivity].
    destruct (float_of (Some (m_ED (attrs m)))); cbn [bind]; [|reflexivity].
    destruct (if soret then value_at (m_Q (attrs m)) else Ok (fun _ => 0)); cbn [bind]; [|reflexivity]. now rewrite app_nil_r. }
  destruct (ids (m_id (attrs m))) as [|z l]; [congruence|]. clear Hn.
  destruct (get_concentration mb (attrs m) T) as [c|] eqn:E1; cbn [bind] in *; [|cbn [map sum_forms]; now rewrite E].
  destruct (float_of (Some (m_D0 (attrs m)))) as [D|] eqn:E2; cbn [bind] in *; [|cbn [map sum_forms]; now rewrite E].
  destruct (float_of (Some (m_ED (attrs m)))) as [ED|] eqn:E3; cbn [bind] in *; [|cbn [map sum_forms]; now rewrite E].
  destruct (if soret then value_at (m_Q (attrs m)) else Ok (fun _ => 0)) as [Q|]; cbn [bind] in *; [|cbn [map sum_forms]; now rewrite E].
  induction (z :: l) as [|y k IH]; [reflexivity|]. cbn [map sum_forms flat_map]. rewrite E. cbn [bind]. rewrite IH. reflexivity.
Qed.
Lemma split_sum {A} (f g : A -> res (form P)) (h : A -> list A) l : (forall a, In a l -> sum_forms f (h a) = g a) ->
  sum_forms f (flat_map h l) = sum_forms g l.
Proof.
  induction l as [|a l IH]; intros H; [reflexivity|]. cbn [flat_map sum_forms]. rewrite sum_forms_app, (H a (or_introl eq_refl)).
  rewrite IH; [reflexivity|]. intros b Hb. apply H. now right.
Qed.
Lemma sum_forms_ext {A} (f g : A -> res (form P)) l : (forall a, f a = g a) -> sum_forms f l = sum_forms g l.
Proof. intros H. induction l as [|a l IH]; [reflexivity|]. cbn. now rewrite H, IH. Qed.
Lemma enum_ext {A} (f g : nat -> A -> res (form P)) l : (forall i a, f i a = g i a) -> forall i, sum_forms_enum f i l = sum_forms_enum g i l.
Proof. intros H. induction l as [|a l IH]; intros i; [reflexivity|]. cbn. now rewrite H, IH. Qed.

Lemma split_define M mb ms T dt traps soret : (forall m, In m ms -> ids (m_id (attrs m)) <> []) -> (dt <> None \/ traps = []) ->
  define_variational_problem M (split_mobile mb) (flat_map split_obj ms) T dt traps soret = define_variational_problem M mb ms T dt traps soret.
Proof.
  intros Hn Hd. unfold define_variational_problem, mobile_create_form, create_diffusion_form.
  rewrite (split_sum _ (material_form M mb T dt soret) split_obj ms) by (intros m Hm; apply split_material, Hn, Hm).
  rewrite split_sources, split_fluxes.
  rewrite (sum_forms_ext (fun t => sum_forms_enum (mobile_trapping_terms (split_mobile mb) T t) 0 (t_materials t))
             (fun t => sum_forms_enum (mobile_trapping_terms mb T t) 0 (t_materials t))).
  2:{ intros t. apply enum_ext. intros i m. unfold mobile_trapping_terms. now rewrite split_get. }
  assert (E : sum_forms (trap_create_form (split_mobile mb) (flat_map split_obj ms) T dt) traps = sum_forms (trap_create_form mb ms T dt) traps).
  { destruct Hd as [Hd| ->]; [|reflexivity]. destruct dt as [dt|]; [|congruence]. apply sum_forms_ext. intros t.
    unfold trap_create_form, create_trapping_form.
    rewrite (enum_ext (trapping_terms (split_mobile mb) T t) (trapping_terms mb T t)); [reflexivity|].
    intros i m. unfold trapping_terms. rewrite split_get. cbn [split_mobile mb_class]. destruct (mb_class mb); reflexivity. }
  now rewrite E.
Qed.

(** Heat: the storage terms of all volumes of a material come before its conduction terms. *)
Lemma split_heat_material M tr dt (T Tn v : field P) m : ids (m_id (attrs m)) <> [] ->
  pm (sum_forms (heat_material_form M tr dt T Tn v) (split_obj m)) (heat_material_form M tr dt T Tn v m).
Proof.
  intros Hn. unfold split_obj, split_mat. rewrite map_map. unfold heat_material_form at 2. cbv zeta.
  set (K := fun (k : R -> R) vol => match q_type M with
             | Cartesian => (Dx vol, fun p => dot (q_dim M) (fun i => k (val (T p)) * grd (T p) i) (grd (v p)))
             | Cylindrical => (Dx vol, fun p => val (dcoord0 (q_x0 M p)) * dot (q_dim M) (fun i => k (val (T p)) * grd (T p) i)
                                                 (grd (ddiv (v p) (dcoord0 (q_x0 M p)))))
             | Spherical => (Dx vol, fun p => k (val (T p)) * val (dcoord0 (q_x0 M p)) * val (dcoord0 (q_x0 M p))
                                   * dot (q_dim M) (grd (T p)) (grd (ddiv (ddiv (v p) (dcoord0 (q_x0 M p))) (dcoord0 (q_x0 M p)))))
             end).
  set (S_ := fun (rho cp : R -> R) (vol : Z) => (Dx vol, fun p => rho (val (T p)) * cp (val (T p)) * (val (T p) - val (Tn p)) / dt * val (v p))).
  assert (E : forall z, heat_material_form M tr dt T Tn v (mkMatObj (uid m) (with_id (attrs m) (IdOne z)))
    = let! k := value_at (m_thermal (attrs m)) in
      let! F0 := (if tr then let! cp := value_at (m_heat (attrs m)) in let! rho := value_at (m_rho (attrs m)) in Ok [S_ rho cp z] else Ok []) in
      Ok (F0 ++ [K k z])).
  { intros z. unfold heat_material_form. cbn [attrs with_id m_thermal m_heat m_rho m_id ids map]. cbv zeta. reflexivity. }
  destruct (ids (m_id (attrs m))) as [|z l]; [congruence|]. clear Hn.
  destruct (value_at (m_thermal (attrs m))) as [k|] eqn:E1; cbn [bind] in *; [|cbn [map sum_forms]; rewrite E; exact I].
  change (fun vol : Z => match q_type M with
             | Cartesian => (Dx vol, fun p => dot (q_dim M) (fun i => k (val (T p)) * grd (T p) i) (grd (v p)))
             | Cylindrical => (Dx vol, fun p => val (dcoord0 (q_x0 M p)) * dot (q_dim M) (fun i => k (val (T p)) * grd (T p) i)
                                                 (grd (ddiv (v p) (dcoord0 (q_x0 M p)))))
             | Spherical => (Dx vol, fun p => k (val (T p)) * val (dcoord0 (q_x0 M p)) * val (dcoord0 (q_x0 M p))
                                   * dot (q_dim M) (grd (T p)) (grd (ddiv (ddiv (v p) (dcoord0 (q_x0 M p))) (dcoord0 (q_x0 M p)))))
             end) with (K k).
  destruct tr; cbn [bind] in *.
  - destruct (value_at (m_heat (attrs m))) as [cp|] eqn:E2; cbn [bind] in *; [|cbn [map sum_forms]; rewrite E; exact I].
    destruct (value_at (m_rho (attrs m))) as [rho|] eqn:E3; cbn [bind] in *; [|cbn [map sum_forms]; rewrite E; exact I].
    change (fun vol : Z => (Dx vol, fun p => rho (val (T p)) * cp (val (T p)) * (val (T p) - val (Tn p)) / dt * val (v p))) with (S_ rho cp).
    assert (G : sum_forms (heat_material_form M true dt T Tn v) (map (fun z => mkMatObj (uid m) (with_id (attrs m) (IdOne z))) (z :: l))
                = Ok (flat_map (fun z => [S_ rho cp z; K k z]) (z :: l))).
    { induction (z :: l) as [|y q IH]; [reflexivity|]. cbn [map sum_forms flat_map]. rewrite E. cbn [bind]. rewrite IH. reflexivity. }
    rewrite G. cbn [pm]. clear. induction (z :: l) as [|y q IH]; [constructor|]. cbn [flat_map map app]. constructor.
    apply Permutation_cons_app. exact IH.
  - assert (G : sum_forms (heat_material_form M false dt T Tn v) (map (fun z => mkMatObj (uid m) (with_id (attrs m) (IdOne z))) (z :: l))
                = Ok (map (K k) (z :: l))).
    { induction (z :: l) as [|y q IH]; [reflexivity|]. cbn [map sum_forms]. rewrite E. cbn [bind]. rewrite IH. reflexivity. }
    rewrite G. apply pm_refl.
Qed.
Lemma split_heat M tr dt T Tn v ms sources bcs : (forall m, In m ms -> ids (m_id (attrs m)) <> []) -> (forall b, In b bcs -> fst b <> []) ->
  pm (heat_form M tr dt T Tn v (flat_map split_obj ms) (flat_map split_source sources) (flat_map split_heat_bc bcs)) (heat_form M tr dt T Tn v ms sources bcs).
Proof.
  intros Hn Hb. unfold heat_form.
  assert (A : pm (sum_forms (heat_material_form M tr dt T Tn v) (flat_map split_obj ms)) (sum_forms (heat_material_form M tr dt T Tn v) ms)).
  { clear - Hn. induction ms as [|m ms IH]; [constructor|]. cbn [flat_map sum_forms]. rewrite sum_forms_app. apply pm_bind2.
    - apply split_heat_material, Hn. now left.
    - apply IH. intros x Hx. apply Hn. now right. }
  match goal with |- pm (bind _ (fun F => bind (sum_forms ?f _) _)) _ => assert (B : sum_forms f (flat_map split_heat_bc bcs) = sum_forms f bcs) end.
  { apply split_sum. intros [l f] Hin. specialize (Hb _ Hin). cbn [fst] in Hb. unfold split_heat_bc. cbn [fst snd].
    destruct (heat_flux_form f T) as [g|] eqn:Eg; cbn [bind].
    - clear Hb Hin. induction l as [|y q IH]; [reflexivity|]. cbn [map sum_forms fst snd]. rewrite Eg. cbn [bind]. rewrite IH. reflexivity.
    - destruct l as [|y q]; [congruence|]. cbn [map sum_forms fst snd]. rewrite Eg. reflexivity. }
  rewrite B.
  assert (C : flat_map (fun s => map (fun vol => (Dx vol, fun p => - s_value s p * val (v p))) (ids (s_volume s))) (flat_map split_source sources)
              = flat_map (fun s => map (fun vol => (Dx vol, fun p => - s_value s p * val (v p))) (ids (s_volume s))) sources).
  { rewrite flat_map_flat_map. apply flat_map_ext. intros s. unfold split_source. rewrite flat_map_concat_map, map_map, <- flat_map_concat_map.
    cbn [s_value s_volume ids map]. apply (flat_map_single (fun z => _)). }
  rewrite C.
  destruct (sum_forms (heat_material_form M tr dt T Tn v) (flat_map split_obj ms)) as [F|], (sum_forms (heat_material_form M tr dt T Tn v) ms) as [F'|];
    cbn in A; try contradiction; cbn [bind]; [|exact I].
  match goal with |- pm (bind ?x _) _ => destruct x as [H|] end; cbn [bind]; [|exact I].
  cbn [pm]. now apply Permutation_app_tail.
Qed.
End Reorder.
