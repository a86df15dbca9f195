(** Linearity of the forms in the test functions. *)
From Coq Require Import Reals ZArith List Bool String Lra Lia.
From Verif Require Import Base.Exc Base.Key Base.Dual Model.Materials Model.Laws Model.Theta Model.Forms
  Spec.PhysSpec Spec.BalanceSpec Spec.WeakSpec Proofs.ThetaProofs.
Import ListNotations.
Local Open Scope R_scope.

Section Lin.
Context {P : Type}.
Variable M : mesh P.
Implicit Types tau : test_functions P.

Definition lin_e (e : test_functions P -> P -> R) : Prop :=
  forall (l : list (R * test_functions P)) tau, combination l tau -> forall p, e tau p = rsum (map (fun q => fst q * e (snd q) p) l).
Definition lin (G : test_functions P -> form P) : Prop :=
  forall (l : list (R * test_functions P)) tau, combination l tau ->
    assemble M (G tau) = rsum (map (fun q => fst q * assemble M (G (snd q))) l).
Definition linear_res (X : test_functions P -> res (form P)) : Prop :=
  (exists e, forall tau, X tau = Err e) \/ (exists G, (forall tau, X tau = Ok (G tau)) /\ lin G).

Lemma rsum_scal : forall {A} (f : A -> R) c l, rsum (map (fun a => c * f a) l) = c * rsum (map f l).
Proof. unfold rsum. induction l; cbn in *; [|rewrite IHl]; ring. Qed.
Lemma rsum_plus : forall {A} (f g : A -> R) l,
  rsum (map (fun a => f a + g a) l) = rsum (map f l) + rsum (map g l).
Proof. unfold rsum. induction l; cbn in *; [|rewrite IHl]; ring. Qed.
Lemma rsum_ext : forall {A} (f g : A -> R) l, (forall a, f a = g a) -> rsum (map f l) = rsum (map g l).
Proof. intros A f g l H. f_equal. apply map_ext. exact H. Qed.
Lemma rsum_swap : forall {A B} (f : A -> B -> R) (l : list A) (m : list B),
  rsum (map (fun a => rsum (map (f a) m)) l) = rsum (map (fun b => rsum (map (fun a => f a b) l)) m).
Proof.
  induction l as [|a l IH]; intros m.
  - cbn. unfold rsum. induction m; cbn in *; [|rewrite <- IHm]; ring.
  - cbn. change (fold_right Rplus 0) with rsum. rewrite IH, <- rsum_plus. reflexivity.
Qed.

(** Integrands. *)
Lemma lin_e_scal : forall (c : P -> R) e, lin_e e -> lin_e (fun tau p => c p * e tau p).
Proof.
  intros c e H l tau Hc p. rewrite (H l tau Hc p), <- rsum_scal. apply rsum_ext. intros q. ring.
Qed.
Lemma lin_e_ext : forall e e', (forall tau p, e' tau p = e tau p) -> lin_e e -> lin_e e'.
Proof.
  intros e e' H He l tau Hc p. rewrite H, (He l tau Hc p). apply rsum_ext. intros q. now rewrite H.
Qed.
Lemma lin_e_plus : forall e e', lin_e e -> lin_e e' -> lin_e (fun tau p => e tau p + e' tau p).
Proof.
  intros e e' H H' l tau Hc p. rewrite (H l tau Hc p), (H' l tau Hc p), <- rsum_plus.
  apply rsum_ext. intros q. ring.
Qed.
Lemma lin_e_dot : forall d (a : P -> nat -> R) (b : test_functions P -> P -> nat -> R),
  (forall i, lin_e (fun tau p => b tau p i)) -> lin_e (fun tau p => dot d (a p) (b tau p)).
Proof.
  intros d a b H l tau Hc p. unfold dot.
  rewrite (rsum_ext _ (fun i => rsum (map (fun q => a p i * (fst q * b (snd q) p i)) l))).
  - rewrite rsum_swap. apply rsum_ext. intros q. rewrite <- rsum_scal. apply rsum_ext. intros i. ring.
  - intros i. rewrite (H i l tau Hc p), <- rsum_scal. reflexivity.
Qed.

Definition lin_d (w : test_functions P -> P -> dual) : Prop :=
  lin_e (fun tau p => val (w tau p)) /\ forall i, lin_e (fun tau p => grd (w tau p) i).
Lemma lin_d_of : forall (f : test_functions P -> field P),
  (forall (l : list (R * test_functions P)) tau, combination l tau -> combination_field (component f l) (f tau)) -> lin_d f.
Proof.
  intros f H. split; [|intros i]; intros l tau Hc p; specialize (H l tau Hc p) as [Hv Hg];
    [rewrite Hv|rewrite Hg]; unfold component; rewrite map_map; reflexivity.
Qed.
Lemma lin_mobile : lin_d v_mobile.
Proof. apply lin_d_of. intros l tau (H & _ & _). exact H. Qed.
Lemma lin_trap : forall i, lin_d (fun tau => v_trap tau i).
Proof. intros i. apply lin_d_of. intros l tau (_ & H & _). apply H. Qed.
Lemma lin_ads : forall j i, lin_d (fun tau => v_ads tau j i).
Proof. intros j i. apply lin_d_of. intros l tau (_ & _ & H). apply H. Qed.
Lemma lin_ddiv : forall w (r : P -> dual), lin_d w -> lin_d (fun tau p => ddiv (w tau p) (r p)).
Proof.
  intros w r [Hv Hg]. split; cbn.
  - apply (lin_e_ext (fun tau p => / val (r p) * val (w tau p))).
    + intros. unfold Rdiv. ring.
    + apply lin_e_scal. exact Hv.
  - intros i.
    apply (lin_e_ext (fun tau p => val (r p) / (val (r p) * val (r p)) * grd (w tau p) i
                                   + (- grd (r p) i / (val (r p) * val (r p))) * val (w tau p))).
    + intros. unfold Rdiv. ring.
    + apply lin_e_plus; apply lin_e_scal; [apply Hg|apply Hv].
Qed.

(** Forms. *)
Lemma integral_lin : forall m e, lin_e e -> forall (l : list (R * test_functions P)) tau, combination l tau ->
  integral M m (e tau) = rsum (map (fun q => fst q * integral M m (e (snd q))) l).
Proof.
  intros m e H l tau Hc. unfold integral.
  rewrite (rsum_ext _ (fun p => rsum (map (fun q => q_weight M p * (fst q * e (snd q) p)) l))).
  - rewrite rsum_swap. apply rsum_ext. intros q. rewrite <- rsum_scal. apply rsum_ext. intros p. ring.
  - intros p. rewrite (H l tau Hc p), <- rsum_scal. reflexivity.
Qed.
Lemma lin_nil : lin (fun _ => []).
Proof.
  intros l tau _. unfold assemble, rsum. cbn. induction l; cbn in *; [reflexivity|]. rewrite <- IHl. ring.
Qed.
Lemma lin_cons : forall m e G, lin_e e -> lin G -> lin (fun tau => (m, e tau) :: G tau).
Proof.
  intros m e G He HG l tau Hc.
  assert (A : forall t, assemble M ((m, e t) :: G t) = integral M m (e t) + assemble M (G t)) by reflexivity.
  rewrite A, (integral_lin m e He l tau Hc), (HG l tau Hc), <- rsum_plus. apply rsum_ext. intros q.
  rewrite A. ring.
Qed.
Lemma assemble_app : forall F G : form P, assemble M (F ++ G) = assemble M F + assemble M G.
Proof. intros. unfold assemble. rewrite map_app. apply rsum_app. Qed.
Lemma assemble_neg : forall F : form P, assemble M (neg F) = - assemble M F.
Proof.
  intros F. induction F as [|[m e] F IH]; [unfold assemble; cbn; ring|].
  change (integral M m (fun p => - e p) + assemble M (neg F) = - (integral M m e + assemble M F)).
  rewrite IH. unfold integral.
  rewrite (rsum_ext (fun p => q_weight M p * - e p) (fun p => -1 * (q_weight M p * e p))) by (intros; ring).
  rewrite rsum_scal. ring.
Qed.
Lemma lin_app : forall F G, lin F -> lin G -> lin (fun tau => F tau ++ G tau).
Proof.
  intros F G HF HG l tau Hc. rewrite assemble_app, (HF l tau Hc), (HG l tau Hc), <- rsum_plus.
  apply rsum_ext. intros q. rewrite assemble_app. ring.
Qed.
Lemma lin_neg : forall F, lin F -> lin (fun tau => neg (F tau)).
Proof.
  intros F HF l tau Hc. rewrite assemble_neg, (HF l tau Hc).
  rewrite (rsum_ext (fun q => fst q * assemble M (neg (F (snd q))))
                    (fun q => -1 * (fst q * assemble M (F (snd q))))).
  - rewrite rsum_scal. ring.
  - intros q. rewrite assemble_neg. ring.
Qed.
Lemma lin_flat_map : forall {A} (f : test_functions P -> A -> form P) (la : list A),
  (forall a, lin (fun tau => f tau a)) -> lin (fun tau => flat_map (f tau) la).
Proof.
  intros A f la H. induction la as [|a la IH]; cbn; [apply lin_nil|]. apply lin_app; [apply H|exact IH].
Qed.
Lemma lin_flat_mapi : forall {A B} (f : test_functions P -> B -> form P)
    (g : test_functions P -> nat -> A -> B) (la : list A) i,
  (forall i a, lin (fun tau => f tau (g tau i a))) ->
  lin (fun tau => flat_map (f tau) (mapi_from (g tau) i la)).
Proof.
  intros A B f g la. induction la as [|a la IH]; intros i H; cbn; [apply lin_nil|].
  apply lin_app; [apply H|apply IH, H].
Qed.
Lemma lin_map : forall {A} (m : A -> measure) (e : test_functions P -> A -> P -> R) (la : list A),
  (forall a, lin_e (fun tau => e tau a)) -> lin (fun tau => map (fun a => (m a, e tau a)) la).
Proof.
  intros A m e la H. induction la as [|a la IH]; cbn; [apply lin_nil|].
  apply (lin_cons (m a) (fun tau => e tau a)); [apply H|exact IH].
Qed.

(** Programs. *)
Lemma lr_ok : forall G, lin G -> linear_res (fun tau => Ok (G tau)).
Proof. intros G H. right. exists G. split; [reflexivity|exact H]. Qed.
Lemma lr_bind : forall {A} (r : res A) (X : A -> test_functions P -> res (form P)),
  (forall a, linear_res (X a)) -> linear_res (fun tau => let! a := r in X a tau).
Proof.
  intros A [a|e] X H; [exact (H a)|]. left. exists e. reflexivity.
Qed.
Lemma lr_app : forall X Y, linear_res X -> linear_res Y ->
  linear_res (fun tau => let! F := X tau in let! G := Y tau in Ok (F ++ G)).
Proof.
  intros X Y [[e HX]|[F [HX HF]]] HY.
  - left. exists e. intros tau. rewrite HX. reflexivity.
  - destruct HY as [[e HY]|[G [HY HG]]].
    + left. exists e. intros tau. rewrite HX, HY. reflexivity.
    + right. exists (fun tau => F tau ++ G tau). split; [intros tau; rewrite HX, HY; reflexivity|].
      apply lin_app; assumption.
Qed.
Lemma lr_app_neg : forall X Y, linear_res X -> linear_res Y ->
  linear_res (fun tau => let! F := X tau in let! G := Y tau in Ok (F ++ neg G)).
Proof.
  intros X Y [[e HX]|[F [HX HF]]] HY.
  - left. exists e. intros tau. rewrite HX. reflexivity.
  - destruct HY as [[e HY]|[G [HY HG]]].
    + left. exists e. intros tau. rewrite HX, HY. reflexivity.
    + right. exists (fun tau => F tau ++ neg (G tau)). split; [intros tau; rewrite HX, HY; reflexivity|].
      apply lin_app; [assumption|]. apply lin_neg; assumption.
Qed.
Lemma lr_app_ok : forall X G, linear_res X -> lin G ->
  linear_res (fun tau => let! F := X tau in Ok (F ++ G tau)).
Proof.
  intros X G [[e HX]|[F [HX HF]]] HG.
  - left. exists e. intros tau. rewrite HX. reflexivity.
  - right. exists (fun tau => F tau ++ G tau). split; [intros tau; rewrite HX; reflexivity|].
    apply lin_app; assumption.
Qed.
Lemma lr_sum : forall {A} (f : test_functions P -> A -> res (form P)) (la : list A),
  (forall a, linear_res (fun tau => f tau a)) -> linear_res (fun tau => sum_forms (f tau) la).
Proof.
  intros A f la H. induction la as [|a la IH]; cbn; [apply lr_ok, lin_nil|]. apply lr_app; [apply H|exact IH].
Qed.
Lemma lr_sum_enum : forall {A} (f : test_functions P -> nat -> A -> res (form P)) (la : list A) i,
  (forall i a, linear_res (fun tau => f tau i a)) -> linear_res (fun tau => sum_forms_enum (f tau) i la).
Proof.
  intros A f la. induction la as [|a la IH]; intros i H; cbn; [apply lr_ok, lin_nil|].
  apply lr_app; [apply H|apply IH, H].
Qed.
Lemma lr_sumi : forall {A B} (f : test_functions P -> B -> res (form P))
    (g : test_functions P -> nat -> A -> B) (la : list A) i,
  (forall i a, linear_res (fun tau => f tau (g tau i a))) ->
  linear_res (fun tau => sum_forms (f tau) (mapi_from (g tau) i la)).
Proof.
  intros A B f g la. induction la as [|a la IH]; intros i H; cbn; [apply lr_ok, lin_nil|].
  apply lr_app; [apply H|apply IH, H].
Qed.

(** The functions of Model.Forms. *)
Lemma lin_diffusion_terms : forall soret D_0 E_D Q c_0 c_0_n w T dt id, lin_d w ->
  lin (fun tau => diffusion_terms M soret D_0 E_D Q c_0 c_0_n (w tau) T dt id).
Proof.
  intros soret D_0 E_D Q c_0 c_0_n w T dt id Hw.
  pose proof (lin_ddiv w (fun p => dcoord0 (q_x0 M p)) Hw) as H1.
  pose proof (lin_ddiv _ (fun p => dcoord0 (q_x0 M p)) H1) as H2. destruct Hw as [Hv Hg].
  unfold diffusion_terms. apply lin_app.
  - destruct dt as [dt|]; [|apply lin_nil].
    apply lin_cons; [|apply lin_nil]. apply lin_e_scal. exact Hv.
  - destruct (q_type M); (apply lin_cons; [|destruct soret; [apply lin_cons; [|apply lin_nil]|apply lin_nil]]).
    1,2: apply lin_e_dot, Hg.
    1,2: apply lin_e_scal, lin_e_dot, H1.
    1,2: apply lin_e_scal, lin_e_dot, H2.
Qed.

Variable mb : mobile P.
Variable ms : list mat_obj.
Variable T : temperature P.
Variable dt : option R.
Variable soret : bool.

Lemma lr_material : forall m,
  linear_res (fun tau => material_form M (retest_mobile mb tau) T dt soret m).
Proof.
  intros m. unfold material_form.
  apply (lr_bind (get_concentration mb (attrs m) T)). intros c.
  apply lr_bind. intros D_0. apply lr_bind. intros E_D. apply lr_bind. intros Q.
  apply lr_ok. apply lin_flat_map. intros id. apply (lin_diffusion_terms _ _ _ _ _ _ v_mobile).
  apply lin_mobile.
Qed.

Lemma lr_mobile_trapping : forall (t : trap P) j i m,
  linear_res (fun tau => mobile_trapping_terms (retest_mobile mb tau) T (retest_trap tau j t) i m).
Proof.
  intros t j i m. unfold mobile_trapping_terms, retest_trap. cbn [t_k0 t_Ek t_p0 t_Ep t_density t_solution].
  apply lr_bind. intros [[[[k_0 E_k] p_0] E_p] density].
  apply (lr_bind (get_concentration mb (attrs m) T)). intros c. apply lr_bind. intros id.
  apply lr_ok. apply lin_cons; [|apply lin_cons; [|apply lin_nil]]; apply lin_e_scal, lin_mobile.
Qed.

Lemma lr_diffusion : forall traps,
  linear_res (fun tau => create_diffusion_form M (retest_mobile mb tau) ms T dt (retest_traps traps tau) soret).
Proof.
  intros traps. unfold create_diffusion_form. apply lr_app_neg.
  - apply lr_sum. apply lr_material.
  - unfold retest_traps.
    apply (lr_sumi (fun tau t => sum_forms_enum (mobile_trapping_terms (retest_mobile mb tau) T t) 0
                                   (t_materials t)) retest_trap).
    intros j t. unfold retest_trap at 2. cbn [t_materials].
    apply lr_sum_enum. intros i m. apply lr_mobile_trapping.
Qed.

Lemma lin_source : lin (fun tau => create_mobile_source_form M (retest_mobile mb tau)).
Proof.
  unfold create_mobile_source_form. cbn [retest_mobile mb_sources]. apply lin_flat_map. intros s.
  unfold mobile_source_terms. cbn [retest_mobile mb_test].
  apply (lin_map (fun v => Dx v)). intros a.
  apply (lin_e_scal (fun p => - match s_decay s with
                                | Some l => fun p => decay_form l (mobile_concentration M mb p)
                                | None => s_value s
                                end p)). apply lin_mobile.
Qed.

Lemma lin_surface : forall s_k n_s b_s c cs n_i solute prev j i Tf (a : adsorbed P) lam,
  lin (fun tau => surface_kinetics_terms (mkSK s_k n_s b_s lam cs n_i c) solute prev (v_mobile tau) Tf dt
                    (mkAds (a_surface a) (a_solution a) (a_previous a) (v_ads tau j i))).
Proof.
  intros. unfold surface_kinetics_terms. cbn [a_surface a_solution a_previous a_test sk_J_vs sk_k_sb sk_k_bs
    sk_lambda_IS sk_n_surf sk_n_IS]. apply lin_app.
  - destruct dt as [d|]; [|apply lin_nil].
    apply lin_cons; [|apply lin_cons; [|apply lin_nil]]; apply lin_e_scal; [apply (lin_ads j i)|apply lin_mobile].
  - apply lin_cons; [|apply lin_cons; [|apply lin_nil]]; apply lin_e_scal; [apply (lin_ads j i)|apply lin_mobile].
Qed.

Lemma lin_fluxes : lin (fun tau => create_fluxes_form M (retest_mobile mb tau) T dt).
Proof.
  unfold create_fluxes_form. cbn [retest_mobile mb_bcs].
  apply (lin_flat_mapi (fun tau => flux_terms M (retest_mobile mb tau) T dt) retest_bc).
  intros j [ft surfs f|s]; cbn [retest_bc flux_terms].
  - destruct ft; [apply lin_nil|]. cbn [retest_mobile mb_test].
    apply (lin_map (fun v => Ds v)). intros a.
    apply (lin_e_ext (fun tau p => - flux_form f (T_T T) (mobile_concentration M mb) p * val (v_mobile tau p))).
    + intros tau p. change (mobile_concentration M (retest_mobile mb tau)) with (mobile_concentration M mb). ring.
    + apply lin_e_scal. apply lin_mobile.
  - unfold flux_terms. cbn [retest_mobile mb_test mb_previous sk_adsorbed].
    apply (lin_flat_mapi
             (fun tau => surface_kinetics_terms
                (mkSK (sk_k_sb s) (sk_k_bs s) (sk_J_vs s) (sk_lambda_IS s) (sk_n_surf s) (sk_n_IS s) [])
                (mobile_concentration M mb) (fun p => val (mb_previous mb p)) (v_mobile tau) (T_T T) dt)
             (fun tau i a => mkAds (a_surface a) (a_solution a) (a_previous a) (v_ads tau j i))).
    intros i a. apply lin_surface.
Qed.

Lemma lr_trapping : forall (t : trap P) j i m,
  linear_res (fun tau => trapping_terms (retest_mobile mb tau) T (retest_trap tau j t) i m).
Proof.
  intros t j i m. unfold trapping_terms, retest_trap.
  cbn [t_k0 t_Ek t_p0 t_Ep t_density t_solution t_test].
  apply lr_bind. intros [[[[k_0 E_k] p_0] E_p] density]. cbn [retest_mobile mb_class].
  apply lr_bind. intros _.
  apply (lr_bind (get_concentration mb (attrs m) T)). intros c. apply lr_bind. intros id.
  apply lr_ok. apply lin_cons; [|apply lin_cons; [|apply lin_nil]]; apply lin_e_scal, (lin_trap j).
Qed.

Lemma lr_trap : forall (t : trap P) j,
  linear_res (fun tau => trap_create_form (retest_mobile mb tau) ms T dt (retest_trap tau j t)).
Proof.
  intros t j. unfold trap_create_form, create_trapping_form. apply lr_app; [apply lr_app|].
  - unfold retest_trap. cbn [t_solution t_previous t_test t_materials]. destruct dt as [d|].
    + apply lr_ok. apply lin_cons; [|apply lin_nil]. apply lin_e_scal, (lin_trap j).
    + apply lr_sum. intros m. destruct (mat_in m (t_materials t)); [apply lr_ok, lin_nil|].
      apply lr_bind. intros id. apply lr_ok. apply lin_cons; [|apply lin_nil]. apply lin_e_scal, (lin_trap j).
  - unfold retest_trap at 2. cbn [t_materials]. apply lr_sum_enum. intros i m. apply lr_trapping.
  - cbn [retest_trap t_sources]. apply lr_sum. intros s. unfold trap_source_terms.
    apply lr_bind. intros id. apply lr_ok. apply lin_cons; [|apply lin_nil].
    cbn [retest_trap t_test t_solution]. apply lin_e_scal, (lin_trap j).
Qed.

Theorem lr_problem : forall traps,
  linear_res (fun tau => define_variational_problem M (retest_mobile mb tau) ms T dt (retest_traps traps tau) soret).
Proof.
  intros traps. unfold define_variational_problem, mobile_create_form. apply lr_app.
  - apply (lr_app_ok (fun tau => create_diffusion_form M (retest_mobile mb tau) ms T dt
                                   (retest_traps traps tau) soret)
             (fun tau => create_mobile_source_form M (retest_mobile mb tau)
                         ++ create_fluxes_form M (retest_mobile mb tau) T dt)).
    + apply lr_diffusion.
    + apply lin_app; [apply lin_source|apply lin_fluxes].
  - apply (lr_sumi (fun tau => trap_create_form (retest_mobile mb tau) ms T dt) retest_trap).
    intros j t. apply lr_trap.
Qed.

(** What does not depend on the test functions. *)
Lemma sum_over_mapi : forall {A} (f : A -> R) (g : nat -> A -> A) la i,
  (forall i a, f (g i a) = f a) -> sum_over (mapi_from g i la) f = sum_over la f.
Proof.
  intros A f g la. unfold sum_over. induction la as [|a la IH]; intros i H; [reflexivity|].
  cbn [mapi_from map]. change (f (g i a) + rsum (map f (mapi_from g (S i) la)) = f a + rsum (map f la)).
  rewrite H, IH; auto.
Qed.
Lemma in_mapi : forall {A B} (g : nat -> A -> B) la i b, In b (mapi_from g i la) -> exists j a, In a la /\ b = g j a.
Proof.
  intros A B g la. induction la as [|a la IH]; intros i b; cbn; [easy|]. intros [<-|H].
  - exists i, a. auto.
  - destruct (IH _ _ H) as (j & a' & Ha & ->). exists j, a'. auto.
Qed.
Lemma whole_tests : forall traps tau, whole M tau -> tests M (retest_mobile mb tau) (retest_traps traps tau).
Proof.
  intros traps tau (Hv & Ht & Ha). split; [exact Hv|]. split.
  - intros t H p _. apply in_mapi in H as (j & t0 & _ & ->). apply Ht.
  - intros s a Hs Hin p _ _. apply in_mapi in Hs as (j & [ft l f|s0] & _ & E); cbn [retest_bc] in E; [discriminate|].
    injection E as ->. cbn [sk_adsorbed] in Hin. apply in_mapi in Hin as (i & a0 & _ & ->). apply Ha.
Qed.
Lemma inventory_retest : forall c traps tau, inventory M c (retest_traps traps tau) = inventory M c traps.
Proof. intros. unfold inventory, retest_traps. f_equal. apply sum_over_mapi. reflexivity. Qed.
Lemma before_retest : forall c traps tau, inventory_before M c (retest_traps traps tau) = inventory_before M c traps.
Proof. intros. unfold inventory_before, retest_traps. f_equal. apply sum_over_mapi. reflexivity. Qed.
Lemma outside_retest : forall traps tau, sum_over (retest_traps traps tau) (outside M ms) = sum_over traps (outside M ms).
Proof. intros. unfold retest_traps. apply sum_over_mapi. reflexivity. Qed.
Lemma surface_retest : forall d c b tau,
  sum_over (mb_bcs (retest_mobile mb tau)) (surface_rate M d c b) = sum_over (mb_bcs mb) (surface_rate M d c b).
Proof.
  intros. cbn [retest_mobile mb_bcs]. apply sum_over_mapi. intros j [ft l f|s]; [reflexivity|].
  cbn [retest_bc surface_rate sk_adsorbed]. apply sum_over_mapi. reflexivity.
Qed.
Lemma supply_retest : forall c traps tau,
  supply M T c (retest_mobile mb tau) (retest_traps traps tau) = supply M T c mb traps.
Proof.
  intros. unfold supply, retest_traps. f_equal; [f_equal|].
  - apply sum_over_mapi. reflexivity.
  - cbn [retest_mobile mb_bcs]. apply sum_over_mapi. intros j [ft l f|s]; [reflexivity|].
    cbn [retest_bc flux_rate sk_adsorbed]. apply sum_over_mapi. reflexivity.
Qed.
End Lin.

(** One field only: the heat equation and the trap densities. *)
Section Single.
Context {P : Type}.
Variable M : mesh P.

Definition only (v : field P) : test_functions P :=
  mkTests v (fun _ _ => dconst 0) (fun _ _ _ => dconst 0).
Lemma combination_zero (l : list (R * test_functions P)) (f : test_functions P -> field P) :
  (forall q, In q l -> forall p, f (snd q) p = dconst 0) ->
  combination_field (component f l) (fun _ => dconst 0).
Proof.
  intros H p. unfold component. rewrite !map_map. split; [|intros i; rewrite map_map]; cbn; unfold rsum.
  - induction l as [|q l IH]; [reflexivity|]. cbn in *. rewrite <- IH by auto. rewrite H by auto. cbn. ring.
  - induction l as [|q l IH]; [reflexivity|]. cbn in *. rewrite <- IH by auto. rewrite H by auto. cbn. ring.
Qed.
Lemma combination_only l v : combination_field l v -> combination (map (fun q => (fst q, only (snd q))) l) (only v).
Proof.
  intros H. split; [|split].
  - unfold component. rewrite map_map. cbn. rewrite (map_ext _ (fun q => q)) by (now intros []).
    rewrite map_id. exact H.
  - intros i. apply combination_zero. intros q Hq p. apply in_map_iff in Hq as (q0 & <- & _). reflexivity.
  - intros j i. apply combination_zero. intros q Hq p. apply in_map_iff in Hq as (q0 & <- & _). reflexivity.
Qed.

Lemma lr_heat transient dt T T_n ms sources bcs :
  linear_res M (fun tau => heat_form M transient dt T T_n (v_mobile tau) ms sources bcs).
Proof.
  pose proof (@lin_mobile P) as Hw.
  pose proof (lin_ddiv v_mobile (fun p => dcoord0 (q_x0 M p)) Hw) as H1.
  pose proof (lin_ddiv _ (fun p => dcoord0 (q_x0 M p)) H1) as H2.
  unfold heat_form.
  assert (HA : linear_res M (fun tau => sum_forms (heat_material_form M transient dt T T_n (v_mobile tau)) ms)).
  { apply lr_sum. intros m. unfold heat_material_form. apply lr_bind. intros k.
    apply (lr_app_ok M (fun tau => if transient then
                let! cp := value_at (m_heat (attrs m)) in
                let! rho := value_at (m_rho (attrs m)) in
                Ok (map (fun vol => (Dx vol, fun p => rho (val (T p)) * cp (val (T p))
                                                      * (val (T p) - val (T_n p)) / dt * val (v_mobile tau p)))
                      (ids (m_id (attrs m))))
              else Ok [])).
    - destruct transient; [|apply lr_ok, lin_nil]. apply lr_bind. intros cp. apply lr_bind. intros rho.
      apply lr_ok. apply (lin_map M (fun v => Dx v)). intros a. apply lin_e_scal, Hw.
    - destruct (q_type M); apply (lin_map M (fun v => Dx v)); intros a.
      + apply lin_e_dot, Hw.
      + apply lin_e_scal, lin_e_dot, H1.
      + apply lin_e_scal, lin_e_dot, H2. }
  assert (HB : lin M (fun tau => flat_map (fun s => map (fun vol => (Dx vol, fun p => - s_value s p * val (v_mobile tau p)))
                                (ids (s_volume s))) sources)).
  { apply (lin_flat_map M (fun tau (s : source P) => map (fun vol => (Dx vol, fun p => - s_value s p * val (v_mobile tau p)))
                                (ids (s_volume s)))). intros s.
    apply (lin_map M (fun v => Dx v)). intros a. apply lin_e_scal, Hw. }
  assert (HC : linear_res M (fun tau => sum_forms (fun b : list Z * flux P => let! g := heat_flux_form (snd b) T in
                                Ok (map (fun surf => (Ds surf, fun p => - g p * val (v_mobile tau p))) (fst b))) bcs)).
  { apply lr_sum. intros b. apply lr_bind. intros g. apply lr_ok. apply (lin_map M (fun v => Ds v)). intros a.
    apply lin_e_scal, Hw. }
  destruct HA as [[e HA]|[F [HA HF]]].
  - left. exists e. intros tau. rewrite HA. reflexivity.
  - destruct HC as [[e HC]|[H [HC HH]]].
    + left. exists e. intros tau. rewrite HA, HC. reflexivity.
    + right. eexists. split; [intros tau; rewrite HA, HC; reflexivity|].
      apply lin_app; [exact HF|]. apply lin_app; [exact HB|exact HH].
Qed.

Lemma lin_extrinsic dt phi_0 n_amax n_bmax eta_a eta_b f_a f_b n n_prev :
  lin M (fun tau => extrinsic_form dt phi_0 n_amax n_bmax eta_a eta_b f_a f_b n n_prev (v_mobile tau)).
Proof.
  unfold extrinsic_form. apply lin_cons; [|apply lin_cons; [|apply lin_nil]]; apply lin_e_scal, lin_mobile.
Qed.
Lemma lin_neutron dt phi K n_max A_0 E_A T n n_prev :
  lin M (fun tau => neutron_form dt phi K n_max A_0 E_A T n n_prev (v_mobile tau)).
Proof.
  unfold neutron_form. apply lin_cons; [|apply lin_cons; [|apply lin_cons; [|apply lin_nil]]]; apply lin_e_scal, lin_mobile.
Qed.
End Single.
