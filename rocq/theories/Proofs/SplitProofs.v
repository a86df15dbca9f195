(** Proofs about conglomerated traps. *)
From Coq Require Import Reals ZArith List Bool Lra Lia.
From Verif Require Import Base.Exc Base.Dual Model.Materials Model.Theta Model.Forms Spec.BalanceSpec Spec.SplitSpec
  Proofs.FormProofs Proofs.ThetaProofs.
Import ListNotations.
Local Open Scope R_scope.
Local Open Scope list_scope.

Section Split.
Context {P : Type}.
Implicit Types (M : mesh P) (F G : form P) (es : list (entry P)).

Lemma index_mid {A B} (f : A -> B) pre a suf : index (map f (pre ++ a :: suf)) (List.length pre) = Ok (f a).
Proof.
  unfold index. rewrite map_app, nth_error_app2; rewrite map_length; [|lia]. now rewrite Nat.sub_diag.
Qed.

(** In its i-th material a conglomerated trap is the i-th single trap. *)
Lemma mobile_terms_mid mb T pre e suf (sol prev test : field P) :
  mobile_trapping_terms mb T (conglomerated (pre ++ e :: suf) sol prev test) (List.length pre) (e_mat e) =
  mobile_trapping_terms mb T (single e sol prev test) 0 (e_mat e).
Proof.
  unfold mobile_trapping_terms, conglomerated, single. cbn [t_k0 t_Ek t_p0 t_Ep t_density t_solution arg_index arg_number].
  rewrite !index_mid. reflexivity.
Qed.
Lemma trap_terms_mid mb T pre e suf (sol prev test : field P) :
  trapping_terms mb T (conglomerated (pre ++ e :: suf) sol prev test) (List.length pre) (e_mat e) =
  trapping_terms mb T (single e sol prev test) 0 (e_mat e).
Proof.
  unfold trapping_terms, conglomerated, single. cbn [t_k0 t_Ek t_p0 t_Ep t_density t_solution t_test arg_index arg_number].
  rewrite !index_mid. reflexivity.
Qed.
Lemma mobile_enum mb T es (sol prev test : field P) :
  sum_forms_enum (mobile_trapping_terms mb T (conglomerated es sol prev test)) 0 (map e_mat es) =
  sum_forms (fun e => mobile_trapping_terms mb T (single e sol prev test) 0 (e_mat e)) es.
Proof.
  change 0%nat with (List.length (@nil (entry P))) at 1.
  assert (H : forall suf pre, es = pre ++ suf ->
    sum_forms_enum (mobile_trapping_terms mb T (conglomerated es sol prev test)) (List.length pre) (map e_mat suf) =
    sum_forms (fun e => mobile_trapping_terms mb T (single e sol prev test) 0 (e_mat e)) suf).
  { induction suf as [|e suf IH]; intros pre E; [reflexivity|]. cbn [map sum_forms_enum sum_forms].
    rewrite <- (IH (pre ++ [e])) by (rewrite E, <- app_assoc; reflexivity).
    rewrite app_length, Nat.add_1_r. rewrite E at 1. rewrite mobile_terms_mid. reflexivity. }
  now apply (H es []).
Qed.
Lemma trap_enum mb T es (sol prev test : field P) :
  sum_forms_enum (trapping_terms mb T (conglomerated es sol prev test)) 0 (map e_mat es) =
  sum_forms (fun e => trapping_terms mb T (single e sol prev test) 0 (e_mat e)) es.
Proof.
  change 0%nat with (List.length (@nil (entry P))) at 1.
  assert (H : forall suf pre, es = pre ++ suf ->
    sum_forms_enum (trapping_terms mb T (conglomerated es sol prev test)) (List.length pre) (map e_mat suf) =
    sum_forms (fun e => trapping_terms mb T (single e sol prev test) 0 (e_mat e)) suf).
  { induction suf as [|e suf IH]; intros pre E; [reflexivity|]. cbn [map sum_forms_enum sum_forms].
    rewrite <- (IH (pre ++ [e])) by (rewrite E, <- app_assoc; reflexivity).
    rewrite app_length, Nat.add_1_r. rewrite E at 1. rewrite trap_terms_mid. reflexivity. }
  now apply (H es []).
Qed.

Lemma part_inside M m z (f : field P) p : m_id (attrs m) = IdOne z -> In p (points M (Dx z)) -> part M m f p = f p.
Proof.
  intros Hz Hp. apply in_points_cells in Hp as [_ Hp]. unfold part, inside. rewrite Hz. cbn.
  rewrite Hp, Z.eqb_refl. reflexivity.
Qed.

(** Restricting the unknown to the material does not change the terms of the material. *)
Lemma mobile_terms_part M mb T e (sol prev test : field P) F :
  mobile_trapping_terms mb T (single e sol prev test) 0 (e_mat e) = Ok F ->
  exists G, mobile_trapping_terms mb T (single e (part M (e_mat e) sol) (part M (e_mat e) prev) test) 0 (e_mat e) = Ok G /\
    assemble M F = assemble M G.
Proof.
  unfold mobile_trapping_terms. cbn [t_k0 t_Ek t_p0 t_Ep t_density t_solution single arg_number index nth_error bind].
  destruct (get_concentration mb (attrs (e_mat e)) T) as [[c cn]|x]; cbn [bind]; [|discriminate].
  destruct (dx_id (m_id (attrs (e_mat e)))) as [z|x] eqn:Ez; cbn [bind]; [|discriminate].
  assert (Hz : m_id (attrs (e_mat e)) = IdOne z).
  { destruct (m_id (attrs (e_mat e))); cbn in Ez; [congruence|discriminate]. }
  intros H. apply Ok_inj in H. subst F. eexists. split; [reflexivity|].
  rewrite !assemble_cons, !assemble_nil. cbn [fst snd].
  f_equal; [|f_equal]; apply integral_ext; intros p Hp; now rewrite (part_inside M _ _ sol p Hz Hp).
Qed.
Lemma trap_terms_part M mb T e (sol prev test : field P) F :
  trapping_terms mb T (single e sol prev test) 0 (e_mat e) = Ok F ->
  (exists z, m_id (attrs (e_mat e)) = IdOne z) /\
  exists G, trapping_terms mb T (single e (part M (e_mat e) sol) (part M (e_mat e) prev) test) 0 (e_mat e) = Ok G /\
    assemble M F = assemble M G.
Proof.
  unfold trapping_terms. cbn [t_k0 t_Ek t_p0 t_Ep t_density t_solution t_test single arg_number index nth_error bind].
  match goal with |- bind ?x _ = _ -> _ => destruct x as [[]|x'] end; cbn [bind]; [|discriminate].
  destruct (get_concentration mb (attrs (e_mat e)) T) as [[c cn]|x]; cbn [bind]; [|discriminate].
  destruct (dx_id (m_id (attrs (e_mat e)))) as [z|x] eqn:Ez; cbn [bind]; [|discriminate].
  assert (Hz : m_id (attrs (e_mat e)) = IdOne z).
  { destruct (m_id (attrs (e_mat e))); cbn in Ez; [congruence|discriminate]. }
  intros H. apply Ok_inj in H. subst F. split; [eauto|]. eexists. split; [reflexivity|].
  rewrite !assemble_cons, !assemble_nil. cbn [fst snd].
  f_equal; [|f_equal]; apply integral_ext; intros p Hp; now rewrite (part_inside M _ _ sol p Hz Hp).
Qed.

Lemma sum_forms_map {A B} (g : A -> B) (f : B -> res (form P)) l : sum_forms f (map g l) = sum_forms (fun a => f (g a)) l.
Proof. induction l as [|a l IH]; cbn; [reflexivity|]. now rewrite IH. Qed.
Lemma sum_forms_app {A} (f : A -> res (form P)) a b :
  sum_forms f (a ++ b) = (let! F := sum_forms f a in let! G := sum_forms f b in Ok (F ++ G)).
Proof.
  induction a as [|x a IH]; cbn.
  - destruct (sum_forms f b); reflexivity.
  - destruct (f x); cbn; [|reflexivity]. rewrite IH. destruct (sum_forms f a); cbn; [|reflexivity].
    destruct (sum_forms f b); cbn; [|reflexivity]. now rewrite app_assoc.
Qed.
Lemma sum_forms_step {A} M (f g : A -> res (form P)) (h : A -> R) l F :
  sum_forms f l = Ok F ->
  (forall a K, In a l -> f a = Ok K -> exists L, g a = Ok L /\ assemble M L = assemble M K + h a) ->
  exists G, sum_forms g l = Ok G /\ assemble M G = assemble M F + sum_over l h.
Proof.
  revert F. induction l as [|x l IH]; intros F; cbn [sum_forms].
  - intros H _. apply Ok_inj in H. subst F. exists []. split; [reflexivity|]. unfold sum_over. cbn. lra.
  - destruct (f x) as [K|e] eqn:E; cbn [bind]; [|discriminate].
    destruct (sum_forms f l) as [H|e] eqn:E'; cbn [bind]; [|discriminate].
    intros Hf Hg. apply Ok_inj in Hf. subst F. destruct (Hg x K) as (L & -> & HL); [now left|exact E|].
    destruct (IH H eq_refl) as (G & -> & HG); [intros; apply Hg; [now right|assumption]|].
    cbn [bind]. eexists. split; [reflexivity|]. rewrite !assemble_app, sum_over_cons, HL, HG. lra.
Qed.

Lemma NoDup_suffix {A} (l k : list A) : NoDup (l ++ k) -> NoDup k.
Proof. induction l as [|a l IH]; cbn; [auto|]. intros H. inversion H; auto. Qed.

(** The parts of a field add up to the field. *)
Lemma parts_sum M es (x : R) p :
  NoDup (flat_map (fun e => ids (m_id (attrs (e_mat e)))) es) ->
  sum_over es (fun e => if inside M (e_mat e) p then x else 0) =
  (if existsb (fun e => inside M (e_mat e) p) es then x else 0).
Proof.
  induction es as [|e es IH]; intros Hnd; [reflexivity|]. rewrite sum_over_cons. cbn [existsb flat_map] in *.
  pose proof (NoDup_suffix _ _ Hnd) as Hnd2. rewrite IH by exact Hnd2.
  destruct (inside M (e_mat e) p) eqn:E; cbn [orb]; [|lra].
  assert (H : existsb (fun e => inside M (e_mat e) p) es = false).
  { apply not_true_iff_false. intros H. apply existsb_exists in H as (e2 & He2 & H2).
    unfold inside in E, H2. apply existsb_exists in E as (z & Hz & Ez). apply existsb_exists in H2 as (z2 & Hz2 & Ez2).
    apply Z.eqb_eq in Ez, Ez2. subst z z2.
    revert Hnd. clear - Hz Hz2 He2. intros Hnd.
    induction (ids (m_id (attrs (e_mat e)))) as [|y l IHl]; [destruct Hz|]. cbn in Hnd. inversion Hnd; subst.
    destruct Hz as [->|Hz]; [|auto]. apply H1. apply in_or_app. right. apply in_flat_map. eauto. }
  rewrite H. lra.
Qed.
Lemma sum_integral M m es (f : entry P -> P -> R) :
  sum_over es (fun e => integral M m (f e)) = integral M m (fun p => sum_over es (fun e => f e p)).
Proof.
  induction es as [|e es IH].
  - unfold sum_over. cbn. symmetry. apply integral_zero. reflexivity.
  - rewrite sum_over_cons, IH, <- integral_plus. apply integral_ext. intros p _. reflexivity.
Qed.

(** trap.py L151-157: the terms c * test in the materials without the trap. *)
Definition absent (ms ms_t : list mat_obj) (w : P -> R) : res (form P) :=
  sum_forms (fun m => if mat_in m ms_t then Ok []
                      else let! id := dx_id (m_id (attrs m)) in Ok [(Dx id, w)]) ms.

Lemma absent_single M ms es e (w w' : P -> R) F0 :
  identified ms es -> In e es -> (forall e, In e es -> exists z, m_id (attrs (e_mat e)) = IdOne z) ->
  (forall p, inside M (e_mat e) p = false -> w' p = 0) ->
  absent ms (map e_mat es) w = Ok F0 ->
  exists Z0, absent ms [e_mat e] w' = Ok Z0 /\ assemble M Z0 = 0.
Proof.
  unfold absent. intros [Hnd Hid] He Hone Hw.
  assert (Hin : forall m, In m ms -> In m ms) by auto. revert Hin F0. generalize ms at 1 3 4 as ms'.
  induction ms' as [|m ms' IH]; intros Hin F0 HF0; [exists []; auto|]. cbn [sum_forms] in *.
  match type of HF0 with bind ?x _ = _ => destruct x as [K1|x'] eqn:HK1 end; cbn [bind] in HF0; [|discriminate].
  match type of HF0 with bind ?x _ = _ => destruct x as [K2|x'] eqn:HK2 end; cbn [bind] in HF0; [|discriminate].
  destruct (IH (fun m' Hm' => Hin m' (or_intror Hm')) K2 eq_refl) as (Z0 & HZ0 & HA0). rewrite HZ0.
  assert (Hm : exists z, m_id (attrs m) = IdOne z).
  { destruct (mat_in m (map e_mat es)) eqn:Ein.
    - unfold mat_in in Ein. apply existsb_exists in Ein as (x & Hx & Hu). apply in_map_iff in Hx as (e2 & <- & He2).
      apply Nat.eqb_eq in Hu. destruct (Hid m e2 (Hin m (or_introl eq_refl)) He2) as (Hu2 & _).
      rewrite (Hu2 Hu). auto.
    - destruct (m_id (attrs m)); [eauto|discriminate]. }
  destruct Hm as (z & Hm). rewrite Hm. cbn [dx_id bind].
  destruct (mat_in m [e_mat e]) eqn:Eone; cbn [bind].
  + eexists. split; [reflexivity|]. exact HA0.
  + eexists. split; [reflexivity|]. rewrite assemble_app, assemble_cons, assemble_nil, HA0. cbn [fst snd].
    rewrite integral_zero; [lra|]. intros p Hp. apply in_points_cells in Hp as [_ Hp]. apply Hw.
    apply not_true_iff_false. intros Hi. unfold inside in Hi. apply existsb_exists in Hi as (z2 & Hz2 & Ez).
    apply Z.eqb_eq in Ez. rewrite Hp in Ez. subst z2.
    destruct (Hid m e (Hin m (or_introl eq_refl)) He) as (_ & Hu).
    rewrite (Hu z) in Eone; [|rewrite Hm; now left|exact Hz2].
    unfold mat_in in Eone. cbn in Eone. rewrite Nat.eqb_refl in Eone. discriminate.
Qed.

Lemma absent_conglomerated M ms es (w : P -> R) F0 :
  identified ms es ->
  (forall p, In p (q_cells M) -> (forall e, In e es -> inside M (e_mat e) p = false) -> w p = 0) ->
  absent ms (map e_mat es) w = Ok F0 -> assemble M F0 = 0.
Proof.
  intros [Hnd Hid] Hw HF0.
  rewrite (sum_forms_assemble M _ (fun _ => 0) ms F0 HF0).
  - unfold sum_over. now rewrite rsum_map_zero by reflexivity.
  - intros m K Hm HK. destruct (mat_in m (map e_mat es)) eqn:Ein; [apply Ok_inj in HK; now subst K|].
    destruct (m_id (attrs m)) as [z|l] eqn:Em; cbn [dx_id bind] in HK; [|discriminate]. apply Ok_inj in HK. subst K.
    rewrite assemble_cons, assemble_nil. cbn [fst snd]. rewrite integral_zero; [lra|].
    intros p Hp. apply in_points_cells in Hp as [Hc Hp]. apply Hw; [exact Hc|].
    intros e He. apply not_true_iff_false. intros Hi. unfold inside in Hi. apply existsb_exists in Hi as (z2 & Hz2 & Ez).
    apply Z.eqb_eq in Ez. rewrite Hp in Ez. subst z2. destruct (Hid m e Hm He) as (_ & Hu).
    rewrite (Hu z) in Ein; [|rewrite Em; now left|exact Hz2].
    apply not_true_iff_false in Ein. apply Ein. unfold mat_in. apply existsb_exists. exists (e_mat e).
    split; [now apply in_map|apply Nat.eqb_refl].
Qed.

(** The form of a trap without sources: rate of change, then the trapping terms. *)
Definition rate M dt (sol prev test : field P) : R :=
  integral M DxAll (fun p => (val (sol p) - val (prev p)) / dt * val (test p)).
Lemma conglomerated_form mb ms T dt es (sol prev test : field P) F :
  trap_create_form mb ms T dt (conglomerated es sol prev test) = Ok F ->
  exists F1, sum_forms (fun e => trapping_terms mb T (single e sol prev test) 0 (e_mat e)) es = Ok F1 /\
    match dt with
    | Some dt => forall M, assemble M F = rate M dt sol prev test + assemble M F1
    | None => exists F0, absent ms (map e_mat es) (fun p => val (sol p) * val (test p)) = Ok F0 /\
        forall M, assemble M F = assemble M F0 + assemble M F1
    end.
Proof.
  intros HF. unfold trap_create_form, create_trapping_form in HF. cbn [t_sources conglomerated sum_forms] in HF.
  match type of HF with bind (bind ?x _) _ = _ => destruct x as [F0|x'] eqn:HF0 end; cbn [bind] in HF; [|discriminate].
  change (t_materials (conglomerated es sol prev test)) with (map e_mat es) in HF.
  rewrite trap_enum in HF.
  destruct (sum_forms (fun e => trapping_terms mb T (single e sol prev test) 0 (e_mat e)) es) as [F1|x'] eqn:HF1;
    cbn [bind] in HF; [|discriminate].
  apply Ok_inj in HF. subst F. exists F1. split; [reflexivity|]. rewrite app_nil_r.
  destruct dt as [dt|].
  - intros M. apply Ok_inj in HF0. subst F0. rewrite assemble_app, assemble_cons, assemble_nil.
    cbn [fst snd t_solution t_previous t_test conglomerated]. unfold rate. lra.
  - exists F0. split; [exact HF0|]. intros M. apply assemble_app.
Qed.
Lemma single_form mb ms T dt e (sol prev test : field P) G :
  trapping_terms mb T (single e sol prev test) 0 (e_mat e) = Ok G ->
  match dt with
  | Some dt0 => exists F, trap_create_form mb ms T dt (single e sol prev test) = Ok F /\
      forall M, assemble M F = rate M dt0 sol prev test + assemble M G
  | None => forall F0, absent ms [e_mat e] (fun p => val (sol p) * val (test p)) = Ok F0 ->
      exists F, trap_create_form mb ms T dt (single e sol prev test) = Ok F /\
        forall M, assemble M F = assemble M F0 + assemble M G
  end.
Proof.
  intros HG. unfold trap_create_form, create_trapping_form. cbn [t_sources single sum_forms t_materials sum_forms_enum].
  change (mkTrap (Scalar (e_k0 e)) (Scalar (e_Ek e)) (Scalar (e_p0 e)) (Scalar (e_Ep e)) [e_density e] [e_mat e] sol prev test [])
    with (single e sol prev test).
  destruct dt as [dt|].
  - cbn [bind]. rewrite HG. cbn [bind]. eexists. split; [reflexivity|]. intros M.
    rewrite !assemble_app, !assemble_cons, !assemble_nil. cbn [fst snd t_solution t_previous t_test single]. unfold rate. lra.
  - intros F0 HF0. unfold absent in HF0. cbn [t_solution t_test single]. rewrite HF0. cbn [bind]. rewrite HG. cbn [bind].
    eexists. split; [reflexivity|]. intros M. rewrite !assemble_app, !assemble_nil. lra.
Qed.

Lemma terms_elsewhere M mb T e m (sol prev test : field P) F :
  trapping_terms mb T (single e sol prev (part M m test)) 0 (e_mat e) = Ok F ->
  (forall z, In z (ids (m_id (attrs (e_mat e)))) -> ~ In z (ids (m_id (attrs m)))) -> assemble M F = 0.
Proof.
  unfold trapping_terms. cbn [t_k0 t_Ek t_p0 t_Ep t_density t_solution t_test single arg_number index nth_error bind].
  match goal with |- bind ?x _ = _ -> _ => destruct x as [[]|x'] end; cbn [bind]; [|discriminate].
  destruct (get_concentration mb (attrs (e_mat e)) T) as [[c cn]|x]; cbn [bind]; [|discriminate].
  destruct (m_id (attrs (e_mat e))) as [z|l] eqn:Ez; cbn [dx_id bind]; [|discriminate].
  intros H Hd. apply Ok_inj in H. subst F. rewrite !assemble_cons, !assemble_nil. cbn [fst snd].
  assert (Ht : forall p, In p (points M (Dx z)) -> val (part M m test p) = 0).
  { intros p Hp. apply in_points_cells in Hp as [_ Hp]. unfold part, inside.
    destruct (existsb (Z.eqb (q_volume M p)) (ids (m_id (attrs m)))) eqn:E; [|reflexivity].
    apply existsb_exists in E as (z2 & Hz2 & E2). apply Z.eqb_eq in E2. subst z2. rewrite Hp in Hz2.
    exfalso. apply (Hd z); [now left|exact Hz2]. }
  rewrite !integral_zero; [lra| |]; intros p Hp; rewrite (Ht p Hp); ring.
Qed.
Lemma terms_here M mb T e (sol prev test : field P) F :
  trapping_terms mb T (single e sol prev (part M (e_mat e) test)) 0 (e_mat e) = Ok F ->
  exists G, trapping_terms mb T (single e (part M (e_mat e) sol) (part M (e_mat e) prev) test) 0 (e_mat e) = Ok G /\
    assemble M G = assemble M F.
Proof.
  unfold trapping_terms. cbn [t_k0 t_Ek t_p0 t_Ep t_density t_solution t_test single arg_number index nth_error bind].
  match goal with |- bind ?x _ = _ -> _ => destruct x as [[]|x'] end; cbn [bind]; [|discriminate].
  destruct (get_concentration mb (attrs (e_mat e)) T) as [[c cn]|x]; cbn [bind]; [|discriminate].
  destruct (dx_id (m_id (attrs (e_mat e)))) as [z|x] eqn:Ez; cbn [bind]; [|discriminate].
  assert (Hz : m_id (attrs (e_mat e)) = IdOne z).
  { destruct (m_id (attrs (e_mat e))); cbn in Ez; [congruence|discriminate]. }
  intros H. apply Ok_inj in H. subst F. eexists. split; [reflexivity|].
  rewrite !assemble_cons, !assemble_nil. cbn [fst snd].
  f_equal; [|f_equal]; apply integral_ext; intros p Hp;
    now rewrite ?(part_inside M _ _ sol p Hz Hp), ?(part_inside M _ _ test p Hz Hp).
Qed.
End Split.
