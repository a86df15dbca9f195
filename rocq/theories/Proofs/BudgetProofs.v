(** Lemmas for C73. *)
From Coq Require Import Reals ZArith List Bool String Lra Lia.
From Verif Require Import Base.Exc Base.Key Base.Dual Model.Materials Model.Exports Model.Laws Model.Theta Model.Forms
  Model.Quantities Model.Fields Model.PostProcess Spec.PhysSpec Spec.BalanceSpec Spec.QuantitySpec Spec.BudgetSpec
  Proofs.FormProofs Proofs.KeyProofs Proofs.FieldProofs Proofs.QuantityProofs.
Import ListNotations.
Local Open Scope R_scope.
Local Open Scope list_scope.

Section Budget.
Context {P : Type}.
Implicit Types (M : mesh P).

Lemma flat M z (e : P -> R) : integral M (Dx z) e
  = total_in (mkMesh (q_cells M) (q_facets M) (q_weight M) (q_volume M) (q_surface M) (q_x0 M) (q_dim M) Cartesian) z e.
Proof.
  unfold integral, total_in, wsum, weight, points. cbn [q_type q_cells q_volume q_weight].
  apply rsum_map_ext. intros p _. ring.
Qed.
Lemma integral_cover M (l : list Z) (e : P -> R) :
  NoDup l -> (forall p, In p (q_cells M) -> In (q_volume M p) l) ->
  sum_over l (fun z => integral M (Dx z) e) = integral M DxAll e.
Proof.
  intros Hn Hc.
  rewrite (sum_over_ext l _ (fun z => total_in (mkMesh (q_cells M) (q_facets M) (q_weight M) (q_volume M) (q_surface M) (q_x0 M) (q_dim M) Cartesian) z e))
    by (intros; apply flat).
  rewrite sum_materials_total by assumption. unfold integral, total, wsum, weight, points. cbn [q_type q_cells q_volume q_weight].
  apply rsum_map_ext. intros p _. ring.
Qed.

(** The post-processing form: the integral of (c - cm) v. *)
Lemma post_forms M ms S_ (sol : field P) (c : P -> R) (cm v : P -> R) F :
  covered M ms ->
  (forall p, In p (q_cells M) -> forall m, In m ms -> In (q_volume M p) (ids (m_id (attrs m))) ->
     c p = law_conc (m_law (attrs m)) (S_ p) (val (sol p))) ->
  form_post_processing (map attrs ms) S_ sol cm v = Ok F ->
  assemble M F = integral M DxAll (fun p => (c p - cm p) * v p).
Proof.
  intros [Hn Hc] Hl. unfold form_post_processing.
  destruct (sum_forms (post_term S_ sol v) (map attrs ms)) as [G|e] eqn:HG; cbn [bind]; [|discriminate].
  intros HF. injection HF as <-. rewrite assemble_cons. cbn [fst snd].
  assert (E : assemble M G = sum_over (all_ids ms) (fun z => integral M (Dx z) (fun p => c p * v p))).
  { clear Hn Hc. revert G HG Hl. induction ms as [|m r IH]; intros G HG Hl.
    - cbn in HG. injection HG as <-. rewrite assemble_nil. reflexivity.
    - cbn [map sum_forms] in HG. unfold post_term at 1 in HG.
      destruct (m_id (attrs m)) as [z|zs] eqn:Hid; cbn [dx_id bind] in HG; [|discriminate].
      assert (HK : exists K, (match m_law (attrs m) with
                              | Sievert => Ok [(Dx z, fun p => val (sol p) * S_ p * v p)]
                              | Henry => Ok [(Dx z, fun p => val (sol p) ^ 2 * S_ p * v p)]
                              end) = Ok K /\ assemble M K = integral M (Dx z) (fun p => c p * v p)).
      { destruct (m_law (attrs m)) eqn:Hlaw; (eexists; split; [reflexivity|]);
          rewrite assemble_cons, assemble_nil; cbn [fst snd]; rewrite Rplus_0_r; apply integral_ext;
          intros p Hp; cbn [points] in Hp; apply filter_In in Hp; destruct Hp as [Hp Hz]; apply Z.eqb_eq in Hz;
          rewrite (Hl p Hp m (or_introl eq_refl)) by (rewrite Hid; cbn; auto); rewrite Hlaw; cbn [law_conc]; ring. }
      destruct HK as (K & HK & EK). rewrite HK in HG. cbn [bind] in HG.
      destruct (sum_forms (post_term S_ sol v) (map attrs r)) as [G'|e] eqn:HG'; cbn [bind] in HG; [|discriminate].
      injection HG as <-. rewrite assemble_app, EK, (IH G' eq_refl).
      + unfold all_ids. cbn [flat_map]. rewrite Hid. cbn [ids app]. now rewrite sum_over_cons.
      + intros p Hp m' Hm'. apply Hl; [exact Hp|now right]. }
  rewrite E, (integral_cover M (all_ids ms)) by (auto; intros p Hp; apply Hc; now left).
  rewrite <- integral_plus. apply integral_ext. intros p _. ring.
Qed.

Lemma total_in_weight M z (f : P -> R) : total_in M z f = integral M DxAll (fun p => f p * weight_in M z p).
Proof.
  unfold total_in. rewrite (wsum_filter M _ (q_cells M)). unfold integral, wsum, points, weight_in.
  apply rsum_map_ext. intros p _. destruct (Z.eqb (q_volume M p) z); ring.
Qed.

(** The exported mobile concentration has the right total in each volume. *)
Lemma post_total M W mb ms T c c_n cm z :
  covered M ms -> concentrations M mb T ms c c_n -> solubility_field M mb T ms -> has_weights M W ->
  mobile_post_processing M W mb cm -> total_in M z (fun p => val (cm p)) = total_in M z c.
Proof.
  intros Hcov Hc HS HW Hp. unfold mobile_post_processing in Hp. unfold solubility_field in HS.
  destruct (mb_class mb) as [|S_ ms'] eqn:Hcl.
  - subst cm. apply wsum_ext. intros p Hin. apply filter_In in Hin. destruct Hin as [Hin _].
    destruct Hcov as [_ Hcov]. specialize (Hcov p (or_introl Hin)). apply in_flat_map in Hcov.
    destruct Hcov as [m [Hm Hz]]. specialize (Hc p (or_introl Hin) m Hm Hz). unfold concentration_at in Hc.
    rewrite Hcl in Hc. symmetry. tauto.
  - destruct HS as [-> HS]. destruct (Hp (weight_in M z) (HW z)) as (F & HF & H0).
    rewrite (post_forms M ms S_ (mb_solution mb) c (fun p => val (cm p)) (weight_in M z) F Hcov) in H0; [| |exact HF].
    2:{ intros p Hin m Hm Hz. specialize (Hc p (or_introl Hin) m Hm Hz). unfold concentration_at in Hc. rewrite Hcl in Hc.
        destruct Hc as (S0 & ES & H1 & H2 & -> & _). destruct (HS p (or_introl Hin) m Hm Hz) as (S0' & ES' & H1' & H2' & ->).
        rewrite H1 in H1'. rewrite H2 in H2'. injection H1' as <-. injection H2' as <-. reflexivity. }
    rewrite !total_in_weight.
    assert (E : integral M DxAll (fun p => (c p - val (cm p)) * weight_in M z p)
              = integral M DxAll (fun p => c p * weight_in M z p) - integral M DxAll (fun p => val (cm p) * weight_in M z p)).
    { unfold Rminus. rewrite <- integral_opp, <- integral_plus. apply integral_ext. intros p _. ring. }
    lra.
Qed.

(** The field named "retention". *)
Lemma retention_field (mobile : field P) (trap : nat -> field P) ids u :
  NoDup ids ->
  dict_get (label_to_function no_field plus_field mobile trap ids) (KS "retention") = Some u ->
  forall p, val (u p) = val (mobile p) + rsum (map (fun i => val (trap i p)) (seq 1 (List.length ids))).
Proof.
  intros Hn Hu p.
  assert (Hu' : u = fold_left plus_field (mobile :: map trap (seq 1 (List.length ids))) no_field).
  { unfold label_to_function in Hu.
    destruct (label_get trap ids 1 [(KS "solute", mobile); (KS "0", mobile); (KI 0, mobile);
       (KS "retention", fold_left plus_field (mobile :: map trap (seq 1 (List.length ids))) no_field)]
       (KS "retention") Hn) as [_ H].
    rewrite H in Hu.
    - cbn [dict_get key_eqb String.eqb Ascii.eqb Bool.eqb] in Hu. injection Hu as <-. reflexivity.
    - intros z _ [E|E]; [discriminate|]. injection E as E. symmetry in E. revert E. apply str_not. reflexivity. }
  subst u. cbn [fold_left].
  assert (F : forall l (f : field P), val (fold_left plus_field (map trap l) f p) = val (f p) + rsum (map (fun i => val (trap i p)) l)).
  { induction l as [|i l IH]; intros f; cbn [map fold_left].
    - rewrite rsum_nil. ring.
    - rewrite IH, rsum_cons. unfold plus_field at 1. cbn [val dadd]. ring. }
  rewrite F. unfold plus_field, no_field. cbn [val dadd dconst]. ring.
Qed.

Lemma traps_of (l : list (trap P)) p :
  rsum (map (fun i => val (nth (pred i) (map t_solution l) no_field p)) (seq 1 (List.length l)))
  = sum_over l (fun t => val (t_solution t p)).
Proof.
  induction l as [|t l IH]; [reflexivity|].
  cbn [List.length seq map]. rewrite rsum_cons, sum_over_cons, <- IH. f_equal.
  rewrite <- (seq_shift (List.length l) 1), map_map. apply rsum_map_ext. intros i Hi. apply in_seq in Hi.
  destruct i as [|i]; [lia|]. reflexivity.
Qed.

Lemma total_sum {A} M (l : list A) (f : A -> P -> R) :
  total M (fun p => sum_over l (fun a => f a p)) = sum_over l (fun a => total M (f a)).
Proof.
  induction l as [|a l IH].
  - unfold sum_over, total, wsum. cbn [map]. change (rsum []) with 0. apply rsum_map_zero. intros p _. ring.
  - rewrite sum_over_cons, <- IH. unfold total. rewrite <- wsum_plus. apply wsum_ext. intros p _. now rewrite sum_over_cons.
Qed.

Lemma chained_before M ms a b :
  covered M ms -> concentrations M (st_mb a) (st_T a) ms (st_c a) (st_cn a) ->
  concentrations M (st_mb b) (st_T b) ms (st_c b) (st_cn b) -> chained a b ->
  inventory_before M (st_cn b) (st_traps b) = inventory M (st_c a) (st_traps a).
Proof.
  intros [Hnd Hcov] Ha Hb [Hcl [Hu [HTn Htr]]]. unfold inventory, inventory_before. f_equal.
  - apply wsum_ext. intros p Hp. specialize (Hcov p (or_introl Hp)). apply in_flat_map in Hcov.
    destruct Hcov as [m [Hm Hz]].
    specialize (Ha p (or_introl Hp) m Hm Hz). specialize (Hb p (or_introl Hp) m Hm Hz).
    unfold concentration_at in *. destruct (mb_class (st_mb a)) as [|Sa msa], (mb_class (st_mb b)) as [|Sb msb]; cbn [same_class] in Hcl; try easy.
    + destruct Ha as [-> _], Hb as [_ ->]. apply Hu.
    + destruct Ha as [S0 [ES [H0 [HE [-> _]]]]], Hb as [S0' [ES' [H0' [HE' [_ ->]]]]].
      rewrite H0 in H0'. rewrite HE in HE'. injection H0' as <-. injection HE' as <-. now rewrite Hu, HTn.
  - induction Htr as [|t u la lb Htu Htr IH]; [reflexivity|]. rewrite !sum_over_cons, IH. f_equal.
    apply wsum_ext. auto.
Qed.
End Budget.
