(** Terms of traps taken together (C84). *)
From Coq Require Import Reals ZArith List Bool Lra Lia.
From Verif Require Import Base.Exc Base.Dual Model.Materials Model.Laws Model.Theta Model.Forms
  Spec.BalanceSpec Spec.MergeSpec Proofs.ThetaProofs Proofs.FormProofs Proofs.SplitProofs.
Import ListNotations.
Local Open Scope R_scope.
Local Open Scope list_scope.

Section Merge.
Context {P : Type}.
Implicit Types (M : mesh P).

Lemma integral_scale M m k (e : P -> R) : integral M m (fun p => k * e p) = k * integral M m e.
Proof. unfold integral. rewrite <- rsum_map_scale. apply rsum_map_ext. intros. ring. Qed.

(** Parameters read by both equations. *)
Definition params_of (t : trap P) (i : nat) : res (R * R * R * R * (P -> R)) :=
  match t_k0 t with
  | PerMat k =>
      let! k_0 := index k i in let! E_k := arg_index (t_Ek t) i in let! p_0 := arg_index (t_p0 t) i in
      let! E_p := arg_index (t_Ep t) i in let! density := index (t_density t) i in
      Ok (k_0, E_k, p_0, E_p, density)
  | Scalar k_0 =>
      let! E_k := arg_number (t_Ek t) in let! p_0 := arg_number (t_p0 t) in let! E_p := arg_number (t_Ep t) in
      let! density := index (t_density t) 0 in
      Ok (k_0, E_k, p_0, E_p, density)
  end.
Lemma index_map {A B} (f : A -> B) l i : index (map f l) i = (let! x := index l i in Ok (f x)).
Proof. unfold index. rewrite nth_error_map. destruct (nth_error l i); reflexivity. Qed.
Lemma index_combine {A B} (l : list A) (k : list B) i x y :
  index l i = Ok x -> index k i = Ok y -> index (combine l k) i = Ok (x, y).
Proof.
  unfold index. revert k i. induction l as [|a l IH]; intros k i; [destruct i; discriminate|].
  destruct k as [|b k]; [destruct i; cbn; intros; discriminate|]. destruct i as [|i]; cbn.
  - intros H H'. apply Ok_inj in H, H'. now subst.
  - apply IH.
Qed.
Lemma index_length {A B} (l : list A) (k : list B) i x :
  List.length k = List.length l -> index l i = Ok x -> exists y, index k i = Ok y.
Proof.
  unfold index. intros Hl H. destruct (nth_error l i) eqn:E; [|discriminate].
  destruct (nth_error k i) eqn:E'; [eauto|]. apply nth_error_None in E'. rewrite Hl in E'.
  apply nth_error_None in E'. congruence.
Qed.
Lemma params_together t u i k0 Ek p0 Ep n : same_kind t u -> params_of t i = Ok (k0, Ek, p0, Ep, n) ->
  exists n', params_of u i = Ok (k0, Ek, p0, Ep, n') /\
    params_of (together t u) i = Ok (k0, Ek, p0, Ep, fun p => n p + n' p).
Proof.
  intros (H1 & H2 & H3 & H4 & _ & _ & Hlen & _). unfold params_of. rewrite H1, H2, H3, H4. cbn [together t_k0 t_Ek t_p0 t_Ep t_density].
  destruct (t_k0 t) as [k|k].
  - destruct (arg_number (t_Ek t)) as [a|e]; cbn [bind]; [|discriminate].
    destruct (arg_number (t_p0 t)) as [b|e]; cbn [bind]; [|discriminate].
    destruct (arg_number (t_Ep t)) as [c|e]; cbn [bind]; [|discriminate].
    destruct (index (t_density t) 0) as [d|e] eqn:E; cbn [bind]; [|discriminate].
    intros H. apply Ok_inj in H. injection H as -> -> -> -> ->.
    destruct (index_length _ (t_density u) 0 _ Hlen E) as (n' & E'). exists n'. rewrite E'.
    split; [reflexivity|]. rewrite index_map, (index_combine _ _ _ _ _ E E'). reflexivity.
  - destruct (index k i) as [a0|e]; cbn [bind]; [|discriminate].
    destruct (arg_index (t_Ek t) i) as [a|e]; cbn [bind]; [|discriminate].
    destruct (arg_index (t_p0 t) i) as [b|e]; cbn [bind]; [|discriminate].
    destruct (arg_index (t_Ep t) i) as [c|e]; cbn [bind]; [|discriminate].
    destruct (index (t_density t) i) as [d|e] eqn:E; cbn [bind]; [|discriminate].
    intros H. apply Ok_inj in H. injection H as -> -> -> -> ->.
    destruct (index_length _ (t_density u) i _ Hlen E) as (n' & E'). exists n'. rewrite E'.
    split; [reflexivity|]. rewrite index_map, (index_combine _ _ _ _ _ E E'). reflexivity.
Qed.
Lemma params_fraction a t i k0 Ek p0 Ep n : params_of t i = Ok (k0, Ek, p0, Ep, n) ->
  params_of (fraction a t) i = Ok (k0, Ek, p0, Ep, fun p => a * n p).
Proof.
  unfold params_of. cbn [fraction t_k0 t_Ek t_p0 t_Ep t_density]. destruct (t_k0 t) as [k|k].
  - destruct (arg_number (t_Ek t)) as [a1|e]; cbn [bind]; [|discriminate].
    destruct (arg_number (t_p0 t)) as [b|e]; cbn [bind]; [|discriminate].
    destruct (arg_number (t_Ep t)) as [c|e]; cbn [bind]; [|discriminate].
    rewrite index_map. destruct (index (t_density t) 0) as [d|e]; cbn [bind]; [|discriminate].
    intros H. apply Ok_inj in H. injection H as -> -> -> -> ->. reflexivity.
  - destruct (index k i) as [a0|e]; cbn [bind]; [|discriminate].
    destruct (arg_index (t_Ek t) i) as [a1|e]; cbn [bind]; [|discriminate].
    destruct (arg_index (t_p0 t) i) as [b|e]; cbn [bind]; [|discriminate].
    destruct (arg_index (t_Ep t) i) as [c|e]; cbn [bind]; [|discriminate].
    rewrite index_map. destruct (index (t_density t) i) as [d|e]; cbn [bind]; [|discriminate].
    intros H. apply Ok_inj in H. injection H as -> -> -> -> ->. reflexivity.
Qed.

Lemma mobile_together M mb T t u i m K L : same_kind t u ->
  mobile_trapping_terms mb T t i m = Ok K -> mobile_trapping_terms mb T u i m = Ok L ->
  exists N, mobile_trapping_terms mb T (together t u) i m = Ok N /\ assemble M N = assemble M K + assemble M L.
Proof.
  intros Hk. unfold mobile_trapping_terms. fold (params_of t i) (params_of u i) (params_of (together t u) i).
  destruct (params_of t i) as [[[[[k0 Ek] p0] Ep] n]|e] eqn:E; cbn [bind]; [|discriminate].
  destruct (params_together t u i _ _ _ _ _ Hk E) as (n' & -> & ->). cbn [bind].
  destruct (get_concentration mb (attrs m) T) as [c|e]; cbn [bind]; [|discriminate].
  destruct (dx_id (m_id (attrs m))) as [z|e]; cbn [bind]; [|discriminate].
  intros HK HL. apply Ok_inj in HK, HL. subst K L. eexists. split; [reflexivity|].
  rewrite !assemble_cons, !assemble_nil. cbn [fst snd together t_solution dadd val].
  match goal with |- ?a + (?b + 0) = ?c + (?d + 0) + (?e + (?f + 0)) => enough (a = c + e /\ b = d + f) by lra end.
  split; rewrite <- integral_plus; apply integral_ext; intros p _; ring.
Qed.
Lemma trapping_together M mb T t u i m K L : same_kind t u ->
  trapping_terms mb T t i m = Ok K -> trapping_terms mb T u i m = Ok L ->
  exists N, trapping_terms mb T (together t u) i m = Ok N /\ assemble M N = assemble M K + assemble M L.
Proof.
  intros Hk. pose proof Hk as (_ & _ & _ & _ & _ & Ht & _).
  unfold trapping_terms. fold (params_of t i) (params_of u i) (params_of (together t u) i).
  destruct (params_of t i) as [[[[[k0 Ek] p0] Ep] n]|e] eqn:E; cbn [bind]; [|discriminate].
  destruct (params_together t u i _ _ _ _ _ Hk E) as (n' & -> & ->). cbn [bind].
  match goal with |- bind ?x _ = _ -> _ => destruct x as [[]|e]; cbn [bind]; [|discriminate] end.
  destruct (get_concentration mb (attrs m) T) as [c|e]; cbn [bind]; [|discriminate].
  destruct (dx_id (m_id (attrs m))) as [z|e]; cbn [bind]; [|discriminate].
  intros HK HL. apply Ok_inj in HK, HL. subst K L. eexists. split; [reflexivity|].
  rewrite Ht. rewrite !assemble_cons, !assemble_nil. cbn [fst snd together t_solution t_test dadd val].
  match goal with |- ?a + (?b + 0) = ?c + (?d + 0) + (?e + (?f + 0)) => enough (a = c + e /\ b = d + f) by lra end.
  split; rewrite <- integral_plus; apply integral_ext; intros p _; ring.
Qed.
Lemma sum_forms_enum_plus {A} M (f g h : nat -> A -> res (form P)) l : forall i F G,
  sum_forms_enum f i l = Ok F -> sum_forms_enum g i l = Ok G ->
  (forall j a K L, f j a = Ok K -> g j a = Ok L -> exists N, h j a = Ok N /\ assemble M N = assemble M K + assemble M L) ->
  exists H, sum_forms_enum h i l = Ok H /\ assemble M H = assemble M F + assemble M G.
Proof.
  induction l as [|x l IH]; intros i F G; cbn [sum_forms_enum].
  - intros HF HG _. apply Ok_inj in HF, HG. subst. exists []. split; [reflexivity|]. rewrite assemble_nil. lra.
  - destruct (f i x) as [K|e] eqn:E; cbn [bind]; [|discriminate].
    destruct (sum_forms_enum f (S i) l) as [F'|e] eqn:E'; cbn [bind]; [|discriminate].
    destruct (g i x) as [L|e] eqn:D; cbn [bind]; [|discriminate].
    destruct (sum_forms_enum g (S i) l) as [G'|e] eqn:D'; cbn [bind]; [|discriminate].
    intros HF HG Hr. apply Ok_inj in HF, HG. subst F G. destruct (Hr i x K L E D) as (N & -> & HN).
    destruct (IH (S i) F' G' E' D' Hr) as (H & -> & HH). cbn [bind]. eexists. split; [reflexivity|].
    rewrite !assemble_app, HN, HH. lra.
Qed.
Lemma sum_forms_plus {A} M (f g h : A -> res (form P)) l : forall F G,
  sum_forms f l = Ok F -> sum_forms g l = Ok G ->
  (forall a K L, f a = Ok K -> g a = Ok L -> exists N, h a = Ok N /\ assemble M N = assemble M K + assemble M L) ->
  exists H, sum_forms h l = Ok H /\ assemble M H = assemble M F + assemble M G.
Proof.
  induction l as [|x l IH]; intros F G; cbn [sum_forms].
  - intros HF HG _. apply Ok_inj in HF, HG. subst. exists []. split; [reflexivity|]. rewrite assemble_nil. lra.
  - destruct (f x) as [K|e] eqn:E; cbn [bind]; [|discriminate].
    destruct (sum_forms f l) as [F'|e] eqn:E'; cbn [bind]; [|discriminate].
    destruct (g x) as [L|e] eqn:D; cbn [bind]; [|discriminate].
    destruct (sum_forms g l) as [G'|e] eqn:D'; cbn [bind]; [|discriminate].
    intros HF HG Hr. apply Ok_inj in HF, HG. subst F G. destruct (Hr x K L E D) as (N & -> & HN).
    destruct (IH F' G' eq_refl eq_refl Hr) as (H & -> & HH). cbn [bind]. eexists. split; [reflexivity|].
    rewrite !assemble_app, HN, HH. lra.
Qed.
Lemma mobile_enum_together M mb T t u K L : same_kind t u ->
  sum_forms_enum (mobile_trapping_terms mb T t) 0 (t_materials t) = Ok K ->
  sum_forms_enum (mobile_trapping_terms mb T u) 0 (t_materials u) = Ok L ->
  exists N, sum_forms_enum (mobile_trapping_terms mb T (together t u)) 0 (t_materials (together t u)) = Ok N /\
    assemble M N = assemble M K + assemble M L.
Proof.
  intros Hk HK HL. pose proof Hk as (_ & _ & _ & _ & Hm & _). rewrite Hm in HL. cbn [together t_materials].
  apply (sum_forms_enum_plus M _ _ _ _ _ _ _ HK HL). intros j a A B. apply (mobile_together M mb T t u j a A B Hk).
Qed.
Lemma trap_together M mb ms T dt t u K L : same_kind t u ->
  trap_create_form mb ms T dt t = Ok K -> trap_create_form mb ms T dt u = Ok L ->
  exists N, trap_create_form mb ms T dt (together t u) = Ok N /\ assemble M N = assemble M K + assemble M L.
Proof.
  intros Hk. pose proof Hk as (_ & _ & _ & _ & Hm & Ht & _ & Hd). unfold trap_create_form, create_trapping_form.
  rewrite Hm, Ht. cbn [together t_materials].
  match goal with |- bind (bind ?x _) _ = _ -> _ => destruct x as [A0|e] eqn:HA0; cbn [bind]; [|discriminate] end.
  match goal with |- bind (bind ?x _) _ = _ -> _ => destruct x as [A1|e] eqn:HA1; cbn [bind]; [|discriminate] end.
  match goal with |- bind ?x _ = _ -> _ => destruct x as [A2|e] eqn:HA2; cbn [bind]; [|discriminate] end.
  intros HK. apply Ok_inj in HK. subst K.
  match goal with |- bind (bind ?x _) _ = _ -> _ => destruct x as [B0|e] eqn:HB0; cbn [bind]; [|discriminate] end.
  match goal with |- bind (bind ?x _) _ = _ -> _ => destruct x as [B1|e] eqn:HB1; cbn [bind]; [|discriminate] end.
  match goal with |- bind ?x _ = _ -> _ => destruct x as [B2|e] eqn:HB2; cbn [bind]; [|discriminate] end.
  intros HL. apply Ok_inj in HL. subst L.
  destruct (sum_forms_enum_plus M _ _ (trapping_terms mb T (together t u)) _ _ _ _ HA1 HB1) as (N1 & HN1 & E1).
  { intros j a A B. apply (trapping_together M mb T t u j a A B Hk). }
  assert (H2 : exists N2, sum_forms (trap_source_terms (together t u)) (t_sources (together t u)) = Ok N2 /\
    assemble M N2 = assemble M A2 + assemble M B2).
  { cbn [together t_sources]. rewrite sum_forms_app.
    assert (Hs : forall w l, (forall s, In s l -> s_decay s = None) -> t_test w = t_test t ->
       sum_forms (trap_source_terms (together t u)) l = sum_forms (trap_source_terms w) l).
    { intros w l Hl Hw. induction l as [|s l IH]; [reflexivity|]. cbn [sum_forms]. rewrite IH by (intros; apply Hl; now right).
      unfold trap_source_terms. rewrite (Hl s) by now left. cbn [together t_test]. now rewrite Hw. }
    fold (together t u). rewrite (Hs t) by auto. rewrite (Hs u) by auto. rewrite HA2, HB2. cbn [bind].
    eexists. split; [reflexivity|]. apply assemble_app. }
  destruct H2 as (N2 & HN2 & E2).
  assert (H0 : exists N0, match dt with
    | Some dt => Ok [(DxAll, fun p => (val (t_solution (together t u) p) - val (t_previous (together t u) p)) / dt * val (t_test (together t u) p))]
    | None => sum_forms (fun m => if mat_in m (t_materials t) then Ok []
                                  else let! id := dx_id (m_id (attrs m)) in
                                       Ok [(Dx id, fun p => val (t_solution (together t u) p) * val (t_test (together t u) p))]) ms
    end = Ok N0 /\ assemble M N0 = assemble M A0 + assemble M B0).
  { destruct dt as [dt|].
    - apply Ok_inj in HA0, HB0. subst A0 B0. eexists. split; [reflexivity|]. rewrite !assemble_cons, !assemble_nil.
      cbn [fst snd together t_solution t_previous t_test dadd val].
      match goal with |- ?a + 0 = ?c + 0 + (?e + 0) => enough (a = c + e) by lra end.
      rewrite <- integral_plus. apply integral_ext. intros p _. unfold Rdiv. ring.
    - apply (sum_forms_plus M _ _ _ _ _ _ HA0 HB0). intros m A B. cbv beta. destruct (mat_in m (t_materials t)).
      + intros HA HB. apply Ok_inj in HA, HB. subst. exists []. split; [reflexivity|]. rewrite assemble_nil. lra.
      + destruct (dx_id (m_id (attrs m))) as [z|e]; cbn [bind]; [|discriminate].
        intros HA HB. apply Ok_inj in HA, HB. subst. eexists. split; [reflexivity|]. rewrite !assemble_cons, !assemble_nil.
        cbn [fst snd together t_solution t_test dadd val].
        match goal with |- ?a + 0 = ?c + 0 + (?e + 0) => enough (a = c + e) by lra end.
        rewrite <- integral_plus. apply integral_ext. intros p _. ring. }
  destruct H0 as (N0 & HN0 & E0).
  cbn [together t_materials] in *. fold (together t u) in *.
  rewrite HN0. cbn [bind]. rewrite HN1. cbn [bind]. rewrite HN2. cbn [bind].
  eexists. split; [reflexivity|]. rewrite !assemble_app, E0, E1, E2. lra.
Qed.

(** Fractions. *)
Lemma sum_forms_enum_scale {A} M a (f g : nat -> A -> res (form P)) l : forall i F,
  sum_forms_enum f i l = Ok F ->
  (forall j x K, f j x = Ok K -> exists N, g j x = Ok N /\ assemble M N = a * assemble M K) ->
  exists G, sum_forms_enum g i l = Ok G /\ assemble M G = a * assemble M F.
Proof.
  induction l as [|x l IH]; intros i F; cbn [sum_forms_enum].
  - intros H _. apply Ok_inj in H. subst. exists []. split; [reflexivity|]. rewrite assemble_nil. lra.
  - destruct (f i x) as [K|e] eqn:E; cbn [bind]; [|discriminate].
    destruct (sum_forms_enum f (S i) l) as [F'|e] eqn:E'; cbn [bind]; [|discriminate].
    intros H Hr. apply Ok_inj in H. subst F. destruct (Hr i x K E) as (N & -> & HN).
    destruct (IH (S i) F' E' Hr) as (G & -> & HG). cbn [bind]. eexists. split; [reflexivity|].
    rewrite !assemble_app, HN, HG. lra.
Qed.
Lemma sum_forms_scale {A B} M a (f : A -> res (form P)) (g : B -> res (form P)) (b : A -> B) l : forall F,
  sum_forms f l = Ok F ->
  (forall x K, f x = Ok K -> exists N, g (b x) = Ok N /\ assemble M N = a * assemble M K) ->
  exists G, sum_forms g (map b l) = Ok G /\ assemble M G = a * assemble M F.
Proof.
  induction l as [|x l IH]; intros F; cbn [sum_forms map].
  - intros H _. apply Ok_inj in H. subst. exists []. split; [reflexivity|]. rewrite assemble_nil. lra.
  - destruct (f x) as [K|e] eqn:E; cbn [bind]; [|discriminate].
    destruct (sum_forms f l) as [F'|e] eqn:E'; cbn [bind]; [|discriminate].
    intros H Hr. apply Ok_inj in H. subst F. destruct (Hr x K E) as (N & -> & HN).
    destruct (IH F' eq_refl Hr) as (G & -> & HG). cbn [bind]. eexists. split; [reflexivity|].
    rewrite !assemble_app, HN, HG. lra.
Qed.
Lemma mobile_fraction M mb T a t i m K : mobile_trapping_terms mb T t i m = Ok K ->
  exists N, mobile_trapping_terms mb T (fraction a t) i m = Ok N /\ assemble M N = a * assemble M K.
Proof.
  unfold mobile_trapping_terms. fold (params_of t i) (params_of (fraction a t) i).
  destruct (params_of t i) as [[[[[k0 Ek] p0] Ep] n]|e] eqn:E; cbn [bind]; [|discriminate].
  rewrite (params_fraction a t i _ _ _ _ _ E). cbn [bind].
  destruct (get_concentration mb (attrs m) T) as [c|e]; cbn [bind]; [|discriminate].
  destruct (dx_id (m_id (attrs m))) as [z|e]; cbn [bind]; [|discriminate].
  intros HK. apply Ok_inj in HK. subst K. eexists. split; [reflexivity|].
  rewrite !assemble_cons, !assemble_nil. cbn [fst snd fraction t_solution dmul dconst val].
  match goal with |- ?x + (?y + 0) = a * (?u + (?v + 0)) => enough (x = a * u /\ y = a * v) by lra end.
  split; rewrite <- integral_scale; apply integral_ext; intros p _; ring.
Qed.
Lemma trapping_fraction M mb T a t i m K : trapping_terms mb T t i m = Ok K ->
  exists N, trapping_terms mb T (fraction a t) i m = Ok N /\ assemble M N = a * assemble M K.
Proof.
  unfold trapping_terms. fold (params_of t i) (params_of (fraction a t) i).
  destruct (params_of t i) as [[[[[k0 Ek] p0] Ep] n]|e] eqn:E; cbn [bind]; [|discriminate].
  rewrite (params_fraction a t i _ _ _ _ _ E). cbn [bind].
  match goal with |- bind ?x _ = _ -> _ => destruct x as [[]|e]; cbn [bind]; [|discriminate] end.
  destruct (get_concentration mb (attrs m) T) as [c|e]; cbn [bind]; [|discriminate].
  destruct (dx_id (m_id (attrs m))) as [z|e]; cbn [bind]; [|discriminate].
  intros HK. apply Ok_inj in HK. subst K. eexists. split; [reflexivity|].
  rewrite !assemble_cons, !assemble_nil. cbn [fst snd fraction t_solution t_test dmul dconst val].
  match goal with |- ?x + (?y + 0) = a * (?u + (?v + 0)) => enough (x = a * u /\ y = a * v) by lra end.
  split; rewrite <- integral_scale; apply integral_ext; intros p _; ring.
Qed.
Lemma mobile_enum_fraction M mb T a t K :
  sum_forms_enum (mobile_trapping_terms mb T t) 0 (t_materials t) = Ok K ->
  exists N, sum_forms_enum (mobile_trapping_terms mb T (fraction a t)) 0 (t_materials (fraction a t)) = Ok N /\
    assemble M N = a * assemble M K.
Proof. intros HK. apply (sum_forms_enum_scale M a _ _ _ _ _ HK). intros j x A. apply mobile_fraction. Qed.
Lemma trap_fraction M mb ms T dt a t K : trap_create_form mb ms T dt t = Ok K ->
  exists N, trap_create_form mb ms T dt (fraction a t) = Ok N /\ assemble M N = a * assemble M K.
Proof.
  unfold trap_create_form, create_trapping_form.
  match goal with |- bind (bind ?x _) _ = _ -> _ => destruct x as [A0|e] eqn:HA0; cbn [bind]; [|discriminate] end.
  match goal with |- bind (bind ?x _) _ = _ -> _ => destruct x as [A1|e] eqn:HA1; cbn [bind]; [|discriminate] end.
  match goal with |- bind ?x _ = _ -> _ => destruct x as [A2|e] eqn:HA2; cbn [bind]; [|discriminate] end.
  intros HK. apply Ok_inj in HK. subst K.
  destruct (sum_forms_enum_scale M a _ (trapping_terms mb T (fraction a t)) _ _ _ HA1) as (N1 & HN1 & E1).
  { intros j x A. apply trapping_fraction. }
  destruct (sum_forms_scale M a _ (trap_source_terms (fraction a t)) (part_source a) _ _ HA2) as (N2 & HN2 & E2).
  { intros s B. unfold trap_source_terms. cbn [part_source s_volume s_decay s_value].
    destruct (dx_id (s_volume s)) as [z|e]; cbn [bind]; [|discriminate]. intros HB. apply Ok_inj in HB. subst B.
    eexists. split; [reflexivity|]. rewrite !assemble_cons, !assemble_nil. cbn [fst snd fraction t_test t_solution dmul dconst val].
    rewrite !Rplus_0_r, <- integral_scale. apply integral_ext. intros p _. destruct (s_decay s); unfold decay_form; ring. }
  assert (H0 : exists N0, match dt with
    | Some dt => Ok [(DxAll, fun p => (val (t_solution (fraction a t) p) - val (t_previous (fraction a t) p)) / dt * val (t_test (fraction a t) p))]
    | None => sum_forms (fun m => if mat_in m (t_materials (fraction a t)) then Ok []
                                  else let! id := dx_id (m_id (attrs m)) in
                                       Ok [(Dx id, fun p => val (t_solution (fraction a t) p) * val (t_test (fraction a t) p))]) ms
    end = Ok N0 /\ assemble M N0 = a * assemble M A0).
  { destruct dt as [dt|].
    - apply Ok_inj in HA0. subst A0. eexists. split; [reflexivity|]. rewrite !assemble_cons, !assemble_nil.
      cbn [fst snd fraction t_solution t_previous t_test dmul dconst val].
      rewrite !Rplus_0_r, <- integral_scale. apply integral_ext. intros p _. unfold Rdiv. ring.
    - rewrite <- (map_id ms). apply (sum_forms_scale M a _ _ (fun m => m) _ _ HA0). intros m A. cbn [fraction t_materials].
      destruct (mat_in m (t_materials t)).
      + intros HA. apply Ok_inj in HA. subst. exists []. split; [reflexivity|]. rewrite assemble_nil. lra.
      + destruct (dx_id (m_id (attrs m))) as [z|e]; cbn [bind]; [|discriminate].
        intros HA. apply Ok_inj in HA. subst. eexists. split; [reflexivity|]. rewrite !assemble_cons, !assemble_nil.
        cbn [fst snd fraction t_solution t_test dmul dconst val].
        rewrite !Rplus_0_r, <- integral_scale. apply integral_ext. intros p _. ring. }
  destruct H0 as (N0 & HN0 & E0).
  replace (t_sources (fraction a t)) with (map (part_source a) (t_sources t)) by reflexivity.
  replace (t_materials (fraction a t)) with (t_materials t) in * by reflexivity.
  rewrite HN0. cbn [bind]. rewrite HN1. cbn [bind]. rewrite HN2. cbn [bind].
  eexists. split; [reflexivity|]. rewrite !assemble_app, E0, E1, E2. lra.
Qed.
End Merge.
