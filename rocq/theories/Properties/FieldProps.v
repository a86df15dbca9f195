(** C33-C35, C53, C57: ids of the traps, unknowns, field names. *)
From Coq Require Import ZArith Reals List Bool String Lia Permutation.
From Verif Require Import Base.Exc Base.Key Model.Sources Model.Fields Model.Bcs Model.Exports
  Spec.LayoutSpec Spec.FieldSpec Spec.ExportSpec
  Proofs.KeyProofs Proofs.FieldProofs Proofs.SourceProofs Proofs.BcProofs Proofs.ExportDerived.
Import ListNotations.
Local Open Scope string_scope.
Local Notation length := List.length.

(** * C33 *)

(** Ids given by the user are kept and the others are the positions. *)
Theorem C33_ids_kept (ids : list (option Z)) :
  length (assign_traps_ids ids) = length ids /\
  forall i, (forall z, given ids i z -> nth_error (assign_traps_ids ids) i = Some z) /\
            (missing ids i -> nth_error (assign_traps_ids ids) i = Some (Z.of_nat (S i))).
Proof.
  split; [apply assign_length|]. unfold given, missing, assign_traps_ids. intros i.
  split; [intros z|]; intros H; rewrite assign_nth, H; f_equal; lia.
Qed.
(** The ids are distinct and different from 0 (the name of the mobile species) exactly if those given by
    the user are and do not clash with the positions of the other traps. *)
Theorem C33_ids_distinct_partial (ids : list (option Z)) :
  clash_free ids <-> NoDup (assign_traps_ids ids) /\ ~ In 0%Z (assign_traps_ids ids).
Proof. apply assign_good. Qed.
(** In particular when no id, or only ids equal to the positions, are given. *)
Theorem C33_default_ids (ids : list (option Z)) :
  (forall i z, given ids i z -> z = Z.of_nat (S i)) -> clash_free ids.
Proof.
  unfold clash_free, given, missing. intros H. repeat split.
  - intros i z Hi. apply H in Hi. lia.
  - intros i j z Hi Hj. apply H in Hi, Hj. lia.
  - intros i j Hi Hj. pose proof (H _ _ Hi) as E. assert (i = j) by lia. subst. congruence.
Qed.
(** get_trap(id) returns the trap with this id, and raises a ValueError if there is none. *)
Theorem C33_get_trap (ids : list (option Z)) (id : Z) (i : nat) : clash_free ids ->
  nth_error (assign_traps_ids ids) i = Some id -> get_trap (assign_traps_ids ids) id = Ok (S i).
Proof. intros Hc. apply get_trap_spec. now apply assign_good. Qed.
Theorem C33_get_trap_none (ids : list Z) (id : Z) :
  (exists e, get_trap ids id = Err e) <-> ~ In id ids.
Proof.
  split.
  - intros [e H]. now apply get_from_err in H.
  - intros H. destruct (get_trap ids id) as [p|e] eqn:E; [|eauto]. apply get_from_spec in E as (k & _ & Hk & _).
    apply nth_error_In in Hk. tauto.
Qed.
(** Running it again changes nothing. *)
Theorem C33_ids_stable (ids : list (option Z)) :
  assign_traps_ids (map Some (assign_traps_ids ids)) = assign_traps_ids ids.
Proof.
  unfold assign_traps_ids. generalize (assign_from 1 ids) as l. generalize 1%Z.
  intros z l. revert z. induction l as [|x r IH]; intros z; cbn; [reflexivity|now rewrite IH].
Qed.
(** Otherwise ids clash: [2, None] gives 2 twice, and a trap with id 0 is not refused. *)
Theorem C33_ids_distinct_refuted :
  assign_traps_ids [Some 2; None]%Z = [2; 2]%Z /\ get_trap [2; 2]%Z 2%Z = Ok 1%nat /\
  assign_traps_ids [Some 0]%Z = [0]%Z.
Proof. repeat split. Qed.

Example C33_example : clash_free [None; Some 7; None]%Z /\ assign_traps_ids [None; Some 7; None]%Z = [1; 7; 3]%Z /\
  get_trap [1; 7; 3]%Z 7%Z = Ok 2%nat.
Proof.
  split; [|split; reflexivity]. apply C33_ids_distinct_partial. cbn.
  split; [|intuition discriminate]. repeat constructor; cbn; intuition discriminate.
Qed.

(** * C34 *)


(** When the ids are the positions (the default) every species is initialised with the value of the last
    initial condition that names it (zero if there is none), and all names are found. *)
Theorem C34_initial_conditions_partial {V} (ids : list Z) (inis : list (key * V)) : positional ids ->
  (forall s, initialise_concentrations ids inis = Ok s -> forall sp, last_named ids sp inis (s sp)) /\
  ((exists s, initialise_concentrations ids inis = Ok s) <->
   Forall (fun kv => exists sp, names ids (fst kv) sp) inis).
Proof.
  intros Hp. split; [now apply initial_named|]. now apply initial_success.
Qed.
(** [last_named] determines the value. *)
Theorem C34_unique {V} (ids : list Z) (sp : species) (l : list (key * V)) o1 o2 :
  last_named ids sp l o1 -> last_named ids sp l o2 -> o1 = o2.
Proof.
  intros H. revert o2. induction H as [|l k v o H IH Hk|l k v o H IH Hk]; intros o2 H2; inversion H2 as [E|l' k' v' o' H' Hk' E|l' k' v' o' H' Hk' E];
    try (now apply app_eq_nil in E as [_ E]); try (symmetry in E; now apply app_eq_nil in E as [_ E]); try reflexivity;
    apply app_inj_tail in E as [-> [= -> ->]]; try tauto; auto.
Qed.
(** With other ids an initial condition on a trap reaches it exactly if its id is its position. *)
Theorem C34_initial_conditions_exact (ids : list Z) (i : nat) (z : Z) (k : key) :
  NoDup ids -> ~ In 0%Z ids -> nth_error ids i = Some z -> k = KI z \/ k = KS (str z) ->
  (initialised ids k = Ok (Trap (S i)) <-> z = Z.of_nat (S i)).
Proof.
  intros Hn H0 Hi Hk. rewrite initialised_ok by assumption. split.
  - intros (i' & z' & Hi' & Ho & Hg). assert (z' = z) by (apply (of_id_inj k); assumption). subst z'.
    assert (i' = i) by (rewrite NoDup_nth_error' in Hn; eapply Hn; eassumption). subst i'.
    apply get_from_spec in Hg as (k' & E & Hk' & _). assert (k' = i) by lia. subst k'. congruence.
  - intros ->. exists i, (Z.of_nat (S i)). split; [assumption|]. split; [assumption|]. now apply get_trap_spec.
Qed.
(** Traps with ids 2 and 1: an initial condition on field 2 is given to the trap with id 1; a trap with
    id 5 cannot be initialised. *)
Theorem C34_initial_conditions_refuted :
  initialised [2; 1]%Z (KI 2) = Ok (Trap 2) /\ names [2; 1]%Z (KI 2) (Trap 1) /\
  (exists e, initialised [5]%Z (KI 5) = Err e) /\ names [5]%Z (KI 5) (Trap 1).
Proof.
  split; [reflexivity|]. split; [exists 0%nat, 2%Z; auto|]. split; [eexists; reflexivity|].
  exists 0%nat, 5%Z. auto.
Qed.

Example C34_example : positional [1; 2]%Z /\
  exists s, initialise_concentrations [1; 2]%Z [(KS "solute", 10); (KS "2", 20); (KI 2, 30)] = Ok s /\
    s Mobile = Some 10 /\ s (Trap 1) = None /\ s (Trap 2) = Some 30.
Proof.
  split.
  - intros [|[|[|i]]] z; cbn; try discriminate; intros [= <-]; reflexivity.
  - eexists. split; [reflexivity|]. repeat split.
Qed.

(** * C35 *)

(** The unknowns get the components 0, 1, ..., each unknown exactly one, of the right finite element. *)
Theorem C35_layout (n : nat) (sks : list nat) :
  map snd (solve_layout n sks) = seq 0 (1 + n + list_sum sks) /\
  NoDup (map fst (solve_layout n sks)) /\
  (forall s, In s (map fst (solve_layout n sks)) <-> unknown n sks s) /\
  (forall l, mixed_elements n sks = Some l ->
     length l = (1 + n + list_sum sks)%nat /\
     forall s c, In (s, c) (solve_layout n sks) -> nth_error l c = Some (element_of s)) /\
  (mixed_elements n sks = None -> n = 0%nat /\ list_sum sks = 0%nat).
Proof.
  split; [apply solve_layout_snd|]. split.
  { apply layout_NoDup; [rewrite solve_layout_snd; apply seq_NoDup|apply solve_layout_fun]. }
  split; [apply solve_layout_fst|]. split.
  - intros l Hl. split; [|intros s c; now apply nth_elements].
    unfold mixed_elements in Hl. destruct (_ && _)%bool; [discriminate|]. injection Hl as <-.
    cbn [app length]. rewrite app_length, !repeat_length. reflexivity.
  - unfold mixed_elements. destruct (_ && _)%bool eqn:E; [|discriminate]. intros _.
    apply andb_true_iff in E as [E1 E2]. apply Nat.eqb_eq in E1, E2. auto.
Qed.
(** The same components are used for post-processing and for the initial values of adsorbed species. *)
Theorem C35_same_components (n : nat) (sks : list nat) :
  Permutation (post_layout n sks) (solve_layout n sks) /\
  incl (init_adsorbed_layout n sks) (solve_layout n sks) /\
  forall i, (1 <= i <= n)%nat -> In (SlotTrap i, i) (solve_layout n sks).
Proof.
  split; [apply post_perm|]. split.
  - rewrite solve_layout_eq. intros p Hp. right. apply in_or_app. now right.
  - intros i Hi. apply in_solve_layout. auto.
Qed.
(** Retention is the sum of the mobile and of all the trapped concentrations. *)
Theorem C35_retention (mobile : R) (trap : nat -> R) (ids : list Z) :
  NoDup ids ->
  dict_get (label_to_function 0%R Rplus mobile trap ids) (KS "retention") =
  Some (fold_right Rplus 0%R (mobile :: map trap (seq 1 (length ids)))).
Proof.
  intros Hn. unfold label_to_function.
  destruct (label_get trap ids 1 [(KS "solute", mobile); (KS "0", mobile); (KI 0, mobile);
     (KS "retention", fold_left Rplus (mobile :: map trap (seq 1 (length ids))) 0%R)] (KS "retention") Hn) as [_ H].
  rewrite H.
  - cbn [dict_get key_eqb String.eqb Ascii.eqb Bool.eqb]. f_equal. apply fold_symmetric.
    + intros. symmetry. apply Rplus_assoc.
    + intros. apply Rplus_comm.
  - intros z _ [E|E]; [discriminate|]. injection E as E. symmetry in E. revert E. apply str_not. reflexivity.
Qed.
Example C35_example :
  solve_layout 2 [2; 1] = [(SlotMobile, 0); (SlotTrap 1, 1); (SlotTrap 2, 2); (SlotAdsorbed 0 0, 3);
                           (SlotAdsorbed 0 1, 4); (SlotAdsorbed 1 0, 5)] /\
  mixed_elements 2 [2; 1] = Some [Solute; TrapElement; TrapElement; RealElement; RealElement; RealElement].
Proof. split; reflexivity. Qed.

(** * C53 *)

(** The SurfaceKinetics of a list of boundary conditions. *)
Definition kinetics (l : list bc) : list bc := filter (fun b => is_surfkin (bc_kind_of b)) l.

(** If the boundary conditions are accepted, an AdsorbedHydrogen quantity on the i-th surface of the j-th
    SurfaceKinetics reads the component used for this surface when solving. *)
Theorem C53_adsorbed {F} (n : nat) (heat : bool) (dim : nat) (l : list bc) (u : nat -> F) (read : slot -> F)
  (j i : nat) (b : bc) (s : Z) (c : nat) (cur : option (fval F)) :
  check_boundary_conditions n heat dim l = Ok tt ->
  NoDup (map bc_uid l) ->
  (forall b, In b (kinetics l) -> bc_field b = KI 0 /\ NoDup (bc_surfaces b)) ->
  let sks := map (fun b => length (bc_surfaces b)) (kinetics l) in
  (forall x k, In (x, k) (post_layout n sks) -> read x = u k) ->
  nth_error (kinetics l) j = Some b -> nth_error (bc_surfaces b) i = Some s ->
  In (SlotAdsorbed j i, c) (solve_layout n sks) ->
  adsorbed_function s (label_adsorbed read (map bc_surfaces (kinetics l))) cur = Ok (Some (FFun (u c))).
Proof.
  intros Hck Huid Hk sks Hread Hj Hi Hc.
  apply check_ok in Hck as [_ Hconf].
  set (lab := label_adsorbed read (map bc_surfaces (kinetics l))).
  assert (Huniq : forall g, adsorbed_on s lab g -> g = u c).
  { intros g (sols & surfs & ind & Hin & Hs & Hg). apply in_label_adsorbed in Hin as (j' & Hj' & ->).
    rewrite nth_error_map in Hj'. destruct (nth_error (kinetics l) j') as [b'|] eqn:Eb; [|discriminate].
    injection Hj' as <-.
    assert (Hb : In b (kinetics l)) by now apply nth_error_In in Hj.
    assert (Hb' : In b' (kinetics l)) by now apply nth_error_In in Eb.
    assert (Ebb : bc_uid b = bc_uid b').
    { destruct (Nat.eq_dec (bc_uid b) (bc_uid b')) as [|Hd]; [assumption|exfalso].
      pose proof Hb as Hx. pose proof Hb' as Hy. unfold kinetics in Hx, Hy. apply filter_In in Hx as [Hx Hxk].
      apply filter_In in Hy as [Hy Hyk]. apply (Hconf b b' Hx Hy). split; [assumption|].
      split; [destruct (Hk b Hb), (Hk b' Hb'); congruence|]. split; [left; right; now destruct (bc_kind_of b)|].
      exists s. split; [now apply nth_error_In in Hi|now apply nth_error_In in Hs]. }
    assert (Hku : NoDup (map bc_uid (kinetics l))).
    { clear -Huid. unfold kinetics. induction l as [|x r IH]; cbn [filter map]; [constructor|].
      inversion_clear Huid as [|? ? H1 H2]. destruct (is_surfkin _); [|auto]. cbn [map]. constructor; [|auto].
      intros H. apply H1. apply in_map_iff in H as (y & <- & H). apply filter_In in H as [H _]. now apply in_map. }
    rewrite NoDup_nth_error' in Hku.
    assert (j = j').
    { apply (Hku j j' (bc_uid b)); rewrite nth_error_map; [now rewrite Hj|]. rewrite Eb. cbn. congruence. }
    subst j'. rewrite Hj in Eb. injection Eb as <-.
    assert (i = ind). { destruct (Hk b Hb) as [_ Hd]. rewrite NoDup_nth_error' in Hd. now apply (Hd i ind s). }
    subst ind. rewrite nth_error_map in Hg.
    assert (Hlt : (i < length (bc_surfaces b))%nat) by (apply nth_error_Some; congruence).
    replace (nth_error (seq 0 (length (bc_surfaces b))) i) with (Some i) in Hg.
    2:{ symmetry. rewrite nth_error_nth' with (d := 0%nat) by now rewrite seq_length. now rewrite seq_nth. }
    cbn in Hg. injection Hg as <-. apply Hread. eapply Permutation_in; [symmetry; apply post_perm|exact Hc]. }
  assert (Hex : exists sols surfs, In (sols, surfs) lab /\ In s surfs).
  { exists (map (fun i => read (SlotAdsorbed j i)) (seq 0 (length (bc_surfaces b)))), (bc_surfaces b).
    split; [|now apply nth_error_In in Hi]. apply in_label_adsorbed. exists j. split; [|reflexivity].
    rewrite nth_error_map, Hj. reflexivity. }
  assert (Hlen : forall sols surfs, In (sols, surfs) lab -> length sols = length surfs).
  { intros sols surfs Hin. apply in_label_adsorbed in Hin as (j' & _ & ->). now rewrite map_length, seq_length. }
  clearbody lab. clear -Huniq Hex Hlen.
  assert (Htot : exists r, adsorbed_function s lab cur = Ok r).
  { revert cur. clear Huniq Hex. induction lab as [|[sols surfs] r IH]; intros cur; cbn; [eauto|].
    destruct (index_of s surfs) as [ind|] eqn:Ei; [|apply IH; intros; apply Hlen; now right].
    apply index_of_some in Ei. destruct (nth_error sols ind) eqn:En; [apply IH; intros; apply Hlen; now right|].
    apply nth_error_None in En. rewrite (Hlen sols surfs (or_introl eq_refl)) in En.
    apply nth_error_None in En. congruence. }
  destruct Htot as [r Hr]. rewrite Hr. f_equal.
  assert (Hsome : exists f, r = Some f).
  { clear -Hr Hex. revert cur Hr. induction lab as [|[sols surfs] l IH]; intros cur Hr; cbn in Hr.
    - destruct Hex as (? & ? & [] & _).
    - destruct (index_of s surfs) as [ind|] eqn:Ei.
      + destruct (nth_error sols ind) as [g|]; [|discriminate].
        assert (Hk : forall l cur r, adsorbed_function s l (Some cur) = Ok r -> exists f : fval F, r = Some f).
        { clear. induction l as [|[so su] l IH]; intros cur r H; cbn in H; [injection H as <-; eauto|].
          destruct (index_of s su); [|eauto]. destruct (nth_error so n); [eauto|discriminate]. }
        eauto.
      + apply (IH) with (cur := cur); [|assumption]. destruct Hex as (so & su & [[= <- <-]|Hin] & Hs); [|eauto].
        exfalso. clear -Ei Hs. induction surfs as [|a l IH]; [easy|]. cbn in Ei.
        destruct (Z.eqb_spec a s); [discriminate|]. destruct Hs as [|Hs]; [congruence|].
        destruct (index_of s l); [discriminate|]. now apply IH. }
  destruct Hsome as [f ->]. apply adsorbed_function_spec in Hr as [(g & -> & Hg)|[_ Hno]].
  - now rewrite (Huniq g Hg).
  - destruct Hex as (so & su & Hin & Hs). elim (Hno so su Hin Hs).
Qed.
(** Two SurfaceKinetics on surfaces [3; 1] and [2], one trap: surface 1 is component 3. *)
Example C53_example :
  let l := [mk_bc 0 SurfKin (KI 0) [3; 1]%Z; mk_bc 1 Flux (KI 0) [4]%Z; mk_bc 2 SurfKin (KI 0) [2]%Z] in
  check_boundary_conditions 1 false 1 l = Ok tt /\
  In (SlotAdsorbed 0 1, 3%nat) (solve_layout 1 (map (fun b => length (bc_surfaces b)) (kinetics l))) /\
  adsorbed_function 1%Z
    (label_adsorbed (fun x => match x with SlotAdsorbed 0 i => 2 + i | SlotAdsorbed _ i => 4 + i | _ => 0 end)%nat
      (map bc_surfaces (kinetics l))) None = Ok (Some (FFun 3%nat)).
Proof. cbn. split; [reflexivity|]. split; [tauto|reflexivity]. Qed.

(** * C57 *)

(** With the default ids a field name means the same species for a source, a boundary condition, an
    initial condition and an export; the spellings 0 and "0", i and str(i) are equivalent. *)
Theorem C57_same_species_partial {F} (zero : F) (add : F -> F -> F) (mobile : F) (trap : nat -> F)
  (ids : list Z) (k : key) (sp : species) : positional ids -> sp <> Temp -> k <> KS "mobile" ->
  let n := length ids in
  (dict_get (field_to_object n) k = Some sp <-> names ids k sp) /\
  (initialised ids k = Ok sp <-> names ids k sp) /\
  (names ids k sp -> dict_get (label_to_function zero add mobile trap ids) k =
     Some (match sp with Trap i => trap i | _ => mobile end)) /\
  (names ids k sp -> k <> KS "solute" -> bc_field_ok n k /\
     designates_component k (match sp with Trap i => i | _ => 0 end)).
Proof.
  intros Hp Ht Hm n.
  assert (Hnth : forall i, (i < n)%nat -> nth_error ids i = Some (Z.of_nat (S i))).
  { intros i Hi. destruct (nth_error ids i) as [z|] eqn:E; [f_equal; now apply Hp|].
    apply nth_error_None in E. unfold n in Hi. lia. }
  assert (Hlt : forall i z, nth_error ids i = Some z -> (i < n)%nat).
  { intros i z H. apply nth_error_Some. congruence. }
  split; [|split; [|split]].
  - rewrite field_to_object_get. destruct sp as [| |p]; cbn [designates names In]; [|congruence|].
    + split; [intros [<-|[<-|[<-|[<-|[]]]]]|intros [<-|[<-|[<-|[]]]]]; tauto.
    + split.
      * intros [Hi Ho]. destruct p as [|p]; [lia|]. exists p, (Z.of_nat (S p)). split; [reflexivity|].
        split; [apply Hnth; lia|assumption].
      * intros (i & z & -> & Hi & Ho). pose proof (Hlt _ _ Hi). rewrite (Hp _ _ Hi) in Ho.
        split; [lia|assumption].
  - now apply names_initialised.
  - destruct (positional_good ids Hp) as [Hn H0]. unfold label_to_function.
    match goal with |- context [label_entries trap 1 ids ?x] => set (d := x) end.
    destruct (label_get trap ids 1 d k Hn) as [H1 H2].
    destruct sp as [| |p]; cbn [names]; [|congruence|].
    + intros Hk. rewrite H2.
      * unfold d. destruct Hk as [<-|[<-|[<-|[]]]]; reflexivity.
      * intros z Hz Ho. apply (not_mobile_name k z); [|assumption..]. intros ->. tauto.
    + intros (i & z & -> & Hi & Ho). apply (H1 i z Hi Ho).
  - destruct sp as [| |p]; cbn [names]; [|congruence|].
    + intros [<-|[<-|[<-|[]]]] Hs; [congruence|split..].
      * right. exists 0%nat. split; [lia|]. right. reflexivity.
      * right. reflexivity.
      * right. exists 0%nat. split; [lia|]. left. reflexivity.
      * left. reflexivity.
    + intros (i & z & -> & Hi & Ho) _. pose proof (Hlt _ _ Hi). rewrite (Hp _ _ Hi) in Ho.
      split; [|exact Ho]. right. exists (S i). split; [lia|exact Ho].
Qed.
(** With custom ids a name means different traps to different parts: sources and boundary conditions use
    the position, exports the id, and initial conditions something else. *)
Theorem C57_same_species_refuted :
  let ids := [3; 1; 2]%Z in
  dict_get (field_to_object 3) (KI 1) = Some (Trap 1) /\
  dict_get (label_to_function 0 Nat.add 0 (fun i => i) ids) (KI 1) = Some 2%nat /\
  initialised ids (KI 1) = Ok (Trap 3).
Proof. repeat split. Qed.
Example C57_example : positional [1; 2]%Z /\ names [1; 2]%Z (KS "2") (Trap 2).
Proof.
  split; [|exists 1%nat, 2%Z; auto]. intros [|[|[|i]]] z; cbn; try discriminate; intros [= <-]; reflexivity.
Qed.

Print Assumptions C33_ids_kept.
Print Assumptions C33_ids_distinct_partial.
Print Assumptions C33_default_ids.
Print Assumptions C33_get_trap.
Print Assumptions C33_get_trap_none.
Print Assumptions C33_ids_stable.
Print Assumptions C33_ids_distinct_refuted.
Print Assumptions C34_initial_conditions_partial.
Print Assumptions C34_unique.
Print Assumptions C34_initial_conditions_exact.
Print Assumptions C34_initial_conditions_refuted.
Print Assumptions C35_layout.
Print Assumptions C35_same_components.
Print Assumptions C35_retention.
Print Assumptions C53_adsorbed.
Print Assumptions C57_same_species_partial.
Print Assumptions C57_same_species_refuted.
