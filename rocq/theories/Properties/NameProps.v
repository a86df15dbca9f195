(** C72: ids are names, and neither the order nor the grouping of the inputs matters. *)
From Coq Require Import Reals ZArith List Bool String Permutation Lra Lia.
From Verif Require Import Base.Exc Base.Dual Model.Materials Model.Exports Model.Laws Model.Theta Model.Forms Model.Quantities
  Spec.BalanceSpec Spec.NameSpec Proofs.LawProofs Proofs.ThetaProofs Proofs.FormProofs Proofs.NameProofs Properties.FormProps Properties.QuantityProps.
Import ListNotations.
Local Open Scope R_scope.
Local Open Scope list_scope.

(** Other ids for the volumes and the surfaces, in the mesh and in the inputs: the same value for all fields
    and test functions, or the same exception. *)
Theorem C72_names {P} (vol surf : Z -> Z) (M : mesh P) mb ms T dt traps soret : injective vol -> injective surf ->
  match define_variational_problem M mb ms T dt traps soret,
        define_variational_problem (ren_mesh vol surf M) (ren_mobile vol surf mb) (map (ren_obj vol) ms) T dt (map (ren_trap vol) traps) soret with
  | Ok F, Ok F' => assemble (ren_mesh vol surf M) F' = assemble M F
  | Err e, Err e' => e' = e
  | _, _ => False
  end.
Proof.
  intros Hv Hs. rewrite ren_define by assumption. destruct (define_variational_problem M mb ms T dt traps soret); cbn; [|reflexivity].
  now apply ren_assemble.
Qed.
Print Assumptions C72_names.
Theorem C72_names_heat {P} (vol surf : Z -> Z) (M : mesh P) tr dt T Tn v ms sources bcs : injective vol -> injective surf ->
  match heat_form M tr dt T Tn v ms sources bcs,
        heat_form (ren_mesh vol surf M) tr dt T Tn v (map (ren_obj vol) ms) (map (ren_source vol) sources)
          (map (fun b => (map surf (fst b), snd b)) bcs) with
  | Ok F, Ok F' => assemble (ren_mesh vol surf M) F' = assemble M F
  | Err e, Err e' => e' = e
  | _, _ => False
  end.
Proof.
  intros Hv Hs. rewrite ren_heat by assumption. destruct (heat_form M tr dt T Tn v ms sources bcs); cbn; [|reflexivity].
  now apply ren_assemble.
Qed.
Print Assumptions C72_names_heat.
Theorem C72_names_quantities {P} (vol surf : Z -> Z) (M : mesh P) V x q : injective vol -> injective surf ->
  compute (ren_mesh vol surf M) (ren_space vol surf V) x (ren_quantity vol surf q) = compute M V x q.
Proof. intros. now apply ren_compute. Qed.
Print Assumptions C72_names_quantities.

(** Another order of the materials, traps, sources, conditions, of the materials of each trap (with their
    parameters), and of the surfaces of each condition. *)
Theorem C72_order {P} (M : mesh P) mb mb' ms ms' T dt traps traps' soret :
  mobile_reordered mb mb' -> Permutation ms ms' -> reordered trap_reordered traps traps' ->
  agree M M (define_variational_problem M mb ms T dt traps soret) (define_variational_problem M mb' ms' T dt traps' soret).
Proof. intros. apply pm_agree. now apply reorder_define. Qed.
Print Assumptions C72_order.
Theorem C72_order_heat {P} (M : mesh P) tr dt T Tn v ms ms' sources sources' bcs bcs' :
  Permutation ms ms' -> Permutation sources sources' -> reordered (fun b b' => Permutation (fst b) (fst b') /\ snd b' = snd b) bcs bcs' ->
  agree M M (heat_form M tr dt T Tn v ms sources bcs) (heat_form M tr dt T Tn v ms' sources' bcs').
Proof. intros. apply pm_agree. now apply reorder_heat. Qed.
Print Assumptions C72_order_heat.

(** One source, one condition, one material per id instead of lists. *)
Theorem C72_split {P} (M : mesh P) mb ms T dt traps soret :
  (forall m, In m ms -> ids (m_id (attrs m)) <> []) -> dt <> None \/ traps = [] ->
  agree M M (define_variational_problem M mb ms T dt traps soret)
            (define_variational_problem M (split_mobile mb) (flat_map split_obj ms) T dt traps soret).
Proof. intros Hn Hd. rewrite split_define by assumption. apply pm_agree, pm_refl. Qed.
Print Assumptions C72_split.
Theorem C72_split_heat {P} (M : mesh P) tr dt T Tn v ms sources bcs :
  (forall m, In m ms -> ids (m_id (attrs m)) <> []) -> (forall b, In b bcs -> fst b <> []) ->
  agree M M (heat_form M tr dt T Tn v ms sources bcs)
            (heat_form M tr dt T Tn v (flat_map split_obj ms) (flat_map split_source sources) (flat_map split_heat_bc bcs)).
Proof.
  intros Hn Hb. assert (H := split_heat M tr dt T Tn v ms sources bcs Hn Hb). apply (pm_agree M) in H. revert H.
  destruct (heat_form M tr dt T Tn v (flat_map split_obj ms) _ _), (heat_form M tr dt T Tn v ms sources bcs); cbn; auto.
Qed.
Print Assumptions C72_split_heat.

(** The materials and the sources of a trap are not split: a list of ids raises. *)
Definition wide : mat_obj := mkMatObj 0 (with_id mat_1 (IdMany [1; 2]%Z)).
Definition trap_in (ms : list mat_obj) (ss : list (source nat)) : trap nat :=
  mkTrap (Scalar 6) (Scalar (1/10)) (Scalar 8) (Scalar (2/10)) [fun _ => 9] ms (fun _ => dconst 5) (fun _ => dconst 4) ones ss.
Theorem C72_trap_split_refuted :
  let M := mesh_ty Cartesian in let mb := mobile_1 ClassMobile ones [] [] in
  let wide_source := mkSource (IdMany [1; 2]%Z) (fun _ => 2) None in
  (exists e, define_variational_problem M mb [wide] T400 (Some 2) [trap_in [wide] []] false = Err e) /\
  (exists F, define_variational_problem M mb (split_obj wide) T400 (Some 2) [trap_in (split_obj wide) []] false = Ok F) /\
  (exists e, define_variational_problem M mb (split_obj wide) T400 (Some 2) [trap_in (split_obj wide) [wide_source]] false = Err e) /\
  (exists F, define_variational_problem M mb (split_obj wide) T400 (Some 2) [trap_in (split_obj wide) (split_source wide_source)] false = Ok F).
Proof. repeat split; eexists; reflexivity. Qed.
Print Assumptions C72_trap_split_refuted.
(** In a steady problem a trap raises as soon as a material without this trap has a list of ids. *)
Theorem C72_steady_split_refuted :
  let M := mesh_ty Cartesian in let mb := mobile_1 ClassMobile ones [] [] in
  let other := mkMatObj 1 (with_id mat_2 (IdMany [2; 3]%Z)) in
  (exists e, define_variational_problem M mb [mkMatObj 0 mat_1; other] T400 None [trap_1 ones []] false = Err e) /\
  (exists F, define_variational_problem M mb (mkMatObj 0 mat_1 :: split_obj other) T400 None [trap_1 ones []] false = Ok F).
Proof. split; eexists; reflexivity. Qed.
Print Assumptions C72_steady_split_refuted.
(** The parameters of a trap follow the order of its materials: permuting the materials alone changes the problem. *)
Definition trap_rows (ms : list mat_obj) : trap nat :=
  mkTrap (PerMat [0; 0]) (PerMat [0; 0]) (PerMat [1; 0]) (PerMat [0; 0]) [fun _ => 0; fun _ => 0] ms (fun p => dconst (INR p)) (fun p => dconst (INR p))
    ones [].
Definition no_mobile : mobile nat := mkMobile ClassMobile (fun _ => dconst 0) (fun _ => dconst 0) (fun _ => dconst 0) [] [].
Theorem C72_trap_order_refuted :
  let M := mesh_ty Cartesian in
  let a := mkMatObj 0 mat_1 in let b := mkMatObj 1 mat_2 in
  exists F F', define_variational_problem M no_mobile [a; b] T400 (Some 1) [trap_rows [a; b]] false = Ok F /\
    define_variational_problem M no_mobile [a; b] T400 (Some 1) [trap_rows [b; a]] false = Ok F' /\
    assemble M F <> assemble M F'.
Proof.
  intros M a b. do 2 eexists. split; [reflexivity|]. split; [reflexivity|].
  unfold assemble, integral, rsum. cbn -[exp k_B]. replace (- 0 / k_B / 400) with 0 by (unfold Rdiv; ring). rewrite exp_0. lra.
Qed.
Print Assumptions C72_trap_order_refuted.

(** ** Examples *)
Definition shift (z : Z) : Z := (3 * z - 7)%Z.
Lemma injective_shift : injective shift.
Proof. intros x y. unfold shift. lia. Qed.
Definition mb_72 (cl : mobile_class nat) : mobile nat := mobile_1 cl ones sources_1 (BSurf (sk_1 ones) :: bcs_1).
Definition traps_72 : list (trap nat) := [trap_1 ones [mkSource (IdOne 1) (fun _ => 2) None]; trap_rows two_mats].
Example C72_names_example : forall ty cl, cl = ClassMobile \/ cl = theta_class ->
  injective shift /\ (shift 1 = -4)%Z /\
  exists F, define_variational_problem (mesh_ty ty) (mb_72 cl) two_mats T400 (Some 2) traps_72 false = Ok F /\ (10 < List.length F)%nat.
Proof.
  intros ty cl H. split; [exact injective_shift|]. split; [reflexivity|].
  destruct H as [-> | ->]; destruct ty; eexists; (split; [reflexivity|cbn; lia]).
Qed.
Example C72_names_quantities_example :
  ren_quantity shift shift (on_bar TotalVolume 2) = on_bar TotalVolume (-1) /\
  compute (ren_mesh shift shift bar) (ren_space shift shift bar_fe) bar_ctx (on_bar TotalVolume (-1)) = Ok 7.
Proof. split; [reflexivity|]. unfold compute, integral, angle. cbn. f_equal. ring. Qed.
Definition mb_72' : mobile nat :=
  mobile_1 (ClassTheta S_field [mat_2; mat_1]) ones (rev sources_1) (rev (BSurf (sk_1 ones) :: bcs_1)).
Lemma rows_72 : trap_rows two_mats = trap_of [mkRow 0 0 1 0 (fun _ => 0) (mkMatObj 0 mat_1); mkRow 0 0 0 0 (fun _ => 0) (mkMatObj 1 mat_2)]
  (fun p => dconst (INR p)) (fun p => dconst (INR p)) ones [].
Proof. reflexivity. Qed.
Lemma bc_refl (b : bc nat) : bc_reordered b b.
Proof. destruct b as [T l f|[]]; constructor; apply Permutation_refl. Qed.
Example C72_order_example :
  let swapped := trap_of [mkRow 0 0 0 0 (fun _ => 0) (mkMatObj 1 mat_2); mkRow 0 0 1 0 (fun _ => 0) (mkMatObj 0 mat_1)]
                   (fun p => dconst (INR p)) (fun p => dconst (INR p)) ones [] in
  mobile_reordered (mb_72 theta_class) mb_72' /\ Permutation two_mats (rev two_mats) /\
  reordered trap_reordered traps_72 [swapped; trap_1 ones [mkSource (IdOne 1) (fun _ => 2) None]] /\
  (exists F, define_variational_problem (mesh_ty Cartesian) mb_72' (rev two_mats) T400 (Some 2)
     [swapped; trap_1 ones [mkSource (IdOne 1) (fun _ => 2) None]] false = Ok F).
Proof.
  intros swapped. split; [|split; [apply Permutation_rev|split; [|eexists; reflexivity]]].
  - split; [split; [reflexivity|apply perm_swap]|]. do 3 (split; [reflexivity|]). split; [apply Permutation_rev|].
    exists (rev (BSurf (sk_1 ones) :: bcs_1)). split; [apply Permutation_rev|]. cbn [mb_72' mobile_1 mb_bcs].
    set (l := rev _). clearbody l. induction l; constructor; auto using bc_refl.
  - exists [trap_rows two_mats; trap_1 ones [mkSource (IdOne 1) (fun _ => 2) None]]. split; [apply perm_swap|].
    constructor; [rewrite rows_72; apply per_row; [apply perm_swap|constructor]|]. constructor; [|constructor].
    apply common; apply Permutation_refl.
Qed.
Definition wide_bcs : list (bc nat) := [BFlux false [1; 2]%Z (MassFlux (fun _ => 3) (fun _ => 4)); BSurf (sk_1 ones)].
Example C72_split_example :
  let mb := mobile_1 (ClassTheta S_field [attrs wide]) ones sources_1 wide_bcs in
  (forall m, In m [wide] -> ids (m_id (attrs m)) <> []) /\ List.length (flat_map split_obj [wide]) = 2%nat /\
  List.length (mb_bcs (split_mobile mb)) = 3%nat /\ List.length (mb_sources (split_mobile mb)) = 3%nat /\
  (exists F, define_variational_problem (mesh_ty Cartesian) mb [wide] T400 (Some 2) [trap_in [mkMatObj 0 mat_1] []] false = Ok F).
Proof.
  intros mb. split; [intros m [<-|[]]; discriminate|]. repeat (split; [reflexivity|]). eexists. reflexivity.
Qed.
Example C72_heat_example : forall tr,
  let bcs := [([1; 2]%Z, ConvectiveFlux (fun _ => 3) (fun _ => 300)); ([2%Z], FluxBC (fun _ => 4))] in
  (forall m, In m [wide] -> ids (m_id (attrs m)) <> []) /\ (forall b, In b bcs -> fst b <> []) /\
  reordered (fun b b' : list Z * flux nat => Permutation (fst b) (fst b') /\ snd b' = snd b) bcs
    [([2%Z], FluxBC (fun _ => 4)); ([2; 1]%Z, ConvectiveFlux (fun _ => 3) (fun _ => 300))] /\
  (exists F, heat_form (mesh_ty Spherical) tr 2 (T_T T400) (T_Tn T400) ones [wide] sources_1 bcs = Ok F).
Proof.
  intros tr bcs. split; [intros m [<-|[]]; discriminate|]. split; [intros b [<-|[<-|[]]]; discriminate|]. split.
  - exists (rev bcs). split; [apply Permutation_rev|]. constructor; [split; [apply Permutation_refl|reflexivity]|].
    constructor; [split; [apply perm_swap|reflexivity]|constructor].
  - destruct tr; eexists; reflexivity.
Qed.
