(** C24-C28: materials, borders and 1D meshes. *)
From Coq Require Import ZArith QArith Qabs List Bool Lia Lqa String.
From Verif Require Import Base.Exc Base.Num Model.Materials Model.Mesh1D Spec.MeshSpec
  Proofs.MaterialProofs Proofs.MeshProofs Proofs.BorderProofs.
Import ListNotations.
Local Open Scope Q_scope.
Local Notation length := List.length.

Section Materials.
Context {P : Type}.
Local Notation material := (material (A:=Q) P).

(** check_borders accepts exactly the materials whose borders, in some order, follow each other from 0 to
    size; anything else is a ValueError.  No border is empty or reversed. *)
Theorem C24_borders_accepted (ms : list material) (size : Q) :
  ms <> [] -> (forall m, In m ms -> borders_of m <> []) -> proper_borders ms ->
  ((exists v, check_borders ms size = Ok v) <-> tiled ms size) /\
  (~ tiled ms size -> exists msg, check_borders ms size = Err (ValueError msg)).
Proof.
  intros Hne Hb Hp. split; [split|].
  - intros [v H]. now apply check_borders_tiled in H.
  - intros H. exists true. now apply tiled_check_borders.
  - intros H. destruct (check_borders ms size) as [v|e] eqn:E; [elim H; now apply check_borders_tiled in E|].
    destruct (check_borders_err _ _ _ Hne Hb E) as [msg ->]. eauto.
Qed.

(** Every point of [0, size] lies in the borders of a material, and only of one away from the ends of
    the borders.  The mesh [m] is arbitrary. *)
Theorem C24_borders_cover (eps : Q) (m : mesh) (ms : list material) r :
  define_measures eps (1 # 2) m ms = Ok r -> (exists mat, In mat ms /\ m_borders mat <> BNone) ->
  forall x, 0 <= x -> x <= size m ->
  (exists mat, In mat ms /\ contains mat x) /\
  (~ interface ms x ->
   exists k mat, nth_error ms k = Some mat /\ contains mat x /\
     (forall k' mat', nth_error ms k' = Some mat' -> contains mat' x -> k' = k)).
Proof.
  intros H Hb x H0 Hx. unfold define_measures in H.
  destruct (Nat.ltb 1 (length ms) && _)%bool eqn:Eb; [discriminate|].
  destruct ms as [|m0 ms']; [discriminate|].
  assert (Hm0 : m_borders m0 <> BNone).
  { intros E. destruct Hb as (mat & [<-|Hin] & Hne); [congruence|].
    destruct ms' as [|m1 ms']; [now elim Hin|]. cbn [length Nat.ltb Nat.leb andb] in Eb.
    cbn [existsb] in Eb. rewrite E in Eb. discriminate. }
  rewrite bind_ok in H. destruct H as (v & Hv & _). destruct (m_borders m0) eqn:E0; [congruence|..].
  all: split; [eapply check_borders_cover; eauto|]; intros Hi;
    destruct (check_borders_cover _ _ _ x Hv H0 Hx) as (mat & Hin & Hc);
    apply In_nth_error in Hin as (k & Hk); exists k, mat; split; [assumption|]; split; [assumption|];
    intros k' mat' Hk' Hc'; eapply contains_unique; eauto; eapply check_borders_unique; eauto.
Qed.

(** Every cell of a mesh of [start, size], 0 <= start, is marked with the id of a material whose borders
    contain its midpoint (the id in the same position as the border), and the marker leads back to it. *)
Theorem C25_cells_marked (eps : Q) (vs : list Q) (m : mesh) (ms : list material) :
  mesh_from_vertices vs = Ok m -> 0 <= start m ->
  check_borders ms (size m) = Ok true -> (forall mat, In mat ms -> well_shaped mat) ->
  check_unique_ids ms = Ok tt ->
  exists vol surf, define_measures eps (1 # 2) m ms = Ok (vol, surf) /\ length vol = length (cells m) /\
  forall j a b, cell_interval m j a b ->
  exists z mat i bd, nth_error vol j = Some z /\ In mat ms /\
    nth_error (borders_of mat) i = Some bd /\ in_interval ((1 # 2) * (a + b)) bd /\ id_at mat i z /\
    find_material_from_id ms z = Ok mat.
Proof.
  intros Hm H0 Hb Hw Hu. pose proof (check_borders_ok _ _ _ Hb) as (Hne & _).
  assert (Hcell : forall j a b, cell_interval m j a b -> 0 <= (1 # 2) * (a + b) <= size m).
  { intros j a b Hc. pose proof (cell_ordered vs m j a b Hm Hc) as Hlt. apply half_mid in Hlt.
    destruct Hc as (p & q & _ & Ha & Hbb). pose proof (mesh_ok vs m Hm) as (Hv & _ & _ & Hst & _ & Hsz).
    rewrite Hv in Ha, Hbb. apply nth_error_In, verts_in in Ha, Hbb.
    specialize (Hst a Ha). specialize (Hsz b Hbb). lra. }
  assert (Hx : forall x, 0 <= x <= size m -> exists mat j bd z, cell_marker ms x = Ok z /\ In mat ms /\
    nth_error (borders_of mat) j = Some bd /\ in_interval x bd /\ id_at mat j z).
  { intros x [Hx0 Hx1]. destruct (find_subdomain_ok ms x Hw Hne) as (mat & j & bd & z & Hf & H).
    - eapply check_borders_cover; eauto.
    - exists mat, j, bd, z. split; [|exact H]. unfold cell_marker. rewrite Hf. reflexivity. }
  assert (Hvol : exists vol, define_volume_markers (1 # 2) m ms = Ok vol).
  { unfold define_volume_markers.
    assert (Hall : forall c, In c (cells m) -> exists z, cell_marker ms (midpoint (1 # 2) m c) = Ok z).
    { intros [p q] Hc. apply In_nth_error in Hc as (j & Hj). pose proof (cells_inv vs m j p q Hm Hj) as (-> & -> & Hl).
      destruct (nth_error (vertices m) j) as [a|] eqn:Ea; [|apply nth_error_None in Ea; lia].
      destruct (nth_error (vertices m) (S j)) as [b|] eqn:Ebb; [|apply nth_error_None in Ebb; lia].
      assert (Hci : cell_interval m j a b) by (exists j, (S j); auto).
      destruct (midpoint_in vs m j a b Hm Hci) as (c & Hc & Hmid). rewrite Hj in Hc. injection Hc as <-.
      rewrite Hmid. destruct (Hx _ (Hcell _ _ _ Hci)) as (mat & i & bd & z & Hz & _). eauto. }
    clear -Hall. induction (cells m) as [|c r IH]; cbn [map mark_cells]; [eauto|].
    destruct (Hall c (or_introl eq_refl)) as (z & ->). cbn [bind].
    destruct IH as (vol & ->); [intros; apply Hall; now right|]. cbn. eauto. }
  destruct Hvol as (vol & Hvol). exists vol, (define_surface_markers eps m).
  split; [|split].
  - unfold define_measures. replace (existsb _ ms) with false.
    2:{ symmetry. apply not_true_is_false. rewrite existsb_exists. intros (mat & Hin & Hbn).
        apply (Hne mat Hin). unfold borders_of. now destruct (m_borders mat). }
    rewrite andb_false_r. destruct ms as [|m0 ms']; [discriminate|].
    assert (Hn0 : m_borders m0 <> BNone).
    { intros E. apply (Hne m0 (or_introl eq_refl)). unfold borders_of. now rewrite E. }
    rewrite Hb. destruct (m_borders m0); [congruence|..]; cbn [bind]; rewrite Hvol; reflexivity.
  - unfold define_volume_markers in Hvol. apply mark_cells_length in Hvol.
    now rewrite map_length in Hvol.
  - intros j a b Hc. destruct (midpoint_in vs m j a b Hm Hc) as (c & Hcj & Hmid).
    destruct (Hx _ (Hcell _ _ _ Hc)) as (mat & i & bd & z & Hz & Hin & Hbd & Hi & Hid).
    exists z, mat, i, bd. split; [|repeat (split; [assumption|])].
    + unfold define_volume_markers in Hvol. apply mark_cells_ok in Hvol.
      assert (Hmapj : nth_error (map (midpoint (1 # 2) m) (cells m)) j = Some ((1 # 2) * (a + b)))
        by (rewrite nth_error_map, Hcj; cbn [option_map]; now rewrite Hmid).
      clear -Hvol Hmapj Hz. revert j Hmapj. induction Hvol as [|x y l l' Hxy _ IH]; intros [|j] Hj; try discriminate; cbn in *.
      * congruence.
      * auto.
    + apply check_unique_ids_iff in Hu. apply In_nth_error in Hin as (k & Hk).
      apply (find_id_unique ms z k mat); auto.
      destruct Hid as [Hid|(l & Hid & Hl)]; [now left|right]. exists l. split; [assumption|].
      eapply nth_error_In; eauto.
Qed.

(** One material without borders: every cell has its id. *)
Theorem C25_single_material (eps : Q) (m : mesh) (mat : material) z :
  m_borders mat = BNone -> m_id mat = IdOne z ->
  define_measures eps (1 # 2) m [mat] =
    Ok (repeat z (length (cells m)), define_surface_markers eps m) /\
  find_material_from_id [mat] z = Ok mat.
Proof.
  intros Hb Hi. split.
  - unfold define_measures. cbn [length Nat.ltb Nat.leb andb]. rewrite Hb. cbn [bind].
    unfold define_volume_markers. replace (mark_cells [mat] _) with (Ok (repeat z (length (cells m)))); [reflexivity|].
    induction (cells m) as [|c r IH]; [reflexivity|]. cbn [map mark_cells length repeat].
    unfold cell_marker. cbn [find_subdomain_from_x_coordinate]. rewrite Hb, Hi. cbn [bind]. now rewrite <- IH.
  - cbn. rewrite Hi. cbn. now rewrite Z.eqb_refl.
Qed.

(** Looking up materials. *)
Theorem C26_lookup (ms : list material) : check_unique_ids ms = Ok tt ->
  (forall k m z, nth_error ms k = Some m -> has_id m z ->
     find_material_from_id ms z = Ok m /\
     (forall k' m', nth_error ms k' = Some m' -> has_id m' z -> k' = k)) /\
  (forall z, (forall m, In m ms -> ~ has_id m z) ->
     exists s, find_material_from_id ms z = Err (ValueError s)).
Proof.
  intros Hu. apply check_unique_ids_iff in Hu. split.
  - intros k m z. now apply find_id_unique.
  - intros z Hz. clear Hu. induction ms as [|a r IH]; cbn [find_material_from_id]; [eauto|].
    destruct (existsb (Z.eqb z) (ids (m_id a))) eqn:E.
    + apply existsb_ids in E. now elim (Hz a (or_introl eq_refl)).
    + apply IH. intros m Hm. apply Hz. now right.
Qed.
(** check_unique_ids raises exactly when an id is repeated, in one material or between two. *)
Theorem C26_unique_ids (ms : list material) :
  check_unique_ids ms = Ok tt <->
  (forall m, In m ms -> forall l, m_id m = IdMany l -> NoDup l) /\
  (forall k k' m m' z, nth_error ms k = Some m -> nth_error ms k' = Some m' ->
     has_id m z -> has_id m' z -> k = k').
Proof.
  rewrite check_unique_ids_iff. split.
  - intros H. split.
    + intros m Hm l Hl. clear -H Hm Hl. induction ms as [|a r IH]; [now elim Hm|].
      unfold all_ids in H. cbn [flat_map] in H. fold (all_ids r) in H. destruct Hm as [->|Hm].
      * rewrite Hl in H. cbn [ids] in H. clear -H. induction l as [|x l IH]; [constructor|].
        inversion H as [|? ? Hni Hn]; subst. constructor; [|auto]. intros Hin. apply Hni, in_or_app. now left.
      * apply IH; [|assumption]. clear -H. induction (ids (m_id a)); [assumption|]. inversion H. auto.
    + intros k k' m m' z Hk Hk' Hz Hz'. destruct (find_id_unique ms z k' m' H Hk' Hz') as [_ Hu]. eapply Hu; eauto.
  - intros [H1 H2]. induction ms as [|a r IH]; [constructor|].
    unfold all_ids. cbn [flat_map]. fold (all_ids r).
    assert (Hr : NoDup (all_ids r)).
    { apply IH; [intros m Hm; apply H1; now right|]. intros k k' m m' z Hk Hk' Hz Hz'.
      specialize (H2 (S k) (S k') m m' z Hk Hk' Hz Hz'). now injection H2. }
    assert (Ha : NoDup (ids (m_id a))).
    { destruct (m_id a) as [z|l] eqn:E; cbn [ids]; [repeat constructor; intros []|]. eapply H1; [now left|exact E]. }
    assert (Hd : forall z, In z (ids (m_id a)) -> ~ In z (all_ids r)).
    { intros z Hz Hz'. apply in_flat_map in Hz' as (m & Hm & Hz'). apply In_nth_error in Hm as (k & Hk).
      apply ids_has in Hz, Hz'. specialize (H2 0%nat (S k) a m z eq_refl Hk Hz Hz'). discriminate. }
    clear -Hr Ha Hd. induction Ha as [|x l Hx Ha IH]; [assumption|]. cbn. constructor.
    + intros Hin. apply in_app_or in Hin as [Hin|Hin]; [tauto|]. apply (Hd x); [now left|assumption].
    + apply IH. intros z Hz. apply Hd. now right.
Qed.
Theorem C26_lookup_by_name (ms : list material) name :
  (forall m, find_material_from_name ms name = Ok m <->
     exists k, nth_error ms k = Some m /\ m_name m = Some name /\
       forall k' m', (k' < k)%nat -> nth_error ms k' = Some m' -> m_name m' <> Some name) /\
  ((forall m, In m ms -> m_name m <> Some name) ->
     exists s, find_material_from_name ms name = Err (ValueError s)).
Proof.
  assert (Hn : forall m : material, name_is name m = true <-> m_name m = Some name).
  { intros m. unfold name_is. destruct (m_name m) as [s|]; [|split; discriminate].
    rewrite String.eqb_eq. split; [now intros ->|now intros [= ->]]. }
  induction ms as [|a r [IH1 IH2]]; cbn [find_material_from_name].
  { split; [|eauto]. intros m. split; [discriminate|]. intros ([|k] & H & _); discriminate. }
  destruct (name_is name a) eqn:E.
  - apply Hn in E. split.
    + intros m. split.
      * intros [= <-]. exists 0%nat. split; [reflexivity|]. split; [assumption|]. intros; lia.
      * intros ([|k] & Hk & Hm & Hf); [now injection Hk as ->|]. exfalso. apply (Hf 0%nat a); [lia|reflexivity|assumption].
    + intros H. now elim (H a (or_introl eq_refl)).
  - assert (Ea : m_name a <> Some name) by (intros H; apply Hn in H; congruence). split.
    + intros m. rewrite IH1. split.
      * intros (k & Hk & Hm & Hf). exists (S k). split; [assumption|]. split; [assumption|].
        intros [|k'] m' Hlt Hk'; [injection Hk' as <-; assumption|]. apply (Hf k'); [lia|assumption].
      * intros ([|k] & Hk & Hm & Hf); [injection Hk as ->; congruence|]. exists k. split; [assumption|].
        split; [assumption|]. intros k' m' Hlt Hk'. apply (Hf (S k')); [lia|assumption].
    + intros H. apply IH2. intros m Hm. apply H. now right.
Qed.

(** What check_materials accepts, rejects and warns about. *)
Theorem C27_all_or_none (ms : list material) T thermal_flux : ms <> [] ->
  ((exists w, check_materials ms T thermal_flux = Ok w) <->
   all_or_none m_S0 ms /\ all_or_none m_ES ms /\ all_or_none m_thermal ms /\ all_or_none m_heat ms /\
   all_or_none m_rho ms /\ all_or_none m_Q ms /\
   ((forall m, In m ms -> m_borders m <> BNone) \/ (forall m, In m ms -> m_borders m = BNone)) /\
   (forall m, In m ms -> forall l, m_id m = IdMany l -> NoDup l) /\
   (forall k k' m m' z, nth_error ms k = Some m -> nth_error ms k' = Some m' ->
      has_id m z -> has_id m' z -> k = k') /\
   needed T ms) /\
  (forall e, check_materials ms T thermal_flux = Err e -> exists s, e = ValueError s) /\
  (forall w, check_materials ms T thermal_flux = Ok w ->
   (In "rho key will be ignored"%string w <-> T = Given /\ exists m, In m ms /\ m_rho m <> None) /\
   (In "heat_capacity key will be ignored"%string w <-> T = Given /\ exists m, In m ms /\ m_heat m <> None) /\
   (In "thermal_cond key will be ignored"%string w <->
      T = Given /\ thermal_flux = false /\ exists m, In m ms /\ m_thermal m <> None) /\
   (forall s, In s w -> In s ["rho key will be ignored"; "heat_capacity key will be ignored";
                              "thermal_cond key will be ignored"]%string)).
Proof.
  intros Hne. split; [|split].
  - rewrite (check_materials_iff ms T thermal_flux Hne), <- border_opt_iff.
    rewrite <- (check_unique_ids_iff ms tt), C26_unique_ids. tauto.
  - apply check_materials_err.
  - intros w Hw. apply check_materials_warnings in Hw as ->. apply warnings_iff.
Qed.
End Materials.

(** The mesh built from a list of vertices. *)
Theorem C28_tiling (vs : list Q) : vs <> [] ->
  exists m, mesh_from_vertices vs = Ok m /\
  (* the ends *)
  In (start m) vs /\ In (size m) vs /\ (forall x, In x vs -> start m <= x <= size m) /\
  (* strictly increasing, exactly the given coordinates *)
  (forall i j a b, nth_error (vertices m) i = Some a -> nth_error (vertices m) j = Some b -> (i < j)%nat -> a < b) /\
  (forall x, In x vs -> exists y, In y (vertices m) /\ y == x) /\
  (forall y, In y (vertices m) -> In y vs) /\
  (* consecutive cells *)
  length (cells m) = (length (vertices m) - 1)%nat /\
  (forall j c, nth_error (cells m) j = Some c -> c = (j, S j)) /\
  (* that tile [start, size] *)
  (forall j a b, cell_interval m j a b -> a < b /\ start m <= a /\ b <= size m) /\
  (start m < size m -> forall x, start m <= x -> x <= size m ->
     exists j a b, cell_interval m j a b /\ a <= x /\ x <= b) /\
  (forall i j a b c d x, cell_interval m i a b -> cell_interval m j c d ->
     a < x -> x < b -> c <= x -> x <= d -> i = j).
Proof.
  intros Hne.
  assert (Hm : exists m, mesh_from_vertices vs = Ok m).
  { destruct vs as [|a r]; [easy|]. unfold mesh_from_vertices. cbn [py_max py_min bind]. eauto. }
  destruct Hm as (m & Hm). exists m. split; [assumption|].
  pose proof (mesh_ok vs m Hm) as (Hv & Hc & H1 & H2 & H3 & H4).
  split; [assumption|]. split; [assumption|]. split; [intros x Hx; split; auto|].
  split; [|split; [|split; [|split; [|split; [|split; [|split]]]]]].
  - intros i j a b Hi Hj Hij. rewrite Hv in *. eapply (sorted_nth _ (verts_sorted vs)); eauto.
  - intros x Hx. rewrite Hv. now apply in_verts.
  - intros y Hy. rewrite Hv in Hy. now apply verts_in.
  - rewrite Hc, Hv, map_length, seq_length. reflexivity.
  - intros j [p q] Hj. apply (cells_inv vs m) in Hj as (-> & -> & _); auto.
  - intros j a b Hj. split; [eapply cell_ordered; eauto|].
    destruct Hj as (p & q & _ & Ha & Hb). rewrite Hv in Ha, Hb. apply nth_error_In, verts_in in Ha, Hb. split; auto.
  - intros Hlt x Hx1 Hx2. eapply cell_cover; eauto.
  - intros. eapply cell_disjoint; eauto.
Qed.
Theorem C28_surfaces (eps : Q) (vs : list Q) (m : mesh) :
  0 < eps -> separated eps vs -> mesh_from_vertices vs = Ok m -> start m < size m ->
  length (define_surface_markers eps m) = length (vertices m) /\
  forall i a, nth_error (vertices m) i = Some a ->
    (a == start m -> nth_error (define_surface_markers eps m) i = Some 1%Z) /\
    (a == size m -> nth_error (define_surface_markers eps m) i = Some 2%Z) /\
    (~ a == start m -> ~ a == size m -> nth_error (define_surface_markers eps m) i = Some 0%Z).
Proof.
  intros He Hs Hm Hlt. pose proof (mesh_ok vs m Hm) as (Hv & Hc & H1 & H2 & H3 & H4).
  unfold define_surface_markers. split; [apply map_length|]. intros i a Ha.
  rewrite nth_error_map, Ha. cbn [option_map].
  assert (Hin : In a vs) by (apply nth_error_In in Ha; rewrite Hv in Ha; now apply verts_in).
  pose proof (H2 a Hin). pose proof (H4 a Hin).
  assert (Hfar : forall x y, In x vs -> In y vs -> x < y -> ~ Qabs (x - y) < eps /\ ~ Qabs (y - x) < eps).
  { intros x y Hx Hy Hxy. specialize (Hs x y Hx Hy Hxy).
    rewrite (Qabs_neg (x - y)) by lra. rewrite (Qabs_pos (y - x)) by lra. lra. }
  assert (Hnear : forall x y, x == y -> Qabs (x - y) < eps).
  { intros x y Hxy. assert (Hz : x - y == 0) by lra. rewrite Hz. exact He. }
  split; [|split].
  - intros E. f_equal. destruct (surface_marker_cases eps a m) as [(-> & Hd)|[(-> & _)|(_ & _ & Hd)]]; [|reflexivity|].
    + exfalso. destruct (Hfar a (size m)); auto; lra.
    + now elim Hd; apply Hnear.
  - intros E. f_equal. destruct (surface_marker_cases eps a m) as [(-> & Hd)|[(-> & Hd & _)|(_ & Hd & _)]]; [reflexivity|..];
      now elim Hd; apply Hnear.
  - intros E1 E2. f_equal. destruct (surface_marker_cases eps a m) as [(-> & Hd)|[(-> & _ & Hd)|(-> & _)]]; [..|reflexivity]; exfalso.
    + destruct (Hfar a (size m)); auto. destruct (Qlt_le_dec a (size m)); [assumption|]. elim E2. lra.
    + destruct (Hfar (start m) a); auto. destruct (Qlt_le_dec (start m) a); [assumption|]. elim E1. lra.
Qed.

(** Examples. *)
Definition mat (i : mat_id) (b : borders (A:=Q)) : material (A:=Q) Q :=
  mkMaterial i None 1 1 None None None None None b None Sievert.

(** Two layers, the second repeated: [0,1] and [2,4] belong to material 1/3, [1,2] to material 2. *)
Definition layers : list (material (A:=Q) Q) :=
  [mat (IdOne 2) (BOne (1, 2)); mat (IdMany [1; 3]%Z) (BMany [(0, 1); (2, 4)])].
Example C24_C25_example :
  exists m, mesh_from_vertices [4; 1 # 2; 0; 2; 1; 2] = Ok m /\ 0 <= start m /\ check_borders layers (size m) = Ok true /\
    (forall x, In x layers -> well_shaped x) /\ check_unique_ids layers = Ok tt /\
    (exists x, In x layers /\ m_borders x <> BNone) /\
    define_measures (1 # 1000) (1 # 2) m layers = Ok ([1; 1; 2; 3]%Z, [1; 0; 0; 0; 2]%Z) /\
    ~ interface layers (3 # 2).
Proof.
  eexists. split; [vm_compute; reflexivity|]. split; [cbn; lra|]. split; [vm_compute; reflexivity|].
  split. { intros x [<-|[<-|[]]]; cbn; auto. }
  split; [vm_compute; reflexivity|].
  split. { eexists. split; [left; reflexivity|]. discriminate. }
  split; [vm_compute; reflexivity|].
  intros (x & b & [<-|[<-|[]]] & Hb & He); cbn in Hb; repeat destruct Hb as [<-|Hb]; try easy; cbn in He; lra.
Qed.
Example C25_single_example : m_borders (mat (IdOne 7) BNone) = BNone /\ m_id (mat (IdOne 7) BNone) = IdOne 7%Z.
Proof. split; reflexivity. Qed.

(** A material with more borders than ids passes all the checks; the cells of the last border get marker 0,
    which no material has. *)
Theorem C25_few_ids_refuted :
  exists (ms : list (material (A:=Q) Q)) m, mesh_from_vertices [0; 1; 2] = Ok m /\
    check_materials ms Given false = Ok [] /\
    define_measures (1 # 1000) (1 # 2) m ms = Ok ([1; 0]%Z, [1; 0; 2]%Z) /\
    find_material_from_id ms 0 = Err (ValueError "Couldn't find ID in materials list").
Proof.
  exists [mat (IdMany [1%Z]) (BMany [(0, 1); (1, 2)])]. eexists.
  split; [vm_compute; reflexivity|]. repeat split.
Qed.
(** A single border given as a nested list passes check_borders and then raises while marking. *)
Theorem C25_nested_border_refuted :
  exists (ms : list (material (A:=Q) Q)) m, mesh_from_vertices [0; 1; 2] = Ok m /\
    check_materials ms Given false = Ok [] /\ check_borders ms (size m) = Ok true /\
    define_measures (1 # 1000) (1 # 2) m ms =
      Err (TypeError "'<=' not supported between instances of 'list' and 'float'").
Proof.
  exists [mat (IdOne 1) (BMany [(0, 2)])]. eexists. split; [vm_compute; reflexivity|]. repeat split.
Qed.

Example C26_example : check_unique_ids layers = Ok tt /\
  (exists k m, nth_error layers k = Some m /\ has_id m 3) /\ (forall m, In m layers -> ~ has_id m 4) /\
  find_material_from_name [mkMaterial (IdOne 1) (Some "W"%string) 1 1 None None None None None BNone None Sievert] "W"
  = Ok (mkMaterial (IdOne 1) (Some "W"%string) 1 1 None None None None None (@BNone Q) None Sievert) /\
  check_unique_ids [mat (IdOne 1) BNone; mat (IdMany [2; 1]%Z) BNone] <> Ok tt.
Proof.
  split; [vm_compute; reflexivity|]. split.
  { exists 1%nat. eexists. split; [reflexivity|]. right. eexists. split; [reflexivity|]. right. now left. }
  split; [|split; [reflexivity|discriminate]].
  intros m [<-|[<-|[]]] [H|(l & H & Hin)]; try discriminate; injection H as <-.
  cbn in Hin. repeat destruct Hin as [Hin|Hin]; easy.
Qed.

Definition warm (rho : option Q) : material (A:=Q) Q :=
  mkMaterial (IdOne 1) None 1 1 None None (Some 2) (Some 3) rho BNone None Sievert.
Example C27_example :
  check_materials [warm (Some 4)] (HeatTransfer true) false = Ok [] /\
  check_materials [warm (Some 4)] Given true = Ok ["rho key will be ignored"; "heat_capacity key will be ignored"]%string /\
  check_materials [warm None] (HeatTransfer true) false = Err (ValueError "Missing rho in materials") /\
  check_materials [warm None; warm (Some 1)] Given false = Err (ValueError "rho is not defined for all materials").
Proof. repeat split. Qed.

(** DOLFIN_EPS = 3e-16; no two vertices are closer. *)
Definition dolfin_eps : Q := 3 # 10000000000000000.
Example C28_example :
  separated dolfin_eps [1; 0; 1 # 2; 1] /\
  exists m, mesh_from_vertices [1; 0; 1 # 2; 1] = Ok m /\ start m < size m /\
    vertices m = [0; 1 # 2; 1] /\ define_surface_markers dolfin_eps m = [1; 0; 2]%Z.
Proof.
  split.
  - intros x y Hx Hy Hlt. unfold dolfin_eps. cbn in Hx, Hy.
    repeat destruct Hx as [<-|Hx]; repeat destruct Hy as [<-|Hy]; try easy; lra.
  - eexists. split; [vm_compute; reflexivity|]. repeat split.
Qed.
(** Vertices closer than DOLFIN_EPS to an end are marked as that end. *)
Theorem C28_close_vertices_refuted :
  exists vs m, mesh_from_vertices vs = Ok m /\ define_surface_markers dolfin_eps m = [1; 1; 2]%Z.
Proof. exists [0; 1 # 10000000000000000; 1]. eexists. split; [vm_compute; reflexivity|]. reflexivity. Qed.

(** The borders of [layers] tile [0, 4]; they do not tile [0, 5]. *)
Example C24_accepted_example : layers <> [] /\ (forall m, In m layers -> borders_of m <> []) /\ proper_borders layers /\
  tiled layers 4 /\ ~ tiled layers 5.
Proof.
  assert (Hne : layers <> []) by discriminate.
  assert (Hb : forall m, In m layers -> borders_of m <> []) by (intros m [<-|[<-|[]]]; discriminate).
  assert (Hp : proper_borders layers).
  { intros m b [<-|[<-|[]]] Hin; cbn in Hin; repeat destruct Hin as [<-|Hin]; try easy; cbn; lra. }
  split; [assumption|]. split; [assumption|]. split; [assumption|]. split.
  - apply C24_borders_accepted; [assumption..|]. exists true. vm_compute. reflexivity.
  - intros H. apply C24_borders_accepted in H as [v H]; [|assumption..]. vm_compute in H. discriminate.
Qed.

Print Assumptions C24_borders_accepted.
Print Assumptions C24_borders_cover.
Print Assumptions C25_cells_marked.
Print Assumptions C25_single_material.
Print Assumptions C25_few_ids_refuted.
Print Assumptions C25_nested_border_refuted.
Print Assumptions C26_lookup.
Print Assumptions C26_unique_ids.
Print Assumptions C26_lookup_by_name.
Print Assumptions C27_all_or_none.
Print Assumptions C28_tiling.
Print Assumptions C28_surfaces.
Print Assumptions C28_close_vertices_refuted.
