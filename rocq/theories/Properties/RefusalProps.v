(** C112: what is missing or empty is refused, and with which exception. *)
From Coq Require Import ZArith QArith Reals List Bool String Lia.
From Verif Require Import Base.Exc Base.Num Base.Key.
From Verif Require Model.Materials Model.Mesh1D Model.TxtRows Model.Exports Model.Forms Model.Expressions Model.Quantities Model.Checkpoint Model.Solvers.
Import ListNotations.
Local Open Scope string_scope.
Local Open Scope list_scope.
Local Notation length := List.length.
Local Open Scope nat_scope.

Lemma bind_err {A B} (x : res A) (f : A -> res B) e : bind x f = Err e <-> x = Err e \/ exists a, x = Ok a /\ f a = Err e.
Proof.
  destruct x as [a|e']; cbn; split.
  - intros H. right. now exists a.
  - intros [H|(a' & [= <-] & H)]; [discriminate H|exact H].
  - intros [= ->]. now left.
  - intros [[= ->]|(a & H & _)]; [reflexivity|discriminate H].
Qed.

(** ** Materials *)
Section Materials.
Import Model.Materials.
Context {A : Type} {N : Num A} {P : Type}.
Implicit Types l : materials (A:=A) P.

(** A material gives at least one pair of borders. *)
Definition bordered (m : material (A:=A) P) : Prop :=
  match m_borders m with BNone => False | BOne _ => True | BMany l => l <> [] end.

Lemma collect_outcome l :
  (Forall bordered l /\ exists bs, collect_borders l = Ok bs /\ (bs = [] <-> l = [])) \/
  (exists pre m post, l = pre ++ m :: post /\ Forall bordered pre /\
     (m_borders m = BNone /\ collect_borders l = Err (TypeError "'NoneType' object is not subscriptable") \/
      m_borders m = BMany [] /\ collect_borders l = Err (IndexError "list index out of range"))).
Proof.
  induction l as [|m r IH]; [left; split; [constructor|]; exists []; split; [reflexivity|]; tauto|].
  cbn [collect_borders].
  assert (Hm : (bordered m /\ exists bs, bs <> [] /\
      (match m_borders m with BNone => Err (TypeError "'NoneType' object is not subscriptable") | BOne b => Ok [b]
       | BMany [] => Err (IndexError "list index out of range") | BMany bs => Ok bs end) = Ok bs) \/
    m_borders m = BNone \/ m_borders m = BMany []).
  { unfold bordered. destruct (m_borders m) as [|b|[|b bs]]; [right; left; reflexivity| |right; right; reflexivity|].
    - left. split; [exact I|]. exists [b]. split; [discriminate|reflexivity].
    - left. split; [discriminate|]. exists (b :: bs). split; [discriminate|reflexivity]. }
  destruct Hm as [(Hb & bs & Hne & ->)|[Hm|Hm]].
  - cbn [bind]. destruct IH as [(Hr & bs' & -> & _)|(pre & m' & post & -> & Hp & Hc)].
    + left. split; [constructor; assumption|]. cbn [bind]. exists (bs ++ bs'). split; [reflexivity|].
      split; [intros K; apply app_eq_nil in K; tauto|discriminate].
    + right. exists (m :: pre), m', post. split; [reflexivity|]. split; [constructor; assumption|].
      destruct Hc as [[K ->]|[K ->]]; [left|right]; auto.
  - right. exists [], m, r. rewrite Hm. split; [reflexivity|]. split; [constructor|]. left. auto.
  - right. exists [], m, r. rewrite Hm. split; [reflexivity|]. split; [constructor|]. right. auto.
Qed.

(** Borders: the first material without borders decides (None: TypeError, an empty list: IndexError); no materials
    at all: IndexError.  With borders everywhere only the documented ValueErrors are left. *)
Theorem C112_borders l size :
  (l = [] -> check_borders l size = Err (IndexError "list index out of range")) /\
  (forall pre m post, l = pre ++ m :: post -> Forall bordered pre ->
     (m_borders m = BNone -> check_borders l size = Err (TypeError "'NoneType' object is not subscriptable")) /\
     (m_borders m = BMany [] -> check_borders l size = Err (IndexError "list index out of range"))) /\
  (l <> [] -> Forall bordered l -> check_borders l size = Ok true \/ exists s, check_borders l size = Err (ValueError s)).
Proof.
  split; [intros ->; reflexivity|]. split.
  - intros pre m post -> Hp.
    assert (Hc : collect_borders (pre ++ m :: post) = collect_borders (pre ++ m :: post)) by reflexivity.
    assert (Hx : forall e, (match m_borders m with BNone => Err (TypeError "'NoneType' object is not subscriptable") | BOne b => Ok [b]
       | BMany [] => Err (IndexError "list index out of range") | BMany bs => Ok bs end : res (list (A * A))) = Err e ->
       collect_borders (pre ++ m :: post) = Err e).
    { intros e He. clear Hc. induction pre as [|a pre IH].
      - cbn [app collect_borders]. rewrite He. reflexivity.
      - inversion Hp as [|? ? Ha Hp']; subst. cbn [app collect_borders]. rewrite (IH Hp').
        unfold bordered in Ha. destruct (m_borders a) as [|b|[|b bs]]; [destruct Ha|reflexivity|now elim Ha|reflexivity]. }
    unfold check_borders. split; intros Hm; rewrite Hm in Hx; rewrite (Hx _ eq_refl); reflexivity.
  - intros Hl Hb. destruct (collect_outcome l) as [(_ & bs & Hc & Hn)|(pre & m & post & -> & _ & Hm)].
    2: { exfalso. apply Forall_app in Hb as [_ Hb]. inversion Hb as [|? ? Hm' _]; subst. unfold bordered in Hm'.
         destruct Hm as [[K _]|[K _]]; rewrite K in Hm'; [exact Hm'|now elim Hm']. }
    unfold check_borders. rewrite Hc. cbn [bind].
    destruct (sort_borders bs) as [|b r] eqn:Es.
    { exfalso. apply Hl, Hn. destruct bs as [|x y]; [reflexivity|]. cbn [sort_borders] in Es.
      destruct (sort_borders y) as [|c z]; cbn [insert_border] in Es; [discriminate Es|].
      destruct (nltb (fst c) (fst x)); discriminate Es. }
    destruct (negb (neqb (fst b) n0)); [right; eexists; reflexivity|].
    assert (Hm : forall q, check_matching q = Ok tt \/ exists s, check_matching (A:=A) q = Err (ValueError s)).
    { clear. induction q as [|a q IH]; [left; reflexivity|]. cbn [check_matching]. destruct q as [|c q]; [left; reflexivity|].
      destruct (neqb _ _); cbn [negb]; [exact IH|right; eexists; reflexivity]. }
    destruct (Hm (b :: r)) as [-> |[s ->]]; cbn [bind]; [|right; eexists; reflexivity].
    destruct (neqb _ size); [left; reflexivity|right; eexists; reflexivity].
Qed.

(** Thermal properties: no materials at all is an IndexError, only for a heat transfer problem. *)
Theorem C112_thermal l tr :
  check_missing_properties l Given = Ok tt /\
  (l = [] -> check_missing_properties l (HeatTransfer tr) = Err (IndexError "list index out of range")) /\
  (l <> [] -> check_missing_properties l (HeatTransfer tr) = Ok tt \/ exists s, check_missing_properties l (HeatTransfer tr) = Err (ValueError s)).
Proof.
  split; [reflexivity|]. split; [intros ->; reflexivity|]. intros Hl. destruct l as [|m r]; [now elim Hl|]. cbn.
  destruct (negb _); [right; eexists; reflexivity|]. destruct tr; [|left; reflexivity].
  destruct (negb _); [right; eexists; reflexivity|]. destruct (negb _); [right; eexists; reflexivity|left; reflexivity].
Qed.
End Materials.

(** ** The mesh *)
Theorem C112_vertices {A} {N : Num A} (vs : list A) :
  Mesh1D.mesh_from_vertices vs = Err (ValueError "max() arg is an empty sequence") <-> vs = [].
Proof.
  unfold Mesh1D.mesh_from_vertices. destruct vs as [|v r]; cbn; [tauto|]. split; discriminate.
Qed.

(** ** Rows of a TXTExport with filtering *)
Section Rows.
Import Model.TxtRows.
Context {A : Type} {N : Num A} {P : Type}.
Theorem C112_filter dg fl (x : list A) order :
  (dg = true -> fl = true -> unique_indices (P:=P) dg fl None x order = Err (TypeError "'NoneType' object is not iterable")) /\
  (dg = false \/ fl = false -> forall ms, unique_indices (P:=P) dg fl ms x order = Ok order).
Proof.
  split; [intros -> ->; reflexivity|]. intros H ms. unfold unique_indices.
  now replace (dg && fl)%bool with false by (destruct H as [-> | ->]; [|rewrite andb_false_r]; reflexivity).
Qed.
End Rows.

(** ** XDMFExport.mode *)
Section Mode.
Import Model.Exports.
Theorem C112_mode m :
  match set_mode m with
  | Ok (Every n) => m = MInt n /\ (0 < n)%Z
  | Ok Last => m = MStr "last"
  | Err e => (e = ValueError "mode must be positive" /\ exists n, m = MInt n /\ (n <= 0)%Z) \/
             (e = ValueError "accepted values for mode are int and 'last'" /\ (m = MOther \/ exists s, m = MStr s /\ s <> "last"))
  end.
Proof.
  destruct m as [s|z|]; cbn.
  - destruct (String.eqb_spec s "last") as [-> |H]; [reflexivity|]. right. split; [reflexivity|]. right. now exists s.
  - destruct (Z.leb_spec z 0); [left; split; [reflexivity|]; now exists z|auto].
  - right. auto.
Qed.
End Mode.

(** ** Traps and boundary conditions *)
Section Forms.
Import Model.Expressions.
Lemma densities_outcome t i k :
  (forall j, i <= j < i + k -> (if tr_list t then j else 0) < length (density t)) /\ (exists l, densities t i k = Ok l /\ length l = k) \/
  (exists j, (i <= j < i + k)%nat /\ (length (density t) <= (if tr_list t then j else 0))%nat) /\
    densities t i k = Err (IndexError "list index out of range").
Proof.
  revert i. induction k as [|k IH]; intros i.
  - left. split; [intros j Hj; lia|]. now exists [].
  - cbn [densities]. unfold density_at. destruct (nth_error (density t) (if tr_list t then i else 0)) as [v|] eqn:E; cbn [bind].
    + assert (Hlt : ((if tr_list t then i else 0) < length (density t))%nat) by (apply nth_error_Some; congruence).
      destruct (IH (S i)) as [(Hj & l & -> & Hl)|((j & Hj & Hge) & ->)].
      * left. split; [|exists (v :: l); cbn; auto]. intros j Hr. destruct (Nat.eq_dec j i) as [->|]; [exact Hlt|apply Hj; lia].
      * right. split; [|reflexivity]. exists j. split; [lia|exact Hge].
    + right. split; [|reflexivity]. exists i. split; [lia|]. now apply nth_error_None in E.
Qed.
(** The form of a trap can be made exactly if its density has an entry for each of its materials (one if the
    coefficients are not lists, or if there are no materials, none); otherwise IndexError. *)
Theorem C112_densities t :
  let enough := tr_mats t = 0 \/ (if tr_list t then tr_mats t <= length (density t) else 1 <= length (density t)) in
  (enough -> exists r, trap_create_form t = Ok r) /\
  (~ enough -> trap_create_form t = Err (IndexError "list index out of range")).
Proof.
  intros enough. unfold trap_create_form, trapping_values.
  destruct (densities_outcome t 0 (tr_mats t)) as [(Hj & l & -> & _)|((j & Hj & Hge) & ->)]; cbn [bind].
  - split; [intros _; destruct (create_source_form (tr_sources t)); eexists; reflexivity|].
    intros Hn. exfalso. apply Hn. unfold enough. destruct (tr_mats t) as [|k]; [left; reflexivity|right].
    destruct (tr_list t); [specialize (Hj k)|specialize (Hj 0)]; lia.
  - split; [|reflexivity]. intros He. exfalso. unfold enough in He. destruct He as [He|He]; [lia|]. destruct (tr_list t); lia.
Qed.

(** A DirichletBC of the mobile species cannot be used with chemical potentials exactly if it keeps its
    expressions in something that cannot be appended to (CustomDirichlet): AttributeError. *)
Theorem C112_dirichlet chemical field d before n :
  let affected := chemical = true /\ existsb (key_eqb field) [KI 0; KS "0"; KS "solute"] = true /\
    ((exists prms, d = CustomDirichlet prms) \/ d = PlainDirichlet /\ exists l, before = DictValues l) in
  (affected -> create_dirichletbc chemical field d before n = Err (AttributeError "'dict_values' object has no attribute 'append'")) /\
  (~ affected -> exists r, create_dirichletbc chemical field d before n = Ok r).
Proof.
  intros affected. unfold create_dirichletbc. split.
  - intros (-> & -> & [(prms & ->)|(-> & l & ->)]); reflexivity.
  - intros Hn. destruct (create_expression d before n) as [[n' e] subs] eqn:E.
    destruct (existsb (key_eqb field) [KI 0; KS "0"; KS "solute"]) eqn:Ek; cbn [andb]; [|eexists; reflexivity].
    destruct chemical; [|eexists; reflexivity]. unfold normalise_by_solubility. destruct subs as [l|l]; [eexists; reflexivity|].
    exfalso. apply Hn. split; [reflexivity|]. split; [reflexivity|].
    destruct d as [|prms|[]| |]; cbn in E; try discriminate E.
    + right. split; [reflexivity|]. injection E as _ _ ->. now exists l.
    + left. now exists prms.
Qed.
End Forms.

(** ** Extrema *)
Section Extrema.
Import Model.Exports Model.Quantities.
Lemma subset_none markers z i : ~ In z markers -> subset_from i markers z = [].
Proof.
  revert i. induction markers as [|m r IH]; intros i H; [reflexivity|]. cbn.
  destruct (Z.eqb_spec m z) as [->|_]; [elim H; left; reflexivity|]. apply IH. intros K. apply H. now right.
Qed.
(** The extremum over a volume or surface that does not exist: ValueError. *)
Theorem C112_extremum {P} (M : Forms.mesh P) V x q :
  (d_kind q = MaximumVolume \/ d_kind q = MinimumVolume) /\ ~ In (d_id q) (fe_cell_markers V) \/
  (d_kind q = MaximumSurface \/ d_kind q = MinimumSurface) /\ ~ In (d_id q) (fe_facet_markers V) ->
  compute M V x q = Err (ValueError "need at least one array to concatenate").
Proof.
  intros H. unfold compute.
  destruct H as [([-> | ->] & H)|([-> | ->] & H)]; unfold extremum, subset; rewrite (subset_none _ _ 0 H); reflexivity.
Qed.
(** Marked entities without degrees of freedom: also a ValueError. *)
Theorem C112_extremum_no_dofs {P} (M : Forms.mesh P) V x q :
  d_kind q = MaximumVolume \/ d_kind q = MinimumVolume -> In (d_id q) (fe_cell_markers V) ->
  length (fe_cell_dofs V) = length (fe_cell_markers V) -> Forall (fun l => l = []) (fe_cell_dofs V) ->
  compute M V x q = Err (ValueError "zero-size array to reduction operation").
Proof.
  intros Hk Hin Hlen Hall. unfold compute.
  assert (Hs : forall op, extremum op V (subset (fe_cell_markers V) (d_id q)) = Err (ValueError "zero-size array to reduction operation")).
  { intros op. unfold extremum, subd_dofs.
    assert (Hb : forall ms i, (i + length ms <= length (fe_cell_dofs V))%nat -> 
      exists l, map_res (cell_dofs V) (subset_from i ms (d_id q)) = Ok l /\ (In (d_id q) ms -> l <> []) /\ List.concat l = []).
    { induction ms as [|m r IH]; intros i Hi; cbn [subset_from].
      - exists []. cbn. split; [reflexivity|]. split; [tauto|reflexivity].
      - cbn [length] in Hi. destruct (IH (S i)) as (l & Hl & Hn & Hc); [lia|]. destruct (Z.eqb_spec m (d_id q)) as [E|E].
        + cbn [map_res]. unfold cell_dofs at 1. destruct (nth_error (fe_cell_dofs V) i) as [ds|] eqn:En.
          2: { apply nth_error_None in En. lia. }
          cbn [bind]. rewrite Hl. cbn [bind]. exists (ds :: l). split; [reflexivity|]. split; [discriminate|].
          apply nth_error_In in En. rewrite Forall_forall in Hall. rewrite (Hall ds En). exact Hc.
        + exists l. split; [exact Hl|]. split; [|exact Hc]. intros [K|K]; [contradiction|auto]. }
    destruct (Hb (fe_cell_markers V) 0%nat) as (l & Hl & Hn & Hc); [lia|]. unfold subset. rewrite Hl. cbn [bind].
    destruct l as [|a l]; [now elim (Hn Hin)|]. cbn [bind]. rewrite Hc. reflexivity. }
  destruct Hk as [-> | ->]; apply Hs.
Qed.
End Extrema.

(** ** Files *)
Section Files.
Import Model.Checkpoint.
Context {A V : Type}.
Variable float : string -> res A.

(** The elements of the grids of the first collection of a file. *)
Definition elements_of (root : xml) : option (list xml) :=
  match children root with
  | domain :: _ => match children domain with grid :: _ => Some (flat_map children (children grid)) | [] => None end
  | [] => None
  end.
Lemma get_outcome k l : (exists v, get k l = Ok v /\ In (k, v) l) \/ get k l = Err (KeyError k) /\ ~ In k (map fst l).
Proof.
  induction l as [|[k' v] r IH]; cbn [get]; [right; split; [reflexivity|tauto]|].
  destruct (String.eqb_spec k k') as [->|Hk]; [left; exists v; split; [reflexivity|left; reflexivity]|].
  destruct IH as [(w & -> & Hw)|[-> Hn]]; [left; exists w; split; [reflexivity|right; exact Hw]|].
  right. split; [reflexivity|]. cbn. intros [K|K]; [congruence|contradiction].
Qed.
Lemma collect_key what key l e : collect what key l = Err e ->
  e = KeyError key /\ exists x, In x l /\ contains what (tag x) = true /\ ~ In key (map fst (attrib x)).
Proof.
  induction l as [|x r IH]; cbn [collect]; [discriminate|].
  destruct (contains what (tag x)) eqn:E.
  - intros H. apply bind_err in H as [H|(v & _ & H)].
    + destruct (get_outcome key (attrib x)) as [(v & K & _)|[K Hn]]; [congruence|].
      split; [congruence|]. exists x. split; [left; reflexivity|]. auto.
    + apply bind_err in H as [H|(vs & _ & H)]; [|discriminate H].
      destruct (IH H) as (-> & y & Hy & K). split; [reflexivity|]. exists y. split; [right; exact Hy|exact K].
  - intros H. destruct (IH H) as (-> & y & Hy & K). split; [reflexivity|]. exists y. split; [right; exact Hy|exact K].
Qed.
(** The times of a file: a file without a collection of grids is an IndexError, a Time without Value a KeyError, and
    all other exceptions come from float. *)
Theorem C112_times (root : xml) :
  (elements_of root = None -> extract_xdmf_times float root = Err (IndexError "list index out of range")) /\
  (forall l e, elements_of root = Some l -> extract_xdmf_times float root = Err e ->
     (e = KeyError "Value" /\ exists x, In x l /\ contains "Time" (tag x) = true /\ ~ In "Value" (map fst (attrib x))) \/
     exists x s, In x l /\ contains "Time" (tag x) = true /\ In ("Value", s) (attrib x) /\ float s = Err e).
Proof.
  unfold elements_of, extract_xdmf_times, collect_grid. destruct (children root) as [|d ds]; cbn [first bind]; [split; [reflexivity|discriminate]|].
  destruct (children d) as [|g gs]; cbn [first bind]; [split; [reflexivity|discriminate]|]. split; [discriminate|].
  intros l e [= <-] H. apply bind_err in H as [H|(ss & Hs & H)]; [left; now apply collect_key|]. right.
  revert ss Hs H. induction (flat_map children (children g)) as [|x r IH]; intros ss Hs H.
  - cbn in Hs. injection Hs as <-. discriminate H.
  - cbn [collect] in Hs. destruct (contains "Time" (tag x)) eqn:Et.
    + destruct (get_outcome "Value" (attrib x)) as [(v & Hv & Hin)|[Hv _]]; rewrite Hv in Hs; cbn [bind] in Hs; [|discriminate Hs].
      destruct (collect "Time" "Value" r) as [vs|] eqn:Ec; cbn [bind] in Hs; [|discriminate Hs]. injection Hs as <-.
      cbn [floats] in H. apply bind_err in H as [H|(t & _ & H)].
      * exists x, v. split; [left; reflexivity|]. auto.
      * apply bind_err in H as [H|(ts & _ & H)]; [|discriminate H].
        destruct (IH vs eq_refl H) as (y & s & Hy & K). exists y, s. split; [right; exact Hy|exact K].
    + destruct (IH ss Hs H) as (y & s & Hy & K). exists y, s. split; [right; exact Hy|exact K].
Qed.

(** The labels of a file. *)
Theorem C112_labels (root : xml) :
  (elements_of root = None -> extract_xdmf_labels root = Err (IndexError "list index out of range")) /\
  (forall l e, elements_of root = Some l -> extract_xdmf_labels root = Err e ->
     e = KeyError "Name" /\ exists x, In x l /\ contains "Attribute" (tag x) = true /\ ~ In "Name" (map fst (attrib x))).
Proof.
  unfold elements_of, extract_xdmf_labels, collect_grid. destruct (children root) as [|d ds]; cbn [first bind]; [split; [reflexivity|discriminate]|].
  destruct (children d) as [|g gs]; cbn [first bind]; [split; [reflexivity|discriminate]|]. split; [discriminate|].
  intros l e [= <-] H. apply bind_err in H as [H|(ss & _ & H)]; [|discriminate H]. now apply collect_key.
Qed.

(** Reading an initial condition from a file: a missing file first, then a missing label or step. *)
Theorem C112_initial (d : disk A V) s ini :
  (d s = None -> read_ini d s ini = Err (FileNotFoundError s)) /\
  (forall f, d s = Some f -> i_label ini = None \/ i_step ini = None -> read_ini d s ini = Err (TypeError "incompatible function arguments")).
Proof.
  unfold read_ini, open_file. split; [intros ->; reflexivity|]. intros f ->. cbn [bind].
  intros [-> | ->]; [reflexivity|]. destruct (i_label ini); reflexivity.
Qed.
(** Building one: refused exactly if it names an XDMF file without a label (reported first) or without a step. *)
Theorem C112_initial_built (v : ini_value (V:=V)) l k :
  let from_file := exists s, v = IStr s /\ Paths.endswith s ".xdmf" = true in
  (forall e, InitialCondition v l k = Err e <->
     from_file /\ (l = None /\ e = ValueError "label cannot be None" \/ l <> None /\ k = None /\ e = ValueError "time_step cannot be None")) /\
  (forall ini, InitialCondition v l k = Ok ini -> ini = mkIni v l k /\ (from_file -> l <> None /\ k <> None)).
Proof.
  intros from_file. unfold InitialCondition. cbv zeta.
  assert (Hn : forall w, v = IExpr w -> ~ from_file) by (intros w -> (s & E & _); discriminate E).
  destruct v as [s|w].
  - destruct (Paths.endswith s ".xdmf") eqn:Es.
    + assert (Hf : from_file) by now exists s. destruct l as [l|]; [destruct k as [k|]|].
      * split; [intros e; split; [discriminate|intros (_ & [[G _]|(_ & G & _)]); discriminate]|].
        intros ini [= <-]. split; [reflexivity|]. intros _. split; discriminate.
      * split; [|discriminate]. intros e. split; [intros [= <-]; split; [exact Hf|right; repeat split; discriminate]|].
        intros (_ & [[G _]|(_ & _ & ->)]); [discriminate|reflexivity].
      * split; [|discriminate]. intros e. split; [intros [= <-]; split; [exact Hf|left; now split]|].
        intros (_ & [[_ ->]|(G & _)]); [reflexivity|congruence].
    + assert (Hf : ~ from_file) by (intros (s' & [= <-] & E); congruence).
      split; [intros e; split; [discriminate|intros (G & _); contradiction]|]. intros ini [= <-]. split; [reflexivity|]. intros G. contradiction.
  - assert (Hf := Hn w eq_refl).
    split; [intros e; split; [discriminate|intros (G & _); contradiction]|]. intros ini [= <-]. split; [reflexivity|]. intros G. contradiction.
Qed.
(** So reading one that has been built fails only for a missing file or a file without that function at that step. *)
Theorem C112_initial_read (d : disk A V) v l k ini s e : InitialCondition v l k = Ok ini -> v = IStr s -> Paths.endswith s ".xdmf" = true ->
  read_ini d s ini = Err e ->
  e = FileNotFoundError s /\ d s = None \/
  exists f name step, e = RuntimeError "XDMF file has no such function" /\ d s = Some f /\ l = Some name /\ k = Some step /\
    read_checkpoint f name step = Err e.
Proof.
  intros H Hv Hs. destruct (C112_initial_built v l k) as [_ G]. destruct (G ini H) as [-> G']. clear G.
  destruct G' as [Hl Hk]; [now exists s|]. unfold read_ini, open_file. destruct (d s) as [f|]; cbn [bind]; [|intros [= <-]; now left].
  cbn [i_label i_step]. destruct l as [l|]; [|congruence]. destruct k as [k|]; [|congruence]. intros E. right. exists f, l, k.
  split; [|repeat split; exact E]. unfold read_checkpoint in E. cbv zeta in E.
  match type of E with match ?x with _ => _ end = _ => destruct x end; congruence.
Qed.
Example C112_initial_example :
  InitialCondition (IStr "u.xdmf" : ini_value (V:=V)) None None = Err (ValueError "label cannot be None") /\
  InitialCondition (IStr "u.xdmf" : ini_value (V:=V)) (Some "u") None = Err (ValueError "time_step cannot be None") /\
  (exists ini, InitialCondition (IStr "u.xdmf" : ini_value (V:=V)) (Some "u") (Some 0%Z) = Ok ini /\
     read_ini (fun _ => None : option (file A V)) "u.xdmf" ini = Err (FileNotFoundError "u.xdmf")) /\
  (exists ini, InitialCondition (IStr "u.txt" : ini_value (V:=V)) None None = Ok ini).
Proof. repeat split; try reflexivity; eexists; (try split; reflexivity). Qed.
End Files.

(** ** Newton solvers *)
Section Newton.
Import Model.Solvers.
(** A refused assignment stops the user's program there; accepted programs never assign anything else than None or
    a solver. *)
Theorem C112_solver k o l :
  (forall pre post o', l = pre ++ SetSolver VOther :: post -> exec k o pre = Ok o' ->
     exec k o l = Err (TypeError "accepted type for newton_solver is fenics.NewtonSolver")) /\
  (forall e, exec k o l = Err e -> e = TypeError "accepted type for newton_solver is fenics.NewtonSolver" /\ In (SetSolver VOther) l).
Proof.
  split.
  - intros pre post o' -> . revert o. induction pre as [|x pre IH]; intros o H; [reflexivity|].
    cbn [app exec] in *. destruct (step k o x) as [o1|]; cbn [bind] in *; [now apply IH|discriminate H].
  - revert o. induction l as [|x r IH]; intros o e H; cbn [exec] in H; [discriminate H|].
    apply bind_err in H as [H|(o1 & _ & H)].
    + destruct x as [p|[|s|]|tr]; cbn in H; try discriminate H.
      * injection H as <-. split; [reflexivity|left; reflexivity].
      * unfold initialise in H. destruct k; [discriminate H| |destruct tr; discriminate H].
        destruct (ow_solver o); discriminate H.
    + destruct (IH o1 e H) as [-> K]. split; [reflexivity|right; exact K].
Qed.
(** The message about overwritten settings is printed once for each solver that replaces another one: never for the
    first one. *)
Theorem C112_first_silent p v o : step Heat (new_owner p) (SetSolver v) = Ok o -> ow_printed o = 0.
Proof. destruct v; cbn; try discriminate; intros [= <-]; reflexivity. Qed.
End Newton.

(** ** Examples *)
Section Examples.
Import Model.Materials.
Local Open Scope Q_scope.
Definition mat (b : borders (A:=Q)) : material (A:=Q) unit := mkMaterial (IdOne 1%Z) None tt tt None None None None None b None Sievert.
Example C112_materials_example :
  check_borders [mat (BOne (0, 1)); mat BNone; mat (BMany [])] 2 = Err (TypeError "'NoneType' object is not subscriptable") /\
  check_borders [mat (BOne (0, 1)); mat (BMany []); mat BNone] 2 = Err (IndexError "list index out of range") /\
  check_borders [mat (BMany [(1, 2)]); mat (BOne (0, 1))] 2 = Ok true /\
  check_missing_properties [mat BNone] (HeatTransfer true) = Err (ValueError "Missing thermal_cond in materials").
Proof. vm_compute. repeat split; reflexivity. Qed.
Example C112_forms_example :
  let t n := Expressions.mkTrap (repeat Expressions.Const n) true 2 [] None [] in
  Expressions.trap_create_form (t 1%nat) = Err (IndexError "list index out of range") /\
  (exists r, Expressions.trap_create_form (t 2%nat) = Ok r) /\
  Expressions.create_dirichletbc true (KI 0) (Expressions.CustomDirichlet []) (Expressions.PyList []) 0%nat =
    Err (AttributeError "'dict_values' object has no attribute 'append'") /\
  exists r, Expressions.create_dirichletbc true (KI 0) Expressions.SievertsBC (Expressions.PyList []) 0%nat = Ok r.
Proof. cbn. split; [reflexivity|]. split; [eexists; reflexivity|]. split; [reflexivity|eexists; reflexivity]. Qed.
Example C112_files_example :
  let float := fun s => if String.eqb s "x" then Err (ValueError "could not convert string to float: 'x'") else Ok s in
  let xdmf elements := Checkpoint.Node "Xdmf" [] [Checkpoint.Node "Domain" [] [Checkpoint.Node "Grid" [] [Checkpoint.Node "Grid" [] elements]]] in
  Checkpoint.extract_xdmf_times float (xdmf [Checkpoint.Node "Time" [("Value", "1")] []]) = Ok ["1"] /\
  Checkpoint.extract_xdmf_times float (xdmf [Checkpoint.Node "Time" [] []]) = Err (KeyError "Value") /\
  Checkpoint.extract_xdmf_times float (xdmf [Checkpoint.Node "Time" [("Value", "x")] []]) =
    Err (ValueError "could not convert string to float: 'x'") /\
  Checkpoint.extract_xdmf_times float (Checkpoint.Node "Xdmf" [] [Checkpoint.Node "Domain" [] []]) = Err (IndexError "list index out of range").
Proof. vm_compute. repeat split; reflexivity. Qed.
Example C112_extremum_example {P} (M : Forms.mesh P) x f :
  let V := Quantities.mkFe [1; 1; 2]%Z [0; 1; 0; 2]%Z [[0; 1]; [1; 2]; [2; 3]]%nat [1; 2; 3; 4]%R in
  Quantities.compute M V x (Quantities.mkDq Exports.MaximumVolume f 3 (0, 1)%R (0, 1)%R false None) = Err (ValueError "need at least one array to concatenate").
Proof. cbv zeta. apply C112_extremum. left. split; [left; reflexivity|]. cbn. intros [K|[K|[K|[]]]]; discriminate K. Qed.
Example C112_solver_example p :
  Solvers.exec Solvers.Heat (Solvers.new_owner p) [Solvers.SetSolver (Solvers.VSolver (Solvers.Custom 0)); Solvers.SetSolver Solvers.VOther; Solvers.Initialise true] =
  Err (TypeError "accepted type for newton_solver is fenics.NewtonSolver").
Proof. reflexivity. Qed.
End Examples.

Print Assumptions C112_borders.
Print Assumptions C112_thermal.
Print Assumptions C112_vertices.
Print Assumptions C112_filter.
Print Assumptions C112_mode.
Print Assumptions C112_densities.
Print Assumptions C112_dirichlet.
Print Assumptions C112_extremum.
Print Assumptions C112_extremum_no_dofs.
Print Assumptions C112_times.
Print Assumptions C112_labels.
Print Assumptions C112_initial.
Print Assumptions C112_initial_built.
Print Assumptions C112_initial_read.
Print Assumptions C112_solver.
Print Assumptions C112_first_silent.
