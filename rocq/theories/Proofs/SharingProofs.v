(** The lists of simulations that are given their own lists are separate objects. *)
From Coq Require Import List Bool Arith Lia.
From Verif Require Import Model.Sharing Spec.SharingSpec.
Import ListNotations.

Section Proofs.
Context {item : Type}.
Implicit Types (w : world item) (v : arg item).

Definition collection (a : attr) : Prop := a = ATraps \/ a = AExports.

Lemma attr_eqb_eq a b : attr_eqb a b = true <-> a = b.
Proof. destruct a, b; cbn; split; congruence. Qed.

(** The variables hold their lists. *)
Definition known w (e : env item) : Prop := forall n p, vars w n = Some p -> heap w p = e n.

Lemma hold_spec w e a v p w' : own_arg a v -> known w e -> hold w a v = Some (p, w') ->
  sims w' = sims w /\ vars w' = vars w /\ next w <= next w' /\ (forall q, q < next w -> heap w' q = heap w q) /\
  ((p < 5 /\ v = Omitted /\ ~ collection a) \/ (next w <= p < next w' /\ heap w' p = given e v)).
Proof.
  intros Ho He H. unfold hold in H. destruct v as [|l|k b|n]; [| |destruct Ho|].
  - destruct a; cbn in H; injection H as <- <-; cbn;
      try (split; [reflexivity|]; split; [reflexivity|]; split; [lia|]; split; [reflexivity|]; left;
           split; [lia|]; split; [reflexivity|]; intros [|]; discriminate).
    all: split; [reflexivity|]; split; [reflexivity|]; split; [lia|]; split;
      [intros q Hq; unfold upd; destruct (Nat.eqb_spec q (next w)); [lia|reflexivity]|];
      right; split; [lia|]; unfold upd; now rewrite Nat.eqb_refl.
  - destruct a; cbn in H; injection H as <- <-; cbn.
    1-3: split; [reflexivity|]; split; [reflexivity|]; split; [lia|]; split;
      [intros q Hq; unfold upd; destruct (Nat.eqb_spec q (next w)); [lia|reflexivity]|];
      right; split; [lia|]; unfold upd; now rewrite Nat.eqb_refl.
    all: split; [reflexivity|]; split; [reflexivity|]; split; [lia|]; split;
      [intros q Hq; unfold upd; destruct (Nat.eqb_spec q (S (next w))); [lia|];
       destruct (Nat.eqb_spec q (next w)); [lia|reflexivity]|];
      right; split; [lia|]; unfold upd; now rewrite !Nat.eqb_refl.
  - cbn [denote] in H. destruct (vars w n) as [q|] eqn:Ev; [|discriminate].
    cbn in Ho. destruct Ho as [-> | ->]; cbn in H; injection H as <- <-; cbn; (split; [reflexivity|]); (split; [reflexivity|]); (split; [lia|]);
      (split; [intros q' Hq; unfold upd; destruct (Nat.eqb_spec q' (next w)); [lia|reflexivity]|]);
      right; (split; [lia|]); unfold upd; rewrite Nat.eqb_refl; now apply He.
Qed.

(** The invariant for the attribute a0. *)
Definition separate (a0 : attr) w : Prop :=
  5 <= next w /\
  (forall k s b, sims w k = Some s -> s b < next w) /\
  (forall k s, sims w k = Some s -> 5 <= s a0) /\
  (forall k s k' s' b, sims w k = Some s -> sims w k' = Some s' -> s a0 = s' b -> k = k' /\ b = a0).

(** The lists of the variables are not those of a simulation, nor the default ones, nor those of other variables. *)
Definition apart w : Prop :=
  (forall n p, vars w n = Some p -> 5 <= p < next w) /\
  (forall n p k s b, vars w n = Some p -> sims w k = Some s -> s b <> p) /\
  (forall n p m, vars w n = Some p -> vars w m = Some p -> n = m).

Definition has (a0 : attr) (k : nat) w (c : option (list item)) : Prop := content w k a0 = c.

Definition bounded w : Prop := forall n p, vars w n = Some p -> p < next w.
Lemma known_later w w' e : bounded w -> known w e -> vars w' = vars w -> next w <= next w' -> (forall q, q < next w -> heap w' q = heap w q) ->
  bounded w' /\ known w' e.
Proof.
  intros B K V N H. split.
  - intros n p E. rewrite V in E. specialize (B n p E). lia.
  - intros n p E. rewrite V in E. rewrite H by (eapply B; eauto). now apply K.
Qed.

(** A constructor whose list a0 is new. *)
Lemma new_sim_spec w e j args w' : (forall a, own_arg a (args a)) -> bounded w -> known w e -> new_sim w j args = Some w' ->
  exists s, sims w' = upd (sims w) j (Some s) /\ vars w' = vars w /\ next w <= next w' /\
  (forall q, q < next w -> heap w' q = heap w q) /\
  (forall a, (s a < 5 /\ args a = Omitted /\ ~ collection a) \/
             (next w <= s a < next w' /\ heap w' (s a) = given e (args a))) /\
  (5 <= next w -> forall a b, 5 <= s a -> s a = s b -> a = b).
Proof.
  intros Ho B0 K0 H. unfold new_sim in H.
  destruct (hold w ATraps (args ATraps)) as [[pt w1]|] eqn:E1; [|discriminate].
  destruct (hold w1 ABcs (args ABcs)) as [[pb w2]|] eqn:E2; [|discriminate].
  destruct (hold w2 AIcs (args AIcs)) as [[pi w3]|] eqn:E3; [|discriminate].
  destruct (hold w3 AExports (args AExports)) as [[pe w4]|] eqn:E4; [|discriminate].
  destruct (hold w4 ASources (args ASources)) as [[ps w5]|] eqn:E5; [|discriminate].
  injection H as <-.
  apply (hold_spec _ e) in E1 as (S1 & V1 & N1 & H1 & C1); [|apply Ho|exact K0].
  destruct (known_later _ _ _ B0 K0 V1 N1 H1) as [B1 K1].
  apply (hold_spec _ e) in E2 as (S2 & V2 & N2 & H2 & C2); [|apply Ho|exact K1].
  destruct (known_later _ _ _ B1 K1 V2 N2 H2) as [B2 K2].
  apply (hold_spec _ e) in E3 as (S3 & V3 & N3 & H3 & C3); [|apply Ho|exact K2].
  destruct (known_later _ _ _ B2 K2 V3 N3 H3) as [B3 K3].
  apply (hold_spec _ e) in E4 as (S4 & V4 & N4 & H4 & C4); [|apply Ho|exact K3].
  destruct (known_later _ _ _ B3 K3 V4 N4 H4) as [B4 K4].
  apply (hold_spec _ e) in E5 as (S5 & V5 & N5 & H5 & C5); [|apply Ho|exact K4].
  eexists. cbn [sims set_sim next heap vars]. split; [rewrite S5, S4, S3, S2, S1; reflexivity|].
  split; [congruence|].
  split; [lia|]. split; [intros q Hq; rewrite H5, H4, H3, H2, H1 by lia; reflexivity|].
  split.
  - intros [| | | |].
    + destruct C5 as [C|[C Q]]; [left; exact C|right; split; [lia|exact Q]].
    + destruct C2 as [C|[C Q]]; [left; exact C|right; split; [lia|]]. now rewrite H5, H4, H3 by lia.
    + destruct C3 as [C|[C Q]]; [left; exact C|right; split; [lia|]]. now rewrite H5, H4 by lia.
    + destruct C1 as [C|[C Q]]; [left; exact C|right; split; [lia|]]. now rewrite H5, H4, H3, H2 by lia.
    + destruct C4 as [C|[C Q]]; [left; exact C|right; split; [lia|]]. now rewrite H5 by lia.
  - intros N a b Ha Hab.
    destruct a, b; try reflexivity; exfalso; lia.
Qed.

Variable a0 : attr.

Lemma fresh_a0 (args : attr -> arg item) (s : attr -> nat) (n n' : nat) (P : Prop) :
  collection a0 \/ args a0 <> Omitted ->
  (s a0 < 5 /\ args a0 = Omitted /\ ~ collection a0) \/ (n <= s a0 < n' /\ P) ->
  n <= s a0 < n' /\ P.
Proof. intros [C|C] [(_ & E & N)|H]; auto; [now elim N|now elim C]. Qed.

Lemma step_separate w e o w' k c :
  own o -> (collection a0 \/ given_at_construction a0 o) ->
  separate a0 w -> apart w -> known w e -> has a0 k w c -> step w o = Some w' ->
  separate a0 w' /\ apart w' /\ known w' (var_op e o) /\ has a0 k w' (after_op e k a0 c o).
Proof.
  intros Ho Hg (N & B & D & I) (A1 & A2 & A3) K Hc H. unfold has in *.
  assert (Bd : bounded w) by (intros n p E; apply (A1 n p E)).
  destruct o as [j args|j b v|j b x|n l|n x]; cbn in H.
  - (* New *)
    destruct (new_sim_spec _ e _ _ _ Ho Bd K H) as (s & Hs & Hv & Hn & Hh & Hcase & Hinj).
    pose proof (fresh_a0 args s _ _ _ Hg (Hcase a0)) as [Hf Hq]. specialize (Hinj N).
    assert (Hlt : forall b, s b < next w') by (intros b; destruct (Hcase b) as [(A & _)|(A & _)]; lia).
    split; [|split; [|split; [exact (proj2 (known_later _ _ _ Bd K Hv Hn Hh))|]]].
    + split; [lia|]. rewrite Hs. split; [|split].
      * intros k1 s1 b. unfold upd. destruct (Nat.eqb k1 j); [injection 1 as <-; apply Hlt|].
        intros E. specialize (B _ _ b E). lia.
      * intros k1 s1. unfold upd. destruct (Nat.eqb k1 j); [injection 1 as <-; lia|]. apply D.
      * intros k1 s1 k2 s2 b. unfold upd.
        destruct (Nat.eqb_spec k1 j) as [->|N1]; destruct (Nat.eqb_spec k2 j) as [->|N2].
        -- injection 1 as <-. injection 1 as <-. intros E. split; [reflexivity|].
           symmetry. apply Hinj; [lia|exact E].
        -- injection 1 as <-. intros E2 E. specialize (B _ _ b E2). lia.
        -- intros E1. injection 1 as <-. intros E. pose proof (B _ _ a0 E1). pose proof (D _ _ E1).
           destruct (Hcase b) as [(A & _)|(A & _)]; lia.
        -- apply I.
    + split; [|split].
      * intros n p E. rewrite Hv in E. specialize (A1 n p E). lia.
      * intros n p k1 s1 b E. rewrite Hv in E. rewrite Hs. unfold upd. destruct (Nat.eqb k1 j); [|apply (A2 n p k1 s1 b E)].
        injection 1 as <-. pose proof (A1 n p E). destruct (Hcase b) as [(Z & _)|(Z & _)]; lia.
      * rewrite Hv. exact A3.
    + unfold content in *. rewrite Hs. unfold upd, after_op. rewrite (Nat.eqb_sym k j).
      destruct (Nat.eqb_spec j k) as [->|Nk]; [now rewrite Hq|].
      destruct (sims w k) as [s1|] eqn:E1; [|assumption]. rewrite Hh by (eapply B; eauto). exact Hc.
  - (* Assign *)
    assert (Hv : v <> Omitted /\ exists s p w1, sims w j = Some s /\ hold w b v = Some (p, w1) /\
                 w' = set_sim w1 j (upd_attr s b p)).
    { destruct v; [discriminate|..]; (split; [discriminate|]);
        destruct (sims w j) as [s|]; try discriminate;
        match type of H with match ?h with _ => _ end = _ => destruct h as [[p w1]|] eqn:E end; try discriminate;
        injection H as <-; eauto 10. }
    destruct Hv as (Hv & s & p & w1 & Es & Eh & ->). clear H.
    apply (hold_spec _ e) in Eh as (S1 & V1 & N1 & H1 & [(_ & Ev & _)|[C1 Q1]]); [| |exact Ho|exact K]; [now elim Hv|].
    split; [|split; [|split; [exact (proj2 (known_later _ _ _ Bd K V1 N1 H1))|]]].
    + split; [cbn; lia|]. cbn [sims set_sim next]. rewrite S1. split; [|split].
      * intros k1 s1 b1. unfold upd. destruct (Nat.eqb k1 j).
        -- injection 1 as <-. unfold upd_attr. destruct (attr_eqb b1 b); [lia|]. specialize (B _ _ b1 Es). lia.
        -- intros E. specialize (B _ _ b1 E). lia.
      * intros k1 s1. unfold upd. destruct (Nat.eqb k1 j); [|apply D].
        injection 1 as <-. unfold upd_attr. destruct (attr_eqb a0 b); [lia|]. eapply D; eauto.
      * intros k1 s1 k2 s2 b2. unfold upd.
        destruct (Nat.eqb_spec k1 j) as [->|N1']; destruct (Nat.eqb_spec k2 j) as [->|N2'].
        -- injection 1 as <-. injection 1 as <-. unfold upd_attr.
           destruct (attr_eqb a0 b) eqn:Ea; destruct (attr_eqb b2 b) eqn:Eb; intros E.
           ++ apply attr_eqb_eq in Ea, Eb. split; congruence.
           ++ specialize (B _ _ b2 Es). lia.
           ++ specialize (B _ _ a0 Es). lia.
           ++ eapply I; eauto.
        -- injection 1 as <-. intros E2. unfold upd_attr. destruct (attr_eqb a0 b); intros E.
           ++ specialize (B _ _ b2 E2). lia.
           ++ eapply I; eauto.
        -- intros E1. injection 1 as <-. unfold upd_attr. destruct (attr_eqb b2 b); intros E.
           ++ specialize (B _ _ a0 E1). lia.
           ++ eapply I; eauto.
        -- apply I.
    + split; [|split]; cbn [sims set_sim next vars]; rewrite ?V1, ?S1.
      * intros n q E. specialize (A1 n q E). lia.
      * intros n q k1 s1 b1 E. unfold upd. destruct (Nat.eqb k1 j); [|apply (A2 n q k1 s1 b1 E)].
        injection 1 as <-. unfold upd_attr. pose proof (A1 n q E). destruct (attr_eqb b1 b); [lia|]. apply (A2 n q j s b1 E Es).
      * exact A3.
    + unfold content in *. cbn [sims set_sim heap]. rewrite S1. unfold upd, after_op.
      rewrite (Nat.eqb_sym k j). destruct (Nat.eqb_spec j k) as [->|Nk]; cbn [andb].
      * rewrite Es in Hc. unfold upd_attr.
        assert (Eab : attr_eqb a0 b = attr_eqb b a0) by (destruct a0, b; reflexivity). rewrite <- Eab.
        destruct (attr_eqb a0 b) eqn:Ea; [now rewrite Q1|].
        rewrite H1 by (eapply B; eauto). exact Hc.
      * destruct (sims w k) as [s1|] eqn:E1; [|assumption]. rewrite H1 by (eapply B; eauto). exact Hc.
  - (* Append *)
    destruct (sims w j) as [s|] eqn:Es; [|discriminate]. injection H as <-.
    split; [split; [exact N|split; [exact B|split; [exact D|exact I]]]|].
    split; [split; [exact A1|split; [exact A2|exact A3]]|].
    split; [intros n p E; cbn in E |- *; unfold upd; destruct (Nat.eqb_spec p (s b)) as [->|_]; [elim (A2 n _ j s b E Es eq_refl)|now apply K]|].
    unfold content in *. cbn [sims heap]. unfold upd, after_op.
    destruct (sims w k) as [s1|] eqn:E1.
    + destruct (Nat.eqb_spec (s1 a0) (s b)) as [E|E].
      * destruct (I _ _ _ _ _ E1 Es E) as [-> ->]. rewrite Nat.eqb_refl.
        rewrite (proj2 (attr_eqb_eq a0 a0) eq_refl). cbn [andb]. rewrite <- Hc. cbn.
        rewrite Es in E1. injection E1 as <-. reflexivity.
      * destruct (Nat.eqb j k && attr_eqb b a0)%bool eqn:Eb; [|assumption].
        apply andb_true_iff in Eb as [Ej Eb]. apply Nat.eqb_eq in Ej. apply attr_eqb_eq in Eb. subst.
        rewrite Es in E1. injection E1 as <-. now elim E.
    + subst c. destruct (Nat.eqb j k && attr_eqb b a0)%bool; reflexivity.
  - (* Let *)
    injection H as <-. split; [split; [cbn; lia|split; [|split; [exact D|exact I]]]|].
    { intros k1 s1 b E. cbn. specialize (B _ _ b E). lia. }
    split; [split; [|split]|split]; cbn [sims vars next heap].
    + intros m p. unfold upd. destruct (Nat.eqb m n); [injection 1 as <-; lia|]. intros E. specialize (A1 m p E). lia.
    + intros m p k1 s1 b. unfold upd. destruct (Nat.eqb m n); [injection 1 as <-|apply A2].
      intros E. specialize (B _ _ b E). lia.
    + intros m p m'. unfold upd. destruct (Nat.eqb_spec m n), (Nat.eqb_spec m' n); try congruence.
      * injection 1 as <-. intros E. specialize (A1 _ _ E). lia.
      * intros E. injection 1 as <-. specialize (A1 _ _ E). lia.
      * apply A3.
    + intros m p. cbn. unfold upd, bind_var. destruct (Nat.eqb_spec m n) as [->|Hm].
      * injection 1 as <-. now rewrite Nat.eqb_refl.
      * intros E. destruct (Nat.eqb_spec p (next w)) as [->|_]; [specialize (A1 _ _ E); lia|now apply K].
    + unfold content in *. cbn. destruct (sims w k) as [s1|] eqn:E1; [|exact Hc]. unfold upd.
      destruct (Nat.eqb_spec (s1 a0) (next w)) as [E|_]; [specialize (B _ _ a0 E1); lia|exact Hc].
  - (* AppendVar *)
    destruct (vars w n) as [p|] eqn:En; [|discriminate]. injection H as <-.
    split; [split; [exact N|split; [exact B|split; [exact D|exact I]]]|].
    split; [split; [exact A1|split; [exact A2|exact A3]]|]. split.
    + intros m q E. cbn in E |- *. unfold upd, bind_var. destruct (Nat.eqb_spec m n) as [->|Hm].
      * rewrite En in E. injection E as <-. rewrite Nat.eqb_refl. now rewrite (K n p En).
      * destruct (Nat.eqb_spec q p) as [->|_]; [elim Hm; exact (A3 _ _ _ E En)|now apply K].
    + unfold content in *. cbn. destruct (sims w k) as [s1|] eqn:E1; [|exact Hc]. unfold upd.
      destruct (Nat.eqb_spec (s1 a0) p) as [E|_]; [elim (A2 n p k s1 a0 En E1 E)|exact Hc].
Qed.

Lemma exec_separate : forall l w w' e k c,
  Forall own l -> (collection a0 \/ Forall (given_at_construction a0) l) ->
  separate a0 w -> apart w -> known w e -> has a0 k w c -> exec w l = Some w' ->
  has a0 k w' (history e l k a0 c).
Proof.
  induction l as [|o r IH]; intros w w' e k c Ho Hg Hs Ha Hk Hc H.
  - injection H as <-. exact Hc.
  - cbn in H. destruct (step w o) as [w1|] eqn:E; [|discriminate].
    inversion Ho; subst.
    assert (Hg1 : collection a0 \/ given_at_construction a0 o)
      by (destruct Hg as [|Hg]; [auto|inversion Hg; auto]).
    assert (Hg2 : collection a0 \/ Forall (given_at_construction a0) r)
      by (destruct Hg as [|Hg]; [auto|inversion Hg; auto]).
    destruct (step_separate _ e _ _ k c H2 Hg1 Hs Ha Hk Hc E) as (Hs1 & Ha1 & Hk1 & Hc1).
    cbn. eapply IH; eauto.
Qed.

Lemma separate0 : separate a0 world0.
Proof. split; [cbn; lia|]. cbn. repeat split; discriminate. Qed.
Lemma apart0 : apart (@world0 item).
Proof. split; [|split]; discriminate. Qed.
Lemma known0 e : known (@world0 item) e.
Proof. intros n p; discriminate. Qed.
(** ** Attributes do not share lists *)
Definition tagged (tag : nat -> option attr) w : Prop :=
  5 <= next w /\ (forall a, ~ collection a -> tag (default_of a) = Some a) /\
  (forall k s a, sims w k = Some s -> s a < next w /\ tag (s a) = Some a) /\
  (forall n p, vars w n = Some p -> p < next w /\ tag p = None).

Lemma tagged_alloc tag w l t : tagged tag w ->
  tagged (upd tag (next w) t) (snd (alloc w l)) /\ fst (alloc w l) = next w /\ sims (snd (alloc w l)) = sims w /\
  vars (snd (alloc w l)) = vars w /\ next (snd (alloc w l)) = S (next w).
Proof.
  intros (H5 & Hd & Hs & Hv). cbn. split; [|auto]. split; [cbn; lia|]. split; [|split]; cbn.
  - intros a Ha. unfold upd. destruct (Nat.eqb_spec (default_of a) (next w)) as [E|_]; [destruct a; cbn in E; lia|now apply Hd].
  - intros k s a Hk. destruct (Hs k s a Hk) as [A B]. split; [lia|]. unfold upd. destruct (Nat.eqb_spec (s a) (next w)); [lia|exact B].
  - intros n p Hn. destruct (Hv n p Hn) as [A B]. split; [lia|]. unfold upd. destruct (Nat.eqb_spec p (next w)); [lia|exact B].
Qed.

Lemma some_inj {T} (x y : T) : Some x = Some y -> x = y. Proof. now intros [= ->]. Qed.
Lemma hold_tagged tag w a v p w' : tagged tag w -> tidy_arg a v -> hold w a v = Some (p, w') ->
  exists tag', tagged tag' w' /\ p < next w' /\ tag' p = Some a /\ sims w' = sims w /\ vars w' = vars w /\ next w <= next w' /\
    (forall q, q < next w -> tag' q = tag q).
Proof.
  intros Ht Hv H. pose proof Ht as (H5 & Hd & Hs & Hvv).
  assert (Hnew : forall w1 l t1, tagged t1 w1 -> sims w1 = sims w -> vars w1 = vars w -> next w <= next w1 -> (forall q, q < next w -> t1 q = tag q) ->
    alloc w1 l = (p, w') ->
    exists tag', tagged tag' w' /\ p < next w' /\ tag' p = Some a /\ sims w' = sims w /\ vars w' = vars w /\ next w <= next w' /\
    (forall q, q < next w -> tag' q = tag q)).
  { intros w1 l t1 T1 Es Ev Hn Hq Ha. destruct (tagged_alloc t1 w1 l (Some a) T1) as (A & B & C & D & E). rewrite Ha in *. cbn [fst snd] in *.
    subst p. exists (upd t1 (next w1) (Some a)). split; [exact A|]. rewrite E, C, D. split; [lia|]. split; [unfold upd; now rewrite Nat.eqb_refl|].
    split; [exact Es|]. split; [exact Ev|]. split; [lia|]. intros q K. unfold upd. destruct (Nat.eqb_spec q (next w1)); [lia|now apply Hq]. }
  destruct v as [|l|k b|n]; unfold hold in H; cbn [denote] in H.
  - destruct a; cbn [is_collection] in H.
    1: pose proof (Hd ASources ltac:(intros [|]; discriminate)) as K; injection H as <- <-; exists tag; split; [exact Ht|]; split; [lia|]; auto.
    1: pose proof (Hd ABcs ltac:(intros [|]; discriminate)) as K; injection H as <- <-; exists tag; split; [exact Ht|]; split; [lia|]; auto.
    1: pose proof (Hd AIcs ltac:(intros [|]; discriminate)) as K; injection H as <- <-; exists tag; split; [exact Ht|]; split; [lia|]; auto.
    all: apply some_inj in H; exact (Hnew w [] tag Ht eq_refl eq_refl (le_n _) (fun q _ => eq_refl) H).
  - destruct (alloc w l) as [q w1] eqn:Ea. destruct a; cbn [is_collection] in H.
    1-3: injection H as <- <-; exact (Hnew w l tag Ht eq_refl eq_refl (le_n _) (fun q _ => eq_refl) Ea).
    all: apply some_inj in H; destruct (tagged_alloc tag w l None Ht) as (A & B & C & D & E); rewrite Ea in *; cbn [fst snd] in *;
      refine (Hnew w1 _ _ A C D _ _ H); [lia|intros q' K; unfold upd; destruct (Nat.eqb_spec q' (next w)); [lia|reflexivity]].
  - cbn in Hv. subst b. destruct (sims w k) as [s|] eqn:Ek; [|discriminate H]. destruct (Hs k s a Ek) as [A B].
    destruct a; cbn [is_collection] in H; injection H as <- <-; exists tag; auto 10.
  - destruct (vars w n) as [q|] eqn:En; [|discriminate H]. cbn in Hv.
    destruct Hv as [-> | ->]; cbn [is_collection] in H; apply some_inj in H; exact (Hnew w _ tag Ht eq_refl eq_refl (le_n _) (fun q _ => eq_refl) H).
Qed.

Lemma step_tagged tag w o w' : tagged tag w -> tidy o -> step w o = Some w' -> exists tag', tagged tag' w'.
Proof.
  intros Ht Ho H. destruct o as [k args|k a v|k a x|n l|n x]; cbn [step] in H.
  - unfold new_sim in H.
    destruct (hold w ATraps (args ATraps)) as [[pt w1]|] eqn:E1; [|discriminate H].
    destruct (hold_tagged _ _ _ _ _ _ Ht (Ho _) E1) as (t1 & T1 & P1 & G1 & S1 & V1 & N1 & Q1).
    destruct (hold w1 ABcs (args ABcs)) as [[pb w2]|] eqn:E2; [|discriminate H].
    destruct (hold_tagged _ _ _ _ _ _ T1 (Ho _) E2) as (t2 & T2 & P2 & G2 & S2 & V2 & N2 & Q2).
    destruct (hold w2 AIcs (args AIcs)) as [[pi w3]|] eqn:E3; [|discriminate H].
    destruct (hold_tagged _ _ _ _ _ _ T2 (Ho _) E3) as (t3 & T3 & P3 & G3 & S3 & V3 & N3 & Q3).
    destruct (hold w3 AExports (args AExports)) as [[pe w4]|] eqn:E4; [|discriminate H].
    destruct (hold_tagged _ _ _ _ _ _ T3 (Ho _) E4) as (t4 & T4 & P4 & G4 & S4 & V4 & N4 & Q4).
    destruct (hold w4 ASources (args ASources)) as [[ps w5]|] eqn:E5; [|discriminate H].
    destruct (hold_tagged _ _ _ _ _ _ T4 (Ho _) E5) as (t5 & T5 & P5 & G5 & S5 & V5 & N5 & Q5).
    injection H as <-. exists t5. destruct T5 as (A & B & C & D). split; [exact A|]. split; [exact B|]. split; [|exact D].
    cbn [sims set_sim next]. intros j s a Hj. unfold upd in Hj. destruct (Nat.eqb j k); [|now apply (C j s a)].
    injection Hj as <-.
    destruct a.
    + split; [lia|exact G5].
    + split; [lia|]. rewrite Q5, Q4, Q3 by lia. exact G2.
    + split; [lia|]. rewrite Q5, Q4 by lia. exact G3.
    + split; [lia|]. rewrite Q5, Q4, Q3, Q2 by lia. exact G1.
    + split; [lia|]. rewrite Q5 by lia. exact G4.
  - assert (H' : exists s p w1, sims w k = Some s /\ hold w a v = Some (p, w1) /\ w' = set_sim w1 k (upd_attr s a p)).
    { destruct v; destruct (sims w k) as [s|] eqn:Ek; try discriminate H;
        match type of H with context [hold w a ?v] => destruct (hold w a v) as [[p w1]|] eqn:Eh; [|discriminate H] end;
        injection H as <-; exists s, p, w1; auto. }
    destruct H' as (s & p & w1 & Ek & Eh & ->).
    destruct (hold_tagged _ _ _ _ _ _ Ht Ho Eh) as (t1 & T1 & P1 & G1 & S1 & V1 & N1 & Q1).
    exists t1. destruct T1 as (A & B & C & D). split; [exact A|]. split; [exact B|]. split; [|exact D].
    cbn [sims set_sim next]. intros j s' b Hj. unfold upd in Hj. destruct (Nat.eqb j k); [|now apply (C j s' b)].
    injection Hj as <-. unfold upd_attr. destruct (attr_eqb b a) eqn:Eb; [apply attr_eqb_eq in Eb; subst b; auto|].
    apply (C k s b). now rewrite S1.
  - destruct (sims w k) as [s|]; [|discriminate H]. injection H as <-. exists tag. exact Ht.
  - injection H as <-. destruct (tagged_alloc tag w l None Ht) as ((A & B & C & D) & _ & E2 & E3 & E4). cbn [alloc fst snd] in *.
    exists (upd tag (next w) None). split; [exact A|]. split; [exact B|]. split; [exact C|]. cbn [vars next]. intros m p Hm.
    unfold upd in Hm at 1. destruct (Nat.eqb m n); [|exact (D m p Hm)]. injection Hm as <-. split; [lia|]. unfold upd. now rewrite Nat.eqb_refl.
  - destruct (vars w n) as [p|]; [|discriminate H]. injection H as <-. exists tag. exact Ht.
Qed.

Definition tag0 (q : nat) : option attr := match q with 0 => Some ASources | 1 => Some ABcs | 2 => Some AIcs | _ => None end.
Lemma exec_tagged l tag w w' : tagged tag w -> Forall tidy l -> exec w l = Some w' -> exists tag', tagged tag' w'.
Proof.
  revert tag w. induction l as [|o r IH]; cbn [exec]; intros tag w Ht Ho H; [injection H as <-; eauto|].
  inversion Ho; subst. destruct (step w o) as [w1|] eqn:E; [|discriminate H].
  destruct (step_tagged tag w o w1 Ht H2 E) as [t1 T1]. eauto.
Qed.
Lemma tagged0 : tagged tag0 (world0 (item:=item)).
Proof.
  split; [cbn; lia|]. split; [intros a Ha; destruct a; try reflexivity; elim Ha; [left|right]; reflexivity|].
  split; [intros k s a; discriminate|intros n p; discriminate].
Qed.
End Proofs.
