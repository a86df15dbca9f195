(** Binary64: each operation of the kernel's floats is the exact one up to a relative error of 2^-52, as long as
    nothing overflows (and products do not underflow).  From Coq.Floats.FloatAxioms only. *)
From Coq Require Import ZArith Reals Lra Lia Bool Floats SpecFloat FloatOps FloatAxioms.
From Verif Require Import Base.Num Spec.RoundSpec.
Local Open Scope R_scope.

Definition bp (e : Z) : R := powerRZ 2 e.
Lemma bp_pos e : 0 < bp e.
Proof. apply powerRZ_lt. lra. Qed.
Lemma bp_add a b : bp (a + b) = bp a * bp b.
Proof. apply powerRZ_add. lra. Qed.
Lemma bp_IZR n : (0 <= n)%Z -> bp n = IZR (2 ^ n).
Proof.
  intros H. unfold bp. rewrite <- (Z2Nat.id n H). rewrite <- pow_powerRZ. rewrite <- pow_IZR. reflexivity.
Qed.
Lemma bp_le a b : (a <= b)%Z -> bp a <= bp b.
Proof.
  intros H. replace b with (a + (b - a))%Z by lia. rewrite bp_add, (bp_IZR (b - a)) by lia.
  pose proof (bp_pos a). assert (1 <= IZR (2 ^ (b - a))); [|nra].
  apply IZR_le. apply (Z.pow_le_mono_r 2 0); lia.
Qed.
Lemma bp_lt_inv a b : bp a < bp b -> (a < b)%Z.
Proof. intros H. destruct (Z_lt_le_dec a b); [assumption|]. apply bp_le in l. lra. Qed.

(** Number of binary digits. *)
Lemma digits_spec m : (2 ^ (Zpos (digits2_pos m) - 1) <= Zpos m < 2 ^ Zpos (digits2_pos m))%Z.
Proof.
  induction m as [m IH|m IH|]; cbn [digits2_pos]; [| |cbn; lia];
    rewrite Pos2Z.inj_succ; replace (Z.succ (Zpos (digits2_pos m)) - 1)%Z with (Zpos (digits2_pos m)) by lia;
    rewrite Z.pow_succ_r by lia;
    replace (2 ^ Zpos (digits2_pos m))%Z with (2 * 2 ^ (Zpos (digits2_pos m) - 1))%Z in * by (rewrite <- Z.pow_succ_r by lia; f_equal; lia);
    lia.
Qed.
Lemma digits_unique m d : (2 ^ (d - 1) <= Zpos m < 2 ^ d)%Z -> Zpos (digits2_pos m) = d.
Proof.
  intros [H1 H2]. destruct (digits_spec m) as [H3 H4].
  assert (Hd : (0 <= d)%Z). { destruct (Z_lt_le_dec d 0); [rewrite Z.pow_neg_r in H2 by lia; lia|assumption]. }
  assert ((2 ^ (d - 1) < 2 ^ Zpos (digits2_pos m))%Z) by lia.
  assert ((2 ^ (Zpos (digits2_pos m) - 1) < 2 ^ d)%Z) by lia.
  apply Z.pow_lt_mono_r_iff in H0; [|lia|lia].
  destruct (Z.eq_dec d 0) as [->|]; [cbn in H2; lia|].
  apply Z.pow_lt_mono_r_iff in H; [|lia|lia]. lia.
Qed.

(** Shifts to the right. *)
Lemma shr_1_m r : (0 <= shr_m r)%Z -> shr_m (shr_1 r) = (shr_m r / 2)%Z.
Proof.
  destruct r as [m r s]. cbn [shr_m]. intros H. unfold shr_1. destruct m as [|[p|p|]|p]; cbn [shr_m]; try reflexivity; try lia.
  - rewrite Pos2Z.inj_xI, (Z.add_comm (2 * Z.pos p)), Z.mul_comm, Z.div_add by lia. reflexivity.
  - rewrite Pos2Z.inj_xO, Z.mul_comm, Z.div_mul by lia. reflexivity.
Qed.
Lemma shr_iter_m p : forall r, (0 <= shr_m r)%Z -> shr_m (iter_pos shr_1 p r) = (shr_m r / 2 ^ Zpos p)%Z.
Proof.
  induction p as [p IH|p IH|]; intros r H; cbn [iter_pos].
  - assert (H1 : (0 <= shr_m r / 2)%Z) by (apply Z.div_pos; lia).
    assert (H2 : (0 <= shr_m (shr_1 r))%Z) by (now rewrite shr_1_m).
    rewrite IH by (rewrite IH by assumption; apply Z.div_pos; [assumption|apply Z.pow_pos_nonneg; lia]).
    rewrite IH by assumption. rewrite shr_1_m by assumption.
    rewrite !Z.div_div by (try apply Z.pow_nonzero; try (apply Z.pow_pos_nonneg); try (apply Z.mul_pos_pos; [lia|apply Z.pow_pos_nonneg]); lia).
    f_equal. rewrite Pos2Z.inj_xI, Z.pow_add_r, Z.pow_mul_r by lia. change (2 ^ 1)%Z with 2%Z. rewrite (Z.mul_comm 2 (Z.pos p)) || idtac.
    replace ((2 ^ 2) ^ Z.pos p)%Z with (2 ^ Z.pos p * 2 ^ Z.pos p)%Z by (rewrite <- Z.pow_mul_l; reflexivity). lia.
  - rewrite IH by (rewrite IH by assumption; apply Z.div_pos; [assumption|apply Z.pow_pos_nonneg; lia]).
    rewrite IH by assumption. rewrite Z.div_div by (try apply Z.pow_nonzero; try (apply Z.pow_pos_nonneg); lia).
    f_equal. rewrite Pos2Z.inj_xO, <- Z.pow_add_r by lia. f_equal. lia.
  - now apply shr_1_m.
Qed.
Lemma round_cases m l : round_nearest_even m l = m \/ round_nearest_even m l = (m + 1)%Z.
Proof. destruct l as [|[]]; cbn; auto. destruct (Z.even m); auto. Qed.

Notation fexp64 := (fexp prec emax).
Lemma fexp_spec e : fexp64 e = Z.max (e - 53) (-1074).
Proof. reflexivity. Qed.

Lemma shr_fexp_0 m e : fexp64 (Zdigits2 m + e) = e -> shr_fexp prec emax m e loc_Exact = (Build_shr_record m false false, e).
Proof. intros H. unfold shr_fexp. rewrite H, Z.sub_diag. reflexivity. Qed.

(** The value of a finite number. *)
Definition sv (x : spec_float) : R :=
  match x with S754_finite s m e => (if s then - IZR (Zpos m) else IZR (Zpos m)) * bp e | _ => 0 end.
Definition finite_sf (x : spec_float) : Prop := match x with S754_zero _ | S754_finite _ _ _ => True | _ => False end.
Definition eps64 : R := bp (-52).

Lemma round_aux sx mx ex : let d := Zpos (digits2_pos mx) in
  (ex <= fexp64 (d + ex))%Z -> (-1074 <= ex \/ -1074 <= d + ex - 53)%Z -> (d + ex <= 1000)%Z ->
  exists m e, binary_round_aux prec emax sx (Zpos mx) ex loc_Exact = S754_finite sx m e /\
    Rabs (IZR (Zpos m) * bp e - IZR (Zpos mx) * bp ex) <= eps64 * (IZR (Zpos mx) * bp ex).
Proof.
  intros d Hn Hlo Hhi. unfold binary_round_aux. set (n := (fexp64 (d + ex) - ex)%Z).
  assert (Hpos : 0 <= eps64 * (IZR (Zpos mx) * bp ex)).
  { apply Rmult_le_pos; [left; apply bp_pos|]. apply Rmult_le_pos; [apply IZR_le; lia|left; apply bp_pos]. }
  destruct (Z.eq_dec (fexp64 (d + ex)) ex) as [E|E].
  - rewrite shr_fexp_0 by exact E. cbn [shr_m loc_of_shr_record round_nearest_even]. rewrite shr_fexp_0 by exact E. cbn [shr_m].
    assert (H : (ex <= 971)%Z) by (rewrite <- E, fexp_spec; lia).
    change (emax - prec)%Z with 971%Z. rewrite (proj2 (Z.leb_le _ _) H). exists mx, ex. split; [reflexivity|].
    replace (_ - _) with 0 by ring. rewrite Rabs_R0. exact Hpos.
  - assert (Hf : fexp64 (d + ex) = (d + ex - 53)%Z) by (rewrite fexp_spec in *; lia).
    assert (Hnp : (0 < n)%Z) by (unfold n; lia).
    assert (Hd : d = (53 + n)%Z) by (unfold n; lia).
    unfold shr_fexp at 1. cbn [Zdigits2]. fold d. fold n. destruct n as [|p|p] eqn:En; [lia| |lia].
    cbn [shr]. set (r := iter_pos shr_1 p (shr_record_of_loc (Zpos mx) loc_Exact)).
    assert (Hm : shr_m r = (Zpos mx / 2 ^ Zpos p)%Z) by (apply (shr_iter_m p (shr_record_of_loc (Zpos mx) loc_Exact)); cbn; lia).
    pose proof (digits_spec mx) as [D1 D2]. fold d in D1, D2. rewrite Hd in D1, D2.
    assert (P2 : (0 < 2 ^ Zpos p)%Z) by (apply Z.pow_pos_nonneg; lia).
    replace (53 + Z.pos p - 1)%Z with (52 + Z.pos p)%Z in D1 by lia. rewrite Z.pow_add_r in D1, D2 by lia.
    set (q := (Zpos mx / 2 ^ Zpos p)%Z) in *.
    assert (Q1 : (2 ^ 52 <= q)%Z) by (apply Z.div_le_lower_bound; [lia|]; rewrite Z.mul_comm; exact D1).
    assert (Q2 : (q < 2 ^ 53)%Z) by (apply Z.div_lt_upper_bound; [lia|]; rewrite Z.mul_comm; exact D2).
    assert (Q3 : (2 ^ Zpos p * q <= Zpos mx < 2 ^ Zpos p * q + 2 ^ Zpos p)%Z).
    { pose proof (Z.mul_div_le (Zpos mx) (2 ^ Zpos p) P2). pose proof (Z.mul_succ_div_gt (Zpos mx) (2 ^ Zpos p) P2). fold q in H, H0. lia. }
    assert (Hr : exists m'', round_nearest_even (shr_m r) (loc_of_shr_record r) = Zpos m'' /\ (q <= Zpos m'' <= q + 1)%Z).
    { rewrite Hm. destruct (round_cases q (loc_of_shr_record r)) as [-> | ->].
      - exists (Z.to_pos q). rewrite Z2Pos.id by lia. lia.
      - exists (Z.to_pos (q + 1)). rewrite Z2Pos.id by lia. lia. }
    destruct Hr as (m2 & -> & Hm2). set (e' := (ex + Z.pos p)%Z).
    assert (He' : fexp64 (53 + e') = e'). { rewrite fexp_spec. rewrite fexp_spec in Hf. unfold e'. lia. }
    assert (Herr : Rabs (IZR (Z.pos m2) * bp e' - IZR (Z.pos mx) * bp ex) <= eps64 * (IZR (Z.pos mx) * bp ex)).
    { unfold e'. rewrite bp_add, (bp_IZR (Z.pos p)) by lia. pose proof (bp_pos ex) as Hb.
      replace (IZR (Z.pos m2) * (bp ex * IZR (2 ^ Z.pos p)) - IZR (Z.pos mx) * bp ex)
        with (IZR (Z.pos m2 * 2 ^ Z.pos p - Z.pos mx) * bp ex) by (rewrite minus_IZR, mult_IZR; ring).
      rewrite Rabs_mult, (Rabs_right (bp ex)) by lra. rewrite <- Rmult_assoc. apply Rmult_le_compat_r; [lra|].
      rewrite <- abs_IZR. unfold eps64. apply (Rmult_le_reg_l (bp 52)); [apply bp_pos|].
      rewrite <- Rmult_assoc, <- bp_add. change (bp (52 + -52)) with 1. rewrite Rmult_1_l, (bp_IZR 52) by lia.
      rewrite <- mult_IZR. apply IZR_le. assert ((Z.abs (Z.pos m2 * 2 ^ Z.pos p - Z.pos mx) <= 2 ^ Z.pos p)%Z) by nia. nia. }
    destruct (Z.eq_dec (Z.pos m2) (2 ^ 53)) as [E2|E2].
    + assert (D54 : Zpos (digits2_pos m2) = 54%Z) by (apply digits_unique; rewrite E2; lia).
      unfold shr_fexp. cbn [Zdigits2]. rewrite D54.
      replace (fexp64 (54 + e') - e')%Z with 1%Z by (rewrite fexp_spec in *; lia). cbn [shr iter_pos].
      assert (M2 : m2 = Pos.pow 2 53) by (apply (f_equal Z.to_pos) in E2; exact E2). subst m2. cbn [shr_record_of_loc shr_1 shr_m].
      change (shr_m (shr_1 {| shr_m := Z.pos (2 ^ 53); shr_r := false; shr_s := false |})) with (Z.pos (2 ^ 52)).
      change (emax - prec)%Z with 971%Z. rewrite (proj2 (Z.leb_le _ _)) by (unfold e'; lia).
      exists (2 ^ 52)%positive, (e' + 1)%Z. split; [reflexivity|].
      replace (IZR (Z.pos (2 ^ 52)) * bp (e' + 1)) with (IZR (Z.pos (2 ^ 53)) * bp e'); [exact Herr|].
      rewrite bp_add. change (bp 1) with (2 * 1). change (Z.pos (2 ^ 53)) with (Z.pos (2 ^ 52) * 2)%Z. rewrite mult_IZR. ring.
    + assert (D53 : Zpos (digits2_pos m2) = 53%Z) by (apply digits_unique; lia).
      rewrite shr_fexp_0 by (cbn [Zdigits2]; now rewrite D53). cbn [shr_m].
      change (emax - prec)%Z with 971%Z. rewrite (proj2 (Z.leb_le _ _)) by (unfold e'; lia).
      exists m2, e'. split; [reflexivity|exact Herr].
Qed.

Lemma shl_align_spec mx ex ez : (ez <= ex)%Z ->
  Zpos (fst (shl_align mx ex ez)) = (Zpos mx * 2 ^ (ex - ez))%Z /\ snd (shl_align mx ex ez) = ez.
Proof.
  intros H. unfold shl_align. destruct (ez - ex)%Z as [|p|p] eqn:E; [|lia|].
  - replace (ex - ez)%Z with 0%Z by lia. cbn [fst snd]. rewrite Z.mul_1_r. split; [reflexivity|lia].
  - cbn [fst snd]. rewrite shift_pos_correct, Zpower_pos_nat, <- Zpower_nat_Z, positive_nat_Z || rewrite shift_pos_correct.
    replace (ex - ez)%Z with (Zpos p) by lia. split; [|reflexivity]. unfold Z.pow. lia.
Qed.
Lemma digits_shift m k m' : (0 <= k)%Z -> Zpos m' = (Zpos m * 2 ^ k)%Z -> Zpos (digits2_pos m') = (Zpos (digits2_pos m) + k)%Z.
Proof.
  intros Hk E. apply digits_unique. rewrite E. pose proof (digits_spec m) as [H1 H2].
  replace (Z.pos (digits2_pos m) + k - 1)%Z with ((Z.pos (digits2_pos m) - 1) + k)%Z by lia.
  rewrite !Z.pow_add_r by lia. assert (P : (0 < 2 ^ k)%Z) by (apply Z.pow_pos_nonneg; lia). split.
  - apply Z.mul_le_mono_nonneg_r; lia.
  - apply Z.mul_lt_mono_pos_r; lia.
Qed.
Lemma round_spec sx mx ex : let d := Zpos (digits2_pos mx) in
  (-1074 <= ex)%Z -> (d + ex <= 1000)%Z ->
  exists m e, binary_round prec emax sx mx ex = S754_finite sx m e /\
    Rabs (IZR (Zpos m) * bp e - IZR (Zpos mx) * bp ex) <= eps64 * (IZR (Zpos mx) * bp ex).
Proof.
  intros d Hlo Hhi. unfold binary_round. fold d. destruct (Z_lt_le_dec (fexp64 (d + ex)) ex) as [L|L].
  - destruct (shl_align_spec mx ex (fexp64 (d + ex))) as [H1 H2]; [lia|].
    destruct (shl_align mx ex (fexp64 (d + ex))) as [mz ez] eqn:E. cbn [fst snd] in H1, H2. subst ez.
    set (k := (ex - fexp64 (d + ex))%Z) in *. assert (Hk : (0 <= k)%Z) by (unfold k; lia).
    assert (Hd : Zpos (digits2_pos mz) = (d + k)%Z) by (apply (digits_shift mx k mz Hk H1)).
    assert (Hs : (Zpos (digits2_pos mz) + fexp64 (d + ex) = d + ex)%Z) by (rewrite Hd; unfold k; lia).
    destruct (round_aux sx mz (fexp64 (d + ex))) as (m & e & Hm & He).
    + rewrite Hs. lia.
    + left. rewrite fexp_spec. lia.
    + rewrite Hs. exact Hhi.
    + exists m, e. split; [exact Hm|].
      replace (IZR (Z.pos mx) * bp ex) with (IZR (Z.pos mz) * bp (fexp64 (d + ex))); [exact He|].
      rewrite H1, mult_IZR, <- bp_IZR by exact Hk. rewrite Rmult_assoc, <- bp_add. do 2 f_equal. unfold k. lia.
  - unfold shl_align. destruct (fexp64 (d + ex) - ex)%Z as [|p|p] eqn:E; [| |lia]; apply (round_aux sx mx ex); fold d; lia.
Qed.

(** Numbers below 2^999. *)
Lemma digits_value m e : Rabs (IZR (Zpos m) * bp e) <= bp 999 -> (Zpos (digits2_pos m) + e <= 1000)%Z.
Proof.
  intros H. rewrite Rabs_right in H by (apply Rle_ge, Rmult_le_pos; [apply IZR_le; lia|left; apply bp_pos]).
  pose proof (digits_spec m) as [H1 _]. apply IZR_le in H1. rewrite <- bp_IZR in H1 by lia.
  pose proof (bp_pos e) as Hb. assert (H2 : bp (Z.pos (digits2_pos m) - 1 + e) <= bp 999) by (rewrite bp_add; nra).
  destruct (Z_le_gt_dec (Zpos (digits2_pos m) + e) 1000) as [L|L]; [exact L|].
  assert (Hc : bp 1000 <= bp (Z.pos (digits2_pos m) - 1 + e)) by (apply bp_le; lia).
  change 1000%Z with (999 + 1)%Z in Hc. rewrite bp_add in Hc. change (bp 1) with (2 * 1) in Hc. pose proof (bp_pos 999). lra.
Qed.
Lemma normalize_spec M ez : (-1074 <= ez)%Z -> Rabs (IZR M * bp ez) <= bp 999 ->
  finite_sf (binary_normalize prec emax M ez false) /\
  Rabs (sv (binary_normalize prec emax M ez false) - IZR M * bp ez) <= eps64 * Rabs (IZR M * bp ez).
Proof.
  intros Hlo Hhi. pose proof (bp_pos ez) as Hb. unfold binary_normalize. destruct M as [|m|m].
  - cbn [finite_sf sv]. split; [exact I|]. rewrite Rmult_0_l, Rminus_0_r, Rabs_R0. lra.
  - destruct (round_spec false m ez Hlo (digits_value m ez Hhi)) as (m' & e' & -> & He). cbn [finite_sf sv]. split; [exact I|].
    rewrite (Rabs_right (IZR (Z.pos m) * bp ez)); [exact He|]. apply Rle_ge, Rmult_le_pos; [apply IZR_le; lia|lra].
  - assert (Hhi' : Rabs (IZR (Z.pos m) * bp ez) <= bp 999).
    { rewrite <- Rabs_Ropp. replace (- (IZR (Z.pos m) * bp ez)) with (IZR (Z.neg m) * bp ez); [exact Hhi|].
      change (Z.neg m) with (- Z.pos m)%Z. rewrite opp_IZR. ring. }
    destruct (round_spec true m ez Hlo (digits_value m ez Hhi')) as (m' & e' & -> & He). cbn [finite_sf sv]. split; [exact I|].
    replace (- IZR (Z.pos m') * bp e' - IZR (Z.neg m) * bp ez) with (- (IZR (Z.pos m') * bp e' - IZR (Z.pos m) * bp ez))
      by (change (Z.neg m) with (- Z.pos m)%Z; rewrite opp_IZR; ring).
    rewrite Rabs_Ropp. replace (IZR (Z.neg m) * bp ez) with (- (IZR (Z.pos m) * bp ez))
      by (change (Z.neg m) with (- Z.pos m)%Z; rewrite opp_IZR; ring).
    rewrite Rabs_Ropp, (Rabs_right (IZR (Z.pos m) * bp ez)); [exact He|]. apply Rle_ge, Rmult_le_pos; [apply IZR_le; lia|lra].
Qed.
Lemma valid_exponent s m e : valid_binary (S754_finite s m e) = true -> (-1074 <= e)%Z /\ fexp64 (Zpos (digits2_pos m) + e) = e.
Proof.
  cbn [SpecFloat.valid_binary]. unfold bounded, canonical_mantissa. intros H. apply andb_true_iff in H as [H _]. apply Zeq_bool_eq in H.
  split; [|exact H]. rewrite fexp_spec in H. lia.
Qed.
Lemma cond_value s m : IZR (cond_Zopp s (Zpos m)) = if s then - IZR (Zpos m) else IZR (Zpos m).
Proof. destruct s; [apply (opp_IZR (Zpos m))|reflexivity]. Qed.
Lemma eps_pos : 0 < eps64.
Proof. apply bp_pos. Qed.
Lemma exact_case x v : x = v -> Rabs (x - v) <= eps64 * Rabs v.
Proof. intros ->. replace (v - v) with 0 by ring. rewrite Rabs_R0. apply Rmult_le_pos; [left; apply eps_pos|apply Rabs_pos]. Qed.

Lemma SFadd_spec x y : valid_binary x = true -> valid_binary y = true -> finite_sf x -> finite_sf y -> Rabs (sv x + sv y) <= bp 999 ->
  finite_sf (SFadd prec emax x y) /\ Rabs (sv (SFadd prec emax x y) - (sv x + sv y)) <= eps64 * Rabs (sv x + sv y).
Proof.
  intros Vx Vy Fx Fy Hb. destruct x as [sx|sx| |sx mx ex]; try contradiction; destruct y as [sy|sy| |sy my ey]; try contradiction.
  - cbn. destruct (Bool.eqb sx sy); (split; [exact I|]); apply exact_case; cbn; ring.
  - split; [exact I|]. apply exact_case. cbn. ring.
  - split; [exact I|]. apply exact_case. cbn. ring.
  - unfold SFadd. set (ez := Z.min ex ey).
    destruct (valid_exponent _ _ _ Vx) as [Ex _], (valid_exponent _ _ _ Vy) as [Ey _].
    destruct (shl_align_spec mx ex ez) as [A1 _]; [unfold ez; lia|]. destruct (shl_align_spec my ey ez) as [A2 _]; [unfold ez; lia|].
    assert (E : sv (S754_finite sx mx ex) + sv (S754_finite sy my ey)
      = IZR (cond_Zopp sx (Zpos (fst (shl_align mx ex ez))) + cond_Zopp sy (Zpos (fst (shl_align my ey ez)))) * bp ez).
    { rewrite plus_IZR, !cond_value, A1, A2, !mult_IZR, <- !bp_IZR by (unfold ez; lia). cbn [sv].
      replace (bp ex) with (bp (ex - ez) * bp ez) by (rewrite <- bp_add; f_equal; lia).
      replace (bp ey) with (bp (ey - ez) * bp ez) by (rewrite <- bp_add; f_equal; lia). destruct sx, sy; ring. }
    rewrite E in *. apply normalize_spec; [unfold ez; lia|exact Hb].
Qed.
Lemma SFsub_add x y : valid_binary x = true -> SFsub prec emax x y = SFadd prec emax x (SFopp y).
Proof.
  intros _. destruct x as [sx|sx| |sx mx ex], y as [sy|sy| |sy my ey]; try reflexivity.
  cbn [SFopp SFsub SFadd]. cbv zeta. f_equal. destruct sy; cbn [negb cond_Zopp]; lia.
Qed.
Lemma SFopp_value x : sv (SFopp x) = - sv x.
Proof. destruct x as [s|s| |s m e]; cbn; try ring. destruct s; cbn; ring. Qed.
Lemma SFopp_valid x : valid_binary (SFopp x) = valid_binary x.
Proof. destruct x; reflexivity. Qed.
Lemma SFopp_finite x : finite_sf (SFopp x) <-> finite_sf x.
Proof. destruct x; reflexivity. Qed.

(** Comparisons. *)
Lemma canonical_lt s m e s' m' e' : valid_binary (S754_finite s m e) = true -> valid_binary (S754_finite s' m' e') = true ->
  (e < e')%Z -> IZR (Zpos m) * bp e < IZR (Zpos m') * bp e'.
Proof.
  intros V V' H. destruct (valid_exponent _ _ _ V) as [L1 C], (valid_exponent _ _ _ V') as [L2 C'].
  rewrite fexp_spec in C, C'. pose proof (digits_spec m) as [_ H1]. pose proof (digits_spec m') as [H2 _].
  apply IZR_lt in H1. apply IZR_le in H2. rewrite <- bp_IZR in H1, H2 by lia. pose proof (bp_pos e). pose proof (bp_pos e').
  apply Rlt_le_trans with (bp (Z.pos (digits2_pos m) + e)); [rewrite bp_add; nra|].
  apply Rle_trans with (bp (Z.pos (digits2_pos m') - 1 + e')); [apply bp_le; lia|rewrite bp_add; nra].
Qed.
Lemma compare_finite s m e s' m' e' : valid_binary (S754_finite s m e) = true -> valid_binary (S754_finite s' m' e') = true ->
  match match Z.compare e e' with Lt => Lt | Gt => Gt | Eq => Pos.compare_cont Eq m m' end with
  | Lt => IZR (Zpos m) * bp e < IZR (Zpos m') * bp e'
  | Eq => IZR (Zpos m) * bp e = IZR (Zpos m') * bp e'
  | Gt => IZR (Zpos m) * bp e > IZR (Zpos m') * bp e'
  end.
Proof.
  intros V V'. destruct (Z.compare_spec e e') as [<-|L|L].
  - change (Pos.compare_cont Eq m m') with (Pos.compare m m'). pose proof (bp_pos e). destruct (Pos.compare_spec m m') as [->|L|L]; [reflexivity| |];
      apply Rmult_lt_compat_r; try lra; apply IZR_lt; lia.
  - now apply (canonical_lt s m e s' m' e').
  - apply Rlt_gt. now apply (canonical_lt s' m' e' s m e).
Qed.
Lemma compare_value x y : valid_binary x = true -> valid_binary y = true -> finite_sf x -> finite_sf y ->
  exists c, SFcompare x y = Some c /\ match c with Lt => sv x < sv y | Eq => sv x = sv y | Gt => sv x > sv y end.
Proof.
  intros Vx Vy Fx Fy. destruct x as [sx|sx| |sx mx ex]; try contradiction; destruct y as [sy|sy| |sy my ey]; try contradiction;
    eexists; (split; [reflexivity|]); cbn [sv].
  - reflexivity.
  - assert (0 < IZR (Z.pos my) * bp ey) by (apply Rmult_lt_0_compat; [apply IZR_lt; lia|apply bp_pos]). destruct sy; lra.
  - assert (0 < IZR (Z.pos mx) * bp ex) by (apply Rmult_lt_0_compat; [apply IZR_lt; lia|apply bp_pos]). destruct sx; lra.
  - assert (P1 : 0 < IZR (Z.pos my) * bp ey) by (apply Rmult_lt_0_compat; [apply IZR_lt; lia|apply bp_pos]).
    assert (P2 : 0 < IZR (Z.pos mx) * bp ex) by (apply Rmult_lt_0_compat; [apply IZR_lt; lia|apply bp_pos]).
    pose proof (compare_finite sx mx ex sy my ey Vx Vy) as H.
    destruct sx, sy; try lra.
    + destruct (Z.compare ex ey); [destruct (Pos.compare_cont Eq mx my)| |]; cbn [CompOpp] in *; lra.
    + exact H.
Qed.

(** Products with a normal number of 53 digits, without underflow. *)
Lemma SFmul_spec c y s m e : c = S754_finite false m e -> Zpos (digits2_pos m) = 53%Z -> valid_binary y = true -> finite_sf y ->
  y = S754_finite s (match y with S754_finite _ my _ => my | _ => 1%positive end) (match y with S754_finite _ _ ey => ey | _ => 0%Z end) ->
  bp (-1000) <= Rabs (sv c * sv y) <= bp 999 ->
  finite_sf (SFmul prec emax c y) /\ Rabs (sv (SFmul prec emax c y) - sv c * sv y) <= eps64 * Rabs (sv c * sv y).
Proof.
  intros -> Hd Vy Fy Hy Hb. destruct y as [sy|sy| |sy my ey]; try contradiction; [discriminate|]. clear Hy. cbn [SFmul]. rewrite xorb_false_l.
  assert (Ev : Rabs (sv (S754_finite false m e) * sv (S754_finite sy my ey)) = IZR (Zpos (m * my)) * bp (e + ey)).
  { cbn [sv]. rewrite bp_add, Pos2Z.inj_mul, mult_IZR.
    assert (0 < IZR (Z.pos m) * bp e) by (apply Rmult_lt_0_compat; [apply IZR_lt; lia|apply bp_pos]).
    assert (0 < IZR (Z.pos my) * bp ey) by (apply Rmult_lt_0_compat; [apply IZR_lt; lia|apply bp_pos]).
    destruct sy.
    - rewrite <- Rabs_Ropp, Rabs_right; [ring|]. apply Rle_ge.
      replace (- (IZR (Z.pos m) * bp e * (- IZR (Z.pos my) * bp ey))) with ((IZR (Z.pos m) * bp e) * (IZR (Z.pos my) * bp ey)) by ring. nra.
    - rewrite Rabs_right; [ring|]. nra. }
  rewrite Ev in *. destruct Hb as [Hb1 Hb2].
  assert (Hhi : (Zpos (digits2_pos (m * my)) + (e + ey) <= 1000)%Z).
  { apply digits_value. rewrite Rabs_right; [exact Hb2|]. pose proof (bp_pos (-1000)). lra. }
  assert (Hlo : (-1000 < Zpos (digits2_pos (m * my)) + (e + ey))%Z).
  { pose proof (digits_spec (m * my)) as [_ H2]. apply IZR_lt in H2. rewrite <- bp_IZR in H2 by lia. apply bp_lt_inv. rewrite bp_add.
    pose proof (bp_pos (e + ey)). nra. }
  assert (Hd53 : (53 <= Zpos (digits2_pos (m * my)))%Z).
  { pose proof (digits_spec (m * my)) as [_ H2]. pose proof (digits_spec m) as [H1 _]. rewrite Hd in H1.
    destruct (Z_lt_le_dec (Zpos (digits2_pos (m * my))) 53) as [L|L]; [|exact L].
    assert ((2 ^ Zpos (digits2_pos (m * my)) <= 2 ^ 52)%Z) by (apply Z.pow_le_mono_r; lia). rewrite Pos2Z.inj_mul in H2. nia. }
  destruct (round_aux sy (m * my) (e + ey)) as (m' & e' & -> & He).
  - rewrite fexp_spec. lia.
  - right. lia.
  - exact Hhi.
  - cbn [finite_sf sv]. split; [exact I|].
    replace (IZR (Z.pos m) * bp e * ((if sy then - IZR (Z.pos my) else IZR (Z.pos my)) * bp ey))
      with (if sy then - (IZR (Z.pos (m * my)) * bp (e + ey)) else IZR (Z.pos (m * my)) * bp (e + ey))
      by (rewrite bp_add, Pos2Z.inj_mul, mult_IZR; destruct sy; ring).
    destruct sy; [|exact He].
    replace (- IZR (Z.pos m') * bp e' - - (IZR (Z.pos (m * my)) * bp (e + ey)))
      with (- (IZR (Z.pos m') * bp e' - IZR (Z.pos (m * my)) * bp (e + ey))) by ring. rewrite Rabs_Ropp. exact He.
Qed.

(** The kernel's floats. *)
Lemma fin_valid x : valid_binary (Prim2SF x) = true.
Proof. apply Prim2SF_valid. Qed.
Lemma value_sv x : value64 x = sv (Prim2SF x).
Proof. unfold value64, sv, bp. destruct (Prim2SF x); reflexivity. Qed.
Lemma finite_fin x : finite64 x <-> finite_sf (Prim2SF x).
Proof. unfold finite64, finite_sf. reflexivity. Qed.
Lemma big_bp a : Rabs a <= huge64 -> Rabs a <= bp 999.
Proof. intros H. apply Rle_trans with (1 := H). apply (bp_le 900 999). lia. Qed.
Lemma add64 a b : finite64 a -> finite64 b -> Rabs (value64 a + value64 b) <= huge64 ->
  finite64 (a + b)%float /\ Rabs (value64 (a + b)%float - (value64 a + value64 b)) <= ulp64 * Rabs (value64 a + value64 b).
Proof.
  intros Ha Hb Hs. rewrite finite_fin in *. rewrite !value_sv in *. rewrite add_spec.
  apply (SFadd_spec _ _ (fin_valid a) (fin_valid b)); auto. now apply big_bp.
Qed.
Lemma sub64 a b : finite64 a -> finite64 b -> Rabs (value64 a - value64 b) <= huge64 ->
  finite64 (a - b)%float /\ Rabs (value64 (a - b)%float - (value64 a - value64 b)) <= ulp64 * Rabs (value64 a - value64 b).
Proof.
  intros Ha Hb Hs. rewrite finite_fin in *. rewrite !value_sv in *. rewrite sub_spec.
  change (SF64sub (Prim2SF a) (Prim2SF b)) with (SFsub prec emax (Prim2SF a) (Prim2SF b)). rewrite SFsub_add by apply fin_valid.
  unfold Rminus in *. rewrite <- SFopp_value in *.
  apply SFadd_spec; [apply fin_valid|rewrite SFopp_valid; apply fin_valid|exact Ha|now apply SFopp_finite|now apply big_bp].
Qed.
Lemma abs64 a : finite64 a -> finite64 (abs a) /\ value64 (abs a) = Rabs (value64 a).
Proof.
  intros Ha. rewrite finite_fin in *. rewrite !value_sv in *. rewrite abs_spec. destruct (Prim2SF a) as [s|s| |s m e]; try contradiction.
  - split; [exact I|]. cbn. now rewrite Rabs_R0.
  - split; [exact I|]. cbn [SFabs sv].
    assert (0 < IZR (Z.pos m) * bp e) by (apply Rmult_lt_0_compat; [apply IZR_lt; lia|apply bp_pos]).
    destruct s; [rewrite <- Rabs_Ropp|]; rewrite Rabs_right; try ring; lra.
Qed.
Lemma ltb64 a b : finite64 a -> finite64 b -> (a <? b)%float = true <-> value64 a < value64 b.
Proof.
  intros Ha Hb. rewrite finite_fin in *. rewrite !value_sv in *. rewrite ltb_spec.
  destruct (compare_value _ _ (fin_valid a) (fin_valid b) Ha Hb) as (c & Hc & Hv). unfold SFltb. rewrite Hc.
  destruct c; split; intros H; try discriminate; try reflexivity; try exact Hv; lra.
Qed.
Lemma leb64 a b : finite64 a -> finite64 b -> (a <=? b)%float = true <-> value64 a <= value64 b.
Proof.
  intros Ha Hb. rewrite finite_fin in *. rewrite !value_sv in *. rewrite leb_spec.
  destruct (compare_value _ _ (fin_valid a) (fin_valid b) Ha Hb) as (c & Hc & Hv). unfold SFleb. rewrite Hc.
  destruct c; split; intros H; try discriminate; try reflexivity; lra.
Qed.
Lemma tol_mantissa : Prim2SF (nrtol (Num:=NumF)) = S754_finite false 5902958103587057 (-69).
Proof. vm_compute. reflexivity. Qed.
Lemma bp_neg e : bp (- e) = / bp e.
Proof. apply Rmult_eq_reg_r with (bp e); [|pose proof (bp_pos e); lra]. rewrite <- bp_add, Z.add_opp_diag_l, Rinv_l; [reflexivity|pose proof (bp_pos e); lra]. Qed.
Lemma tol_value : Rabs (value64 (nrtol (Num:=NumF)) - / 100000) <= / 1000000000000000000.
Proof.
  rewrite value_sv, tol_mantissa. cbn [sv]. rewrite (bp_neg 69 : bp (-69) = / bp 69), bp_IZR by lia.
  change (2 ^ 69)%Z with 590295810358705651712%Z. apply Rabs_le. split; lra.
Qed.
Lemma eps_value : ulp64 = / 4503599627370496.
Proof. change ulp64 with (bp (-52)). rewrite (bp_neg 52 : bp (-52) = / bp 52), bp_IZR by lia. reflexivity. Qed.
Lemma Rabs_inv x a : Rabs x <= a -> - a <= x <= a.
Proof. unfold Rabs. destruct (Rcase_abs x); lra. Qed.
Lemma tol64 b : finite64 b -> tiny64 <= Rabs (value64 b) <= huge64 ->
  finite64 (nmul (Num:=NumF) nrtol b) /\ Rabs (value64 (nmul (Num:=NumF) nrtol b) - value64 b / 100000) <= Rabs (value64 b) / 100000000000000.
Proof.
  intros Hb [H1 H2]. pose proof tol_value as Ht. pose proof eps_value as Hu. set (c := value64 (nrtol (Num:=NumF))) in *.
  assert (Hc : / 1000000 <= c <= 1) by (apply Rabs_inv in Ht; lra).
  assert (H : finite64 (nmul (Num:=NumF) nrtol b) /\ Rabs (value64 (nmul (Num:=NumF) nrtol b) - c * value64 b) <= ulp64 * Rabs (c * value64 b)).
  { unfold c. rewrite finite_fin in *. rewrite !value_sv in *. cbn [nmul NumF]. rewrite mul_spec. rewrite tol_mantissa.
    destruct (Prim2SF b) as [s|s| |s m e] eqn:E; try contradiction.
    - exfalso. cbn [sv] in H1. rewrite Rabs_R0 in H1. pose proof (bp_pos (-900)) as Hp. change tiny64 with (bp (-900)) in H1. lra.
    - eapply (SFmul_spec _ _ s _ _ eq_refl); [reflexivity|rewrite <- E; apply fin_valid|exact I|reflexivity|].
      rewrite <- tol_mantissa, <- value_sv. fold c. rewrite Rabs_mult, (Rabs_right c) by lra. rewrite <- E in *.
      set (x := Rabs (sv (Prim2SF b))) in *. assert (0 <= x) by apply Rabs_pos.
      assert (E1 : bp (-1000) * 1000000 <= tiny64).
      { change tiny64 with (bp (-1000 + 100)). rewrite bp_add. apply Rmult_le_compat_l; [left; apply bp_pos|].
        rewrite bp_IZR by lia. apply IZR_le. vm_compute. discriminate. }
      assert (E2 : huge64 <= bp 999) by (apply (bp_le 900 999); lia). split; nra. }
  destruct H as [Hf H]. split; [exact Hf|].
  replace (value64 (nmul (Num:=NumF) nrtol b) - value64 b / 100000)
    with ((value64 (nmul (Num:=NumF) nrtol b) - c * value64 b) + (c - / 100000) * value64 b) by (unfold Rdiv; ring).
  eapply Rle_trans; [apply Rabs_triang|]. rewrite Rabs_mult. rewrite Rabs_mult, (Rabs_right c) in H by lra.
  pose proof (Rabs_pos (value64 b)). set (x := Rabs (value64 b)) in *. rewrite Hu in H. nra.
Qed.

(** Binary64 has the standard model. *)
Theorem binary64 : rounded NumF value64 finite64 ulp64 tiny64 huge64.
Proof.
  constructor.
  - rewrite eps_value. lra.
  - apply (bp_pos (-900)).
  - split; [exact I|]. rewrite value_sv. reflexivity.
  - exact add64.
  - exact sub64.
  - exact abs64.
  - exact ltb64.
  - exact leb64.
  - exact tol64.
Qed.
