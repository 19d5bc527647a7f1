(** Proofs about big_float.rs: [to_f64] is round to nearest, ties to even. *)
From Coq Require Import ZArith List Bool Lia Lra Reals.
From Coq Require Import ZifyBool ZifyNat.
From Flocq Require Import Core.Core IEEE754.BinarySingleNaN IEEE754.Binary IEEE754.Bits.
From Verif Require Import Outcome LimbsModel LimbsSpec BigUintModel BigIntModel JsBigintModel BigSpec
  LimbsProofs ShiftProofs BigUintProofs JsBigintProofs JsBitsProofs JsDivProofs BigFloatModel
  BigFloatSpec BigFloatProofs BigFloatReal Prop_JsBigint.
Import ListNotations.
Open Scope Z_scope.

(** Rounding decision on s with one extra bit. *)
Definition frac_of (s : Z) (r : bool) : Z :=
  if (s mod 2 =? 1) && (r || Z.odd (s / 2)) then s / 2 + 1 else s / 2.

Lemma frac_of_range s r : 0 <= s -> s / 2 <= frac_of s r <= s / 2 + 1.
Proof. unfold frac_of. destruct (_ && _); lia. Qed.

Lemma get_frac_round_spec f : jwf (bf_sig f) -> 0 < jval (bf_sig f) < B ->
  get_frac_round f = Ok (frac_of (jval (bf_sig f)) (bf_rem f)).
Proof.
  intros Hs Ps. unfold get_frac_round.
  pose proof (last_bit_spec _ Hs ltac:(lia)) as HL.
  assert (Ev : jval (bf_sig f) = val (jb_items (bf_sig f))).
  { rewrite (jval_sign (bf_sig f)) in *. pose proof (jwf_neg_pos _ Hs) as H. destruct (jb_sign _); cbn [sign_int] in *; [lia|].
    specialize (H eq_refl). lia. }
  destruct Hs as [Hc _].
  destruct (jb_items (bf_sig f)) as [|d [|d2 l]] eqn:Ei.
  - rewrite val_nil in Ev. lia.
  - rewrite single_val in Ev. rewrite HL, Ev. rewrite Ev in Ps. rewrite shiftr1, land1 by lia.
    unfold frac_of. rewrite <- Z.bit0_odd, Z.bit0_eqb.
    pose proof (Z.mod_pos_bound d 2 ltac:(lia)).
    destruct (Z.eqb_spec (d mod 2) 1) as [E|E]; cbn [andb].
    + destruct (bf_rem f); cbn [negb orb andb]; [rewrite E; reflexivity|].
      destruct (_ =? 1); reflexivity.
    + destruct (Z.eqb_spec (d mod 2) 1); [lia|]. reflexivity.
  - pose proof (long_ge _ _ _ Hc). lia.
Qed.

Lemma nearest_half x s e r : brackets x s e r ->
  ZnearestE (x * bpow radix2 (- (e + 1))) = frac_of s r.
Proof.
  intros H. set (y := (x * bpow radix2 (- (e + 1)))%R).
  pose proof (Z.div_mod s 2 ltac:(lia)) as Hdm. pose proof (Z.mod_pos_bound s 2 ltac:(lia)) as Hm.
  assert (Hy : if r then (IZR s / 2 < y < (IZR s + 1) / 2)%R else y = (IZR s / 2)%R).
  { assert (HE : (bpow radix2 e * bpow radix2 (- (e + 1)) = / 2)%R).
    { rewrite <- bpow_plus. replace (e + - (e + 1)) with (-1) by lia. reflexivity. }
    pose proof (bpow_gt_0 radix2 (- (e + 1))) as P. unfold brackets in H. unfold y.
    destruct r.
    - destruct H as [H1 H2]. apply Rmult_lt_compat_r with (r := bpow radix2 (- (e + 1))) in H1; auto.
      apply Rmult_lt_compat_r with (r := bpow radix2 (- (e + 1))) in H2; auto.
      rewrite Rmult_assoc, HE in H1, H2. split; lra.
    - rewrite H, Rmult_assoc, HE. lra. }
  clearbody y. set (h := s / 2) in *. set (l := s mod 2) in *.
  assert (Hs : IZR s = (2 * IZR h + IZR l)%R) by (rewrite Hdm, plus_IZR, mult_IZR; reflexivity).
  rewrite Hs in Hy. clear H. unfold frac_of. fold h l.
  assert (Hl : l = 0 \/ l = 1) by lia. clearbody h l. clear s Hdm Hm Hs.
  destruct Hl as [-> | ->]; cbn [andb Z.eqb].
  - apply Znearest_imp. apply Rabs_lt. destruct r; cbn in Hy; lra.
  - change (1 =? 1)%positive with true. cbn [andb]. destruct r; cbn [orb].
    + apply Znearest_imp. rewrite plus_IZR. apply Rabs_lt. lra.
    + assert (Hf : Zfloor y = h) by (apply Zfloor_imp; rewrite plus_IZR; lra).
      assert (Hcl : Zceil y = h + 1) by (apply Zceil_imp; rewrite minus_IZR, plus_IZR; lra).
      unfold Znearest. rewrite Hf, Hcl.
      rewrite Rcompare_Eq by lra. rewrite <- Z.negb_odd, negb_involutive. destruct (Z.odd h); reflexivity.
Qed.

Lemma brackets_mag x s e r n : 0 < s -> 2 ^ (n - 1) <= s < 2 ^ n -> 0 < n ->
  brackets x s e r -> mag_val radix2 x (mag radix2 x) = e + n.
Proof.
  intros Hs Hb Hn H. apply mag_unique_pos.
  assert (E1 : (IZR (2 ^ (n - 1)) <= IZR s)%R) by (apply IZR_le; lia).
  assert (E2 : (IZR s + 1 <= IZR (2 ^ n))%R) by (rewrite <- plus_IZR; apply IZR_le; lia).
  rewrite <- bpow2_Z in E1, E2 by lia.
  replace (e + n - 1) with ((n - 1) + e) by lia. replace (e + n) with (n + e) by lia.
  rewrite !bpow_plus. pose proof (bpow_gt_0 radix2 e) as P. unfold brackets in H.
  set (E := bpow radix2 e) in *. clearbody E. destruct r; nra.
Qed.

(** Rounding of a bracketed number whose unit is 2^(e+1). *)
Lemma rne64_bracket x s e r n : 0 < s -> 2 ^ (n - 1) <= s < 2 ^ n -> 0 < n ->
  brackets x s e r -> Z.max (e + n - 53) (-1074) = e + 1 ->
  rne64 x = (IZR (frac_of s r) * bpow radix2 (e + 1))%R.
Proof.
  intros Hs Hb Hn H Hc. unfold rne64, round, scaled_mantissa, cexp.
  rewrite (brackets_mag x s e r n) by auto. unfold FLT_exp. rewrite Hc.
  rewrite (nearest_half x s e r H). reflexivity.
Qed.

(** Decoding of bit patterns. *)
Definition fin_real (n : Z) : R :=
  if n <? 2 ^ 52 then (IZR n * bpow radix2 (-1074))%R
  else (IZR (n mod 2 ^ 52 + 2 ^ 52) * bpow radix2 (n / 2 ^ 52 - 1075))%R.

Lemma split_bits_sn (b : bool) n : 0 <= n < 2 ^ 63 ->
  split_bits 52 11 ((if b then 2 ^ 63 else 0) + n) = (b, n mod 2 ^ 52, n / 2 ^ 52).
Proof.
  intros Hn. unfold split_bits. change (2 ^ 52 * 2 ^ 11) with (2 ^ 63).
  assert (Hd : n / 2 ^ 52 < 2 ^ 11) by (apply Z.div_lt_upper_bound; lia).
  assert (Hd0 : 0 <= n / 2 ^ 52) by (apply Z.div_pos; lia).
  destruct b.
  - rewrite (proj2 (Z.leb_le _ _)) by lia.
    assert (E1 : (2 ^ 63 + n) mod 2 ^ 52 = n mod 2 ^ 52).
    { change (2 ^ 63) with (2 ^ 11 * 2 ^ 52). rewrite Z.add_comm, Z.mod_add by lia. reflexivity. }
    assert (E2 : (2 ^ 63 + n) / 2 ^ 52 = 2 ^ 11 + n / 2 ^ 52).
    { change (2 ^ 63) with (2 ^ 11 * 2 ^ 52). rewrite Z.div_add_l by lia. reflexivity. }
    rewrite E1, E2. replace ((2 ^ 11 + n / 2 ^ 52) mod 2 ^ 11) with (n / 2 ^ 52); [reflexivity|].
    apply Z.mod_unique_pos with (q := 1); lia.
  - rewrite (proj2 (Z.leb_gt _ _)) by lia. rewrite Z.add_0_l.
    rewrite (Z.mod_small (n / 2 ^ 52)) by lia. reflexivity.
Qed.

Lemma b64_finite (b : bool) n : 0 <= n < 2047 * 2 ^ 52 ->
  let x := b64_of_bits ((if b then 2 ^ 63 else 0) + n) in
  is_finite 53 1024 x = true /\ B2R 53 1024 x = (if b then - fin_real n else fin_real n)%R /\
  Bsign 53 1024 x = b.
Proof.
  intros Hn x. unfold x, b64_of_bits, binary_float_of_bits.
  rewrite is_finite_FF2B, B2R_FF2B, Bsign_FF2B.
  unfold binary_float_of_bits_aux. rewrite split_bits_sn by lia.
  pose proof (Z.mod_pos_bound n (2 ^ 52) ltac:(lia)) as Hm.
  pose proof (Z.div_mod n (2 ^ 52) ltac:(lia)) as Hdm.
  assert (Hd : n / 2 ^ 52 < 2047) by (apply Z.div_lt_upper_bound; lia).
  assert (Hd0 : 0 <= n / 2 ^ 52) by (apply Z.div_pos; lia).
  unfold fin_real. case Zeq_bool_spec; intros He.
  - assert (Hn2 : n mod 2 ^ 52 = n) by lia. rewrite Hn2 in *.
    destruct (Z.ltb_spec n (2 ^ 52)); [|lia].
    destruct n as [|px|px]; [| |lia].
    + split; [reflexivity|]. split; [|reflexivity]. cbn. destruct b; lra.
    + split; [reflexivity|]. split; [|reflexivity]. cbn -[bpow IZR].
      unfold F2R; cbn [Fnum Fexp]. destruct b; cbn [SpecFloat.cond_Zopp]; [rewrite Ropp_mult_distr_l, <- opp_IZR|]; reflexivity.
  - rewrite Zeq_bool_false by (change (2 ^ 11 - 1) with 2047; lia).
    destruct (Z.ltb_spec n (2 ^ 52)); [lia|].
    destruct (n mod 2 ^ 52 + 2 ^ 52) as [|px|px] eqn:Em; [lia| |lia].
    split; [reflexivity|]. split; [|reflexivity].
    unfold FF2R, F2R; cbn [Fnum Fexp].
    replace (n / 2 ^ 52 + SpecFloat.emin (52 + 1) (2 ^ (11 - 1)) - 1) with (n / 2 ^ 52 - 1075)
      by (change (SpecFloat.emin (52 + 1) (2 ^ (11 - 1))) with (-1074); lia).
    destruct b; cbn [SpecFloat.cond_Zopp]; [rewrite Ropp_mult_distr_l, <- opp_IZR|]; reflexivity.
Qed.

Lemma b64_inf (b : bool) : b64_of_bits ((if b then 2 ^ 63 else 0) + 2047 * 2 ^ 52) = B754_infinity 53 1024 b.
Proof. destruct b; reflexivity. Qed.

Lemma lor_hi_lo h lo k : 0 <= k -> 0 <= lo < 2 ^ k -> Z.lor (h * 2 ^ k) lo = h * 2 ^ k + lo.
Proof.
  intros Hk Hlo.
  assert (E : Z.land (h * 2 ^ k) lo = 0).
  { apply Z.bits_inj'. intros n Hn. rewrite Z.land_spec, Z.bits_0.
    destruct (Z_lt_le_dec n k) as [L|L].
    - rewrite Z.mul_pow2_bits_low by lia. reflexivity.
    - rewrite <- (Z.mod_small lo (2 ^ k)) by lia. rewrite Z.mod_pow2_bits_high by lia. apply andb_false_r. }
  rewrite <- Z.lxor_lor by exact E. symmetry. apply Z.add_nocarry_lxor. exact E.
Qed.

Lemma fin_real_m E m : (1 <= E) -> 0 <= m <= 2 ^ 53 -> (E = 1 \/ 2 ^ 52 <= m) ->
  fin_real ((E - 1) * 2 ^ 52 + m) = (IZR m * bpow radix2 (E - 1075))%R.
Proof.
  intros HE Hm Hc. unfold fin_real.
  destruct (Z.ltb_spec ((E - 1) * 2 ^ 52 + m) (2 ^ 52)) as [L|L].
  - assert (E = 1) by lia. subst E. replace ((1 - 1) * 2 ^ 52 + m) with m by lia. reflexivity.
  - assert (Hm2 : 2 ^ 52 <= m) by lia. destruct (Z.eq_dec m (2 ^ 53)) as [M|M].
    + replace ((E - 1) * 2 ^ 52 + m) with (0 + (E + 1) * 2 ^ 52) by lia.
      rewrite Z.mod_add, Z.div_add by lia. change (0 mod 2 ^ 52) with 0. change (0 / 2 ^ 52) with 0.
      rewrite Z.add_0_l, M. replace (0 + (E + 1) - 1075) with (E - 1075 + 1) by lia.
      rewrite bpow_plus. change (2 ^ 53) with (2 ^ 52 * 2). rewrite mult_IZR. change (bpow radix2 1) with 2%R. ring.
    + replace ((E - 1) * 2 ^ 52 + m) with ((m - 2 ^ 52) + E * 2 ^ 52) by lia.
      rewrite Z.mod_add, Z.div_add by lia. rewrite Z.mod_small, Z.div_small by lia.
      rewrite Z.sub_add, Z.add_0_l. reflexivity.
Qed.

Lemma bits_sign s n : 0 <= n < 2 ^ 63 ->
  Z.lor (match s with Negative => Z.shiftl 1 63 | Positive => 0 end) n = (if neg_bit s then 2 ^ 63 else 0) + n.
Proof.
  intros Hn. destruct s; cbn [neg_bit].
  - rewrite Z.lor_0_l. lia.
  - change (Z.shiftl 1 63) with (1 * 2 ^ 63). rewrite lor_hi_lo by lia. reflexivity.
Qed.

Lemma nearest_finite s n x : 0 <= n < 2047 * 2 ^ 52 -> rne64 x = fin_real n ->
  f64_nearest ((if neg_bit s then 2 ^ 63 else 0) + n) s x.
Proof.
  intros Hn Hx. destruct (b64_finite (neg_bit s) n Hn) as [F1 [F2 F3]]. cbv zeta in *.
  split; [destruct (neg_bit s); lia|]. rewrite Hx. split.
  - intros _. auto.
  - intros Hge. exfalso.
    pose proof (abs_B2R_lt_emax 53 1024 (b64_of_bits ((if neg_bit s then 2 ^ 63 else 0) + n))) as H.
    rewrite F2 in H. assert (Habs : (Rabs (if neg_bit s then - fin_real n else fin_real n) = Rabs (fin_real n))%R)
      by (destruct (neg_bit s); [apply Rabs_Ropp|reflexivity]).
    rewrite Habs in H. pose proof (Rle_abs (fin_real n)). lra.
Qed.

Lemma nearest_inf s x : (bpow radix2 1024 <= rne64 x)%R ->
  f64_nearest ((if neg_bit s then 2 ^ 63 else 0) + 2047 * 2 ^ 52) s x.
Proof.
  intros H. split; [destruct (neg_bit s); lia|]. split; [lra|]. intros _. apply b64_inf.
Qed.

Lemma rne64_0 : rne64 0 = 0%R.
Proof. apply round_0. apply valid_rnd_N. Qed.

#[global] Instance flt64_valid : Valid_exp (FLT_exp (-1074) 53).
Proof. apply FLT_exp_valid. reflexivity. Qed.

Lemma rne64_ge_bpow x : (bpow radix2 1024 <= x)%R -> (bpow radix2 1024 <= rne64 x)%R.
Proof.
  intros H. apply round_ge_generic; auto with typeclass_instances.
  apply generic_format_bpow. unfold FLT_exp. lia.
Qed.

Lemma rne64_tiny x : (0 <= x <= bpow radix2 (-1075))%R -> rne64 x = 0%R.
Proof.
  intros [H0 H1]. destruct (Req_dec x 0) as [->|Hx]; [apply rne64_0|].
  assert (Hm : mag_val radix2 x (mag radix2 x) <= -1074).
  { apply mag_le_bpow; [exact Hx|]. rewrite Rabs_pos_eq by exact H0. 
    apply Rle_lt_trans with (1 := H1). apply bpow_lt. lia. }
  unfold rne64, round, scaled_mantissa, cexp.
  replace (FLT_exp (-1074) 53 (mag_val radix2 x (mag radix2 x))) with (-1074) by (unfold FLT_exp; lia).
  assert (Hy : (0 <= x * bpow radix2 (- -1074) <= / 2)%R).
  { split; [apply Rmult_le_pos; [exact H0|apply bpow_ge_0]|].
    apply Rle_trans with (bpow radix2 (-1075) * bpow radix2 (- -1074))%R.
    - apply Rmult_le_compat_r; [apply bpow_ge_0|exact H1].
    - rewrite <- bpow_plus. apply Req_le. reflexivity. }
  set (y := (x * bpow radix2 (- -1074))%R) in *.
  assert (E : ZnearestE y = 0); [|rewrite E; unfold F2R; cbn; ring].
  destruct (Req_dec y (/ 2)) as [Ey|Ey].
  - clearbody y. unfold Znearest. assert (Hf : Zfloor y = 0) by (apply Zfloor_imp; change (0 + 1) with 1; lra). rewrite Hf.
    rewrite Rcompare_Eq by lra. reflexivity.
  - clearbody y. assert (y < / 2)%R by (apply Rnot_le_lt; intro; apply Ey, Rle_antisym; tauto || lra). apply Znearest_imp, Rabs_lt. lra.
Qed.

Lemma bracket_lower x s e r : brackets x s e r -> (IZR s * bpow radix2 e <= x)%R.
Proof. unfold brackets. destruct r; lra. Qed.

Lemma bracket_upper x s e r : brackets x s e r -> (x < (IZR s + 1) * bpow radix2 e)%R.
Proof. unfold brackets. pose proof (bpow_gt_0 radix2 e). destruct r; nra. Qed.

(** The tiny interval where [to_f64] does not round up. *)
Definition lost (x : R) : Prop := (bpow radix2 (-1075) < x < bpow radix2 (-1074))%R.

Lemma pow_53 : 2 ^ 53 = 9007199254740992. Proof. reflexivity. Qed.

Lemma get_f64_bits_spec f x : jwf (bf_sig f) -> 0 <= jval (bf_sig f) ->
  brackets x (jval (bf_sig f)) (bf_exp f) (bf_rem f) ->
  (bf_rem f = true -> 2 ^ 53 <= jval (bf_sig f)) ->
  exists bits f0, (forall fuel, (f0 <= fuel)%nat -> get_f64_bits fuel f = Ok bits) /\
    (~ lost x -> f64_nearest bits (bf_sign f) x) /\
    (lost x -> bits = if neg_bit (bf_sign f) then 2 ^ 63 else 0).
Proof.
  intros Hs Ps Hx Hr.
  destruct (Z.eq_dec (jval (bf_sig f)) 0) as [Z0|Z0].
  { exists (if neg_bit (bf_sign f) then 2 ^ 63 else 0), 0%nat. split; [|split; [|auto]].
    - intros fuel _. unfold get_f64_bits. rewrite jb_is_zero_spec, Z0 by auto. cbn [Z.eqb].
      destruct (bf_sign f); reflexivity.
    - intros _. rewrite Z0 in Hx. assert (bf_rem f = false) as Hf.
      { destruct (bf_rem f); [|reflexivity]. specialize (Hr eq_refl). rewrite pow_53 in Hr. lia. }
      rewrite Hf in Hx. unfold brackets in Hx. rewrite Rmult_0_l in Hx. subst x.
      rewrite <- (Z.add_0_r (if neg_bit (bf_sign f) then 2 ^ 63 else 0)). apply nearest_finite; [lia|].
      rewrite rne64_0. unfold fin_real. cbn [Z.ltb Z.compare]. change (0 <? 2 ^ 52) with true. cbv iota. ring. }
  destruct (increase_spec f 53 Hs ltac:(lia) ltac:(lia)) as [k [f1 [n1 [Hk [F1 [H1 [V1 [X1 [S1 [R1 [L1 U1]]]]]]]]]]].
  assert (Pk : 0 < 2 ^ k) by (apply Z.pow_pos_nonneg; lia).
  assert (Hx1 : brackets x (jval (bf_sig f1)) (bf_exp f1) (bf_rem f1)).
  { rewrite V1, X1, R1. destruct (bf_rem f) eqn:Er; [|apply br_inc; auto].
    specialize (Hr eq_refl).
    destruct (Z.eq_dec k 0) as [K0|K0]; [subst k; rewrite Z.pow_0_r, Z.mul_1_r, Z.sub_0_r; exact Hx|].
    exfalso. destruct U1 as [U1|U1]; [lia|]. rewrite V1 in U1.
    assert (2 ^ 1 <= 2 ^ k) by (apply Z.pow_le_mono_r; lia). rewrite pow_53 in *.
    clear - H Hr U1. nia. }
  clear Hx Hr. rewrite pow_53 in L1.
  destruct (decrease_spec f1 54 H1 ltac:(lia) ltac:(lia)) as [k2 [v [n2 [Hk2 [F2 [H2 [V2 [X2 [S2 [R2 [L2 U2]]]]]]]]]]].
  assert (Hx2 : brackets x (jval (bf_sig v)) (bf_exp v) (bf_rem v))
    by (rewrite V2, X2, R2; apply br_dec; auto).
  assert (L2' : 2 ^ 53 <= jval (bf_sig v)).
  { destruct U2 as [U2|U2]; [|apply U2; lia]. rewrite V2, U2, Z.pow_0_r, Z.div_1_r. rewrite pow_53. lia. }
  set (s := jval (bf_sig v)) in *. set (e := bf_exp v) in *.
  assert (Hgo : forall fuel, (Nat.max n1 n2 <= fuel)%nat -> get_f64_bits fuel f =
    let bits := match bf_sign f with Negative => Z.shiftl 1 63 | Positive => 0 end in
    let f64_exp := e + 53 in
    if (-1022 <=? f64_exp) && (f64_exp <=? 1023) then
    let! frac := get_frac_round v in
    let '(frac, f64_exp) :=
      if frac =? Z.shiftl 1 53 then (Z.shiftr frac 1, f64_exp + 1) else (frac, f64_exp) in
    let exp_bits := (f64_exp + 1023) mod B in
    Ok (Z.lor (Z.lor bits (Z.shiftl exp_bits 52 mod B)) (Z.land frac (Z.shiftl 1 52 - 1)))
  else if (-1074 <=? f64_exp) && (f64_exp <=? -1023) then
    let! v := decrease_significand fuel v ((f64_exp + 1076) mod B) in
    let! frac := get_frac_round v in
    Ok (Z.lor bits frac)
  else if 1023 <? f64_exp then Ok (Z.lor bits (Z.shiftl 2047 52))
  else Ok bits).
  { intros fuel Hf. unfold get_f64_bits. rewrite jb_is_zero_spec by auto.
    destruct (Z.eqb_spec (jval (bf_sig f)) 0); [lia|].
    rewrite F1 by lia. cbn [obind]. rewrite F2 by lia. reflexivity. }
  cbv zeta in Hgo. clear F1 F2.
  pose proof (frac_of_range s (bf_rem v) ltac:(lia)) as Hfr.
  assert (Hh : 2 ^ 52 <= s / 2 < 2 ^ 53) by (rewrite pow_53 in *; change (2 ^ 54) with 18014398509481984 in *; change (2 ^ 52) with 4503599627370496; lia).
  destruct (Z_lt_le_dec (e + 53) (-1022)) as [C1|C1].
  - destruct (Z_lt_le_dec (e + 53) (-1074)) as [C2|C2].
    + (* underflow *)
      exists (if neg_bit (bf_sign f) then 2 ^ 63 else 0), (Nat.max n1 n2). split; [|split; [|auto]].
      * intros fuel Hf. rewrite Hgo by exact Hf.
        destruct (Z.leb_spec (-1022) (e + 53)); [lia|]. destruct (Z.leb_spec (-1074) (e + 53)); [lia|].
        cbn [andb]. destruct (Z.ltb_spec 1023 (e + 53)); [lia|]. destruct (bf_sign f); reflexivity.
      * intros HL. rewrite <- (Z.add_0_r (if neg_bit (bf_sign f) then 2 ^ 63 else 0)). apply nearest_finite; [lia|].
        assert (E0 : fin_real 0 = 0%R) by (unfold fin_real; change (0 <? 2 ^ 52) with true; cbv iota; ring).
        rewrite E0. apply rne64_tiny.
        pose proof (bracket_lower _ _ _ _ Hx2) as B1. pose proof (bracket_upper _ _ _ _ Hx2) as B2.
        pose proof (bpow_gt_0 radix2 e) as PE.
        assert (0 <= IZR s)%R by (apply IZR_le; lia).
        split; [apply Rle_trans with (2 := B1); apply Rmult_le_pos; lra|].
        apply Rnot_lt_le. intros HC. apply HL. split; [exact HC|].
        apply Rlt_le_trans with (1 := B2). apply Rle_trans with (bpow radix2 54 * bpow radix2 e)%R.
        -- apply Rmult_le_compat_r; [lra|]. rewrite bpow2_Z by lia. rewrite <- plus_IZR. apply IZR_le. lia.
        -- rewrite <- bpow_plus. apply bpow_le. lia.
    + (* subnormal *)
      clear V1 X1 S1 R1 L1 U1 V2 X2 S2 R2 U2 Hx1 H1 Hk Pk Hk2 Hfr Hh Z0 Ps Hs.
      remember (e + 53 + 1076) as P eqn:HPe.
      assert (HP : 2 <= P <= 53) by (clear - HPe C1 C2; lia).
      assert (Hspos : 0 < s) by (clear - L2'; lia).
      destruct (decrease_spec v P H2 Hspos ltac:(clear - HP; lia)) as [k3 [w [n3 [Hk3 [F3 [H3 [V3 [X3 [S3 [R3 [L3 U3]]]]]]]]]]].
      fold s in V3, R3. fold e in X3.
      assert (Hx3 : brackets x (jval (bf_sig w)) (bf_exp w) (bf_rem w))
        by (rewrite V3, X3, R3; apply br_dec; auto).
      assert (Hk3p : k3 = 54 - P).
      { assert (k3 <> 0).
        { intros ->. rewrite Z.pow_0_r, Z.div_1_r in V3.
          assert (2 ^ P <= 2 ^ 53) by (apply Z.pow_le_mono_r; clear - HP; lia). clear - H L2' L3 V3. lia. }
        destruct U3 as [U3|U3]; [contradiction|]. specialize (U3 ltac:(clear - HP; lia)).
        rewrite V3 in L3, U3.
        assert (Q1 : s < 2 ^ (P + k3)).
        { rewrite Z.pow_add_r by (clear - HP Hk3; lia). pose proof (Z.pow_pos_nonneg 2 k3 eq_refl Hk3) as PK.
          pose proof (Z.div_mod s (2 ^ k3) ltac:(clear - PK; lia)) as D1. pose proof (Z.mod_pos_bound s (2 ^ k3) PK) as D2.
          clear - L3 PK D1 D2. nia. }
        assert (Q2 : 2 ^ (P - 1 + k3) <= s).
        { rewrite Z.pow_add_r by (clear - HP Hk3; lia). pose proof (Z.pow_pos_nonneg 2 k3 eq_refl Hk3) as PK.
          pose proof (Z.div_mod s (2 ^ k3) ltac:(clear - PK; lia)) as D1. pose proof (Z.mod_pos_bound s (2 ^ k3) PK) as D2.
          clear - U3 PK D1 D2. nia. }
        pose proof (proj2 (Z.pow_lt_mono_r_iff 2 53 (P + k3) eq_refl ltac:(clear - HP Hk3; lia)) (Z.le_lt_trans _ _ _ L2' Q1)) as Q3.
        pose proof (proj2 (Z.pow_lt_mono_r_iff 2 (P - 1 + k3) 54 eq_refl ltac:(clear; lia)) (Z.le_lt_trans _ _ _ Q2 L2)) as Q4.
        clear - Q3 Q4. lia. }
      assert (He3 : bf_exp w = -1075) by (clear - X3 Hk3p HPe; lia).
      assert (U3' : 2 ^ (P - 1) <= jval (bf_sig w))
        by (destruct U3 as [U3|U3]; [clear - U3 Hk3p HP; lia|apply U3; clear - HP; lia]).
      assert (PP : 0 < 2 ^ (P - 1)) by (apply Z.pow_pos_nonneg; clear - HP; lia).
      assert (HPle : 2 ^ P <= 2 ^ 53) by (apply Z.pow_le_mono_r; clear - HP; lia). rewrite pow_53 in HPle.
      assert (Hwp : 0 <= jval (bf_sig w)) by (clear - U3' PP; lia).
      set (m := frac_of (jval (bf_sig w)) (bf_rem w)).
      pose proof (frac_of_range (jval (bf_sig w)) (bf_rem w) Hwp) as Hfw. fold m in Hfw.
      assert (Hm : 0 <= m <= 2 ^ 52) by (change (2 ^ 52) with 4503599627370496; clear - Hfw Hwp L3 HPle; lia).
      exists ((if neg_bit (bf_sign f) then 2 ^ 63 else 0) + m), (Nat.max (Nat.max n1 n2) n3). split; [|split].
      * intros fuel Hf. rewrite Hgo by (clear - Hf; lia).
        destruct (Z.leb_spec (-1022) (e + 53)); [lia|]. destruct (Z.leb_spec (-1074) (e + 53)); [|lia].
        destruct (Z.leb_spec (e + 53) (-1023)); [|lia]. cbn [andb].
        rewrite Z.mod_small by (rewrite B_eq; clear - HP; lia). rewrite F3 by (clear - Hf; lia). cbn [obind].
        rewrite get_frac_round_spec by (auto; rewrite B_eq; clear - U3' PP L3 HPle; lia). cbn [obind]. fold m.
        rewrite bits_sign by (clear - Hm; lia). reflexivity.
      * intros _. apply nearest_finite; [clear - Hm; lia|].
        rewrite (rne64_bracket x (jval (bf_sig w)) (bf_exp w) (bf_rem w) P)
          by (auto; rewrite ?He3; clear - U3' PP L3 HP; lia).
        fold m. rewrite He3. pose proof (fin_real_m 1 m ltac:(clear; lia) ltac:(clear - Hm; lia) ltac:(clear; lia)) as HF.
        replace ((1 - 1) * 2 ^ 52 + m) with m in HF by lia. rewrite HF. reflexivity.
      * intros [_ HL]. exfalso. pose proof (bracket_lower _ _ _ _ Hx2) as B1.
        apply (Rlt_not_le _ _ HL). apply Rle_trans with (2 := B1).
        apply Rle_trans with (bpow radix2 53 * bpow radix2 e)%R.
        -- rewrite <- bpow_plus. apply bpow_le. lia.
        -- apply Rmult_le_compat_r; [apply bpow_ge_0|]. rewrite bpow2_Z by lia. apply IZR_le. lia.
  - assert (HL : ~ lost x).
    { intros [_ HL]. pose proof (bracket_lower _ _ _ _ Hx2) as B1.
      apply (Rlt_not_le _ _ HL). apply Rle_trans with (2 := B1).
      apply Rle_trans with (bpow radix2 53 * bpow radix2 e)%R.
      - rewrite <- bpow_plus. apply bpow_le. lia.
      - apply Rmult_le_compat_r; [apply bpow_ge_0|]. rewrite bpow2_Z by lia. apply IZR_le. lia. }
    destruct (Z_lt_le_dec 1023 (e + 53)) as [C2|C2].
    + (* overflow *)
      exists ((if neg_bit (bf_sign f) then 2 ^ 63 else 0) + 2047 * 2 ^ 52), (Nat.max n1 n2). split; [|split; [|tauto]].
      * intros fuel Hf. rewrite Hgo by exact Hf.
        destruct (Z.leb_spec (e + 53) 1023); [lia|]. rewrite andb_false_r.
        destruct (Z.leb_spec (e + 53) (-1023)); [lia|]. rewrite andb_false_r.
        destruct (Z.ltb_spec 1023 (e + 53)); [|lia]. destruct (bf_sign f); reflexivity.
      * intros _. apply nearest_inf. apply rne64_ge_bpow.
        pose proof (bracket_lower _ _ _ _ Hx2) as B1. apply Rle_trans with (2 := B1).
        apply Rle_trans with (bpow radix2 53 * bpow radix2 e)%R.
        -- rewrite <- bpow_plus. apply bpow_le. lia.
        -- apply Rmult_le_compat_r; [apply bpow_ge_0|]. rewrite bpow2_Z by lia. apply IZR_le. lia.
    + (* normal *)
      clear V1 X1 S1 R1 L1 U1 V2 X2 S2 R2 U2 Hx1 H1 Hk Pk Hk2 Z0 Ps Hs.
      set (m := frac_of s (bf_rem v)) in *.
      assert (Hm : 2 ^ 52 <= m <= 2 ^ 53) by lia.
      set (n := (e + 53 + 1023 - 1) * 2 ^ 52 + m).
      assert (Hn : 0 <= n <= 2047 * 2 ^ 52) by (unfold n; lia).
      assert (Hrn : rne64 x = fin_real n).
      { rewrite (rne64_bracket x s e (bf_rem v) 54) by (auto; lia).
        fold m. unfold n. rewrite fin_real_m by lia. do 2 f_equal. lia. }
      exists ((if neg_bit (bf_sign f) then 2 ^ 63 else 0) + n), (Nat.max n1 n2). split; [|split; [|tauto]].
      * intros fuel Hf. rewrite Hgo by exact Hf.
        destruct (Z.leb_spec (-1022) (e + 53)); [|lia]. destruct (Z.leb_spec (e + 53) 1023); [|lia]. cbn [andb].
        rewrite get_frac_round_spec by (auto; rewrite B_eq; fold s; lia). cbn [obind]. fold s. fold m.
        change (Z.shiftl 1 53) with (2 ^ 53).
        assert (HN : forall E g, 0 <= E < 2048 -> 0 <= g < 2 ^ 53 ->
          Z.lor (Z.lor (match bf_sign f with Negative => Z.shiftl 1 63 | Positive => 0 end)
                 (Z.shiftl (E mod B) 52 mod B)) (Z.land g (Z.shiftl 1 52 - 1)) =
          (if neg_bit (bf_sign f) then 2 ^ 63 else 0) + (E * 2 ^ 52 + g mod 2 ^ 52)).
        { intros E g HE Hg. rewrite (Z.mod_small E) by (rewrite B_eq; lia). rewrite (Z.shiftl_mul_pow2 E) by lia.
          rewrite (Z.mod_small (E * 2 ^ 52)) by (rewrite B_eq; lia).
          change (Z.shiftl 1 52 - 1) with (Z.ones 52). rewrite Z.land_ones by lia.
          pose proof (Z.mod_pos_bound g (2 ^ 52) ltac:(lia)).
          rewrite <- Z.lor_assoc, lor_hi_lo by lia. apply bits_sign. lia. }
        destruct (Z.eqb_spec m (2 ^ 53)) as [M|M].
        -- rewrite M. rewrite shiftr1. change (2 ^ 53 / 2) with (2 ^ 52). rewrite HN by lia.
           rewrite Z.mod_same by lia. do 2 f_equal. unfold n. lia.
        -- rewrite HN by lia. replace (m mod 2 ^ 52) with (m - 2 ^ 52);
             [do 2 f_equal; unfold n; lia|]. apply Z.mod_unique_pos with (q := 1); lia.
      * intros _. destruct (Z.eq_dec n (2047 * 2 ^ 52)) as [N|N].
        -- rewrite N. apply nearest_inf. rewrite Hrn, N.
           apply Req_le. unfold fin_real. destruct (Z.ltb_spec (2047 * 2 ^ 52) (2 ^ 52)); [lia|].
           rewrite Z.mod_mul, Z.div_mul by lia. rewrite Z.add_0_l, <- bpow2_Z, <- bpow_plus by lia. reflexivity.
        -- apply nearest_finite; [lia|exact Hrn].
Qed.
