(** Properties C25, C26 and the arithmetic part of C27: decimal to binary64 conversion
    (nanvm-lib/src/big_numbers/big_float.rs).  [dec_real], [brackets], [rne64] and
    [f64_nearest] are in BigFloatSpec. *)
From Coq Require Import ZArith List Bool Lia Lra Reals.
From Coq Require Import ZifyBool ZifyNat.
From Flocq Require Import Core.Core IEEE754.BinarySingleNaN IEEE754.Binary IEEE754.Bits.
From Verif Require Import Outcome LimbsModel LimbsSpec BigUintModel BigIntModel JsBigintModel BigSpec
  LimbsProofs ShiftProofs BigUintProofs JsBigintProofs JsBitsProofs JsDivProofs BigFloatModel
  BigFloatSpec BigFloatProofs BigFloatReal BigFloatRound Prop_JsBigint VTac.
Import ListNotations.
Open Scope Z_scope.

Definition bf (s : jsbigint) (sg : sign) (e : Z) (r : bool) : bigfloat :=
  {| bf_sig := s; bf_sign := sg; bf_exp := e; bf_rem := r |}.

(** C25, proved part: exponents from -27 up.  Missing: smaller exponents, where the
    division by 5^28 and beyond is wrong or does not end. *)
Theorem C25_to_bin_partial : forall f p, jwf (bf_sig f) -> 0 < jval (bf_sig f) -> bf_rem f = false ->
  -27 <= bf_exp f < 2 ^ 63 -> 0 < p < 256 ->
  exists f' f0, (forall fuel, (f0 <= fuel)%nat -> to_bin fuel f p = Ok f') /\
    jwf (bf_sig f') /\ bf_sign f' = bf_sign f /\ 2 ^ (p - 1) <= jval (bf_sig f') < 2 ^ p /\
    brackets (dec_real (jval (bf_sig f)) (bf_exp f)) (jval (bf_sig f')) (bf_exp f') (bf_rem f').
Proof. exact to_bin_spec. Qed.
Print Assumptions C25_to_bin_partial.

(** A zero significand gives zero whatever the exponent (and loses the sign, see C35). *)
Theorem C25_to_bin_zero : forall f p fuel, jwf (bf_sig f) -> jval (bf_sig f) = 0 ->
  to_bin fuel f p = Ok float_zero.
Proof. intros f p fuel H E. unfold to_bin. rewrite jb_is_zero_spec, E by auto. reflexivity. Qed.
Print Assumptions C25_to_bin_zero.

(** 5^29 and the dividend [2^132] of the conversion of 1e-29. *)
Definition p29 : list Z := [1797074186000186965; 10].

Lemma div_loop_29 : forall fuel res, jb_div_loop fuel [0; 0; 16] p29 res = NoFuel.
Proof.
  induction fuel as [|fuel IH]; intros res; [reflexivity|].
  cbn [jb_div_loop].
  assert (E1 : cmp_vec [0; 0; 16] p29 = Gt) by (vm_compute; reflexivity).
  assert (E2 : estimate [0; 0; 16] p29 = Ok (1%nat, 1)) by (vm_compute; reflexivity).
  assert (E3 : mul_vec p29 (q_vec 1 1) = Ok [0; 1797074186000186965; 10]) by (vm_compute; reflexivity).
  assert (E4 : std_vec_cmp [0; 0; 16] [0; 1797074186000186965; 10] = Lt) by (vm_compute; reflexivity).
  assert (E5 : mul_vec p29 (q_vec 1 (1 - 1)) = Ok []) by (vm_compute; reflexivity).
  assert (E6 : normalize_vec (sub_vec [0; 0; 16] []) = [0; 0; 16]) by (vm_compute; reflexivity).
  rewrite E1, E2. cbn [obind]. rewrite E3. cbn [obind]. rewrite E4, E5. cbn [obind].
  rewrite E6. change (1 =? 0) with false. cbv iota. apply IH.
Qed.

(** The full C25 is false: [to_bin] never returns for 1e-29. *)
Theorem C25_to_bin_refuted : exists f, jwf (bf_sig f) /\ jval (bf_sig f) = 1 /\ bf_exp f = -29 /\
  bf_rem f = false /\ forall fuel, to_bin fuel f 64 = NoFuel.
Proof.
  exists (bf (jb 1 [1]) Positive (-29) false).
  split; [jwf_tac|]. split; [vmc|]. split; [vmc|]. split; [vmc|]. intros fuel.
  assert (E1 : jb_pow_u64 (jb_from_u64 Positive 5) 29 = Ok (jb 2 p29)) by (vm_compute; reflexivity).
  assert (E2 : one_shl 64 = Ok (jb 2 [0; 1])) by (vm_compute; reflexivity).
  assert (E3 : jb_mul (jb 2 p29) (jb 2 [0; 1]) = Ok (jb 3 [0; 1797074186000186965; 10])) by (vm_compute; reflexivity).
  unfold to_bin, bf. cbn [bf_sig bf_exp bf_sign bf_rem].
  change (jb_is_zero (jb 1 [1])) with false. change (-29 =? 0) with false. change (0 <? -29) with false.
  cbv iota. change (- -29) with 29. rewrite E1. cbn [obind]. rewrite E2. cbn [obind]. rewrite E3. cbn [obind].
  set (m := jb 3 [0; 1797074186000186965; 10]).
  set (f := {| bf_sig := jb 1 [1]; bf_sign := Positive; bf_exp := -29; bf_rem := false |}).
  assert (Hlow : forall n, (n < 133)%nat -> increase_significand_to n f m = NoFuel).
  { assert (H : forallb (fun n => match increase_significand_to n f m with NoFuel => true | _ => false end)
                        (seq 0 133) = true) by (vm_compute; reflexivity).
    intros n Hn. rewrite forallb_forall in H. specialize (H n ltac:(apply in_seq; lia)).
    destruct (increase_significand_to n f m); congruence. }
  destruct (Nat.lt_ge_cases fuel 133) as [Hf|Hf].
  - rewrite Hlow by exact Hf. reflexivity.
  - replace fuel with (133 + (fuel - 133))%nat by lia. set (n := (fuel - 133)%nat). clearbody n.
    assert (Hhigh : increase_significand_to (133 + n) f m =
       Ok {| bf_sig := jb 3 [0; 0; 16]; bf_sign := Positive; bf_exp := -161; bf_rem := false |})
      by (vm_compute; reflexivity).
    rewrite Hhigh. cbn [obind bf_sig bf_exp].
    unfold jb_div_mod. cbn [jb_items jb].
    change (jb_is_zero (jb 2 p29)) with false. cbv iota.
    assert (E4 : cmp_vec [0; 0; 16] p29 = Gt) by (vm_compute; reflexivity).
    rewrite E4, div_loop_29. reflexivity.
Qed.
Print Assumptions C25_to_bin_refuted.

Example C25_case : to_bin 200 (bf (jb 1 [1]) Negative (-1) false) 8 =
  Ok (bf (jb 1 [204]) Negative (-11) true).
Proof. vm_compute. reflexivity. Qed.

(** C26.  For a number x equal to s*2^e (no remainder flag), or strictly between s*2^e and
    (s+1)*2^e (flag set; then s must have at least 54 bits, otherwise s and e do not
    determine the result), [to_f64] returns, and the result is the nearest binary64 (ties
    to even, gradual underflow, infinity, sign of zero) unless x is in the open interval
    (2^-1075, 2^-1074). *)
Theorem C26_to_f64_partial : forall f x, jwf (bf_sig f) -> 0 <= jval (bf_sig f) ->
  brackets x (jval (bf_sig f)) (bf_exp f) (bf_rem f) ->
  (bf_rem f = true -> 2 ^ 53 <= jval (bf_sig f)) ->
  ~ (bpow radix2 (-1075) < x < bpow radix2 (-1074))%R ->
  exists bits f0, (forall fuel, (f0 <= fuel)%nat -> to_f64 fuel f = Ok bits) /\
    f64_nearest bits (bf_sign f) x.
Proof.
  intros f x Hs Ps Hx Hr HL. destruct (get_f64_bits_spec f x Hs Ps Hx Hr) as [bits [f0 [H1 [H2 _]]]].
  exists bits, f0. split; [exact H1|]. apply H2. exact HL.
Qed.
Print Assumptions C26_to_f64_partial.

Lemma lost_rne x : lost x -> rne64 x = bpow radix2 (-1074).
Proof.
  intros [H1 H2].
  rewrite (rne64_bracket x 1 (-1075) true 1); [|lia|split; vm_compute; congruence|lia| |reflexivity].
  - change (frac_of 1 true) with 1. rewrite Rmult_1_l. reflexivity.
  - unfold brackets. rewrite Rmult_1_l. split; [exact H1|].
    replace ((1 + 1) * bpow radix2 (-1075))%R with (bpow radix2 (-1074)); [exact H2|].
    change (-1074) with (1 + -1075). rewrite bpow_plus. change (bpow radix2 1) with 2%R. ring.
Qed.

Lemma zero_not_nearest s x : lost x -> ~ f64_nearest (if neg_bit s then 2 ^ 63 else 0) s x.
Proof.
  intros HL [_ [H _]]. rewrite (lost_rne x HL) in H.
  destruct H as [_ [H _]]; [apply bpow_lt; lia|].
  destruct (b64_finite (neg_bit s) 0 ltac:(lia)) as [_ [F _]]. cbv zeta in F. rewrite Z.add_0_r in F.
  rewrite F in H. assert (E : fin_real 0 = 0%R) by (unfold fin_real; change (0 <? 2 ^ 52) with true; cbv iota; ring).
  rewrite E in H. pose proof (bpow_gt_0 radix2 (-1074)). destruct (neg_bit s); lra.
Qed.

(** Exact domain: the result is right iff x is not in that interval, where it is zero. *)
Theorem C26_to_f64_iff : forall f x, jwf (bf_sig f) -> 0 <= jval (bf_sig f) ->
  brackets x (jval (bf_sig f)) (bf_exp f) (bf_rem f) ->
  (bf_rem f = true -> 2 ^ 53 <= jval (bf_sig f)) ->
  exists bits f0, (forall fuel, (f0 <= fuel)%nat -> to_f64 fuel f = Ok bits) /\
    (f64_nearest bits (bf_sign f) x <-> ~ (bpow radix2 (-1075) < x < bpow radix2 (-1074))%R).
Proof.
  intros f x Hs Ps Hx Hr. destruct (get_f64_bits_spec f x Hs Ps Hx Hr) as [bits [f0 [H1 [H2 H3]]]].
  exists bits, f0. split; [exact H1|]. split; [|exact H2].
  intros HN HL. specialize (H3 HL). rewrite H3 in HN. exact (zero_not_nearest _ _ HL HN).
Qed.
Print Assumptions C26_to_f64_iff.

(** The full C26 is false: 3 * 2^-1076 becomes 0, the nearest binary64 is 2^-1074. *)
Theorem C26_to_f64_refuted : exists f, jwf (bf_sig f) /\ jval (bf_sig f) = 3 /\ bf_exp f = -1076 /\
  bf_rem f = false /\ (forall fuel, (200 <= fuel)%nat -> to_f64 fuel f = Ok 0) /\
  ~ f64_nearest 0 Positive (3 * bpow radix2 (-1076)).
Proof.
  exists (bf (jb 1 [3]) Positive (-1076) false).
  split; [jwf_tac|]. split; [vmc|]. split; [vmc|]. split; [vmc|]. split.
  - intros fuel Hf. replace fuel with (200 + (fuel - 200))%nat by lia. generalize (fuel - 200)%nat. intros n.
    vm_compute. reflexivity.
  - apply (zero_not_nearest Positive). unfold lost.
    replace (bpow radix2 (-1075)) with (2 * bpow radix2 (-1076))%R.
    2: { change (-1075) with (1 + -1076). rewrite bpow_plus. reflexivity. }
    replace (bpow radix2 (-1074)) with (4 * bpow radix2 (-1076))%R.
    2: { change (-1074) with (2 + -1076). rewrite bpow_plus. reflexivity. }
    pose proof (bpow_gt_0 radix2 (-1076)). lra.
Qed.
Print Assumptions C26_to_f64_refuted.

(** 1 - 2^-54 with a remainder rounds to 1; 2^1024 is infinity; -0 keeps its sign; the
    subnormal 2^-1074. *)
Example C26_case :
  to_f64 300 (bf (jb 1 [2 ^ 54 - 1]) Positive (-54) true) = Ok (1023 * 2 ^ 52) /\
  to_f64 300 (bf (jb 1 [1]) Negative 1024 false) = Ok (4095 * 2 ^ 52) /\
  to_f64 300 (bf (jb 0 []) Negative 7 false) = Ok (2 ^ 63) /\
  to_f64 300 (bf (jb 1 [5]) Positive (-1076) false) = Ok 1 /\
  to_f64 300 (bf (jb 1 [6]) Positive (-1076) false) = Ok 2.
Proof. vmc. Qed.

(** C27, arithmetic part: the conversion used by the tokenizer
    (tokenizer/mod.rs bigfloat_to_f64, [to_bin(54)] then [to_f64()]) rounds s*10^e correctly
    for every s > 0 and e >= -27. *)
Theorem C27_decimal_partial : forall f, jwf (bf_sig f) -> 0 < jval (bf_sig f) -> bf_rem f = false ->
  -27 <= bf_exp f < 2 ^ 63 ->
  exists bits f0,
    (forall fuel, (f0 <= fuel)%nat -> (let! g := to_bin fuel f 54 in to_f64 fuel g) = Ok bits) /\
    f64_nearest bits (bf_sign f) (dec_real (jval (bf_sig f)) (bf_exp f)).
Proof.
  intros f Hs Ps Hr He.
  destruct (to_bin_spec f 54 Hs Ps Hr He ltac:(lia)) as [g [n1 [F1 [H1 [S1 [B1 X1]]]]]].
  assert (PB : 0 < 2 ^ (54 - 1)) by reflexivity.
  destruct (C26_to_f64_partial g _ H1 ltac:(lia) X1) as [bits [n2 [F2 N2]]].
  - intros _. apply Z.le_trans with (2 := proj1 B1). vm_compute. discriminate.
  - intros [_ HL]. apply (Rlt_not_le _ _ HL). unfold dec_real.
    apply Rle_trans with (1 * powerRZ 10 (-27))%R.
    + rewrite Rmult_1_l.
      apply Rle_trans with (bpow radix2 (-1074)); [lra|].
      apply Rle_trans with (bpow radix2 (-108)); [apply bpow_le; lia|].
      replace (powerRZ 10 (-27)) with (/ (10 ^ 27))%R by reflexivity.
      replace (bpow radix2 (-108)) with (/ (16 ^ 27))%R.
      * apply Rinv_le; [apply pow_lt; lra|apply pow_incr; lra].
      * rewrite pow_IZR. reflexivity.
    + apply Rmult_le_compat.
      * lra.
      * apply powerRZ_le. lra.
      * apply IZR_le. lia.
      * replace (powerRZ 10 (-27)) with (powerRZ 10 (-27) * 1)%R by ring.
        replace (bf_exp f) with (-27 + (bf_exp f + 27)) by lia. rewrite powerRZ_add by lra.
        apply Rmult_le_compat_l; [apply powerRZ_le; lra|].
        replace (bf_exp f + 27) with (Z.of_nat (Z.to_nat (bf_exp f + 27))) by lia.
        rewrite <- pow_powerRZ. apply pow_R1_Rle. lra.
  - exists bits, (Nat.max n1 n2). split; [|rewrite S1 in N2; exact N2].
    intros fuel Hf. rewrite F1 by lia. cbn [obind]. apply F2. lia.
Qed.
Print Assumptions C27_decimal_partial.

Definition p51 : list Z := [3010503546735764157; 24074124304840448].

Lemma div_loop_51 : forall fuel res,
  jb_div_loop fuel [58708777041379366; 44440839757671633] p51 res = NoFuel.
Proof.
  set (a := [58708777041379366; 44440839757671633]).
  induction fuel as [|fuel IH]; intros res; [reflexivity|].
  cbn [jb_div_loop].
  assert (E1 : cmp_vec a p51 = Gt) by (vm_compute; reflexivity).
  assert (E2 : estimate a p51 = Ok (0%nat, 1)) by (vm_compute; reflexivity).
  assert (E3 : mul_vec p51 (q_vec 0 1) = Ok p51) by (vm_compute; reflexivity).
  assert (E4 : std_vec_cmp a p51 = Lt) by (vm_compute; reflexivity).
  assert (E5 : mul_vec p51 (q_vec 0 (1 - 1)) = Ok []) by (vm_compute; reflexivity).
  assert (E6 : normalize_vec (sub_vec a []) = a) by (vm_compute; reflexivity).
  rewrite E1, E2. cbn [obind]. rewrite E3. cbn [obind]. rewrite E4, E5. cbn [obind].
  rewrite E6. change (1 =? 0) with false. cbv iota. apply IH.
Qed.

Lemma div_loop_51_first : forall fuel, jb_div_loop fuel [0; 0; 26388279066624] p51 [] = NoFuel.
Proof.
  set (a := [0; 0; 26388279066624]).
  intros [|fuel]; [reflexivity|]. cbn [jb_div_loop].
  assert (E1 : cmp_vec a p51 = Gt) by (vm_compute; reflexivity).
  assert (E2 : estimate a p51 = Ok (0%nat, 20219960000362979)) by (vm_compute; reflexivity).
  assert (E3 : exists m, mul_vec p51 (q_vec 0 20219960000362979) = Ok m /\ std_vec_cmp a m = Lt).
  { eexists. split; [vm_compute; reflexivity|]. vm_compute. reflexivity. }
  destruct E3 as [m [E3 E4]].
  assert (E5 : exists m', mul_vec p51 (q_vec 0 (20219960000362979 - 1)) = Ok m' /\
      normalize_vec (sub_vec a m') = [58708777041379366; 44440839757671633]).
  { eexists. split; [vm_compute; reflexivity|]. vm_compute. reflexivity. }
  destruct E5 as [m' [E5 E6]].
  rewrite E1, E2. cbn [obind]. rewrite E3. cbn [obind]. rewrite E4.
  change (20219960000362979 =? 0) with false. cbv iota. rewrite E5. cbn [obind]. rewrite E6.
  apply div_loop_51.
Qed.

(** 3e-51 hangs the conversion, for either sign. *)
Theorem C27_decimal_refuted : forall sg, exists f, jwf (bf_sig f) /\ jval (bf_sig f) = 3 /\ bf_exp f = -51 /\
  bf_sign f = sg /\ bf_rem f = false /\ forall fuel, (let! g := to_bin fuel f 54 in to_f64 fuel g) = NoFuel.
Proof.
  intros sg. exists (bf (jb 1 [3]) sg (-51) false).
  split; [jwf_tac|]. split; [vmc|]. split; [reflexivity|]. split; [reflexivity|]. split; [reflexivity|]. intros fuel.
  cut (to_bin fuel (bf (jb 1 [3]) sg (-51) false) 54 = NoFuel); [intros E; rewrite E; reflexivity|].
  assert (E1 : jb_pow_u64 (jb_from_u64 Positive 5) 51 = Ok (jb 2 p51)) by (vm_compute; reflexivity).
  assert (E2 : one_shl 54 = Ok (jb 1 [18014398509481984])) by (vm_compute; reflexivity).
  set (m := jb 3 [12628093355146870784; 13837998000152022856; 23509887016445]).
  assert (E3 : jb_mul (jb 2 p51) (jb 1 [18014398509481984]) = Ok m) by (vm_compute; reflexivity).
  unfold to_bin, bf. cbn [bf_sig bf_exp bf_sign bf_rem].
  change (jb_is_zero (jb 1 [3])) with false. change (-51 =? 0) with false. change (0 <? -51) with false.
  cbv iota. change (- -51) with 51. rewrite E1. cbn [obind]. rewrite E2. cbn [obind]. rewrite E3. cbn [obind].
  set (f := {| bf_sig := jb 1 [3]; bf_sign := sg; bf_exp := -51; bf_rem := false |}).
  assert (Hlow : forall n, (n < 172)%nat -> increase_significand_to n f m = NoFuel).
  { assert (H : forallb (fun n => match increase_significand_to n f m with NoFuel => true | _ => false end)
                        (seq 0 172) = true) by (vm_compute; reflexivity).
    intros n Hn. rewrite forallb_forall in H. specialize (H n ltac:(apply in_seq; lia)).
    destruct (increase_significand_to n f m); congruence. }
  destruct (Nat.lt_ge_cases fuel 172) as [Hf|Hf].
  - rewrite Hlow by exact Hf. reflexivity.
  - replace fuel with (172 + (fuel - 172))%nat by lia. set (n := (fuel - 172)%nat). clearbody n.
    assert (Hhigh : increase_significand_to (172 + n) f m =
       Ok {| bf_sig := jb 3 [0; 0; 26388279066624]; bf_sign := sg; bf_exp := -222; bf_rem := false |})
      by (vm_compute; reflexivity).
    rewrite Hhigh. cbn [obind bf_sig bf_exp].
    unfold jb_div_mod. cbn [jb_items jb].
    change (jb_is_zero (jb 2 p51)) with false. cbv iota.
    assert (E4 : cmp_vec [0; 0; 26388279066624] p51 = Gt) by (vm_compute; reflexivity).
    rewrite E4, div_loop_51_first. reflexivity.
Qed.
Print Assumptions C27_decimal_refuted.

(** 0.1 and 1e23. *)
Example C27_case :
  (let! g := to_bin 300 (bf (jb 1 [1]) Positive (-1) false) 54 in to_f64 300 g) = Ok 0x3FB999999999999A /\
  (let! g := to_bin 300 (bf (jb 1 [1]) Negative 23 false) 54 in to_f64 300 g) = Ok 0xC4B52D02C7E14AF6.
Proof. vmc. Qed.
