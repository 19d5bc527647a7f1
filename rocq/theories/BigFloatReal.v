(** Proofs about big_float.rs, real-number part: bracketing and IEEE rounding. *)
From Coq Require Import ZArith List Bool Lia Lra Reals.
From Coq Require Import ZifyBool ZifyNat.
From Flocq Require Import Core.Core IEEE754.BinarySingleNaN IEEE754.Binary IEEE754.Bits.
From Verif Require Import Outcome LimbsModel LimbsSpec BigUintModel BigIntModel JsBigintModel BigSpec
  LimbsProofs ShiftProofs BigUintProofs JsBigintProofs JsBitsProofs JsDivProofs BigFloatModel
  BigFloatSpec BigFloatProofs Prop_JsBigint.
Import ListNotations.
Open Scope Z_scope.

Lemma bpow2_Z k : 0 <= k -> bpow radix2 k = IZR (2 ^ k).
Proof. intros. rewrite <- (IZR_Zpower radix2) by lia. reflexivity. Qed.

Lemma br_inc x s e k : 0 <= k -> brackets x s e false -> brackets x (s * 2 ^ k) (e - k) false.
Proof.
  unfold brackets. intros Hk H. rewrite H, mult_IZR, <- bpow2_Z by auto.
  rewrite Rmult_assoc, <- bpow_plus. do 2 f_equal. lia.
Qed.

Lemma br_dec x s e r k : 0 <= k -> brackets x s e r ->
  brackets x (s / 2 ^ k) (e + k) (r || negb (s mod 2 ^ k =? 0)).
Proof.
  intros Hk H. pose proof (Z.pow_pos_nonneg 2 k ltac:(lia) Hk) as Pk.
  pose proof (Z.div_mod s (2 ^ k) ltac:(lia)) as Hdm.
  pose proof (Z.mod_pos_bound s (2 ^ k) Pk) as Hm.
  set (q := s / 2 ^ k) in *. set (t := s mod 2 ^ k) in *. clearbody q t.
  pose proof (bpow_gt_0 radix2 e) as Pe.
  rewrite Hdm in H. unfold brackets in *. rewrite plus_IZR, mult_IZR in H.
  rewrite bpow_plus, (bpow2_Z k) by auto. assert (PK : (0 < IZR (2 ^ k))%R) by (apply IZR_lt; lia).
  set (K := IZR (2 ^ k)) in *. set (E := bpow radix2 e) in *.
  assert (HK : (IZR t <= K - 1)%R) by (unfold K; rewrite <- minus_IZR; apply IZR_le; lia).
  assert (H0 : (0 <= IZR t)%R) by (apply IZR_le; lia).
  clearbody K E. destruct r; cbn [orb].
  - nra.
  - destruct (Z.eqb_spec t 0) as [Et|Et]; cbn [negb].
    + subst t. lra.
    + assert (0 < IZR t)%R by (apply IZR_lt; lia). nra.
Qed.

Lemma powerRZ_5_2 e : powerRZ 10 e = (powerRZ 5 e * bpow radix2 e)%R.
Proof.
  replace (bpow radix2 e) with (powerRZ 2 e).
  - rewrite <- powerRZ_mult. f_equal; lra.
  - rewrite bpow_powerRZ. reflexivity.
Qed.

Lemma powerRZ_5_Z n : 0 <= n -> powerRZ 5 n = IZR (5 ^ n).
Proof.
  intros. replace n with (Z.of_nat (Z.to_nat n)) by lia.
  rewrite <- pow_powerRZ, pow_IZR. reflexivity.
Qed.

Lemma five_wf : jwf (jb_from_u64 Positive 5) /\ jval (jb_from_u64 Positive 5) = 5.
Proof.
  destruct (jb_from_u64_spec Positive 5) as [H1 V1]; [rewrite B_eq; lia|]. split; [exact H1|].
  rewrite V1. reflexivity.
Qed.

(** increase to p+1 bits then decrease to p bits. *)
Lemma inc_dec f p x : jwf (bf_sig f) -> 0 < jval (bf_sig f) -> 0 < p < 2 ^ 64 ->
  bf_rem f = false -> brackets x (jval (bf_sig f)) (bf_exp f) false ->
  exists f' f0, (forall fuel, (f0 <= fuel)%nat ->
    (let! f1 := increase_significand fuel f p in decrease_significand fuel f1 p) = Ok f') /\
    jwf (bf_sig f') /\ bf_sign f' = bf_sign f /\ 2 ^ (p - 1) <= jval (bf_sig f') < 2 ^ p /\
    brackets x (jval (bf_sig f')) (bf_exp f') (bf_rem f').
Proof.
  intros Hs Ps Hp Hr Hx.
  destruct (increase_spec f p Hs Ps ltac:(lia)) as [k [f1 [n1 [Hk [F1 [H1 [V1 [E1 [S1 [R1 [L1 U1]]]]]]]]]]].
  pose proof (Z.pow_pos_nonneg 2 p ltac:(lia) ltac:(lia)) as Pp.
  destruct (decrease_spec f1 p H1 ltac:(lia) ltac:(lia)) as [k2 [f2 [n2 [Hk2 [F2 [H2 [V2 [E2 [S2 [R2 [L2 U2]]]]]]]]]]].
  exists f2, (Nat.max n1 n2). split.
  { intros fuel Hf. rewrite F1 by lia. cbn [obind]. apply F2. lia. }
  split; [exact H2|]. split; [congruence|]. split.
  { split; [|exact L2]. destruct U2 as [U2|U2]; [|apply U2; lia].
    rewrite V2, U2, Z.pow_0_r, Z.div_1_r in L2. lia. }
  rewrite V2, E2, R2, R1, Hr. apply br_dec; [lia|]. rewrite V1, E1. apply br_inc; auto.
Qed.

Lemma to_bin_spec f p : jwf (bf_sig f) -> 0 < jval (bf_sig f) -> bf_rem f = false ->
  -27 <= bf_exp f < 2 ^ 63 -> 0 < p < 256 ->
  exists f' f0, (forall fuel, (f0 <= fuel)%nat -> to_bin fuel f p = Ok f') /\
    jwf (bf_sig f') /\ bf_sign f' = bf_sign f /\ 2 ^ (p - 1) <= jval (bf_sig f') < 2 ^ p /\
    brackets (dec_real (jval (bf_sig f)) (bf_exp f)) (jval (bf_sig f')) (bf_exp f') (bf_rem f').
Proof.
  intros Hs Ps Hr He Hp. unfold dec_real.
  assert (Hz : jb_is_zero (bf_sig f) = false) by (rewrite jb_is_zero_spec by auto; lia).
  destruct five_wf as [H5 V5].
  destruct (Z.eq_dec (bf_exp f) 0) as [E0|E0]; [|destruct (Z_lt_le_dec 0 (bf_exp f)) as [E1|E1]].
  - destruct (inc_dec f p (IZR (jval (bf_sig f))) Hs Ps ltac:(lia) Hr) as [f' [f0 [Hf R]]].
    { unfold brackets. rewrite E0. cbn. lra. }
    exists f', f0. split.
    + intros fuel Hfu. unfold to_bin. rewrite Hz. rewrite (proj2 (Z.eqb_eq _ _) E0). auto.
    + rewrite E0. cbn [powerRZ]. rewrite Rmult_1_r. exact R.
  - destruct (C24_pow_u64_exact _ (bf_exp f) H5 ltac:(lia) ltac:(lia)) as [p5 [Ep [Hp5 Vp]]].
    destruct (jb_mul_spec (bf_sig f) p5 Hs Hp5) as [s [Es [Hs2 Vs]]].
    rewrite V5 in Vp. pose proof (Z.pow_pos_nonneg 5 (bf_exp f) ltac:(lia) ltac:(lia)) as P5.
    destruct (inc_dec {| bf_sig := s; bf_sign := bf_sign f; bf_exp := bf_exp f; bf_rem := bf_rem f |} p
       (IZR (jval (bf_sig f)) * powerRZ 10 (bf_exp f)) Hs2) as [f' [f0 [Hf R]]]; cbn [bf_sig bf_rem bf_exp]; auto.
    + rewrite Vs, Vp. apply Z.mul_pos_pos; lia.
    + lia.
    + unfold brackets. rewrite Vs, Vp, mult_IZR, powerRZ_5_2, powerRZ_5_Z by lia. ring.
    + exists f', f0. split; [|exact R]. intros fuel Hfu. unfold to_bin. rewrite Hz.
      rewrite (proj2 (Z.eqb_neq _ _) E0), (proj2 (Z.ltb_lt _ _) E1). rewrite Ep. cbn [obind].
      rewrite Es. cbn [obind]. apply Hf. exact Hfu.
  - destruct (C24_pow_u64_exact _ (- bf_exp f) H5 ltac:(lia) ltac:(lia)) as [p5 [Ep [Hp5 Vp]]].
    destruct (one_shl_spec p ltac:(lia)) as [m [Em [Hm Vm]]].
    destruct (jb_mul_spec p5 m Hp5 Hm) as [pm [Epm [Hpm Vpm]]].
    rewrite V5 in Vp.
    assert (P5 : 0 < 5 ^ (- bf_exp f)) by (apply Z.pow_pos_nonneg; lia).
    assert (P5le : 5 ^ (- bf_exp f) <= 2 ^ 63).
    { apply Z.le_trans with (5 ^ 27); [apply Z.pow_le_mono_r; lia|]. vm_compute. discriminate. }
    pose proof (Z.pow_pos_nonneg 2 p ltac:(lia) ltac:(lia)) as Pp.
    pose proof (Z.mul_pos_pos _ _ P5 Pp) as Ppm.
    destruct (increase_to_spec f pm Hs Ps Hpm ltac:(lia))
      as [k [f1 [n1 [Hk [F1 [H1 [V1 [X1 [S1 [R1 [L1 U1]]]]]]]]]]].
    assert (Hge : 5 ^ (- bf_exp f) <= jval (bf_sig f1)).
    { apply Z.le_trans with (5 ^ (- bf_exp f) * 2 ^ p); [|lia]. clear - P5 Pp. nia. }
    destruct (C23_div_mod_partial (bf_sig f1) p5 0 (jval p5) H1 Hp5 ltac:(lia))
      as [q [r [n2 [F2 [Hq [Hr2 [Vq Vr]]]]]]].
    { cbn [Z.of_nat]. rewrite Z.pow_0_r. lia. }
    { lia. }
    rewrite Vp in Vq, Vr. rewrite Z.sgn_pos in Vr by lia. rewrite Z.mul_1_l in Vr.
    rewrite Z.quot_div_nonneg in Vq by lia. rewrite Z.rem_mod_nonneg in Vr by lia.
    pose proof (Z.div_mod (jval (bf_sig f1)) (5 ^ (- bf_exp f)) ltac:(lia)) as Hdm.
    pose proof (Z.mod_pos_bound (jval (bf_sig f1)) (5 ^ (- bf_exp f)) P5) as Hmb.
    assert (Hq2 : 2 ^ p <= jval q).
    { rewrite Vq. apply Z.div_le_lower_bound; lia. }
    destruct (decrease_spec {| bf_sig := q; bf_sign := bf_sign f; bf_exp := bf_exp f1;
         bf_rem := bf_rem f || negb (jb_is_zero r) |} p) as [k2 [f2 [n3 [Hk2 [F3 [H3 [V3 [X3 [S3 [R3 [L3 U3]]]]]]]]]]];
      cbn [bf_sig bf_exp bf_rem bf_sign] in *; auto; [lia|lia|].
    exists f2, (Nat.max n1 (Nat.max n2 n3)). split.
    { intros fuel Hfu. unfold to_bin. rewrite Hz. rewrite (proj2 (Z.eqb_neq _ _) E0).
      rewrite (proj2 (Z.ltb_ge _ _) E1). rewrite Ep. cbn [obind]. rewrite Em. cbn [obind].
      rewrite Epm. cbn [obind]. rewrite F1 by lia. cbn [obind]. rewrite F2 by lia. cbn [obind].
      apply F3. lia. }
    split; [exact H3|]. split; [exact S3|]. split.
    { split; [|exact L3]. destruct U3 as [U3|U3]; [|apply U3; lia].
      rewrite V3, U3, Z.pow_0_r, Z.div_1_r in L3. lia. }
    rewrite V3, X3, R3, X1. apply br_dec; [lia|]. rewrite Hr. cbn [orb].
    rewrite jb_is_zero_spec by auto.
    assert (Hx : (IZR (jval (bf_sig f)) * powerRZ 10 (bf_exp f) * IZR (5 ^ (- bf_exp f)) =
                  IZR (jval (bf_sig f1)) * bpow radix2 (bf_exp f - k))%R).
    { rewrite <- powerRZ_5_Z by lia. rewrite powerRZ_5_2.
      rewrite V1, mult_IZR, <- bpow2_Z by auto.
      replace (bf_exp f - k) with (bf_exp f + - k) by lia. rewrite bpow_plus, bpow_opp.
      assert (HPQ : (powerRZ 5 (bf_exp f) * powerRZ 5 (- bf_exp f) = 1)%R).
      { rewrite <- powerRZ_add by lra. rewrite Z.add_opp_diag_r. reflexivity. }
      assert (HK : (bpow radix2 k * / bpow radix2 k = 1)%R) by (apply Rinv_r, Rgt_not_eq, bpow_gt_0).
      transitivity (IZR (jval (bf_sig f)) * bpow radix2 (bf_exp f) *
                    (powerRZ 5 (bf_exp f) * powerRZ 5 (- bf_exp f)))%R; [ring|].
      transitivity (IZR (jval (bf_sig f)) * bpow radix2 (bf_exp f) *
                    (bpow radix2 k * / bpow radix2 k))%R; [|ring].
      rewrite HPQ, HK. reflexivity. }
    rewrite Hdm, plus_IZR, mult_IZR in Hx. rewrite Vq.
    unfold brackets. set (E := bpow radix2 (bf_exp f - k)) in *. assert (PE : (0 < E)%R) by apply bpow_gt_0.
    rewrite <- Vr, <- Vq in Hx. rewrite <- Vq. assert (Hrb : 0 <= jval r < 5 ^ (- bf_exp f)) by lia.
    set (x := (IZR (jval (bf_sig f)) * powerRZ 10 (bf_exp f))%R) in *.
    assert (PD : (0 < IZR (5 ^ (- bf_exp f)))%R) by (apply IZR_lt; lia).
    assert (HD : (IZR (jval r) < IZR (5 ^ (- bf_exp f)))%R) by (apply IZR_lt; lia).
    set (D := IZR (5 ^ (- bf_exp f))) in *. clearbody D E x.
    destruct (Z.eqb_spec (jval r) 0) as [Er|Er]; cbn [negb].
    + rewrite Er in Hx. apply Rmult_eq_reg_r with D; [|lra]. rewrite Hx. ring.
    + assert (0 < IZR (jval r))%R by (apply IZR_lt; lia).
      split; apply Rmult_lt_reg_r with D; auto; rewrite Hx; nra.
Qed.
