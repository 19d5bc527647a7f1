(** Properties C10-C14: signed big integers (nanvm-lib/src/big_numbers/big_int.rs).
    [bival] is the denoted integer; [bicanon]: canonical magnitude and a positive zero. *)
From Coq Require Import ZArith List Bool Lia.
From Verif Require Import Outcome LimbsModel LimbsSpec BigUintModel BigIntModel BigSpec
  LimbsProofs BigUintProofs BigIntProofs VTac.
Import ListNotations.
Open Scope Z_scope.

(** C10: addition, subtraction and negation are exact and keep canonical form. *)
Theorem C10_add_exact : forall a b, bicanon a -> bicanon b ->
  bicanon (bi_add a b) /\ bival (bi_add a b) = bival a + bival b.
Proof. exact bi_add_spec. Qed.
Print Assumptions C10_add_exact.
Theorem C10_sub_exact : forall a b, bicanon a -> bicanon b ->
  bicanon (bi_sub a b) /\ bival (bi_sub a b) = bival a - bival b.
Proof. exact bi_sub_spec. Qed.
Print Assumptions C10_sub_exact.
Theorem C10_neg_exact : forall a, bicanon a -> bicanon (bi_neg a) /\ bival (bi_neg a) = - bival a.
Proof. exact bi_neg_spec. Qed.
Print Assumptions C10_neg_exact.
Example C10_case :
  let a := {| bi_sign := Negative; bi_value := [0; 1] |} in
  let b := {| bi_sign := Positive; bi_value := [1] |} in
  bi_add a b = {| bi_sign := Negative; bi_value := [2 ^ 64 - 1] |} /\
  bi_sub a b = {| bi_sign := Negative; bi_value := [1; 1] |} /\ bival a = - 2 ^ 64 /\
  bi_add b (bi_neg b) = bi_zero.
Proof. vmc. Qed.

(** C11 *)
Theorem C11_mul_exact : forall a b, bicanon a -> bicanon b ->
  exists r, bi_mul a b = Ok r /\ bicanon r /\ bival r = bival a * bival b.
Proof. exact bi_mul_spec. Qed.
Print Assumptions C11_mul_exact.
Example C11_case :
  bi_mul {| bi_sign := Negative; bi_value := [2 ^ 64 - 1] |} {| bi_sign := Positive; bi_value := [0; 2] |}
  = Ok {| bi_sign := Negative; bi_value := [0; 2 ^ 64 - 2; 1] |}.
Proof. vm_compute. reflexivity. Qed.

(** C12, full statement: [cmp] is numeric order.  False for two negative numbers: *)
Theorem C12_cmp_refuted : exists a b, bicanon a /\ bicanon b /\
  bival a = -2 /\ bival b = -1 /\ bi_cmp a b = Gt.
Proof.
  exists {| bi_sign := Negative; bi_value := [2] |}, {| bi_sign := Negative; bi_value := [1] |}.
  split; [split; [vmc|discriminate]|]. split; [split; [vmc|discriminate]|]. vmc.
Qed.
Print Assumptions C12_cmp_refuted.

(** Exact behaviour: numeric order if one operand is not negative, reversed otherwise; so
    [cmp] is right exactly when the numbers are equal or not both negative. *)
Theorem C12_cmp_exact : forall a b, bicanon a -> bicanon b ->
  bi_cmp a b = if (bival a <? 0) && (bival b <? 0) then (bival b ?= bival a) else (bival a ?= bival b).
Proof. exact bi_cmp_spec. Qed.
Print Assumptions C12_cmp_exact.
Theorem C12_cmp_iff : forall a b, bicanon a -> bicanon b ->
  (bi_cmp a b = (bival a ?= bival b) <-> (0 <= bival a \/ 0 <= bival b \/ bival a = bival b)).
Proof.
  intros a b Ha Hb. rewrite bi_cmp_spec by auto.
  destruct (Z.ltb_spec (bival a) 0), (Z.ltb_spec (bival b) 0); cbn [andb];
    [|split; [lia|reflexivity]..].
  rewrite (Z.compare_antisym (bival a) (bival b)).
  destruct (Z.compare_spec (bival a) (bival b)); cbn [CompOpp]; split; intros; try discriminate; try lia; reflexivity.
Qed.
Print Assumptions C12_cmp_iff.
(** Equal only for identical values. *)
Theorem C12_cmp_eq : forall a b, bicanon a -> bicanon b -> (bi_cmp a b = Eq <-> a = b).
Proof.
  intros a b Ha Hb. rewrite bi_cmp_spec by auto. split.
  - intros H. assert (E : bival a = bival b).
    { destruct ((bival a <? 0) && (bival b <? 0))%bool; apply Z.compare_eq in H; auto. }
    unfold bival in E. destruct Ha as [Ca Sa], Hb as [Cb Sb].
    destruct a as [sa va], b as [sb vb]; cbn [bi_sign bi_value] in *.
    pose proof (val_nonneg va ltac:(auto)). pose proof (val_nonneg vb ltac:(auto)).
    assert (va = vb).
    { apply canon_inj; auto. destruct sa, sb; lia. }
    subst vb. destruct sa, sb; try reflexivity.
    + assert (va = []) by (apply canon_val0; auto; lia). rewrite (Sb ltac:(auto)). reflexivity.
    + assert (va = []) by (apply canon_val0; auto; lia). rewrite (Sa ltac:(auto)). reflexivity.
  - intros ->. rewrite Z.compare_refl. destruct (_ && _)%bool; reflexivity.
Qed.
Print Assumptions C12_cmp_eq.
Example C12_case : bi_cmp {| bi_sign := Negative; bi_value := [5; 1] |} {| bi_sign := Positive; bi_value := [] |} = Lt
  /\ bi_cmp {| bi_sign := Positive; bi_value := [5; 1] |} {| bi_sign := Positive; bi_value := [6; 1] |} = Lt.
Proof. vmc. Qed.

(** C13, full statement: truncated division, remainder with the sign of the dividend.
    False: 7 mod -2 is returned as -1, and -7 mod -2 as +1. *)
Theorem C13_div_mod_refuted : exists a b q r, bicanon a /\ bicanon b /\
  bival a = 7 /\ bival b = -2 /\ (forall fuel, (5 <= fuel)%nat -> bi_div_mod fuel a b = Ok (q, r)) /\
  bival q = -3 /\ bival r = -1 /\ bival a <> bival q * bival b + bival r.
Proof.
  exists {| bi_sign := Positive; bi_value := [7] |}, {| bi_sign := Negative; bi_value := [2] |},
    {| bi_sign := Negative; bi_value := [3] |}, {| bi_sign := Negative; bi_value := [1] |}.
  split; [split; [vmc|discriminate]|]. split; [split; [vmc|discriminate]|].
  split; [reflexivity|]. split; [reflexivity|]. split.
  - intros [|[|[|[|[|fuel]]]]] Hf; try lia. vm_compute. reflexivity.
  - split; [reflexivity|]. split; [reflexivity|]. vm_compute. discriminate.
Qed.
Print Assumptions C13_div_mod_refuted.

(** The quotient -1 / 2 is a negative zero: not canonical, so unequal to ZERO. *)
Theorem C13_div_refuted_negative_zero : exists a b q, bicanon a /\ bicanon b /\
  bival a = -1 /\ bival b = 2 /\ (forall fuel, bi_div fuel a b = Ok q) /\
  bival q = 0 /\ ~ bicanon q /\ q <> bi_zero /\ bi_cmp q bi_zero = Lt.
Proof.
  exists {| bi_sign := Negative; bi_value := [1] |}, {| bi_sign := Positive; bi_value := [2] |},
    {| bi_sign := Negative; bi_value := [] |}.
  split; [split; [vmc|discriminate]|]. split; [split; [vmc|discriminate]|].
  split; [reflexivity|]. split; [reflexivity|]. split; [intros; reflexivity|].
  split; [reflexivity|]. split; [intros [_ H]; specialize (H eq_refl); discriminate|].
  split; [discriminate|reflexivity].
Qed.
Print Assumptions C13_div_refuted_negative_zero.

(** Proved part: for divisors +-d * 2^(64 k) with 0 < d < 2^64 the call returns, the
    quotient denotes the truncated quotient and the remainder is the truncated remainder
    times the sign of the divisor; so it is right for positive such divisors. *)
Theorem C13_div_mod_partial : forall a b k d, bicanon a -> bicanon b -> 0 < d < 2 ^ 64 ->
  Z.abs (bival b) = d * (2 ^ 64) ^ Z.of_nat k ->
  exists q r f0, (forall fuel, (f0 <= fuel)%nat -> bi_div_mod fuel a b = Ok (q, r)) /\
    bival q = Z.quot (bival a) (bival b) /\
    bival r = Z.sgn (bival b) * Z.rem (bival a) (bival b).
Proof. exact bi_div_mod_top. Qed.
Print Assumptions C13_div_mod_partial.
Theorem C13_div_mod_positive_divisor_partial : forall a b, bicanon a -> bicanon b ->
  0 < bival b < 2 ^ 64 ->
  exists q r f0, (forall fuel, (f0 <= fuel)%nat -> bi_div_mod fuel a b = Ok (q, r)) /\
    bival a = bival q * bival b + bival r /\ Z.abs (bival r) < bival b /\
    (bival r = 0 \/ Z.sgn (bival r) = Z.sgn (bival a)).
Proof.
  intros a b Ha Hb Hlt.
  destruct (bi_div_mod_top a b 0 (bival b) Ha Hb) as [q [r [f0 [H1 [H2 H3]]]]].
  - rewrite B_eq. exact Hlt.
  - rewrite Z.abs_eq by lia. change (Z.of_nat 0) with 0. rewrite Z.pow_0_r. lia.
  - exists q, r, f0. split; [exact H1|]. rewrite Z.sgn_pos, Z.mul_1_l in H3 by lia.
    pose proof (Z.quot_rem (bival a) (bival b) ltac:(lia)) as Hqr.
    pose proof (Z.rem_bound_abs (bival a) (bival b) ltac:(lia)) as Hb1.
    split; [rewrite H2, H3; lia|]. split; [rewrite H3; lia|].
    destruct (Z.eq_dec (bival r) 0) as [E|E]; [left; exact E|right]. rewrite H3 in *.
    rewrite Z.rem_sign_nz by lia. reflexivity.
Qed.
Print Assumptions C13_div_mod_positive_divisor_partial.
Theorem C13_div_partial : forall a b k d, bicanon a -> bicanon b -> 0 < d < 2 ^ 64 ->
  Z.abs (bival b) = d * (2 ^ 64) ^ Z.of_nat k ->
  exists q f0, (forall fuel, (f0 <= fuel)%nat -> bi_div fuel a b = Ok q) /\
    bival q = Z.quot (bival a) (bival b).
Proof. exact bi_div_top. Qed.
Print Assumptions C13_div_partial.
Example C13_case : bi_div_mod 9 {| bi_sign := Negative; bi_value := [7; 3] |} {| bi_sign := Positive; bi_value := [2] |}
  = Ok ({| bi_sign := Negative; bi_value := [2 ^ 63 + 3; 1] |}, {| bi_sign := Negative; bi_value := [1] |}).
Proof. vm_compute. reflexivity. Qed.

(** C14, full statement: [from_i64 n] is canonical and denotes n for each i64.  False at
    the two extremes: 0 gives a non-canonical zero and i64::MIN overflows. *)
Theorem C14_from_i64_refuted : exists n r, - 2 ^ 63 <= n < 2 ^ 63 /\ bi_from_i64 n = Ok r /\
  ~ bicanon r /\ bival r = 0 /\ r <> bi_zero /\ bi_is_zero r = false.
Proof.
  exists 0, {| bi_sign := Positive; bi_value := [0] |}. split; [lia|]. split; [vm_compute; reflexivity|].
  split; [intros [[_ H] _]; apply H; reflexivity|]. split; [reflexivity|]. split; [discriminate|reflexivity].
Qed.
Print Assumptions C14_from_i64_refuted.
Theorem C14_from_i64_min_refuted : exists n, - 2 ^ 63 <= n < 2 ^ 63 /\ bi_from_i64 n = Panic.
Proof. exists (- 2 ^ 63). split; [lia|vm_compute; reflexivity]. Qed.
Print Assumptions C14_from_i64_min_refuted.
(** All other arguments are right. *)
Theorem C14_from_i64_partial : forall n, - 2 ^ 63 < n < 2 ^ 63 -> n <> 0 ->
  exists r, bi_from_i64 n = Ok r /\ bicanon r /\ bival r = n.
Proof. exact bi_from_i64_spec. Qed.
Print Assumptions C14_from_i64_partial.
Example C14_case : bi_from_i64 (-5) = Ok {| bi_sign := Negative; bi_value := [5] |}.
Proof. vm_compute. reflexivity. Qed.
