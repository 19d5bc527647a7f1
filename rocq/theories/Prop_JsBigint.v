(** Properties C15-C24: JavaScript BigInt operations (nanvm-lib/src/js/js_bigint.rs).
    [jval] is the denoted integer, [jwf] well-formedness (BigSpec). *)
From Coq Require Import ZArith List Bool Lia.
From Coq Require Import ZifyBool ZifyNat.
From Verif Require Import Outcome LimbsModel LimbsSpec BigUintModel BigIntModel JsBigintModel BigSpec
  LimbsProofs ShiftProofs BigUintProofs JsBigintProofs JsBitsProofs JsDivProofs VTac.
Import ListNotations.
Open Scope Z_scope.

Definition jb (z : Z) (items : list Z) : jsbigint := {| jb_len := z; jb_items := items |}.

Ltac jwf_tac := split; [vmc|vm_compute; reflexivity].

(** C15: addition, subtraction, negation: exact and well-formed. *)
Theorem C15_add_exact : forall a b, jwf a -> jwf b ->
  jwf (jb_add a b) /\ jval (jb_add a b) = jval a + jval b.
Proof. exact jb_add_spec. Qed.
Print Assumptions C15_add_exact.
Theorem C15_sub_exact : forall a b, jwf a -> jwf b ->
  jwf (jb_sub a b) /\ jval (jb_sub a b) = jval a - jval b.
Proof. exact jb_sub_spec. Qed.
Print Assumptions C15_sub_exact.
Theorem C15_negative_exact : forall a, jwf a ->
  jwf (jb_negative a) /\ jval (jb_negative a) = - jval a.
Proof. exact jb_negative_spec. Qed.
Print Assumptions C15_negative_exact.
(** A well-formed value is determined by the integer it denotes. *)
Theorem C15_canonical_unique : forall a b, jwf a -> jwf b -> jval a = jval b -> a = b.
Proof. exact jwf_inj. Qed.
Print Assumptions C15_canonical_unique.
Example C15_case : jwf (jb (-2) [0; 1]) /\ jb_add (jb (-2) [0; 1]) (jb 1 [1]) = jb (-1) [2 ^ 64 - 1] /\
  jb_sub (jb 1 [5]) (jb 1 [5]) = jb 0 [].
Proof. split; [jwf_tac|vmc]. Qed.

(** C16 *)
Theorem C16_mul_exact : forall a b, jwf a -> jwf b ->
  exists r, jb_mul a b = Ok r /\ jwf r /\ jval r = jval a * jval b.
Proof. exact jb_mul_spec. Qed.
Print Assumptions C16_mul_exact.
Example C16_case : jb_mul (jb (-1) [2 ^ 64 - 1]) (jb (-1) [2 ^ 64 - 1]) = Ok (jb 2 [1; 2 ^ 64 - 2]).
Proof. vm_compute. reflexivity. Qed.

(** C17, full statement: [compare] is numeric order.  False for two negative numbers with
    the same number of limbs: *)
Theorem C17_compare_refuted : exists a b, jwf a /\ jwf b /\ jval a = -2 /\ jval b = -1 /\
  jb_compare a b = Gt.
Proof. exists (jb (-1) [2]), (jb (-1) [1]). split; [jwf_tac|]. split; [jwf_tac|]. vmc. Qed.
Print Assumptions C17_compare_refuted.
(** Exact behaviour for all pairs. *)
Theorem C17_compare_exact : forall a b, jwf a -> jwf b ->
  jb_compare a b =
    if (jval a <? 0) && (jval b <? 0) && (length (jb_items a) =? length (jb_items b))%nat
    then (jval b ?= jval a) else (jval a ?= jval b).
Proof. exact jb_compare_spec. Qed.
Print Assumptions C17_compare_exact.
(** So it is right whenever one operand is not negative, and Equal means equal. *)
Theorem C17_compare_partial : forall a b, jwf a -> jwf b -> 0 <= jval a \/ 0 <= jval b ->
  jb_compare a b = (jval a ?= jval b).
Proof.
  intros a b Ha Hb H. rewrite jb_compare_spec by auto.
  destruct (_ && _ && _) eqn:E; [lia|reflexivity].
Qed.
Print Assumptions C17_compare_partial.
Theorem C17_compare_equal : forall a b, jwf a -> jwf b -> (jb_compare a b = Eq <-> jval a = jval b).
Proof.
  intros a b Ha Hb. rewrite jb_compare_spec by auto. rewrite <- Z.compare_eq_iff.
  destruct (_ && _ && _) eqn:E; [|tauto]. rewrite !Z.compare_eq_iff. split; auto.
Qed.
Print Assumptions C17_compare_equal.
Example C17_case : jb_compare (jb (-2) [0; 1]) (jb (-1) [7]) = Lt /\ jb_compare (jb 2 [0; 1]) (jb 2 [1; 1]) = Lt.
Proof. vmc. Qed.

(** C18 *)
Theorem C18_equals_exact : forall a b, jwf a -> jwf b -> (jb_equals a b = true <-> jval a = jval b).
Proof. intros a b Ha Hb. rewrite jb_equals_spec by auto. apply Z.eqb_eq. Qed.
Print Assumptions C18_equals_exact.
Example C18_case : jb_equals (jb (-2) [3; 1]) (jb (-2) [3; 1]) = true /\ jb_equals (jb (-2) [3; 1]) (jb 2 [3; 1]) = false.
Proof. vmc. Qed.

(** C19 *)
Theorem C19_not_exact : forall a, jwf a -> jwf (jb_not a) /\ jval (jb_not a) = - jval a - 1.
Proof. exact jb_not_spec. Qed.
Print Assumptions C19_not_exact.
Example C19_case : jb_not (jb 1 [2 ^ 64 - 1]) = jb (-2) [0; 1] /\ jb_not (jb (-1) [1]) = jb 0 [].
Proof. vmc. Qed.

(** C20, full statement: and/or/xor are the two's complement operations.  False for
    [and], [or], [xor]: a zero top limb of the negative two's complement result is dropped. *)
Theorem C20_and_refuted : exists a b, jwf a /\ jwf b /\
  jval (jb_and a b) <> Z.land (jval a) (jval b).
Proof.
  exists (jb (-2) [2 ^ 64 - 1; 2 ^ 64 - 1]), (jb (-2) [2 ^ 64 - 1; 2 ^ 64 - 1]).
  split; [jwf_tac|]. split; [jwf_tac|]. vm_compute. discriminate.
Qed.
Print Assumptions C20_and_refuted.
Theorem C20_or_refuted : exists a b, jwf a /\ jwf b /\
  jval (jb_or a b) <> Z.lor (jval a) (jval b).
Proof.
  exists (jb (-2) [2 ^ 64 - 1; 2 ^ 64 - 1]), (jb (-2) [2 ^ 64 - 1; 2 ^ 64 - 1]).
  split; [jwf_tac|]. split; [jwf_tac|]. vm_compute. discriminate.
Qed.
Print Assumptions C20_or_refuted.
Theorem C20_xor_refuted : exists a b, jwf a /\ jwf b /\
  jval (jb_xor a b) <> Z.lxor (jval a) (jval b).
Proof.
  exists (jb (-1) [1]), (jb 1 [2 ^ 64 - 1]).
  split; [jwf_tac|]. split; [jwf_tac|]. vm_compute. discriminate.
Qed.
Print Assumptions C20_xor_refuted.
(** Exact domain, for all operands: the result R is right iff it is not negative or
    |R| <= 2^(64 n) - 2^(64 (n-1)), n the larger limb count; always well-formed. *)
Theorem C20_and_iff : forall a b, jwf a -> jwf b ->
  let R := Z.land (jval a) (jval b) in
  let n := Z.of_nat (Nat.max (length (jb_items a)) (length (jb_items b))) in
  jwf (jb_and a b) /\
  (jval (jb_and a b) = R <-> 0 <= R \/ - R <= (2 ^ 64) ^ n - (2 ^ 64) ^ (n - 1)).
Proof. exact jb_and_spec. Qed.
Print Assumptions C20_and_iff.
Theorem C20_or_iff : forall a b, jwf a -> jwf b ->
  let R := Z.lor (jval a) (jval b) in
  let n := Z.of_nat (Nat.max (length (jb_items a)) (length (jb_items b))) in
  jwf (jb_or a b) /\
  (jval (jb_or a b) = R <-> 0 <= R \/ - R <= (2 ^ 64) ^ n - (2 ^ 64) ^ (n - 1)).
Proof. exact jb_or_spec. Qed.
Print Assumptions C20_or_iff.
Theorem C20_xor_iff : forall a b, jwf a -> jwf b ->
  let R := Z.lxor (jval a) (jval b) in
  let n := Z.of_nat (Nat.max (length (jb_items a)) (length (jb_items b))) in
  jwf (jb_xor a b) /\
  (jval (jb_xor a b) = R <-> 0 <= R \/ - R <= (2 ^ 64) ^ n - (2 ^ 64) ^ (n - 1)).
Proof. exact jb_xor_spec. Qed.
Print Assumptions C20_xor_iff.
(** In particular: right for all non-negative operands. *)
Theorem C20_bitwise_partial : forall a b, jwf a -> jwf b -> 0 <= jval a -> 0 <= jval b ->
  jval (jb_and a b) = Z.land (jval a) (jval b) /\
  jval (jb_or a b) = Z.lor (jval a) (jval b) /\
  jval (jb_xor a b) = Z.lxor (jval a) (jval b).
Proof.
  intros a b Ha Hb Pa Pb.
  destruct (jb_and_spec a b Ha Hb) as [_ H1]. destruct (jb_or_spec a b Ha Hb) as [_ H2].
  destruct (jb_xor_spec a b Ha Hb) as [_ H3].
  split; [apply H1; left; apply Z.land_nonneg; auto|].
  split; [apply H2; left; apply Z.lor_nonneg; auto|apply H3; left; apply Z.lxor_nonneg; tauto].
Qed.
Print Assumptions C20_bitwise_partial.
Example C20_case : jb_and (jb (-1) [6]) (jb 2 [7; 1]) = jb 2 [2; 1] /\
  jb_or (jb (-1) [6]) (jb (-2) [1; 1]) = jb (-1) [1] /\ jb_xor (jb (-1) [6]) (jb 1 [3]) = jb (-1) [7].
Proof. vmc. Qed.

(** C21: left shift by a count of at most one limb is multiplication by a power of two. *)
Theorem C21_shl_exact : forall a n, jwf a -> jwf n -> 0 <= jval n < 2 ^ 64 ->
  exists r, jb_shl a n = Ok r /\ jwf r /\ jval r = jval a * 2 ^ jval n.
Proof.
  intros a n Ha Hn Hr. unfold jb_shl. rewrite !jb_is_zero_spec by auto.
  destruct (Z.eqb_spec (jval a) 0) as [E|E].
  { exists jb_zero. split; [reflexivity|]. split; [auto|]. rewrite E, jb_zero_val. lia. }
  destruct (Z.eqb_spec (jval n) 0) as [E2|E2].
  { rewrite jwf_eta by auto. exists a. split; [reflexivity|]. split; [auto|]. rewrite E2, Z.pow_0_r. lia. }
  assert (Hs : jb_sign n = Positive).
  { destruct (jb_sign n) eqn:Es; [reflexivity|]. apply jval_neg_iff in Es; auto. lia. }
  assert (Hv : jval n = val (jb_items n)) by (rewrite jval_sign, Hs; cbn [sign_int]; lia).
  rewrite Hs. destruct (jb_items n) as [|x [|y l]] eqn:Ei.
  - rewrite val_nil in Hv. congruence.
  - rewrite Hv, single_val. apply jb_shl_on_u64_spec; auto.
    + rewrite jval_zero_iff by auto. exact E.
    + rewrite Hv, single_val in Hr. lia.
  - destruct Hn as [Cn _]. rewrite Ei in Cn. pose proof (long_ge x y l Cn) as HL. rewrite B_eq in HL. lia.
Qed.
Print Assumptions C21_shl_exact.
(** A negative count shifts right by its magnitude; a longer count panics (a <> 0). *)
Theorem C21_shl_negative_count : forall a n x, jwf a -> 0 < x < 2 ^ 64 -> jwf n -> jval n = - x ->
  jb_shl a n = jb_shr a (jb 1 [x]).
Proof.
  intros a n x Ha Hx Hn Hv.
  assert (En : n = jb (-1) [x]).
  { apply jwf_inj; auto.
    - split; cbn [jb_items jb_len jb length]; [|reflexivity].
      split; [apply limbs_cons; split; [rewrite B_eq; lia|constructor]|cbn; lia].
    - rewrite Hv. unfold jval, jb; cbn [jb_len jb_items]. change (-1 <? 0) with true. rewrite single_val. reflexivity. }
  rewrite En. unfold jb_shl, jb_shr, jb. reflexivity.
Qed.
Print Assumptions C21_shl_negative_count.
Theorem C21_shl_huge_count : forall a n, jwf a -> jwf n -> 2 ^ 64 <= jval n -> jval a <> 0 ->
  jb_shl a n = Panic.
Proof.
  intros a n Ha Hn Hr Hne. unfold jb_shl. rewrite !jb_is_zero_spec by auto.
  rewrite (proj2 (Z.eqb_neq (jval a) 0)) by auto. rewrite (proj2 (Z.eqb_neq (jval n) 0)) by lia.
  assert (Hs : jb_sign n = Positive).
  { destruct (jb_sign n) eqn:Es; [reflexivity|]. apply jval_neg_iff in Es; auto. lia. }
  assert (Hv : jval n = val (jb_items n)) by (rewrite jval_sign, Hs; cbn [sign_int]; lia).
  rewrite Hs. destruct (jb_items n) as [|x [|y l]] eqn:Ei; [reflexivity| |reflexivity].
  destruct Hn as [Cn _]. rewrite Ei in Cn. apply canon_cons in Cn as [Hx _].
  rewrite single_val in Hv. rewrite B_eq in Hx. lia.
Qed.
Print Assumptions C21_shl_huge_count.
Example C21_case : jb_shl (jb (-1) [2 ^ 63 + 1]) (jb 1 [65]) = Ok (jb (-3) [0; 2; 1]).
Proof. vm_compute. reflexivity. Qed.

(** C22, full statement: a >> n is floor(a / 2^n).  False: -3 >> 1 gives -1, not -2; and
    2^64 >> 2 gives 0. *)
Theorem C22_shr_refuted : exists a n r, jwf a /\ jwf n /\ jval a = -3 /\ jval n = 1 /\
  jb_shr a n = Ok r /\ jval r = -1 /\ jval a / 2 ^ jval n = -2.
Proof.
  exists (jb (-1) [3]), (jb 1 [1]), (jb (-1) [1]). split; [jwf_tac|]. split; [jwf_tac|]. vmc.
Qed.
Print Assumptions C22_shr_refuted.
Theorem C22_shr_refuted_positive : exists a n r, jwf a /\ jwf n /\ jval a = 2 ^ 64 /\ jval n = 2 /\
  jb_shr a n = Ok r /\ jval r = 0.
Proof.
  exists (jb 2 [0; 1]), (jb 1 [2]), (jb 0 []). split; [jwf_tac|]. split; [jwf_tac|]. vmc.
Qed.
Print Assumptions C22_shr_refuted_positive.
(** Exact domain.  [shr_exact v n]: n is a multiple of 64, or every limb above the new
    lowest one has its [n mod 64 - 1] lowest bits zero.  A non-negative number is shifted
    right iff that holds; a negative one iff moreover no one-bit is lost, or |a| <= 2^n. *)
Theorem C22_shr_iff : forall a n, jwf a -> jwf n -> 0 < jval n < 2 ^ 64 -> jval a <> 0 ->
  exists r, jb_shr a n = Ok r /\ jwf r /\
   (jval r = jval a / 2 ^ jval n <->
    (0 <= jval a /\ shr_exact (jb_items a) (jval n)) \/
    (jval a < 0 /\ (- jval a <= 2 ^ jval n \/
                    (jval a mod 2 ^ jval n = 0 /\ shr_exact (jb_items a) (jval n))))).
Proof.
  intros a n Ha Hn Hr Hne. unfold jb_shr. rewrite !jb_is_zero_spec by auto.
  rewrite (proj2 (Z.eqb_neq (jval a) 0)) by auto. rewrite (proj2 (Z.eqb_neq (jval n) 0)) by lia.
  assert (Hs : jb_sign n = Positive).
  { destruct (jb_sign n) eqn:Es; [reflexivity|]. apply jval_neg_iff in Es; auto. lia. }
  assert (Hv : jval n = val (jb_items n)) by (rewrite jval_sign, Hs; cbn [sign_int]; lia).
  rewrite Hs. destruct (jb_items n) as [|x [|y l]] eqn:Ei.
  - rewrite val_nil in Hv. lia.
  - eexists; split; [reflexivity|]. rewrite Hv, single_val. apply jb_shr_on_u64_spec; auto.
    rewrite Hv, single_val in Hr. lia.
  - destruct Hn as [Cn _]. rewrite Ei in Cn. pose proof (long_ge x y l Cn) as HL. rewrite B_eq in HL. lia.
Qed.
Print Assumptions C22_shr_iff.
(** Counts of 2^64 and more, and zero operands, are right. *)
Theorem C22_shr_huge_count : forall a n, jwf a -> jwf n -> 2 ^ 64 <= jval n ->
  Z.abs (jval a) < 2 ^ jval n ->
  exists r, jb_shr a n = Ok r /\ jwf r /\ jval r = jval a / 2 ^ jval n.
Proof.
  intros a n Ha Hn Hr Hlt. unfold jb_shr. rewrite !jb_is_zero_spec by auto.
  destruct (Z.eqb_spec (jval a) 0) as [E|E].
  { exists jb_zero. split; [reflexivity|]. split; [auto|]. rewrite E, jb_zero_val.
    rewrite Z.div_0_l; [reflexivity|]. apply Z.pow_nonzero; lia. }
  rewrite (proj2 (Z.eqb_neq (jval n) 0)) by lia.
  assert (Hs : jb_sign n = Positive).
  { destruct (jb_sign n) eqn:Es; [reflexivity|]. apply jval_neg_iff in Es; auto. lia. }
  assert (Hv : jval n = val (jb_items n)) by (rewrite jval_sign, Hs; cbn [sign_int]; lia).
  rewrite Hs. destruct (jb_items n) as [|x [|y l]] eqn:Ei.
  - rewrite val_nil in Hv. lia.
  - destruct Hn as [Cn _]. rewrite Ei in Cn. apply canon_cons in Cn as [Hx _].
    rewrite single_val in Hv. rewrite B_eq in Hx. lia.
  - eexists; split; [reflexivity|]. apply shr_on_big_spec; auto. lia.
Qed.
Print Assumptions C22_shr_huge_count.
Theorem C22_shr_zero : forall a n, jwf a -> jwf n -> jval a = 0 \/ jval n = 0 -> jb_shr a n = Ok a.
Proof.
  intros a n Ha Hn H. unfold jb_shr. rewrite !jb_is_zero_spec by auto.
  destruct (Z.eqb_spec (jval a) 0) as [E|E].
  - f_equal. apply jwf_inj; auto.
  - rewrite (proj2 (Z.eqb_eq (jval n) 0)) by lia. rewrite jwf_eta by auto. reflexivity.
Qed.
Print Assumptions C22_shr_zero.
Example C22_case : jb_shr (jb (-1) [12]) (jb 1 [2]) = Ok (jb (-1) [3]) /\
  jb_shr (jb (-1) [12]) (jb 1 [7]) = Ok (jb (-1) [1]) /\ shr_exact [12] 2 /\ (-12) mod 2 ^ 2 = 0.
Proof.
  split; [vmc|]. split; [vmc|]. split; [|vmc]. right. intros i Hi. rewrite nth_overflow; [reflexivity|].
  change (2 / 64) with 0 in Hi. cbn [length]. lia.
Qed.

(** C23, full statement: truncated quotient and remainder, terminating.  False in four ways. *)
(** (a) For every |a| < |b| the remainder has the magnitude of b instead of a. *)
Theorem C23_div_mod_small_refuted : forall a b fuel, jwf a -> jwf b ->
  Z.abs (jval a) < Z.abs (jval b) ->
  exists q r, jb_div_mod fuel a b = Ok (q, r) /\ jval q = 0 /\
    Z.abs (jval r) = Z.abs (jval b) /\ jval a <> jval q * jval b + jval r.
Proof.
  intros a b fuel Ha Hb H. destruct (jb_div_mod_small a b fuel Ha Hb H) as [q [r [E [_ [_ [H1 H2]]]]]].
  exists q, r. split; [exact E|]. split; [exact H1|]. split; [exact H2|]. lia.
Qed.
Print Assumptions C23_div_mod_small_refuted.
(** (b) It does not terminate for any dividend 2^64 <= |a| < 2^65 and divisor
    2^63 < |b| < 2^64 with quotient 1. *)
Theorem C23_div_mod_diverges : forall a b, jwf a -> jwf b ->
  2 ^ 64 <= Z.abs (jval a) < 2 * 2 ^ 64 -> 2 ^ 63 < Z.abs (jval b) < 2 ^ 64 ->
  Z.abs (jval a) < 2 * Z.abs (jval b) -> forall fuel, jb_div_mod fuel a b = NoFuel.
Proof. exact jb_div_mod_stuck. Qed.
Print Assumptions C23_div_mod_diverges.
Theorem C23_div_mod_refuted_diverges : exists a b, jwf a /\ jwf b /\ jval a = 2 ^ 64 /\
  jval b = 2 ^ 64 - 1 /\ forall fuel, jb_div_mod fuel a b = NoFuel.
Proof.
  exists (jb 2 [0; 1]), (jb 1 [2 ^ 64 - 1]). split; [jwf_tac|]. split; [jwf_tac|].
  split; [vmc|]. split; [vmc|]. apply jb_div_mod_stuck; [jwf_tac|jwf_tac|vmc|vmc|vmc].
Qed.
Print Assumptions C23_div_mod_refuted_diverges.
(** (c) 7 / -2 has remainder -1. *)
Theorem C23_div_mod_refuted_sign : exists a b q r, jwf a /\ jwf b /\ jval a = 7 /\ jval b = -2 /\
  (forall fuel, (5 <= fuel)%nat -> jb_div_mod fuel a b = Ok (q, r)) /\ jval q = -3 /\ jval r = -1.
Proof.
  exists (jb 1 [7]), (jb (-1) [2]), (jb (-1) [3]), (jb (-1) [1]).
  split; [jwf_tac|]. split; [jwf_tac|]. split; [vmc|]. split; [vmc|]. split; [|vmc].
  intros [|[|[|[|[|fuel]]]]] Hf; try lia. vm_compute. reflexivity.
Qed.
Print Assumptions C23_div_mod_refuted_sign.
(** (d) The quotient of 2^128 + 1 by 2^64 + 1 is 2^128 instead of 2^64 - 1. *)
Theorem C23_div_mod_refuted_quotient : exists a b q r, jwf a /\ jwf b /\
  (forall fuel, (4 <= fuel)%nat -> jb_div_mod fuel a b = Ok (q, r)) /\
  jval q = 2 ^ 128 /\ Z.quot (jval a) (jval b) = 2 ^ 64 - 1.
Proof.
  exists (jb 3 [1; 0; 1]), (jb 2 [1; 1]), (jb 3 [0; 0; 1]), (jb 1 [1]).
  split; [jwf_tac|]. split; [jwf_tac|]. split; [|vmc].
  intros [|[|[|[|fuel]]]] Hf; try lia. vm_compute. reflexivity.
Qed.
Print Assumptions C23_div_mod_refuted_quotient.
(** Proved part: |a| >= |b| and |b| = d * 2^(64 k) with d <= 2^63 (so every |b| <= 2^63):
    the call returns, the quotient is right, the remainder has the magnitude of the right
    one and its sign times the sign of b.  Missing: the cases above. *)
Theorem C23_div_mod_partial : forall a b k d, jwf a -> jwf b -> 0 < d <= 2 ^ 63 ->
  Z.abs (jval b) = d * (2 ^ 64) ^ Z.of_nat k -> Z.abs (jval b) <= Z.abs (jval a) ->
  exists q r f0, (forall fuel, (f0 <= fuel)%nat -> jb_div_mod fuel a b = Ok (q, r)) /\
    jwf q /\ jwf r /\
    jval q = Z.quot (jval a) (jval b) /\ jval r = Z.sgn (jval b) * Z.rem (jval a) (jval b).
Proof. exact jb_div_mod_top. Qed.
Print Assumptions C23_div_mod_partial.
(** The full ECMAScript statement on 0 < b <= 2^63, |a| >= b. *)
Theorem C23_div_mod_js_partial : forall a b, jwf a -> jwf b -> 0 < jval b <= 2 ^ 63 ->
  jval b <= Z.abs (jval a) ->
  exists q r f0, (forall fuel, (f0 <= fuel)%nat -> jb_div_mod fuel a b = Ok (q, r)) /\
    jwf q /\ jwf r /\ jval a = jval q * jval b + jval r /\ Z.abs (jval r) < jval b /\
    (jval r = 0 \/ Z.sgn (jval r) = Z.sgn (jval a)).
Proof.
  intros a b Ha Hb H1 H2.
  destruct (jb_div_mod_top a b 0 (jval b) Ha Hb H1) as [q [r [f0 [Hf [Hq [Hr [H3 H4]]]]]]].
  - change (Z.of_nat 0) with 0. rewrite Z.pow_0_r. lia.
  - lia.
  - exists q, r, f0. split; [exact Hf|]. split; [auto|]. split; [auto|].
    rewrite Z.sgn_pos, Z.mul_1_l in H4 by lia.
    pose proof (Z.quot_rem (jval a) (jval b) ltac:(lia)) as Hqr.
    pose proof (Z.rem_bound_abs (jval a) (jval b) ltac:(lia)) as Hb1.
    split; [rewrite H3, H4; lia|]. split; [rewrite H4; lia|].
    destruct (Z.eq_dec (jval r) 0) as [E|E]; [left; exact E|right]. rewrite H4 in *.
    rewrite Z.rem_sign_nz by lia. reflexivity.
Qed.
Print Assumptions C23_div_mod_js_partial.
Theorem C23_div_mod_zero : forall a b fuel, jwf b -> jval b = 0 -> jb_div_mod fuel a b = Panic.
Proof. intros a b fuel Hb H. unfold jb_div_mod. rewrite jb_is_zero_spec, H by auto. reflexivity. Qed.
Print Assumptions C23_div_mod_zero.
Example C23_case : jb_div_mod 9 (jb (-2) [7; 3]) (jb 1 [2]) = Ok (jb (-2) [2 ^ 63 + 3; 1], jb (-1) [1]).
Proof. vm_compute. reflexivity. Qed.

(** C24, full statement: pow is exact for every exponent below 2^64.  False: (-1)^1 = 1. *)
Theorem C24_pow_refuted : exists a e r, jwf a /\ jwf e /\ jval a = -1 /\ jval e = 1 /\
  jb_pow a e = Ok r /\ jval r = 1.
Proof.
  exists (jb (-1) [1]), (jb 1 [1]), (jb 1 [1]). split; [jwf_tac|]. split; [jwf_tac|]. vmc.
Qed.
Print Assumptions C24_pow_refuted.
(** Everything else is right; for base -1 and an odd exponent the result is 1. *)
Theorem C24_pow_exact : forall a e, jwf a -> jwf e -> 0 <= jval e < 2 ^ 64 ->
  exists r, jb_pow a e = Ok r /\ jwf r /\
    jval r = (if (jval a =? -1) && Z.odd (jval e) then 1 else jval a ^ jval e).
Proof. exact jb_pow_spec. Qed.
Print Assumptions C24_pow_exact.
Theorem C24_pow_partial : forall a e, jwf a -> jwf e -> 0 <= jval e < 2 ^ 64 -> jval a <> -1 ->
  exists r, jb_pow a e = Ok r /\ jwf r /\ jval r = jval a ^ jval e.
Proof.
  intros a e Ha He Hr Hn. destruct (jb_pow_spec a e Ha He Hr) as [r [E [Hw Hv]]].
  exists r. split; [exact E|]. split; [exact Hw|].
  destruct (Z.eqb_spec (jval a) (-1)); [congruence|exact Hv].
Qed.
Print Assumptions C24_pow_partial.
Theorem C24_pow_negative_exponent : forall a e, jwf e -> jval e < 0 -> jb_pow a e = Panic.
Proof. exact jb_pow_negative. Qed.
Print Assumptions C24_pow_negative_exponent.
Theorem C24_pow_u64_exact : forall a e, jwf a -> jval a <> 0 -> 0 <= e < 2 ^ 64 ->
  exists r, jb_pow_u64 a e = Ok r /\ jwf r /\ jval r = jval a ^ e.
Proof.
  intros a e Ha Hne He. apply jb_pow_u64_spec; auto. rewrite jval_zero_iff by auto. exact Hne.
Qed.
Print Assumptions C24_pow_u64_exact.
Theorem C24_pow_u64_zero_refuted : forall e, 0 < e -> jb_pow_u64 jb_zero e = Panic.
Proof. exact jb_pow_u64_zero. Qed.
Print Assumptions C24_pow_u64_zero_refuted.
Example C24_case : jb_pow (jb (-1) [3]) (jb 1 [41]) = Ok (jb (-2) [18026252303461234787; 1]).
Proof. vm_compute. reflexivity. Qed.
