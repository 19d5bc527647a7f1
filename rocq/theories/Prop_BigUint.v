(** Properties C01-C09: big unsigned integers (nanvm-lib/src/big_numbers/big_uint.rs).
    [val] is the denoted integer, [limbs] "is a vector of u64", [canon] "no zero limb on
    top" (LimbsSpec).  Arguments that the Rust type system restricts to u64 are restricted
    by [limbs]/[canon]. *)
From Coq Require Import ZArith List Lia.
From Verif Require Import Outcome LimbsModel LimbsSpec BigUintModel LimbsProofs ShiftProofs BigUintProofs VTac.
Import ListNotations.
Open Scope Z_scope.

(** C01: addition is exact for all limb vectors and keeps canonical form. *)
Theorem C01_add_exact : forall a b, limbs a -> limbs b ->
  val (bu_add a b) = val a + val b /\ limbs (bu_add a b) /\
  (canon a -> canon b -> canon (bu_add a b)).
Proof.
  intros a b Ha Hb. exact (conj (bu_add_val a b Ha Hb)
    (conj (add_vec_limbs a b) (fun Ca Cb => bu_add_canon a b Ca Cb))).
Qed.
Print Assumptions C01_add_exact.
Example C01_case : val (bu_add [2 ^ 64 - 1; 2 ^ 64 - 1] [1]) = 2 ^ 128 /\
  bu_add [2 ^ 64 - 1; 2 ^ 64 - 1] [1] = [0; 0; 1] /\ limbs [2 ^ 64 - 1; 2 ^ 64 - 1].
Proof. vmc. Qed.

(** C02: subtraction is max 0 (a - b), canonical. *)
Theorem C02_sub_saturating : forall a b, canon a -> canon b ->
  canon (bu_sub a b) /\ val (bu_sub a b) = Z.max 0 (val a - val b).
Proof. exact bu_sub_spec. Qed.
Print Assumptions C02_sub_saturating.
Example C02_case : bu_sub [0; 0; 1] [1] = [2 ^ 64 - 1; 2 ^ 64 - 1] /\ bu_sub [7] [0; 1] = [].
Proof. split; vm_compute; reflexivity. Qed.

(** C03: comparison is the order of the integers; Equal only for identical vectors. *)
Theorem C03_cmp_numeric : forall a b, canon a -> canon b ->
  bu_cmp a b = (val a ?= val b) /\ (bu_cmp a b = Eq -> a = b).
Proof.
  intros a b Ha Hb. exact (conj (bu_cmp_spec a b Ha Hb) (fun H =>
    canon_inj a b Ha Hb (Z.compare_eq _ _ (eq_trans (eq_sym (bu_cmp_spec a b Ha Hb)) H)))).
Qed.
Print Assumptions C03_cmp_numeric.
Example C03_case : bu_cmp [5; 1] [4; 1] = Gt /\ bu_cmp [5; 1] [4; 2] = Lt /\ bu_cmp [9] [0; 1] = Lt.
Proof. vmc. Qed.

(** C04: multiplication returns (no index or u128 overflow panic) the exact product. *)
Theorem C04_mul_exact : forall a b, limbs a -> limbs b ->
  exists r, bu_mul a b = Ok r /\ canon r /\ val r = val a * val b.
Proof. exact bu_mul_spec. Qed.
Print Assumptions C04_mul_exact.
Example C04_case : bu_mul [2 ^ 64 - 1; 2 ^ 64 - 1] [2 ^ 64 - 1; 2 ^ 64 - 1]
  = Ok [1; 0; 2 ^ 64 - 2; 2 ^ 64 - 1].
Proof. vm_compute. reflexivity. Qed.

(** C05, full statement: for all canonical a and b <> 0, [div_mod] returns (a / b, a mod b).
    It is false; two witnesses. *)
(** 2^128 divided by 2^64 + 1 loops for ever. *)
Theorem C05_div_mod_refuted_diverges : exists a b, canon a /\ canon b /\ val b <> 0 /\
  val a = 2 ^ 128 /\ val b = 2 ^ 64 + 1 /\ forall fuel, bu_div_mod fuel a b = NoFuel.
Proof.
  exists [0; 0; 1], [1; 1].
  assert (Ha : canon [0; 0; 1]) by vmc.
  assert (Hb : canon [1; 1]) by vmc.
  split; [exact Ha|]. split; [exact Hb|]. split; [vm_compute; discriminate|].
  split; [reflexivity|]. split; [reflexivity|].
  exact (bu_div_mod_stuck [0; 0; 1] [1; 1] Ha Hb ltac:(cbn; lia) ltac:(congruence)
    eq_refl ltac:(vm_compute; reflexivity)).
Qed.
Print Assumptions C05_div_mod_refuted_diverges.

(** (2^64-1) * 2^64 divided by 2^65 - 1 returns a quotient almost twice too big. *)
Theorem C05_div_mod_refuted_wrong : exists a b q r, canon a /\ canon b /\ val b <> 0 /\
  (forall fuel, (5 <= fuel)%nat -> bu_div_mod fuel a b = Ok (q, r)) /\
  val q <> val a / val b /\ val a <> val q * val b + val r.
Proof.
  exists [0; 2 ^ 64 - 1], [2 ^ 64 - 1; 1], [2 ^ 64 - 2], [].
  split; [vmc|].
  split; [vmc|].
  split; [vm_compute; discriminate|]. split; [|split; vm_compute; discriminate].
  intros [|[|[|[|[|fuel]]]]] Hf; try lia. vm_compute. reflexivity.
Qed.
Print Assumptions C05_div_mod_refuted_wrong.

(** The non-termination is not isolated: whenever the top limbs agree, a is longer, and a
    is below b shifted to a's length, the loop never ends. *)
Theorem C05_div_mod_diverges : forall a b, canon a -> canon b -> b <> [] ->
  (length b < length a)%nat -> last a 1 = last b 1 ->
  val a < val b * (2 ^ 64) ^ Z.of_nat (length a - length b) ->
  forall fuel, bu_div_mod fuel a b = NoFuel.
Proof.
  exact (fun a b Ha Hb Hn Hl Hlast Hlt => bu_div_mod_stuck a b Ha Hb Hl Hn Hlast Hlt).
Qed.
Print Assumptions C05_div_mod_diverges.

(** Proved part: divisors d * 2^(64 k), 0 < d < 2^64 (in particular every divisor below
    2^64).  Missing: all other divisors, for which the statement is false in general. *)
Theorem C05_div_mod_partial : forall a b k d, canon a -> canon b ->
  0 < d < 2 ^ 64 -> val b = d * (2 ^ 64) ^ Z.of_nat k ->
  exists q r f0, (forall fuel, (f0 <= fuel)%nat -> bu_div_mod fuel a b = Ok (q, r)) /\
    canon q /\ canon r /\ val q = val a / val b /\ val r = val a mod val b.
Proof. exact bu_div_mod_top. Qed.
Print Assumptions C05_div_mod_partial.
Example C05_case : canon [3; 4; 5] /\ canon [7] /\ val [7] = 7 * (2 ^ 64) ^ Z.of_nat 0 /\
  bu_div_mod 20 [3; 4; 5] [7] = Ok ([0; 13176245766935394012], [3]).
Proof. vmc. Qed.

(** For every divisor: a returned remainder is canonical and below b, and the pair is the
    Euclidean one unless the remainder is zero and the quotient too big.  So a non-zero
    remainder certifies the result. *)
Theorem C05_div_mod_returned : forall fuel a b q r, canon a -> canon b ->
  bu_div_mod fuel a b = Ok (q, r) ->
  canon q /\ canon r /\ val r < val b /\
  (val a = val q * val b + val r \/ (val r = 0 /\ val a < val q * val b)).
Proof.
  intros fuel a b q r Ha Hb H.
  exact (conj (bu_div_mod_canon fuel a b q r Ha Hb H) (bu_div_mod_partial fuel a b q r Ha Hb H)).
Qed.
Print Assumptions C05_div_mod_returned.

(** C06: left shift by a one-limb count multiplies by a power of two; the empty count is
    the identity and a longer count panics. *)
Theorem C06_shl_exact : forall a n, canon a -> 0 <= n < 2 ^ 64 ->
  exists r, bu_shl a [n] = Ok r /\ canon r /\ val r = val a * 2 ^ n.
Proof. intros a n Ha Hn. exact (bu_shl_spec a n Ha (proj1 Hn)). Qed.
Print Assumptions C06_shl_exact.
Theorem C06_shl_other_counts : forall a, bu_shl a [] = Ok a /\
  (a <> [] -> forall n m rest, bu_shl a (n :: m :: rest) = Panic).
Proof. intros a. exact (conj (bu_shl_zero a) (fun H n m rest => bu_shl_big a n m rest H)). Qed.
Print Assumptions C06_shl_other_counts.
Example C06_case : bu_shl [2 ^ 63 + 1] [65] = Ok [0; 2; 1].
Proof. vm_compute. reflexivity. Qed.

(** C07, full statement: a >> n is a / 2^n.  False: *)
Theorem C07_shr_refuted : exists a n r, canon a /\ 0 <= n < 2 ^ 64 /\
  bu_shr a [n] = Ok r /\ val r <> val a / 2 ^ n.
Proof.
  exists [0; 1], 2, []. split; [vmc|].
  split; [lia|]. split; [vm_compute; reflexivity|vm_compute; discriminate].
Qed.
Print Assumptions C07_shr_refuted.

(** The count is read from the lowest limb only: shifting 1 by 2^64 gives 1. *)
Theorem C07_shr_refuted_big_count : exists a n, canon a /\ canon n /\
  bu_shr a n = Ok a /\ val a <> 0 /\ val a < 2 ^ val n.
Proof.
  exists [1], [0; 1]. split; [vmc|].
  split; [vmc|].
  split; [vm_compute; reflexivity|]. split; [vm_compute; discriminate|].
  change (val [1]) with (2 ^ 0). apply Z.pow_lt_mono_r; vm_compute; congruence.
Qed.
Print Assumptions C07_shr_refuted_big_count.

(** Exact domain: the result is right iff n is a multiple of 64 or every limb above the
    new lowest one has its [n mod 64 - 1] lowest bits zero; otherwise it is too small. *)
Theorem C07_shr_exact_iff : forall a n, canon a -> 0 <= n < 2 ^ 64 ->
  exists r, bu_shr a [n] = Ok r /\ canon r /\ val r <= val a / 2 ^ n /\
    (val r = val a / 2 ^ n <->
      (n mod 64 = 0 \/
       forall i, n / 64 < Z.of_nat i -> nth i a 0 mod 2 ^ (n mod 64 - 1) = 0)).
Proof. intros a n Ha Hn. exact (bu_shr_spec a n Ha (proj1 Hn)). Qed.
Print Assumptions C07_shr_exact_iff.

(** In particular shifts by 0 or 1 modulo 64 are right. *)
Theorem C07_shr_partial : forall a n r, canon a -> 0 <= n < 2 ^ 64 -> n mod 64 <= 1 ->
  bu_shr a [n] = Ok r -> val r = val a / 2 ^ n.
Proof.
  intros a n r Ha Hn H1 E. destruct (bu_shr_spec a n Ha (proj1 Hn)) as [r' [E' [_ [_ H]]]].
  rewrite E' in E. injection E as <-. exact (proj2 H (shr_exact_le1 a n H1 (proj1 Hn))).
Qed.
Print Assumptions C07_shr_partial.
Example C07_case : bu_shr [6; 3; 5] [65] = Ok [2 ^ 63 + 1; 2].
Proof. vm_compute. reflexivity. Qed.

(** C08: power with an exponent of at most one limb is exact and returns; a longer exponent
    panics unless the base is 0 or 1. *)
Theorem C08_pow_exact : forall a e, canon a -> canon e -> val e < 2 ^ 64 ->
  exists r, bu_pow a e = Ok r /\ canon r /\ val r = val a ^ val e.
Proof.
  intros a e Ha He Hlt. apply bu_pow_spec; [exact Ha|exact He|].
  destruct e as [|x [|y e]]; [cbn; lia|cbn; lia|].
  exfalso. pose proof (canon_lower _ He ltac:(congruence)) as H.
  pose proof (Bpow_mono 1 (length (x :: y :: e) - 1) ltac:(cbn; lia)) as H2.
  change (Z.of_nat 1) with 1 in H2. rewrite Z.pow_1_r in H2. rewrite B_eq in *. lia.
Qed.
Print Assumptions C08_pow_exact.
Theorem C08_pow_u64_exact : forall a e, limbs a -> 0 <= e < 2 ^ 64 ->
  exists r, bu_pow_u64 a e = Ok r /\ canon r /\ val r = val a ^ e.
Proof. exact bu_pow_u64_spec. Qed.
Print Assumptions C08_pow_u64_exact.
Example C08_case : bu_pow [10] [30] = Ok [5076944270305263616; 54210108624].
Proof. vm_compute. reflexivity. Qed.

(** C09, full statement: every constructed value is canonical.  False for [from_u64(0)],
    which is unequal to ZERO although both denote 0. *)
Theorem C09_from_u64_refuted : exists n, 0 <= n < 2 ^ 64 /\ ~ canon (bu_from_u64 n) /\
  val (bu_from_u64 n) = val bu_zero /\ bu_cmp (bu_from_u64 n) bu_zero = Gt /\
  bu_is_zero (bu_from_u64 n) = false.
Proof.
  exists 0. split; [lia|]. split; [intros [_ H]; apply H; reflexivity|].
  vmc.
Qed.
Print Assumptions C09_from_u64_refuted.

(** Everything else: values built from [ZERO], [one], [from_u64] of a non-zero argument and
    all operations (when they return) are canonical, so [==] is numeric equality. *)
Theorem C09_built_canonical : forall a, bu_built a -> canon a.
Proof. exact bu_built_canon. Qed.
Print Assumptions C09_built_canonical.
Theorem C09_built_equality : forall a b, bu_built a -> bu_built b -> (a = b <-> val a = val b).
Proof. exact bu_built_eq. Qed.
Print Assumptions C09_built_equality.
Example C09_case : bu_built (bu_sub (bu_add [5] [2 ^ 64 - 3]) [2]).
Proof.
  apply built_sub; [apply built_add|].
  - apply (built_from 5); lia.
  - apply (built_from (2 ^ 64 - 3)); lia.
  - apply (built_from 2); lia.
Qed.
