(** Specification vocabulary for decimal to binary conversion: real numbers of Coq's
    standard library, and the IEEE 754 binary64 format and rounding of Flocq. *)
From Coq Require Import ZArith Reals.
From Flocq Require Import Core.Core IEEE754.BinarySingleNaN IEEE754.Binary IEEE754.Bits.
From Verif Require Import BigIntModel.
Open Scope R_scope.

(** The real number s * 10^e. *)
Definition dec_real (s e : Z) : R := IZR s * powerRZ 10 e.

(** [x] lies at [s * 2^e] (no remainder) or strictly between it and [(s + 1) * 2^e]. *)
Definition brackets (x : R) (s e : Z) (r : bool) : Prop :=
  if r then IZR s * bpow radix2 e < x < (IZR s + 1) * bpow radix2 e
  else x = IZR s * bpow radix2 e.

(** Nearest binary64 value, ties to even, unbounded exponent above. *)
Definition rne64 (x : R) : R := round radix2 (FLT_exp (-1074) 53) ZnearestE x.

Definition neg_bit (s : sign) : bool := match s with Positive => false | Negative => true end.

(** [bits] is the binary64 encoding of [+x] or [-x] ([x >= 0]) rounded to nearest, ties to
    even, infinity on overflow, with the sign kept also for zero. *)
Definition f64_nearest (bits : Z) (s : sign) (x : R) : Prop :=
  (0 <= bits < 2 ^ 64)%Z /\
  (rne64 x < bpow radix2 1024 ->
     is_finite 53 1024 (b64_of_bits bits) = true /\
     B2R 53 1024 (b64_of_bits bits) = (if neg_bit s then - rne64 x else rne64 x) /\
     Bsign 53 1024 (b64_of_bits bits) = neg_bit s) /\
  (bpow radix2 1024 <= rne64 x -> b64_of_bits bits = B754_infinity 53 1024 (neg_bit s)).
