(** Model of nanvm-lib/src/big_numbers/big_float.rs with the exponent as the [i64] it is: every
    operation on [exp] is checked, as in a debug build (overflow panics).  The functions are
    those of BigFloatModel, where [exp] is an unbounded integer, with [i64] around each
    operation on the exponent; nothing else differs. *)
From Coq Require Import ZArith List Bool.
From Verif Require Import Outcome LimbsModel BigIntModel JsBigintModel BigFloatModel TokenizerModel.
Import ListNotations.
Open Scope Z_scope.

(** The loop of big_float.rs:49-56; [self.exp -= 1] on line 55 *)
Fixpoint increase_loop_c (fuel : nat) (m s : jsbigint) (e : Z) : outcome (jsbigint * Z) :=
  match fuel with
  | O => NoFuel
  | S fuel' =>
      match jb_compare s m with
      | Gt | Eq => Ok (s, e)
      | Lt => let! s' := jb_shl_on_u64 s 1 in
              let! e' := i64 (e - 1) in increase_loop_c fuel' m s' e'
      end
  end.

(** big_float.rs:44-57 *)
Definition increase_significand_to_c (fuel : nat) (f : bigfloat) (m : jsbigint) : outcome bigfloat :=
  if jb_is_zero (bf_sig f) then Ok f else
  let! (s, e) := increase_loop_c fuel m (bf_sig f) (bf_exp f) in
  Ok {| bf_sig := s; bf_sign := bf_sign f; bf_exp := e; bf_rem := bf_rem f |}.

(** big_float.rs:31-42 *)
Definition increase_significand_c (fuel : nat) (f : bigfloat) (precision : Z) : outcome bigfloat :=
  if jb_is_zero (bf_sig f) then Ok f else
  let! m := one_shl precision in increase_significand_to_c fuel f m.

(** The loop of big_float.rs:69-79; [self.exp += 1] on line 78 *)
Fixpoint decrease_loop_c (fuel : nat) (m s : jsbigint) (e : Z) (r : bool)
  : outcome (jsbigint * Z * bool) :=
  match fuel with
  | O => NoFuel
  | S fuel' =>
      match jb_compare s m with
      | Lt => Ok (s, e, r)
      | _ => let! e' := i64 (e + 1) in
             decrease_loop_c fuel' m (jb_shr_on_u64 s 1) e'
               (if jb_get_last_bit s =? 1 then true else r)
      end
  end.

(** big_float.rs:59-80 *)
Definition decrease_significand_c (fuel : nat) (f : bigfloat) (precision : Z) : outcome bigfloat :=
  if jb_is_zero (bf_sig f) then Ok f else
  let! m := one_shl precision in
  let! (s, e, r) := decrease_loop_c fuel m (bf_sig f) (bf_exp f) (bf_rem f) in
  Ok {| bf_sig := s; bf_sign := bf_sign f; bf_exp := e; bf_rem := r |}.

(** big_float.rs:84-149; [-self.exp as u64] on line 121 is a negation of an [i64], then a cast. *)
Definition to_bin_c (fuel : nat) (f : bigfloat) (precision : Z) : outcome bigfloat :=
  if jb_is_zero (bf_sig f) then Ok float_zero else
  if bf_exp f =? 0 then
    let! f1 := increase_significand_c fuel f precision in
    decrease_significand_c fuel f1 precision
  else
  let five := jb_from_u64 Positive 5 in
  if 0 <? bf_exp f then
    let! p := jb_pow_u64 five (bf_exp f) in
    let! s := jb_mul (bf_sig f) p in
    let! f1 := increase_significand_c fuel
                 {| bf_sig := s; bf_sign := bf_sign f; bf_exp := bf_exp f; bf_rem := bf_rem f |}
                 precision in
    decrease_significand_c fuel f1 precision
  else
    let! n := i64 (- bf_exp f) in
    let! p := jb_pow_u64 five n in
    let! m := one_shl precision in
    let! pm := jb_mul p m in
    let! f1 := increase_significand_to_c fuel f pm in
    let! (q, r) := jb_div_mod fuel (bf_sig f1) p in
    decrease_significand_c fuel
      {| bf_sig := q; bf_sign := bf_sign f; bf_exp := bf_exp f1;
         bf_rem := bf_rem f || negb (jb_is_zero r) |} precision.

(** big_float.rs:168-228; [value.exp + PRECISION as i64 + 1] on line 196 is two additions.  In the
    branches the sums stay near 2^11. *)
Definition to_f64_c (fuel : nat) (f : bigfloat) : outcome Z :=
  let bits := match bf_sign f with Negative => Z.shiftl 1 63 | Positive => 0 end in
  if jb_is_zero (bf_sig f) then Ok bits else
  let! v := increase_significand_c fuel f 53 in
  let! v := decrease_significand_c fuel v 54 in
  let! e52 := i64 (bf_exp v + 52) in
  let! f64_exp := i64 (e52 + 1) in
  if (-1022 <=? f64_exp) && (f64_exp <=? 1023) then
    let! frac := get_frac_round v in
    let '(frac, f64_exp) :=
      if frac =? Z.shiftl 1 53 then (Z.shiftr frac 1, f64_exp + 1) else (frac, f64_exp) in
    let exp_bits := (f64_exp + 1023) mod B in
    Ok (Z.lor (Z.lor bits (Z.shiftl exp_bits 52 mod B)) (Z.land frac (Z.shiftl 1 52 - 1)))
  else if (-1074 <=? f64_exp) && (f64_exp <=? -1023) then
    let! v := decrease_significand_c fuel v ((f64_exp + 1076) mod B) in
    let! frac := get_frac_round v in
    Ok (Z.lor bits frac)
  else if 1023 <? f64_exp then Ok (Z.lor bits (Z.shiftl 2047 52))
  else Ok bits.

(** tokenizer/mod.rs:210-213 *)
Definition bigfloat_to_f64_c (fuel : nat) (f : bigfloat) : outcome Z :=
  let! g := to_bin_c fuel f 54 in to_f64_c fuel g.

(** tokenizer/mod.rs:326-342 *)
Definition exp_state_into_token_c (fuel : nat) (b : jsbigint) (s : sign) (fe : Z) (es : sign) (e : Z)
  : outcome token :=
  let! exp := i64 (fe + match es with Positive => e | Negative => - e end) in
  let! bits := bigfloat_to_f64_c fuel {| bf_sig := b; bf_sign := s; bf_exp := exp; bf_rem := false |} in
  Ok (TNumber bits).
