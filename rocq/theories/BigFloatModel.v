(** Model of nanvm-lib/src/big_numbers/big_float.rs.  [BigFloat<10, M>] and [BigFloat<2, M>]
    are the same record; the base is a compile-time tag.  Simplified: [exp] is an [i64] in
    the source and an unbounded integer here.  The manager only allocates (see the memory
    files).  Every [loop] takes fuel; a fuel of 0 is [NoFuel]. *)
From Coq Require Import ZArith List Bool.
From Verif Require Import Outcome LimbsModel BigIntModel JsBigintModel.
Import ListNotations.
Open Scope Z_scope.

(** big_float.rs:11-18 *)
Record bigfloat := { bf_sig : jsbigint; bf_sign : sign; bf_exp : Z; bf_rem : bool }.

(** big_float.rs:20-28 *)
Definition float_zero : bigfloat :=
  {| bf_sig := jb_zero; bf_sign := Positive; bf_exp := 0; bf_rem := false |}.

(** [shl(manager, from_u64(Positive, 1), from_u64(Positive, precision))] *)
Definition one_shl (precision : Z) : outcome jsbigint :=
  jb_shl (jb_from_u64 Positive 1) (jb_from_u64 Positive precision).

(** The loop of big_float.rs:49-56 *)
Fixpoint increase_loop (fuel : nat) (m s : jsbigint) (e : Z) : outcome (jsbigint * Z) :=
  match fuel with
  | O => NoFuel
  | S fuel' =>
      match jb_compare s m with
      | Gt | Eq => Ok (s, e)
      | Lt => let! s' := jb_shl_on_u64 s 1 in increase_loop fuel' m s' (e - 1)
      end
  end.

(** big_float.rs:44-57 *)
Definition increase_significand_to (fuel : nat) (f : bigfloat) (m : jsbigint) : outcome bigfloat :=
  if jb_is_zero (bf_sig f) then Ok f else
  let! (s, e) := increase_loop fuel m (bf_sig f) (bf_exp f) in
  Ok {| bf_sig := s; bf_sign := bf_sign f; bf_exp := e; bf_rem := bf_rem f |}.

(** big_float.rs:31-42 *)
Definition increase_significand (fuel : nat) (f : bigfloat) (precision : Z) : outcome bigfloat :=
  if jb_is_zero (bf_sig f) then Ok f else
  let! m := one_shl precision in increase_significand_to fuel f m.

(** The loop of big_float.rs:69-79 *)
Fixpoint decrease_loop (fuel : nat) (m s : jsbigint) (e : Z) (r : bool)
  : outcome (jsbigint * Z * bool) :=
  match fuel with
  | O => NoFuel
  | S fuel' =>
      match jb_compare s m with
      | Lt => Ok (s, e, r)
      | _ => decrease_loop fuel' m (jb_shr_on_u64 s 1) (e + 1)
               (if jb_get_last_bit s =? 1 then true else r)
      end
  end.

(** big_float.rs:59-80 *)
Definition decrease_significand (fuel : nat) (f : bigfloat) (precision : Z) : outcome bigfloat :=
  if jb_is_zero (bf_sig f) then Ok f else
  let! m := one_shl precision in
  let! (s, e, r) := decrease_loop fuel m (bf_sig f) (bf_exp f) (bf_rem f) in
  Ok {| bf_sig := s; bf_sign := bf_sign f; bf_exp := e; bf_rem := r |}.

(** big_float.rs:84-149; [precision] is a [u8]. *)
Definition to_bin (fuel : nat) (f : bigfloat) (precision : Z) : outcome bigfloat :=
  if jb_is_zero (bf_sig f) then Ok float_zero else
  if bf_exp f =? 0 then
    let! f1 := increase_significand fuel f precision in
    decrease_significand fuel f1 precision
  else
  let five := jb_from_u64 Positive 5 in
  if 0 <? bf_exp f then
    let! p := jb_pow_u64 five (bf_exp f) in
    let! s := jb_mul (bf_sig f) p in
    let! f1 := increase_significand fuel
                 {| bf_sig := s; bf_sign := bf_sign f; bf_exp := bf_exp f; bf_rem := bf_rem f |}
                 precision in
    decrease_significand fuel f1 precision
  else
    let! p := jb_pow_u64 five (- bf_exp f) in
    let! m := one_shl precision in
    let! pm := jb_mul p m in
    let! f1 := increase_significand_to fuel f pm in
    let! (q, r) := jb_div_mod fuel (bf_sig f1) p in
    decrease_significand fuel
      {| bf_sig := q; bf_sign := bf_sign f; bf_exp := bf_exp f1;
         bf_rem := bf_rem f || negb (jb_is_zero r) |} precision.

(** big_float.rs:153-166; [items()[0]] panics on the empty slice; the [u64] addition cannot
    overflow because of the shift. *)
Definition get_frac_round (f : bigfloat) : outcome Z :=
  match jb_items (bf_sig f) with
  | [] => Panic
  | d :: _ =>
      let last_bit := jb_get_last_bit (bf_sig f) in
      let frac := Z.shiftr d 1 in
      let last_bit := if (last_bit =? 1) && negb (bf_rem f) then Z.land frac 1 else last_bit in
      Ok (if last_bit =? 1 then frac + 1 else frac)
  end.

(** big_float.rs:172-228.  [as u64] and [<<] on u64 wrap modulo 2^64. *)
Definition get_f64_bits (fuel : nat) (f : bigfloat) : outcome Z :=
  let bits := match bf_sign f with Negative => Z.shiftl 1 63 | Positive => 0 end in
  if jb_is_zero (bf_sig f) then Ok bits else
  let! v := increase_significand fuel f 53 in
  let! v := decrease_significand fuel v 54 in
  let f64_exp := bf_exp v + 53 in
  if (-1022 <=? f64_exp) && (f64_exp <=? 1023) then
    let! frac := get_frac_round v in
    let '(frac, f64_exp) :=
      if frac =? Z.shiftl 1 53 then (Z.shiftr frac 1, f64_exp + 1) else (frac, f64_exp) in
    let exp_bits := (f64_exp + 1023) mod B in
    Ok (Z.lor (Z.lor bits (Z.shiftl exp_bits 52 mod B)) (Z.land frac (Z.shiftl 1 52 - 1)))
  else if (-1074 <=? f64_exp) && (f64_exp <=? -1023) then
    let! v := decrease_significand fuel v ((f64_exp + 1076) mod B) in
    let! frac := get_frac_round v in
    Ok (Z.lor bits frac)
  else if 1023 <? f64_exp then Ok (Z.lor bits (Z.shiftl 2047 52))
  else Ok bits.

(** big_float.rs:168-170; an [f64] is its bit pattern. *)
Definition to_f64 (fuel : nat) (f : bigfloat) : outcome Z := get_f64_bits fuel f.
