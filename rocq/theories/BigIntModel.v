(** Model of nanvm-lib/src/big_numbers/big_int.rs. *)
From Coq Require Import ZArith List Bool.
From Verif Require Import Outcome LimbsModel BigUintModel.
Import ListNotations.
Open Scope Z_scope.

(** big_int.rs:16-20 and js_bigint.rs:18-22 *)
Inductive sign := Positive | Negative.

(** [==] on [Sign] (derived [PartialEq]) *)
Definition sign_eqb (s t : sign) : bool :=
  match s, t with
  | Positive, Positive | Negative, Negative => true
  | _, _ => false
  end.

(** [sign as i8] / [sign as i64] / [sign as isize] *)
Definition sign_int (s : sign) : Z := match s with Positive => 1 | Negative => -1 end.

(** big_int.rs:10-14 *)
Record bigint := { bi_sign : sign; bi_value : biguint }.

(** big_int.rs:29-32 *)
Definition bi_zero : bigint := {| bi_sign := Positive; bi_value := bu_zero |}.

(** big_int.rs:34-39 *)
Definition bi_normalize (a : bigint) : bigint :=
  let v := normalize_vec (bi_value a) in
  {| bi_sign := if bu_is_zero v then Positive else bi_sign a; bi_value := v |}.

(** big_int.rs:41-43 *)
Definition bi_is_zero (a : bigint) : bool := bu_is_zero (bi_value a).

(** big_int.rs:49-54 *)
Definition bi_from_u64 (n : Z) : bigint := {| bi_sign := Positive; bi_value := [n] |}.

(** big_int.rs:56-64 *)
Definition bi_abs (a : bigint) : bigint :=
  match bi_sign a with
  | Positive => a
  | Negative => {| bi_sign := Positive; bi_value := bi_value a |}
  end.

(** big_int.rs:66-78; [n * sign as i64] overflows for i64::MIN (panic in a debug build). *)
Definition bi_from_i64 (n : Z) : outcome bigint :=
  let s := if n <? 0 then Negative else Positive in
  let p := n * sign_int s in
  if 2 ^ 63 <=? p then Panic
  else Ok {| bi_sign := s; bi_value := [p mod B] |}.

(** big_int.rs:85-88 and 197-200 *)
Definition mul_sign (s t : sign) : sign := if sign_eqb s t then Positive else Negative.

(** big_int.rs:80-92 *)
Definition bi_div_mod (fuel : nat) (a d : bigint) : outcome (bigint * bigint) :=
  if bi_is_zero d then Panic else
  let s := mul_sign (bi_sign a) (bi_sign d) in
  let! (q, r) := bu_div_mod fuel (bi_value a) (bi_value d) in
  Ok ({| bi_sign := s; bi_value := q |}, {| bi_sign := s; bi_value := r |}).

(** big_int.rs:95-117 *)
Definition bi_add (a b : bigint) : bigint :=
  if sign_eqb (bi_sign a) (bi_sign b)
  then {| bi_sign := bi_sign a; bi_value := bu_add (bi_value a) (bi_value b) |}
  else match bu_cmp (bi_value a) (bi_value b) with
       | Eq => bi_zero
       | Gt => {| bi_sign := bi_sign a; bi_value := bu_sub (bi_value a) (bi_value b) |}
       | Lt => {| bi_sign := bi_sign b; bi_value := bu_sub (bi_value b) (bi_value a) |}
       end.

(** big_int.rs:127-141 *)
Definition bi_neg (a : bigint) : bigint :=
  if bu_is_zero (bi_value a) then a
  else {| bi_sign := match bi_sign a with Positive => Negative | Negative => Positive end;
          bi_value := bi_value a |}.

(** big_int.rs:119-125 *)
Definition bi_sub (a b : bigint) : bigint := bi_add a (bi_neg b).

(** big_int.rs:149-153 and 161-169 *)
Definition bi_cmp (a b : bigint) : comparison :=
  if sign_eqb (bi_sign a) (bi_sign b) then bu_cmp (bi_value a) (bi_value b)
  else (sign_int (bi_sign a) ?= sign_int (bi_sign b)).

(** big_int.rs:171-187 *)
Definition bi_mul (a b : bigint) : outcome bigint :=
  if bi_is_zero a || bi_is_zero b then Ok bi_zero else
  let! v := bu_mul (bi_value a) (bi_value b) in
  Ok (bi_normalize {| bi_sign := mul_sign (bi_sign a) (bi_sign b); bi_value := v |}).

(** big_int.rs:189-205 *)
Definition bi_div (fuel : nat) (a d : bigint) : outcome bigint :=
  if bi_is_zero d then Panic else
  let! v := bu_div fuel (bi_value a) (bi_value d) in
  Ok {| bi_sign := mul_sign (bi_sign a) (bi_sign d); bi_value := v |}.
