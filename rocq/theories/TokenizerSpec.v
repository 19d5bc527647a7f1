(** Specification vocabulary for the tokenizer: character classes, spellings of string and
    number literals, comments.  Nothing here refers to the transition tables. *)
From Coq Require Import ZArith List Bool Ascii String.
From Verif Require Import RangeMapSpec.
Import ListNotations.
Open Scope Z_scope.

(** Code points of an ASCII text, for the examples. *)
Fixpoint txt (s : string) : list Z :=
  match s with
  | EmptyString => []
  | String a s' => Z.of_N (N_of_ascii a) :: txt s'
  end.

Definition is_digit (c : Z) : bool := (48 <=? c) && (c <=? 57).
Definition is_letter (c : Z) : bool := (97 <=? c) && (c <=? 122) || (65 <=? c) && (c <=? 90).
(** ASCII identifiers: letters, underscore, dollar; then also digits. *)
Definition ident_start (c : Z) : bool := is_letter c || (c =? 95) || (c =? 36).
Definition ident_part (c : Z) : bool := ident_start c || is_digit c.
(** Space, tab, carriage return. *)
Definition is_blank (c : Z) : bool := (c =? 32) || (c =? 9) || (c =? 13).
Definition is_space (c : Z) : bool := is_blank c || (c =? 10).
(** [{ } [ ] : , = ; ( )] *)
Definition is_punct (c : Z) : bool :=
  (c =? 123) || (c =? 125) || (c =? 91) || (c =? 93) || (c =? 58) || (c =? 44) || (c =? 61) ||
  (c =? 59) || (c =? 40) || (c =? 41).
(** Characters that may follow a number: white space, punctuation, a string, a comment. *)
Definition is_terminal (c : Z) : bool := is_space c || is_punct c || (c =? 34) || (c =? 47).

(** Value of a hexadecimal digit. *)
Definition hex_value (c : Z) : option Z :=
  if is_digit c then Some (c - 48) else
  if (97 <=? c) && (c <=? 102) then Some (c - 87) else
  if (65 <=? c) && (c <=? 70) then Some (c - 55) else None.

(** JSON short escapes. *)
Definition short_escape (c : Z) : option Z :=
  if c =? 34 then Some 34 else if c =? 92 then Some 92 else if c =? 47 then Some 47 else
  if c =? 98 then Some 8 else if c =? 102 then Some 12 else if c =? 110 then Some 10 else
  if c =? 114 then Some 13 else if c =? 116 then Some 9 else None.

(** [spells body s]: the text [body] between the quotes denotes the characters [s]. *)
Inductive spells : list Z -> list Z -> Prop :=
| sp_nil : spells [] []
| sp_raw c body s : 0 <= c -> c <> 34 -> c <> 92 -> spells body s -> spells (c :: body) (c :: s)
| sp_short x y body s : short_escape x = Some y -> spells body s -> spells (92 :: x :: body) (y :: s)
| sp_unicode a b c d va vb vc vd body s :
    hex_value a = Some va -> hex_value b = Some vb -> hex_value c = Some vc -> hex_value d = Some vd ->
    scalar (va * 4096 + vb * 256 + vc * 16 + vd) -> spells body s ->
    spells (92 :: 117 :: a :: b :: c :: d :: body) (va * 4096 + vb * 256 + vc * 16 + vd :: s).

(** Number denoted by a list of decimal digits. *)
Definition dec_value (l : list Z) : Z := fold_left (fun a c => a * 10 + (c - 48)) l 0.

Definition all_digits (l : list Z) : Prop := Forall (fun c => is_digit c = true) l.

(** Integer part: 0, or digits not starting with 0. *)
Definition int_part (l : list Z) : Prop :=
  all_digits l /\ (l = [48] \/ exists c l', l = c :: l' /\ c <> 48).

(** A decimal number literal: optional minus, integer part, optional fraction, optional
    exponent ([e] or [E], optional sign, digits). *)
Record number_lit := {
  nl_neg : bool; nl_int : list Z; nl_frac : list Z;   (* [] : no fraction *)
  nl_exp : option (Z * list Z * list Z) }.            (* letter, sign text, digits *)

Definition number_ok (n : number_lit) : Prop :=
  int_part (nl_int n) /\ all_digits (nl_frac n) /\
  match nl_exp n with
  | None => True
  | Some (l, sg, ds) => (l = 101 \/ l = 69) /\ (sg = [] \/ sg = [43] \/ sg = [45]) /\ ds <> [] /\ all_digits ds
  end.

Definition number_text (n : number_lit) : list Z :=
  (if nl_neg n then [45] else []) ++ nl_int n ++
  (match nl_frac n with [] => [] | f => 46 :: f end) ++
  (match nl_exp n with None => [] | Some (l, sg, ds) => l :: sg ++ ds end).

(** The literal denotes [number_mantissa * 10 ^ number_exp10]. *)
Definition number_mantissa (n : number_lit) : Z := dec_value (nl_int n ++ nl_frac n).
Definition exp_value (n : number_lit) : Z :=
  match nl_exp n with
  | None => 0
  | Some (_, sg, ds) => match sg with [45] => - dec_value ds | _ => dec_value ds end
  end.
Definition number_exp10 (n : number_lit) : Z := exp_value n - Z.of_nat (List.length (nl_frac n)).

(** A block comment body (the text between [/*] and the first [*/]). *)
Definition comment_body (body : list Z) : Prop :=
  Forall (fun c => 0 <= c) body /\ ~ exists p q, body ++ [42] = p ++ [42; 47] ++ q.

(** Texts in which everything that looks like a number has a decimal exponent (that of the
    exponent part minus the number of digits of the fraction) from -27 up, and an exponent part
    below 2^63 in magnitude; the length of the text is one of a Rust string.  (Strings, comments
    and identifiers are not told apart, so this only restricts more.) *)
Definition fraction (frac : list Z) (n : Z) : Prop :=
  (frac = [] /\ n = 0) \/ exists fs, frac = 46 :: fs /\ all_digits fs /\ n = Z.of_nat (List.length fs).
Definition exponent_part (ex : list Z) (v : Z) : Prop :=
  (ex = [] /\ v = 0) \/ exists x sg ds, ex = x :: sg ++ ds /\ (x = 101 \/ x = 69) /\ all_digits ds /\
    ((sg = [] \/ sg = [43]) /\ v = dec_value ds \/ sg = [45] /\ v = - dec_value ds).
(** The text goes on with [q], which is not a continuation of the number. *)
Definition longest (ex q : list Z) : Prop :=
  match q with
  | [] => True
  | c :: _ => is_digit c = false /\ (ex = [] -> c <> 101 /\ c <> 69) /\ (List.length ex = 1%nat -> c <> 43 /\ c <> 45)
  end.
Definition calm (text : list Z) : Prop :=
  Z.of_nat (List.length text) < 2 ^ 63 /\
  forall p d frac n ex v q, text = p ++ (d :: frac ++ ex) ++ q -> is_digit d = true -> fraction frac n -> exponent_part ex v ->
    longest ex q -> -27 <= v - n /\ - 2 ^ 63 < v < 2 ^ 63.
