(** Text as sequences of Unicode scalar values, the order of texts and their UTF-16 form,
    written from the Unicode standard without reference to the model. *)
From Coq Require Import ZArith List.
Import ListNotations.
Open Scope Z_scope.

(** A Unicode scalar value: what a [char] can be. *)
Definition scalar_value (c : Z) : Prop := 0 <= c < 0xD800 \/ 0xE000 <= c <= 0x10FFFF.

(** The code units of one character and of a text. *)
Definition code_units (c : Z) : list Z :=
  if c <=? 0xFFFF then [c]
  else [0xD800 + (c - 0x10000) / 0x400; 0xDC00 + (c - 0x10000) mod 0x400].
Definition units (s : list Z) : list Z := flat_map code_units s.

(** [reads_as u s]: decoding the units [u] gives the text [s]. *)
Inductive reads_as : list Z -> list Z -> Prop :=
| ra_nil : reads_as [] []
| ra_one c u s : scalar_value c -> c <= 0xFFFF -> reads_as u s -> reads_as (c :: u) (c :: s)
| ra_pair h l u s :
    0xD800 <= h <= 0xDBFF -> 0xDC00 <= l <= 0xDFFF -> reads_as u s ->
    reads_as (h :: l :: u) (0x10000 + (h - 0xD800) * 0x400 + (l - 0xDC00) :: s).

(** The order of texts by their first difference. *)
Inductive text_before : list Z -> list Z -> Prop :=
| tb_end x s : text_before [] (x :: s)
| tb_here x y s t : x < y -> text_before (x :: s) (y :: t)
| tb_later x s t : text_before s t -> text_before (x :: s) (x :: t).
