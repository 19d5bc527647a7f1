(** JSON texts as sequences of characters, written from RFC 8259 without reference to tokens or
    to the code.  (What a text denotes is a [tree]; numbers are the nearest doubles.) *)
From Coq Require Import ZArith List Bool String.
From Verif Require Import BigIntModel BigFloatModel BigFloatSpec TokenizerSpec TextSpec ParserSpec.
Import ListNotations.
Open Scope Z_scope.

(** RFC 8259, section 2: white space. *)
Definition white (w : list Z) : Prop := Forall (fun c => c = 32 \/ c = 9 \/ c = 10 \/ c = 13) w.

(** The value of four hexadecimal digits. *)
Definition hex4 (l : list Z) (v : Z) : Prop :=
  exists a b c d va vb vc vd, l = [a; b; c; d] /\
    hex_value a = Some va /\ hex_value b = Some vb /\ hex_value c = Some vc /\ hex_value d = Some vd /\
    v = va * 4096 + vb * 256 + vc * 16 + vd.

(** Section 7: strings that denote a text (no lone surrogates). *)
Inductive rfc_string : list Z -> list Z -> Prop :=
| rs_nil : rfc_string [] []
| rs_raw c body s : scalar_value c -> 0x20 <= c -> c <> 34 -> c <> 92 -> rfc_string body s -> rfc_string (c :: body) (c :: s)
| rs_short x y body s : short_escape x = Some y -> rfc_string body s -> rfc_string (92 :: x :: body) (y :: s)
| rs_unicode h v body s : hex4 h v -> scalar_value v -> rfc_string body s -> rfc_string (92 :: 117 :: h ++ body) (v :: s)
| rs_pair h v l u body s : hex4 h v -> 0xD800 <= v <= 0xDBFF -> hex4 l u -> 0xDC00 <= u <= 0xDFFF -> rfc_string body s ->
    rfc_string (92 :: 117 :: h ++ 92 :: 117 :: l ++ body) (0x10000 + (v - 0xD800) * 0x400 + (u - 0xDC00) :: s).

(** Sections 3 to 6. *)
Inductive rfc_value : list Z -> tree -> Prop :=
| rv_null : rfc_value (txt "null") VNull
| rv_true : rfc_value (txt "true") (VBool true)
| rv_false : rfc_value (txt "false") (VBool false)
| rv_string body s : rfc_string body s -> rfc_value (34 :: body ++ [34]) (VString (units s))
| rv_number n bits : number_ok n -> f64_nearest bits (if nl_neg n then Negative else Positive) (dec_real (number_mantissa n) (number_exp10 n)) ->
    rfc_value (number_text n) (VNumber bits)
| rv_no_elements w : white w -> rfc_value (91 :: w ++ [93]) (VArray [])
| rv_array l ts : rfc_elements l ts -> rfc_value (91 :: l ++ [93]) (VArray ts)
| rv_no_members w : white w -> rfc_value (123 :: w ++ [125]) (VObject [])
| rv_object l kvs o : rfc_members l kvs -> is_object kvs o -> rfc_value (123 :: l ++ [125]) (VObject o)
with rfc_elements : list Z -> list tree -> Prop :=
| re_last w v w' t : white w -> rfc_value v t -> white w' -> rfc_elements (w ++ v ++ w') [t]
| re_cons w v w' t l ts : white w -> rfc_value v t -> white w' -> rfc_elements l ts -> rfc_elements (w ++ v ++ w' ++ 44 :: l) (t :: ts)
with rfc_members : list Z -> list (list Z * tree) -> Prop :=
| rm_last w body k w1 w2 v w3 t : white w -> rfc_string body k -> white w1 -> white w2 -> rfc_value v t -> white w3 ->
    rfc_members (w ++ (34 :: body ++ [34]) ++ w1 ++ 58 :: w2 ++ v ++ w3) [(k, t)]
| rm_cons w body k w1 w2 v w3 t l kvs : white w -> rfc_string body k -> white w1 -> white w2 -> rfc_value v t -> white w3 -> rfc_members l kvs ->
    rfc_members (w ++ (34 :: body ++ [34]) ++ w1 ++ 58 :: w2 ++ v ++ w3 ++ 44 :: l) ((k, t) :: kvs).

Definition rfc_text (text : list Z) (t : tree) : Prop :=
  exists w v w', white w /\ rfc_value v t /\ white w' /\ text = w ++ v ++ w'.

(** What the code does not read (see C33, C35 and C31): surrogates written as escapes, negative
    zeros, and (in [calm]) decimal exponents below -27. *)
Definition no_surrogate_escape (text : list Z) : Prop :=
  forall p h v q, text = p ++ 92 :: 117 :: h ++ q -> hex4 h v -> scalar_value v.
Definition no_negative_zero (text : list Z) : Prop :=
  forall p n q, text = p ++ number_text n ++ q -> number_ok n -> nl_neg n = true ->
    match q with [] => True | c :: _ => is_terminal c = true end -> number_mantissa n <> 0.

Scheme rfc_value_mind := Minimality for rfc_value Sort Prop
  with rfc_elements_mind := Minimality for rfc_elements Sort Prop
  with rfc_members_mind := Minimality for rfc_members Sort Prop.
Combined Scheme rfc_value_mutind from rfc_value_mind, rfc_elements_mind, rfc_members_mind.
