(** The lexical grammar read from left to right: which texts are made of tokens, and of which. *)
From Coq Require Import ZArith List Bool.
From Verif Require Import BigIntModel JsBigintModel BigSpec BigFloatSpec TokenizerModel TokenizerSpec TokenizerNum TokenizerGrammar.
Import ListNotations.
Open Scope Z_scope.

(** [q] is empty or starts with a character outside [f] (in [f]). *)
Definition stops (f : Z -> bool) (q : list Z) : Prop := match q with [] => True | c :: _ => f c = false end.
Definition goes (f : Z -> bool) (q : list Z) : Prop := match q with [] => True | c :: _ => f c = true end.

(** The bits of a number: zero without its sign (see C35); the nearest double where the
    conversion is right (see C27); unspecified for other decimal exponents. *)
Definition number_bits (n : number_lit) (bits : Z) : Prop :=
  (number_mantissa n = 0 -> bits = 0) /\
  (0 < number_mantissa n -> -27 <= number_exp10 n -> f64_nearest bits (signed (nl_neg n)) (dec_real (number_mantissa n) (number_exp10 n))).

(** [word w t q]: [w], followed by [q], is the token [t]. *)
Inductive word : list Z -> token -> list Z -> Prop :=
| w_string body s q : spells body s -> word (34 :: body ++ [34]) (TString s) q
| w_ident c w q : ident_start c = true -> Forall (fun c => ident_part c = true) w -> stops ident_part q -> word (c :: w) (TId (c :: w)) q
| w_punct c t q : punctuator c = Some t -> word [c] t q
| w_bigint (neg : bool) l b q : int_part l -> jwf b -> jval b = (if neg then - dec_value l else dec_value l) -> goes is_terminal q ->
    word ((if neg then [45] else []) ++ l ++ [110]) (TBigInt b) q
| w_number n bits q : number_ok n -> number_bits n bits -> goes is_terminal q -> word (number_text n) (TNumber bits) q
(** an exponent without digits is read as 0, but not at the end of the text (see C36) *)
| w_no_exponent n l sg bits q : number_ok n -> nl_exp n = None -> l = 101 \/ l = 69 -> sg = [] \/ sg = [43] \/ sg = [45] ->
    number_bits n bits -> q <> [] -> goes is_terminal q -> word (number_text n ++ l :: sg) (TNumber bits) q.

(** [lexed text toks]: words, gaps and line breaks; a line break is a token unless the text ends
    with it. *)
Inductive lexed : list Z -> list token -> Prop :=
| lx_end : lexed [] []
| lx_word w t q ts : word w t q -> lexed q ts -> lexed (w ++ q) (t :: ts)
| lx_blank c q ts : is_blank c = true -> lexed q ts -> lexed (c :: q) ts
| lx_comment body q ts : comment_body body -> lexed q ts -> lexed (([47; 42] ++ body ++ [42; 47]) ++ q) ts
| lx_line w q ts : line_break w -> q <> [] -> stops is_space q -> lexed q ts -> lexed (w ++ q) (TNewLine :: ts)
| lx_last_line w : line_break w -> lexed w []
| lx_last_comment body : Forall (fun c => 0 <= c /\ c <> 10 /\ c <> 13) body -> lexed ([47; 47] ++ body) [].
