(** Lexical grammar: which texts are sequences of lexemes, and with which tokens.  The
    definitions do not refer to the transition tables; the lemmas show that the tokenizer
    follows them. *)
From Coq Require Import ZArith Reals List Bool Lia.
From Coq Require Import ZifyBool ZifyNat.
From Flocq Require Import Core.Core IEEE754.BinarySingleNaN IEEE754.Binary IEEE754.Bits.
From Verif Require Import Outcome LimbsModel LimbsSpec BigIntModel JsBigintModel BigFloatModel BigSpec
  LimbsProofs ShiftProofs JsBigintProofs BigFloatSpec RangeMapModel RangeMapSpec Prop_BigFloat TokenizerModel TokenizerSpec
  TokenizerProofs TokenizerRun TokenizerLex TokenizerNum TokenizerTotal.
Import ListNotations.
Open Scope Z_scope.

Definition any (_ : Z) : bool := true.

(** Tokens of the punctuation characters. *)
Definition punctuator (c : Z) : option token :=
  match c with
  | 123 => Some TObjectBegin | 125 => Some TObjectEnd | 91 => Some TArrayBegin | 93 => Some TArrayEnd
  | 58 => Some TColon | 44 => Some TComma | 61 => Some TEquals | 46 => Some TDot | 59 => Some TSemicolon
  | 40 => Some TOpenPar | 41 => Some TClosePar | _ => None
  end.

(** [lexeme w t f]: the text [w], delimited by the end of the text or a character in [f],
    is the token [t].  Numbers: exponents where the conversion returns (see C27), and not
    negative zero (see C35). *)
Inductive lexeme : list Z -> token -> (Z -> bool) -> Prop :=
| lex_string body s : spells body s -> lexeme (34 :: body ++ [34]) (TString s) any
| lex_ident c w : ident_start c = true -> Forall (fun c => ident_part c = true) w ->
    lexeme (c :: w) (TId (c :: w)) (fun x => negb (ident_part x))
| lex_punct c t : punctuator c = Some t -> lexeme [c] t any
| lex_bigint (neg : bool) l b : int_part l -> jwf b -> jval b = (if neg then - dec_value l else dec_value l) ->
    lexeme ((if neg then [45] else []) ++ l ++ [110]) (TBigInt b) is_terminal
| lex_zero n : number_ok n -> number_mantissa n = 0 -> nl_neg n = false ->
    Z.of_nat (length (nl_frac n)) <= 2 ^ 63 -> - 2 ^ 63 < exp_value n < 2 ^ 63 -> - 2 ^ 63 <= number_exp10 n ->
    lexeme (number_text n) (TNumber 0) is_terminal
| lex_number n bits : number_ok n -> 0 < number_mantissa n -> -27 <= number_exp10 n ->
    Z.of_nat (length (nl_frac n)) <= 2 ^ 63 -> exp_value n < 2 ^ 63 ->
    f64_nearest bits (signed (nl_neg n)) (dec_real (number_mantissa n) (number_exp10 n)) ->
    lexeme (number_text n) (TNumber bits) is_terminal.

(** Blanks, or a block comment. *)
Inductive gap : list Z -> Prop :=
| gap_blank c g : is_blank c = true -> Forall (fun c => is_blank c = true) g -> gap (c :: g)
| gap_comment body : comment_body body -> gap ([47; 42] ++ body ++ [42; 47]).

(** A line break, alone or ending a line comment, with the white space after it. *)
Inductive line_break : list Z -> Prop :=
| lb_newline w : Forall (fun c => is_space c = true) w -> line_break (10 :: w)
| lb_comment body e w : Forall (fun c => 0 <= c /\ c <> 10 /\ c <> 13) body -> e = 10 \/ e = 13 ->
    Forall (fun c => is_space c = true) w -> line_break ([47; 47] ++ body ++ e :: w).

(** The next character, if any, is in [f]. *)
Definition next_ok (f : Z -> bool) (q : list Z) : Prop :=
  match q with [] => True | c :: _ => 0 <= c /\ f c = true end.

(** [lexseq a toks nl f]: [a] is a sequence of lexemes, gaps and line breaks with tokens
    [toks]; [nl]: it ends with a line break, which becomes a token only if more text
    follows; the next character must be in [f]. *)
Inductive lexseq : list Z -> list token -> bool -> (Z -> bool) -> Prop :=
| ls_nil : lexseq [] [] false any
| ls_lexeme a ta nl f w t g : lexseq a ta nl f -> lexeme w t g -> next_ok f w ->
    lexseq (a ++ w) (ta ++ (if nl then [TNewLine] else []) ++ [t]) false g
| ls_gap a ta nl f w : lexseq a ta nl f -> gap w -> next_ok f w ->
    lexseq (a ++ w) (ta ++ (if nl then [TNewLine] else [])) false any
| ls_line a ta nl f w : lexseq a ta nl f -> line_break w -> next_ok f w ->
    lexseq (a ++ w) (ta ++ (if nl then [TNewLine] else [])) true (fun c => negb (is_space c)).

(** * Uniqueness of correct rounding *)
Lemma f64_nearest_unique b1 b2 s x : f64_nearest b1 s x -> f64_nearest b2 s x -> b1 = b2.
Proof.
  intros [R1 [F1 I1]] [R2 [F2 I2]].
  assert (E : b64_of_bits b1 = b64_of_bits b2).
  { destruct (Rlt_le_dec (rne64 x) (bpow radix2 1024)) as [H|H].
    - destruct (F1 H) as [A1 [V1 S1]]. destruct (F2 H) as [A2 [V2 S2]].
      apply B2R_Bsign_inj; auto; congruence.
    - rewrite (I1 H), (I2 H). reflexivity. }
  apply (f_equal bits_of_b64) in E. unfold bits_of_b64, b64_of_bits in E.
  rewrite !bits_of_binary_float_of_bits in E by (cbn; lia). exact E.
Qed.

(** * The tokenizer follows the grammar *)
Lemma reads_lexeme w t f : lexeme w t f -> exists f0, forall fuel, (f0 <= fuel)%nat -> reads fuel w [t] f.
Proof.
  destruct 1 as [body s H|c w Hc Hw|c t Hc|neg l b Hl Hb Vb|n Hn Hm Hs L1 L2 L3|n bits Hn Hm He L1 L2 Hf].
  - exists O. intros. apply reads_string, H.
  - exists O. intros. apply reads_ident; auto.
  - exists O. intros fuel _.
    assert (P : 0 <= c /\ is_op c = true /\ operator_to_token [c] = Some t).
    { unfold punctuator in Hc. destruct c as [|c|c]; try discriminate.
      repeat (destruct c as [c|c|]; try discriminate); inversion Hc; subst; (split; [lia|split; reflexivity]). }
    destruct P as [P1 [P2 P3]]. apply reads_operator; auto.
  - exists O. intros fuel _. destruct (reads_bigint fuel neg l Hl) as [b' [Hb' [Vb' R]]].
    replace b with b'; [exact R|]. apply jwf_inj; auto. congruence.
  - destruct (reads_number n Hn L1 L2 L3) as [b [Hb [Vb R]]]. exists O. intros fuel _. apply R.
    apply number_token_zero; [exact Hb|congruence].
  - destruct (reads_number n Hn L1) as [b [Hb [Vb R]]]; [|unfold number_exp10 in *; lia|].
    { unfold number_exp10 in *. lia. }
    destruct (C27_decimal_partial {| bf_sig := b; bf_sign := signed (nl_neg n); bf_exp := number_exp10 n; bf_rem := false |})
      as [bits' [f0 [H1 H2]]]; cbn [bf_sig bf_exp bf_rem bf_sign] in *; auto; [lia| |].
    { unfold number_exp10 in *. lia. }
    rewrite Vb in H2. exists f0. intros fuel Hfu. apply R. unfold number_token, bigfloat_to_f64.
    rewrite H1 by exact Hfu. cbn [obind]. rewrite (f64_nearest_unique _ _ _ _ Hf H2). reflexivity.
Qed.

Lemma reads_gap fuel g : gap g -> reads fuel g [] any.
Proof. destruct 1 as [c g Hc Hg|body H]; [apply reads_blanks; auto|apply reads_block, H]. Qed.

Lemma tokenize_line fuel w q : line_break w -> next_ok (fun c => negb (is_space c)) q ->
  tokenize fuel (w ++ q) = prepend_list (match q with [] => [] | _ => [TNewLine] end) (tokenize fuel q).
Proof.
  intros Hw Hq.
  assert (Hq' : match q with [] => True | c :: _ => 0 <= c /\ is_space c = false end).
  { destruct q as [|c q]; [exact I|]. destruct Hq as [Pc Hc]. destruct (is_space c); [discriminate|auto]. }
  destruct Hw as [w Hw|body e w Hb He Hw]; [apply tokenize_newline; auto|].
  rewrite tokenize_run. rewrite <- app_assoc.
  rewrite (run_app_ok _ _ _ _ _ _ (run_comment_start fuel 47 ltac:(auto))), prepend_nil.
  rewrite <- app_assoc. change (47 =? 47) with true. cbv iota.
  rewrite (run_app_ok _ _ _ _ _ _ (run_line_comment fuel body Hb)), prepend_nil. cbn [app].
  assert (E : step fuel ParseSinglelineComment e = Ok ([], ParseNewLine)) by (destruct He as [->| ->]; reflexivity).
  rewrite (step_nil _ _ e _ _ ltac:(lia) E), (run_app_ok _ _ _ _ _ _ (run_spaces fuel w Hw)), prepend_nil.
  apply newline_rest, Hq'.
Qed.

(** A final line comment without line break. *)
Lemma tokenize_last_comment fuel body : Forall (fun c => 0 <= c /\ c <> 10 /\ c <> 13) body ->
  tokenize fuel ([47; 47] ++ body) = Ok [].
Proof.
  intros Hb. rewrite tokenize_run.
  rewrite (run_app_ok _ _ _ _ _ _ (run_comment_start fuel 47 ltac:(auto))), prepend_nil.
  change (47 =? 47) with true. cbv iota. rewrite run_line_comment by exact Hb. reflexivity.
Qed.

Definition pending (nl : bool) (q : list Z) : list token :=
  match nl, q with true, _ :: _ => [TNewLine] | _, _ => [] end.

Lemma lexeme_nonempty w t f : lexeme w t f -> w <> [].
Proof.
  destruct 1 as [body s H|c w Hc Hw|c t Hc|neg l b Hl Hb Vb|n Hn Hm Hs L1 L2 L3|n bits Hn Hm He L1 L2 Hf];
    try discriminate.
  - destruct neg, l; discriminate.
  - destruct Hn as [[_ [E|[c [l [E _]]]]] _]; unfold number_text; rewrite E; destruct (nl_neg n); discriminate.
  - destruct Hn as [[_ [E|[c [l [E _]]]]] _]; unfold number_text; rewrite E; destruct (nl_neg n); discriminate.
Qed.

Lemma pending_app nl w q : w <> [] -> pending nl (w ++ q) = if nl then [TNewLine] else [].
Proof. intros H. destruct w as [|c w]; [congruence|]. destruct nl; reflexivity. Qed.

Lemma next_ok_app f w q : w <> [] -> next_ok f w -> next_ok f (w ++ q).
Proof. intros H. destruct w as [|c w]; [congruence|]. exact (fun x => x). Qed.

Lemma lexseq_reads a ta nl f : lexseq a ta nl f -> exists f0, forall fuel q, (f0 <= fuel)%nat -> next_ok f q ->
  tokenize fuel (a ++ q) = prepend_list (ta ++ pending nl q) (tokenize fuel q).
Proof.
  induction 1 as [|a ta nl f w t g H [f0 IH] Hw Hn|a ta nl f w H [f0 IH] Hw Hn|a ta nl f w H [f0 IH] Hw Hn].
  - exists O. intros. symmetry. apply prepend_list_nil.
  - destruct (reads_lexeme w t g Hw) as [f1 R]. exists (Nat.max f0 f1). intros fuel q Hf Hq.
    pose proof (lexeme_nonempty _ _ _ Hw) as Hne.
    rewrite <- app_assoc, IH by (try apply next_ok_app; auto; lia). rewrite pending_app by exact Hne.
    rewrite (R fuel ltac:(lia) q) by exact Hq. rewrite prepend_list_app. f_equal. cbn [pending].
    rewrite app_nil_r, app_assoc. reflexivity.
  - exists f0. intros fuel q Hf Hq.
    assert (Hne : w <> []) by (destruct Hw; discriminate).
    rewrite <- app_assoc, IH by (try apply next_ok_app; auto; lia). rewrite pending_app by exact Hne.
    rewrite (reads_gap fuel w Hw q) by exact Hq. rewrite prepend_list_app. cbn [pending]. reflexivity.
  - exists f0. intros fuel q Hf Hq.
    assert (Hne : w <> []) by (destruct Hw; discriminate).
    rewrite <- app_assoc, IH by (try apply next_ok_app; auto; lia). rewrite pending_app by exact Hne.
    rewrite tokenize_line by auto. rewrite prepend_list_app. reflexivity.
Qed.
