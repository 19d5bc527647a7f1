(** Properties C31 to C38 and the literal level of C27: the tokenizer
    (nanvm-lib/src/tokenizer/mod.rs).  "In any context" means: after any text [a] that is a
    sequence of lexemes, gaps and line breaks ([lexseq]), and before any text at all whose
    first character delimits the literal. *)
From Coq Require Import ZArith Reals List Bool Lia String.
From Coq Require Import ZifyBool ZifyNat.
From Flocq Require Import Core.Core IEEE754.BinarySingleNaN IEEE754.Binary IEEE754.Bits.
From Verif Require Import Outcome LimbsModel LimbsSpec VTac BigIntModel JsBigintModel BigFloatModel BigSpec
  LimbsProofs ShiftProofs JsBigintProofs BigFloatSpec RangeMapModel RangeMapSpec Prop_BigFloat TokenizerModel TokenizerSpec
  TokenizerProofs TokenizerRun TokenizerLex TokenizerNum TokenizerTotal TokenizerGrammar.
Import ListNotations.
Open Scope Z_scope.

(** A lexeme in context. *)
Lemma in_context a ta nl f w t g : lexseq a ta nl f -> lexeme w t g -> next_ok f w ->
  exists f0, forall fuel q, (f0 <= fuel)%nat -> next_ok g q ->
    tokenize fuel (a ++ w ++ q) =
    prepend_list (ta ++ (if nl then [TNewLine] else []) ++ [t]) (tokenize fuel q).
Proof.
  intros Ha Hw Hn. destruct (lexseq_reads _ _ _ _ (ls_lexeme _ _ _ _ _ _ _ Ha Hw Hn)) as [f0 H].
  exists f0. intros fuel q Hf Hq. rewrite app_assoc, H by auto. cbn [pending]. rewrite app_nil_r. reflexivity.
Qed.

(** The characters of a [lexseq] in the examples. *)
Ltac spell := repeat (constructor; [lia|lia|lia|]); constructor.

(** * C31 *)

(** Every text in which all that looks like a number has a decimal exponent from -27 up and an
    exponent part within the 64-bit range is tokenized, without panic; numbers are 64-bit
    patterns and bigints are well-formed. *)
Theorem C31_total_partial : forall text, chars text -> calm text ->
  exists toks f0, (forall fuel, (f0 <= fuel)%nat -> tokenize fuel text = Ok toks) /\ Forall tok_ok toks.
Proof.
  intros text Hc Hs. destruct (tokenize_good text Hc Hs) as [toks [[f0 H] Ht]]. exists toks, f0. auto.
Qed.
Print Assumptions C31_total_partial.

(** An exponent above the 64-bit range panics (debug build), whatever follows. *)
Theorem C31_total_refuted_panic : forall fuel q, tokenize fuel (txt "1e99999999999999999999"%string ++ q) = Panic.
Proof.
  intros fuel q. rewrite tokenize_run, run_app.
  assert (E : run fuel Initial (txt "1e99999999999999999999"%string) = Panic) by (vm_compute; reflexivity).
  rewrite E. reflexivity.
Qed.
Print Assumptions C31_total_refuted_panic.

(** A small number never returns. *)
Theorem C31_total_refuted_hang : forall fuel, tokenize fuel (txt "3e-51"%string) = NoFuel.
Proof.
  intros fuel. rewrite tokenize_run.
  assert (E : run fuel Initial (txt "3e-51"%string) =
    Ok ([], ParseExp {| jb_len := 1; jb_items := [3] |} Positive 0 Negative 51)) by (vm_compute; reflexivity).
  rewrite E. unfold finish. cbn [obind tend]. unfold exp_state_into_token. rewrite i64_ok by lia. cbn [obind].
  destruct (C27_decimal_refuted Positive) as [g [Hg [Vg [Eg [Sg [Rg H]]]]]].
  unfold number_token, bigfloat_to_f64. destruct g as [sig sg ex r]. cbn [bf_sig bf_sign bf_exp bf_rem] in *. subst.
  replace {| jb_len := 1; jb_items := [3] |} with sig.
  - rewrite H. reflexivity.
  - apply jwf_inj; auto.
    split; [|reflexivity]. split; [repeat constructor; pose proof B_val; lia|]. cbn. lia.
Qed.
Print Assumptions C31_total_refuted_hang.

(** Such a text, with a negative exponent. *)
Example C31_calm_case : calm (txt "1e-3"%string).
Proof.
  split; [reflexivity|]. intros p d frac n ex v q E Hd Hf He Hl. cbn in E.
  assert (Hff : frac = [] \/ exists fs, frac = 46 :: fs) by (destruct Hf as [[-> _]|(fs & -> & _)]; eauto).
  destruct p as [|a p]; [|destruct p as [|b p]; [|destruct p as [|c p]; [|destruct p as [|e p]]]].
  - injection E as <- E. destruct Hff as [->|(fs & ->)]; [|discriminate E]. destruct Hf as [[_ ->]|(fs & H & _)]; [|discriminate H].
    destruct He as [[-> ->]|(x & sg & ds & -> & Hx & Hds & Hs)]; [cbn in E; subst q; cbn in Hl; lia|].
    injection E as <- E. destruct Hs as [[[->| ->] _]|[-> ->]].
    + destruct ds as [|y ds]; [cbn in E; subst q; cbn in Hl; lia|]. injection E as <- E. inversion Hds. discriminate.
    + discriminate E.
    + injection E as E. destruct ds as [|y ds]; [cbn in E; subst q; cbn in Hl; destruct Hl; discriminate|]. injection E as <- E.
      destruct ds; [|discriminate E]. cbn. lia.
  - injection E as <- <- E. discriminate Hd.
  - injection E as <- <- <- E. discriminate Hd.
  - injection E as <- <- <- <- E. symmetry in E. apply app_eq_nil in E as [E ->]. apply app_eq_nil in E as [-> ->].
    destruct Hf as [[_ ->]|(fs & H & _)]; [|discriminate H]. destruct He as [[_ ->]|(x & sg & ds & H & _)]; [lia|discriminate H].
  - injection E as <- <- <- <- E. destruct p; discriminate E.
Qed.

Example C31_case :
  tokenize 2000 (txt "a b.0 ""x\q"" 1.5e3 -7n /*"%string) =
  Ok [TId [97]; TId [98]; TDot; TNumber 0; TError UnexpectedCharacter; TString [120; 113];
      TNumber 0x4097700000000000; TBigInt {| jb_len := -1; jb_items := [7] |}; TError CommentClosingExpected].
Proof. vm_compute. reflexivity. Qed.

(** * C32 *)
Theorem C32_string : forall a ta nl f body s, lexseq a ta nl f -> f 34 = true -> spells body s ->
  exists f0, forall fuel q, (f0 <= fuel)%nat -> chars q ->
    tokenize fuel (a ++ (34 :: body ++ [34]) ++ q) =
    prepend_list (ta ++ (if nl then [TNewLine] else []) ++ [TString s]) (tokenize fuel q).
Proof.
  intros a ta nl f body s Ha Hf Hs.
  destruct (in_context a ta nl f _ _ _ Ha (lex_string body s Hs)) as [f0 H].
  { split; [lia|exact Hf]. }
  exists f0. intros fuel q Hfu Hq. apply H; [exact Hfu|]. destruct Hq; cbn; auto.
Qed.
Print Assumptions C32_string.

(** Every scalar value sequence has a spelling (so the theorem covers every string). *)
Lemma spells_exists : forall s, Forall (fun c => 0 <= c) s -> exists body, spells body s.
Proof.
  induction 1 as [|c s Hc H [body IH]]; [exists []; constructor|].
  destruct (Z.eq_dec c 34) as [->|N1].
  - exists (92 :: 34 :: body). apply sp_short; [reflexivity|exact IH].
  - destruct (Z.eq_dec c 92) as [->|N2].
    + exists (92 :: 92 :: body). apply sp_short; [reflexivity|exact IH].
    + exists (c :: body). apply sp_raw; auto.
Qed.

Example C32_case : spells (txt "a\n\u0041\\"%string) [97; 10; 65; 92] /\
  tokenize 10 (txt "[""a\n\u0041\\"":"%string) = Ok [TArrayBegin; TString [97; 10; 65; 92]; TColon].
Proof.
  split; [|vm_compute; reflexivity].
  apply sp_raw; [lia|lia|lia|]. apply sp_short; [reflexivity|].
  apply (sp_unicode 48 48 52 49 0 0 4 1); [reflexivity..|left; lia|]. apply sp_short; [reflexivity|]. constructor.
Qed.

(** A string literal without closing quote is reported. *)
Theorem C32_unterminated : forall fuel body s, spells body s ->
  tokenize fuel (34 :: body) = Ok [TError MissingQuotes].
Proof.
  intros fuel body s H. rewrite tokenize_run.
  assert (E : step fuel Initial 34 = Ok ([], ParseString [])) by (cbn [step]; rewrite push_initial by lia; reflexivity).
  rewrite (step_nil _ _ 34 _ _ ltac:(lia) E). pose proof (run_spells fuel body s H [] []) as R.
  rewrite app_nil_r in R. rewrite R. reflexivity.
Qed.
Print Assumptions C32_unterminated.

(** * C33: false; an escaped surrogate ends the string with an error and the rest of the
    literal is read as program text *)
Theorem C33_surrogate_refuted : forall fuel body s a b c d va vb vc vd rest,
  spells body s ->
  hex_value a = Some va -> hex_value b = Some vb -> hex_value c = Some vc -> hex_value d = Some vd ->
  0xD800 <= va * 4096 + vb * 256 + vc * 16 + vd <= 0xDFFF ->
  tokenize fuel (34 :: body ++ [92; 117; a; b; c; d] ++ rest) =
  prepend_list [TError InvalidHex] (tokenize fuel rest).
Proof.
  intros fuel body s a b c d va vb vc vd rest H Ha Hb Hc Hd Hr. rewrite !tokenize_run.
  assert (E : step fuel Initial 34 = Ok ([], ParseString [])) by (cbn [step]; rewrite push_initial by lia; reflexivity).
  rewrite (step_nil _ _ 34 _ _ ltac:(lia) E), (run_spells _ _ _ H). cbn [app].
  assert (E1 : step fuel (ParseString s) 92 = Ok ([], ParseEscapeChar s)).
  { cbn [step]. rewrite push_string by lia. reflexivity. }
  rewrite (step_nil _ _ 92 _ _ ltac:(lia) E1).
  assert (E2 : step fuel (ParseEscapeChar s) 117 = Ok ([], ParseUnicodeChar s 0 0)) by reflexivity.
  rewrite (step_nil _ _ 117 _ _ ltac:(lia) E2).
  rewrite (run_hex _ _ _ _ _ _ _ _ _ _ _ Ha Hb Hc Hd). cbv zeta.
  replace (from_u32 _) with (@None Z); [apply finish_prepend|].
  unfold from_u32, is_char. replace (_ || _) with false by lia. reflexivity.
Qed.
Print Assumptions C33_surrogate_refuted.

Example C33_case :
  tokenize 10 (txt """\uD83D\uDE00"""%string) =
  Ok [TError InvalidHex; TError UnexpectedCharacter; TId (txt "uDE00"%string); TError MissingQuotes].
Proof. vm_compute. reflexivity. Qed.

(** * C34 *)
Theorem C34_bigint : forall a ta nl f (neg : bool) l, lexseq a ta nl f -> int_part l ->
  next_ok f ((if neg then [45] else []) ++ l ++ [110]) ->
  exists b f0, jwf b /\ jval b = (if neg then - dec_value l else dec_value l) /\
  forall fuel q, (f0 <= fuel)%nat -> next_ok is_terminal q ->
    tokenize fuel (a ++ ((if neg then [45] else []) ++ l ++ [110]) ++ q) =
    prepend_list (ta ++ (if nl then [TNewLine] else []) ++ [TBigInt b]) (tokenize fuel q).
Proof.
  intros a ta nl f neg l Ha Hl Hn. destruct (reads_bigint O neg l Hl) as [b [Hb [Vb _]]].
  destruct (in_context a ta nl f _ _ _ Ha (lex_bigint neg l b Hl Hb Vb) Hn) as [f0 H].
  exists b, f0. auto.
Qed.
Print Assumptions C34_bigint.

Example C34_case : tokenize 10 (txt "-36893488147419103233n,0n"%string) =
  Ok [TBigInt {| jb_len := -2; jb_items := [1; 2] |}; TComma; TBigInt {| jb_len := 0; jb_items := [] |}].
Proof. vm_compute. reflexivity. Qed.

(** * C27, literal level *)
Theorem C27_literal_partial : forall a ta nl f n, lexseq a ta nl f -> number_ok n ->
  0 < number_mantissa n -> -27 <= number_exp10 n -> exp_value n < 2 ^ 63 ->
  Z.of_nat (List.length (nl_frac n)) <= 2 ^ 63 -> next_ok f (number_text n) ->
  exists bits f0, f64_nearest bits (signed (nl_neg n)) (dec_real (number_mantissa n) (number_exp10 n)) /\
  forall fuel q, (f0 <= fuel)%nat -> next_ok is_terminal q ->
    tokenize fuel (a ++ number_text n ++ q) =
    prepend_list (ta ++ (if nl then [TNewLine] else []) ++ [TNumber bits]) (tokenize fuel q).
Proof.
  intros a ta nl f n Ha Hok Hm He Hv Hl Hn.
  destruct (reads_number n Hok Hl) as [b [Hb [Vb _]]]; [unfold number_exp10 in *; lia..|].
  destruct (C27_decimal_partial {| bf_sig := b; bf_sign := signed (nl_neg n); bf_exp := number_exp10 n; bf_rem := false |})
    as [bits [_ [_ H2]]]; cbn [bf_sig bf_exp bf_rem bf_sign] in *; auto; [lia|unfold number_exp10 in *; lia|].
  rewrite Vb in H2.
  destruct (in_context a ta nl f _ _ _ Ha (lex_number n bits Hok Hm He Hl Hv H2) Hn) as [f0 H].
  exists bits, f0. auto.
Qed.
Print Assumptions C27_literal_partial.

Example C27_literal_case :
  number_text {| nl_neg := true; nl_int := txt "12"%string; nl_frac := txt "50"%string; nl_exp := Some (69, [45], txt "1"%string) |} =
    txt "-12.50E-1"%string /\
  tokenize 2000 (txt "-12.50E-1,0.1 9007199254740993 1e309"%string) =
  Ok [TNumber 0xBFF4000000000000; TComma; TNumber 0x3FB999999999999A; TNumber 0x4340000000000000; TNumber 0x7FF0000000000000].
Proof. vmc. Qed.

(** * C35: false for every spelling of negative zero *)
Theorem C35_negative_zero_refuted : forall n, number_ok n -> nl_neg n = true -> number_mantissa n = 0 ->
  Z.of_nat (List.length (nl_frac n)) <= 2 ^ 63 -> - 2 ^ 63 < exp_value n < 2 ^ 63 -> - 2 ^ 63 <= number_exp10 n ->
  (forall fuel q, next_ok is_terminal q ->
     tokenize fuel (number_text n ++ q) = prepend_list [TNumber 0] (tokenize fuel q)) /\
  ~ f64_nearest 0 Negative 0%R.
Proof.
  intros n Hn Hs Hm L1 L2 L3. split.
  - destruct (reads_number n Hn L1 L2 L3) as [b [Hb [Vb R]]]. intros fuel q Hq. apply R; [|exact Hq].
    apply number_token_zero; [exact Hb|congruence].
  - intros [_ [H _]]. destruct H as [_ [_ H]]; [|vm_compute in H; discriminate].
    unfold rne64. rewrite round_0 by typeclasses eauto. apply bpow_gt_0.
Qed.
Print Assumptions C35_negative_zero_refuted.

(** Positive zero is read correctly. *)
Theorem C35_positive_zero : forall n, number_ok n -> nl_neg n = false -> number_mantissa n = 0 ->
  Z.of_nat (List.length (nl_frac n)) <= 2 ^ 63 -> - 2 ^ 63 < exp_value n < 2 ^ 63 -> - 2 ^ 63 <= number_exp10 n ->
  (forall fuel q, next_ok is_terminal q ->
     tokenize fuel (number_text n ++ q) = prepend_list [TNumber 0] (tokenize fuel q)) /\
  f64_nearest 0 Positive 0%R.
Proof.
  intros n Hn Hs Hm L1 L2 L3. split.
  - destruct (reads_number n Hn L1 L2 L3) as [b [Hb [Vb R]]]. intros fuel q Hq. apply R; [|exact Hq].
    apply number_token_zero; [exact Hb|congruence].
  - assert (E : rne64 0 = 0%R) by (unfold rne64; apply round_0; typeclasses eauto).
    split; [lia|]. rewrite E. split.
    + intros _. split; [reflexivity|]. split; [|reflexivity]. reflexivity.
    + intros H. exfalso. pose proof (bpow_gt_0 radix2 1024). Lra.lra.
Qed.
Print Assumptions C35_positive_zero.

Example C35_case : tokenize 10 (txt "-0 -0.0 -0.00e7 0e-3"%string) = Ok [TNumber 0; TNumber 0; TNumber 0; TNumber 0].
Proof. vm_compute. reflexivity. Qed.

(** * C36 *)
(** A missing fraction is rejected whatever follows. *)
Theorem C36_empty_fraction : forall fuel (neg : bool) l, int_part l ->
  reads fuel ((if neg then [45] else []) ++ l ++ [46]) [TError InvalidNumber] (fun c => negb (is_digit c)).
Proof.
  intros fuel neg l Hl. destruct (run_int_part fuel neg l Hl) as [st [b [R [A [S [W [V _]]]]]]].
  change [TError InvalidNumber] with ([] ++ [TError InvalidNumber]).
  eapply (reads_run _ _ _ (ParseFracBegin b (signed neg))).
  - rewrite R. apply (step_nil _ _ 46 _ []); [lia|].
    destruct A as [[-> [-> _]]|[[-> _]| ->]]; [reflexivity|reflexivity|]. destruct S; discriminate.
  - reflexivity.
  - intros c Pc Hc. rewrite push_step by exact Pc. cbn [step]. destruct (is_digit c); [discriminate|reflexivity].
Qed.
Print Assumptions C36_empty_fraction.

(** So is a minus sign without digits. *)
Theorem C36_lone_minus : forall fuel, reads fuel [45] [TError InvalidNumber] (fun c => negb (is_digit c)).
Proof.
  intros fuel. change [TError InvalidNumber] with ([] ++ [TError InvalidNumber]).
  eapply (reads_run _ _ _ ParseMinus).
  - assert (E : step fuel Initial 45 = Ok ([], ParseMinus)) by (cbn [step]; rewrite push_initial by lia; reflexivity).
    apply (step_nil _ _ 45 _ []); [lia|exact E].
  - reflexivity.
  - intros c Pc Hc. rewrite push_step by exact Pc. cbn [step].
    assert ((c =? 48) = false) as -> by (classes; lia). assert (is_nonzero_digit c = false) as -> by (classes; lia).
    reflexivity.
Qed.
Print Assumptions C36_lone_minus.

(** Text of a number whose exponent has no digits: letter and optional sign. *)
Definition no_exponent (n : number_lit) (l : Z) (sg : list Z) : list Z :=
  number_text {| nl_neg := nl_neg n; nl_int := nl_int n; nl_frac := nl_frac n; nl_exp := Some (l, sg, []) |}.

Lemma run_no_exponent n l sg : number_ok n -> Z.of_nat (List.length (nl_frac n)) <= 2 ^ 63 ->
  l = 101 \/ l = 69 -> sg = [] \/ sg = [43] \/ sg = [45] ->
  exists b, jwf b /\ jval b = number_mantissa n /\ forall fuel,
    run fuel Initial (no_exponent n l sg) =
    Ok ([], (match sg with [] => ParseExpBegin | _ => ParseExpSign end) b (signed (nl_neg n))
              (- Z.of_nat (List.length (nl_frac n))) (exp_sign sg) 0).
Proof.
  intros [Hi [Hf _]] Lf Hl Hsg. destruct (run_mantissa n Hi Hf Lf) as [st [b [R [A [W V]]]]].
  exists b. split; [exact W|]. split; [exact V|]. intros fuel. unfold no_exponent, number_text.
  cbn [nl_neg nl_int nl_frac nl_exp]. rewrite R.
  rewrite (step_nil _ _ l _ _ ltac:(lia) (run_exp_letter fuel _ _ _ _ _ A Hl)).
  destruct Hsg as [->|[->| ->]]; reflexivity.
Qed.

(** A missing exponent is rejected at the end of the text and before any character that is
    not white space, punctuation, a quote or a slash ... *)
Theorem C36_empty_exponent_partial : forall fuel n l sg, number_ok n ->
  Z.of_nat (List.length (nl_frac n)) <= 2 ^ 63 -> l = 101 \/ l = 69 -> sg = [] \/ sg = [43] \/ sg = [45] ->
  reads fuel (no_exponent n l sg) [TError InvalidNumber]
    (fun c => negb (is_terminal c) && negb (is_digit c) && (match sg with [] => negb (c =? 43) && negb (c =? 45) | _ => true end)).
Proof.
  intros fuel n l sg Hn Lf Hl Hsg. destruct (run_no_exponent n l sg Hn Lf Hl Hsg) as [b [_ [_ R]]].
  change [TError InvalidNumber] with ([] ++ [TError InvalidNumber]).
  eapply reads_run; [apply R| |].
  - destruct Hsg as [->|[->| ->]]; reflexivity.
  - intros c Pc Hc. rewrite push_step by exact Pc.
    destruct (is_terminal c) eqn:E1; [discriminate|]. destruct (is_digit c) eqn:E2; [discriminate|].
    destruct Hsg as [->|[->| ->]]; cbn [step]; unfold cls_exp, cls_exp_begin; rewrite E1, E2; try reflexivity.
    destruct (c =? 43); [discriminate|]. destruct (c =? 45); [discriminate|]. reflexivity.
Qed.
Print Assumptions C36_empty_exponent_partial.

(** ... but before white space, punctuation, a quote or a slash the number is accepted as if
    the exponent were 0: [1e,] is the number 1. *)
Theorem C36_empty_exponent_refuted : forall n l sg, number_ok n -> 0 < number_mantissa n ->
  (List.length (nl_frac n) <= 27)%nat -> l = 101 \/ l = 69 -> sg = [] \/ sg = [43] \/ sg = [45] ->
  exists bits f0, f64_nearest bits (signed (nl_neg n)) (dec_real (number_mantissa n) (- Z.of_nat (List.length (nl_frac n)))) /\
  forall fuel c q, (f0 <= fuel)%nat -> 0 <= c -> is_terminal c = true ->
    tokenize fuel (no_exponent n l sg ++ c :: q) = prepend_list [TNumber bits] (tokenize fuel (c :: q)).
Proof.
  intros n l sg Hn Hm Lf Hl Hsg. destruct (run_no_exponent n l sg Hn ltac:(lia) Hl Hsg) as [b [W [V R]]].
  destruct (C27_decimal_partial {| bf_sig := b; bf_sign := signed (nl_neg n); bf_exp := - Z.of_nat (List.length (nl_frac n)); bf_rem := false |})
    as [bits [f0 [H1 H2]]]; cbn [bf_sig bf_exp bf_rem bf_sign] in *; auto; [lia|lia|]. rewrite V in H2.
  exists bits, f0. split; [exact H2|]. intros fuel c q Hf Pc Hc.
  rewrite !tokenize_run, (run_app_ok _ _ _ _ _ _ (R fuel)), prepend_nil.
  assert (E : step fuel ((match sg with [] => ParseExpBegin | _ => ParseExpSign end) b (signed (nl_neg n))
              (- Z.of_nat (List.length (nl_frac n))) (exp_sign sg) 0) c = prepend [TNumber bits] (push fuel Initial c)).
  { assert (N : exp_state_into_token fuel b (signed (nl_neg n)) (- Z.of_nat (List.length (nl_frac n))) (exp_sign sg) 0 = Ok (TNumber bits)).
    { unfold exp_state_into_token, number_token, bigfloat_to_f64.
      replace (match exp_sign sg with Positive => 0 | Negative => - 0 end) with 0 by (destruct (exp_sign sg); reflexivity).
      rewrite Z.add_0_r, i64_ok by lia. cbn [obind]. rewrite H1 by exact Hf. reflexivity. }
    assert (is_digit c = false /\ (c =? 43) = false /\ (c =? 45) = false) as [D1 [D2 D3]] by (classes; lia).
    destruct Hsg as [->|[->| ->]]; cbn [step exp_sign] in *; unfold cls_exp, cls_exp_begin;
      rewrite ?D1, ?D2, ?D3, Hc, N; reflexivity. }
  cbn [run]. rewrite push_step by exact Pc. rewrite E.
  destruct (push fuel Initial c) as [[x st']| |]; try reflexivity.
  unfold prepend at 1. cbn [obind]. rewrite <- prepend_app, finish_prepend. reflexivity.
Qed.
Print Assumptions C36_empty_exponent_refuted.

(** A number directly followed by another character is rejected. *)
Theorem C36_garbage : forall fuel n c q, number_ok n -> Z.of_nat (List.length (nl_frac n)) <= 2 ^ 63 ->
  exp_value n < 2 ^ 63 -> - 2 ^ 63 < exp_value n -> 0 <= c ->
  is_terminal c = false -> is_digit c = false -> c <> 46 -> c <> 101 -> c <> 69 -> c <> 110 ->
  tokenize fuel (number_text n ++ c :: q) = prepend_list [TError InvalidNumber] (tokenize fuel (c :: q)).
Proof.
  intros fuel n c q [Hi [Hf He]] Lf Lv1 Lv2 Pc H1 H2 N1 N2 N3 N4.
  destruct (run_mantissa n Hi Hf Lf) as [st [b [R [A [W V]]]]].
  assert (D : is_e c = false /\ (c =? 46) = false /\ (c =? 110) = false) by (unfold is_e; lia).
  destruct D as [D1 [D2 D3]].
  assert (X : exists st', run fuel Initial (number_text n) = Ok ([], st') /\
    step fuel st' c = prepend [TError InvalidNumber] (push fuel Initial c)).
  { unfold number_text, exp_value in *. destruct (nl_exp n) as [[[l sg] ds]|].
    - destruct He as [Hl [Hsg [Hne Hds]]].
      assert (P : 0 <= dec_value ds) by (apply (dec_from_ge 0 ds); [lia|exact Hds]).
      eexists. split.
      + rewrite R. apply (run_exponent fuel _ _ _ _ _ _ _ A Hl Hsg Hne Hds). destruct Hsg as [->|[->| ->]]; lia.
      + cbn [step]. unfold cls_exp. rewrite H1, H2. reflexivity.
    - exists st. split; [rewrite R; reflexivity|].
      destruct A as [[-> [-> _]]|[[-> _]| ->]]; cbn [step]; unfold cls_zero, cls_int, cls_frac;
        rewrite ?H1, ?H2, ?D1, ?D2, ?D3; reflexivity. }
  destruct X as [st' [E1 E2]].
  rewrite !tokenize_run, (run_app_ok _ _ _ _ _ _ E1), prepend_nil. cbn [run].
  rewrite push_step by exact Pc. rewrite E2.
  destruct (push fuel Initial c) as [[x s']| |]; try reflexivity.
  unfold prepend at 1. cbn [obind]. rewrite <- prepend_app, finish_prepend. reflexivity.
Qed.
Print Assumptions C36_garbage.

(** A leading zero is rejected. *)
Theorem C36_leading_zero : forall fuel (neg : bool) c q, is_digit c = true ->
  tokenize fuel ((if neg then [45] else []) ++ 48 :: c :: q) = prepend_list [TError InvalidNumber] (tokenize fuel (c :: q)).
Proof.
  intros fuel neg c q Hc. rewrite !tokenize_run. rewrite (run_sign fuel neg 48 (c :: q) eq_refl).
  change (48 =? 48) with true. cbv iota. cbn [run]. rewrite push_step by (classes; lia). cbn [step].
  unfold cls_zero. assert ((c =? 46) = false /\ is_e c = false /\ (c =? 110) = false /\ is_terminal c = false) as [-> [-> [-> ->]]]
    by (classes; lia).
  destruct (push fuel Initial c) as [[x st']| |]; try reflexivity.
  unfold prepend at 1. cbn [obind]. rewrite <- prepend_app, finish_prepend. reflexivity.
Qed.
Print Assumptions C36_leading_zero.

Example C36_case : tokenize 2000 (txt "1.,1e,1e+ 2ex -] 07"%string) =
  Ok [TError InvalidNumber; TComma; TNumber 0x3FF0000000000000; TComma; TNumber 0x3FF0000000000000;
      TError InvalidNumber; TId [120]; TError InvalidNumber; TArrayEnd; TError InvalidNumber; TNumber 0x401C000000000000].
Proof. vm_compute. reflexivity. Qed.

(** * C37 *)
(** Blanks or a block comment may be inserted at every token boundary, before any text [q]
    (valid or not; if it hangs or panics, so does the text with the gap). *)
Theorem C37_gap : forall a ta nl f g, lexseq a ta nl f -> gap g -> next_ok f g ->
  exists f0, forall fuel q, (f0 <= fuel)%nat -> next_ok f q -> nl = false \/ q <> [] ->
    tokenize fuel (a ++ g ++ q) = tokenize fuel (a ++ q).
Proof.
  intros a ta nl f g Ha Hg Hn. destruct (lexseq_reads _ _ _ _ Ha) as [f0 H0].
  destruct (lexseq_reads _ _ _ _ (ls_gap _ _ _ _ _ Ha Hg Hn)) as [f1 H1].
  exists (Nat.max f0 f1). intros fuel q Hf Hq Hnl. assert (Hq' : next_ok any q) by (destruct q; cbn in *; tauto).
  rewrite app_assoc, H1, H0 by (auto; lia).
  - f_equal. cbn [pending]. rewrite app_nil_r. f_equal. destruct nl; [|reflexivity].
    destruct q; [|reflexivity]. destruct Hnl; congruence.
Qed.
Print Assumptions C37_gap.

(** A gap can be inserted after every lexeme. *)
Lemma gap_follows w t f g : lexeme w t f -> gap g -> next_ok f g.
Proof.
  intros Hw Hg.
  assert (Hc : exists c g', g = c :: g' /\ (is_blank c = true \/ c = 47)).
  { destruct Hg; eexists _, _; (split; [reflexivity|auto]). }
  destruct Hc as [c [g' [-> Hc]]]. cbn.
  destruct Hw; unfold any; classes; lia.
Qed.

(** Line breaks and line comments add exactly one NewLine token, and none at the end. *)
Theorem C37_line : forall a ta nl f w, lexseq a ta nl f -> line_break w -> next_ok f w ->
  exists f0, forall fuel q, (f0 <= fuel)%nat -> next_ok (fun c => negb (is_space c)) q ->
    tokenize fuel (a ++ w ++ q) =
    prepend_list (ta ++ (if nl then [TNewLine] else []) ++ match q with [] => [] | _ => [TNewLine] end) (tokenize fuel q).
Proof.
  intros a ta nl f w Ha Hw Hn. destruct (lexseq_reads _ _ _ _ (ls_line _ _ _ _ _ Ha Hw Hn)) as [f0 H0].
  exists f0. intros fuel q Hf Hq. rewrite app_assoc, H0 by auto. rewrite <- app_assoc. reflexivity.
Qed.
Print Assumptions C37_line.

(** The whole grammar: a sequence of lexemes, gaps and line breaks gives its tokens. *)
Theorem C37_sequence : forall a ta nl f, lexseq a ta nl f ->
  exists f0, forall fuel, (f0 <= fuel)%nat -> tokenize fuel a = Ok ta.
Proof.
  intros a ta nl f Ha. destruct (lexseq_reads _ _ _ _ Ha) as [f0 H0]. exists f0. intros fuel Hf.
  specialize (H0 fuel [] Hf I). rewrite app_nil_r in H0. rewrite H0. rewrite tokenize_run. cbn.
  destruct nl; cbn; rewrite !app_nil_r; reflexivity.
Qed.
Print Assumptions C37_sequence.

(** An unterminated block comment is reported. *)
Theorem C37_unterminated_comment : forall fuel body, comment_body body ->
  tokenize fuel ([47; 42] ++ body) = Ok [TError CommentClosingExpected].
Proof.
  intros fuel body [Hc Hn]. rewrite tokenize_run.
  rewrite (run_app_ok _ _ _ _ _ _ (run_comment_start fuel 42 ltac:(auto))), prepend_nil.
  change (42 =? 47) with false. cbv iota.
  assert (G : forall l, chars l ->
    (~ (exists p q, l = p ++ [42; 47] ++ q) ->
       exists st, run fuel ParseMultilineComment l = Ok ([], st) /\ (st = ParseMultilineComment \/ st = ParseMultilineCommentAsterix)) /\
    (~ (exists p q, 42 :: l = p ++ [42; 47] ++ q) ->
       exists st, run fuel ParseMultilineCommentAsterix l = Ok ([], st) /\ (st = ParseMultilineComment \/ st = ParseMultilineCommentAsterix))).
  { clear. induction l as [|c l IH]; intros Hc; [split; eexists; (split; [reflexivity|auto])|].
    inversion Hc as [|c0 l0 Pc Hl]; subst. destruct (IH Hl) as [I1 I2]. split; intros Hn.
    - destruct (Z.eqb_spec c 42) as [->|N].
      + assert (E : step fuel ParseMultilineComment 42 = Ok ([], ParseMultilineCommentAsterix)) by reflexivity.
        rewrite (step_nil _ _ _ _ _ Pc E). apply I2. exact Hn.
      + assert (E : step fuel ParseMultilineComment c = Ok ([], ParseMultilineComment)).
        { cbn [step]. rewrite (proj2 (Z.eqb_neq c 42) N). reflexivity. }
        rewrite (step_nil _ _ _ _ _ Pc E). apply I1. intros [p [q ->]]. apply Hn. exists (c :: p), q. reflexivity.
    - destruct (Z.eqb_spec c 47) as [->|N7]; [exfalso; apply Hn; exists [], l; reflexivity|].
      destruct (Z.eqb_spec c 42) as [->|N].
      + assert (E : step fuel ParseMultilineCommentAsterix 42 = Ok ([], ParseMultilineCommentAsterix)) by reflexivity.
        rewrite (step_nil _ _ _ _ _ Pc E). apply I2. intros [p [q E']]. apply Hn. exists (42 :: p), q. rewrite E'. reflexivity.
      + assert (E : step fuel ParseMultilineCommentAsterix c = Ok ([], ParseMultilineComment)).
        { cbn [step]. rewrite (proj2 (Z.eqb_neq c 42) N), (proj2 (Z.eqb_neq c 47) N7). reflexivity. }
        rewrite (step_nil _ _ _ _ _ Pc E). apply I1. intros [p [q ->]]. apply Hn. exists (42 :: c :: p), q. reflexivity. }
  destruct (proj1 (G body Hc)) as [st [E [->| ->]]].
  - intros [p [q E]]. apply Hn. exists p, (q ++ [42]). rewrite E, <- !app_assoc. reflexivity.
  - rewrite E. reflexivity.
  - rewrite E. reflexivity.
Qed.
Print Assumptions C37_unterminated_comment.

Example C37_case :
  lexseq (txt "a /*b*/"%string ++ [10; 32]) [TId [97]] true (fun c => negb (is_space c)) /\
  tokenize 10 (txt "a /*b*/"%string ++ [10; 32] ++ txt "{ }// c"%string ++ [13; 10]) =
    Ok [TId [97]; TNewLine; TObjectBegin; TObjectEnd].
Proof.
  split; [|vm_compute; reflexivity].
  apply (ls_line (txt "a /*b*/"%string) [TId [97]] false any [10; 32]).
  - apply (ls_gap (txt "a "%string) [TId [97]] false any (txt "/*b*/"%string)).
    + apply (ls_gap (txt "a"%string) [TId [97]] false (fun x => negb (ident_part x)) [32]).
      * apply (ls_lexeme [] [] false any (txt "a"%string) (TId [97])); [constructor| |split; [lia|reflexivity]].
        apply lex_ident; [reflexivity|constructor].
      * apply (gap_blank 32 []); [reflexivity|constructor].
      * split; [lia|reflexivity].
    + apply (gap_comment [98]). split; [repeat constructor; lia|]. intros [p [q H]].
      destruct p as [|x [|y [|z p]]]; cbn in H; inversion H.
    + split; [lia|reflexivity].
  - apply lb_newline. repeat constructor.
  - split; [lia|reflexivity].
Qed.

(** * C38 *)
Theorem C38_identifier : forall a ta nl f c w, lexseq a ta nl f -> f c = true ->
  ident_start c = true -> Forall (fun c => ident_part c = true) w ->
  exists f0, forall fuel q, (f0 <= fuel)%nat -> next_ok (fun x => negb (ident_part x)) q ->
    tokenize fuel (a ++ (c :: w) ++ q) =
    prepend_list (ta ++ (if nl then [TNewLine] else []) ++ [TId (c :: w)]) (tokenize fuel q).
Proof.
  intros a ta nl f c w Ha Hf Hc Hw. apply (in_context a ta nl f _ _ _ Ha (lex_ident c w Hc Hw)).
  split; [classes; lia|exact Hf].
Qed.
Print Assumptions C38_identifier.

Theorem C38_punctuator : forall a ta nl f c t, lexseq a ta nl f -> f c = true -> punctuator c = Some t ->
  exists f0, forall fuel q, (f0 <= fuel)%nat -> chars q ->
    tokenize fuel (a ++ [c] ++ q) =
    prepend_list (ta ++ (if nl then [TNewLine] else []) ++ [t]) (tokenize fuel q).
Proof.
  intros a ta nl f c t Ha Hf Hc.
  destruct (in_context a ta nl f _ _ _ Ha (lex_punct c t Hc)) as [f0 H].
  { split; [|exact Hf]. destruct c; [discriminate|lia|discriminate]. }
  exists f0. intros fuel q Hfu Hq. apply H; [exact Hfu|]. destruct Hq; cbn; auto.
Qed.
Print Assumptions C38_punctuator.

(** A character that starts no lexeme is reported and skipped. *)
Theorem C38_unexpected : forall fuel c q, 0 <= c -> punctuator c = None -> is_digit c = false -> ident_start c = false ->
  is_space c = false -> c <> 34 -> c <> 45 -> c <> 47 ->
  tokenize fuel (c :: q) = prepend_list [TError UnexpectedCharacter] (tokenize fuel q).
Proof.
  intros fuel c q Pc Hp Hd Hi Hs N1 N2 N3. rewrite !tokenize_run. cbn [run]. rewrite push_initial by exact Pc.
  assert (O : is_punct c || (c =? 46) = false).
  { destruct (is_punct c || (c =? 46)) eqn:E; [|reflexivity]. exfalso.
    assert (c = 123 \/ c = 125 \/ c = 91 \/ c = 93 \/ c = 58 \/ c = 44 \/ c = 61 \/ c = 59 \/ c = 40 \/ c = 41 \/ c = 46)
      as H by (classes; lia).
    repeat destruct H as [H|H]; subst; discriminate. }
  assert (E : cls_initial c = None).
  { unfold cls_initial. rewrite O. classes.
    repeat match goal with |- (if ?b then _ else _) = _ => (replace b with false by lia) || fail 1 end. reflexivity. }
  rewrite E. cbn [obind]. apply finish_prepend.
Qed.
Print Assumptions C38_unexpected.

Example C38_case : tokenize 10 (txt "$a_1={}[]:,.;()@"%string) =
  Ok [TId (txt "$a_1"%string); TEquals; TObjectBegin; TObjectEnd; TArrayBegin; TArrayEnd; TColon; TComma; TDot;
      TSemicolon; TOpenPar; TClosePar; TError UnexpectedCharacter].
Proof. vm_compute. reflexivity. Qed.
