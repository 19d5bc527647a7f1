(** Every text of the lexical grammar is read, with its tokens. *)
From Coq Require Import ZArith Reals List Bool Lia.
From Coq Require Import ZifyBool ZifyNat.
From Verif Require Import Outcome LimbsModel LimbsSpec BigIntModel JsBigintModel BigFloatModel BigSpec
  LimbsProofs ShiftProofs JsBigintProofs BigFloatSpec RangeMapModel RangeMapSpec Prop_BigFloat TokenizerModel TokenizerSpec
  TokenizerProofs TokenizerRun TokenizerLex TokenizerNum TokenizerTotal TokenizerGrammar Prop_Tokenizer Prop_Json LexSpec LexSound.
Import ListNotations.
Open Scope Z_scope.

(** * Characters *)
Ltac char_tac := match goal with H : _ = true |- 0 <= _ => revert H; classes; lia end.
Lemma digits_chars l : all_digits l -> chars l.
Proof. apply Forall_impl. intros. char_tac. Qed.
Lemma spells_chars body s : spells body s -> chars body.
Proof.
  assert (Hx : forall c v, hex_value c = Some v -> 0 <= c) by (intros c v H; apply (hex_range _ _ H)).
  induction 1; repeat (apply Forall_cons); try assumption; try lia; try (eapply short_escape_pos; eassumption); try (eapply Hx; eassumption).
  constructor.
Qed.
Lemma number_chars n : number_ok n -> chars (number_text n).
Proof.
  intros ((Hi & _) & Hf & He). unfold number_text, chars. rewrite !Forall_app. split; [destruct (nl_neg n); repeat constructor; lia|].
  split; [apply digits_chars, Hi|]. split.
  - destruct (nl_frac n) as [|c l]; constructor; [lia|apply digits_chars, Hf].
  - destruct (nl_exp n) as [[[x sg] ds]|]; constructor; [lia|]. destruct He as (_ & Hs & _ & Hd). apply Forall_app.
    split; [destruct Hs as [->|[->| ->]]; repeat constructor; lia|apply digits_chars, Hd].
Qed.
Lemma word_chars w t q : word w t q -> chars w.
Proof.
  destruct 1 as [body s q H|c w q Hc Hw Hq|c t q Hc|neg l b q Hi Hb Hv Hq|n bits q Hn Hb Hq|n l sg bits q Hn He Hl Hsg Hb Hne Hq].
  - constructor; [lia|]. apply Forall_app. split; [eapply spells_chars; eauto|repeat constructor; lia].
  - constructor; [char_tac|]. revert Hw. apply Forall_impl. intros. char_tac.
  - repeat constructor. unfold punctuator in Hc. destruct c; try discriminate; lia.
  - apply Forall_app. split; [destruct neg; repeat constructor; lia|]. apply Forall_app. split; [apply digits_chars, Hi|repeat constructor; lia].
  - apply number_chars, Hn.
  - apply Forall_app. split; [apply number_chars, Hn|]. constructor; [lia|]. destruct Hsg as [->|[->| ->]]; repeat constructor; lia.
Qed.
Lemma spaces_chars w : Forall (fun c => is_space c = true) w -> chars w.
Proof. apply Forall_impl. intros. char_tac. Qed.
Lemma line_chars w : line_break w -> chars w.
Proof.
  destruct 1 as [w H|body e w Hb He Hw]; [constructor; [lia|apply spaces_chars, H]|].
  repeat (constructor; [lia|]). apply Forall_app. split; [revert Hb; apply Forall_impl; intros; lia|]. constructor; [lia|apply spaces_chars, Hw].
Qed.
Lemma lexed_chars text toks : lexed text toks -> chars text.
Proof.
  induction 1; [constructor|apply Forall_app; split; [eapply word_chars; eauto|assumption]|constructor; [char_tac|assumption]
    |rewrite <- !app_assoc; repeat (constructor; [lia|]); apply Forall_app; split; [apply H|repeat (constructor; [lia|]); assumption]
    |apply Forall_app; split; [apply line_chars; assumption|assumption]|apply line_chars; assumption|].
  repeat (constructor; [lia|]). revert H. apply Forall_impl. intros; lia.
Qed.

Lemma next_of (f : Z -> bool) q : chars q -> goes f q -> match q with [] => True | c :: _ => 0 <= c /\ f c = true end.
Proof. intros Hc Hq. destruct q; [exact I|]. inversion Hc; subst. auto. Qed.

(** * Numbers *)
Lemma calm_app p q : calm (p ++ q) -> calm q.
Proof.
  intros [H1 H2]. split; [rewrite app_length in H1; lia|]. intros p0 d frac n ex v q0 E. apply (H2 (p ++ p0) d frac n ex v q0). rewrite E, app_assoc. reflexivity.
Qed.

Lemma token_value n b : number_ok n -> jwf b -> jval b = number_mantissa n -> -27 <= number_exp10 n < 2 ^ 63 ->
  forall bits, number_bits n bits -> exists f0, forall fuel, (f0 <= fuel)%nat -> number_token fuel b (signed (nl_neg n)) (number_exp10 n) = Ok (TNumber bits).
Proof.
  intros Hn W V He bits [B0 B1]. pose proof (mantissa_nonneg n Hn) as Hm. destruct (Z.eq_dec (number_mantissa n) 0) as [E|N].
  - rewrite (B0 E). exists O. intros. apply number_token_zero; [exact W|congruence].
  - destruct (C27_decimal_partial {| bf_sig := b; bf_sign := signed (nl_neg n); bf_exp := number_exp10 n; bf_rem := false |})
      as [bits' [f0 [H1 H2]]]; cbn [bf_sig bf_exp bf_rem bf_sign] in *; auto; [lia|].
    rewrite V in H2. exists f0. intros fuel Hfu. unfold number_token, bigfloat_to_f64. rewrite H1 by exact Hfu. cbn [obind].
    rewrite (f64_nearest_unique _ _ _ _ (B1 ltac:(lia) ltac:(lia)) H2). reflexivity.
Qed.

Lemma calm_no_exponent n x sg q : calm (number_text n ++ (x :: sg) ++ q) -> number_ok n -> nl_exp n = None -> x = 101 \/ x = 69 -> sg = [] \/ sg = [43] \/ sg = [45] ->
  goes is_terminal q -> -27 <= number_exp10 n < 2 ^ 63 /\ Z.of_nat (length (nl_frac n)) < 2 ^ 63.
Proof.
  intros [Hlen Hc] (Hi & Hf & He) En Hx Hsg Hq. destruct (int_last _ Hi) as (i & d & Ei & Hd).
  set (frac := match nl_frac n with [] => [] | f => 46 :: f end).
  assert (Et : number_text n = (if nl_neg n then [45] else []) ++ nl_int n ++ frac) by (unfold number_text; rewrite En, app_nil_r; reflexivity).
  assert (Ht : is_digit (hd 0 q) = false \/ q = []).
  { destruct q; [auto|]. left. cbn in *. revert Hq. classes. lia. }
  assert (H : -27 <= 0 - Z.of_nat (length (nl_frac n)) /\ - 2 ^ 63 < 0 < 2 ^ 63).
  { apply (Hc ((if nl_neg n then [45] else []) ++ i) d frac (Z.of_nat (length (nl_frac n))) (x :: sg) 0 q).
    - rewrite Et, Ei. rewrite <- !app_assoc. cbn [app]. rewrite <- !app_assoc. reflexivity.
    - exact Hd.
    - unfold fraction, frac. destruct (nl_frac n) as [|c l]; [left; auto|]. right. exists (c :: l). auto.
    - right. exists x, sg, []. split; [rewrite app_nil_r; reflexivity|]. split; [exact Hx|]. split; [constructor|].
      destruct Hsg as [->|[->| ->]]; auto.
    - unfold longest. destruct q as [|c q]; [exact I|]. assert (is_digit c = false /\ c <> 43 /\ c <> 45) as (A & B & C) by (revert Hq; cbn; classes; lia).
      split; [exact A|]. split; [discriminate|tauto]. }
  unfold number_exp10, exp_value. rewrite En. split; lia.
Qed.

Lemma word_reads w t q : word w t q -> chars q -> calm (w ++ q) -> exists f0, forall fuel, (f0 <= fuel)%nat ->
  tokenize fuel (w ++ q) = prepend_list [t] (tokenize fuel q).
Proof.
  destruct 1 as [body s q H|c w q Hc Hw Hq|c t q Hc|neg l b q Hi Hb Hv Hq|n bits q Hn Hb Hq|n l sg bits q Hn He Hl Hsg Hb Hne Hq]; intros Pq Hcalm.
  - destruct (reads_lexeme _ _ _ (lex_string body s H)) as [f0 R]. exists f0. intros fuel Hf. apply (R fuel Hf). apply next_of; [exact Pq|].
    destruct q; exact I || reflexivity.
  - destruct (reads_lexeme _ _ _ (lex_ident c w Hc Hw)) as [f0 R]. exists f0. intros fuel Hf. apply (R fuel Hf). apply next_of; [exact Pq|].
    destruct q; [exact I|]. cbn in *. rewrite Hq. reflexivity.
  - destruct (reads_lexeme _ _ _ (lex_punct c t Hc)) as [f0 R]. exists f0. intros fuel Hf. apply (R fuel Hf). apply next_of; [exact Pq|].
    destruct q; exact I || reflexivity.
  - destruct (reads_lexeme _ _ _ (lex_bigint neg l b Hi Hb Hv)) as [f0 R]. exists f0. intros fuel Hf. apply (R fuel Hf). apply next_of; [exact Pq|exact Hq].
  - destruct (calm_number _ [] n q Hcalm eq_refl Hn Hq) as (E1 & E2 & E3).
    destruct (reads_number n Hn ltac:(lia) E2 ltac:(lia)) as (b & W & V & R).
    destruct (token_value n b Hn W V ltac:(unfold number_exp10 in *; lia) bits Hb) as [f0 T]. exists f0. intros fuel Hf.
    apply (R fuel _ (T fuel Hf)). apply next_of; [exact Pq|exact Hq].
  - rewrite <- app_assoc in Hcalm. destruct (calm_no_exponent n l sg q Hcalm Hn He Hl Hsg Hq) as (E1 & E3).
    destruct (run_no_exponent n l sg Hn ltac:(lia) Hl Hsg) as (b & W & V & R).
    destruct (token_value n b Hn W V E1 bits Hb) as [f0 T]. exists f0. intros fuel Hf. specialize (T fuel Hf).
    destruct q as [|c q]; [congruence|]. inversion Pq; subst. cbn in Hq.
    assert (Et : number_text n ++ l :: sg = no_exponent n l sg).
    { unfold no_exponent, number_text. cbn [nl_neg nl_int nl_frac nl_exp]. rewrite He, !app_nil_r, <- !app_assoc. reflexivity. }
    rewrite Et. rewrite !tokenize_run, (run_app_ok _ _ _ _ _ _ (R fuel)), prepend_nil.
    assert (N : exp_state_into_token fuel b (signed (nl_neg n)) (- Z.of_nat (length (nl_frac n))) (exp_sign sg) 0 = Ok (TNumber bits)).
    { unfold exp_state_into_token. replace (match exp_sign sg with Positive => 0 | Negative => - 0 end) with 0 by (destruct (exp_sign sg); reflexivity).
      unfold number_exp10, exp_value in *. rewrite He in *. rewrite Z.sub_0_l in *. rewrite Z.add_0_r, i64_ok by lia. exact T. }
    rewrite !run_cons by assumption. cbn [step].
    assert (is_digit c = false /\ (c =? 43) = false /\ (c =? 45) = false) as [D1 [D2 D3]] by (revert Hq; classes; lia).
    assert (E : step fuel ((match sg with [] => ParseExpBegin | _ => ParseExpSign end) b (signed (nl_neg n))
              (- Z.of_nat (length (nl_frac n))) (exp_sign sg) 0) c = prepend [TNumber bits] (push fuel Initial c)).
    { destruct Hsg as [->|[->| ->]]; cbn [step exp_sign] in *; unfold cls_exp, cls_exp_begin; rewrite ?D1, ?D2, ?D3, Hq, N; reflexivity. }
    rewrite E. destruct (push fuel Initial c) as [[a st]| |]; try reflexivity. cbn [prepend obind]. rewrite prepend_list_app. reflexivity.
Qed.

Lemma lexed_read text toks : lexed text toks -> calm text -> exists f0, forall fuel, (f0 <= fuel)%nat -> tokenize fuel text = Ok toks.
Proof.
  induction 1 as [|w t q ts Hw Hq IH|c q ts Hc Hq IH|body q ts Hb Hq IH|w q ts Hw Hne Hs Hq IH|w Hw|body Hb]; intros Hcalm.
  - exists O. reflexivity.
  - destruct (word_reads w t q Hw (lexed_chars _ _ Hq) Hcalm) as [f0 R]. destruct (IH (calm_app _ _ Hcalm)) as [f1 R1].
    exists (Nat.max f0 f1). intros fuel Hf. rewrite R, R1 by lia. reflexivity.
  - destruct (IH (calm_app [c] q Hcalm)) as [f1 R1]. exists f1. intros fuel Hf. change (c :: q) with ([c] ++ q).
    rewrite (reads_blanks fuel [c]); [rewrite R1 by exact Hf; reflexivity|repeat constructor; exact Hc|]. apply next_of; [eapply lexed_chars; eauto|].
    destruct q; exact I || reflexivity.
  - destruct (IH (calm_app _ _ Hcalm)) as [f1 R1]. exists f1. intros fuel Hf.
    rewrite (reads_block fuel body Hb); [rewrite R1 by exact Hf; reflexivity|]. apply next_of; [eapply lexed_chars; eauto|].
    destruct q; exact I || reflexivity.
  - destruct (IH (calm_app _ _ Hcalm)) as [f1 R1]. exists f1. intros fuel Hf. rewrite tokenize_line; [|exact Hw|].
    + rewrite R1 by exact Hf. destruct q; [congruence|reflexivity].
    + apply next_of; [eapply lexed_chars; eauto|]. destruct q; [exact I|]. cbn in *. rewrite Hs. reflexivity.
  - exists O. intros fuel _. rewrite <- (app_nil_r w), tokenize_line; [reflexivity|exact Hw|exact I].
  - exists O. intros fuel _. apply tokenize_last_comment, Hb.
Qed.

Lemma word_token w t q : word w t q -> is_error t = false.
Proof.
  destruct 1; try reflexivity. unfold punctuator in *. destruct c as [|c|c]; try discriminate.
  repeat (destruct c as [c|c|]; try discriminate); match goal with H : Some _ = Some _ |- _ => inversion H; reflexivity end.
Qed.
Lemma lexed_no_error text toks : lexed text toks -> no_error toks.
Proof. induction 1; try (constructor; fail); try assumption; constructor; auto. eapply word_token; eauto. Qed.
