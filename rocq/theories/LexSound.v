(** The tokenizer accepts nothing but the lexical grammar: a text read without error tokens is
    [lexed] with the tokens returned. *)
From Coq Require Import ZArith Reals List Bool Lia.
From Coq Require Import ZifyBool ZifyNat.
From Verif Require Import Outcome LimbsModel LimbsSpec BigIntModel JsBigintModel BigFloatModel BigSpec
  LimbsProofs ShiftProofs JsBigintProofs BigFloatSpec RangeMapModel RangeMapSpec Prop_BigFloat TokenizerModel TokenizerSpec
  TokenizerProofs TokenizerRun TokenizerLex TokenizerNum TokenizerTotal TokenizerGrammar LexSpec FuelMono.
Import ListNotations.
Open Scope Z_scope.

Definition is_error (t : token) : bool := match t with TError _ => true | _ => false end.
Definition no_error (ts : list token) : Prop := Forall (fun t => is_error t = false) ts.

(** * Strings *)
Lemma spells_app a s : spells a s -> forall b t, spells b t -> spells (a ++ b) (s ++ t).
Proof. induction 1; intros b0 t0 Hb; cbn [app]; [exact Hb|constructor; auto|eapply sp_short; eauto|eapply sp_unicode; eauto]. Qed.
Lemma spells_snoc a s c : spells a s -> 0 <= c -> c <> 34 -> c <> 92 -> spells (a ++ [c]) (s ++ [c]).
Proof. intros H H0 H1 H2. apply spells_app; [exact H|]. apply sp_raw; auto. constructor. Qed.
Lemma spells_short a s x y : spells a s -> short_escape x = Some y -> spells (a ++ [92; x]) (s ++ [y]).
Proof. intros H Hx. apply spells_app; [exact H|]. apply sp_short; auto. constructor. Qed.
Lemma from_u32_some v c : from_u32 v = Some c -> c = v /\ scalar v.
Proof.
  unfold from_u32, is_char, scalar. destruct (_ || _) eqn:E; [|discriminate]. intros H. inversion H; subst. split; [reflexivity|]. lia.
Qed.

(** * Comments *)
Definition open_ended (x : list Z) : Prop := ~ exists p q, x = p ++ [42; 47] ++ q.
Lemma open_snoc x c : open_ended x -> (c = 47 -> ~ exists p, x = p ++ [42]) -> open_ended (x ++ [c]).
Proof.
  intros Hx Hc (p & q & E). destruct q as [|d q'] using rev_ind; [|clear IHq'].
  - rewrite app_nil_r in E. change ([42; 47]) with ([42] ++ [47]) in E. rewrite app_assoc in E.
    apply app_inj_tail in E. destruct E as [E1 E2]. apply (Hc E2). exists p. exact E1.
  - rewrite !app_assoc in E. apply app_inj_tail in E. destruct E as [E1 _]. apply Hx. exists p, q'. rewrite E1, <- !app_assoc. reflexivity.
Qed.
Lemma not_last (x : list Z) c d : c <> d -> ~ exists p, x ++ [c] = p ++ [d].
Proof. intros H (p & E). apply app_inj_tail in E. tauto. Qed.

(** * Numbers *)
Definition sgn (s : sign) : list Z := match s with Positive => [] | Negative => [45] end.
Definition neg_of (s : sign) : bool := match s with Positive => false | Negative => true end.
Lemma signed_neg s : signed (neg_of s) = s.
Proof. destruct s; reflexivity. Qed.
Definition dotted (f : list Z) : list Z := match f with [] => [] | _ => 46 :: f end.
Definition prefix (s : sign) (l f : list Z) : list Z := sgn s ++ l ++ dotted f.
Definition lit (s : sign) (l f : list Z) (ex : option (Z * list Z * list Z)) : number_lit :=
  {| nl_neg := neg_of s; nl_int := l; nl_frac := f; nl_exp := ex |}.
Lemma lit_text s l f ex : number_text (lit s l f ex) = prefix s l f ++ match ex with None => [] | Some (x, sg, ds) => x :: sg ++ ds end.
Proof. unfold number_text, prefix, lit, dotted. cbn. destruct s, f; cbn; rewrite <- ?app_assoc; reflexivity. Qed.

Definition mant (b : jsbigint) (fe : Z) (l f : list Z) : Prop :=
  int_part l /\ all_digits f /\ fe = - Z.of_nat (length f) /\ jwf b /\ jval b = dec_value (l ++ f).

Lemma dec_value_snoc l c : dec_value (l ++ [c]) = dec_value l * 10 + (c - 48).
Proof. unfold dec_value. rewrite fold_left_app. reflexivity. Qed.
Lemma dec_value_pos l : all_digits l -> 0 <= dec_value l.
Proof. intros H. pose proof (dec_from_ge 0 l (Z.le_refl 0) H). exact H0. Qed.
Lemma digits_snoc l c : all_digits l -> is_digit c = true -> all_digits (l ++ [c]).
Proof. intros. apply Forall_app. auto. Qed.

(** The token of a number that the conversion returned. *)
Lemma token_bits fuel b s fe l f ex t : mant b fe l f -> match ex with None => True | Some (x, sg, ds) =>
    (x = 101 \/ x = 69) /\ (sg = [] \/ sg = [43] \/ sg = [45]) /\ ds <> [] /\ all_digits ds end ->
  number_exp10 (lit s l f ex) < 2 ^ 63 ->
  number_token fuel b s (number_exp10 (lit s l f ex)) = Ok t -> exists bits, t = TNumber bits /\ number_ok (lit s l f ex) /\ number_bits (lit s l f ex) bits.
Proof.
  intros (Hi & Hf & Hfe & Wb & Vb) Hex He Ht.
  assert (Hok : number_ok (lit s l f ex)) by (split; [exact Hi|split; [exact Hf|exact Hex]]).
  assert (Hm : number_mantissa (lit s l f ex) = jval b) by (symmetry; exact Vb).
  destruct (Z.eq_dec (jval b) 0) as [E|N].
  - rewrite number_token_zero in Ht by auto. inversion Ht; subst. exists 0. split; [reflexivity|]. split; [exact Hok|].
    split; [reflexivity|]. rewrite Hm. lia.
  - unfold number_token in Ht. destruct (bigfloat_to_f64 _ _) as [bits| |] eqn:Eb; try discriminate. cbn [obind] in Ht. inversion Ht; subst.
    exists bits. split; [reflexivity|]. split; [exact Hok|]. split; [rewrite Hm; lia|]. intros Hp Hl. rewrite Hm in *.
    destruct (C27_decimal_partial {| bf_sig := b; bf_sign := s; bf_exp := number_exp10 (lit s l f ex); bf_rem := false |})
      as [bits' [f0 [H1 H2]]]; cbn [bf_sig bf_exp bf_rem bf_sign] in *; auto.
    assert (Eq : bits' = bits).
    { specialize (H1 (Nat.max f0 fuel) (Nat.le_max_l _ _)).
      assert (Hu : upto (bigfloat_to_f64 fuel {| bf_sig := b; bf_sign := s; bf_exp := number_exp10 (lit s l f ex); bf_rem := false |})
                        (bigfloat_to_f64 (Nat.max f0 fuel) {| bf_sig := b; bf_sign := s; bf_exp := number_exp10 (lit s l f ex); bf_rem := false |})).
      { unfold bigfloat_to_f64. apply upto_bind; [apply to_bin_more; lia|]. intros. apply to_f64_more. lia. }
      apply (upto_ok _ _ _ Hu) in Eb. unfold bigfloat_to_f64 in Eb. rewrite H1 in Eb. congruence. }
    subst. cbn [nl_neg lit]. rewrite signed_neg. exact H2.
Qed.

(** * Text consumed by a state *)
Definition hexes (hs : list Z) (i u : Z) : Prop :=
  match hs with
  | [] => i = 0 /\ u = 0
  | [a] => exists va, hex_value a = Some va /\ i = 1 /\ u = va * 4096
  | [a; b] => exists va vb, hex_value a = Some va /\ hex_value b = Some vb /\ i = 2 /\ u = va * 4096 + vb * 256
  | [a; b; c] => exists va vb vc, hex_value a = Some va /\ hex_value b = Some vb /\ hex_value c = Some vc /\ i = 3 /\
      u = va * 4096 + vb * 256 + vc * 16
  | _ => False
  end.

Definition holds (st : tstate) (w : list Z) : Prop :=
  match st with
  | Initial => w = []
  | ParseId s => w = s /\ exists c s', s = c :: s' /\ ident_start c = true /\ Forall (fun c => ident_part c = true) s'
  | ParseString s => exists body, w = 34 :: body /\ spells body s
  | ParseEscapeChar s => exists body, w = 34 :: body ++ [92] /\ spells body s
  | ParseUnicodeChar s u i => exists body hs, w = 34 :: body ++ 92 :: 117 :: hs /\ spells body s /\ hexes hs i u
  | ParseMinus => w = [45]
  | ParseZero s => w = sgn s ++ [48]
  | ParseInt b s => exists l, w = sgn s ++ l /\ (exists c l', l = c :: l' /\ c <> 48) /\ mant b 0 l []
  | ParseFracBegin b s => exists l, w = sgn s ++ l ++ [46] /\ mant b 0 l []
  | ParseFrac b s fe => exists l f, w = prefix s l f /\ f <> [] /\ mant b fe l f
  | ParseExpBegin b s fe es e => exists l f x, w = prefix s l f ++ [x] /\ mant b fe l f /\ (x = 101 \/ x = 69) /\ es = Positive /\ e = 0
  | ParseExpSign b s fe es e => exists l f x sg, w = prefix s l f ++ [x; sg] /\ mant b fe l f /\ (x = 101 \/ x = 69) /\
      (sg = 43 /\ es = Positive \/ sg = 45 /\ es = Negative) /\ e = 0
  | ParseExp b s fe es e => exists l f x sg ds, w = prefix s l f ++ x :: sg ++ ds /\ mant b fe l f /\ (x = 101 \/ x = 69) /\
      ((sg = [] \/ sg = [43]) /\ es = Positive \/ sg = [45] /\ es = Negative) /\ ds <> [] /\ all_digits ds /\ e = dec_value ds
  | ParseBigInt b => exists (neg : bool) l, w = (if neg then [45] else []) ++ l ++ [110] /\ int_part l /\ jwf b /\
      jval b = if neg then - dec_value l else dec_value l
  | ParseNewLine => line_break w
  | ParseCommentStart => w = [47]
  | ParseSinglelineComment => exists body, w = [47; 47] ++ body /\ Forall (fun c => 0 <= c /\ c <> 10 /\ c <> 13) body
  | ParseMultilineComment => exists body, w = [47; 42] ++ body /\ chars body /\ open_ended body /\ ~ exists p, body = p ++ [42]
  | ParseMultilineCommentAsterix => exists body, w = [47; 42] ++ body ++ [42] /\ comment_body body
  | ParseOperator s => exists c t, s = [c] /\ w = [c] /\ punctuator c = Some t /\ operator_to_token [c] = Some t
  end.

(** * One step *)
Definition closed (w : list Z) (toks : list token) (q : list Z) : Prop := forall ts, lexed q ts -> lexed (w ++ q) (toks ++ ts).

Definition moved (fuel : nat) (st : tstate) (w : list Z) (c : Z) (toks : list token) (st' : tstate) : Prop :=
  (toks = [] /\ holds st' (w ++ [c])) \/
  (st' = Initial /\ forall q, closed (w ++ [c]) toks q) \/
  (exists t, step fuel st c = prepend [t] (push fuel Initial c) /\ forall q, closed w [t] (c :: q)).

Lemma punctuator_op c t : punctuator c = Some t -> operator_to_token [c] = Some t.
Proof.
  intros Hc. unfold punctuator in Hc. destruct c as [|c|c]; try discriminate.
  repeat (destruct c as [c|c|]; try discriminate); inversion Hc; subst; reflexivity.
Qed.
Lemma op_punctuator c : is_op c = true -> exists t, punctuator c = Some t.
Proof.
  intros H. unfold is_op, is_punct in H.
  assert (c = 123 \/ c = 125 \/ c = 91 \/ c = 93 \/ c = 58 \/ c = 44 \/ c = 61 \/ c = 59 \/ c = 40 \/ c = 41 \/ c = 46) as D by lia.
  repeat (destruct D as [->|D]; [eexists; reflexivity|]). subst. eexists; reflexivity.
Qed.
Lemma nonzero_digit c : is_nonzero_digit c = true -> is_digit c = true /\ c <> 48.
Proof. classes. lia. Qed.

Lemma from_initial fuel c toks st' : 0 <= c -> push fuel Initial c = Ok (toks, st') -> no_error toks ->
  toks = [] /\ (holds st' [c] \/ st' = Initial /\ is_blank c = true).
Proof.
  intros Pc H Hn. rewrite push_initial in H by exact Pc. unfold cls_initial in H.
  destruct (is_punct c || (c =? 46)) eqn:E1.
  { inversion H; subst. split; [reflexivity|]. left. destruct (op_punctuator c E1) as [t Ht]. exists c, t.
    repeat split; auto. apply punctuator_op, Ht. }
  destruct (is_nonzero_digit c) eqn:E2.
  { inversion H; subst. split; [reflexivity|]. left. destruct (nonzero_digit c E2) as [D N]. destruct (from_digit_spec c D) as [W V].
    exists [c]. split; [reflexivity|]. split; [exists c, []; auto|]. unfold mant. cbn [app length]. split; [|split; [constructor|split; [reflexivity|split; [exact W|]]]].
    - split; [repeat constructor; exact D|right; exists c, []; auto].
    - rewrite V. unfold dec_value. cbn. lia. }
  destruct (c =? 34) eqn:E3; [inversion H; subst; split; [reflexivity|]; left; exists []; split; [f_equal; lia|constructor]|].
  destruct (c =? 48) eqn:E4; [inversion H; subst; split; [reflexivity|]; left; cbn; f_equal; lia|].
  destruct (c =? 45) eqn:E5; [inversion H; subst; split; [reflexivity|]; left; cbn; f_equal; lia|].
  destruct (ident_start c) eqn:E6; [inversion H; subst; split; [reflexivity|]; left; split; [reflexivity|]; exists c, []; auto|].
  destruct (c =? 10) eqn:E7; [inversion H; subst; split; [reflexivity|]; left; replace c with 10 by lia; apply lb_newline; constructor|].
  destruct (is_blank c) eqn:E8; [inversion H; subst; split; [reflexivity|]; right; auto|].
  destruct (c =? 47) eqn:E9; [inversion H; subst; split; [reflexivity|]; left; cbn; f_equal; lia|].
  inversion H; subst. inversion Hn; subst. discriminate.
Qed.

Lemma prepend_error t fuel c toks st' : is_error t = true -> prepend [t] (push fuel Initial c) = Ok (toks, st') -> ~ no_error toks.
Proof.
  intros Ht H Hn. destruct (push fuel Initial c) as [[a st]| |]; try discriminate. inversion H; subst. inversion Hn; subst. congruence.
Qed.
Lemma prepend_error' t o toks st' : is_error t = true -> prepend [t] o = Ok (toks, st') -> ~ no_error toks.
Proof.
  intros Ht H Hn. destruct o as [[a st]| |]; try discriminate. inversion H; subst. inversion Hn; subst. congruence.
Qed.

Lemma close_word w t c q : word w t (c :: q) -> closed w [t] (c :: q).
Proof. intros H ts Hts. cbn [app]. apply lx_word; auto. Qed.

Lemma mant_int b l c : mant b 0 l [] -> (exists c l', l = c :: l' /\ c <> 48) -> is_digit c = true ->
  forall b', add_digit b c = Ok b' -> mant b' 0 (l ++ [c]) [] /\ exists c0 l', l ++ [c] = c0 :: l' /\ c0 <> 48.
Proof.
  intros (Hi & _ & _ & W & V) (c0 & l' & -> & N) D b' E. destruct (add_digit_spec b c W D) as (b2 & E2 & W2 & V2).
  rewrite E in E2. inversion E2; subst b2. cbn [app] in *. rewrite app_nil_r in *. split; [|exists c0, (l' ++ [c]); auto].
  split; [|split; [constructor|split; [reflexivity|split; [exact W2|]]]].
  - split; [change (c0 :: l' ++ [c]) with ((c0 :: l') ++ [c]); apply digits_snoc; [apply Hi|exact D]|right; exists c0, (l' ++ [c]); auto].
  - rewrite V2, V, app_nil_r. change (c0 :: l' ++ [c]) with ((c0 :: l') ++ [c]). rewrite dec_value_snoc. ring.
Qed.
Lemma mant_frac b fe l f c : mant b fe l f -> is_digit c = true ->
  forall b', add_digit b c = Ok b' -> mant b' (fe - 1) l (f ++ [c]).
Proof.
  intros (Hi & Hf & Hfe & W & V) D b' E. destruct (add_digit_spec b c W D) as (b2 & E2 & W2 & V2).
  rewrite E in E2. inversion E2; subst b2. split; [exact Hi|]. split; [apply digits_snoc; auto|].
  split; [rewrite app_length; cbn [length]; lia|]. split; [exact W2|]. rewrite V2, V, app_assoc, dec_value_snoc. ring.
Qed.
Lemma dotted_snoc f c : dotted (f ++ [c]) = (match f with [] => [46] | _ => 46 :: f end) ++ [c].
Proof. destruct f; reflexivity. Qed.

Lemma exp_exact n x : i64 n = Ok x -> x = n /\ n < 2 ^ 63.
Proof. unfold i64. destruct (_ && _) eqn:E; [|discriminate]. intros H. inversion H; subst. split; [reflexivity|]. lia. Qed.

(** The end of a number: at a terminal character, or at the end of the text. *)
Lemma end_int fuel b s l t : mant b 0 l [] -> number_token fuel b s 0 = Ok t -> forall q, goes is_terminal q -> word (sgn s ++ l) t q.
Proof.
  intros Hm Ht q Hq. destruct (token_bits fuel b s 0 l [] None t Hm I) as (bits & -> & Hok & Hb); [reflexivity|exact Ht|].
  pose proof (w_number _ bits q Hok Hb Hq) as H. rewrite lit_text in H. unfold prefix in H. cbn [dotted] in H. rewrite !app_nil_r in H. exact H.
Qed.
Lemma end_frac fuel b s fe l f t : mant b fe l f -> number_token fuel b s fe = Ok t -> forall q, goes is_terminal q -> word (prefix s l f) t q.
Proof.
  intros Hm Ht q Hq. assert (E : number_exp10 (lit s l f None) = fe) by (destruct Hm as (_ & _ & -> & _); reflexivity).
  destruct (token_bits fuel b s fe l f None t Hm I) as (bits & -> & Hok & Hb); rewrite ?E; auto.
  { destruct Hm as (_ & _ & -> & _). lia. }
  pose proof (w_number _ bits q Hok Hb Hq) as H. rewrite lit_text, app_nil_r in H. exact H.
Qed.
Lemma end_exp fuel b s fe es e l f x sg ds t : mant b fe l f -> (x = 101 \/ x = 69) ->
  ((sg = [] \/ sg = [43]) /\ es = Positive \/ sg = [45] /\ es = Negative) -> ds <> [] -> all_digits ds -> e = dec_value ds ->
  exp_state_into_token fuel b s fe es e = Ok t -> forall q, goes is_terminal q -> word (prefix s l f ++ x :: sg ++ ds) t q.
Proof.
  intros Hm Hx Hsg Hd Hds He Ht q Hq. unfold exp_state_into_token in Ht. destruct (i64 _) as [v| |] eqn:Ei; try discriminate. cbn [obind] in Ht.
  destruct (exp_exact _ _ Ei) as [-> Hlt].
  assert (E : number_exp10 (lit s l f (Some (x, sg, ds))) = fe + match es with Positive => e | Negative => - e end).
  { destruct Hm as (_ & _ & -> & _). unfold number_exp10, exp_value. cbn [nl_exp nl_frac lit]. subst e.
    destruct Hsg as [[[->| ->] ->]|[-> ->]]; lia. }
  destruct (token_bits fuel b s fe l f (Some (x, sg, ds)) t Hm) as (bits & -> & Hok & Hb); rewrite ?E; auto.
  { split; [exact Hx|]. split; [|auto]. destruct Hsg as [[[->| ->] _]|[-> _]]; auto. }
  pose proof (w_number _ bits q Hok Hb Hq) as H. rewrite lit_text in H. exact H.
Qed.
Lemma end_no_exp fuel b s fe es l f x sg t : mant b fe l f -> (x = 101 \/ x = 69) -> (sg = [] \/ sg = [43] \/ sg = [45]) ->
  exp_state_into_token fuel b s fe es 0 = Ok t -> forall q, q <> [] -> goes is_terminal q -> word (prefix s l f ++ x :: sg) t q.
Proof.
  intros Hm Hx Hsg Ht q Hne Hq. unfold exp_state_into_token in Ht. destruct (i64 _) as [v| |] eqn:Ei; try discriminate. cbn [obind] in Ht.
  destruct (exp_exact _ _ Ei) as [-> Hlt].
  replace (match es with Positive => 0 | Negative => - 0 end) with 0 in * by (destruct es; reflexivity). rewrite Z.add_0_r in *.
  assert (E : number_exp10 (lit s l f None) = fe) by (destruct Hm as (_ & _ & -> & _); reflexivity).
  destruct (token_bits fuel b s fe l f None t Hm I) as (bits & -> & Hok & Hb); rewrite ?E; auto.
  pose proof (w_no_exponent _ x sg bits q Hok eq_refl Hx Hsg Hb Hne Hq) as H. rewrite lit_text, app_nil_r in H. exact H.
Qed.

Ltac refuse := match goal with
  | H : prepend [TError _] _ = Ok _, Hn : no_error _ |- _ => exfalso; eapply prepend_error'; [|exact H|exact Hn]; reflexivity
  | H : Ok ([TError _], _) = Ok _, Hn : no_error _ |- _ => exfalso; inversion H; subst; inversion Hn; discriminate
  end.
Ltac stay H := left; inversion H; subst; split; [reflexivity|]; cbn [holds].

Lemma int_mant_zero : mant jb_zero 0 [48] [].
Proof. split; [split; [repeat constructor|left; reflexivity]|]. split; [constructor|]. split; [reflexivity|]. split; [apply jb_zero_wf|reflexivity]. Qed.

Lemma after_int b s l c toks st' w : mant b 0 l [] -> w = sgn s ++ l ->
  (c =? 46 = true /\ Ok ([] : list token, ParseFracBegin b s) = Ok (toks, st')) \/
  (is_e c = true /\ Ok ([], ParseExpBegin b s 0 Positive 0) = Ok (toks, st')) \/
  (c =? 110 = true /\ Ok ([], ParseBigInt (into_bigint_state b s)) = Ok (toks, st')) ->
  toks = [] /\ holds st' (w ++ [c]).
Proof.
  intros Hm Hw [[Hc H]|[[Hc H]|[Hc H]]]; inversion H; subst; (split; [reflexivity|]); cbn [holds].
  - exists l. split; [rewrite <- app_assoc; do 3 f_equal; lia|exact Hm].
  - exists l, [], c. split; [unfold prefix; cbn [dotted]; rewrite app_nil_r; reflexivity|]. split; [exact Hm|]. split; [unfold is_e in Hc; lia|]. auto.
  - exists (neg_of s), l. split; [rewrite <- app_assoc; replace c with 110 by lia; destruct s; reflexivity|].
    destruct Hm as (Hi & _ & _ & W & V). rewrite app_nil_r in V. split; [exact Hi|]. destruct s; cbn [into_bigint_state neg_of].
    + auto.
    + destruct (jb_negative_spec b W) as [W' V']. split; [exact W'|]. rewrite V', V. reflexivity.
Qed.

Lemma step_moves fuel st w c toks st' : holds st w -> st <> Initial -> 0 <= c -> step fuel st c = Ok (toks, st') -> no_error toks ->
  moved fuel st w c toks st'.
Proof.
  intros Hw Hni Pc H Hn. destruct st; cbn [holds] in Hw; cbn [step] in H.
  - congruence.
  - (* identifier *)
    destruct Hw as (-> & c0 & s' & -> & H1 & H2). destruct (ident_part c) eqn:E.
    + stay H. split; [reflexivity|]. exists c0, (s' ++ [c]). split; [reflexivity|]. split; [exact H1|]. apply Forall_app. auto.
    + right; right. exists (TId (c0 :: s')). split; [cbn [step]; rewrite E; reflexivity|]. intros q. apply close_word, w_ident; auto.
  - (* string *)
    destruct Hw as (body & -> & Hb). rewrite push_string in H by exact Pc. destruct (c =? 34) eqn:E1; [|destruct (c =? 92) eqn:E2].
    + inversion H; subst. right; left. split; [reflexivity|]. intros q ts Hts. cbn [app]. replace c with 34 by lia.
      apply (lx_word (34 :: body ++ [34]) (TString s) q ts); [constructor; exact Hb|exact Hts].
    + stay H. exists body. split; [cbn [app]; do 3 f_equal; lia|exact Hb].
    + stay H. exists (body ++ [c]). split; [reflexivity|]. apply spells_snoc; auto; lia.
  - (* escape *)
    destruct Hw as (body & -> & Hb).
    assert (K : forall y, short_escape c = Some y -> continue_string_state s y = Ok (toks, st') -> moved fuel (ParseEscapeChar s) (34 :: body ++ [92]) c toks st').
    { intros y Hy Hc. unfold continue_string_state in Hc. stay Hc. exists (body ++ [92; c]). split; [cbn [app]; rewrite <- app_assoc; reflexivity|].
      apply spells_short; auto. }
    unfold cls_escape in H.
    destruct ((c =? 34) || (c =? 92) || (c =? 47)) eqn:E0.
    { apply (K c); [|exact H]. unfold short_escape. destruct (c =? 34) eqn:F1; [f_equal; lia|]. destruct (c =? 92) eqn:F2; [f_equal; lia|].
      destruct (c =? 47) eqn:F3; [f_equal; lia|discriminate]. }
    destruct (c =? 98) eqn:E1; [apply (K 8); [replace c with 98 by lia; reflexivity|exact H]|].
    destruct (c =? 102) eqn:E2; [apply (K 12); [replace c with 102 by lia; reflexivity|exact H]|].
    destruct (c =? 110) eqn:E3; [apply (K 10); [replace c with 110 by lia; reflexivity|exact H]|].
    destruct (c =? 114) eqn:E4; [apply (K 13); [replace c with 114 by lia; reflexivity|exact H]|].
    destruct (c =? 116) eqn:E5; [apply (K 9); [replace c with 116 by lia; reflexivity|exact H]|].
    destruct (c =? 117) eqn:E6; [|refuse].
    stay H. exists body, []. split; [cbn [app]; rewrite <- app_assoc; replace c with 117 by lia; reflexivity|]. split; [exact Hb|]. split; reflexivity.
  - (* hexadecimal digit *)
    destruct Hw as (body & hs & -> & Hb & Hh). destruct (hex_value c) as [v|] eqn:Ev; [|refuse].
    pose proof (hex_range _ _ Ev) as [_ Rv]. unfold unicode_push in H. cbv zeta in H.
    assert (App : forall hs', 34 :: (body ++ 92 :: 117 :: hs') ++ [c] = 34 :: body ++ 92 :: 117 :: hs' ++ [c])
      by (intros; rewrite <- app_assoc; reflexivity).
    destruct hs as [|a [|b [|d [|? ?]]]]; cbn [hexes] in Hh.
    + destruct Hh as [-> ->]. change (0 =? 3) with false in H. change ((0 <=? 0) && (0 <=? 2)) with true in H. cbv iota in H.
      assert (Eu : Z.lor 0 (Z.shiftl v ((3 - 0) * 4)) = v * 4096) by (rewrite Z.lor_0_l, Z.shiftl_mul_pow2 by lia; reflexivity). rewrite Eu in H.
      stay H. exists body, [c]. split; [apply (App [])|]. split; [exact Hb|]. exists v. split; [exact Ev|]. split; reflexivity.
    + destruct Hh as (va & Ha & -> & ->). pose proof (hex_range _ _ Ha) as [_ Ra].
      change (1 =? 3) with false in H. change ((0 <=? 1) && (1 <=? 2)) with true in H. cbv iota in H.
      assert (Eu : Z.lor (va * 4096) (Z.shiftl v ((3 - 1) * 4)) = va * 4096 + v * 256).
      { change ((3 - 1) * 4) with 8. rewrite Z.shiftl_mul_pow2 by lia. change (va * 4096) with (va * 2 ^ 12). rewrite lor_hex by lia. reflexivity. }
      rewrite Eu in H. stay H. exists body, [a; c]. split; [apply (App [a])|]. split; [exact Hb|]. exists va, v. split; [exact Ha|]. split; [exact Ev|]. split; reflexivity.
    + destruct Hh as (va & vb & Ha & Hb' & -> & ->). pose proof (hex_range _ _ Ha) as [_ Ra]. pose proof (hex_range _ _ Hb') as [_ Rb].
      change (2 =? 3) with false in H. change ((0 <=? 2) && (2 <=? 2)) with true in H. cbv iota in H.
      assert (Eu : Z.lor (va * 4096 + vb * 256) (Z.shiftl v ((3 - 2) * 4)) = va * 4096 + vb * 256 + v * 16).
      { change ((3 - 2) * 4) with 4. rewrite Z.shiftl_mul_pow2 by lia. replace (va * 4096 + vb * 256) with ((va * 16 + vb) * 2 ^ 8) by lia.
        rewrite lor_hex by lia. lia. }
      rewrite Eu in H. stay H. exists body, [a; b; c]. split; [apply (App [a; b])|]. split; [exact Hb|]. exists va, vb, v.
      split; [exact Ha|]. split; [exact Hb'|]. split; [exact Ev|]. split; reflexivity.
    + destruct Hh as (va & vb & vc & Ha & Hb' & Hc' & -> & ->). pose proof (hex_range _ _ Ha) as [_ Ra]. pose proof (hex_range _ _ Hb') as [_ Rb].
      pose proof (hex_range _ _ Hc') as [_ Rc]. change (3 =? 3) with true in H. cbv iota in H.
      assert (E4 : Z.lor (va * 4096 + vb * 256 + vc * 16) (Z.shiftl v ((3 - 3) * 4)) = va * 4096 + vb * 256 + vc * 16 + v).
      { change ((3 - 3) * 4) with 0. rewrite Z.shiftl_0_r. replace (va * 4096 + vb * 256 + vc * 16) with ((va * 256 + vb * 16 + vc) * 2 ^ 4) by lia.
        apply lor_hex; lia. }
      rewrite E4 in H. destruct (from_u32 _) as [x|] eqn:Ex; [|refuse].
      destruct (from_u32_some _ _ Ex) as [-> Hs]. unfold continue_string_state in H. stay H.
      exists (body ++ [92; 117; a; b; d; c]). split; [cbn [app]; rewrite <- app_assoc; reflexivity|].
      apply spells_app; [exact Hb|]. eapply sp_unicode; eauto. constructor.
    + destruct Hh.
  - (* minus *)
    subst w. destruct (c =? 48) eqn:E1; [stay H; cbn; do 2 f_equal; lia|]. destruct (is_nonzero_digit c) eqn:E2; [|refuse].
    stay H. destruct (nonzero_digit c E2) as [D N]. destruct (from_digit_spec c D) as [W V].
    exists [c]. split; [reflexivity|]. split; [exists c, []; auto|]. unfold mant. cbn [app length]. split; [|split; [constructor|split; [reflexivity|split; [exact W|]]]].
    + split; [repeat constructor; exact D|right; exists c, []; auto].
    + rewrite V. unfold dec_value. cbn. lia.
  - (* zero *)
    unfold cls_zero in H.
    pose proof (fun Hx => or_introl (after_int jb_zero s [48] c toks st' w int_mant_zero Hw Hx) : moved fuel (ParseZero s) w c toks st') as A.
    destruct (c =? 46) eqn:E1; [apply A; auto|]. destruct (is_e c) eqn:E2; [apply A; auto|].
    destruct (c =? 110) eqn:E3.
    { apply A. right; right. split; [reflexivity|]. rewrite <- H. destruct s; reflexivity. }
    destruct (is_terminal c) eqn:E4; [|refuse]. right; right. exists (TNumber 0).
    split; [cbn [step]; unfold cls_zero; rewrite E1, E2, E3, E4; reflexivity|]. intros q. apply close_word. subst w.
    apply (end_int fuel jb_zero s [48] (TNumber 0) int_mant_zero); [apply number_token_zero; [apply jb_zero_wf|reflexivity]|exact E4].
  - (* integer part *)
    destruct Hw as (l & Hw & Hl & Hm). unfold cls_int in H. destruct (is_digit c) eqn:E0.
    { destruct (add_digit b c) as [b'| |] eqn:Ea; try discriminate. cbn [obind] in H. destruct (mant_int b l c Hm Hl E0 b' Ea) as [M1 M2].
      stay H. exists (l ++ [c]). split; [rewrite app_assoc; reflexivity|]. auto. }
    pose proof (fun Hx => or_introl (after_int b s l c toks st' w Hm Hw Hx) : moved fuel (ParseInt b s) w c toks st') as A.
    destruct (c =? 46) eqn:E1; [apply A; auto|]. destruct (is_e c) eqn:E2; [apply A; auto|].
    destruct (c =? 110) eqn:E3; [apply A; auto|].
    destruct (is_terminal c) eqn:E4; [|refuse]. right; right. destruct (number_token fuel b s 0) as [t| |] eqn:Et; try discriminate. exists t.
    split; [cbn [step]; unfold cls_int; rewrite E0, E1, E2, E3, E4, Et; reflexivity|]. intros q. apply close_word. subst w.
    apply (end_int fuel b s l t Hm Et); exact E4.
  - (* first digit of the fraction *)
    destruct Hw as (l & -> & Hm). destruct (is_digit c) eqn:E0; [|refuse]. unfold frac_add_digit in H.
    destruct (add_digit b c) as [b'| |] eqn:Ea; try discriminate. cbn [obind] in H. change (i64 (0 - 1)) with (Ok (-1)) in H. cbn [obind] in H.
    pose proof (mant_frac b 0 l [] c Hm E0 b' Ea) as M. stay H. exists l, [c]. split; [unfold prefix; cbn [dotted]; rewrite <- !app_assoc; reflexivity|].
    split; [discriminate|exact M].
  - (* fraction *)
    destruct Hw as (l & f & -> & Hf & Hm). unfold cls_frac in H. destruct (is_digit c) eqn:E0.
    { unfold frac_add_digit in H. destruct (add_digit b c) as [b'| |] eqn:Ea; try discriminate. cbn [obind] in H.
      destruct (i64 (fe - 1)) as [fe'| |] eqn:Ei; try discriminate. cbn [obind] in H. destruct (exp_exact _ _ Ei) as [-> _].
      stay H. exists l, (f ++ [c]). split; [|split; [destruct f; discriminate|apply (mant_frac b); auto]].
      unfold prefix. rewrite dotted_snoc. destruct f; [congruence|]. cbn [dotted]. rewrite <- !app_assoc. reflexivity. }
    destruct (is_e c) eqn:E1.
    { stay H. exists l, f, c. split; [reflexivity|]. split; [exact Hm|]. split; [unfold is_e in E1; lia|]. auto. }
    destruct (is_terminal c) eqn:E4; [|refuse]. right; right. destruct (number_token fuel b s fe) as [t| |] eqn:Et; try discriminate. exists t.
    split; [cbn [step]; unfold cls_frac; rewrite E0, E1, E4, Et; reflexivity|]. intros q. apply close_word.
    apply (end_frac fuel b s fe l f t Hm Et); exact E4.
  - (* after the exponent letter *)
    destruct Hw as (l & f & x & -> & Hm & Hx & -> & ->). unfold cls_exp_begin in H. destruct (is_digit c) eqn:E0.
    { unfold exp_add_digit in H. change (i64 (0 * 10)) with (Ok 0) in H. cbn [obind] in H.
      destruct (i64 (0 + digit_to_number c)) as [e'| |] eqn:Ei; try discriminate. cbn [obind] in H. destruct (exp_exact _ _ Ei) as [-> _].
      stay H. exists l, f, x, [], [c]. split; [rewrite <- app_assoc; reflexivity|]. split; [exact Hm|]. split; [exact Hx|]. split; [auto|]. split; [discriminate|].
      split; [repeat constructor; exact E0|]. unfold dec_value, digit_to_number. cbn. lia. }
    destruct (c =? 43) eqn:E1; [stay H; exists l, f, x, c; split; [rewrite <- app_assoc; reflexivity|]; split; [exact Hm|]; split; [exact Hx|]; split; [left; split; [lia|reflexivity]|reflexivity]|].
    destruct (c =? 45) eqn:E2; [stay H; exists l, f, x, c; split; [rewrite <- app_assoc; reflexivity|]; split; [exact Hm|]; split; [exact Hx|]; split; [right; split; [lia|reflexivity]|reflexivity]|].
    destruct (is_terminal c) eqn:E4; [|refuse]. right; right. destruct (exp_state_into_token fuel b s fe Positive 0) as [t| |] eqn:Et; try discriminate. exists t.
    split; [cbn [step]; unfold cls_exp_begin; rewrite E0, E1, E2, E4, Et; reflexivity|]. intros q. apply close_word.
    apply (end_no_exp fuel b s fe Positive l f x [] t Hm Hx ltac:(auto) Et); [discriminate|exact E4].
  - (* after the sign of the exponent *)
    destruct Hw as (l & f & x & sg & -> & Hm & Hx & Hsg & ->). unfold cls_exp in H. destruct (is_digit c) eqn:E0.
    { unfold exp_add_digit in H. change (i64 (0 * 10)) with (Ok 0) in H. cbn [obind] in H.
      destruct (i64 (0 + digit_to_number c)) as [e'| |] eqn:Ei; try discriminate. cbn [obind] in H. destruct (exp_exact _ _ Ei) as [-> _].
      stay H. exists l, f, x, [sg], [c]. split; [rewrite <- app_assoc; reflexivity|]. split; [exact Hm|]. split; [exact Hx|].
      split; [destruct Hsg as [[-> ->]|[-> ->]]; auto|]. split; [discriminate|].
      split; [repeat constructor; exact E0|]. unfold dec_value, digit_to_number. cbn. lia. }
    destruct (is_terminal c) eqn:E4; [|refuse]. right; right. destruct (exp_state_into_token fuel b s fe es 0) as [t| |] eqn:Et; try discriminate. exists t.
    split; [cbn [step]; unfold cls_exp; rewrite E0, E4, Et; reflexivity|]. intros q. apply close_word.
    apply (end_no_exp fuel b s fe es l f x [sg] t Hm Hx); [destruct Hsg as [[-> _]|[-> _]]; auto|exact Et|discriminate|exact E4].
  - (* exponent *)
    destruct Hw as (l & f & x & sg & ds & -> & Hm & Hx & Hsg & Hd & Hds & ->). unfold cls_exp in H. destruct (is_digit c) eqn:E0.
    { unfold exp_add_digit in H. destruct (i64 (dec_value ds * 10)) as [e1| |] eqn:Ei1; try discriminate. cbn [obind] in H.
      destruct (exp_exact _ _ Ei1) as [-> _].
      destruct (i64 (dec_value ds * 10 + digit_to_number c)) as [e'| |] eqn:Ei; try discriminate. cbn [obind] in H. destruct (exp_exact _ _ Ei) as [-> _].
      stay H. exists l, f, x, sg, (ds ++ [c]). split; [rewrite <- app_assoc; cbn [app]; rewrite <- app_assoc; reflexivity|]. split; [exact Hm|]. split; [exact Hx|].
      split; [exact Hsg|]. split; [destruct ds; discriminate|]. split; [apply digits_snoc; auto|]. rewrite dec_value_snoc. reflexivity. }
    destruct (is_terminal c) eqn:E4; [|refuse]. right; right. destruct (exp_state_into_token fuel b s fe es (dec_value ds)) as [t| |] eqn:Et; try discriminate. exists t.
    split; [cbn [step]; unfold cls_exp; rewrite E0, E4, Et; reflexivity|]. intros q. apply close_word.
    apply (end_exp fuel b s fe es (dec_value ds) l f x sg ds t Hm Hx Hsg Hd Hds eq_refl Et); exact E4.
  - (* big integer *)
    destruct Hw as (neg & l & -> & Hi & W & V). destruct (is_terminal c) eqn:E; [|refuse]. right; right. exists (TBigInt b).
    split; [cbn [step]; rewrite E; reflexivity|]. intros q. apply close_word, w_bigint; auto.
  - (* line break *)
    destruct (is_space c) eqn:E.
    + stay H. destruct Hw as [w Hs|body e w Hb He Hs].
      * cbn [app]. apply lb_newline, Forall_app. auto.
      * rewrite <- app_assoc. rewrite <- app_assoc. cbn [app]. apply lb_comment; auto. apply Forall_app. auto.
    + right; right. exists TNewLine. split; [cbn [step]; rewrite E; reflexivity|]. intros q ts Hts. apply lx_line; auto. discriminate.
  - (* comment *)
    subst w. destruct (c =? 47) eqn:E1; [stay H; exists []; split; [cbn; do 2 f_equal; lia|constructor]|].
    destruct (c =? 42) eqn:E2; [|refuse]. stay H. exists []. split; [cbn; do 2 f_equal; lia|]. split; [constructor|].
    split; [intros (p & q & E); destruct p; discriminate|intros (p & E); destruct p; discriminate].
  - (* line comment *)
    destruct Hw as (body & -> & Hb). destruct ((c =? 10) || (c =? 13)) eqn:E.
    + stay H. rewrite <- app_assoc. apply lb_comment; [exact Hb|lia|constructor].
    + stay H. exists (body ++ [c]). split; [rewrite <- app_assoc; reflexivity|]. apply Forall_app. split; [exact Hb|]. repeat constructor; lia.
  - (* block comment *)
    destruct Hw as (body & -> & Hc & Ho & Hl). destruct (c =? 42) eqn:E.
    + stay H. exists body. split; [rewrite <- app_assoc; do 3 f_equal; lia|]. split; [exact Hc|]. apply open_snoc; [exact Ho|]. lia.
    + stay H. exists (body ++ [c]). split; [rewrite <- app_assoc; reflexivity|]. split; [apply Forall_app; auto|].
      split; [apply open_snoc; [exact Ho|]; auto|apply not_last; lia].
  - (* star in a block comment *)
    destruct Hw as (body & -> & Hc & Ho). destruct (c =? 47) eqn:E1; [|destruct (c =? 42) eqn:E2].
    + inversion H; subst. right; left. split; [reflexivity|]. intros q ts Hts. replace c with 47 by lia.
      pose proof (lx_comment body q ts (conj Hc Ho) Hts) as L. cbn [app] in *. rewrite <- !app_assoc in *. cbn [app] in *. exact L.
    + stay H. exists (body ++ [42]). split; [rewrite <- !app_assoc; cbn [app]; do 5 f_equal; lia|]. split; [apply Forall_app; split; [exact Hc|repeat constructor; lia]|].
      apply open_snoc; [exact Ho|]. lia.
    + stay H. exists (body ++ [42; c]). split; [rewrite <- !app_assoc; reflexivity|]. split; [apply Forall_app; split; [exact Hc|repeat constructor; lia]|].
      change (body ++ [42; c]) with (body ++ [42] ++ [c]). rewrite app_assoc. split; [apply open_snoc; [exact Ho|]; lia|apply not_last; lia].
  - (* operator *)
    destruct Hw as (d & t & -> & -> & Hp & Ho). right; right. exists t.
    split; [|intros q; apply close_word, w_punct, Hp]. cbn [step app operator_to_token] in *. rewrite Ho in *. reflexivity.
Qed.

(** * The end of the text *)
Lemma tend_lexed fuel st w toks : holds st w -> tend fuel st = Ok toks -> no_error toks -> lexed w toks.
Proof.
  intros Hw H Hn.
  assert (one : forall t, word w t [] -> lexed w [t]).
  { intros t Ht. rewrite <- (app_nil_r w). apply lx_word; [exact Ht|constructor]. }
  destruct st; cbn [holds tend] in *;
    try (inversion H; subst toks; inversion Hn; discriminate).
  - inversion H; subst. constructor.
  - inversion H; subst. destruct Hw as (-> & c0 & s' & -> & H1 & H2). apply one, w_ident; auto. exact I.
  - inversion H; subst. apply one. apply (end_int fuel jb_zero s [48] (TNumber 0) int_mant_zero); [apply number_token_zero; [apply jb_zero_wf|reflexivity]|exact I].
  - destruct Hw as (l & -> & Hl & Hm). destruct (number_token fuel b s 0) as [t| |] eqn:Et; try discriminate. inversion H; subst.
    apply one, (end_int fuel b s l t Hm Et). exact I.
  - destruct Hw as (l & f & -> & Hf & Hm). destruct (number_token fuel b s fe) as [t| |] eqn:Et; try discriminate. inversion H; subst.
    apply one, (end_frac fuel b s fe l f t Hm Et). exact I.
  - destruct Hw as (l & f & x & sg & ds & -> & Hm & Hx & Hsg & Hd & Hds & ->).
    destruct (exp_state_into_token fuel b s fe es (dec_value ds)) as [t| |] eqn:Et; try discriminate. inversion H; subst.
    apply one, (end_exp fuel b s fe es (dec_value ds) l f x sg ds t Hm Hx Hsg Hd Hds eq_refl Et). exact I.
  - inversion H; subst. destruct Hw as (neg & l & -> & Hi & W & V). apply one, w_bigint; auto. exact I.
  - inversion H; subst. apply lx_last_line, Hw.
  - inversion H; subst. destruct Hw as (body & -> & Hb). apply lx_last_comment, Hb.
  - destruct Hw as (d & t & -> & -> & Hp & Ho). cbn in Ho, H. rewrite Ho in H. inversion H; subst. apply one, w_punct, Hp.
Qed.

Lemma tstate_eq_initial (st : tstate) : st = Initial \/ st <> Initial.
Proof. destruct st; auto; right; discriminate. Qed.
Lemma prepend_list_ok a o toks : prepend_list a o = Ok toks -> exists b, o = Ok b /\ toks = a ++ b.
Proof. destruct o; try discriminate. intros H. inversion H. eauto. Qed.

Lemma run_cons fuel st c q : 0 <= c -> finish fuel (run fuel st (c :: q)) =
  match step fuel st c with Ok (toks, st') => prepend_list toks (finish fuel (run fuel st' q)) | Panic => Panic | NoFuel => NoFuel end.
Proof.
  intros Pc. cbn [run]. rewrite push_step by exact Pc. destruct (step fuel st c) as [[a st']| |]; try reflexivity. cbn [obind].
  apply finish_prepend.
Qed.

Lemma lexed_sound fuel q : chars q -> forall st w toks, holds st w -> finish fuel (run fuel st q) = Ok toks -> no_error toks -> lexed (w ++ q) toks.
Proof.
  induction 1 as [|c q Pc Hq IH]; intros st w toks Hw H Hn.
  - rewrite app_nil_r. cbn in H. destruct (tend fuel st) as [a| |] eqn:Et; try discriminate. cbn in H. inversion H; subst.
    apply (tend_lexed fuel st); assumption.
  - assert (Ini : forall toks0, finish fuel (run fuel Initial (c :: q)) = Ok toks0 -> no_error toks0 -> lexed (c :: q) toks0).
    { intros toks0 H0 Hn0. rewrite run_cons in H0 by exact Pc. cbn [step] in H0.
      destruct (push fuel Initial c) as [[a st']| |] eqn:Ep; try discriminate. apply prepend_list_ok in H0. destruct H0 as (b & Hb & ->).
      apply Forall_app in Hn0. destruct Hn0 as [Hna Hnb]. destruct (from_initial fuel c a st' Pc Ep Hna) as [-> [Hh|[-> Hc]]]; cbn [app].
      - apply (IH st' [c] b Hh Hb Hnb).
      - apply lx_blank; [exact Hc|]. apply (IH Initial [] b eq_refl Hb Hnb). }
    destruct (tstate_eq_initial st) as [->|Hni].
    + cbn [holds] in Hw. subst w. apply Ini; assumption.
    + pose proof H as H'. rewrite run_cons in H by exact Pc. destruct (step fuel st c) as [[a st']| |] eqn:Es; try discriminate.
      apply prepend_list_ok in H. destruct H as (b & Hb & ->). apply Forall_app in Hn. destruct Hn as [Hna Hnb].
      destruct (step_moves fuel st w c a st' Hw Hni Pc Es Hna) as [[-> Hh]|[[-> Hcl]|(t & Ht & Hcl)]].
      * cbn [app]. change (c :: q) with ([c] ++ q). rewrite app_assoc. apply (IH st' _ b Hh Hb Hnb).
      * change (c :: q) with ([c] ++ q). rewrite app_assoc. apply Hcl. apply (IH Initial [] b eq_refl Hb Hnb).
      * rewrite Es in Ht. destruct (push fuel Initial c) as [[a' st'']| |] eqn:Ep; try discriminate. cbn in Ht. inversion Ht; subst a st''.
        inversion Hna; subst. change ((t :: a') ++ b) with ([t] ++ (a' ++ b)). apply Hcl. apply Ini; [|apply Forall_app; auto].
        rewrite run_cons by exact Pc. cbn [step]. rewrite Ep, Hb. reflexivity.
Qed.

Theorem tokenize_lexed fuel text toks : chars text -> tokenize fuel text = Ok toks -> no_error toks -> lexed text toks.
Proof. intros Hc H Hn. rewrite tokenize_run in H. apply (lexed_sound fuel text Hc Initial [] toks eq_refl H Hn). Qed.
