(** Property C83: JSON texts are read with their value. *)
From Coq Require Import ZArith Reals List Bool String Lia Lra.
From Coq Require Import ZifyBool ZifyNat.
From Flocq Require Import Core.Core.
From Verif Require Import Outcome VTac BigIntModel JsBigintModel BigFloatModel BigFloatSpec RangeMapSpec TextSpec TokenizerModel TokenizerSpec
  TokenizerProofs TokenizerRun TokenizerLex TokenizerTotal TokenizerGrammar Prop_Tokenizer ValueModel ParserModel ParserSpec ParserRun ParserModules ParserMore SerializerRead JsonSpec Prop_Parser Prop_Convert Prop_Text.
Import ListNotations.
Open Scope Z_scope.

Local Notation strip := (filter not_newline).

(** * Characters that may come next *)
Definition after_value (f : Z -> bool) : Prop := forall c, is_terminal c = true -> f c = true.
Definition before_value (f : Z -> bool) : Prop := forall c, is_space c = false -> f c = true.
Definition before_punct (f : Z -> bool) : Prop := forall c, is_terminal c = true -> is_space c = false -> f c = true.

(** [extends a ta w toks Q]: appending [w] to the lexical sequence adds the tokens [toks], up to
    line breaks, and then [Q] holds of the characters that may come next. *)
Definition extends (a : list Z) (ta : list token) (w : list Z) (toks : list token) (Q : (Z -> bool) -> Prop) : Prop :=
  exists ta' nl' f', lexseq (a ++ w) ta' nl' f' /\ strip ta' = strip ta ++ toks /\ Q f'.

Lemma strip_nl (b : bool) : strip (if b then [TNewLine] else []) = [].
Proof. destruct b; reflexivity. Qed.

Lemma extend_lexeme a ta nl f w tok g : lexseq a ta nl f -> lexeme w tok g -> next_ok f w -> tok <> TNewLine -> extends a ta w [tok] (eq g).
Proof.
  intros Ha Hw Hn Ht. exists (ta ++ (if nl then [TNewLine] else []) ++ [tok]), false, g.
  split; [apply (ls_lexeme _ _ _ _ _ _ _ Ha Hw Hn)|]. split; [|reflexivity].
  rewrite !filter_app, strip_nl. cbn [app filter]. destruct tok; try reflexivity. congruence.
Qed.

Lemma white_split w : white w -> Forall (fun c => is_blank c = true) w \/
  exists b r, w = b ++ 10 :: r /\ Forall (fun c => is_blank c = true) b /\ Forall (fun c => is_space c = true) r.
Proof.
  induction 1 as [|c w Hc Hw [IH|(b & r & -> & IH1 & IH2)]]; [left; constructor|..].
  - destruct (Z.eq_dec c 10) as [->|N].
    + right. exists [], w. repeat split; [constructor|]. eapply Forall_impl; [|exact IH]. cbn beta. intros x Hx. unfold is_space. rewrite Hx. reflexivity.
    + left. constructor; [|exact IH]. unfold is_blank. lia.
  - destruct (Z.eq_dec c 10) as [->|N].
    + right. exists [], (b ++ 10 :: r). repeat split; [constructor|]. apply Forall_app. split.
      * eapply Forall_impl; [|exact IH1]. cbn beta. intros x Hx. unfold is_space. rewrite Hx. reflexivity.
      * constructor; [reflexivity|exact IH2].
    + right. exists (c :: b), r. repeat split; [|exact IH2]. constructor; [unfold is_blank; lia|exact IH1].
Qed.

Lemma blank_terminal c : is_blank c = true -> is_terminal c = true.
Proof. unfold is_terminal, is_space. intros ->. reflexivity. Qed.

Lemma extend_white a ta nl f w : lexseq a ta nl f -> after_value f -> white w ->
  extends a ta w [] (fun f' => before_punct f' /\ (before_value f -> before_value f')).
Proof.
  intros Ha Hf Hw.
  assert (Hblank : forall b, Forall (fun c => is_blank c = true) b ->
    exists ta' nl' f', lexseq (a ++ b) ta' nl' f' /\ strip ta' = strip ta /\ after_value f' /\ (before_value f -> before_value f')).
  { intros b Hb. destruct b as [|c b].
    - rewrite app_nil_r. exists ta, nl, f. auto.
    - inversion Hb as [|? ? Hc Hb']; subst. exists (ta ++ (if nl then [TNewLine] else [])), false, TokenizerGrammar.any.
      split; [apply (ls_gap _ _ _ _ _ Ha)|split; [|split; red; reflexivity]].
      + constructor; assumption.
      + split; [unfold is_blank in Hc; lia|]. apply Hf, blank_terminal, Hc.
      + rewrite filter_app, strip_nl, app_nil_r. reflexivity. }
  destruct (white_split w Hw) as [Hb|(b & r & -> & Hb & Hr)]; destruct (Hblank _ Hb) as (ta' & nl' & f' & H1 & H2 & H3 & H4).
  - exists ta', nl', f'. split; [exact H1|]. split; [rewrite app_nil_r; exact H2|]. split; [intros c Hc _; apply H3, Hc|exact H4].
  - exists (ta' ++ (if nl' then [TNewLine] else [])), true, (fun c => negb (is_space c)). rewrite app_assoc. split; [|split].
    + apply (ls_line _ _ _ _ _ H1); [constructor; exact Hr|]. split; [lia|]. apply H3. reflexivity.
    + rewrite filter_app, strip_nl, H2. reflexivity.
    + split; [intros c _ ->|intros _ c ->]; reflexivity.
Qed.

Lemma extend_punct a ta nl f c tok : lexseq a ta nl f -> before_punct f -> punctuator c = Some tok -> tok <> TDot ->
  extends a ta [c] [tok] (fun f' => after_value f' /\ before_value f').
Proof.
  intros Ha Hf Hc Hd.
  assert (Hx : 0 <= c /\ is_terminal c = true /\ is_space c = false /\ tok <> TNewLine).
  { unfold punctuator in Hc. destruct c as [|c|c]; try discriminate.
    repeat (destruct c as [c|c|]; try discriminate); inversion Hc; subst; repeat split; (lia || discriminate || congruence). }
  destruct Hx as (H1 & H2 & H3 & H4).
  destruct (extend_lexeme _ _ _ _ [c] tok TokenizerGrammar.any Ha) as (ta' & nl' & f' & E1 & E2 & <-);
    [constructor; exact Hc|split; [exact H1|apply Hf; assumption]|exact H4|].
  exists ta', nl', TokenizerGrammar.any. split; [exact E1|]. split; [exact E2|]. split; red; reflexivity.
Qed.

(** * Strings *)
Lemma hex4_spells h v body s : hex4 h v -> scalar_value v -> spells body s -> spells (92 :: 117 :: h ++ body) (v :: s).
Proof.
  intros (a & b & c & d & va & vb & vc & vd & -> & Ha & Hb & Hc & Hd & ->) Hv Hs. cbn [app].
  apply sp_unicode; assumption.
Qed.
Lemma rfc_spells body s : rfc_string body s -> forall text p q, text = p ++ body ++ q -> no_surrogate_escape text -> spells body s.
Proof.
  induction 1 as [|c body s Hc H20 H34 H92 H IH|x y body s Hx H IH|h v body s Hh Hv H IH|h v l u body s Hh Hv Hl Hu H IH]; intros text p q Et Hn.
  - constructor.
  - apply sp_raw; auto; [lia|]. apply (IH text (p ++ [c]) q); [rewrite <- app_assoc; exact Et|exact Hn].
  - apply sp_short; auto. apply (IH text (p ++ [92; x]) q); [rewrite <- app_assoc; exact Et|exact Hn].
  - apply hex4_spells; auto. apply (IH text (p ++ 92 :: 117 :: h) q); [|exact Hn]. rewrite Et, <- app_assoc. cbn [app]. rewrite <- app_assoc. reflexivity.
  - exfalso. cbn [app] in Et. rewrite <- app_assoc in Et.
    specialize (Hn p h v _ Et Hh). unfold scalar_value in Hn. lia.
Qed.

(** * Numbers *)
Lemma int_last l : int_part l -> exists p d, l = p ++ [d] /\ is_digit d = true.
Proof.
  intros [Hd Hl]. destruct (exists_last (l := l)) as (p & d & ->); [destruct Hl as [->|(c & l' & -> & _)]; discriminate|].
  exists p, d. split; [reflexivity|]. apply Forall_app in Hd. destruct Hd as [_ Hd]. inversion Hd; assumption.
Qed.
Lemma calm_number text p n q : calm text -> text = p ++ number_text n ++ q -> number_ok n ->
  match q with [] => True | c :: _ => is_terminal c = true end ->
  -27 <= number_exp10 n /\ - 2 ^ 63 < exp_value n < 2 ^ 63 /\ Z.of_nat (List.length (nl_frac n)) < 2 ^ 63.
Proof.
  intros [Hlen Hc] Et (Hi & Hf & He) Hq. destruct (int_last _ Hi) as (i & d & Ei & Hd).
  set (frac := match nl_frac n with [] => [] | f => 46 :: f end).
  set (ex := match nl_exp n with None => [] | Some (l, sg, ds) => l :: sg ++ ds end).
  assert (Hx : -27 <= exp_value n - Z.of_nat (List.length (nl_frac n)) /\ - 2 ^ 63 < exp_value n < 2 ^ 63).
  { apply (Hc (p ++ (if nl_neg n then [45] else []) ++ i) d frac (Z.of_nat (List.length (nl_frac n))) ex (exp_value n) q).
    - rewrite Et. unfold number_text. fold frac ex. rewrite Ei. rewrite <- !app_assoc. cbn [app]. rewrite <- !app_assoc. reflexivity.
    - exact Hd.
    - unfold fraction, frac. destruct (nl_frac n) as [|c l]; [left; auto|]. right. exists (c :: l). auto.
    - unfold exponent_part, ex, exp_value. destruct (nl_exp n) as [[[l sg] ds]|]; [|left; auto]. right. exists l, sg, ds.
      destruct He as (H1 & H2 & H3 & H4). split; [reflexivity|]. split; [exact H1|]. split; [exact H4|].
      destruct H2 as [->|[->| ->]]; auto.
    - unfold longest. destruct q as [|c q]; [exact I|].
      assert (Hn : is_digit c = false /\ (c <> 101 /\ c <> 69) /\ c <> 43 /\ c <> 45) by (revert Hq; classes; lia).
      tauto. }
  split; [exact (proj1 Hx)|]. split; [exact (proj2 Hx)|].
  rewrite Et, !app_length in Hlen. unfold number_text in Hlen. rewrite !app_length in Hlen.
  assert ((List.length (nl_frac n) <= List.length frac)%nat) by (unfold frac; destruct (nl_frac n); cbn; lia).
  fold frac in Hlen. lia.
Qed.
Lemma dec_real_zero e : dec_real 0 e = 0%R.
Proof. unfold dec_real. apply Rmult_0_l. Qed.

Lemma mantissa_nonneg n : number_ok n -> 0 <= number_mantissa n.
Proof.
  intros (Hi & Hf & _). unfold number_mantissa, dec_value.
  assert (Ha : all_digits (nl_int n ++ nl_frac n)) by (apply Forall_app; split; [apply Hi|exact Hf]).
  revert Ha. generalize (nl_int n ++ nl_frac n). intros l.
  assert (G : forall z, 0 <= z -> all_digits l -> 0 <= fold_left (fun a c => a * 10 + (c - 48)) l z).
  { induction l as [|c l IH]; intros z Hz Ha; [exact Hz|]. inversion Ha; subst. cbn [fold_left]. apply IH; [|assumption]. unfold is_digit in *. lia. }
  apply G. lia.
Qed.
Lemma number_lexeme text p n q bits : calm text -> no_negative_zero text -> text = p ++ number_text n ++ q -> number_ok n ->
  match q with [] => True | c :: _ => is_terminal c = true end ->
  f64_nearest bits (if nl_neg n then Negative else Positive) (dec_real (number_mantissa n) (number_exp10 n)) ->
  lexeme (number_text n) (TNumber bits) is_terminal.
Proof.
  intros Hc Hz Et Hn Hq Hb. destruct (calm_number text p n q Hc Et Hn Hq) as (E1 & E2 & E3).
  pose proof (mantissa_nonneg n Hn) as Hm. destruct (Z.eq_dec (number_mantissa n) 0) as [E0|N0].
  - destruct (nl_neg n) eqn:En; [exfalso; exact (Hz p n q Et Hn En Hq E0)|].
    assert (bits = 0) as ->.
    { rewrite E0, dec_real_zero in Hb. destruct (C35_positive_zero n Hn En E0 ltac:(lia) ltac:(lia) ltac:(lia)) as [_ H0].
      exact (f64_nearest_unique _ _ _ _ Hb H0). }
    apply lex_zero; try assumption; lia.
  - apply lex_number; try assumption; lia.
Qed.
Lemma number_text_head n : number_ok n -> exists c r, number_text n = c :: r /\ (c = 45 \/ is_digit c = true).
Proof.
  intros (Hi & _ & _). unfold number_text. destruct Hi as [Hd Hl]. destruct (nl_neg n); [eexists _, _; split; [reflexivity|left; reflexivity]|].
  destruct (nl_int n) as [|c l]; [destruct Hl as [Hl|(c & l' & Hl & _)]; discriminate|]. inversion Hd; subst.
  eexists _, _. split; [reflexivity|right; assumption].
Qed.

(** * Values *)
Section Text.
Variable text : list Z.
Hypothesis Hcalm : calm text.
Hypothesis Hsur : no_surrogate_escape text.
Hypothesis Hzero : no_negative_zero text.

Definition terminated (q : list Z) : Prop := match q with [] => True | c :: _ => is_terminal c = true end.
Lemma white_terminated w q : white w -> terminated q -> terminated (w ++ q).
Proof. intros Hw Hq. destruct Hw as [|c w Hc Hw]; [exact Hq|]. cbn. classes. lia. Qed.

Lemma extend_word a ta nl f s : lexseq a ta nl f -> before_value f -> forall c w, s = c :: w -> ident_start c = true -> Forall (fun c => ident_part c = true) w ->
  extends a ta s [TId s] after_value.
Proof.
  intros Ha Hf c w -> Hc Hw.
  destruct (extend_lexeme _ _ _ _ (c :: w) (TId (c :: w)) (fun x => negb (ident_part x)) Ha) as (ta' & nl' & f' & E1 & E2 & <-).
  - apply lex_ident; assumption.
  - split; [classes; lia|]. apply Hf. classes. lia.
  - discriminate.
  - exists ta', nl', (fun x => negb (ident_part x)). split; [exact E1|]. split; [exact E2|]. intros x Hx. classes. lia.
Qed.
Lemma extend_string a ta nl f body s q : lexseq a ta nl f -> before_value f -> text = a ++ (34 :: body ++ [34]) ++ q -> rfc_string body s ->
  extends a ta (34 :: body ++ [34]) [TString s] after_value.
Proof.
  intros Ha Hf Et Hs.
  assert (Hsp : spells body s).
  { apply (rfc_spells body s Hs text (a ++ [34]) (34 :: q)); [|exact Hsur]. rewrite Et, <- app_assoc. cbn [app]. rewrite <- app_assoc. reflexivity. }
  destruct (extend_lexeme _ _ _ _ (34 :: body ++ [34]) (TString s) TokenizerGrammar.any Ha) as (ta' & nl' & f' & E1 & E2 & <-);
    [apply lex_string, Hsp|split; [lia|apply Hf; reflexivity]|discriminate|].
  exists ta', nl', TokenizerGrammar.any. split; [exact E1|]. split; [exact E2|]. red; reflexivity.
Qed.

(** Chaining. *)
Lemma then_white a ta w toks w' (Q : (Z -> bool) -> Prop) : (forall f, Q f -> after_value f) -> extends a ta w toks Q -> white w' ->
  extends a ta (w ++ w') toks (fun f' => before_punct f' /\ exists f, Q f /\ (before_value f -> before_value f')).
Proof.
  intros HQ (ta1 & nl1 & f1 & H1 & H2 & H3) Hw. destruct (extend_white _ _ _ _ _ H1 (HQ _ H3) Hw) as (ta2 & nl2 & f2 & G1 & G2 & G3 & G4).
  rewrite <- app_assoc in G1. exists ta2, nl2, f2. split; [exact G1|]. split; [rewrite G2, H2, app_nil_r; reflexivity|]. split; [exact G3|]. exists f1. auto.
Qed.
Lemma then_punct a ta w toks c tok (Q : (Z -> bool) -> Prop) : (forall f, Q f -> before_punct f) -> extends a ta w toks Q -> punctuator c = Some tok -> tok <> TDot ->
  extends a ta (w ++ [c]) (toks ++ [tok]) (fun f' => after_value f' /\ before_value f').
Proof.
  intros HQ (ta1 & nl1 & f1 & H1 & H2 & H3) Hc Hd. destruct (extend_punct _ _ _ _ _ _ H1 (HQ _ H3) Hc Hd) as (ta2 & nl2 & f2 & G1 & G2 & G3).
  rewrite <- app_assoc in G1. exists ta2, nl2, f2. split; [exact G1|]. split; [rewrite G2, H2, <- app_assoc; reflexivity|]. exact G3.
Qed.
Lemma then_more a ta w toks w' (toks' : list token -> Prop) (Q Q' : (Z -> bool) -> Prop) :
  extends a ta w toks Q -> (forall ta1 nl1 f1, lexseq (a ++ w) ta1 nl1 f1 -> Q f1 -> exists l, extends (a ++ w) ta1 w' l Q' /\ toks' l) ->
  exists l, extends a ta (w ++ w') (toks ++ l) Q' /\ toks' l.
Proof.
  intros (ta1 & nl1 & f1 & H1 & H2 & H3) K. destruct (K _ _ _ H1 H3) as (l & (ta2 & nl2 & f2 & G1 & G2 & G3) & Hl).
  exists l. split; [|exact Hl]. exists ta2, nl2, f2. rewrite app_assoc. split; [exact G1|]. split; [rewrite G2, H2, <- app_assoc; reflexivity|exact G3].
Qed.
Lemma extends_weaken a ta w toks (Q Q' : (Z -> bool) -> Prop) : (forall f, Q f -> Q' f) -> extends a ta w toks Q -> extends a ta w toks Q'.
Proof. intros H (ta1 & nl1 & f1 & H1 & H2 & H3). exists ta1, nl1, f1. auto. Qed.

Ltac apps := rewrite <- ?app_assoc; cbn [app]; rewrite <- ?app_assoc; cbn [app]; rewrite <- ?app_assoc; cbn [app]; rewrite <- ?app_assoc; reflexivity.

Definition reads_value (w : list Z) (t : tree) : Prop := forall a ta nl f q, lexseq a ta nl f -> before_value f -> text = a ++ w ++ q -> terminated q ->
  exists toks, extends a ta w toks after_value /\ json_value toks t.
Definition both (f : Z -> bool) : Prop := after_value f /\ before_value f.
Definition reads_inside {A} (P : list token -> A -> Prop) (w : list Z) (x : A) : Prop :=
  forall a ta nl f q, lexseq a ta nl f -> both f -> text = a ++ w ++ q -> terminated q ->
  exists toks, extends a ta w toks before_punct /\ P toks x.

Lemma spaced_value w v w' t q0 a ta nl f : white w -> reads_value v t -> white w' -> lexseq a ta nl f -> both f ->
  text = a ++ (w ++ v ++ w') ++ q0 -> terminated q0 -> exists toks, extends a ta (w ++ v ++ w') toks before_punct /\ json_value toks t.
Proof.
  intros Hw Hv Hw' Ha [F1 F2] Et Hq.
  pose proof (extend_white _ _ _ _ _ Ha F1 Hw) as E1.
  destruct (then_more a ta w [] (v ++ w') (fun l => json_value l t) _ before_punct E1) as (l & E2 & Hl); [|exists l; split; [exact E2|exact Hl]].
  intros ta1 nl1 f1 H1 [_ G2].
  destruct (Hv (a ++ w) ta1 nl1 f1 (w' ++ q0) H1 (G2 F2)) as (l & E2 & Hl); [rewrite Et; apps|apply white_terminated; assumption|].
  exists l. split; [|exact Hl]. eapply extends_weaken; [|apply (then_white _ _ _ _ w' after_value (fun f H => H) E2 Hw')]. intros ? [HH _]; exact HH.
Qed.

Lemma values : (forall w t, rfc_value w t -> reads_value w t) /\ (forall w ts, rfc_elements w ts -> reads_inside json_elems w ts) /\
  (forall w kvs, rfc_members w kvs -> reads_inside json_members w kvs).
Proof.
  assert (Hopen : forall a ta nl f c tok, lexseq a ta nl f -> before_value f -> punctuator c = Some tok -> tok <> TDot -> is_space c = false -> extends a ta [c] [tok] both).
  { intros a ta nl f c tok Ha Hf Hc Hd Hs. apply (extend_punct a ta nl f c tok Ha); [|exact Hc|exact Hd]. intros x _ Hx. apply Hf, Hx. }
  assert (Hbrackets : forall A (P : list token -> A -> Prop) o op c cl w x, punctuator o = Some op -> punctuator c = Some cl -> op <> TDot -> cl <> TDot ->
    is_space o = false -> is_terminal c = true -> reads_inside P w x ->
    forall a ta nl f q, lexseq a ta nl f -> before_value f -> text = a ++ (o :: w ++ [c]) ++ q -> terminated q ->
    exists l, extends a ta (o :: w ++ [c]) (op :: l ++ [cl]) after_value /\ P l x).
  { intros A P o op c cl w x Ho Hc D1 D2 So Tc HP a ta nl f q Ha Hf Et Hq.
    pose proof (Hopen _ _ _ _ _ _ Ha Hf Ho D1 So) as E1.
    destruct (then_more a ta [o] [op] w (fun l => P l x) both before_punct E1) as (l & E2 & Hl).
    { intros ta1 nl1 f1 H1 G. apply (HP (a ++ [o]) ta1 nl1 f1 ([c] ++ q) H1 G); [rewrite Et; apps|exact Tc]. }
    exists l. split; [|exact Hl].
    pose proof (then_punct _ _ _ _ c cl before_punct (fun f H => H) E2 Hc D2) as E3. rewrite <- !app_assoc in E3. cbn [app] in E3.
    eapply extends_weaken; [|exact E3]. intros ? [HH _]; exact HH. }
  assert (Hempty : forall A (P : list token -> A -> Prop) x w, white w -> P [] x -> reads_inside P w x).
  { intros A P x w Hw HP a ta nl f q Ha [F1 F2] Et Hq. exists []. split; [|exact HP].
    eapply extends_weaken; [|apply (extend_white _ _ _ _ _ Ha F1 Hw)]. intros ? [HH _]; exact HH. }
  assert (Hcons : forall A (P : list token -> A -> Prop) (x : A) w v w' t l (R : list token -> Prop), white w -> reads_value v t -> white w' ->
    (forall a ta nl f q, lexseq a ta nl f -> both f -> text = a ++ l ++ q -> terminated q -> exists toks, extends a ta l toks before_punct /\ R toks) ->
    (forall tv tl, json_value tv t -> R tl -> P (tv ++ TComma :: tl) x) -> reads_inside P (w ++ v ++ w' ++ 44 :: l) x).
  { intros A P x w v w' t l R Hw Hv Hw' Hl HP a ta nl f q Ha Hf Et Hq.
    destruct (spaced_value w v w' t (44 :: l ++ q) a ta nl f Hw Hv Hw' Ha Hf) as (tv & E1 & V1); [rewrite Et; apps|reflexivity|].
    pose proof (then_punct _ _ _ _ 44 TComma before_punct (fun f H => H) E1 eq_refl ltac:(discriminate)) as E2.
    destruct (then_more a ta _ _ l R _ before_punct E2) as (tl & E3 & L3).
    { intros ta1 nl1 f1 H1 G. apply (Hl _ ta1 nl1 f1 q H1 G); [rewrite Et; apps|exact Hq]. }
    exists (tv ++ TComma :: tl). split; [|apply HP; assumption].
    replace (w ++ v ++ w' ++ 44 :: l) with (((w ++ v ++ w') ++ [44]) ++ l) by apps.
    replace (tv ++ TComma :: tl) with ((tv ++ [TComma]) ++ tl) by apps. exact E3. }
  assert (Hkey : forall A (P : list token -> A -> Prop) (x : A) w body k w1 rest (R : list token -> Prop), white w -> rfc_string body k -> white w1 ->
    (forall a ta nl f q, lexseq a ta nl f -> both f -> text = a ++ rest ++ q -> terminated q -> exists toks, extends a ta rest toks before_punct /\ R toks) ->
    (forall tl, R tl -> P (TString k :: TColon :: tl) x) -> reads_inside P (w ++ (34 :: body ++ [34]) ++ w1 ++ 58 :: rest) x).
  { intros A P x w body k w1 rest R Hw Hs Hw1 HR HP a ta nl f q Ha [F1 F2] Et Hq.
    pose proof (extend_white _ _ _ _ _ Ha F1 Hw) as E1.
    destruct (then_more a ta w [] ((34 :: body ++ [34]) ++ w1) (eq [TString k]) _ before_punct E1) as (l & E2 & <-).
    { intros ta1 nl1 f1 H1 [_ G2]. exists [TString k]. split; [|reflexivity].
      assert (Hst : extends (a ++ w) ta1 (34 :: body ++ [34]) [TString k] after_value).
      { apply (extend_string (a ++ w) ta1 nl1 f1 body k (w1 ++ 58 :: rest ++ q) H1 (G2 F2)); [rewrite Et; apps|exact Hs]. }
      eapply extends_weaken; [|apply (then_white _ _ _ _ w1 after_value (fun f H => H) Hst Hw1)]. intros ? [HH _]; exact HH. }
    pose proof (then_punct _ _ _ _ 58 TColon before_punct (fun f H => H) E2 eq_refl ltac:(discriminate)) as E3.
    destruct (then_more a ta _ _ rest R _ before_punct E3) as (tl & E4 & L4).
    { intros ta1 nl1 f1 H1 G. apply (HR _ ta1 nl1 f1 q H1 G); [rewrite Et; apps|exact Hq]. }
    exists (TString k :: TColon :: tl). split; [|apply HP; assumption].
    replace (w ++ (34 :: body ++ [34]) ++ w1 ++ 58 :: rest) with ((((w ++ (34 :: body ++ [34]) ++ w1) ++ [58]) ++ rest)) by apps. exact E4. }
  apply rfc_value_mutind; unfold reads_value.
  - intros a ta nl f q Ha Hf _ _. exists [TId (txt "null")]. split; [|repeat constructor].
    eapply extend_word; [eassumption|exact Hf|reflexivity|reflexivity|repeat constructor].
  - intros a ta nl f q Ha Hf _ _. exists [TId (txt "true")]. split; [|repeat constructor].
    eapply extend_word; [eassumption|exact Hf|reflexivity|reflexivity|repeat constructor].
  - intros a ta nl f q Ha Hf _ _. exists [TId (txt "false")]. split; [|repeat constructor].
    eapply extend_word; [eassumption|exact Hf|reflexivity|reflexivity|repeat constructor].
  - intros body s Hs a ta nl f q Ha Hf Et _. exists [TString s]. split; [|repeat constructor].
    eapply extend_string; eassumption.
  - intros n bits Hn Hb a ta nl f q Ha Hf Et Hq. exists [TNumber bits]. split; [|repeat constructor].
    pose proof (number_lexeme text a n q bits Hcalm Hzero Et Hn Hq Hb) as Hl.
    destruct (extend_lexeme _ _ _ _ _ _ _ Ha Hl) as (ta' & nl' & f' & E1 & E2 & <-); [|discriminate|].
    { destruct (number_text_head n Hn) as (c & r & -> & Hc). split; [revert Hc; classes; lia|]. apply Hf. revert Hc. classes. lia. }
    exists ta', nl', is_terminal. split; [exact E1|]. split; [exact E2|]. red; auto.
  - intros w Hw a ta nl f q Ha Hf Et Hq.
    destruct (Hbrackets _ json_elems 91 TArrayBegin 93 TArrayEnd w [] eq_refl eq_refl ltac:(discriminate) ltac:(discriminate) eq_refl eq_refl) with (2 := Ha) (3 := Hf) (4 := Et) (5 := Hq)
      as (l & E & Hl); [apply Hempty; [exact Hw|constructor]|]. eexists. split; [exact E|]. constructor. exact Hl.
  - intros l ts _ IH a ta nl f q Ha Hf Et Hq.
    destruct (Hbrackets _ json_elems 91 TArrayBegin 93 TArrayEnd l ts eq_refl eq_refl ltac:(discriminate) ltac:(discriminate) eq_refl eq_refl IH) with (1 := Ha) (2 := Hf) (3 := Et) (4 := Hq)
      as (k & E & Hk). eexists. split; [exact E|]. constructor. exact Hk.
  - intros w Hw a ta nl f q Ha Hf Et Hq.
    destruct (Hbrackets _ json_members 123 TObjectBegin 125 TObjectEnd w [] eq_refl eq_refl ltac:(discriminate) ltac:(discriminate) eq_refl eq_refl) with (2 := Ha) (3 := Hf) (4 := Et) (5 := Hq)
      as (l & E & Hl); [apply Hempty; [exact Hw|constructor]|]. eexists. split; [exact E|]. apply (jv_object l [] []); [exact Hl|].
    exists []. split; [constructor|]. split; reflexivity.
  - intros l kvs o _ IH Ho a ta nl f q Ha Hf Et Hq.
    destruct (Hbrackets _ json_members 123 TObjectBegin 125 TObjectEnd l kvs eq_refl eq_refl ltac:(discriminate) ltac:(discriminate) eq_refl eq_refl IH) with (1 := Ha) (2 := Hf) (3 := Et) (4 := Hq)
      as (k & E & Hk). eexists. split; [exact E|]. apply (jv_object k kvs o Hk Ho).
  - intros w v w' t Hw _ Hv Hw' a ta nl f q Ha Hf Et Hq.
    destruct (spaced_value w v w' t q a ta nl f Hw Hv Hw' Ha Hf Et Hq) as (l & E & Hl). exists l. split; [exact E|]. constructor. exact Hl.
  - intros w v w' t l ts Hw _ Hv Hw' _ IH. apply (Hcons _ json_elems (t :: ts) w v w' t l (fun tl => json_elems tl ts) Hw Hv Hw' IH). intros. constructor; assumption.
  - intros w body k w1 w2 v w3 t Hw Hs Hw1 Hw2 _ Hv Hw3.
    apply (Hkey _ json_members [(k, t)] w body k w1 (w2 ++ v ++ w3) (fun tl => json_value tl t) Hw Hs Hw1); [|intros; constructor; assumption].
    intros a ta nl f q Ha Hf Et Hq. exact (spaced_value w2 v w3 t q a ta nl f Hw2 Hv Hw3 Ha Hf Et Hq).
  - intros w body k w1 w2 v w3 t l kvs Hw Hs Hw1 Hw2 _ Hv Hw3 _ IH.
    apply (Hkey _ json_members ((k, t) :: kvs) w body k w1 (w2 ++ v ++ w3 ++ 44 :: l) (fun x => exists tv tl, x = tv ++ TComma :: tl /\ json_value tv t /\ json_members tl kvs) Hw Hs Hw1).
    + apply (Hcons _ (fun x (_ : unit) => exists tv tl, x = tv ++ TComma :: tl /\ json_value tv t /\ json_members tl kvs) tt w2 v w3 t l (fun tl => json_members tl kvs) Hw2 Hv Hw3 IH).
      intros tv tl H1 H2. exists tv, tl. auto.
    + intros tl (tv & tl' & -> & H1 & H2). constructor; assumption.
Qed.
End Text.

Lemma strip_spread a ta : a <> [] -> strip ta = a -> exists b n, ta = b ++ repeat TNewLine n /\ spread a b.
Proof.
  revert a. induction ta as [|x ta IH]; intros a Ha E; [cbn in E; congruence|].
  cbn [filter] in E. destruct (not_newline x) eqn:Ex.
  - subst a. destruct (strip ta) as [|y a'] eqn:E'.
    + exists [x]. clear IH Ha. assert (H : exists n, ta = repeat TNewLine n).
      { clear Ex. induction ta as [|z ta IH]; [exists O; reflexivity|]. cbn [filter] in E'. destruct z; try discriminate. destruct (IH E') as [n ->]. exists (S n). reflexivity. }
      destruct H as [n ->]. exists n. split; [reflexivity|]. apply sp_token. constructor.
    + destruct (IH (y :: a')) as (b & n & -> & Hs); [discriminate|reflexivity|]. exists (x :: b), n. split; [reflexivity|]. apply sp_token, Hs.
  - destruct x; try discriminate. destruct (IH a Ha E) as (b & n & -> & Hs). exists (TNewLine :: b), n. split; [reflexivity|].
    destruct a as [|y a]; [congruence|]. apply sp_newline, Hs.
Qed.

(** The tokens of a JSON text. *)
Lemma rfc_tokens text t : rfc_text text t -> calm text -> no_surrogate_escape text -> no_negative_zero text ->
  exists ta f0, (forall fuel, (f0 <= fuel)%nat -> tokenize fuel text = Ok ta) /\ json_text ta t.
Proof.
  intros (w & v & w' & Hw & Hv & Hw' & Et) Hc Hs Hz.
  destruct (values text Hc Hs Hz) as (HV & _ & _).
  destruct (spaced_value text w v w' t [] [] [] false TokenizerGrammar.any Hw (HV _ _ Hv) Hw' ls_nil) as (l & (ta & nl & f & E1 & E2 & E3) & Hl).
  - split; red; reflexivity.
  - rewrite app_nil_r. exact Et.
  - exact I.
  - cbn [app filter] in E1, E2. rewrite <- Et in E1. destruct (lexseq_reads _ _ _ _ E1) as [f0 H]. exists ta, f0. split.
    + intros fuel Hf. specialize (H fuel [] Hf I). rewrite app_nil_r in H. rewrite H. change (tokenize fuel []) with (Ok (@nil token)).
      assert (TokenizerGrammar.pending nl [] = []) as -> by (destruct nl; reflexivity). unfold prepend_list. cbn [obind]. rewrite !app_nil_r. reflexivity.
    + destruct (strip_spread l ta) as (b & n & -> & Hb); [|exact E2|].
      { destruct Hl; discriminate. }
      exists O, l, b, n. auto.
Qed.

(** Every JSON text, of any size and layout, is read as JSON, with the value that it denotes. *)
Theorem C83_json_partial : forall text t, rfc_text text t -> calm text -> no_surrogate_escape text -> no_negative_zero text ->
  exists f0, forall tf depth io R k, (f0 <= tf)%nat -> io R = Some text ->
  exists c' v, parse io tf (S depth) (fresh R k) = Ok (c', inl (Json, v)) /\ erase v = t.
Proof.
  intros text t Ht Hc Hs Hz. destruct (rfc_tokens text t Ht Hc Hs Hz) as (ta & f0 & H1 & H2). exists f0. intros tf depth io R k Hf Hio.
  unfold parse. cbn [fresh cx_path]. rewrite Hio, (H1 tf Hf). cbn [obind].
  change (parse_tokens io tf (S depth)) with (parse_tokens_with (import_with io tf (parse_tokens io tf depth))).
  apply (parse_json _ _ ta t). exact H2.
Qed.
Print Assumptions C83_json_partial.

(** A text with everything in it, laid out with white space, and what the parser makes of it. *)
Definition sample : string := " [ 1 , {""a"" :-2.5e1},true ,""x\nA"",{ },[null
]	]
"%string.
Definition sample_value : tree :=
  VArray [VNumber 0x3FF0000000000000; VObject [([97], VNumber 0xC039000000000000)]; VBool true; VString [120; 10; 65]; VObject []; VArray [VNull]].
Lemma sample_rfc : rfc_text (txt sample) sample_value.
Proof.
  assert (W0 : white []) by constructor. assert (W1 : white [32]) by (repeat constructor; auto).
  assert (W3 : white [9]) by (repeat constructor; auto). assert (W4 : white [10]) by (repeat constructor; auto).
  exists [32], (removelast (tl (txt sample))), [10]. split; [exact W1|]. split; [|split; [exact W4|reflexivity]].
  assert (N1 : rfc_value (txt "1") (VNumber 0x3FF0000000000000)).
  { apply (rv_number {| nl_neg := false; nl_int := [49]; nl_frac := []; nl_exp := None |}).
    - split; [split; [repeat constructor|right; exists 49, []; split; [reflexivity|lia]]|split; [constructor|exact I]].
    - apply f64_exact; try reflexivity; [lia|]. vm_compute. lra. }
  assert (N2 : rfc_value (txt "-2.5e1") (VNumber 0xC039000000000000)).
  { apply (rv_number {| nl_neg := true; nl_int := [50]; nl_frac := [53]; nl_exp := Some (101, [], [49]) |}).
    - split; [split; [repeat constructor|right; exists 50, []; split; [reflexivity|lia]]|split; [repeat constructor|]].
      split; [auto|]. split; [auto|]. split; [discriminate|repeat constructor].
    - apply f64_exact; try reflexivity; [lia|]. vm_compute. lra. }
  assert (S1 : rfc_value (txt """x\nA""") (VString [120; 10; 65])).
  { apply (rv_string (txt "x\nA") [120; 10; 65]). apply rs_raw; [left; lia|lia|lia|lia|]. apply rs_short; [reflexivity|]. apply rs_raw; [left; lia|lia|lia|lia|]. constructor. }
  assert (O1 : rfc_value (txt "{""a"" :-2.5e1}") (VObject [([97], VNumber 0xC039000000000000)])).
  { apply (rv_object (txt """a"" :-2.5e1") [([97], VNumber 0xC039000000000000)]).
    - apply (rm_last [] [97] [97] [32] [] (txt "-2.5e1") []); auto. apply rs_raw; [left; lia|lia|lia|lia|]. constructor.
    - exists [([97], VNumber 0xC039000000000000)]. split; [repeat constructor|]. split; reflexivity. }
  refine (rv_array (removelast (tl (removelast (tl (txt sample))))) _ _).
  refine (re_cons [32] (txt "1") [32] _ (txt " {""a"" :-2.5e1},true ,""x\nA"",{ },[null
]	") _ W1 N1 W1 _).
  refine (re_cons [32] (txt "{""a"" :-2.5e1}") [] _ (txt "true ,""x\nA"",{ },[null
]	") _ W1 O1 W0 _).
  refine (re_cons [] (txt "true") [32] _ (txt """x\nA"",{ },[null
]	") _ W0 rv_true W1 _).
  refine (re_cons [] (txt """x\nA""") [] _ (txt "{ },[null
]	") _ W0 S1 W0 _).
  refine (re_cons [] (txt "{ }") [] _ (txt "[null
]	") _ W0 (rv_no_members [32] W1) W0 _).
  refine (re_last [] (txt "[null
]") [9] _ W0 _ W3).
  refine (rv_array (txt "null
") _ _). exact (re_last [] (txt "null") [10] _ W0 rv_null W4).
Qed.
Example C83_case : rfc_text (txt sample) sample_value /\
  match parse (fun _ => Some (txt sample)) 1000 1 (fresh [] 0) with Ok (_, inl (d, v)) => Some (d, erase v) | _ => None end = Some (Json, sample_value).
Proof. split; [exact sample_rfc|]. vm_compute. reflexivity. Qed.

(** * What is not read, and what is read though it is not JSON *)

(** A JSON text with a surrogate pair is not read (U+1F400 as two escapes). *)
Theorem C83_json_refuted : exists text t, rfc_text text t /\ calm text /\ no_negative_zero text /\
  forall io tf depth R k, io R = Some text -> exists c' e, parse io tf (S depth) (fresh R k) = Ok (c', inr e).
Proof.
  exists [34; 92; 117; 100; 56; 51; 100; 92; 117; 100; 99; 48; 48; 34], (VString (units [0x1F400])). split; [|split; [|split]].
  - exists [], [34; 92; 117; 100; 56; 51; 100; 92; 117; 100; 99; 48; 48; 34], []. split; [constructor|]. split; [|split; [constructor|reflexivity]].
    apply (rv_string [92; 117; 100; 56; 51; 100; 92; 117; 100; 99; 48; 48] [0x1F400]).
    refine (rs_pair [100; 56; 51; 100] 0xD83D [100; 99; 48; 48] 0xDC00 [] [] _ _ _ _ rs_nil); try lia; do 8 eexists; repeat split.
  - apply plain_calm; [cbn; lia|vm_compute; repeat constructor; discriminate].
  - intros p n q E _ Hneg _ _. assert (Hin : In 45 [34; 92; 117; 100; 56; 51; 100; 92; 117; 100; 99; 48; 48; 34]).
    { rewrite E. apply in_app_iff. right. apply in_app_iff. left. unfold number_text. rewrite Hneg. left. reflexivity. }
    cbn in Hin. lia.
  - intros io tf depth R k Hio. unfold parse. cbn [fresh cx_path]. rewrite Hio.
    assert (exists ts, tokenize tf [34; 92; 117; 100; 56; 51; 100; 92; 117; 100; 99; 48; 48; 34] = Ok (TError InvalidHex :: ts)) as [ts ->]
      by (eexists; vm_compute; reflexivity).
    cbn [obind]. change (parse_tokens io tf (S depth)) with (parse_tokens_with (import_with io tf (parse_tokens io tf depth))).
    assert (E : exists c1 err, parse_tokens_with (import_with io tf (parse_tokens io tf depth)) (cx_reading (fresh R k) R) [TError InvalidHex] = Ok (c1, inr err) /\ err <> UnexpectedEnd)
      by (eexists _, _; split; [reflexivity|discriminate]).
    destruct E as (c1 & err & E & Hne). exists c1, err. change (TError InvalidHex :: ts) with ([TError InvalidHex] ++ ts). apply C41_error_final; assumption.
Qed.
Print Assumptions C83_json_refuted.


(** Control characters only occur as white space in a JSON text. *)
Lemma rfc_string_printable body s : rfc_string body s -> Forall (fun c => 32 <= c) body.
Proof.
  assert (Hx : forall c v, hex_value c = Some v -> 32 <= c) by (intros c v; unfold hex_value; classes; destruct ((48 <=? c) && (c <=? 57)) eqn:E1; [lia|]; destruct ((97 <=? c) && (c <=? 102)) eqn:E2; [lia|]; destruct ((65 <=? c) && (c <=? 70)) eqn:E3; [lia|discriminate]).
  assert (H4 : forall h v, hex4 h v -> Forall (fun c => 32 <= c) h).
  { intros h v (a & b & c & d & va & vb & vc & vd & -> & Ha & Hb & Hc & Hd & _). repeat constructor; eapply Hx; eassumption. }
  induction 1 as [|c body s Hc H20 H34 H92 H IH|x y body s Hsx H IH|h v body s Hh Hv H IH|h v l u body s Hh Hv Hl Hu H IH]; [constructor|..].
  - constructor; [lia|exact IH].
  - constructor; [lia|]. constructor; [|exact IH]. revert Hsx. unfold short_escape.
    repeat match goal with |- context [if ?b then _ else _] => destruct b eqn:?; [lia|] end. discriminate.
  - do 2 (constructor; [lia|]). apply Forall_app. split; [eapply H4; eassumption|exact IH].
  - do 2 (constructor; [lia|]). apply Forall_app. split; [eapply H4; eassumption|]. do 2 (constructor; [lia|]). apply Forall_app. split; [eapply H4; eassumption|exact IH].
Qed.
Definition printable_or_white (c : Z) : Prop := 32 <= c \/ c = 9 \/ c = 10 \/ c = 13.
Lemma white_pw w : white w -> Forall printable_or_white w.
Proof. apply Forall_impl. unfold printable_or_white. intros c. lia. Qed.
Lemma digits_pw l : all_digits l -> Forall printable_or_white l.
Proof. apply Forall_impl. unfold printable_or_white, is_digit. intros c. lia. Qed.
Lemma number_pw n : number_ok n -> Forall printable_or_white (number_text n).
Proof.
  intros ([Hi _] & Hf & He). unfold number_text. apply Forall_app. split; [destruct (nl_neg n); repeat constructor; lia|].
  apply Forall_app. split; [apply digits_pw, Hi|]. apply Forall_app. split.
  - destruct (nl_frac n) as [|c l] eqn:E; [constructor|]. constructor; [left; lia|apply digits_pw, Hf].
  - destruct (nl_exp n) as [[[l sg] ds]|]; [|constructor]. destruct He as (Hl & Hs & _ & Hd). constructor; [left; lia|].
    apply Forall_app. split; [destruct Hs as [->|[->| ->]]; repeat constructor; lia|apply digits_pw, Hd].
Qed.
Lemma rfc_pw : (forall w t, rfc_value w t -> Forall printable_or_white w) /\ (forall w ts, rfc_elements w ts -> Forall printable_or_white w) /\
  (forall w kvs, rfc_members w kvs -> Forall printable_or_white w).
Proof.
  assert (Hs : forall body s, rfc_string body s -> Forall printable_or_white (34 :: body ++ [34])).
  { intros body s H. constructor; [left; lia|]. apply Forall_app. split; [|repeat constructor; unfold printable_or_white; lia].
    eapply Forall_impl; [|exact (rfc_string_printable _ _ H)]. cbn beta. unfold printable_or_white. lia. }
  apply rfc_value_mutind; intros; try (apply number_pw; assumption); repeat (first [apply Forall_app; split | apply Forall_cons; [left; lia|] | apply Forall_nil]);
    try (apply white_pw; assumption); try assumption;
    try (match goal with H : rfc_string _ _ |- _ => apply Hs in H; inversion H as [|? ? ? H']; subst; apply Forall_app in H'; tauto end).
  - vm_compute; repeat (apply Forall_cons; [left; discriminate|]); apply Forall_nil.
  - vm_compute; repeat (apply Forall_cons; [left; discriminate|]); apply Forall_nil.
  - vm_compute; repeat (apply Forall_cons; [left; discriminate|]); apply Forall_nil.
Qed.

(** Strings are read with control characters in them, which JSON forbids. *)
Theorem C83_only_json_refuted : forall c, 0 <= c < 32 -> c <> 9 -> c <> 10 -> c <> 13 ->
  (forall io tf depth R k, io R = Some [34; c; 34] -> exists c', parse io tf (S depth) (fresh R k) = Ok (c', inl (Json, AString [c]))) /\
  ~ exists t, rfc_text [34; c; 34] t.
Proof.
  intros c Hc N1 N2 N3. split.
  - intros io tf depth R k Hio. destruct (C73_string io tf depth R k [c] [c] Hio) as (c' & u & H & Hu).
    + repeat constructor; lia.
    + apply sp_raw; try lia. constructor.
    + exists c'. rewrite H. repeat f_equal.
      assert (Hr : reads_as u [c]) by (apply Hu; reflexivity). clear - Hr Hc. inversion Hr as [|? ? ? H1 H2 H3|]; subst; [inversion H3; reflexivity|lia].
  - intros (t & w & v & w' & Hw & Hv & Hw' & E).
    assert (H : Forall printable_or_white [34; c; 34]).
    { rewrite E. apply Forall_app. split; [apply white_pw, Hw|]. apply Forall_app. split; [eapply (proj1 rfc_pw), Hv|apply white_pw, Hw']. }
    inversion H as [|? ? _ H']; subst. inversion H' as [|? ? Hx _]; subst. unfold printable_or_white in Hx. lia.
Qed.
Print Assumptions C83_only_json_refuted.
