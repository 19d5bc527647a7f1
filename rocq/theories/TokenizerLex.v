(** Lexemes: what a text contributes to the token sequence wherever it occurs. *)
From Coq Require Import ZArith List Bool Lia.
From Coq Require Import ZifyBool ZifyNat.
From Verif Require Import Outcome LimbsModel LimbsSpec BigIntModel JsBigintModel BigFloatModel BigSpec
  LimbsProofs ShiftProofs JsBigintProofs RangeMapModel RangeMapSpec TokenizerModel TokenizerSpec
  TokenizerProofs TokenizerRun.
Import ListNotations.
Open Scope Z_scope.

(** [reads fuel w toks follow]: followed by the end of the text or by a character in
    [follow], the text [w] contributes exactly [toks]; the rest is tokenized as if it stood
    alone. *)
Definition reads (fuel : nat) (w : list Z) (toks : list token) (follow : Z -> bool) : Prop :=
  forall q, match q with [] => True | c :: _ => 0 <= c /\ follow c = true end ->
    tokenize fuel (w ++ q) = prepend_list toks (tokenize fuel q).

Lemma reads_run fuel w t1 st t2 follow : run fuel Initial w = Ok (t1, st) -> tend fuel st = Ok t2 ->
  (forall c, 0 <= c -> follow c = true -> push fuel st c = prepend t2 (push fuel Initial c)) ->
  reads fuel w (t1 ++ t2) follow.
Proof.
  intros H1 H2 H3 q Hq. rewrite !tokenize_run, (run_app_ok _ _ _ _ _ _ H1), finish_prepend.
  destruct q as [|c q].
  - cbn [run]. unfold finish. cbn [obind tend app]. rewrite H2. cbn [obind prepend_list].
    rewrite app_nil_r. reflexivity.
  - cbn [run]. rewrite (H3 c) by tauto.
    rewrite <- prepend_list_app. f_equal.
    destruct (push fuel Initial c) as [[a st']| |]; try reflexivity.
    unfold prepend at 1. cbn [obind]. rewrite <- prepend_app, finish_prepend. reflexivity.
Qed.

Lemma reads_initial fuel w t : run fuel Initial w = Ok (t, Initial) -> reads fuel w t (fun _ => true).
Proof.
  intros H. rewrite <- (app_nil_r t). apply (reads_run _ _ _ _ _ _ H); [reflexivity|].
  intros. symmetry. apply prepend_nil.
Qed.

Lemma reads_app fuel w1 t1 f1 w2 t2 f2 c w2' : reads fuel w1 t1 f1 -> reads fuel w2 t2 f2 ->
  w2 = c :: w2' -> 0 <= c -> f1 c = true -> reads fuel (w1 ++ w2) (t1 ++ t2) f2.
Proof.
  intros H1 H2 E Hc Hf q Hq. rewrite <- app_assoc, H1 by (subst w2; cbn; auto).
  rewrite H2 by exact Hq. apply prepend_list_app.
Qed.

Lemma reads_weaken fuel w t f g : (forall c, g c = true -> f c = true) -> reads fuel w t f -> reads fuel w t g.
Proof. intros H R q Hq. apply R. destruct q; [exact I|]. destruct Hq. auto. Qed.

Lemma step_ok fuel st c toks st' text : 0 <= c -> step fuel st c = Ok (toks, st') ->
  run fuel st (c :: text) = prepend toks (run fuel st' text).
Proof. intros Hc H. cbn [run]. rewrite push_step by exact Hc. rewrite H. reflexivity. Qed.

Lemma step_nil fuel st c st' text : 0 <= c -> step fuel st c = Ok ([], st') ->
  run fuel st (c :: text) = run fuel st' text.
Proof. intros Hc H. rewrite (step_ok _ _ _ _ _ _ Hc H). apply prepend_nil. Qed.

(** * Strings *)
Lemma hex_range c v : hex_value c = Some v -> 0 <= c /\ 0 <= v < 16.
Proof.
  unfold hex_value, is_digit. intros H.
  destruct ((48 <=? c) && (c <=? 57)) eqn:E1; [inversion H; lia|].
  destruct ((97 <=? c) && (c <=? 102)) eqn:E2; [inversion H; lia|].
  destruct ((65 <=? c) && (c <=? 70)) eqn:E3; [inversion H; lia|discriminate].
Qed.

Lemma short_escape_step fuel s x y : short_escape x = Some y ->
  step fuel (ParseEscapeChar s) x = Ok ([], ParseString (s ++ [y])).
Proof.
  intros H. unfold step, short_escape, cls_escape in *.
  destruct (Z.eqb_spec x 34); [inversion H; subst; reflexivity|].
  destruct (Z.eqb_spec x 92); [inversion H; subst; reflexivity|].
  destruct (Z.eqb_spec x 47); [inversion H; subst; reflexivity|]. cbn [orb].
  destruct (x =? 98); [inversion H; subst; reflexivity|].
  destruct (x =? 102); [inversion H; subst; reflexivity|].
  destruct (x =? 110); [inversion H; subst; reflexivity|].
  destruct (x =? 114); [inversion H; subst; reflexivity|].
  destruct (x =? 116); [inversion H; subst; reflexivity|discriminate].
Qed.
Lemma short_escape_pos x y : short_escape x = Some y -> 0 <= x.
Proof.
  unfold short_escape. intros H.
  repeat match type of H with (if ?b then _ else _) = _ => destruct b eqn:? end; try discriminate; lia.
Qed.

Lemma lor_hex h l k : 0 <= h -> 0 <= l < 2 ^ k -> 0 <= k -> Z.lor (h * 2 ^ k) l = h * 2 ^ k + l.
Proof. intros Hh Hl Hk. apply (lor_disjoint _ _ k); auto. apply Z.mod_mul. lia. Qed.

(** The four hexadecimal digits of a [\u] escape. *)
Lemma run_hex fuel s a b c d va vb vc vd rest :
  hex_value a = Some va -> hex_value b = Some vb -> hex_value c = Some vc -> hex_value d = Some vd ->
  run fuel (ParseUnicodeChar s 0 0) (a :: b :: c :: d :: rest) =
  let v := va * 4096 + vb * 256 + vc * 16 + vd in
  match from_u32 v with
  | Some v => run fuel (ParseString (s ++ [v])) rest
  | None => prepend [TError InvalidHex] (run fuel Initial rest)
  end.
Proof.
  intros Ha Hb Hc Hd. cbv zeta.
  pose proof (hex_range _ _ Ha) as [Pa Ra]. pose proof (hex_range _ _ Hb) as [Pb Rb].
  pose proof (hex_range _ _ Hc) as [Pc Rc]. pose proof (hex_range _ _ Hd) as [Pd Rd].
  assert (E1 : step fuel (ParseUnicodeChar s 0 0) a = Ok ([], ParseUnicodeChar s (va * 4096) 1)).
  { cbn [step]. rewrite Ha. unfold unicode_push. cbn [Z.eqb Z.leb andb]. rewrite Z.lor_0_l.
    rewrite Z.shiftl_mul_pow2 by lia. reflexivity. }
  rewrite (step_nil _ _ _ _ _ Pa E1).
  assert (E2 : step fuel (ParseUnicodeChar s (va * 4096) 1) b =
               Ok ([], ParseUnicodeChar s (va * 4096 + vb * 256) 2)).
  { cbn [step]. rewrite Hb. unfold unicode_push. change (1 =? 3) with false. change ((0 <=? 1) && (1 <=? 2)) with true.
    cbv iota. change ((3 - 1) * 4) with 8.
    rewrite Z.shiftl_mul_pow2 by lia. change (va * 4096) with (va * 2 ^ 12). rewrite lor_hex by lia. reflexivity. }
  rewrite (step_nil _ _ _ _ _ Pb E2).
  assert (E3 : step fuel (ParseUnicodeChar s (va * 4096 + vb * 256) 2) c =
               Ok ([], ParseUnicodeChar s (va * 4096 + vb * 256 + vc * 16) 3)).
  { cbn [step]. rewrite Hc. unfold unicode_push. change (2 =? 3) with false. change ((0 <=? 2) && (2 <=? 2)) with true.
    cbv iota. change ((3 - 2) * 4) with 4.
    rewrite Z.shiftl_mul_pow2 by lia. replace (va * 4096 + vb * 256) with ((va * 16 + vb) * 2 ^ 8) by lia.
    rewrite lor_hex by lia. reflexivity. }
  rewrite (step_nil _ _ _ _ _ Pc E3).
  assert (E4 : Z.lor (va * 4096 + vb * 256 + vc * 16) (Z.shiftl vd 0) = va * 4096 + vb * 256 + vc * 16 + vd).
  { rewrite Z.shiftl_0_r. replace (va * 4096 + vb * 256 + vc * 16) with ((va * 256 + vb * 16 + vc) * 2 ^ 4) by lia.
    apply lor_hex; lia. }
  assert (E5 : step fuel (ParseUnicodeChar s (va * 4096 + vb * 256 + vc * 16) 3) d =
    match from_u32 (va * 4096 + vb * 256 + vc * 16 + vd) with
    | Some v => Ok ([], ParseString (s ++ [v]))
    | None => Ok ([TError InvalidHex], Initial)
    end).
  { cbn [step]. rewrite Hd. unfold unicode_push. change (3 =? 3) with true. cbv iota.
    change ((3 - 3) * 4) with 0. rewrite E4. reflexivity. }
  destruct (from_u32 _) as [v|].
  - apply step_nil; auto.
  - apply step_ok; auto.
Qed.

Lemma from_u32_scalar v : scalar v -> from_u32 v = Some v.
Proof. unfold scalar, from_u32, is_char. intros H. replace (_ || _) with true by lia. reflexivity. Qed.

Lemma run_spells fuel body s : spells body s -> forall s0 rest,
  run fuel (ParseString s0) (body ++ rest) = run fuel (ParseString (s0 ++ s)) rest.
Proof.
  induction 1 as [|c body s Hc Hq Hb H IH|x y body s Hx H IH|a b c d va vb vc vd body s Ha Hb Hc Hd Hs H IH];
    intros s0 rest.
  - rewrite app_nil_r. reflexivity.
  - cbn [app]. assert (E : step fuel (ParseString s0) c = Ok ([], ParseString (s0 ++ [c]))).
    { cbn [step]. rewrite push_string by exact Hc. rewrite (proj2 (Z.eqb_neq c 34) Hq), (proj2 (Z.eqb_neq c 92) Hb).
      reflexivity. }
    rewrite (step_nil _ _ _ _ _ Hc E), IH, <- app_assoc. reflexivity.
  - cbn [app]. assert (E : step fuel (ParseString s0) 92 = Ok ([], ParseEscapeChar s0)).
    { cbn [step]. rewrite push_string by lia. reflexivity. }
    rewrite (step_nil _ _ 92 _ _ ltac:(lia) E).
    rewrite (step_nil _ _ _ _ _ (short_escape_pos _ _ Hx) (short_escape_step _ _ _ _ Hx)).
    rewrite IH, <- app_assoc. reflexivity.
  - cbn [app]. assert (E : step fuel (ParseString s0) 92 = Ok ([], ParseEscapeChar s0)).
    { cbn [step]. rewrite push_string by lia. reflexivity. }
    rewrite (step_nil _ _ 92 _ _ ltac:(lia) E).
    assert (E2 : step fuel (ParseEscapeChar s0) 117 = Ok ([], ParseUnicodeChar s0 0 0)) by reflexivity.
    rewrite (step_nil _ _ 117 _ _ ltac:(lia) E2).
    rewrite (run_hex _ _ _ _ _ _ _ _ _ _ _ Ha Hb Hc Hd). cbv zeta. rewrite from_u32_scalar by exact Hs.
    rewrite IH, <- app_assoc. reflexivity.
Qed.

Lemma step_initial fuel c : 0 <= c -> step fuel Initial c = push fuel Initial c.
Proof. reflexivity. Qed.

Lemma reads_string fuel body s : spells body s -> reads fuel (34 :: body ++ [34]) [TString s] (fun _ => true).
Proof.
  intros H. apply reads_initial.
  assert (E : step fuel Initial 34 = Ok ([], ParseString [])) by (cbn [step]; rewrite push_initial by lia; reflexivity).
  rewrite (step_nil _ _ 34 _ _ ltac:(lia) E), (run_spells _ _ _ H). cbn [run app].
  rewrite push_string by lia. reflexivity.
Qed.

(** * Identifiers and operators *)
Lemma run_ident fuel w : Forall (fun c => ident_part c = true) w -> forall s,
  run fuel (ParseId s) w = Ok ([], ParseId (s ++ w)).
Proof.
  induction 1 as [|c w Hc H IH]; intros s.
  - cbn. rewrite app_nil_r. reflexivity.
  - assert (Pc : 0 <= c) by (classes; lia).
    assert (E : step fuel (ParseId s) c = Ok ([], ParseId (s ++ [c]))) by (cbn [step]; rewrite Hc; reflexivity).
    rewrite (step_nil _ _ _ _ _ Pc E), IH, <- app_assoc. reflexivity.
Qed.

Lemma initial_ident c : ident_start c = true -> cls_initial c = Some IId.
Proof.
  intros H. unfold cls_initial. rewrite H. classes.
  repeat match goal with |- (if ?b then _ else _) = _ => (replace b with false by lia) || fail 1 end. reflexivity.
Qed.

Lemma reads_ident fuel c w : ident_start c = true -> Forall (fun c => ident_part c = true) w ->
  reads fuel (c :: w) [TId (c :: w)] (fun x => negb (ident_part x)).
Proof.
  intros Hc Hw. change [TId (c :: w)] with (([] : list token) ++ [TId (c :: w)]).
  assert (Pc : 0 <= c) by (classes; lia).
  assert (E : step fuel Initial c = Ok ([], ParseId [c])).
  { cbn [step]. rewrite push_initial, initial_ident by auto. reflexivity. }
  eapply reads_run.
  - rewrite (step_nil _ _ _ _ _ Pc E). apply run_ident, Hw.
  - reflexivity.
  - intros x Hx Hf. rewrite push_step by exact Hx. cbn [step]. destruct (ident_part x); [discriminate|reflexivity].
Qed.

(** The token of a punctuator. *)
Lemma operator_token c : is_op c = true -> exists t, operator_to_token [c] = Some t.
Proof.
  intros H. unfold operator_to_token.
  repeat match goal with |- exists t, (if ?b then _ else _) = _ => destruct b eqn:?; [eexists; reflexivity|] end.
  classes. unfold ch_lbrace, ch_rbrace, ch_lbracket, ch_rbracket, ch_colon, ch_comma, ch_eq, ch_dot, ch_semi,
    ch_lpar, ch_rpar in *. lia.
Qed.

Lemma reads_operator fuel c t : 0 <= c -> is_op c = true -> operator_to_token [c] = Some t ->
  reads fuel [c] [t] (fun _ => true).
Proof.
  intros Pc Hc Ht. change [t] with (([] : list token) ++ [t]).
  eapply reads_run with (st := ParseOperator [c]).
  - cbn [run]. rewrite push_initial by exact Pc. unfold cls_initial. unfold is_op in Hc. rewrite Hc. reflexivity.
  - cbn [tend]. rewrite Ht. reflexivity.
  - intros x Hx _. rewrite push_step by exact Hx. cbn [step app].
    change (operator_to_token [c; x]) with (@None token). rewrite Ht. reflexivity.
Qed.

(** * White space and comments *)
Lemma run_blanks fuel w : Forall (fun c => is_blank c = true) w -> run fuel Initial w = Ok ([], Initial).
Proof.
  induction 1 as [|c w Hc H IH]; [reflexivity|].
  assert (Pc : 0 <= c) by (classes; lia).
  assert (E : step fuel Initial c = Ok ([], Initial)).
  { cbn [step]. rewrite push_initial by exact Pc. unfold cls_initial. rewrite Hc.
    classes.
    repeat match goal with |- context [if ?b then _ else _] => (replace b with false by lia) || fail 1 end. reflexivity. }
  rewrite (step_nil _ _ _ _ _ Pc E). exact IH.
Qed.

Lemma reads_blanks fuel w : Forall (fun c => is_blank c = true) w -> reads fuel w [] (fun _ => true).
Proof. intros H. apply reads_initial, run_blanks, H. Qed.

Lemma run_spaces fuel w : Forall (fun c => is_space c = true) w -> run fuel ParseNewLine w = Ok ([], ParseNewLine).
Proof.
  induction 1 as [|c w Hc H IH]; [reflexivity|].
  assert (Pc : 0 <= c) by (classes; lia).
  assert (E : step fuel ParseNewLine c = Ok ([], ParseNewLine)) by (cbn [step]; rewrite Hc; reflexivity).
  rewrite (step_nil _ _ _ _ _ Pc E). exact IH.
Qed.

(** Text in the state after a line break. *)
Lemma newline_rest fuel q : match q with [] => True | c :: _ => 0 <= c /\ is_space c = false end ->
  finish fuel (run fuel ParseNewLine q) =
  prepend_list (match q with [] => [] | _ => [TNewLine] end) (tokenize fuel q).
Proof.
  intros Hq. rewrite tokenize_run. destruct q as [|c q]; [reflexivity|]. destruct Hq as [Pc Hc].
  cbn [run]. rewrite push_step by exact Pc. cbn [step]. rewrite Hc.
  destruct (push fuel Initial c) as [[a st]| |]; try reflexivity.
  unfold prepend at 1. cbn [obind]. rewrite <- prepend_app, finish_prepend. reflexivity.
Qed.

Lemma tokenize_newline fuel w q : Forall (fun c => is_space c = true) w ->
  match q with [] => True | c :: _ => 0 <= c /\ is_space c = false end ->
  tokenize fuel (10 :: w ++ q) = prepend_list (match q with [] => [] | _ => [TNewLine] end) (tokenize fuel q).
Proof.
  intros Hw Hq. rewrite tokenize_run.
  assert (E : step fuel Initial 10 = Ok ([], ParseNewLine)) by (cbn [step]; rewrite push_initial by lia; reflexivity).
  rewrite (step_nil _ _ 10 _ _ ltac:(lia) E), (run_app_ok _ _ _ _ _ _ (run_spaces fuel w Hw)), prepend_nil.
  apply newline_rest, Hq.
Qed.

Lemma run_line_comment fuel body : Forall (fun c => 0 <= c /\ c <> 10 /\ c <> 13) body ->
  run fuel ParseSinglelineComment body = Ok ([], ParseSinglelineComment).
Proof.
  induction 1 as [|c w [Pc Hc] H IH]; [reflexivity|].
  assert (E : step fuel ParseSinglelineComment c = Ok ([], ParseSinglelineComment)).
  { cbn [step]. replace ((c =? 10) || (c =? 13)) with false by lia. reflexivity. }
  rewrite (step_nil _ _ _ _ _ Pc E). exact IH.
Qed.

Lemma run_comment_start fuel x : x = 47 \/ x = 42 ->
  run fuel Initial [47; x] = Ok ([], if x =? 47 then ParseSinglelineComment else ParseMultilineComment).
Proof.
  intros Hx. cbn [run]. rewrite push_initial by lia. change (cls_initial 47) with (Some ISlash). cbn [obind].
  rewrite push_step by lia. cbn [step]. destruct Hx as [->| ->]; reflexivity.
Qed.

(** A block comment: the two comment states read the body up to the first [*/]. *)
Lemma run_block fuel : forall body, chars body ->
  (~ (exists p q, body ++ [42] = p ++ [42; 47] ++ q) ->
    run fuel ParseMultilineComment (body ++ [42; 47]) = Ok ([], Initial)) /\
  (~ (exists p q, 42 :: body ++ [42] = p ++ [42; 47] ++ q) ->
    run fuel ParseMultilineCommentAsterix (body ++ [42; 47]) = Ok ([], Initial)).
Proof.
  induction body as [|c body IH]; intros Hc.
  - assert (E1 : step fuel ParseMultilineComment 42 = Ok ([], ParseMultilineCommentAsterix)) by reflexivity.
    assert (E2 : step fuel ParseMultilineCommentAsterix 42 = Ok ([], ParseMultilineCommentAsterix)) by reflexivity.
    assert (E3 : step fuel ParseMultilineCommentAsterix 47 = Ok ([], Initial)) by reflexivity.
    cbn [app]. split; intros _.
    + rewrite (step_nil _ _ 42 _ _ ltac:(lia) E1), (step_nil _ _ 47 _ _ ltac:(lia) E3). reflexivity.
    + rewrite (step_nil _ _ 42 _ _ ltac:(lia) E2), (step_nil _ _ 47 _ _ ltac:(lia) E3). reflexivity.
  - inversion Hc as [|c0 b0 Pc Hb]; subst. specialize (IH Hb) as [IH1 IH2]. cbn [app]. split; intros Hn.
    + destruct (Z.eqb_spec c 42) as [->|Nc].
      * assert (E : step fuel ParseMultilineComment 42 = Ok ([], ParseMultilineCommentAsterix)) by reflexivity.
        rewrite (step_nil _ _ _ _ _ Pc E). apply IH2. exact Hn.
      * assert (E : step fuel ParseMultilineComment c = Ok ([], ParseMultilineComment)).
        { cbn [step]. rewrite (proj2 (Z.eqb_neq c 42) Nc). reflexivity. }
        rewrite (step_nil _ _ _ _ _ Pc E). apply IH1. intros [p [q E']]. apply Hn. exists (c :: p), q.
        cbn [app]. f_equal. exact E'.
    + destruct (Z.eqb_spec c 47) as [->|N7].
      * exfalso. apply Hn. exists [], (body ++ [42]). reflexivity.
      * destruct (Z.eqb_spec c 42) as [->|Nc].
        -- assert (E : step fuel ParseMultilineCommentAsterix 42 = Ok ([], ParseMultilineCommentAsterix)) by reflexivity.
           rewrite (step_nil _ _ _ _ _ Pc E). apply IH2. intros [p [q E']]. apply Hn. exists (42 :: p), q.
           cbn [app] in *. f_equal. exact E'.
        -- assert (E : step fuel ParseMultilineCommentAsterix c = Ok ([], ParseMultilineComment)).
           { cbn [step]. rewrite (proj2 (Z.eqb_neq c 42) Nc), (proj2 (Z.eqb_neq c 47) N7). reflexivity. }
           rewrite (step_nil _ _ _ _ _ Pc E). apply IH1. intros [p [q E']]. apply Hn. exists (42 :: c :: p), q.
           cbn [app] in *. do 2 f_equal. exact E'.
Qed.

Lemma reads_block fuel body : comment_body body ->
  reads fuel ([47; 42] ++ body ++ [42; 47]) [] (fun _ => true).
Proof.
  intros [Hc Hn]. apply reads_initial. rewrite (run_app_ok _ _ _ _ _ _ (run_comment_start fuel 42 ltac:(auto))).
  rewrite prepend_nil. apply (proj1 (run_block fuel body Hc)). exact Hn.
Qed.
