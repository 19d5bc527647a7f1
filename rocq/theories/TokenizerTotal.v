(** Totality of the tokenizer on texts whose numbers stay in the range where the number
    conversion returns. *)
From Coq Require Import ZArith List Bool Lia.
From Coq Require Import ZifyBool ZifyNat.
From Verif Require Import Outcome LimbsModel LimbsSpec BigIntModel JsBigintModel BigFloatModel BigSpec
  LimbsProofs ShiftProofs JsBigintProofs RangeMapModel RangeMapSpec Prop_BigFloat TokenizerModel TokenizerSpec
  TokenizerProofs TokenizerRun TokenizerLex TokenizerNum.
Import ListNotations.
Open Scope Z_scope.

(** Eventually (for all sufficient fuel) equal to. *)
Definition ev {A} (o : nat -> outcome A) (v : A) : Prop :=
  exists f0, forall fuel, (f0 <= fuel)%nat -> o fuel = Ok v.

Lemma ev_const {A} (o : nat -> outcome A) (v : A) : (forall fuel, o fuel = Ok v) -> ev o v.
Proof. intros H. exists O. intros. apply H. Qed.
Lemma ev_bind {A C} (o : nat -> outcome A) (k : nat -> A -> outcome C) a v :
  ev o a -> ev (fun fuel => k fuel a) v -> ev (fun fuel => obind (o fuel) (k fuel)) v.
Proof.
  intros [f0 H0] [f1 H1]. exists (Nat.max f0 f1). intros fuel Hf. rewrite H0 by lia. cbn [obind]. apply H1. lia.
Qed.

Definition tok_ok (t : token) : Prop :=
  match t with TNumber b => 0 <= b < 2 ^ 64 | TBigInt b => jwf b | _ => True end.
Definition nat_ok (b : jsbigint) : Prop := jwf b /\ 0 <= jval b.

Lemma number_conv b s e : nat_ok b -> -27 <= e < 2 ^ 63 ->
  exists t, ev (fun fuel => number_token fuel b s e) t /\ tok_ok t.
Proof.
  intros [Hb Vb] He. destruct (Z.eq_dec (jval b) 0) as [E|N].
  - exists (TNumber 0). split; [apply ev_const; intros; apply number_token_zero; auto|cbn; lia].
  - destruct (C27_decimal_partial {| bf_sig := b; bf_sign := s; bf_exp := e; bf_rem := false |}) as [bits [f0 [H1 H2]]];
      cbn [bf_sig bf_exp bf_rem]; auto; [lia|].
    exists (TNumber bits). split; [|exact (proj1 H2)].
    exists f0. intros fuel Hf. unfold number_token, bigfloat_to_f64. rewrite H1 by exact Hf. reflexivity.
Qed.

(** What is known about a state after the text [p]. *)
Definition after (st : tstate) (p : list Z) : Prop :=
  match st with
  | ParseUnicodeChar _ _ i => 0 <= i <= 3
  | ParseZero _ => exists p', p = p' ++ [48]
  | ParseInt b _ => nat_ok b /\ exists p' d, p = p' ++ [d] /\ is_digit d = true
  | ParseFracBegin b _ => nat_ok b /\ exists p' d, p = p' ++ [d; 46] /\ is_digit d = true
  | ParseFrac b _ fe => nat_ok b /\ exists p' d ds, p = p' ++ d :: 46 :: ds /\ is_digit d = true /\ all_digits ds /\ fe = - Z.of_nat (length ds)
  | ParseExpBegin b _ fe es e =>
      nat_ok b /\ es = Positive /\ e = 0 /\ exists p' d frac l, p = p' ++ d :: frac ++ [l] /\ is_digit d = true /\ fraction frac (- fe) /\ (l = 101 \/ l = 69)
  | ParseExpSign b _ fe es e =>
      nat_ok b /\ e = 0 /\ exists p' d frac l, p = p' ++ d :: frac ++ [l; match es with Positive => 43 | Negative => 45 end] /\
        is_digit d = true /\ fraction frac (- fe) /\ (l = 101 \/ l = 69)
  | ParseExp b _ fe es e =>
      nat_ok b /\ exists p' d frac l sg ds, p = p' ++ d :: frac ++ l :: sg ++ ds /\ is_digit d = true /\ fraction frac (- fe) /\ (l = 101 \/ l = 69) /\
        match es with Positive => sg = [] \/ sg = [43] | Negative => sg = [45] end /\ all_digits ds /\ e = dec_value ds /\ ds <> []
  | ParseBigInt b => jwf b
  | ParseOperator s => exists t, operator_to_token s = Some t /\ tok_ok t
  | _ => True
  end.

Definition good (v : list token * tstate) (p : list Z) : Prop := Forall tok_ok (fst v) /\ after (snd v) p.

Lemma op_token_ok s t : operator_to_token s = Some t -> tok_ok t.
Proof.
  unfold operator_to_token. destruct s as [|c [|]]; try discriminate. intros H.
  repeat match type of H with (if ?b then _ else _) = _ => destruct b; [inversion H; exact I|] end. discriminate.
Qed.

Lemma initial_good c p : 0 <= c -> exists v, (forall fuel, push fuel Initial c = Ok v) /\ good v (p ++ [c]).
Proof.
  intros Hc. eexists. split; [intros; apply push_initial; exact Hc|]. unfold good.
  unfold cls_initial.
  destruct (is_punct c || (c =? 46)) eqn:E1.
  - split; [constructor|]. cbn [snd after]. destruct (operator_token c E1) as [t Ht]. exists t.
    split; [exact Ht|apply (op_token_ok _ _ Ht)].
  - destruct (is_nonzero_digit c) eqn:E2.
    + split; [constructor|]. cbn [snd after]. assert (Hd : is_digit c = true) by (classes; lia).
      destruct (from_digit_spec c Hd) as [D1 D2]. split; [split; [exact D1|]; apply digit_range in Hd; lia|]. eauto.
    + destruct (c =? 34); [repeat constructor|]. destruct (Z.eqb_spec c 48) as [->|]; [split; [constructor|]; cbn [snd after]; eauto|].
      repeat match goal with |- context [if ?b then _ else _] => destruct b; [repeat constructor|] end.
      repeat constructor.
Qed.

Lemma string_good s c p : 0 <= c -> exists v, (forall fuel, push fuel (ParseString s) c = Ok v) /\ good v p.
Proof.
  intros Hc. eexists. split; [intros; apply push_string; exact Hc|]. unfold good.
  destruct (c =? 34); [repeat constructor|]. destruct (c =? 92); repeat constructor.
Qed.

Lemma back_good toks st c p : 0 <= c -> st = Initial \/ (exists s, st = ParseString s) -> Forall tok_ok toks ->
  exists v, ev (fun fuel => prepend toks (push fuel st c)) v /\ good v (p ++ [c]).
Proof.
  intros Hc Hst Ht.
  assert (H : exists v, (forall fuel, push fuel st c = Ok v) /\ good v (p ++ [c])).
  { destruct Hst as [->|[s ->]]; [apply initial_good|apply string_good]; exact Hc. }
  destruct H as [[a s'] [H [G1 G2]]]. exists (toks ++ a, s'). split.
  - apply ev_const. intros. rewrite H. reflexivity.
  - split; [|exact G2]. cbn [fst] in *. apply Forall_app. auto.
Qed.

Lemma number_good b s e c p : 0 <= c -> nat_ok b -> -27 <= e < 2 ^ 63 ->
  exists v, ev (fun fuel => let! n := number_token fuel b s e in prepend [n] (push fuel Initial c)) v /\ good v (p ++ [c]).
Proof.
  intros Hc Hb He. destruct (number_conv b s e Hb He) as [t [Ht Ot]].
  destruct (back_good [t] Initial c p Hc ltac:(auto) ltac:(auto)) as [v [Hv Gv]]. exists v. split; [|exact Gv].
  apply (ev_bind (fun fuel => number_token fuel b s e) (fun fuel n => prepend [n] (push fuel Initial c)) t); auto.
Qed.

Lemma add_digit_ok b c : nat_ok b -> is_digit c = true -> exists b', add_digit b c = Ok b' /\ nat_ok b'.
Proof.
  intros [Hb Vb] Hc. destruct (add_digit_spec b c Hb Hc) as [b' [E [H1 H2]]]. exists b'. split; [exact E|].
  apply digit_range in Hc. split; [exact H1|]. lia.
Qed.

Ltac apps := repeat (progress (rewrite <- ?app_assoc; cbn [app])); try reflexivity.

(** Exponent digits. *)
Lemma dec_grows ds ds' : all_digits ds -> all_digits ds' -> 0 <= dec_value ds <= dec_value (ds ++ ds').
Proof.
  assert (G : forall l v, all_digits l -> 0 <= v -> v <= dec_from v l).
  { induction l as [|c l IH]; intros v H Hv; cbn [dec_from fold_left]; [lia|]. inversion H as [|? ? Hc Hl]; subst. apply digit_range in Hc.
    specialize (IH (v * 10 + (c - 48)) Hl ltac:(lia)). unfold dec_from in IH. lia. }
  intros H H'. pose proof (G ds 0 H ltac:(lia)) as H0. change (dec_from 0 ds) with (dec_value ds) in H0. split; [lia|].
  unfold dec_value at 2. rewrite fold_left_app. apply (G ds' (dec_value ds)); [exact H'|lia].
Qed.
Lemma digit_run q : exists ds q', q = ds ++ q' /\ all_digits ds /\ match q' with [] => True | c :: _ => is_digit c = false end.
Proof.
  induction q as [|c q (ds & q' & -> & H1 & H2)]; [exists [], []; repeat constructor|].
  destruct (is_digit c) eqn:E; [exists (c :: ds), q'; repeat constructor; auto|exists [], (c :: ds ++ q'); repeat constructor; auto].
Qed.
Lemma exponent_bound text p d frac n l es sg ds q : calm text -> text = p ++ (d :: frac ++ l :: sg ++ ds) ++ q ->
  is_digit d = true -> fraction frac n -> (l = 101 \/ l = 69) -> match es with Positive => sg = [] \/ sg = [43] | Negative => sg = [45] end ->
  all_digits ds -> ds <> [] -> 0 <= dec_value ds < 2 ^ 63.
Proof.
  intros [_ H] -> Hd Hf Hl Hs Ha Hne. destruct (digit_run q) as (ds' & q' & -> & Hd' & Hq').
  destruct (dec_grows ds ds' Ha Hd') as [G1 G2].
  assert (Hx : - 2 ^ 63 < match es with Positive => dec_value (ds ++ ds') | Negative => - dec_value (ds ++ ds') end < 2 ^ 63).
  { refine (proj2 (H p d frac n (l :: sg ++ ds ++ ds') _ q' _ Hd Hf _ _)).
    - apps.
    - right. exists l, sg, (ds ++ ds'). split; [reflexivity|]. split; [exact Hl|]. split; [apply Forall_app; auto|].
      destruct es; [left; split; [exact Hs|reflexivity]|right; split; [exact Hs|reflexivity]].
    - destruct q' as [|c q']; [exact I|]. split; [exact Hq'|]. split; [discriminate|]. intros El. exfalso. destruct ds; [congruence|].
      cbn [length app] in El. rewrite app_length in El. cbn [length] in El. lia. }
  destruct es; lia.
Qed.
Lemma fraction_bound text p frac n q : calm text -> text = p ++ frac ++ q -> fraction frac n -> 0 <= n < 2 ^ 63.
Proof.
  intros [H _] -> [[_ ->]|(fs & -> & _ & ->)]; [lia|]. rewrite !app_length in H. cbn [length] in H. lia.
Qed.

Section Whole.
(** The whole text. *)
Variable text : list Z.
Hypothesis Hcalm : calm text.

Lemma exp_digit_good b s fe es c p q p' d frac l sg ds : nat_ok b -> is_digit c = true ->
  p = p' ++ d :: frac ++ l :: sg ++ ds -> is_digit d = true -> fraction frac (- fe) -> (l = 101 \/ l = 69) ->
  match es with Positive => sg = [] \/ sg = [43] | Negative => sg = [45] end -> all_digits ds -> text = p ++ c :: q ->
  exists v, ev (fun fuel => let! st' := exp_add_digit b s fe es (dec_value ds) c in Ok (([] : list token), st')) v /\ good v (p ++ [c]).
Proof.
  intros Hb Hc -> Hd Hf Hl Hs Ha Et.
  assert (Hd' : all_digits (ds ++ [c])) by (apply Forall_app; auto).
  assert (L2 : 0 <= dec_value (ds ++ [c]) < 2 ^ 63).
  { apply (exponent_bound text p' d frac (- fe) l es sg (ds ++ [c]) q Hcalm); auto; [|destruct ds; discriminate].
    rewrite Et. apps. }
  assert (E : dec_value (ds ++ [c]) = dec_value ds * 10 + (c - 48)).
  { unfold dec_value. rewrite fold_left_app. reflexivity. }
  destruct (dec_grows ds [c] Ha ltac:(repeat constructor; exact Hc)) as [L1 _].
  apply digit_range in Hc as Rc.
  exists ([], ParseExp b s fe es (dec_value (ds ++ [c]))). split.
  - apply ev_const. intros _. unfold exp_add_digit, digit_to_number. rewrite i64_ok by lia. cbn [obind].
    change 0x30 with 48. rewrite <- E. rewrite i64_ok by lia. reflexivity.
  - split; [constructor|]. cbn [snd after]. split; [exact Hb|].
    exists p', d, frac, l, sg, (ds ++ [c]). split; [apps|].
    repeat (split; [auto|]). destruct ds; discriminate.
Qed.

(** The exponent of a number that ends. *)
Lemma exp_range p d frac fe ex v q : text = p ++ (d :: frac ++ ex) ++ q -> is_digit d = true -> fraction frac (- fe) -> exponent_part ex v ->
  longest ex q -> -27 <= fe + v < 2 ^ 63.
Proof.
  intros Et Hd Hf He Hl. destruct Hcalm as [_ H]. destruct (H p d frac (- fe) ex v q Et Hd Hf He Hl).
  destruct (fraction_bound text (p ++ [d]) frac (- fe) (ex ++ q) Hcalm) as [Hn _]; [rewrite Et; cbn [app]; rewrite <- !app_assoc; reflexivity|exact Hf|]. lia.
Qed.
Lemma exp_token_conv b s fe es e : nat_ok b -> -27 <= fe + match es with Positive => e | Negative => - e end < 2 ^ 63 ->
  exists t, ev (fun fuel => exp_state_into_token fuel b s fe es e) t /\ tok_ok t.
Proof.
  intros Hb He. destruct (number_conv b s _ Hb He) as (t & [f0 Ht] & Ot). exists t. split; [|exact Ot]. exists f0. intros fuel Hf.
  unfold exp_state_into_token. rewrite i64_ok by lia. cbn [obind]. apply Ht, Hf.
Qed.
Lemma exp_token_good b s fe es e c p : 0 <= c -> nat_ok b -> -27 <= fe + match es with Positive => e | Negative => - e end < 2 ^ 63 ->
  exists v, ev (fun fuel => let! n := exp_state_into_token fuel b s fe es e in prepend [n] (push fuel Initial c)) v /\ good v (p ++ [c]).
Proof.
  intros Hc Hb He. destruct (exp_token_conv b s fe es e Hb He) as [t [Ht Ot]].
  destruct (back_good [t] Initial c p Hc ltac:(auto) ltac:(auto)) as [v [Hv Gv]]. exists v. split; [|exact Gv].
  apply (ev_bind (fun fuel => exp_state_into_token fuel b s fe es e) (fun fuel n => prepend [n] (push fuel Initial c)) t); auto.
Qed.

Ltac done := eexists; split; [apply ev_const; intros; reflexivity|split; [cbn [fst]; solve [repeat constructor]|cbn [snd after]; try exact I]].

Lemma terminal_stops c : is_terminal c = true -> is_digit c = false.
Proof. intros H. classes. lia. Qed.

Lemma push_good st p c q : after st p -> 0 <= c -> text = p ++ c :: q ->
  exists v, ev (fun fuel => push fuel st c) v /\ good v (p ++ [c]).
Proof.
  intros Ha Hc Et.
  assert (HB : forall st0 toks, st0 = Initial \/ (exists s, st0 = ParseString s) -> Forall tok_ok toks ->
    exists v, ev (fun fuel => prepend toks (push fuel st0 c)) v /\ good v (p ++ [c])).
  { intros. apply back_good; auto. }
  assert (HI : forall t, tok_ok t -> exists v, ev (fun fuel => prepend [t] (push fuel Initial c)) v /\ good v (p ++ [c])).
  { intros. apply HB; auto. }
  assert (HN : forall b s e, nat_ok b -> -27 <= e < 2 ^ 63 ->
    exists v, ev (fun fuel => let! n := number_token fuel b s e in prepend [n] (push fuel Initial c)) v /\ good v (p ++ [c])).
  { intros. apply number_good; auto. }
  assert (HZ : nat_ok jb_zero) by (split; [apply jb_zero_wf|reflexivity || (change (jval jb_zero) with 0; lia)]).
  assert (Hno : fraction [] (- 0)) by (left; auto).
  assert (ES : forall v, ev (fun fuel => step fuel st c) v -> ev (fun fuel => push fuel st c) v).
  { intros v [f0 H]. exists f0. intros fuel Hf. rewrite push_step by exact Hc. auto. }
  cut (exists v, ev (fun fuel => step fuel st c) v /\ good v (p ++ [c])).
  { intros [v [H1 H2]]. exists v. auto. }
  clear ES. destruct st; cbn [step] in *; cbn [after] in Ha.
  - destruct (initial_good c p Hc) as [v [H G]]. exists v. split; [apply ev_const; exact H|exact G].
  - destruct (ident_part c); [done|apply HI; exact I].
  - destruct (string_good s c (p ++ [c]) Hc) as [v [H G]]. exists v. split; [apply ev_const; exact H|exact G].
  - destruct (cls_escape c) as [[]|]; [unfold continue_string_state; done..| |]; [done; lia|]. apply HB; [right; eauto|repeat constructor].
  - destruct (hex_value c) as [v|] eqn:Ev.
    + unfold unicode_push, continue_string_state. destruct (Z.eqb_spec index 3) as [->|N].
      * destruct (from_u32 _); done.
      * replace ((0 <=? index) && (index <=? 2)) with true by lia. done. lia.
    + apply HB; [right; eauto|repeat constructor].
  - destruct (Z.eqb_spec c 48) as [->|]; [done; eauto|]. destruct (is_nonzero_digit c) eqn:E; [|apply HI; exact I]. done.
    assert (Hd : is_digit c = true) by (classes; lia).
    destruct (from_digit_spec c Hd) as [D1 D2]. split; [split; [exact D1|]; apply digit_range in Hd; lia|]. eauto.
  - destruct Ha as [p' ->]. unfold cls_zero. destruct (Z.eqb_spec c 46) as [->|N1].
    { done. split; [exact HZ|]. exists p', 48. split; [apps|reflexivity]. }
    destruct (is_e c) eqn:E2.
    { done. split; [exact HZ|]. split; [reflexivity|]. split; [reflexivity|].
      exists p', 48, [], c. split; [apps|]. split; [reflexivity|]. split; [exact Hno|]. unfold is_e in E2. lia. }
    destruct (c =? 110); [done; apply jb_zero_wf|].
    destruct (is_terminal c); apply HI; cbn; [lia|exact I].
  - destruct Ha as [Hb (p' & d & -> & Hd)]. unfold cls_int. destruct (is_digit c) eqn:E0.
    { destruct (add_digit_ok b c Hb E0) as [b' [Eb Hb']]. rewrite Eb. cbn [obind]. done. eauto. }
    destruct (Z.eqb_spec c 46) as [->|N1].
    { done. split; [exact Hb|]. exists p', d. split; [apps|exact Hd]. }
    destruct (is_e c) eqn:E2.
    { done. split; [exact Hb|]. split; [reflexivity|]. split; [reflexivity|].
      exists p', d, [], c. split; [apps|]. split; [exact Hd|]. split; [exact Hno|]. unfold is_e in E2. lia. }
    destruct (c =? 110).
    { done. destruct s; cbn [into_bigint_state]; [apply Hb|]. apply jb_negative_spec. apply Hb. }
    destruct (is_terminal c); [apply HN; [exact Hb|lia]|apply HI; exact I].
  - destruct Ha as [Hb (p' & d & -> & Hd)]. destruct (is_digit c) eqn:E0; [|apply HI; exact I].
    destruct (add_digit_ok b c Hb E0) as [b' [Eb Hb']]. unfold frac_add_digit. rewrite Eb. cbn [obind].
    rewrite i64_ok by lia. cbn [obind]. done. split; [exact Hb'|].
    exists p', d, [c]. split; [apps|]. split; [exact Hd|]. split; [repeat constructor; exact E0|]. reflexivity.
  - destruct Ha as [Hb (p' & d & ds & -> & Hd & Hds & ->)].
    assert (Hf : fraction (46 :: ds) (- - Z.of_nat (length ds))) by (right; exists ds; rewrite Z.opp_involutive; auto).
    unfold cls_frac. destruct (is_digit c) eqn:E0.
    { destruct (add_digit_ok b c Hb E0) as [b' [Eb Hb']]. unfold frac_add_digit. rewrite Eb. cbn [obind].
      assert (L : Z.of_nat (length (ds ++ [c])) < 2 ^ 63).
      { refine (proj2 (fraction_bound text (p' ++ [d]) (46 :: ds ++ [c]) _ q Hcalm _ _)); [rewrite Et; apps|].
        right. exists (ds ++ [c]). split; [reflexivity|]. split; [apply Forall_app; auto|reflexivity]. }
      rewrite app_length in L. cbn [length] in L. rewrite i64_ok by lia. cbn [obind]. done. split; [exact Hb'|].
      exists p', d, (ds ++ [c]). split; [apps|]. split; [exact Hd|]. split; [apply Forall_app; auto|].
      rewrite app_length. cbn. lia. }
    destruct (is_e c) eqn:E2.
    { done. split; [exact Hb|]. split; [reflexivity|]. split; [reflexivity|].
      exists p', d, (46 :: ds), c. split; [apps|]. split; [exact Hd|]. split; [exact Hf|]. unfold is_e in E2. lia. }
    destruct (is_terminal c); [apply HN; [exact Hb|]|apply HI; exact I].
    rewrite <- (Z.add_0_r (- Z.of_nat _)). apply (exp_range p' d (46 :: ds) (- Z.of_nat (length ds)) [] 0 (c :: q)); auto; [rewrite Et; apps|left; auto|].
    split; [exact E0|]. split; [unfold is_e in E2; lia|discriminate].
  - destruct Ha as [Hb [-> [-> (p' & d & frac & l & -> & Hd & Hf & Hl)]]].
    unfold cls_exp_begin. destruct (is_digit c) eqn:E0.
    { apply (exp_digit_good b s fe Positive c _ q p' d frac l [] []); auto; constructor. }
    destruct (Z.eqb_spec c 43) as [->|N1].
    { done. split; [exact Hb|]. split; [reflexivity|]. exists p', d, frac, l. split; [apps|]. auto. }
    destruct (Z.eqb_spec c 45) as [->|N2].
    { done. split; [exact Hb|]. split; [reflexivity|]. exists p', d, frac, l. split; [apps|]. auto. }
    destruct (is_terminal c); [|apply HI; exact I]. apply exp_token_good; [exact Hc|exact Hb|].
    apply (exp_range p' d frac fe [l] 0 (c :: q)); auto; [rewrite Et; apps| |].
    + right. exists l, [], []. split; [reflexivity|]. split; [exact Hl|]. split; [constructor|]. left. auto.
    + split; [exact E0|]. split; [discriminate|lia].
  - destruct Ha as [Hb [-> (p' & d & frac & l & -> & Hd & Hf & Hl)]].
    assert (Hsg : match es with Positive => [match es with Positive => 43 | Negative => 45 end] = [] \/ [match es with Positive => 43 | Negative => 45 end] = [43]
                  | Negative => [match es with Positive => 43 | Negative => 45 end] = [45] end) by (destruct es; auto).
    unfold cls_exp. destruct (is_digit c) eqn:E0.
    { apply (exp_digit_good b s fe es c _ q p' d frac l [match es with Positive => 43 | Negative => 45 end] []); auto; constructor. }
    destruct (is_terminal c); [|apply HI; exact I]. apply exp_token_good; [exact Hc|exact Hb|].
    apply (exp_range p' d frac fe [l; match es with Positive => 43 | Negative => 45 end] _ (c :: q)); auto; [rewrite Et; apps| |].
    + right. exists l, [match es with Positive => 43 | Negative => 45 end], []. split; [reflexivity|]. split; [exact Hl|]. split; [constructor|].
      destruct es; [left|right]; auto.
    + split; [exact E0|]. split; discriminate.
  - destruct Ha as [Hb (p' & d & frac & l & sg & ds & -> & Hd & Hf & Hl & Hs & Hds & -> & Hne)]. unfold cls_exp. destruct (is_digit c) eqn:E0.
    { apply (exp_digit_good b s fe es c _ q p' d frac l sg ds); auto. }
    destruct (is_terminal c); [|apply HI; exact I]. apply exp_token_good; [exact Hc|exact Hb|].
    apply (exp_range p' d frac fe (l :: sg ++ ds) _ (c :: q)); auto; [rewrite Et; apps| |].
    + right. exists l, sg, ds. split; [reflexivity|]. split; [exact Hl|]. split; [exact Hds|]. destruct es; [left|right]; auto.
    + split; [exact E0|]. split; [discriminate|]. cbn [length]. rewrite app_length. destruct ds; [congruence|]. cbn [length]. lia.
  - destruct (is_terminal c); apply HI; [exact Ha|exact I].
  - destruct (is_space c); [done|apply HI; exact I].
  - destruct (c =? 47); [done|]. destruct (c =? 42); done.
  - destruct ((c =? 10) || (c =? 13)); done.
  - destruct (c =? 42); done.
  - destruct (c =? 47); [done|]. destruct (c =? 42); done.
  - destruct Ha as [t [Ht Ot]].
    assert (HE : exists v, ev (fun fuel => let! tok := unwrap (operator_to_token s) in prepend [tok] (push fuel Initial c)) v /\ good v (p ++ [c])).
    { rewrite Ht. cbn [unwrap obind]. apply HI. exact Ot. }
    destruct (operator_to_token (s ++ [c])) as [t'|] eqn:E'; [|exact HE].
    destruct (is_op c); [|exact HE]. done. exists t'. split; [exact E'|apply (op_token_ok _ _ E')].
Qed.

Lemma run_good q : forall st p, after st p -> chars q -> text = p ++ q ->
  exists v, ev (fun fuel => run fuel st q) v /\ good v (p ++ q).
Proof.
  induction q as [|c q IH]; intros st p Ha Hc Et.
  - exists ([], st). split; [apply ev_const; reflexivity|]. rewrite app_nil_r. split; [constructor|exact Ha].
  - inversion Hc as [|c0 t0 Pc Ht]; subst c0 t0.
    destruct (push_good st p c q Ha Pc Et) as [[a st'] [E1 [G1 G2]]].
    replace (p ++ c :: q) with ((p ++ [c]) ++ q) in * by (rewrite <- app_assoc; reflexivity).
    cbn [fst snd] in *. destruct (IH st' (p ++ [c]) G2 Ht Et) as [[b st''] [E2 [G3 G4]]].
    exists (a ++ b, st''). split.
    + cbn [run]. destruct E1 as [f1 H1]. destruct E2 as [f2 H2]. exists (Nat.max f1 f2). intros fuel Hf.
      rewrite H1 by lia. cbn [obind]. rewrite H2 by lia. reflexivity.
    + split; [apply Forall_app; auto|exact G4].
Qed.

Lemma tend_good st : after st text -> exists l, ev (fun fuel => tend fuel st) l /\ Forall tok_ok l.
Proof.
  intros Ha.
  assert (HN : forall b s e, nat_ok b -> -27 <= e < 2 ^ 63 ->
    exists l, ev (fun fuel => let! n := number_token fuel b s e in Ok [n]) l /\ Forall tok_ok l).
  { intros b s e Hb He. destruct (number_conv b s e Hb He) as [t [[f0 Ht] Ot]]. exists [t]. split; [|auto].
    exists f0. intros fuel Hf. rewrite Ht by exact Hf. reflexivity. }
  assert (D : forall l, Forall tok_ok l -> exists l', ev (fun _ => Ok l) l' /\ Forall tok_ok l').
  { intros l H. exists l. split; [apply ev_const; reflexivity|exact H]. }
  destruct st; cbn [tend after] in *; try (apply D; solve [repeat constructor]).
  - apply D. constructor; [cbn; lia|constructor].
  - apply HN; [apply Ha|lia].
  - destruct Ha as [Hb (p' & d & ds & Et & Hd & Hds & ->)]. apply HN; [exact Hb|].
    rewrite <- (Z.add_0_r (- Z.of_nat _)). apply (exp_range p' d (46 :: ds) (- Z.of_nat (length ds)) [] 0 []); auto; [rewrite Et; apps| | |exact I].
    + rewrite !app_nil_r. reflexivity.
    + right. exists ds. rewrite Z.opp_involutive. auto.
    + left. auto.
  - destruct Ha as [Hb (p' & d & frac & l & sg & ds & Et & Hd & Hf & Hl & Hs & Hds & -> & Hne)].
    destruct (exp_token_conv b s fe es (dec_value ds) Hb) as (t & [f0 H1] & H2).
    { apply (exp_range p' d frac fe (l :: sg ++ ds) _ []); auto; [rewrite Et, app_nil_r; reflexivity| |exact I].
      right. exists l, sg, ds. split; [reflexivity|]. split; [exact Hl|]. split; [exact Hds|]. destruct es; [left|right]; auto. }
    exists [t]. split; [|auto]. exists f0. intros fuel Hfu. rewrite H1 by exact Hfu. reflexivity.
  - apply D. constructor; [exact Ha|constructor].
  - destruct Ha as [t [Ht Ot]]. rewrite Ht. exists [t]. split; [apply ev_const; reflexivity|auto].
Qed.
End Whole.

Lemma tokenize_good text : chars text -> calm text ->
  exists toks, ev (fun fuel => tokenize fuel text) toks /\ Forall tok_ok toks.
Proof.
  intros Hc Hcalm. destruct (run_good text Hcalm text Initial [] I Hc eq_refl) as [[a st] [[f1 E1] [G1 G2]]]. cbn [fst snd app] in *.
  destruct (tend_good text Hcalm st G2) as [l [[f2 E2] G3]]. exists (a ++ l). split; [|apply Forall_app; auto].
  exists (Nat.max f1 f2). intros fuel Hf. rewrite tokenize_run. rewrite E1 by lia. unfold finish. cbn [obind].
  rewrite E2 by lia. reflexivity.
Qed.
