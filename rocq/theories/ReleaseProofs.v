From Coq Require Import ZArith List Bool Lia String.
From Coq Require Import ZifyBool ZifyNat.
From Verif Require Import Outcome LimbsModel LimbsSpec BigIntModel JsBigintModel BigFloatModel BigSpec
  LimbsProofs JsBigintProofs RangeMapModel RangeMapSpec RangeMapProofs TokenizerModel TokenizerSpec TokenizerProofs TokenizerRun TokenizerLex TokenizerNum ReleaseModel.
Import ListNotations.
Open Scope Z_scope.

Lemma wrap64_id n : - 2 ^ 63 <= n < 2 ^ 63 -> wrap64 n = n.
Proof. intros H. unfold wrap64. rewrite Z.mod_small by lia. lia. Qed.
Lemma wrap64_mod n : wrap64 n mod 2 ^ 64 = n mod 2 ^ 64.
Proof. unfold wrap64. rewrite Zminus_mod_idemp_l. f_equal. lia. Qed.
Lemma wrap64_eq n m : n mod 2 ^ 64 = m mod 2 ^ 64 -> wrap64 n = wrap64 m.
Proof. intros H. unfold wrap64. rewrite <- (Zplus_mod_idemp_l n), <- (Zplus_mod_idemp_l m), H. reflexivity. Qed.
Lemma wrap64_wrap n m : wrap64 (n + wrap64 m) = wrap64 (n + m).
Proof. apply wrap64_eq. rewrite <- (Zplus_mod_idemp_r (wrap64 m)), wrap64_mod, Zplus_mod_idemp_r. reflexivity. Qed.
Lemma wrap64_wrap_l n m : wrap64 (wrap64 n + m) = wrap64 (n + m).
Proof. rewrite !(Z.add_comm _ m). apply wrap64_wrap. Qed.
Lemma i64_wrap n : i64 n = Panic \/ i64 n = Ok n /\ wrap64 n = n.
Proof.
  unfold i64. destruct ((- 2 ^ 63 <=? n) && (n <? 2 ^ 63)) eqn:E; [right|left; reflexivity].
  split; [reflexivity|]. apply wrap64_id. lia.
Qed.

(** The states outside numbers do not use the fuel. *)
Lemma push_initial_fuel fuel c : push fuel Initial c = push O Initial c.
Proof. reflexivity. Qed.
Lemma token_same fuel b s e : number_token_r (convert fuel) b s e = number_token fuel b s e.
Proof. reflexivity. Qed.
Lemma exp_token_same fuel b s fe es e : exp_state_into_token fuel b s fe es e = Panic \/
  exp_state_into_token_r (convert fuel) b s fe es e = exp_state_into_token fuel b s fe es e.
Proof.
  unfold exp_state_into_token, exp_state_into_token_r. rewrite token_same.
  destruct (i64_wrap (fe + match es with Positive => e | Negative => - e end)) as [->|[-> E]]; [left; reflexivity|right].
  cbn [obind]. f_equal. rewrite <- E. destruct es; [reflexivity|apply wrap64_wrap].
Qed.
Lemma frac_same b s fe c : frac_add_digit b s fe c = Panic \/ frac_add_digit_r b s fe c = frac_add_digit b s fe c.
Proof.
  unfold frac_add_digit, frac_add_digit_r. destruct (add_digit b c); [|left; reflexivity|right; reflexivity]. cbn [obind].
  destruct (i64_wrap (fe - 1)) as [->|[-> ->]]; auto.
Qed.
Lemma exp_digit_same b s fe es e c : exp_add_digit b s fe es e c = Panic \/ exp_add_digit b s fe es e c = Ok (exp_add_digit_r b s fe es e c).
Proof.
  unfold exp_add_digit, exp_add_digit_r. destruct (i64_wrap (e * 10)) as [->|[-> ->]]; [left; reflexivity|]. cbn [obind].
  destruct (i64_wrap (e * 10 + digit_to_number c)) as [->|[-> ->]]; [left; reflexivity|right; reflexivity].
Qed.

Lemma push_same fuel st c : push fuel st c = Panic \/ push_r (convert fuel) st c = push fuel st c.
Proof.
  destruct st; try (right; reflexivity); unfold push_r, push; cbn [push_with].
  - destruct (get_transition frac_map c) as [[[]|]| |]; cbn [obind]; try (right; reflexivity).
    destruct (frac_same b s fe c) as [->| ->]; auto.
  - destruct (get_transition exp_begin_map c) as [[[]|]| |]; cbn [obind]; try (right; reflexivity).
    + destruct (exp_digit_same b s fe es e c) as [->| ->]; auto.
    + destruct (exp_token_same fuel b s fe es e) as [->| ->]; auto.
  - destruct (get_transition exp_map c) as [[[]|]| |]; cbn [obind]; try (right; reflexivity).
    + destruct (exp_digit_same b s fe es e c) as [->| ->]; auto.
    + destruct (exp_token_same fuel b s fe es e) as [->| ->]; auto.
  - destruct (get_transition exp_map c) as [[[]|]| |]; cbn [obind]; try (right; reflexivity).
    + destruct (exp_digit_same b s fe es e c) as [->| ->]; auto.
    + destruct (exp_token_same fuel b s fe es e) as [->| ->]; auto.
Qed.
Lemma tend_same fuel st : tend fuel st = Panic \/ tend_r (convert fuel) st = tend fuel st.
Proof.
  destruct st; try (right; reflexivity). cbn [tend tend_r].
  destruct (exp_token_same fuel b s fe es e) as [->| ->]; auto.
Qed.
Lemma run_same fuel : forall text st, run fuel st text = Panic \/ run_r (convert fuel) st text = run fuel st text.
Proof.
  induction text as [|c text IH]; intros st; cbn [run run_r]; [auto|].
  destruct (push_same fuel st c) as [->| ->]; [auto|]. destruct (push fuel st c) as [[t s]| |]; cbn [obind]; auto.
  destruct (IH s) as [->| ->]; auto.
Qed.
Lemma tokenize_same fuel text : tokenize fuel text = Panic \/ tokenize_r (convert fuel) text = tokenize fuel text.
Proof.
  rewrite tokenize_run. unfold tokenize_r, finish. destruct (run_same fuel text Initial) as [->| ->]; [auto|].
  destruct (run fuel Initial text) as [[t s]| |]; cbn [obind]; auto. destruct (tend_same fuel s) as [->| ->]; auto.
Qed.

(** Steps without a token do not use the conversion. *)
Lemma push_quiet fuel conv st c st' : push fuel st c = Ok ([], st') -> push_r conv st c = Ok ([], st').
Proof.
  intros H. destruct (push_same fuel st c) as [E|E]; rewrite H in E; [discriminate|]. rewrite <- E. clear H.
  assert (T : forall t, (let! (next, s) := push O Initial c in Ok ((t :: next : list token), s)) <> Ok ([], st')).
  { intros t. destruct (push O Initial c) as [[x y]| |]; discriminate. }
  destruct st; try reflexivity; unfold push_r in E |- *.
  - destruct (get_transition int_map c) as [[[]|]| |]; cbn [obind] in *; try reflexivity.
    destruct (number_token_r (convert fuel) b s 0); cbn [obind] in E; try discriminate. destruct (T _ E).
  - destruct (get_transition frac_map c) as [[[]|]| |]; cbn [obind] in *; try reflexivity.
    destruct (number_token_r (convert fuel) b s fe); cbn [obind] in E; try discriminate. destruct (T _ E).
  - destruct (get_transition exp_begin_map c) as [[[]|]| |]; cbn [obind] in *; try reflexivity.
    destruct (exp_state_into_token_r (convert fuel) b s fe es e); cbn [obind] in E; try discriminate. destruct (T _ E).
  - destruct (get_transition exp_map c) as [[[]|]| |]; cbn [obind] in *; try reflexivity.
    destruct (exp_state_into_token_r (convert fuel) b s fe es e); cbn [obind] in E; try discriminate. destruct (T _ E).
  - destruct (get_transition exp_map c) as [[[]|]| |]; cbn [obind] in *; try reflexivity.
    destruct (exp_state_into_token_r (convert fuel) b s fe es e); cbn [obind] in E; try discriminate. destruct (T _ E).
Qed.
Lemma run_quiet fuel conv st' : forall text st, run fuel st text = Ok ([], st') -> run_r conv st text = Ok ([], st').
Proof.
  induction text as [|c text IH]; intros st; cbn [run run_r]; [intros H; inversion H; reflexivity|].
  destruct (push fuel st c) as [[t s]| |] eqn:E; cbn [obind]; try discriminate. unfold prepend at 1.
  destruct (run fuel s text) as [[t' s']| |] eqn:R; cbn [obind]; try discriminate. intros H. injection H as H1 ->.
  apply app_eq_nil in H1 as [-> ->]. rewrite (push_quiet _ _ _ _ _ E). cbn [obind]. rewrite (IH _ R). reflexivity.
Qed.
Lemma run_r_app conv a b : forall st, run_r conv st (a ++ b) = let! (toks, st') := run_r conv st a in prepend toks (run_r conv st' b).
Proof.
  induction a as [|c a IH]; intros st; cbn [run_r app].
  - cbn [obind]. symmetry. apply prepend_nil.
  - destruct (push_r conv st c) as [[t s]| |]; cbn [obind]; try reflexivity. rewrite IH.
    unfold prepend at 2. destruct (run_r conv s a) as [[t' s']| |]; cbn [obind prepend]; try reflexivity.
    apply prepend_app.
Qed.

(** Digits of the exponent. *)
Lemma exp_map_digit c : is_digit c = true -> get_transition exp_map c = Ok (Some XDigit) /\ get_transition exp_begin_map c = Ok (Some BDigit).
Proof.
  intros H. pose proof (digit_range c H) as R.
  assert (D : c = 48 \/ c = 49 \/ c = 50 \/ c = 51 \/ c = 52 \/ c = 53 \/ c = 54 \/ c = 55 \/ c = 56 \/ c = 57) by lia.
  repeat destruct D as [->|D]; [..|subst c]; split; vm_compute; reflexivity.
Qed.
Lemma wrap_digit e c : wrap64 (wrap64 (wrap64 e * 10) + digit_to_number c) = wrap64 (e * 10 + (c - 48)).
Proof.
  unfold digit_to_number. change 0x30 with 48. rewrite wrap64_wrap_l. apply wrap64_eq.
  rewrite <- (Zplus_mod_idemp_l (wrap64 e * 10)), <- (Zmult_mod_idemp_l (wrap64 e)), wrap64_mod, Zmult_mod_idemp_l, Zplus_mod_idemp_l. reflexivity.
Qed.
Lemma exp_digits_r conv b s fe es ds : all_digits ds -> forall e, run_r conv (ParseExp b s fe es (wrap64 e)) ds = Ok ([], ParseExp b s fe es (wrap64 (dec_from e ds))).
Proof.
  induction 1 as [|c ds Hc H IH]; intros e; [reflexivity|]. cbn [run_r push_r].
  destruct (exp_map_digit c Hc) as [-> _]. cbn [obind]. unfold exp_add_digit_r. rewrite wrap_digit, IH. reflexivity.
Qed.
Lemma exponent_r conv st b s fe l sg ds : num_at st b s fe -> l = 101 \/ l = 69 ->
  sg = [] \/ sg = [43] \/ sg = [45] -> all_digits ds -> ds <> [] ->
  run_r conv st (l :: sg ++ ds) = Ok ([], ParseExp b s fe (exp_sign sg) (wrap64 (dec_value ds))).
Proof.
  intros Hat Hl Hsg Hd Hne. assert (L0 : 0 <= l) by lia.
  cbn [run_r]. rewrite (push_quiet O conv st l (ParseExpBegin b s fe Positive 0)) by (rewrite push_step by exact L0; apply (run_exp_letter O), Hl; exact Hat).
  cbn [obind]. rewrite prepend_nil. destruct Hd as [|c ds Hc Hd]; [congruence|]. clear Hne.
  assert (A : forall es, run_r conv (ParseExpBegin b s fe es 0) (c :: ds) = Ok ([], ParseExp b s fe es (wrap64 (dec_value (c :: ds))))).
  { intros es. cbn [run_r push_r]. destruct (exp_map_digit c Hc) as [_ ->]. cbn [obind]. unfold exp_add_digit_r.
    change 0 with (wrap64 0) at 1. rewrite wrap_digit, exp_digits_r by exact Hd. reflexivity. }
  assert (A' : forall es, run_r conv (ParseExpSign b s fe es 0) (c :: ds) = Ok ([], ParseExp b s fe es (wrap64 (dec_value (c :: ds))))).
  { intros es. cbn [run_r push_r]. destruct (exp_map_digit c Hc) as [-> _]. cbn [obind]. unfold exp_add_digit_r.
    change 0 with (wrap64 0) at 1. rewrite wrap_digit, exp_digits_r by exact Hd. reflexivity. }
  destruct Hsg as [->|[->| ->]]; cbn [app exp_sign]; [apply A| |].
  - change (43 :: c :: ds) with ([43] ++ c :: ds). rewrite run_r_app. change (run_r conv _ [43]) with (Ok ([] : list token, ParseExpSign b s fe Positive 0)).
    cbn [obind]. rewrite prepend_nil. apply A'.
  - change (45 :: c :: ds) with ([45] ++ c :: ds). rewrite run_r_app. change (run_r conv _ [45]) with (Ok ([] : list token, ParseExpSign b s fe Negative 0)).
    cbn [obind]. rewrite prepend_nil. apply A'.
Qed.
