(** Runs of the tokenizer over a text; the iterator; lexemes. *)
From Coq Require Import ZArith List Bool Lia.
From Coq Require Import ZifyBool ZifyNat.
From Verif Require Import Outcome LimbsModel LimbsSpec BigIntModel JsBigintModel BigFloatModel BigSpec
  LimbsProofs JsBigintProofs RangeMapModel RangeMapSpec RangeMapProofs TokenizerModel TokenizerSpec TokenizerProofs.
Import ListNotations.
Open Scope Z_scope.

(** Push the characters of a text one after the other (what a loop over [push_mut] does). *)
Fixpoint run (fuel : nat) (st : tstate) (text : list Z) : outcome (list token * tstate) :=
  match text with
  | [] => Ok ([], st)
  | c :: text' => let! (toks, st') := push fuel st c in prepend toks (run fuel st' text')
  end.

Definition finish (fuel : nat) (o : outcome (list token * tstate)) : outcome (list token) :=
  let! (toks, st) := o in let! e := tend fuel st in Ok (toks ++ e).

Definition chars (text : list Z) : Prop := Forall (fun c => 0 <= c) text.

Lemma run_app fuel st a b : run fuel st (a ++ b) = let! (toks, st') := run fuel st a in prepend toks (run fuel st' b).
Proof.
  revert st. induction a as [|c a IH]; intros st; cbn [run app].
  - cbn [obind]. symmetry. apply prepend_nil.
  - destruct (push fuel st c) as [[t s]| |]; cbn [obind]; try reflexivity. rewrite IH.
    unfold prepend at 2. destruct (run fuel s a) as [[t' s']| |]; cbn [obind prepend]; try reflexivity.
    apply prepend_app.
Qed.

Lemma run_app_ok fuel st a b toks st' : run fuel st a = Ok (toks, st') ->
  run fuel st (a ++ b) = prepend toks (run fuel st' b).
Proof. intros H. rewrite run_app, H. reflexivity. Qed.

Definition prepend_list (toks : list token) (o : outcome (list token)) : outcome (list token) :=
  let! l := o in Ok (toks ++ l).
Lemma prepend_list_app a b o : prepend_list a (prepend_list b o) = prepend_list (a ++ b) o.
Proof. destruct o; cbn; try rewrite app_assoc; reflexivity. Qed.
Lemma prepend_list_nil o : prepend_list [] o = o.
Proof. destruct o; reflexivity. Qed.
Lemma finish_prepend fuel toks o : finish fuel (prepend toks o) = prepend_list toks (finish fuel o).
Proof.
  destruct o as [[a b]| |]; try reflexivity. unfold finish, prepend, prepend_list. cbn [obind].
  destruct (tend fuel b); cbn [obind]; try reflexivity. rewrite app_assoc. reflexivity.
Qed.

(** * A step emits at most two tokens, so [collect] has enough room. *)
Definition emits (n : nat) (o : outcome (list token * tstate)) : Prop :=
  match o with Ok (toks, _) => (length toks <= n)%nat | _ => True end.

Lemma emits_initial fuel c : emits 1 (push fuel Initial c).
Proof.
  unfold push, push_with. destruct (get_transition initial_map c) as [[[]|]| |]; cbn; lia.
Qed.
Lemma inner_emits fuel st c : st = Initial \/ (exists s, st = ParseString s) ->
  emits 1 (push_with (fun _ _ => NoFuel) fuel st c).
Proof.
  intros [->|[s ->]]; unfold push_with.
  - destruct (get_transition initial_map c) as [[[]|]| |]; cbn; lia.
  - destruct (get_transition string_map c) as [[[]|]| |]; cbn; lia.
Qed.
Lemma emits_transfer t o : emits 1 o -> emits 2 (let! (next, st') := o in Ok ([t] ++ next, st')).
Proof. destruct o as [[a b]| |]; cbn; lia. Qed.

Ltac small := unfold emits, continue_string_state; cbn [length app obind]; first [lia | exact I].
Lemma push_emits fuel st c : emits 2 (push fuel st c).
Proof.
  assert (HI : forall t, emits 2 (let! (next, st') := push_with (fun _ _ => NoFuel) fuel Initial c in Ok ([t] ++ next, st'))).
  { intros t. apply emits_transfer, inner_emits. auto. }
  assert (HS : forall t s, emits 2 (let! (next, st') := push_with (fun _ _ => NoFuel) fuel (ParseString s) c in Ok ([t] ++ next, st'))).
  { intros t s. apply emits_transfer, inner_emits. eauto. }
  destruct st; unfold push; cbn [push_with];
  match goal with |- emits 2 (let! _ := get_transition ?m c in _) =>
    destruct (get_transition m c) as [o| |]; cbn [obind]; try exact I end.
  - destruct o as [[]|]; small.
  - destruct o; [small|apply HI].
  - destruct o as [[]|]; small.
  - destruct o as [[]|]; [small..|apply HS].
  - destruct o as [[]|]; [| | |apply HS]; unfold unicode_push, continue_string_state;
    (destruct (index =? 3); [match goal with |- context [from_u32 ?x] => destruct (from_u32 x) end|destruct ((0 <=? index) && (index <=? 2))]; small).
  - destruct o as [[]|]; [small..|apply HI].
  - destruct o as [[]|]; [small|small|small|apply HI|apply HI].
  - destruct o as [[]|]; [|small|small|small| |apply HI].
    + destruct (add_digit b c); small.
    + destruct (number_token fuel b s 0); cbn [obind]; [apply HI|exact I|exact I].
  - destruct o; [|apply HI]. destruct (frac_add_digit b s 0 c); small.
  - destruct o as [[]|]; [|small| |apply HI].
    + destruct (frac_add_digit b s fe c); small.
    + destruct (number_token fuel b s fe); cbn [obind]; [apply HI|exact I|exact I].
  - destruct o as [[]|]; [|small|small| |apply HI].
    + destruct (exp_add_digit b s fe es e c); small.
    + destruct (exp_state_into_token fuel b s fe es e); cbn [obind]; [apply HI|exact I|exact I].
  - destruct o as [[]|]; [| |apply HI].
    + destruct (exp_add_digit b s fe es e c); small.
    + destruct (exp_state_into_token fuel b s fe es e); cbn [obind]; [apply HI|exact I|exact I].
  - destruct o as [[]|]; [| |apply HI].
    + destruct (exp_add_digit b s fe es e c); small.
    + destruct (exp_state_into_token fuel b s fe es e); cbn [obind]; [apply HI|exact I|exact I].
  - destruct o; apply HI.
  - destruct o; [small|apply HI].
  - destruct o as [[]|]; small.
  - destruct o; small.
  - destruct o; small.
  - destruct o as [[]|]; small.
  - assert (HE : emits 2 (let! tok := unwrap (operator_to_token s) in
       let! (next, st') := push_with (fun _ _ => NoFuel) fuel Initial c in Ok ([tok] ++ next, st'))).
    { destruct (unwrap (operator_to_token s)); cbn [obind]; [apply HI|exact I|exact I]. }
    destruct o; [|exact HE]. destruct (operator_to_token (s ++ [c])); [small|exact HE].
Qed.

Lemma tend_length fuel st : match tend fuel st with Ok l => (length l <= 1)%nat | _ => True end.
Proof.
  destruct st; cbn; try lia;
  [destruct (number_token fuel b s 0)|destruct (number_token fuel b s fe)
  |destruct (exp_state_into_token fuel b s fe es e)|destruct (unwrap (operator_to_token s))]; cbn; auto.
Qed.

(** * The iterator delivers exactly the tokens of the run. *)

(** What is left to deliver. *)
Definition remaining (fuel : nat) (it : titer) : outcome (list token) :=
  prepend_list (it_cache it)
    (if it_end it then Ok [] else finish fuel (run fuel (it_state it) (it_chars it))).

Lemma titer_loop_spec fuel : forall n it, (length (it_chars it) + 2 < n)%nat ->
  match titer_loop n fuel it with
  | Ok (Some t, it') => remaining fuel it = prepend_list [t] (remaining fuel it') /\
      (length (it_chars it') <= length (it_chars it))%nat /\
      (length (it_cache it') + 2 * length (it_chars it') + (if it_end it' then 0 else 1) <
       length (it_cache it) + 2 * length (it_chars it) + (if it_end it then 0 else 1))%nat
  | Ok (None, it') => remaining fuel it = Ok []
  | Panic => remaining fuel it = Panic
  | NoFuel => remaining fuel it = NoFuel
  end.
Proof.
  induction n as [|n IH]; intros it Hn; [lia|]. cbn [titer_loop].
  destruct it as [cs cache st en]; cbn [it_chars it_cache it_state it_end] in *.
  destruct cache as [|t cache].
  - destruct en; [reflexivity|]. destruct cs as [|c cs].
    + unfold remaining. cbn [it_chars it_cache it_state it_end run]. unfold finish. cbn [obind].
      pose proof (tend_length fuel st) as HL.
      destruct (tend fuel st) as [e| |] eqn:E; cbn [obind]; [|reflexivity|reflexivity].
      destruct n as [|n]; [lia|]. destruct n as [|n]; [cbn in Hn; lia|].
      cbn [titer_loop it_cache it_end].
      destruct e as [|t e]; [reflexivity|].
      cbn [it_chars it_cache it_state it_end]. cbn in HL |- *. split; [rewrite app_nil_r; reflexivity|]. lia.
    + pose proof (push_emits fuel st c) as HL.
      destruct (push fuel st c) as [[toks st']| |] eqn:E; cbn [obind].
      * specialize (IH {| it_chars := cs; it_cache := toks; it_state := st'; it_end := false |}).
        cbn [it_chars length] in IH, Hn. specialize (IH ltac:(lia)).
        assert (ER : remaining fuel {| it_chars := c :: cs; it_cache := []; it_state := st; it_end := false |} =
                     remaining fuel {| it_chars := cs; it_cache := toks; it_state := st'; it_end := false |}).
        { unfold remaining. cbn [it_chars it_cache it_state it_end run]. rewrite E. cbn [obind].
          rewrite finish_prepend, prepend_list_app. reflexivity. }
        destruct (titer_loop n fuel _) as [[[t|] it']| |]; rewrite ER; try exact IH.
        cbn [it_cache it_chars it_end length] in *. destruct IH as [IH1 [IH2 IH3]]. split; [exact IH1|].
        cbn in HL. lia.
      * unfold remaining. cbn [it_chars it_cache it_state it_end run]. rewrite E. reflexivity.
      * unfold remaining. cbn [it_chars it_cache it_state it_end run]. rewrite E. reflexivity.
  - unfold remaining. cbn [it_chars it_cache it_state it_end].
    split; [|cbn [length]; lia]. rewrite prepend_list_app. reflexivity.
Qed.

Lemma collect_spec fuel : forall n it,
  (length (it_cache it) + 2 * length (it_chars it) + (if it_end it then 0 else 1) < n)%nat ->
  collect n fuel it = remaining fuel it.
Proof.
  induction n as [|n IH]; intros it Hn; [lia|]. cbn [collect].
  pose proof (titer_loop_spec fuel (length (it_chars it) + 3) it ltac:(lia)) as H.
  unfold titer_next. destruct (titer_loop (length (it_chars it) + 3) fuel it) as [[[t|] it']| |]; cbn [obind].
  - destruct H as [H1 [H2 H3]]. rewrite IH by lia. rewrite H1. destruct (remaining fuel it'); reflexivity.
  - symmetry. exact H.
  - symmetry. exact H.
  - symmetry. exact H.
Qed.

(** The tokens of a text are those of the run followed by those of the end. *)
Lemma tokenize_run fuel text : tokenize fuel text = finish fuel (run fuel Initial text).
Proof.
  unfold tokenize. rewrite collect_spec by (cbn; lia). unfold remaining, titer_new.
  cbn [it_chars it_cache it_state it_end]. apply prepend_list_nil.
Qed.
