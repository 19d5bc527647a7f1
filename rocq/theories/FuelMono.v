(** More fuel changes nothing: a computation that has ended (with a value or a panic) for some
    bound ends in the same way for every larger bound. *)
From Coq Require Import ZArith List Bool Lia.
From Verif Require Import Outcome LimbsModel BigUintModel BigIntModel JsBigintModel BigFloatModel TokenizerModel TokenizerProofs TokenizerRun
  ValueModel ParserModel SerializerModel.
Import ListNotations.
Open Scope Z_scope.

(** [o] has not ended, or [o'] is the same. *)
Definition upto {A} (o o' : outcome A) : Prop := match o with NoFuel => True | _ => o' = o end.

Lemma upto_refl {A} (o : outcome A) : upto o o.
Proof. destruct o; reflexivity. Qed.
Lemma upto_bind {A C} (o o' : outcome A) (k k' : A -> outcome C) : upto o o' -> (forall a, upto (k a) (k' a)) -> upto (obind o k) (obind o' k').
Proof. intros H K. destruct o; cbn in *; subst; cbn; auto. Qed.
Lemma upto_ok {A} (o o' : outcome A) a : upto o o' -> o = Ok a -> o' = Ok a.
Proof. intros H ->. exact H. Qed.

Ltac upto_tac := repeat first
  [ apply upto_refl
  | apply upto_bind; [|intros ?]
  | match goal with
    | |- upto (let '(_, _) := ?x in _) _ => destruct x
    | |- upto (match ?x with _ => _ end) _ => destruct x
    end ].

(** * Numbers *)
Lemma bu_div_loop_more n : forall m a b r, (n <= m)%nat -> upto (bu_div_loop n a b r) (bu_div_loop m a b r).
Proof.
  induction n as [|n IH]; intros m a b r H; [exact I|]. destruct m as [|m]; [lia|]. cbn [bu_div_loop].
  destruct (bu_cmp a b); upto_tac; apply IH; lia.
Qed.
Lemma bu_div_mod_more n m a b : (n <= m)%nat -> upto (bu_div_mod n a b) (bu_div_mod m a b).
Proof. intros H. unfold bu_div_mod. upto_tac. apply bu_div_loop_more, H. Qed.
Lemma bu_div_more n m a b : (n <= m)%nat -> upto (bu_div n a b) (bu_div m a b).
Proof. intros H. unfold bu_div. upto_tac. apply bu_div_mod_more, H. Qed.
Lemma bi_div_mod_more n m a b : (n <= m)%nat -> upto (bi_div_mod n a b) (bi_div_mod m a b).
Proof. intros H. unfold bi_div_mod. upto_tac. apply bu_div_mod_more, H. Qed.
Lemma bi_div_more n m a b : (n <= m)%nat -> upto (bi_div n a b) (bi_div m a b).
Proof. intros H. unfold bi_div. upto_tac. apply bu_div_more, H. Qed.
Lemma jb_div_loop_more n : forall m a b r, (n <= m)%nat -> upto (jb_div_loop n a b r) (jb_div_loop m a b r).
Proof.
  induction n as [|n IH]; intros m a b r H; [exact I|]. destruct m as [|m]; [lia|]. cbn [jb_div_loop].
  destruct (cmp_vec a b); upto_tac; apply IH; lia.
Qed.
Lemma jb_div_mod_more n m a b : (n <= m)%nat -> upto (jb_div_mod n a b) (jb_div_mod m a b).
Proof. intros H. unfold jb_div_mod. upto_tac. apply jb_div_loop_more, H. Qed.
Lemma increase_loop_more n : forall k m s e, (n <= k)%nat -> upto (increase_loop n m s e) (increase_loop k m s e).
Proof.
  induction n as [|n IH]; intros k m s e H; [exact I|]. destruct k as [|k]; [lia|]. cbn [increase_loop].
  destruct (jb_compare s m); upto_tac; apply IH; lia.
Qed.
Lemma increase_to_more n m f p : (n <= m)%nat -> upto (increase_significand_to n f p) (increase_significand_to m f p).
Proof. intros H. unfold increase_significand_to. upto_tac. apply increase_loop_more, H. Qed.
Lemma increase_more n m f p : (n <= m)%nat -> upto (increase_significand n f p) (increase_significand m f p).
Proof. intros H. unfold increase_significand. upto_tac. apply increase_to_more, H. Qed.
Lemma decrease_loop_more n : forall k m s e r, (n <= k)%nat -> upto (decrease_loop n m s e r) (decrease_loop k m s e r).
Proof.
  induction n as [|n IH]; intros k m s e r H; [exact I|]. destruct k as [|k]; [lia|]. cbn [decrease_loop].
  destruct (jb_compare s m); [|apply upto_refl|]; apply IH; lia.
Qed.
Lemma decrease_more n m f p : (n <= m)%nat -> upto (decrease_significand n f p) (decrease_significand m f p).
Proof. intros H. unfold decrease_significand. upto_tac. apply decrease_loop_more, H. Qed.
Lemma to_bin_more n m f p : (n <= m)%nat -> upto (to_bin n f p) (to_bin m f p).
Proof.
  intros H. unfold to_bin. destruct (jb_is_zero (bf_sig f)); [apply upto_refl|]. destruct (bf_exp f =? 0).
  - apply upto_bind; [apply increase_more, H|]. intros. apply decrease_more, H.
  - destruct (0 <? bf_exp f).
    + do 2 (apply upto_bind; [apply upto_refl|intros ?]). apply upto_bind; [apply increase_more, H|]. intros. apply decrease_more, H.
    + do 3 (apply upto_bind; [apply upto_refl|intros ?]). apply upto_bind; [apply increase_to_more, H|]. intros.
      apply upto_bind; [apply jb_div_mod_more, H|]. intros [q r]. apply decrease_more, H.
Qed.
Lemma to_f64_more n m f : (n <= m)%nat -> upto (to_f64 n f) (to_f64 m f).
Proof.
  intros H. unfold to_f64, get_f64_bits. destruct (jb_is_zero (bf_sig f)); [apply upto_refl|].
  apply upto_bind; [apply increase_more, H|]. intros v. apply upto_bind; [apply decrease_more, H|]. intros w. cbv zeta.
  destruct (_ && _); [apply upto_refl|]. destruct (_ && _); [|apply upto_refl].
  apply upto_bind; [apply decrease_more, H|]. intros. apply upto_refl.
Qed.

(** * The tokenizer *)
Lemma number_token_more n m b s e : (n <= m)%nat -> upto (number_token n b s e) (number_token m b s e).
Proof.
  intros H. unfold number_token, bigfloat_to_f64. apply upto_bind; [|intros; apply upto_refl].
  apply upto_bind; [apply to_bin_more, H|]. intros. apply to_f64_more, H.
Qed.
Lemma exp_token_more n m b s fe es e : (n <= m)%nat -> upto (exp_state_into_token n b s fe es e) (exp_state_into_token m b s fe es e).
Proof. intros H. unfold exp_state_into_token. apply upto_bind; [apply upto_refl|]. intros. apply number_token_more, H. Qed.
Lemma push_with_more n m rec rec' st c : (n <= m)%nat -> (forall st c, upto (rec st c) (rec' st c)) ->
  upto (push_with rec n st c) (push_with rec' m st c).
Proof.
  intros H Hr.
  assert (Ht : forall toks st0, upto (let! (next, st') := rec st0 c in Ok (toks ++ next, st')) (let! (next, st') := rec' st0 c in Ok (toks ++ next, st'))).
  { intros. apply upto_bind; [apply Hr|]. intros. apply upto_refl. }
  destruct st; cbn [push_with]; (apply upto_bind; [apply upto_refl|intros t]);
    repeat match goal with |- upto (match ?x with _ => _ end) _ => destruct x end;
    try apply upto_refl; try apply Ht;
    (apply upto_bind; [first [apply number_token_more, H | apply exp_token_more, H | apply upto_refl]|intros; apply Ht]).
Qed.
Lemma push_more n m st c : (n <= m)%nat -> upto (push n st c) (push m st c).
Proof. intros H. apply push_with_more; [exact H|]. intros. apply push_with_more; [exact H|]. intros. exact I. Qed.
Lemma tend_more n m st : (n <= m)%nat -> upto (tend n st) (tend m st).
Proof.
  intros H. destruct st; cbn [tend]; try apply upto_refl;
    (apply upto_bind; [first [apply number_token_more, H | apply exp_token_more, H]|intros; apply upto_refl]).
Qed.
Lemma run_more n m text : (n <= m)%nat -> forall st, upto (run n st text) (run m st text).
Proof.
  intros H. induction text as [|c text IH]; intros st; [apply upto_refl|]. cbn [run].
  apply upto_bind; [apply push_more, H|]. intros [toks st']. unfold prepend. apply upto_bind; [apply IH|]. intros. apply upto_refl.
Qed.
Lemma tokenize_more n m text : (n <= m)%nat -> upto (tokenize n text) (tokenize m text).
Proof.
  intros H. rewrite !tokenize_run. unfold finish. apply upto_bind; [apply run_more, H|]. intros [toks st].
  apply upto_bind; [apply tend_more, H|]. intros. apply upto_refl.
Qed.

(** * The parser *)
Definition upto_loader (l l' : loader) : Prop := forall c m, upto (l c m) (l' c m).
Lemma any_parse_more l l' s c t : upto_loader l l' -> upto (cx_any_parse l s c t) (cx_any_parse l' s c t).
Proof.
  intros H. unfold cx_any_parse.
  repeat match goal with |- upto (match ?x with _ => _ end) _ => destruct x end; try apply upto_refl.
  all: try (apply upto_bind; [first [apply H|apply upto_refl]|]; intros; apply upto_refl).
Qed.
Lemma const_parse_more l l' k s c t : upto_loader l l' -> upto (cx_const_parse l k s c t) (cx_const_parse l' k s c t).
Proof.
  intros H. unfold cx_const_parse. destruct t; try apply upto_refl; (apply upto_bind; [apply any_parse_more, H|]; intros; apply upto_refl).
Qed.
Lemma module_parse_more l l' s c t : upto_loader l l' -> upto (cx_module_parse l s c t) (cx_module_parse l' s c t).
Proof. intros H. unfold cx_module_parse. apply upto_bind; [apply any_parse_more, H|]. intros. apply upto_refl. Qed.
Lemma root_parse_more l l' r c t : upto_loader l l' -> upto (cx_root_parse l r c t) (cx_root_parse l' r c t).
Proof.
  intros H. unfold cx_root_parse. apply upto_bind; [apply upto_refl|]. intros [[j import] n']. cbv beta iota zeta.
  destruct import as [[id m]|]; [|apply upto_refl]. destruct j; try apply upto_refl.
  apply upto_bind; [apply H|]. intros. apply upto_refl.
Qed.
Lemma cx_push_more l l' j c t : upto_loader l l' -> upto (cx_push l j c t) (cx_push l' j c t).
Proof.
  intros H. unfold cx_push. destruct t, j; try apply upto_refl;
    first [apply root_parse_more, H | apply module_parse_more, H | apply const_parse_more, H].
Qed.
Lemma push_all_more l l' ts : upto_loader l l' -> forall j c, upto (push_all l j c ts) (push_all l' j c ts).
Proof.
  intros H. induction ts as [|t ts IH]; intros j c; [apply upto_refl|]. cbn [push_all].
  apply upto_bind; [apply cx_push_more, H|]. intros [j' c']. apply IH.
Qed.
Lemma parse_tokens_more io n m : (n <= m)%nat -> forall d d' c ts, (d <= d')%nat -> upto (parse_tokens io n d c ts) (parse_tokens io m d' c ts).
Proof.
  intros H. induction d as [|d IH]; intros d' c ts Hd; [exact I|]. destruct d' as [|d']; [lia|]. cbn [parse_tokens].
  unfold parse_tokens_with. apply upto_bind; [|intros; apply upto_refl]. apply push_all_more. intros c0 m0. unfold import_with.
  destruct (bt_get _ _); [apply upto_refl|]. destruct (bs_contains _ _); [apply upto_refl|]. cbv zeta. destruct (io _); [|apply upto_refl].
  apply upto_bind; [apply tokenize_more, H|]. intros ts0. apply upto_bind; [apply IH; lia|]. intros. apply upto_refl.
Qed.
Lemma parse_more io n m d d' c : (n <= m)%nat -> (d <= d')%nat -> upto (parse io n d c) (parse io m d' c).
Proof.
  intros H Hd. unfold parse. cbv zeta. destruct (io (cx_path c)); [|apply upto_refl]. apply upto_bind; [apply tokenize_more, H|].
  intros. apply parse_tokens_more; assumption.
Qed.

(** * The converter *)
Lemma write_consts_more show peek n : forall m s, (n <= m)%nat -> upto (write_consts show peek n s) (write_consts show peek m s).
Proof.
  induction n as [|n IH]; intros m s H; cbn [write_consts].
  - destruct m; cbn [write_consts]; destruct (peek (dj_todo s)); apply upto_refl || exact I.
  - destruct m as [|m]; [lia|]. cbn [write_consts]. destruct (peek (dj_todo s)); [|apply upto_refl].
    apply upto_bind; [apply upto_refl|]. intros. apply IH. lia.
Qed.
Lemma to_djs_more show peek n m a b : (n <= m)%nat -> upto (to_djs show peek n a b) (to_djs show peek m a b).
Proof. intros H. unfold to_djs. cbv zeta. apply upto_bind; [apply write_consts_more, H|]. intros. apply upto_refl. Qed.
Lemma app_run_more show peek disk n m d d' k k' args io : (n <= m)%nat -> (d <= d')%nat -> (k <= k')%nat ->
  upto (app_run show peek disk n d k args io) (app_run show peek disk m d' k' args io).
Proof.
  intros H Hd Hk. unfold app_run. destruct args as [|? [|input [|output ?]]]; try apply upto_refl.
  destruct (file_to_data_type output) as [dt|]; [|apply upto_refl]. apply upto_bind; [apply parse_more; assumption|].
  intros [c [[d0 v]|e]]; [|apply upto_refl]. destruct dt; try apply upto_refl.
  all: apply upto_bind; [apply to_djs_more, Hk|]; intros; apply upto_refl.
Qed.

(** Two ended runs agree. *)
Lemma upto_agree {A} (f : nat -> outcome A) : (forall n m, (n <= m)%nat -> upto (f n) (f m)) ->
  forall n m, f n <> NoFuel -> f m <> NoFuel -> f n = f m.
Proof.
  intros H n m Hn Hm. destruct (le_lt_dec n m) as [L|L].
  - specialize (H n m L). destruct (f n); cbn in H; congruence.
  - specialize (H m n ltac:(lia)). destruct (f m); cbn in H; congruence.
Qed.
