(** The module state machine accepts exactly the module grammar, for any way of loading
    modules. *)
From Coq Require Import ZArith List Bool String Lia Sorted.
From Verif Require Import Outcome JsBigintModel TokenizerModel TokenizerSpec ValueModel ParserModel ParserSpec BTreeProofs ParserProofs.
Import ListNotations.
Open Scope Z_scope.

(** ** Names: only the lookup function matters *)
Definition env_eq (e1 e2 : list (list Z * tree)) : Prop := forall k, lookup e1 k = lookup e2 k.
Lemma env_eq_cons e1 e2 k v : env_eq e1 e2 -> env_eq ((k, v) :: e1) ((k, v) :: e2).
Proof. intros H x. cbn. destruct (list_eq_dec Z.eq_dec x k); auto. Qed.
Lemma env_eq_sym e1 e2 : env_eq e1 e2 -> env_eq e2 e1.
Proof. intros H k. symmetry. apply H. Qed.

Lemma scalar_env e1 e2 tok t : env_eq e1 e2 -> scalar e1 tok t -> scalar e2 tok t.
Proof. intros He H. destruct H; constructor; auto. rewrite <- He. assumption. Qed.

Lemma gval_env_all mods e1 e2 : env_eq e1 e2 ->
  (forall p d a d' t, gval mods e1 p d a d' t -> gval mods e2 p d a d' t)
  /\ (forall p d a d' ts, gelems mods e1 p d a d' ts -> gelems mods e2 p d a d' ts)
  /\ (forall f d a d' kvs, gmembers mods e1 f d a d' kvs -> gmembers mods e2 f d a d' kvs).
Proof.
  intros He. apply gval_mutind; intros; try (econstructor; eassumption).
  apply gv_scalar; [eapply scalar_env; eassumption|assumption].
Qed.
Lemma gval_env mods e1 e2 p d a d' t : env_eq e1 e2 -> gval mods e1 p d a d' t -> gval mods e2 p d a d' t.
Proof. intros He. apply (gval_env_all mods e1 e2 He). Qed.
Lemma gfinal_env mods e1 e2 d toks d' t : env_eq e1 e2 -> gfinal mods e1 d toks d' t -> gfinal mods e2 d toks d' t.
Proof. intros He (a & b & n & H1 & H2 & H3). exists a, b, n. split; [exact H1|]. split; [exact H2|]. eapply gval_env; eassumption. Qed.

Lemma gmodule_env mods e1 e2 d nl toks d' t : env_eq e1 e2 -> gmodule mods e1 d nl toks d' t -> gmodule mods e2 d nl toks d' t.
Proof.
  intros He H. revert e2 He. induction H; intros e2 He.
  - constructor. auto.
  - econstructor; [eassumption|eapply gval_env; eassumption|]. apply IHgmodule, env_eq_cons, He.
  - econstructor; [assumption|eassumption|]. apply IHgmodule, env_eq_cons, He.
  - constructor; [assumption|eapply gfinal_env; eassumption].
  - constructor; [assumption|eapply gfinal_env; eassumption].
  - constructor; [assumption|assumption|eapply gfinal_env; eassumption].
Qed.

Definition env_of (consts : list (list Z * any)) : list (list Z * tree) := vmap erase consts.
Lemma env_of_rel consts : env_rel (env_of consts) consts.
Proof. intros k. rewrite lookup_bt. apply vmap_get. Qed.
Lemma env_of_insert consts k v : env_eq (env_of (bt_insert consts k v)) ((k, erase v) :: env_of consts).
Proof.
  intros x. unfold env_of. rewrite vmap_insert, !lookup_bt, bt_get_insert. cbn.
  destruct (list_eq_dec Z.eq_dec x k) as [->|n]; [rewrite str_cmp_refl; reflexivity|].
  destruct (str_cmp x k) eqn:E; try reflexivity. apply str_cmp_eq in E. congruence.
Qed.

(** ** The language expected by a module state *)
Definition idle (s : any_state) : Prop := as_status s = SInitial /\ as_current s = JNone /\ as_stack s = [].
Lemma idle_wf s : idle s -> wf s.
Proof. intros (H1 & H2 & H3). unfold wf. rewrite H1, H2. exact H3. Qed.

Section Json.
Variable mods : list Z -> tree -> Prop.

Definition sres (s : any_state) := res mods (env_of (as_consts s)) s.

Definition const_lang (k : list Z) (s : any_state) (toks : list token) (d' : data_type) (t' : tree) : Prop :=
  exists a b v d1 rest, toks = b ++ rest /\ spread a b /\ sres s a d1 v
    /\ gmodule mods ((k, v) :: env_of (as_consts s)) d1 false rest d' t'.
Definition module_lang (s : any_state) (toks : list token) (d' : data_type) (t' : tree) : Prop :=
  exists a b n, toks = b ++ repeat TNewLine n /\ spread a b /\ sres s a d' t'.

Definition root_lang (r : root_state) (toks : list token) (d' : data_type) (t' : tree) : Prop :=
  let s := rs_state r in
  let env := env_of (as_consts s) in
  match rs_status r with
  | QInitial => gmodule mods env (as_type s) (rs_new_line r) toks d' t'
  | QExport => exists toks', toks = TId (txt "default") :: toks' /\ module_lang s toks' d' t'
  | QModule => exists toks', toks = TDot :: TId (txt "exports") :: TEquals :: toks' /\ module_lang s toks' d' t'
  | QModuleDot => exists toks', toks = TId (txt "exports") :: TEquals :: toks' /\ module_lang s toks' d' t'
  | QModuleDotExports => exists toks', toks = TEquals :: toks' /\ module_lang s toks' d' t'
  | QConst => exists k toks', toks = TId k :: TEquals :: toks' /\ const_lang k s toks' d' t'
  | QConstId k => exists toks', toks = TEquals :: toks' /\ const_lang k s toks' d' t'
  | QImport => exists k m v rest, toks = TId k :: TId (txt "from") :: TString m :: rest /\ mods m v
      /\ gmodule mods ((k, v) :: env) (as_type s) false rest d' t'
  | QImportId k => exists m v rest, toks = TId (txt "from") :: TString m :: rest /\ mods m v
      /\ gmodule mods ((k, v) :: env) (as_type s) false rest d' t'
  | QImportIdFrom k => exists m v rest, toks = TString m :: rest /\ mods m v
      /\ gmodule mods ((k, v) :: env) (as_type s) false rest d' t'
  end.

Definition jres (j : json_state) (toks : list token) (d' : data_type) (t' : tree) : Prop :=
  match j with
  | PRoot r => root_lang r toks d' t'
  | PConst k s => const_lang k s toks d' t'
  | PModule s => module_lang s toks d' t'
  | PResult d v => exists n, toks = repeat TNewLine n /\ d' = d /\ t' = erase v
  | PError _ => False
  end.
Definition jwf (j : json_state) : Prop :=
  match j with
  | PRoot r => idle (rs_state r)
  | PConst _ s | PModule s => wf s
  | PResult _ _ | PError _ => True
  end.

Lemma idle_sres s a d' t' : idle s -> sres s a d' t' <-> gval mods (env_of (as_consts s)) PElsewhere (as_type s) a d' t'.
Proof.
  intros (H1 & H2 & H3). unfold sres, res. rewrite H1, H2. unfold vthen. cbn. split.
  - intros (a' & post & t & d1 & -> & Hg & -> & -> & ->). rewrite app_nil_r. exact Hg.
  - intros H. exists a, [], t', d'. rewrite app_nil_r. auto.
Qed.

Lemma idle_module_lang s toks d' t' : idle s ->
  module_lang s toks d' t' <-> gfinal mods (env_of (as_consts s)) (as_type s) toks d' t'.
Proof.
  intros Hi. unfold module_lang, gfinal.
  split; intros (a & b & n & H1 & H2 & H3); exists a, b, n; (split; [exact H1|]; split; [exact H2|]); apply (idle_sres s a d' t' Hi); exact H3.
Qed.

Lemma after_nonempty env fs d t d' t' : after mods env fs d t [] d' t' -> fs = [].
Proof.
  destruct fs as [|[m k|items] fs]; [reflexivity| |];
    intros (body & post & ts & d1 & Heq & _); destruct body; discriminate.
Qed.
Lemma gval_nonempty env p d d' t : ~ gval mods env p d [] d' t.
Proof. intros H. inversion H. Qed.

Lemma res_nonempty s d' t' : ~ sres s [] d' t'.
Proof.
  unfold sres, res.
  destruct (as_status s), (as_current s) as [|[]|]; try tauto;
    try (intros (body & post & ts & d1 & Heq & _); destruct body; discriminate);
    try (intros (m & post & t & Heq & _); discriminate);
    try (intros (post & Heq & _); discriminate).
  all: intros (a & post & t & d1 & Heq & Hg & _); symmetry in Heq; apply app_eq_nil in Heq as [-> _]; exact (gval_nonempty _ _ _ _ _ Hg).
Qed.

Lemma res_newline s toks d' t' : wf s -> ~ sres s (TNewLine :: toks) d' t'.
Proof.
  intros Hw H. unfold sres in H.
  destruct (as_status s) eqn:Es.
  11: { unfold res in H. rewrite Es in H. destruct (as_current s); try contradiction. destruct H as (m & post & t & [=] & _). }
  all: destruct (common_res mods (env_of (as_consts s)) s 0 TNewLine Hw (env_of_rel _)) as (r & n' & Hr & _ & _ & Hi);
    [rewrite Es; discriminate|]; apply Hi in H; unfold any_parse_common in Hr; rewrite Es in Hr;
    cbn in Hr; injection Hr as <- _; exact H.
Qed.

(** Line breaks inside a value. *)
Lemma spread_tok_inv a tok b : tok <> TNewLine -> spread a (tok :: b) -> exists a', a = tok :: a' /\ spread a' b.
Proof. intros Hn H. inversion H; subst; [congruence|eauto]. Qed.
Lemma spread_nil_l b : spread [] b -> b = [].
Proof. inversion 1. reflexivity. Qed.
Lemma spread_nil_r a : spread a [] -> a = [].
Proof. inversion 1. reflexivity. Qed.

Lemma module_lang_newline s toks d' t' : wf s -> module_lang s (TNewLine :: toks) d' t' <-> module_lang s toks d' t'.
Proof.
  intros Hw. split.
  - intros (a & b & n & Heq & Hs & Hr). destruct b as [|x b].
    + apply spread_nil_r in Hs. subst a. exfalso. exact (res_nonempty _ _ _ Hr).
    + injection Heq as <- ->. inversion Hs; subst.
      * exists (x :: a0), b, n. auto.
      * exfalso. exact (res_newline _ _ _ _ Hw Hr).
  - intros (a & b & n & -> & Hs & Hr). destruct a as [|x a]; [exfalso; exact (res_nonempty _ _ _ Hr)|].
    exists (x :: a), (TNewLine :: b), n. split; [reflexivity|]. split; [constructor; exact Hs|exact Hr].
Qed.
Lemma const_lang_newline k s toks d' t' : wf s -> const_lang k s (TNewLine :: toks) d' t' <-> const_lang k s toks d' t'.
Proof.
  intros Hw. split.
  - intros (a & b & v & d1 & rest & Heq & Hs & Hr & Hg). destruct b as [|x b].
    + apply spread_nil_r in Hs. subst a. exfalso. exact (res_nonempty _ _ _ Hr).
    + injection Heq as <- ->. inversion Hs; subst.
      * exists (x :: a0), b, v, d1, rest. auto.
      * exfalso. exact (res_newline _ _ _ _ Hw Hr).
  - intros (a & b & v & d1 & rest & -> & Hs & Hr & Hg). destruct a as [|x a]; [exfalso; exact (res_nonempty _ _ _ Hr)|].
    exists (x :: a), (TNewLine :: b), v, d1, rest. split; [reflexivity|]. split; [constructor; exact Hs|]. auto.
Qed.

(** What the callers make of the result of a value step. *)
Definition module_result (r : any_result) : json_state :=
  match r with RContinue s => PModule s | RSuccess s v => PResult (as_type s) v | RError e => PError e end.

Lemma module_step s r tok (L : list token -> data_type -> tree -> Prop) :
  wf s -> tok <> TNewLine -> rwf r -> rconsts r (as_consts s) ->
  (forall toks d' t', rres mods (env_of (as_consts s)) r toks d' t' <-> L toks d' t') ->
  (forall toks d' t', L toks d' t' -> sres s (tok :: toks) d' t') ->
  jwf (module_result r) /\
  forall toks d' t', jres (module_result r) toks d' t' <->
    exists a b n, tok :: toks = b ++ repeat TNewLine n /\ spread a b /\ exists a', a = tok :: a' /\ L a' d' t'.
Proof.
  intros Hw Hn Hrw Hrc Hi HL. split.
  - destruct r; cbn in *; auto.
  - intros toks d' t'. destruct r as [s'|s' v|e]; cbn [module_result jres].
    + cbn in Hrc, Hi. unfold module_lang, sres. rewrite Hrc. split.
      * intros (a & b & n & -> & Hs & Hr). exists (tok :: a), (tok :: b), n. split; [reflexivity|].
        split; [constructor; exact Hs|]. exists a. split; [reflexivity|]. apply Hi, Hr.
      * intros (a & b & n & Heq & Hs & a' & -> & Hl). destruct b as [|x b]; [inversion Hs|].
        injection Heq as <- ->. apply spread_tok_inv in Hs as (a2 & [= <-] & Hs); [|exact Hn].
        exists a', b, n. split; [reflexivity|]. split; [exact Hs|]. apply Hi, Hl.
    + cbn in Hi. split.
      * intros (n & -> & -> & ->). exists [tok], [tok], n. split; [reflexivity|]. split; [repeat constructor|].
        exists []. split; [reflexivity|]. apply Hi. auto.
      * intros (a & b & n & Heq & Hs & a' & -> & Hl). apply Hi in Hl as (-> & -> & ->).
        destruct b as [|x b]; [inversion Hs|]. injection Heq as <- ->.
        apply spread_tok_inv in Hs as (a2 & [= <-] & Hs); [|exact Hn]. apply spread_nil_l in Hs. subst b. exists n. auto.
    + cbn in *. split; [tauto|]. intros (a & b & n & _ & _ & a' & _ & Hl). apply Hi in Hl. exact Hl.
Qed.

Lemma module_lang_tok s tok toks d' t' :
  tok <> TNewLine ->
  module_lang s (tok :: toks) d' t' <->
  exists a b n, tok :: toks = b ++ repeat TNewLine n /\ spread a b /\ exists a', a = tok :: a' /\ sres s (tok :: a') d' t'.
Proof.
  intros Hn. unfold module_lang. split.
  - intros (a & b & n & Heq & Hs & Hr). exists a, b, n. split; [exact Heq|]. split; [exact Hs|].
    destruct b as [|x b]; [apply spread_nil_r in Hs; subst; exfalso; exact (res_nonempty _ _ _ Hr)|].
    injection Heq as <- ->. apply spread_tok_inv in Hs as (a2 & -> & Hs); [|exact Hn]. eauto.
  - intros (a & b & n & Heq & Hs & a' & -> & Hr). exists (tok :: a'), b, n. auto.
Qed.

Lemma const_step k s r tok (L : list token -> data_type -> tree -> Prop) :
  wf s -> tok <> TNewLine -> rwf r -> rconsts r (as_consts s) ->
  (forall toks d' t', rres mods (env_of (as_consts s)) r toks d' t' <-> L toks d' t') ->
  jwf (const_result k r) /\
  forall toks d' t', jres (const_result k r) toks d' t' <->
    exists a b v d1 rest, tok :: toks = b ++ rest /\ spread a b
      /\ (exists a', a = tok :: a' /\ L a' d1 v)
      /\ gmodule mods ((k, v) :: env_of (as_consts s)) d1 false rest d' t'.
Proof.
  intros Hw Hn Hrw Hrc Hi. split.
  - destruct r; cbn in *; auto.
  - intros toks d' t'. destruct r as [s'|s' v|e]; cbn [const_result jres].
    + cbn in Hrc, Hi. unfold const_lang, sres. rewrite Hrc. split.
      * intros (a & b & v & d1 & rest & -> & Hs & Hr & Hg). exists (tok :: a), (tok :: b), v, d1, rest. split; [reflexivity|].
        split; [constructor; exact Hs|]. split; [|exact Hg]. exists a. split; [reflexivity|]. apply Hi, Hr.
      * intros (a & b & v & d1 & rest & Heq & Hs & (a' & -> & Hl) & Hg). destruct b as [|x b]; [inversion Hs|].
        injection Heq as <- ->. apply spread_tok_inv in Hs as (a2 & [= <-] & Hs); [|exact Hn].
        exists a', b, v, d1, rest. split; [reflexivity|]. split; [exact Hs|]. split; [apply Hi, Hl|exact Hg].
    + cbn in Hrc, Hi. cbn. rewrite Hrc. split.
      * intros Hg. exists [tok], [tok], (erase v), (as_type s'), toks. split; [reflexivity|]. split; [repeat constructor|].
        split; [exists []; split; [reflexivity|]; apply Hi; auto|].
        eapply gmodule_env; [apply env_of_insert|exact Hg].
      * intros (a & b & u & d1 & rest & Heq & Hs & (a' & -> & Hl) & Hg). apply Hi in Hl as (-> & -> & ->).
        destruct b as [|x b]; [inversion Hs|]. injection Heq as <- ->.
        apply spread_tok_inv in Hs as (a2 & [= <-] & Hs); [|exact Hn]. apply spread_nil_l in Hs. subst b. cbn.
        eapply gmodule_env; [apply env_eq_sym, env_of_insert|exact Hg].
    + cbn in *. split; [tauto|]. intros (a & b & v & d1 & rest & _ & _ & (a' & _ & Hl) & _). apply Hi in Hl. exact Hl.
Qed.

Lemma const_lang_tok k s tok toks d' t' :
  tok <> TNewLine ->
  const_lang k s (tok :: toks) d' t' <->
  exists a b v d1 rest, tok :: toks = b ++ rest /\ spread a b
    /\ (exists a', a = tok :: a' /\ sres s (tok :: a') d1 v)
    /\ gmodule mods ((k, v) :: env_of (as_consts s)) d1 false rest d' t'.
Proof.
  intros Hn. unfold const_lang. split.
  - intros (a & b & v & d1 & rest & Heq & Hs & Hr & Hg). exists a, b, v, d1, rest. split; [exact Heq|]. split; [exact Hs|].
    split; [|exact Hg].
    destruct b as [|x b]; [apply spread_nil_r in Hs; subst; exfalso; exact (res_nonempty _ _ _ Hr)|].
    injection Heq as <- ->. apply spread_tok_inv in Hs as (a2 & -> & Hs); [|exact Hn]. eauto.
  - intros (a & b & v & d1 & rest & Heq & Hs & (a' & -> & Hr) & Hg). exists (tok :: a'), b, v, d1, rest. auto.
Qed.

(** ** The steps *)

(** The step does not call the loader; it reads one token of the expected language. *)
Definition plain_step (j : json_state) (c : context) (tok : token) : Prop :=
  exists j' n', (forall load, cx_push load j c tok = Ok (j', cx_set_next c n')) /\ jwf j'
    /\ forall toks d' t', jres j' toks d' t' <-> jres j (tok :: toks) d' t'.
(** The step loads the module [m] and continues with its value. *)
Definition load_step (j : json_state) (c : context) (tok : token) : Prop :=
  exists m K n' L, tok = TString m
    /\ (forall load, cx_push load j c tok =
          let! (c', r) := load (cx_set_next c n') m in Ok (match r with inl a => K a | inr e => PError e end, c'))
    /\ (forall a, jwf (K a))
    /\ (forall a toks d' t', jres (K a) toks d' t' <-> L (erase a) toks d' t')
    /\ (forall toks d' t', jres j (tok :: toks) d' t' <-> exists t, mods m t /\ L t toks d' t').
(** The step reaches [todo!()]. *)
Definition panic_step (j : json_state) (c : context) (tok : token) : Prop :=
  tok = TSemicolon /\ (exists k s, j = PConst k s) /\ (forall load, cx_push load j c tok = Panic)
  /\ forall toks d' t', ~ jres j (tok :: toks) d' t'.

Lemma cx_same c : c = cx_set_next c (cx_next c).
Proof. destruct c. reflexivity. Qed.

Lemma res_scalarless s tok toks d' t' : wf s -> tok = TSemicolon -> ~ sres s (tok :: toks) d' t'.
Proof.
  intros Hw -> H. unfold sres in H.
  destruct (as_status s) eqn:Es.
  11: { unfold res in H. rewrite Es in H. destruct (as_current s); try contradiction. destruct H as (m & post & t & [=] & _). }
  all: destruct (common_res mods (env_of (as_consts s)) s 0 TSemicolon Hw (env_of_rel _)) as (r & n' & Hr & _ & _ & Hi);
    [rewrite Es; discriminate|]; apply Hi in H; unfold any_parse_common in Hr; rewrite Es in Hr;
    cbn in Hr; injection Hr as <- _; exact H.
Qed.

(** A value step, as an abstract transition. *)
Lemma value_cases s c tok :
  wf s ->
  (exists r n', (forall load, cx_any_parse load s c tok = Ok (r, cx_set_next c n')) /\ rwf r /\ rconsts r (as_consts s)
     /\ forall toks d' t', rres mods (env_of (as_consts s)) r toks d' t' <-> sres s (tok :: toks) d' t')
  \/ (exists m, tok = TString m /\ as_status s = SImportValue /\ as_current s = JNone
     /\ (forall load, cx_any_parse load s c tok =
          let! (c', r) := load c m in
          Ok (match r with inl a => RContinue (set_current (set_status s SImportEnd) (JAny a)) | inr e => RError e end, c'))
     /\ forall toks d' t', sres s (tok :: toks) d' t' <->
          exists t, mods m t /\ exists post, toks = TClosePar :: post /\ after mods (env_of (as_consts s)) (as_stack s) (as_type s) t post d' t').
Proof.
  intros Hw. unfold cx_any_parse.
  assert (as_status s = SImportValue \/ as_status s <> SImportValue) as [Es|Hn]
    by (destruct (as_status s); (left; congruence) || (right; congruence)).
  - rewrite Es. unfold wf in Hw. rewrite Es in Hw. destruct (as_current s) eqn:Ec; try contradiction.
    assert (Hres : forall toks d' t', sres s toks d' t' <-> exists m post t,
      toks = TString m :: TClosePar :: post /\ mods m t /\ after mods (env_of (as_consts s)) (as_stack s) (as_type s) t post d' t').
    { intros. unfold sres, res. rewrite Es, Ec. reflexivity. }
    assert (Herr : (forall m, tok <> TString m) ->
      exists r n', (forall load : loader, Ok (RError WrongRequireStatement, c) = Ok (r, cx_set_next c n')) /\ rwf r /\ rconsts r (as_consts s)
       /\ forall toks d' t', rres mods (env_of (as_consts s)) r toks d' t' <-> sres s (tok :: toks) d' t').
    { intros Ht. exists (RError WrongRequireStatement), (cx_next c). rewrite <- cx_same. split; [reflexivity|].
      split; [exact I|]. split; [exact I|]. intros. rewrite Hres. cbn. split; [tauto|].
      intros (m & post & t & Heq & _). injection Heq as -> _. exact (Ht _ eq_refl). }
    destruct tok; try (left; apply Herr; discriminate).
    right. exists s0. split; [reflexivity|]. split; [reflexivity|]. split; [reflexivity|]. split; [reflexivity|].
    intros. rewrite Hres. split.
    + intros (m & post & t & [= <- ->] & Hm & Haf). eauto.
    + intros (t & Hm & post & -> & Haf). exists s0, post, t. auto.
  - left. destruct (common_res mods (env_of (as_consts s)) s (cx_next c) tok Hw (env_of_rel _) Hn) as (r & n' & Hr & H).
    exists r, n'. split; [|exact H]. intros load.
    destruct (as_status s) eqn:Es; try congruence; rewrite Hr; reflexivity.
Qed.

Lemma import_end_state s a :
  as_current s = JNone ->
  let s' := set_current (set_status s SImportEnd) (JAny a) in
  wf s' /\ forall toks d' t', sres s' toks d' t' <->
    exists post, toks = TClosePar :: post /\ after mods (env_of (as_consts s)) (as_stack s) (as_type s) (erase a) post d' t'.
Proof. intros _. cbn. split; [exact I|]. intros. reflexivity. Qed.

Lemma module_case s c tok :
  wf s -> tok <> TNewLine -> plain_step (PModule s) c tok \/ load_step (PModule s) c tok.
Proof.
  intros Hw Hn.
  assert (Hpush : forall load, cx_push load (PModule s) c tok = cx_module_parse load s c tok) by (destruct tok; congruence || reflexivity).
  destruct (value_cases s c tok Hw) as [(r & n' & Hr & Hrw & Hrc & Hi)|(m & -> & Es & Ec & Hr & Hi)].
  - left. exists (module_result r), n'. split.
    { intros load. rewrite Hpush. unfold cx_module_parse. rewrite Hr. reflexivity. }
    destruct (module_step s r tok (fun toks => sres s (tok :: toks)) Hw Hn Hrw Hrc Hi) as [H1 H2]; [auto|].
    split; [exact H1|]. intros. rewrite H2. symmetry. apply module_lang_tok, Hn.
  - right. exists m, (fun a => PModule (set_current (set_status s SImportEnd) (JAny a))), (cx_next c).
    exists (fun t toks d' t' => exists a b n, toks = b ++ repeat TNewLine n /\ spread a b
       /\ exists post, a = TClosePar :: post /\ after mods (env_of (as_consts s)) (as_stack s) (as_type s) t post d' t').
    split; [reflexivity|]. split.
    { intros load. rewrite Hpush, <- cx_same. unfold cx_module_parse. rewrite Hr. destruct (load c m) as [[c' [a|e]]| |]; reflexivity. }
    split; [intros; exact I|]. split.
    + intros a toks d' t'. cbn [jres]. unfold module_lang. reflexivity.
    + intros toks d' t'. cbn [jres]. rewrite module_lang_tok by exact Hn. split.
      * intros (a & b & n & Heq & Hs & a' & -> & Hr'). apply Hi in Hr' as (t & Hm & post & -> & Haf).
        destruct b as [|x b]; [inversion Hs|]. injection Heq as <- ->.
        apply spread_tok_inv in Hs as (a2 & [= <-] & Hs); [|exact Hn].
        exists t. split; [exact Hm|]. exists (TClosePar :: post), b, n. eauto.
      * intros (t & Hm & a & b & n & -> & Hs & post & -> & Haf).
        exists (TString m :: TClosePar :: post), (TString m :: b), n. split; [reflexivity|]. split; [constructor; exact Hs|].
        eexists. split; [reflexivity|]. apply Hi. eauto.
Qed.

Lemma const_case k s c tok :
  wf s -> tok <> TNewLine -> tok <> TSemicolon -> plain_step (PConst k s) c tok \/ load_step (PConst k s) c tok.
Proof.
  intros Hw Hn Hsc.
  assert (Hpush : forall load, cx_push load (PConst k s) c tok = let! (r, c') := cx_any_parse load s c tok in Ok (const_result k r, c'))
    by (destruct tok; congruence || reflexivity).
  destruct (value_cases s c tok Hw) as [(r & n' & Hr & Hrw & Hrc & Hi)|(m & -> & Es & Ec & Hr & Hi)].
  - left. exists (const_result k r), n'. split.
    { intros load. rewrite Hpush, Hr. reflexivity. }
    destruct (const_step k s r tok (fun toks => sres s (tok :: toks)) Hw Hn Hrw Hrc Hi) as [H1 H2].
    split; [exact H1|]. intros. rewrite H2. symmetry. apply const_lang_tok, Hn.
  - right. exists m, (fun a => PConst k (set_current (set_status s SImportEnd) (JAny a))), (cx_next c).
    exists (fun t toks d' t' => exists a b v d1 rest, toks = b ++ rest /\ spread a b
       /\ (exists post, a = TClosePar :: post /\ after mods (env_of (as_consts s)) (as_stack s) (as_type s) t post d1 v)
       /\ gmodule mods ((k, v) :: env_of (as_consts s)) d1 false rest d' t').
    split; [reflexivity|]. split.
    { intros load. rewrite Hpush, <- cx_same, Hr. destruct (load c m) as [[c' [a|e]]| |]; reflexivity. }
    split; [intros; exact I|]. split.
    + intros a toks d' t'. cbn [jres]. unfold const_lang. reflexivity.
    + intros toks d' t'. cbn [jres]. rewrite const_lang_tok by exact Hn. split.
      * intros (a & b & v & d1 & rest & Heq & Hs & (a' & -> & Hr') & Hg). apply Hi in Hr' as (t & Hm & post & -> & Haf).
        destruct b as [|x b]; [inversion Hs|]. injection Heq as <- ->.
        apply spread_tok_inv in Hs as (a2 & [= <-] & Hs); [|exact Hn].
        exists t. split; [exact Hm|]. exists (TClosePar :: post), b, v, d1, rest. eauto 6.
      * intros (t & Hm & a & b & v & d1 & rest & -> & Hs & (post & -> & Haf) & Hg).
        exists (TString m :: TClosePar :: post), (TString m :: b), v, d1, rest. split; [reflexivity|]. split; [constructor; exact Hs|].
        split; [|exact Hg]. eexists. split; [reflexivity|]. apply Hi. eauto.
Qed.

(** The first token of a value at the root. *)
Lemma root_value_case s c tok :
  idle s -> opens_statement (as_type s) tok = false -> tok <> TNewLine ->
  exists r n', any_parse s (cx_next c) tok = Ok (r, None, n') /\ jwf (module_result r) /\
    forall toks d' t', jres (module_result r) toks d' t' <-> gfinal mods (env_of (as_consts s)) (as_type s) (tok :: toks) d' t'.
Proof.
  intros Hi Ho Hn. pose proof (idle_wf s Hi) as Hw. pose proof Hi as (Es & Ec & Est).
  destruct (common_res mods (env_of (as_consts s)) s (cx_next c) tok Hw (env_of_rel _)) as (r & n' & Hr & Hrw & Hrc & Hres);
    [rewrite Es; discriminate|].
  exists r, n'. split; [unfold any_parse; rewrite Es, Hr; reflexivity|].
  destruct (module_step s r tok (fun toks => sres s (tok :: toks)) Hw Hn Hrw Hrc Hres) as [H1 H2]; [auto|].
  split; [exact H1|]. intros. rewrite H2, <- (idle_module_lang s _ _ _ Hi). symmetry. apply module_lang_tok, Hn.
Qed.

Lemma root_bad r e c tok :
  (forall load, cx_push load (PRoot r) c tok = Ok (PError e, cx_set_next c (cx_next c))) ->
  (forall toks d' t', ~ root_lang r (tok :: toks) d' t') -> plain_step (PRoot r) c tok.
Proof.
  intros H1 H2. exists (PError e), (cx_next c). split; [exact H1|]. split; [exact I|].
  intros. cbn. split; [tauto|apply H2].
Qed.

Lemma root_go r q s c tok :
  (forall load, cx_push load (PRoot r) c tok = Ok (root q s false, cx_set_next c (cx_next c))) -> idle s ->
  (forall toks d' t', root_lang {| rs_status := q; rs_state := s; rs_new_line := false |} toks d' t' <-> root_lang r (tok :: toks) d' t') ->
  plain_step (PRoot r) c tok.
Proof.
  intros H1 H2 H3. exists (root q s false), (cx_next c). split; [exact H1|]. split; [exact H2|]. exact H3.
Qed.

Lemma push_root load r c tok : cx_push load (PRoot r) c tok = cx_root_parse load r c tok.
Proof. destruct tok; reflexivity. Qed.

Lemma set_type_idle s d : idle s -> idle (set_type s d).
Proof. intros (H1 & H2 & H3). unfold idle. cbn. auto. Qed.

Lemma root_initial_case r c tok :
  idle (rs_state r) -> rs_status r = QInitial -> plain_step (PRoot r) c tok.
Proof.
  intros Hi Eq. destruct r as [q s nl]. cbn in Hi, Eq. subst q.
  destruct nl.
  2: { (* no new line yet *)
    assert (tok = TNewLine \/ tok <> TNewLine) as [->|Hn] by (destruct tok; (left; congruence) || (right; congruence)).
    - exists (root QInitial s true), (cx_next c). split; [intros; reflexivity|]. split; [exact Hi|].
      intros. cbn. split; [intros; constructor; assumption|]. intros H. inversion H; subst. assumption.
    - apply root_bad with NewLineExpected.
      + intros load. rewrite push_root. unfold cx_root_parse.
        destruct tok; try reflexivity; congruence.
      + intros toks d' t' H. cbn in H. inversion H; subst. congruence. }
  assert (tok = TNewLine \/ tok <> TNewLine) as [->|Hn] by (destruct tok; (left; congruence) || (right; congruence)).
  { exists (root QInitial s true), (cx_next c). split; [intros; reflexivity|]. split; [exact Hi|].
    intros. cbn. split; [intros; constructor; assumption|]. intros H. inversion H; subst; [assumption|congruence]. }
  assert (Hval : opens_statement (as_type s) tok = false ->
     root_parse {| rs_status := QInitial; rs_state := s; rs_new_line := true |} (cx_next c) tok
       = (let! (jm, n') := parse_for_module s (cx_next c) tok in Ok (fst jm, None, n')) ->
     plain_step (PRoot {| rs_status := QInitial; rs_state := s; rs_new_line := true |}) c tok).
  { intros Ho Hr. destruct (root_value_case s c tok Hi Ho Hn) as (r & n' & Hp & Hjw & Hlang).
    exists (module_result r), n'. split.
    - intros load. rewrite push_root. unfold cx_root_parse. rewrite Hr. unfold parse_for_module. rewrite Hp. reflexivity.
    - split; [exact Hjw|]. intros. rewrite Hlang. cbn. split.
      + intros H. apply gs_value; assumption.
      + intros H. inversion H; subst; try assumption; try congruence; exfalso; cbn in Ho; congruence. }
  destruct tok; try (apply Hval; reflexivity); [|congruence].
  rename s0 into i.
  assert (Hpush : forall load, cx_push load (PRoot {| rs_status := QInitial; rs_state := s; rs_new_line := true |}) c (TId i)
      = cx_root_parse load {| rs_status := QInitial; rs_state := s; rs_new_line := true |} c (TId i)) by reflexivity.
  destruct (str_eqb i id_const) eqn:E1.
  { apply str_eqb_eq in E1. subst i. eapply root_go.
    - intros load. rewrite Hpush. reflexivity.
    - apply set_type_idle, Hi.
    - intros. cbn. split.
      + intros (k & toks' & -> & a & b & v & d1 & rest & -> & Hs & Hr & Hg).
        eapply gs_const; [exact Hs| |exact Hg]. apply idle_sres in Hr; [exact Hr|]. apply set_type_idle, Hi.
      + intros H. inversion H; subst; try discriminate. eexists. eexists. split; [reflexivity|].
        eexists. eexists. eexists. eexists. eexists. split; [reflexivity|]. split; [eassumption|]. split; [|eassumption].
        apply idle_sres; [apply set_type_idle, Hi|]. assumption. }
  destruct (str_eqb i id_export && is_mjs_compatible (as_type s)) eqn:E2.
  { apply andb_prop in E2 as [E2 E2']. apply str_eqb_eq in E2. subst i. eapply root_go.
    - intros load. rewrite Hpush. unfold cx_root_parse, root_parse. cbn [rs_status rs_new_line rs_state]. rewrite E2'. reflexivity.
    - apply set_type_idle, Hi.
    - intros. cbn. split.
      + intros (toks' & -> & H). apply gs_export; [exact E2'|]. apply idle_module_lang in H; [exact H|]. apply set_type_idle, Hi.
      + intros H. inversion H; subst.
        * eexists. split; [reflexivity|]. apply idle_module_lang; [apply set_type_idle, Hi|]. assumption.
        * change is_mjs_compatible with may_be_mjs in E2'. cbn in *. congruence. }
  destruct (str_eqb i id_module && is_cjs_compatible (as_type s)) eqn:E3.
  { apply andb_prop in E3 as [E3 E3']. apply str_eqb_eq in E3. subst i. eapply root_go.
    - intros load. rewrite Hpush. unfold cx_root_parse, root_parse. cbn [rs_status rs_new_line rs_state]. rewrite E3'. reflexivity.
    - apply set_type_idle, Hi.
    - intros. cbn. split.
      + intros (toks' & -> & H). apply gs_exports; [exact E3'|]. apply idle_module_lang in H; [exact H|]. apply set_type_idle, Hi.
      + intros H. inversion H; subst.
        * eexists. split; [reflexivity|]. apply idle_module_lang; [apply set_type_idle, Hi|]. assumption.
        * change is_cjs_compatible with may_be_cjs in E3'. cbn in *. congruence. }
  destruct (str_eqb i id_import && is_mjs_compatible (as_type s)) eqn:E4.
  { apply andb_prop in E4 as [E4 E4']. apply str_eqb_eq in E4. subst i. eapply root_go.
    - intros load. rewrite Hpush. unfold cx_root_parse, root_parse. cbn [rs_status rs_new_line rs_state]. rewrite E4'. reflexivity.
    - apply set_type_idle, Hi.
    - intros. cbn. split.
      + intros (k & m & v & rest & -> & Hm & Hg). eapply gs_import; eassumption.
      + intros H. inversion H; subst.
        * eexists. eexists. eexists. eexists. split; [reflexivity|]. split; eassumption.
        * change is_mjs_compatible with may_be_mjs in E4'. cbn in *. congruence. }
  apply Hval.
  - cbn [opens_statement]. apply str_eqb_neq in E1.
    destruct (list_eq_dec Z.eq_dec i (txt "const")) as [->|]; [exfalso; apply E1; reflexivity|].
    destruct (list_eq_dec Z.eq_dec i (txt "export")) as [->|].
    { unfold id_export in E2. rewrite str_eqb_refl in E2. exact E2. }
    destruct (list_eq_dec Z.eq_dec i (txt "import")) as [->|].
    { unfold id_import in E4. rewrite str_eqb_refl in E4. exact E4. }
    destruct (list_eq_dec Z.eq_dec i (txt "module")) as [->|].
    { unfold id_module in E3. rewrite str_eqb_refl in E3. exact E3. }
    reflexivity.
  - cbn [root_parse rs_status rs_new_line rs_state]. rewrite E1, E2, E3, E4. reflexivity.
Qed.

Lemma root_case r c tok :
  idle (rs_state r) -> plain_step (PRoot r) c tok \/ load_step (PRoot r) c tok.
Proof.
  intros Hi. destruct (rs_status r) as [| | | | | |k| |k|k] eqn:Eq; [left; apply root_initial_case; assumption|..];
    destruct r as [q s nl]; cbn in Hi, Eq; subst q;
    match goal with |- plain_step (PRoot ?r) _ _ \/ _ => set (R := r) end;
    assert (Hp : forall load, cx_push load (PRoot R) c tok = cx_root_parse load R c tok) by (intros; apply push_root).
  - (* export *)
    left. assert (Hb : (forall i, tok = TId i -> i <> txt "default") -> (forall load, cx_root_parse load R c tok = Ok (PError WrongExportStatement, cx_set_next c (cx_next c))) ->
      plain_step (PRoot R) c tok).
    { intros H1 H2. apply root_bad with WrongExportStatement; [intros; rewrite Hp; apply H2|].
      cbn. intros toks d' t' (toks' & [= -> ->] & _). exact (H1 _ eq_refl eq_refl). }
    assert (Hsame : forall load, cx_root_parse load R c tok = let! (ji, n') := root_parse R (cx_next c) tok in
       let c1 := cx_set_next c n' in let '(j, import) := ji in match import with None => Ok (j, c1) | Some (id, m) => match j with PRoot r' => let! (c2, res) := load c1 m in Ok (match res with inl a => root QInitial (set_consts (rs_state r') (bt_insert (as_consts (rs_state r')) id a)) false | inr e => PError e end, c2) | _ => Panic end end) by reflexivity.
    destruct tok; try (apply Hb; [discriminate|intros; reflexivity]).
    destruct (str_eqb s0 id_default) eqn:E.
    + apply str_eqb_eq in E. subst s0. exists (PModule s), (cx_next c). split; [intros; rewrite Hp; reflexivity|].
      split; [apply idle_wf, Hi|]. intros. cbn. split; [eauto|]. intros (toks' & [= ->] & H). exact H.
    + apply Hb; [intros i [= <-]; apply str_eqb_neq, E|]. intros. rewrite Hsame. cbn [root_parse R rs_status]. rewrite E.
      reflexivity.
  - (* module *)
    left. assert (Hb : tok <> TDot -> (forall load, cx_root_parse load R c tok = Ok (PError WrongExportStatement, cx_set_next c (cx_next c))) ->
      plain_step (PRoot R) c tok).
    { intros H1 H2. apply root_bad with WrongExportStatement; [intros; rewrite Hp; apply H2|].
      cbn. intros toks d' t' (toks' & [= -> ->] & _). congruence. }
    destruct tok; try (apply Hb; [discriminate|intros; reflexivity]).
    eapply root_go; [intros; rewrite Hp; reflexivity|exact Hi|].
    intros. cbn. split; [intros (toks' & -> & H); eauto|]. intros (toks' & [= ->] & H). eauto.
  - (* module . *)
    left. assert (Hb : (forall i, tok = TId i -> i <> txt "exports") -> (forall load, cx_root_parse load R c tok = Ok (PError WrongExportStatement, cx_set_next c (cx_next c))) ->
      plain_step (PRoot R) c tok).
    { intros H1 H2. apply root_bad with WrongExportStatement; [intros; rewrite Hp; apply H2|].
      cbn. intros toks d' t' (toks' & [= -> ->] & _). exact (H1 _ eq_refl eq_refl). }
    destruct tok; try (apply Hb; [discriminate|intros; reflexivity]).
    destruct (str_eqb s0 id_exports) eqn:E.
    + apply str_eqb_eq in E. subst s0. eapply root_go; [intros; rewrite Hp; reflexivity|exact Hi|].
      intros. cbn. split; [intros (toks' & -> & H); eauto|]. intros (toks' & [= ->] & H). eauto.
    + apply Hb; [intros i [= <-]; apply str_eqb_neq, E|]. intros. unfold cx_root_parse, root_parse. cbn [R rs_status]. rewrite E.
      reflexivity.
  - (* module . exports *)
    left. assert (Hb : tok <> TEquals -> (forall load, cx_root_parse load R c tok = Ok (PError WrongExportStatement, cx_set_next c (cx_next c))) ->
      plain_step (PRoot R) c tok).
    { intros H1 H2. apply root_bad with WrongExportStatement; [intros; rewrite Hp; apply H2|].
      cbn. intros toks d' t' (toks' & [= -> ->] & _). congruence. }
    destruct tok; try (apply Hb; [discriminate|intros; reflexivity]).
    exists (PModule s), (cx_next c). split; [intros; rewrite Hp; reflexivity|].
    split; [apply idle_wf, Hi|]. intros. cbn. split; [eauto|]. intros (toks' & [= ->] & H). exact H.
  - (* const *)
    left. assert (Hb : (forall i, tok <> TId i) -> (forall load, cx_root_parse load R c tok = Ok (PError WrongConstStatement, cx_set_next c (cx_next c))) ->
      plain_step (PRoot R) c tok).
    { intros H1 H2. apply root_bad with WrongConstStatement; [intros; rewrite Hp; apply H2|].
      cbn. intros toks d' t' (k & toks' & [= -> ->] & _). exact (H1 _ eq_refl). }
    destruct tok; try (apply Hb; [discriminate|intros; reflexivity]).
    eapply root_go; [intros; rewrite Hp; reflexivity|exact Hi|].
    intros. cbn. split; [intros (toks' & -> & H); eauto|]. intros (k & toks' & [= -> ->] & H). eauto.
  - (* const k *)
    left. assert (Hb : tok <> TEquals -> (forall load, cx_root_parse load R c tok = Ok (PError WrongConstStatement, cx_set_next c (cx_next c))) ->
      plain_step (PRoot R) c tok).
    { intros H1 H2. apply root_bad with WrongConstStatement; [intros; rewrite Hp; apply H2|].
      cbn. intros toks d' t' (toks' & [= -> ->] & _). congruence. }
    destruct tok; try (apply Hb; [discriminate|intros; reflexivity]).
    exists (PConst k s), (cx_next c). split; [intros; rewrite Hp; reflexivity|].
    split; [apply idle_wf, Hi|]. intros. cbn. split; [eauto|]. intros (toks' & [= ->] & H). exact H.
  - (* import *)
    left. assert (Hb : (forall i, tok <> TId i) -> (forall load, cx_root_parse load R c tok = Ok (PError WrongImportStatement, cx_set_next c (cx_next c))) ->
      plain_step (PRoot R) c tok).
    { intros H1 H2. apply root_bad with WrongImportStatement; [intros; rewrite Hp; apply H2|].
      cbn. intros toks d' t' (k & m & v & rest & [= -> ->] & _). exact (H1 _ eq_refl). }
    destruct tok; try (apply Hb; [discriminate|intros; reflexivity]).
    eapply root_go; [intros; rewrite Hp; reflexivity|exact Hi|].
    intros. cbn. split; [intros (m & v & rest & -> & H); eauto 8|]. intros (k & m & v & rest & [= -> ->] & H). eauto 8.
  - (* import k *)
    left. assert (Hb : (forall i, tok = TId i -> i <> txt "from") -> (forall load, cx_root_parse load R c tok = Ok (PError WrongImportStatement, cx_set_next c (cx_next c))) ->
      plain_step (PRoot R) c tok).
    { intros H1 H2. apply root_bad with WrongImportStatement; [intros; rewrite Hp; apply H2|].
      cbn. intros toks d' t' (m & v & rest & [= -> ->] & _). exact (H1 _ eq_refl eq_refl). }
    destruct tok; try (apply Hb; [discriminate|intros; reflexivity]).
    destruct (str_eqb s0 id_from) eqn:E.
    + apply str_eqb_eq in E. subst s0. eapply root_go; [intros; rewrite Hp; reflexivity|exact Hi|].
      intros. cbn. split; [intros (m & v & rest & -> & H); eauto 8|]. intros (m & v & rest & [= ->] & H). eauto 8.
    + apply Hb; [intros i [= <-]; apply str_eqb_neq, E|]. intros. unfold cx_root_parse, root_parse. cbn [R rs_status]. rewrite E.
      reflexivity.
  - (* import k from *)
    assert (Hb : (forall i, tok <> TString i) -> (forall load, cx_root_parse load R c tok = Ok (PError WrongImportStatement, cx_set_next c (cx_next c))) ->
      plain_step (PRoot R) c tok).
    { intros H1 H2. apply root_bad with WrongImportStatement; [intros; rewrite Hp; apply H2|].
      cbn. intros toks d' t' (m & v & rest & [= -> ->] & _). exact (H1 _ eq_refl). }
    destruct tok; try (left; apply Hb; [discriminate|intros; reflexivity]).
    right. exists s0, (fun a => root QInitial (set_consts s (bt_insert (as_consts s) k a)) false), (cx_next c).
    exists (fun t toks d' t' => gmodule mods ((k, t) :: env_of (as_consts s)) (as_type s) false toks d' t').
    split; [reflexivity|]. split; [intros; rewrite Hp; reflexivity|]. split; [intros; exact Hi|]. split.
    + intros a toks d' t'. cbn.
      split; apply gmodule_env; [apply env_of_insert|apply env_eq_sym, env_of_insert].
    + intros. cbn. split.
      * intros (m & v & rest & [= <- ->] & Hm & Hg). eauto.
      * intros (t & Hm & Hg). eauto 8.
Qed.

Lemma push_cases j c tok :
  jwf j -> plain_step j c tok \/ load_step j c tok \/ panic_step j c tok.
Proof.
  intros Hw. destruct j as [r|k s|s|d v|e].
  - destruct (root_case r c tok Hw); auto.
  - assert (tok = TNewLine \/ tok <> TNewLine) as [->|Hn] by (destruct tok; (left; congruence) || (right; congruence)).
    + left. exists (PConst k s), (cx_next c). rewrite <- cx_same. split; [reflexivity|]. split; [exact Hw|].
      intros. cbn. symmetry. apply const_lang_newline, Hw.
    + assert (tok = TSemicolon \/ tok <> TSemicolon) as [->|Hsc] by (destruct tok; (left; congruence) || (right; congruence)).
      * right. right. split; [reflexivity|]. split; [eauto|]. split; [reflexivity|]. intros toks d' t' H. cbn in H.
        apply const_lang_tok in H as (a & b & v & d1 & rest & _ & _ & (a' & _ & Hr) & _); [|discriminate].
        exact (res_scalarless _ _ _ _ _ Hw eq_refl Hr).
      * destruct (const_case k s c tok Hw Hn Hsc); auto.
  - assert (tok = TNewLine \/ tok <> TNewLine) as [->|Hn] by (destruct tok; (left; congruence) || (right; congruence)).
    + left. exists (PModule s), (cx_next c). rewrite <- cx_same. split; [reflexivity|]. split; [exact Hw|].
      intros. cbn. symmetry. apply module_lang_newline, Hw.
    + destruct (module_case s c tok Hw Hn); auto.
  - left. assert (tok = TNewLine \/ tok <> TNewLine) as [->|Hn] by (destruct tok; (left; congruence) || (right; congruence)).
    + exists (PResult d v), (cx_next c). rewrite <- cx_same. split; [reflexivity|]. split; [exact I|].
      intros. cbn. split.
      * intros (n & -> & H). exists (S n). auto.
      * intros (n & Heq & H). destruct n as [|n]; [discriminate|]. injection Heq as ->. eauto.
    + exists (PError UnexpectedToken), (cx_next c). rewrite <- cx_same. split; [destruct tok; congruence || reflexivity|].
      split; [exact I|]. intros. cbn. split; [tauto|]. intros (n & Heq & _). destruct n; [discriminate|].
      injection Heq as -> _. congruence.
  - left. exists (PError e), (cx_next c). rewrite <- cx_same. split; [destruct tok; reflexivity|]. split; [exact I|].
    intros. cbn. tauto.
Qed.

(** At the end of the tokens. *)
Lemma jres_nil j d' t' : jwf j -> jres j [] d' t' <-> exists v, json_end j = inl (d', v) /\ t' = erase v.
Proof.
  intros Hw. destruct j as [r|k s|s|d v|e]; cbn.
  - split; [|intros (v & [=] & _)]. unfold root_lang.
    destruct (rs_status r); try (intros H; decompose [ex and] H; discriminate).
    intros H. inversion H.
  - split; [|intros (v & [=] & _)]. intros (a & b & v & d1 & rest & Heq & Hs & Hr & Hg).
    destruct b; [|discriminate]. apply spread_nil_r in Hs. subst. exfalso. exact (res_nonempty _ _ _ Hr).
  - split; [|intros (v & [=] & _)]. intros (a & b & n & Heq & Hs & Hr).
    destruct b; [|discriminate]. apply spread_nil_r in Hs. subst. exfalso. exact (res_nonempty _ _ _ Hr).
  - split.
    + intros (n & _ & -> & ->). eauto.
    + intros (v' & [= -> ->] & ->). exists O. auto.
  - split; [tauto|]. intros (v & [=] & _).
Qed.
End Json.
