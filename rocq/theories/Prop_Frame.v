(** C96: only the files that are read matter.  C97: the memory of a parse. *)
From Coq Require Import ZArith List Bool String Lia Relation_Operators Operators_Properties.
From Verif Require Import Outcome VTac RangeMapModel TokenizerModel TokenizerSpec TokenizerProofs TokenizerRun ValueModel ParserModel ParserSpec BTreeProofs ParserProofs ParserModules ParserMore SerializerModel SerializerSpec ParserHeap Prop_Parser Prop_Serializer Prop_Convert Prop_Errors.
Import ListNotations.
Open Scope Z_scope.

(** * C96 *)

Lemma set_next_id c : cx_set_next c (cx_next c) = c.
Proof. destruct c; reflexivity. Qed.

(** A token does not use the loader, or asks it once. *)
Definition one_load (load : loader) (c c' : context) (same : loader -> Prop) : Prop :=
  (exists n, c' = cx_set_next c n /\ forall load', same load') \/
  (exists n m r, load (cx_set_next c n) m = Ok (c', r) /\ forall load', load' (cx_set_next c n) m = Ok (c', r) -> same load').

Lemma one_load_weaken load c c' (P Q : loader -> Prop) : (forall l, P l -> Q l) -> one_load load c c' P -> one_load load c c' Q.
Proof. intros H [(n & E & A)|(n & m & r & E & A)]; [left; eauto|right]. exists n, m, r. eauto. Qed.

Lemma any_load load s c t r c' : cx_any_parse load s c t = Ok (r, c') ->
  one_load load c c' (fun load' => cx_any_parse load' s c t = Ok (r, c')).
Proof.
  unfold cx_any_parse. intros H.
  assert (G : (let! (r0, n') := any_parse_common s (cx_next c) t in Ok (r0, cx_set_next c n')) = Ok (r, c') -> exists n, c' = cx_set_next c n).
  { destruct (any_parse_common s (cx_next c) t) as [[r' n']| |]; cbn [obind]; try discriminate. intros [= _ <-]. eauto. }
  destruct (as_status s); try (left; destruct (G H) as [n E]; exists n; auto; fail). clear G.
  destruct t; try (left; exists (cx_next c); rewrite set_next_id; split; [congruence|auto]; fail).
  destruct (load c s0) as [[c1 x]| |] eqn:El; cbn [obind] in H; try discriminate. right. exists (cx_next c), s0, x. rewrite set_next_id.
  split; [congruence|]. intros load' ->. cbn [obind]. congruence.
Qed.

Lemma push_load load j c t j' c' : cx_push load j c t = Ok (j', c') -> one_load load c c' (fun load' => cx_push load' j c t = Ok (j', c')).
Proof.
  intros H.
  assert (R : forall r, cx_root_parse load r c t = Ok (j', c') -> one_load load c c' (fun load' => cx_root_parse load' r c t = Ok (j', c'))).
  { intros r Hr. unfold cx_root_parse in *. destruct (root_parse r (cx_next c) t) as [[[j1 im] n1]| |]; cbn [obind] in *; try discriminate.
    destruct im as [[id m]|]; [|left; exists n1; split; [congruence|auto]]. destruct j1; try discriminate.
    destruct (load (cx_set_next c n1) m) as [[c2 x]| |] eqn:El; cbn [obind] in Hr; try discriminate. right. exists n1, m, x.
    split; [congruence|]. intros load' ->. cbn [obind]. congruence. }
  assert (C : forall k s, cx_const_parse load k s c t = Ok (j', c') -> one_load load c c' (fun load' => cx_const_parse load' k s c t = Ok (j', c'))).
  { intros k s Hc. assert (Hs : t <> TSemicolon) by (intros ->; discriminate).
    assert (E : forall l, cx_const_parse l k s c t = let! (r, c'0) := cx_any_parse l s c t in Ok (const_result k r, c'0)) by (intros l; destruct t; reflexivity || congruence).
    rewrite E in Hc. destruct (cx_any_parse load s c t) as [[x c1]| |] eqn:Ex; cbn [obind] in Hc; try discriminate. injection Hc as <- <-.
    eapply one_load_weaken; [|apply (any_load _ _ _ _ _ _ Ex)]. cbn beta. intros l Hl. rewrite E, Hl. reflexivity. }
  assert (D : forall s, cx_module_parse load s c t = Ok (j', c') -> one_load load c c' (fun load' => cx_module_parse load' s c t = Ok (j', c'))).
  { intros s Hc. unfold cx_module_parse in Hc. destruct (cx_any_parse load s c t) as [[x c1]| |] eqn:Ex; cbn [obind] in Hc; try discriminate. injection Hc as <- <-.
    eapply one_load_weaken; [|apply (any_load _ _ _ _ _ _ Ex)]. cbn beta. intros l Hl. unfold cx_module_parse. rewrite Hl. reflexivity. }
  assert (N : forall x, Ok (x, c) = Ok (j', c') -> one_load load c c' (fun _ => Ok (x, c) = Ok (j', c'))).
  { intros x E. left. exists (cx_next c). rewrite set_next_id. split; [congruence|auto]. }
  unfold cx_push in *. destruct j as [r|k s|s|d v|e]; destruct t; auto.
Qed.

(** What is logged stays logged. *)
Definition grows (c c' : context) : Prop := exists l, cx_log c' = cx_log c ++ l.
Lemma grows_refl c c' : cx_log c' = cx_log c -> grows c c'.
Proof. intros E. exists []. rewrite app_nil_r. exact E. Qed.
Lemma grows_trans a b c : grows a b -> grows b c -> grows a c.
Proof. intros [l E] [l' E']. exists (l ++ l'). rewrite E', E, app_assoc. reflexivity. Qed.
Lemma grows_in c c' p : grows c c' -> In p (cx_log c) -> In p (cx_log c').
Proof. intros [l ->] H. apply in_or_app. auto. Qed.

Lemma push_all_grows (load : loader) : (forall c m c' r, load c m = Ok (c', r) -> grows c c') ->
  forall ts j c j' c', push_all load j c ts = Ok (j', c') -> grows c c'.
Proof.
  intros Hl. induction ts as [|t ts IH]; intros j c j' c' H; cbn [push_all] in H; [injection H as _ <-; apply grows_refl; reflexivity|].
  destruct (cx_push load j c t) as [[j1 c1]| |] eqn:E; cbn [obind] in H; try discriminate.
  eapply grows_trans; [|exact (IH _ _ _ _ H)].
  destruct (push_load _ _ _ _ _ _ E) as [(n & -> & _)|(n & m & r & L & _)]; [apply grows_refl; reflexivity|].
  destruct (Hl _ _ _ _ L) as [l El]. exists l. exact El.
Qed.
Lemma import_grows io tf sub : (forall c ts c' r, sub c ts = Ok (c', r) -> grows c c') ->
  forall c m c' r, import_with io tf sub c m = Ok (c', r) -> grows c c'.
Proof.
  intros Hs c m c' r H. unfold import_with in H. set (p := path_concat _ m) in *.
  destruct (bt_get _ p); [injection H as <- _; apply grows_refl; reflexivity|].
  destruct (bs_contains _ p); [injection H as <- _; apply grows_refl; reflexivity|].
  assert (G : grows c (cx_reading c p)) by (exists [p]; reflexivity).
  destruct (io p) as [text|]; [|injection H as <- _; exact G].
  destruct (tokenize tf text) as [ts| |]; cbn [obind] in H; try discriminate.
  destruct (sub _ ts) as [[c2 x]| |] eqn:E; cbn [obind] in H; try discriminate.
  apply (grows_trans _ _ _ G). apply Hs in E. destruct x as [[d v]|e]; injection H as <- _; exact E.
Qed.
Lemma tokens_grows io tf depth : forall c ts c' r, parse_tokens io tf depth c ts = Ok (c', r) -> grows c c'.
Proof.
  induction depth as [|d IH]; intros c ts c' r H; [discriminate|]. cbn [parse_tokens] in H. unfold parse_tokens_with in H.
  destruct (push_all _ _ c ts) as [[j c1]| |] eqn:E; cbn [obind] in H; try discriminate. injection H as <- _.
  exact (push_all_grows _ (import_grows io tf _ IH) _ _ _ _ _ E).
Qed.

Section Frame.
Variable io io2 : list Z -> option (list Z).
Variable tf : nat.
Let agree (c : context) : Prop := forall p, In p (cx_log c) -> io2 p = io p.

Lemma push_all_frame (load load2 : loader) : (forall c m c' r, load c m = Ok (c', r) -> grows c c') ->
  (forall c m c' r, load c m = Ok (c', r) -> agree c' -> load2 c m = Ok (c', r)) ->
  forall ts j c j' c', push_all load j c ts = Ok (j', c') -> agree c' -> push_all load2 j c ts = Ok (j', c').
Proof.
  intros Hg Hl. induction ts as [|t ts IH]; intros j c j' c' H A; [exact H|]. cbn [push_all] in *.
  destruct (cx_push load j c t) as [[j1 c1]| |] eqn:E; cbn [obind] in H; try discriminate.
  assert (A1 : agree c1) by (intros p Hp; apply A; exact (grows_in _ _ _ (push_all_grows _ Hg _ _ _ _ _ H) Hp)).
  assert (E2 : cx_push load2 j c t = Ok (j1, c1)).
  { destruct (push_load _ _ _ _ _ _ E) as [(n & _ & S)|(n & m & r & L & S)]; [apply S|]. apply S, Hl; assumption. }
  rewrite E2. cbn [obind]. apply IH; assumption.
Qed.

Lemma tokens_frame depth : forall c ts c' r, parse_tokens io tf depth c ts = Ok (c', r) -> agree c' -> parse_tokens io2 tf depth c ts = Ok (c', r).
Proof.
  induction depth as [|d IH]; intros c ts c' r H A; [discriminate|]. cbn [parse_tokens] in *. unfold parse_tokens_with in *.
  destruct (push_all _ _ c ts) as [[j c1]| |] eqn:E in H; cbn [obind] in H; try discriminate. injection H as <- <-.
  rewrite (push_all_frame _ (import_with io2 tf (parse_tokens io2 tf d)) (import_grows io tf _ (tokens_grows io tf d))) with (j' := j) (c' := c1); [reflexivity| |exact E|exact A].
  clear - IH. intros c m c' r H A. pose proof (import_grows io tf _ (tokens_grows io tf d) _ _ _ _ H) as G.
  unfold import_with in *. set (p := path_concat _ m) in *.
  destruct (bt_get _ p); [exact H|]. destruct (bs_contains _ p); [exact H|].
  destruct (io p) as [text|] eqn:Ep.
  - destruct (tokenize tf text) as [ts| |] eqn:Et; cbn [obind] in H; try discriminate.
    destruct (parse_tokens io tf d (cx_reading c p) ts) as [[c2 x]| |] eqn:Es; cbn [obind] in H; try discriminate.
    assert (E2 : cx_log c2 = cx_log c') by (destruct x as [[dt v]|e]; injection H as <- _; reflexivity).
    assert (A2 : agree c2) by (intros q Hq; apply A; rewrite <- E2; exact Hq).
    assert (Hp : In p (cx_log c2)) by (apply (grows_in _ _ _ (tokens_grows io tf d _ _ _ _ Es)); cbn; apply in_or_app; right; left; reflexivity).
    rewrite (A2 p Hp), Ep, Et. cbn [obind]. rewrite (IH _ _ _ _ Es A2). exact H.
  - injection H as <- <-. assert (Hp : In p (cx_log (cx_reading c p))) by (cbn; apply in_or_app; right; left; reflexivity).
    rewrite (A p Hp), Ep. reflexivity.
Qed.
End Frame.

(** Whatever a parse returns, value or error, it is the same with any other files, as long as those
    that were read are the same: nothing else is looked at. *)
Theorem C96_parse : forall io io2 tf depth R n c' r,
  parse io tf depth (fresh R n) = Ok (c', r) -> (forall p, In p (cx_log c') -> io2 p = io p) ->
  parse io2 tf depth (fresh R n) = Ok (c', r).
Proof.
  intros io io2 tf depth R n c' r H A. unfold parse in *. cbn [fresh cx_path] in *.
  destruct (io R) as [text|] eqn:Ei.
  - destruct (tokenize tf text) as [ts| |] eqn:Et; cbn [obind] in H; try discriminate.
    assert (HR : In R (cx_log c')) by (apply (grows_in _ _ _ (tokens_grows io tf depth _ _ _ _ H)); left; reflexivity).
    rewrite (A R HR), Ei, Et. cbn [obind]. exact (tokens_frame io io2 tf depth _ _ _ _ H A).
  - injection H as <- <-. rewrite (A R (or_introl eq_refl)), Ei. reflexivity.
Qed.
Print Assumptions C96_parse.

(** Every file that is read is named by a chain of imports from the root. *)
Section Reads.
Variable io : list Z -> option (list Z).
Variable tf : nat.
Variable R : list Z.
Let ok (c : context) : Prop := cx_path c = R /\ Forall (reached io tf R) (cx_log c).

Lemma push_all_reads (load : loader) all : (forall c m c' r, ok c -> In m all -> load c m = Ok (c', r) -> ok c') ->
  forall ts j c prev j' c', (forall m, In m (uses_from prev ts) -> In m all) -> ok c -> expects j prev ->
  push_all load j c ts = Ok (j', c') -> ok c'.
Proof.
  intros Hl. induction ts as [|t ts IH]; intros j c prev j' c' Hu Hc He H; cbn [push_all] in H; [injection H as <- <-; exact Hc|].
  assert (Hd : (exists e, j = PError e) \/ forall e, j <> PError e) by (destruct j; try (right; discriminate); left; eauto).
  destruct Hd as [[e ->]|Hne].
  { change (push_all load (PError e) c (t :: ts) = Ok (j', c')) in H. rewrite push_all_err in H. injection H as <- <-. exact Hc. }
  destruct (cx_push load j c t) as [[j1 c1]| |] eqn:Ep; cbn [obind] in H; try discriminate.
  destruct (push_kind _ _ _ _ _ _ _ Ep He Hne) as [He1 Ho].
  assert (Hu1 : forall m, In m (uses_from (next_prev prev t) ts) -> In m all).
  { intros m Hm. apply Hu. cbn [uses_from]. destruct t; auto. destruct prev; [exact Hm|right; exact Hm]. }
  refine (IH _ _ _ _ _ Hu1 _ He1 H).
  destruct Ho as [(m & n & r & -> & Hp & Hx & _)|[[n ->] _]]; [|exact Hc].
  apply (Hl (cx_set_next c n) m _ r); [exact Hc| |exact Hx]. apply Hu. cbn [uses_from]. destruct prev; [destruct (Hp eq_refl)|left; reflexivity].
Qed.

Lemma tokens_reads depth : forall p text ts c c' r, io p = Some text -> tokenize tf text = Ok ts -> reached io tf R p -> ok c ->
  parse_tokens io tf depth c ts = Ok (c', r) -> ok c'.
Proof.
  induction depth as [|d IH]; intros p text ts c c' r Hio Hts Hr Hc H; [discriminate|]. cbn [parse_tokens] in H. unfold parse_tokens_with in H.
  destruct (push_all _ _ c ts) as [[j c1]| |] eqn:E; cbn [obind] in H; try discriminate. injection H as <- <-.
  refine (push_all_reads _ (uses ts) _ ts _ c O j c1 (fun _ H => H) Hc _ E); [|split; [reflexivity|discriminate]].
  intros x m x' y Hx Hm Hi. unfold import_with in Hi. rewrite (proj1 Hx) in Hi. set (q := path_concat (fst (path_split R)) m) in *.
  assert (Hq : reached io tf R q) by (eapply rt_trans; [exact Hr|]; apply rt_step; exists text, ts, m; auto).
  destruct (bt_get _ q); [injection Hi as <- _; exact Hx|]. destruct (bs_contains _ q); [injection Hi as <- _; exact Hx|].
  assert (K : ok (cx_reading x q)) by (split; [exact (proj1 Hx)|]; apply Forall_app; split; [exact (proj2 Hx)|constructor; [exact Hq|constructor]]).
  destruct (io q) as [qt|] eqn:Eq; [|injection Hi as <- _; exact K].
  destruct (tokenize tf qt) as [qs| |] eqn:Et; cbn [obind] in Hi; try discriminate.
  destruct (parse_tokens io tf d _ qs) as [[c2 z]| |] eqn:Ez; cbn [obind] in Hi; try discriminate.
  pose proof (IH _ _ _ _ _ _ Eq Et Hq K Ez) as K2. destruct z as [[dt v]|e]; injection Hi as <- _; exact K2.
Qed.
End Reads.

Theorem C96_reads : forall io tf depth R n c' r,
  parse io tf depth (fresh R n) = Ok (c', r) -> forall p, In p (cx_log c') -> reached io tf R p.
Proof.
  intros io tf depth R n c' r H. apply Forall_forall. unfold parse in H. cbn [fresh cx_path] in H.
  assert (K : cx_path (cx_reading (fresh R n) R) = R /\ Forall (reached io tf R) (cx_log (cx_reading (fresh R n) R))) by (split; [reflexivity|constructor; [apply rt_refl|constructor]]).
  destruct (io R) as [text|] eqn:Ei; [|injection H as <- _; apply K].
  destruct (tokenize tf text) as [ts| |] eqn:Et; cbn [obind] in H; try discriminate.
  apply (tokens_reads io tf R depth R text ts _ _ _ Ei Et (rt_refl _ _ _) K H).
Qed.
Print Assumptions C96_reads.

(** The converter: with any other files, as long as those that can be reached from the input by
    imports are the same, it returns the same and writes the same, or writes nothing in both. *)
Theorem C96_run : forall show peek disk tf depth cfuel prog input output rest io io2 e io',
  (forall p, reached io tf input p -> io2 p = io p) ->
  app_run show peek disk tf depth cfuel (prog :: input :: output :: rest) io = Ok (e, io') ->
  exists io2', app_run show peek disk tf depth cfuel (prog :: input :: output :: rest) io2 = Ok (e, io2') /\
    ((io' = io /\ io2' = io2) \/ exists text, io' = fs_put io output text /\ io2' = fs_put io2 output text).
Proof.
  intros * A H. unfold app_run in *. destruct (file_to_data_type output) as [dt|]; [|injection H as <- <-; eauto 6].
  fold (fresh input 0) in *. destruct (parse io tf depth (fresh input 0)) as [[c r]| |] eqn:Ep; cbn [obind] in H; try discriminate.
  rewrite (C96_parse _ io2 _ _ _ _ _ _ Ep) by (intros p Hp; apply A; exact (C96_reads _ _ _ _ _ _ _ Ep p Hp)). cbn [obind].
  destruct r as [[d v]|pe]; [|injection H as <- <-; eauto 6].
  assert (W : forall s, write_out disk io output s = Ok (e, io') ->
    exists io2', write_out disk io2 output s = Ok (e, io2') /\ ((io' = io /\ io2' = io2) \/ exists text, io' = fs_put io output text /\ io2' = fs_put io2 output text)).
  { intros s Hw. unfold write_out in *. destruct (disk output s); injection Hw as <- <-; eauto 8. }
  destruct dt; try discriminate.
  - destruct (to_json show v) as [s| |]; cbn [obind] in *; try discriminate. exact (W _ H).
  - destruct (to_djs show peek cfuel v true) as [s| |]; cbn [obind] in *; try discriminate. exact (W _ H).
  - destruct (to_djs show peek cfuel v false) as [s| |]; cbn [obind] in *; try discriminate. exact (W _ H).
Qed.
Print Assumptions C96_run.

(** Files that no module names are not looked at, even if they could not be read as modules. *)
Example C96_case : let r := ("r", "import a from ""a""
export default [a]")%string in
  let good := files [r; ("a", "[1]"); ("b", "[2]")]%string in
  let bad := files [r; ("b", "import r from ""r""
{{{"); ("a", "[1]")]%string in
  parse good 100 3 (fresh (txt "r") 0) = parse bad 100 3 (fresh (txt "r") 0)
  /\ seen (parse bad 100 3 (fresh (txt "r") 0)) = Ok (inl (Mjs, VArray [VArray [VNumber 0x3FF0000000000000]]), [txt "r"; txt "a"]).
Proof. vmc. Qed.

(** * C97 *)

(** The size of a token: its characters in strings and names. *)
Definition weight (t : token) : Z :=
  match t with TString s => 1 + Z.of_nat (List.length s) | TId s => Z.max 1 (Z.of_nat (List.length s)) | _ => 1 end.
Definition total_weight (ts : list token) : Z := fold_right (fun t n => weight t + n) 0 ts.
Definition held (st : tstate) : Z :=
  match st with
  | Initial => 0
  | ParseId s => Z.max 1 (Z.of_nat (List.length s))
  | ParseString s => 1 + Z.of_nat (List.length s)
  | ParseEscapeChar s | ParseUnicodeChar s _ _ => 2 + Z.of_nat (List.length s)
  | _ => 1
  end.
Lemma held_nonneg st : 0 <= held st.
Proof. destruct st; cbn; lia. Qed.
Lemma weight_app a b : total_weight (a ++ b) = total_weight a + total_weight b.
Proof. unfold total_weight. induction a as [|t a IH]; cbn [app fold_right]; [reflexivity|]. rewrite IH. lia. Qed.

Definition bounded (st : tstate) (o : outcome (list token * tstate)) : Prop :=
  forall toks st', o = Ok (toks, st') -> total_weight toks + held st' <= 1 + held st.

Lemma number_weight fuel b s e t : number_token fuel b s e = Ok t -> weight t = 1.
Proof. unfold number_token. destruct (bigfloat_to_f64 _ _); cbn [obind]; try discriminate. intros [= <-]. reflexivity. Qed.
Lemma exp_weight fuel b s fe es e t : exp_state_into_token fuel b s fe es e = Ok t -> weight t = 1.
Proof. unfold exp_state_into_token. destruct (i64 _); cbn [obind]; try discriminate. apply number_weight. Qed.
Lemma operator_weight s t : operator_to_token s = Some t -> weight t = 1.
Proof.
  unfold operator_to_token. destruct s as [|c [|c2 s]]; try discriminate.
  repeat (match goal with |- context [if ?b then _ else _] => destruct b; [intros [= <-]; reflexivity|] end). discriminate.
Qed.

Lemma unicode_bound s u index i : bounded (ParseUnicodeChar s u index) (unicode_push s u index i).
Proof.
  unfold unicode_push, continue_string_state. cbv zeta. destruct (index =? 3).
  - destruct (from_u32 _); intros a b [= <- <-]; cbn [total_weight fold_right weight held]; try rewrite app_length; cbn [List.length]; lia.
  - destruct ((0 <=? index) && (index <=? 2)); intros a b [= <- <-]. cbn [total_weight fold_right weight held]. lia.
Qed.
Lemma push_bound rec fuel c : bounded Initial (rec Initial c) -> (forall s, bounded (ParseString s) (rec (ParseString s) c)) ->
  forall st, bounded st (push_with rec fuel st c).
Proof.
  intros HI HS st.
  assert (T : forall toks, bounded st (if total_weight toks <=? held st then let! (next, st') := rec Initial c in Ok (toks ++ next, st') else NoFuel)).
  { intros toks. destruct (Z.leb_spec (total_weight toks) (held st)) as [L|L]; [|intros ? ? [=]].
    destruct (rec Initial c) as [[next st1]| |] eqn:E; cbn [obind]; intros a b [= <- <-]. rewrite weight_app. pose proof (HI _ _ eq_refl) as B. cbn [held] in B. lia. }
  assert (TI : forall toks, total_weight toks <= held st -> bounded st (let! (next, st') := rec Initial c in Ok (toks ++ next, st'))).
  { intros toks L. specialize (T toks). apply Z.leb_le in L. rewrite L in T. exact T. }
  assert (TS : forall toks s, total_weight toks + 1 + Z.of_nat (List.length s) <= held st -> bounded st (let! (next, st') := rec (ParseString s) c in Ok (toks ++ next, st'))).
  { intros toks s L. destruct (rec (ParseString s) c) as [[next st1]| |] eqn:E; cbn [obind]; intros a b [= <- <-]. rewrite weight_app. pose proof (HS s _ _ E) as B. cbn [held] in B. lia. }
  assert (OK : forall toks st1, total_weight toks + held st1 <= 1 + held st -> bounded st (Ok (toks, st1))) by (intros toks st1 L a b [= <- <-]; exact L).
  assert (NO : bounded st NoFuel /\ bounded st Panic) by (split; intros ? ? [=]). destruct NO as [NO1 NO2].
  clear T HI HS. pose proof (held_nonneg st) as H0.
  unfold push_with. destruct st; cbn [held] in *;
    match goal with |- bounded _ (obind ?g _) => destruct g as [tr| |]; cbn [obind]; auto end.
  all: try (destruct tr as [[]|]).
  all: try (apply OK; cbn [total_weight fold_right weight held]; try rewrite app_length; cbn [List.length]; lia).
  all: try (apply TI; cbn [total_weight fold_right weight]; lia).
  all: try (apply TS; cbn [total_weight fold_right weight]; lia).
  all: try apply unicode_bound.
  all: try (destruct (add_digit _ _); cbn [obind]; auto; apply OK; cbn [total_weight fold_right weight held]; lia).
  all: try (unfold frac_add_digit; destruct (add_digit _ _); cbn [obind]; auto; destruct (i64 _); cbn [obind]; auto; apply OK; cbn [total_weight fold_right weight held]; lia).
  all: try (unfold exp_add_digit; destruct (i64 _); cbn [obind]; auto; destruct (i64 _); cbn [obind]; auto; apply OK; cbn [total_weight fold_right weight held]; lia).
  all: try (destruct (number_token _ _ _ _) eqn:En; cbn [obind]; auto; apply number_weight in En; apply TI; cbn [total_weight fold_right]; lia).
  all: try (destruct (exp_state_into_token _ _ _ _ _ _) eqn:En; cbn [obind]; auto; apply exp_weight in En; apply TI; cbn [total_weight fold_right]; lia).
  all: assert (OP : bounded (ParseOperator s) (let! tok := unwrap (operator_to_token s) in let! (next, st') := rec Initial c in Ok ([tok] ++ next, st')))
    by (destruct (operator_to_token s) eqn:En; cbn [unwrap obind]; [|exact NO2]; apply operator_weight in En; apply TI; cbn [total_weight fold_right]; lia).
  - destruct (operator_to_token (s ++ [c])); [apply OK; cbn [total_weight fold_right held]; lia|exact OP].
  - exact OP.
Qed.

Lemma push_held fuel st c : bounded st (push fuel st c).
Proof.
  assert (N : forall s, bounded s NoFuel) by (intros s ? ? [=]).
  unfold push. apply push_bound; [|intros s]; apply push_bound; auto.
Qed.
Lemma run_held fuel text : forall st toks st', run fuel st text = Ok (toks, st') -> total_weight toks + held st' <= Z.of_nat (List.length text) + held st.
Proof.
  induction text as [|c text IH]; intros st toks st' H; cbn [run] in H; [injection H as <- <-; cbn; lia|].
  destruct (push fuel st c) as [[a st1]| |] eqn:E; cbn [obind] in H; try discriminate. apply push_held in E.
  unfold prepend in H. destruct (run fuel st1 text) as [[b st2]| |] eqn:Er; cbn [obind] in H; try discriminate. injection H as <- <-.
  apply IH in Er. rewrite weight_app. cbn [List.length]. lia.
Qed.
Lemma tend_held fuel st toks : tend fuel st = Ok toks -> total_weight toks <= held st.
Proof.
  destruct st; cbn [tend held]; try (intros [= <-]; cbn [total_weight fold_right weight]; lia).
  - destruct (number_token _ _ _ _) eqn:En; cbn [obind]; try discriminate. apply number_weight in En. intros [= <-]. cbn [total_weight fold_right]. lia.
  - destruct (number_token _ _ _ _) eqn:En; cbn [obind]; try discriminate. apply number_weight in En. intros [= <-]. cbn [total_weight fold_right]. lia.
  - destruct (exp_state_into_token _ _ _ _ _ _) eqn:En; cbn [obind]; try discriminate. apply exp_weight in En. intros [= <-]. cbn [total_weight fold_right]. lia.
  - destruct (operator_to_token s) eqn:En; cbn [unwrap obind]; [|discriminate]. apply operator_weight in En. intros [= <-]. cbn [total_weight fold_right]. lia.
Qed.

(** The tokens of a text, with the characters of their strings and names, are together no larger
    than the text. *)
Theorem C97_tokens : forall fuel text ts, tokenize fuel text = Ok ts -> total_weight ts <= Z.of_nat (List.length text).
Proof.
  intros fuel text ts H. rewrite tokenize_run in H. unfold finish in H.
  destruct (run fuel Initial text) as [[a st]| |] eqn:Er; cbn [obind] in H; try discriminate.
  destruct (tend fuel st) as [e| |] eqn:Ee; cbn [obind] in H; try discriminate. injection H as <-.
  apply run_held in Er. apply tend_held in Ee. rewrite weight_app. cbn [held] in Er. lia.
Qed.
Print Assumptions C97_tokens.

Corollary C97_count : forall fuel text ts, tokenize fuel text = Ok ts -> (List.length ts <= List.length text)%nat.
Proof.
  intros fuel text ts H. apply C97_tokens in H. enough (Z.of_nat (List.length ts) <= total_weight ts) by lia. clear H.
  induction ts as [|t ts IH]; cbn [total_weight fold_right List.length]; [lia|]. assert (1 <= weight t) by (destruct t; cbn; lia). unfold total_weight in IH. lia.
Qed.
Print Assumptions C97_count.

(** Blocks: one for each closing bracket at most. *)
Definition closing (t : token) : Z := match t with TArrayEnd | TObjectEnd => 1 | _ => 0 end.
Definition closings (ts : list token) : Z := fold_right (fun t n => closing t + n) 0 ts.
Definition step1 (n n' : Z) (t : token) : Prop := n <= n' <= n + closing t.

Lemma common_next s n t r n' : any_parse_common s n t = Ok (r, n') -> step1 n n' t.
Proof.
  assert (S0 : step1 n n t) by (unfold step1; destruct t; cbn; lia).
  assert (P : forall o, opure n o = Ok (r, n') -> step1 n n' t) by (intros o; unfold opure; destruct o; cbn [obind]; try discriminate; intros [= _ <-]; exact S0).
  assert (PU : forall o, pure n o = Ok (r, n') -> step1 n n' t) by (intros o [= _ <-]; exact S0).
  assert (EA : closing t = 1 -> end_array s n = Ok (r, n') -> step1 n n' t).
  { intros E. unfold end_array, opure. destruct (as_current s) as [|[|]|]; try discriminate. destruct (push_value _ _); cbn [obind]; try discriminate. intros [= _ <-]. unfold step1. lia. }
  assert (EO : closing t = 1 -> end_object s n = Ok (r, n') -> step1 n n' t).
  { intros E. unfold end_object, opure. destruct (as_current s) as [|[|]|]; try discriminate. destruct (push_value _ _); cbn [obind]; try discriminate. intros [= _ <-]. unfold step1. lia. }
  unfold any_parse_common. destruct (as_status s); try exact (P _); try exact (PU _).
  - unfold parse_array_begin. destruct t; try exact (P _); try exact (PU _). exact (EA eq_refl).
  - unfold parse_array_value. destruct t; try exact (P _); try exact (PU _). exact (EA eq_refl).
  - unfold parse_array_comma. destruct t; try exact (P _); try exact (PU _); try exact (EA eq_refl). destruct (_ && _); [exact (PU _)|exact (P _)].
  - unfold parse_object_begin. destruct t; try exact (P _); try exact (PU _). exact (EO eq_refl).
  - unfold parse_object_next. destruct t; try exact (P _); try exact (PU _). exact (EO eq_refl).
  - unfold parse_object_comma. destruct t; try exact (P _); try exact (PU _). exact (EO eq_refl).
  - discriminate.
Qed.
Lemma any_next s n t r m n' : any_parse s n t = Ok (r, m, n') -> step1 n n' t.
Proof.
  unfold any_parse. assert (S0 : step1 n n t) by (unfold step1; destruct t; cbn; lia).
  assert (G : (let! (r0, n'0) := any_parse_common s n t in Ok (r0, None, n'0)) = Ok (r, m, n') -> step1 n n' t).
  { destruct (any_parse_common s n t) as [[x k]| |] eqn:E; cbn [obind]; try discriminate. intros [= _ _ <-]. exact (common_next _ _ _ _ _ E). }
  destruct (as_status s); try exact G. destruct (parse_import_value s t). intros [= _ _ <-]. exact S0.
Qed.
Lemma root_next r n t x n' : root_parse r n t = Ok (x, n') -> step1 n n' t.
Proof.
  assert (S0 : step1 n n t) by (unfold step1; destruct t; cbn; lia).
  assert (V : (let! (jm, k) := parse_for_module (rs_state r) n t in Ok (fst jm, None, k)) = Ok (x, n') -> step1 n n' t).
  { unfold parse_for_module. destruct (any_parse (rs_state r) n t) as [[[y m] k]| |] eqn:E; cbn [obind]; try discriminate. apply any_next in E.
    destruct m as [m|]; [destruct y; try discriminate|]; cbn [obind]; intros [= _ <-]; exact E. }
  assert (G : forall y, Ok (y, n) = Ok (x, n') -> step1 n n' t) by (intros y [= _ <-]; exact S0).
  unfold root_parse. destruct (rs_status r).
  - destruct t; try exact (G _); (destruct (rs_new_line r); [|exact (G _)]); try exact V.
    destruct (str_eqb s id_const); [exact (G _)|]. destruct (_ && _); [exact (G _)|]. destruct (_ && _); [exact (G _)|]. destruct (_ && _); [exact (G _)|exact V].
  - destruct t; try exact (G _). destruct (str_eqb _ _); exact (G _).
  - destruct t; exact (G _).
  - destruct t; try exact (G _). destruct (str_eqb _ _); exact (G _).
  - destruct t; exact (G _).
  - destruct t; exact (G _).
  - destruct t; exact (G _).
  - destruct t; exact (G _).
  - destruct t; try exact (G _). destruct (str_eqb _ _); exact (G _).
  - destruct t; exact (G _).
Qed.

Lemma push_next load j c t j' c' : cx_push load j c t = Ok (j', c') ->
  exists n, step1 (cx_next c) n t /\ (c' = cx_set_next c n \/ exists m r, load (cx_set_next c n) m = Ok (c', r)).
Proof.
  intros H. assert (S0 : step1 (cx_next c) (cx_next c) t) by (unfold step1; destruct t; cbn; lia).
  assert (N : forall x : json_state, Ok (x, c) = Ok (j', c') -> exists n, step1 (cx_next c) n t /\ (c' = cx_set_next c n \/ exists m r, load (cx_set_next c n) m = Ok (c', r))).
  { intros x [= _ <-]. exists (cx_next c). split; [exact S0|]. left. symmetry. apply set_next_id. }
  assert (R : forall r, cx_root_parse load r c t = Ok (j', c') -> exists n, step1 (cx_next c) n t /\ (c' = cx_set_next c n \/ exists m r, load (cx_set_next c n) m = Ok (c', r))).
  { intros r Hr. unfold cx_root_parse in Hr. destruct (root_parse r (cx_next c) t) as [[[j1 im] n1]| |] eqn:Er; cbn [obind] in Hr; try discriminate.
    apply root_next in Er. exists n1. split; [exact Er|]. destruct im as [[id m]|]; [|left; congruence]. destruct j1; try discriminate.
    destruct (load (cx_set_next c n1) m) as [[c2 x]| |] eqn:El; cbn [obind] in Hr; try discriminate. injection Hr as _ <-. right. eauto. }
  assert (A : forall s x c1, cx_any_parse load s c t = Ok (x, c1) -> exists n, step1 (cx_next c) n t /\ (c1 = cx_set_next c n \/ exists m r, load (cx_set_next c n) m = Ok (c1, r))).
  { intros s x c1 Hx. unfold cx_any_parse in Hx.
    assert (G : (let! (r0, n') := any_parse_common s (cx_next c) t in Ok (r0, cx_set_next c n')) = Ok (x, c1) -> exists n, step1 (cx_next c) n t /\ c1 = cx_set_next c n).
    { destruct (any_parse_common s (cx_next c) t) as [[r' n']| |] eqn:E; cbn [obind]; try discriminate. intros [= _ <-]. apply common_next in E. eauto. }
    destruct (as_status s); try (destruct (G Hx) as (n & ? & ?); eauto; fail). clear G. exists (cx_next c). split; [exact S0|]. rewrite set_next_id.
    destruct t; try (left; congruence).
    destruct (load c s0) as [[c2 y]| |] eqn:El; cbn [obind] in Hx; try discriminate. right. exists s0, y. congruence. }
  assert (C : forall k s, cx_const_parse load k s c t = Ok (j', c') -> exists n, step1 (cx_next c) n t /\ (c' = cx_set_next c n \/ exists m r, load (cx_set_next c n) m = Ok (c', r))).
  { intros k s Hc. assert (Hc' : (let! (r, c'0) := cx_any_parse load s c t in Ok (const_result k r, c'0)) = Ok (j', c')) by (unfold cx_const_parse in Hc; destruct t; try exact Hc; discriminate).
    destruct (cx_any_parse load s c t) as [[x c1]| |] eqn:Ex; cbn [obind] in Hc'; try discriminate. injection Hc' as _ <-. exact (A _ _ _ Ex). }
  assert (D : forall s, cx_module_parse load s c t = Ok (j', c') -> exists n, step1 (cx_next c) n t /\ (c' = cx_set_next c n \/ exists m r, load (cx_set_next c n) m = Ok (c', r))).
  { intros s Hc. unfold cx_module_parse in Hc. destruct (cx_any_parse load s c t) as [[x c1]| |] eqn:Ex; cbn [obind] in Hc; try discriminate. injection Hc as _ <-. exact (A _ _ _ Ex). }
  unfold cx_push in H. destruct j as [r|k s|s|d v|e]; destruct t; eauto.
Qed.

(** The size of a file, and of several. *)
Definition file_size (io : list Z -> option (list Z)) (p : list Z) : Z := match io p with Some text => Z.of_nat (List.length text) | None => 0 end.
Definition files_size io (l : list (list Z)) : Z := fold_right (fun p n => file_size io p + n) 0 l.
Lemma files_size_app io a b : files_size io (a ++ b) = files_size io a + files_size io b.
Proof. unfold files_size. induction a as [|p a IH]; cbn [app fold_right]; [reflexivity|]. rewrite IH. lia. Qed.
Lemma files_size_nonneg io l : 0 <= files_size io l.
Proof. unfold files_size. induction l as [|p l IH]; cbn [fold_right]; [lia|]. unfold file_size at 1. destruct (io p); lia. Qed.
Lemma closings_size fuel text ts : tokenize fuel text = Ok ts -> 0 <= closings ts <= Z.of_nat (List.length text).
Proof.
  intros H. apply C97_tokens in H. enough (0 <= closings ts <= total_weight ts) by lia. clear H.
  unfold closings, total_weight. induction ts as [|t ts IH]; cbn [fold_right]; [lia|]. assert (0 <= closing t <= weight t) by (destruct t; cbn; lia). lia.
Qed.

Section Blocks.
Variable io : list Z -> option (list Z).
Variable tf : nat.
Definition made (k : Z) (c c' : context) : Prop :=
  exists l, cx_log c' = cx_log c ++ l /\ cx_next c <= cx_next c' <= cx_next c + k + files_size io l.

Lemma made_all (load : loader) : (forall c m c' r, load c m = Ok (c', r) -> made 0 c c') ->
  forall ts j c j' c', push_all load j c ts = Ok (j', c') -> made (closings ts) c c'.
Proof.
  intros Hl. induction ts as [|t ts IH]; intros j c j' c' H; cbn [push_all] in H.
  { injection H as _ <-. exists []. rewrite app_nil_r. split; [reflexivity|]. cbn. lia. }
  destruct (cx_push load j c t) as [[j1 c1]| |] eqn:E; cbn [obind] in H; try discriminate.
  destruct (IH _ _ _ _ H) as (l2 & L2 & B2). change (closings (t :: ts)) with (closing t + closings ts).
  apply push_next in E. destruct E as (n & S1 & [->|(m & r & L)]).
  - exists l2. split; [exact L2|]. cbn [cx_set_next cx_next] in B2. unfold step1 in S1. lia.
  - destruct (Hl _ _ _ _ L) as (l1 & L1 & B1). cbn [cx_set_next cx_log cx_next] in L1, B1. exists (l1 ++ l2).
    rewrite L2, L1, app_assoc. split; [reflexivity|]. rewrite files_size_app. unfold step1 in S1. lia.
Qed.
Lemma made_tokens depth : forall c ts c' r, parse_tokens io tf depth c ts = Ok (c', r) -> made (closings ts) c c'.
Proof.
  induction depth as [|d IH]; intros c ts c' r H; [discriminate|]. cbn [parse_tokens] in H. unfold parse_tokens_with in H.
  destruct (push_all _ _ c ts) as [[j c1]| |] eqn:E; cbn [obind] in H; try discriminate. injection H as <- _.
  refine (made_all _ _ _ _ _ _ _ E). clear - IH. intros c m c' r H. unfold import_with in H. set (p := path_concat _ m) in *.
  assert (M0 : made 0 c c) by (exists []; rewrite app_nil_r; split; [reflexivity|cbn; lia]).
  destruct (bt_get _ p); [injection H as <- _; exact M0|]. destruct (bs_contains _ p); [injection H as <- _; exact M0|].
  destruct (io p) as [text|] eqn:Ep.
  - destruct (tokenize tf text) as [ts| |] eqn:Et; cbn [obind] in H; try discriminate. apply closings_size in Et.
    destruct (parse_tokens io tf d (cx_reading c p) ts) as [[c2 x]| |] eqn:Es; cbn [obind] in H; try discriminate.
    destruct (IH _ _ _ _ Es) as (l & L & B). cbn [cx_reading cx_log cx_next] in L, B.
    assert (E2 : cx_log c' = cx_log c2 /\ cx_next c' = cx_next c2) by (destruct x as [[dt v]|e]; injection H as <- _; split; reflexivity).
    destruct E2 as [E2 E3]. exists (p :: l). rewrite E2, E3, L, <- app_assoc. split; [reflexivity|].
    change (files_size io (p :: l)) with (file_size io p + files_size io l). unfold file_size. rewrite Ep. lia.
  - injection H as <- _. exists [p]. split; [reflexivity|]. cbn. unfold file_size. rewrite Ep. lia.
Qed.
End Blocks.

(** However the modules import each other, and whatever is returned: each file is read at most
    once, and the arrays and objects made are together at most as many as the characters of the
    files read. *)
Theorem C97_blocks : forall io tf depth R n c' r,
  parse io tf depth (fresh R n) = Ok (c', r) ->
  NoDup (cx_log c') /\ n <= cx_next c' <= n + files_size io (cx_log c').
Proof.
  intros io tf depth R n c' r H. split; [exact (C47_once _ _ _ _ _ _ _ H)|]. unfold parse in H. cbn [fresh cx_path] in H.
  destruct (io R) as [text|] eqn:Ei.
  - destruct (tokenize tf text) as [ts| |] eqn:Et; cbn [obind] in H; try discriminate. apply closings_size in Et.
    destruct (made_tokens _ _ _ _ _ _ _ H) as (l & L & B). cbn [cx_reading fresh cx_log cx_next app] in L, B. rewrite L.
    change (files_size io (R :: l)) with (file_size io R + files_size io l). unfold file_size. rewrite Ei. lia.
  - injection H as <- _. cbn. unfold file_size. rewrite Ei. lia.
Qed.
Print Assumptions C97_blocks.

Lemma interval_length (l : list Z) a b : NoDup l -> (forall i, In i l -> a <= i < b) -> a <= b -> Z.of_nat (List.length l) <= b - a.
Proof.
  intros H1 H2 H3. assert (L : (List.length l <= List.length (map (fun k => (a + Z.of_nat k)%Z) (seq 0 (Z.to_nat (b - a)))))%nat).
  { apply NoDup_incl_length; [exact H1|]. intros i Hi. apply H2 in Hi. apply in_map_iff. exists (Z.to_nat (i - a)). split; [lia|]. apply in_seq. lia. }
  rewrite map_length, seq_length in L. lia.
Qed.

(** So a value consists of at most as many different arrays and objects as there are characters in
    the files it was read from, although its unfolding, and its JSON text, can be exponential (C80). *)
Theorem C97_value : forall io tf depth R n c' d v l,
  parse io tf depth (fresh R n) = Ok (c', inl (d, v)) ->
  NoDup l -> (forall i, In i l -> exists b, sub v b /\ ident_of b = Some i) ->
  Z.of_nat (List.length l) <= files_size io (cx_log c').
Proof.
  intros io tf depth R n c' d v l H Hl Hi. destruct (C97_blocks _ _ _ _ _ _ _ H) as [_ B].
  enough (Z.of_nat (List.length l) <= cx_next c' - n) by lia. apply interval_length; [exact Hl| |lia].
  unfold parse in H. cbn [fresh cx_path] in H. destruct (io R) as [text|]; [|discriminate].
  destruct (tokenize tf text) as [ts| |]; cbn [obind] in H; try discriminate.
  assert (H0 : cx_fits (fun _ => ANull) (cx_reading (fresh R n) R)) by constructor.
  destruct (parse_tokens_ok _ _ _ _ _ _ _ _ H0 H) as (h & [_ He] & _ & Hf). cbn [cx_reading fresh cx_next] in He.
  intros i Hin. destruct (Hi i Hin) as (b & Hb & Eb). destruct (Hf b i Hb Eb) as [L E]. split; [|exact L].
  destruct (Z_lt_le_dec i n) as [Lt|Le]; [|exact Le]. rewrite He in E by exact Lt. subst b. discriminate.
Qed.
Print Assumptions C97_value.

(** Sharing: each constant is used twice, so the value unfolds to 15 arrays, but four are made, by
    a text of 59 characters and 31 tokens. *)
Example C97_case : let text := "const a=[]
const b=[a,a]
const c=[b,b]
export default [c,c]"%string in
  (let! (c, r) := parse (files [("m", text)]%string) 100 1 (fresh (txt "m") 0) in Ok (cx_next c, files_size (files [("m", text)]%string) (cx_log c)))
    = Ok (4, 59)
  /\ (let! ts := tokenize 100 (txt text) in Ok (List.length ts, total_weight ts, closings ts)) = Ok (31%nat, 54, 4).
Proof. vmc. Qed.
