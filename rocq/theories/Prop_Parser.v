(** Properties C39 to C52: the parser and module loading (nanvm-lib/src/parser). *)
From Coq Require Import ZArith List Bool String Lia Sorted Relations.
From Verif Require Import Outcome VTac JsBigintModel TokenizerModel TokenizerSpec TokenizerRun TokenizerTotal ValueModel ParserModel ParserSpec TextSpec TextProofs
  BTreeProofs ParserProofs ParserRun ParserModules ParserMore PathProofs Prop_Tokenizer.
Import ListNotations.
Open Scope Z_scope.

(** For the examples. *)
Definition no_modules : loader := fun c _ => Ok (c, inr CannotReadFile).
Definition id (s : string) : token := TId (txt s).
Definition files (l : list (string * string)) (p : list Z) : option (list Z) :=
  option_map (fun kv => txt (snd kv)) (find (fun kv => if list_eq_dec Z.eq_dec p (txt (fst kv)) then true else false) l).
(** What the examples look at: the value or error, and the paths read. *)
Definition seen (o : outcome (context * (data_type * any + parse_error))) : outcome ((data_type * tree + parse_error) * list (list Z)) :=
  let! (c, r) := o in Ok (match r with inl (d, v) => inl (d, erase v) | inr e => inr e end, cx_log c).

(** * C39 *)

(** The parser returns a value in JSON mode iff the tokens are a JSON text, and it is the
    value that the text denotes. *)
Theorem C39_json : forall load c toks t,
  (exists c' v, parse_tokens_with load c toks = Ok (c', inl (Json, v)) /\ erase v = t) <-> json_text toks t.
Proof. exact parse_json. Qed.
Print Assumptions C39_json.

(** For module graphs: the parser returns a value iff the module denotes it. *)
Theorem C39_modules : forall io tf R k d t,
  (exists depth c' v, parse io tf depth (fresh R k) = Ok (c', inl (d, v)) /\ erase v = t)
  <-> exists n, denotes io tf (at_root R) n R d t.
Proof.
  intros io tf R k d t. split.
  - intros (depth & c' & v & H & <-). exact (parse_sound io tf R depth k c' d v H).
  - intros (n & H). destruct (parse_complete io tf R n n k d t H (Nat.le_refl n)) as (c' & v & Hp & Hv). eauto.
Qed.
Print Assumptions C39_modules.

(** A token sequence denotes at most one value. *)
Theorem C39_unambiguous : forall io tf R n n' d d' t t',
  denotes io tf (at_root R) n R d t -> denotes io tf (at_root R) n' R d' t' -> d = d' /\ t = t'.
Proof. intros io tf R n n' d d' t t'. apply den_fun. Qed.
Print Assumptions C39_unambiguous.

Example C39_case :
  (let! (c, r) := parse_tokens_with no_modules ctx0
     [TNewLine; TArrayBegin; TNumber 7; TComma; TNewLine; TObjectBegin; TString (txt "k"); TColon; id "null"; TComma; TObjectEnd; TArrayEnd]
   in Ok (match r with inl (d, v) => inl (d, erase v) | inr e => inr e end))
  = Ok (inl (Json, VArray [VNumber 7; VObject [(txt "k", VNull)]]))
  /\ (let! (c, r) := parse_tokens_with no_modules ctx0 [TArrayBegin; TComma; TArrayEnd] in Ok r) = Ok (inr UnexpectedToken).
Proof. vmc. Qed.

(** * C40 *)

(** An object text with the members [kvs] denotes an object whose keys are strictly
    increasing (in code point order) and that gives every key the value of its last
    occurrence in [kvs]. *)
Theorem C40_object : forall load c n0 body kvs b n,
  json_members body kvs -> spread (TObjectBegin :: body ++ [TObjectEnd]) b ->
  exists c' v m,
    parse_tokens_with load c (repeat TNewLine n0 ++ b ++ repeat TNewLine n) = Ok (c', inl (Json, v))
    /\ erase v = VObject (map (fun kv => (units (fst kv), snd kv)) m)
    /\ StronglySorted (fun x y => text_before (fst x) (fst y)) m
    /\ forall k, lookup m k = lookup (rev kvs) k.
Proof.
  intros load c n0 body kvs b n Hm Hs.
  assert (Ho : is_object kvs (ukeys (ins_all [] kvs))) by (apply is_object_iff; reflexivity).
  destruct (proj2 (parse_json load c (repeat TNewLine n0 ++ b ++ repeat TNewLine n) (VObject (ukeys (ins_all [] kvs))))) as (c' & v & Hp & Hv).
  - exists n0, (TObjectBegin :: body ++ [TObjectEnd]), b, n. split; [reflexivity|]. split; [exact Hs|]. econstructor; eassumption.
  - destruct Ho as (m & H1 & H2 & H3). rewrite H3 in Hv. exists c', v, m. auto.
Qed.
Print Assumptions C40_object.

(** Every object inside a loaded value has strictly increasing keys. *)
Theorem C40_sorted : forall io tf R depth k c' d v,
  parse io tf depth (fresh R k) = Ok (c', inl (d, v)) -> sorted_tree (erase v).
Proof.
  intros io tf R depth k c' d v H. destruct (parse_sound _ _ _ _ _ _ _ _ H) as (n & Hn). exact (denotes_sorted _ _ _ _ _ _ _ Hn).
Qed.
Print Assumptions C40_sorted.

Example C40_case :
  seen (parse (files [("m", "{""b"":1,""a"":2,""b"":{""z"":3,""y"":4}}")%string]) 1000 1 (fresh (txt "m") 0))
  = Ok (inl (Json, VObject [(txt "a", VNumber 0x4000000000000000);
        (txt "b", VObject [(txt "y", VNumber 0x4010000000000000); (txt "z", VNumber 0x4008000000000000)])]), [txt "m"]).
Proof. vm_compute. reflexivity. Qed.

(** * C41 *)

Lemma push_all_app load a b : forall j c,
  push_all load j c (a ++ b) = let! (j', c') := push_all load j c a in push_all load j' c' b.
Proof.
  induction a as [|t a IH]; intros j c; [reflexivity|]. cbn [app push_all].
  destruct (cx_push load j c t) as [[j' c']| |]; cbn [obind]; [apply IH|reflexivity|reflexivity].
Qed.

(** An error other than the end of the input is final. *)
Theorem C41_error_final : forall load c ts ts' c' e,
  parse_tokens_with load c ts = Ok (c', inr e) -> e <> UnexpectedEnd ->
  parse_tokens_with load c (ts ++ ts') = Ok (c', inr e).
Proof.
  intros load c ts ts' c' e. unfold parse_tokens_with. fold start. rewrite push_all_app.
  destruct (push_all load start c ts) as [[j c1]| |]; cbn [obind]; try discriminate.
  intros [= <- He] Hne. destruct j; cbn in He; try (injection He as He; congruence); try discriminate.
  injection He as ->. rewrite push_all_err. reflexivity.
Qed.
Print Assumptions C41_error_final.

(** After a complete text, only line breaks may follow. *)
Theorem C41_trailing : forall load c ts c' r n tok rest,
  parse_tokens_with load c ts = Ok (c', inl r) ->
  parse_tokens_with load c (ts ++ repeat TNewLine n) = Ok (c', inl r)
  /\ (tok <> TNewLine -> parse_tokens_with load c (ts ++ repeat TNewLine n ++ tok :: rest) = Ok (c', inr UnexpectedToken)).
Proof.
  intros load c ts c' r n tok rest. unfold parse_tokens_with. fold start. rewrite !push_all_app.
  destruct (push_all load start c ts) as [[j c1]| |]; cbn [obind]; try discriminate.
  intros [= <- He]. destruct j as [| | |d v|]; try discriminate. cbn in He. injection He as <-.
  assert (Hn : forall k, push_all load (PResult d v) c1 (repeat TNewLine k) = Ok (PResult d v, c1)) by (induction k; [reflexivity|assumption]).
  rewrite push_all_app, Hn. cbn [obind]. split; [reflexivity|]. intros Ht.
  replace (push_all load (PResult d v) c1 (tok :: rest)) with (push_all load (PError UnexpectedToken) c1 rest) by (destruct tok; reflexivity || congruence).
  rewrite push_all_err. reflexivity.
Qed.
Print Assumptions C41_trailing.

Example C41_case :
  (let! (c, r) := parse_tokens_with no_modules ctx0 [id "null"; TNewLine; id "null"] in Ok r) = Ok (inr UnexpectedToken)
  /\ (let! (c, r) := parse_tokens_with no_modules ctx0 [TObjectBegin; TComma; TObjectEnd] in Ok r) = Ok (inr UnexpectedToken).
Proof. vmc. Qed.

(** * C42 *)

Lemma start_value load c tok : opens_statement Json tok = false -> tok <> TNewLine ->
  match cx_push load start c tok with Ok (j, _) => in_value j | _ => True end.
Proof.
  intros Ho Hn.
  assert (H : cx_push load start c tok = let! (ji, n') := (let! (jm, n') := parse_for_module any_default (cx_next c) tok in Ok (fst jm, None, n')) in
    let c1 := cx_set_next c n' in let '(j, import) := (ji : json_state * option (list Z * list Z)) in
    match import with None => Ok (j, c1) | Some (i, m) => match j with PRoot r' =>
          let! (c2, res) := load c1 m in
          Ok (match res with
              | inl a => root QInitial (set_consts (rs_state r') (bt_insert (as_consts (rs_state r')) i a)) false
              | inr e => PError e
              end, c2) | _ => Panic end end).
  { destruct tok; try reflexivity; try (exfalso; apply Hn; reflexivity). unfold opens_statement in Ho.
    change (cx_push load start c (TId s)) with (cx_root_parse load {| rs_status := QInitial; rs_state := any_default; rs_new_line := true |} c (TId s)).
    unfold cx_root_parse, root_parse. cbn [rs_status rs_state rs_new_line]. cbv zeta.
    change (is_mjs_compatible (as_type any_default)) with true. change (is_cjs_compatible (as_type any_default)) with true.
    change (may_be_mjs Json) with true in Ho. change (may_be_cjs Json) with true in Ho.
    unfold id_const, id_export, id_module, id_import.
    destruct (list_eq_dec Z.eq_dec s (txt "const")); [discriminate|]. destruct (list_eq_dec Z.eq_dec s (txt "export")); [discriminate|].
    destruct (list_eq_dec Z.eq_dec s (txt "import")); [discriminate|]. destruct (list_eq_dec Z.eq_dec s (txt "module")); [discriminate|].
    repeat (rewrite (proj2 (str_eqb_neq _ _)) by assumption). reflexivity. }
  rewrite H. unfold parse_for_module. destruct (any_parse any_default (cx_next c) tok) as [[[r m] n']| |]; cbn; [|exact I|exact I].
  destruct r, m; exact I.
Qed.

(** Outside statements, line breaks do not affect the outcome in any way: not the value, not
    the error, not the modules loaded. *)
Theorem C42_line_breaks : forall load c n tok a b,
  opens_statement Json tok = false -> tok <> TNewLine ->
  filter not_newline a = filter not_newline b ->
  parse_tokens_with load c (repeat TNewLine n ++ tok :: a) = parse_tokens_with load c (tok :: b).
Proof.
  intros load c n tok a b Ho Hn Hab. unfold parse_tokens_with. fold start.
  assert (Hnl : push_all load start c (repeat TNewLine n ++ tok :: a) = push_all load start c (tok :: a)).
  { induction n as [|n IH]; [reflexivity|]. cbn [repeat app].
    change (push_all load start c (TNewLine :: repeat TNewLine n ++ tok :: a)) with
        (push_all load start (cx_set_next c (cx_next c)) (repeat TNewLine n ++ tok :: a)). rewrite <- cx_same. exact IH. }
  rewrite Hnl. cbn [push_all]. pose proof (start_value load c tok Ho Hn) as Hv.
  destruct (cx_push load start c tok) as [[j c']| |]; cbn [obind]; [|reflexivity|reflexivity].
  rewrite <- (in_value_newlines load a j c' Hv), <- (in_value_newlines load b j c' Hv), Hab. reflexivity.
Qed.
Print Assumptions C42_line_breaks.

(** The same after [export default] and [module.exports =]. *)
Theorem C42_exports : forall load c h a b,
  h = [id "export"; id "default"] \/ h = [id "module"; TDot; id "exports"; TEquals] ->
  filter not_newline a = filter not_newline b ->
  parse_tokens_with load c (h ++ a) = parse_tokens_with load c (h ++ b).
Proof.
  intros load c h a b Hh Hab. unfold parse_tokens_with. fold start. rewrite !push_all_app.
  assert (Hp : exists s c', push_all load start c h = Ok (PModule s, c')) by (destruct Hh as [->| ->]; eexists; eexists; reflexivity).
  destruct Hp as (s & c' & ->). cbn [obind].
  rewrite <- (in_value_newlines load a (PModule s) c' Logic.I), <- (in_value_newlines load b (PModule s) c' Logic.I), Hab. reflexivity.
Qed.
Print Assumptions C42_exports.

Example C42_case :
  parse_tokens_with no_modules ctx0 [TArrayBegin; TNewLine; TNewLine; id "null"; TNewLine; TArrayEnd; TNewLine]
  = parse_tokens_with no_modules ctx0 [TArrayBegin; id "null"; TArrayEnd]
  /\ parse_tokens_with no_modules ctx0 [TArrayBegin; TNewLine; TColon] = parse_tokens_with no_modules ctx0 [TArrayBegin; TColon].
Proof. vmc. Qed.

(** * C43 *)

(** [declared env d toks]: [toks] is a sequence of [const] definitions, which may use the names
    defined before them, and [env] gives the names their values (latest first). *)
Inductive declared : list (list Z * tree) -> data_type -> list token -> Prop :=
| dc_nil : declared [] Json []
| dc_const env d toks k a b v d1 n :
    declared env d toks -> spread a b -> gval (fun _ _ => False) env PElsewhere Djs a d1 v ->
    declared ((k, v) :: env) d1 (toks ++ TId (txt "const") :: TId k :: TEquals :: b ++ repeat TNewLine (S n)).

Lemma declared_gmodule mods env d toks : declared env d toks -> forall rest d' t,
  gmodule mods env d true rest d' t -> gmodule mods [] Json true (toks ++ rest) d' t.
Proof.
  induction 1 as [|env d toks k a b v d1 n Hd IH Hs Hg]; intros rest d' t Hr; [exact Hr|].
  rewrite <- app_assoc. apply IH. cbn [app]. rewrite <- app_assoc.
  eapply gs_const; [exact Hs|eapply gval_mono; [|exact Hg]; contradiction|].
  cbn [repeat app]. constructor. clear - Hr. induction n; [exact Hr|]. cbn. constructor. assumption.
Qed.

(** A name denotes the value of its latest definition. *)
Theorem C43_const : forall load c env d toks k v,
  declared env d toks -> may_be_mjs d = true ->
  k <> txt "null" -> k <> txt "true" -> k <> txt "false" -> lookup env k = Some v ->
  exists c' w, parse_tokens_with load c (toks ++ [TId (txt "export"); TId (txt "default"); TId k]) = Ok (c', inl (Mjs, w)) /\ erase w = v.
Proof.
  intros load c env d toks k v Hd Hm N1 N2 N3 Hl.
  assert (Hg : gmodule (fun _ _ => False) [] Json true (toks ++ [TId (txt "export"); TId (txt "default"); TId k]) Mjs v).
  { apply (declared_gmodule _ _ _ _ Hd). apply gs_export; [exact Hm|]. exists [TId k], [TId k], O. split; [reflexivity|].
    split; [repeat constructor|]. constructor; [constructor; assumption|]. reflexivity. }
  apply start_jres in Hg. unfold parse_tokens_with. fold start.
  set (ts := toks ++ _) in *.
  assert (Hload : forall (x : context) m (u : tree), In (TString m) ts -> True -> (fun _ _ => False : Prop) m u ->
      exists c' a, load x m = Ok (c', inl a) /\ erase a = u /\ True) by contradiction.
  destruct (run_complete load (fun _ => True) (fun _ _ _ => I) (fun _ _ => False) ts Hload start c Mjs v Hg start_jwf I)
    as (j' & c' & w & Hp & He & Hv & _).
  exists c', w. rewrite Hp. cbn [obind]. rewrite He. auto.
Qed.
Print Assumptions C43_const.

(** Names in a token sequence that are not object keys; names that it defines; reserved
    words. *)
Fixpoint mentioned (ts : list token) : list (list Z) :=
  match ts with
  | [] => []
  | tok :: r => match tok, r with
                | TId _, TColon :: _ => mentioned r
                | TId s, _ => s :: mentioned r
                | _, _ => mentioned r
                end
  end.
Fixpoint defined (ts : list token) : list (list Z) :=
  match ts with
  | [] => []
  | tok :: r => match tok, r with
                | TId s, TId k :: _ => if list_eq_dec Z.eq_dec s (txt "const") then k :: defined r
                                       else if list_eq_dec Z.eq_dec s (txt "import") then k :: defined r else defined r
                | _, _ => defined r
                end
  end.
Definition reserved : list (list Z) :=
  map txt ["const"; "import"; "from"; "export"; "default"; "module"; "exports"; "require"; "null"; "true"; "false"]%string.

Lemma mentioned_app a b k : In k (mentioned (a ++ b)) -> In k (mentioned a) \/ In k (mentioned b).
Proof.
  induction a as [|tok a IH]; [auto|]. cbn [app]. intros H.
  destruct tok; try (apply IH; exact H).
  cbn [mentioned] in *. destruct a as [|t2 a].
  - cbn in *. destruct b as [|[] b]; cbn in *; tauto.
  - cbn [app] in *. destruct t2; try (apply IH; exact H); destruct H as [->|H]; try (left; left; reflexivity);
      (destruct (IH H) as [H'|H']; [left; right; exact H'|right; exact H']).
Qed.
Lemma defined_cons tok ts k : In k (defined ts) -> In k (defined (tok :: ts)).
Proof.
  intros H. cbn [defined]. destruct tok; auto. destruct ts as [|[] ts]; auto.
  destruct (list_eq_dec Z.eq_dec s (txt "const")); [right; exact H|]. destruct (list_eq_dec Z.eq_dec s (txt "import")); [right; exact H|exact H].
Qed.
Lemma defined_app a b k : In k (defined b) -> In k (defined (a ++ b)).
Proof. induction a; [auto|]. intros H. apply defined_cons. auto. Qed.
Lemma filter_spread a b : spread a b -> filter not_newline b = filter not_newline a.
Proof. induction 1; [reflexivity|exact IHspread|]. cbn [filter]. rewrite IHspread. reflexivity. Qed.
Lemma filter_newlines n : filter not_newline (repeat TNewLine n) = [].
Proof. induction n; [reflexivity|assumption]. Qed.

Section Names.
Variable mods : list Z -> tree -> Prop.

Lemma gval_names env :
  (forall p d a d' t, gval mods env p d a d' t -> filter not_newline a = a /\ forall k, In k (mentioned a) -> In k reserved \/ lookup env k <> None)
  /\ (forall p d a d' ts, gelems mods env p d a d' ts -> filter not_newline a = a /\ forall k, In k (mentioned a) -> In k reserved \/ lookup env k <> None)
  /\ (forall f d a d' kvs, gmembers mods env f d a d' kvs -> filter not_newline a = a /\ forall k, In k (mentioned a) -> In k reserved \/ lookup env k <> None).
Proof.
  assert (Hres : forall k, In k reserved -> In k reserved \/ lookup env k <> None) by auto.
  apply gval_mutind.
  - intros p d tok t Hs _. destruct Hs; (split; [reflexivity|]); intros k [Hk|[]] || intros k [].
    + left. subst k. apply in_map_iff. exists "null"%string. split; [reflexivity|]. cbn; tauto.
    + left. subst k. apply in_map_iff. exists "true"%string. split; [reflexivity|]. cbn; tauto.
    + left. subst k. apply in_map_iff. exists "false"%string. split; [reflexivity|]. cbn; tauto.
    + right. subst k. congruence.
  - intros p d m t _ _. split; [reflexivity|]. intros k [Hk|[]]. left. subst k. apply in_map_iff. exists "require"%string. split; [reflexivity|]. cbn; tauto.
  - intros p d body d' ts _ [H1 H2]. cbn [filter not_newline]. rewrite filter_app, H1. split; [reflexivity|].
    intros k Hk. apply mentioned_app in Hk as [Hk|[]]. apply H2, Hk.
  - intros p d body d' kvs o _ [H1 H2] _. cbn [filter not_newline]. rewrite filter_app, H1. split; [reflexivity|].
    intros k Hk. apply mentioned_app in Hk as [Hk|[]]. apply H2, Hk.
  - intros. split; [reflexivity|]. intros k [].
  - auto.
  - intros p d a d1 t b d' ts _ [H1 H2] _ [H3 H4]. rewrite filter_app. cbn [filter not_newline]. rewrite H1, H3. split; [reflexivity|].
    intros k Hk. apply mentioned_app in Hk as [Hk|Hk]; [apply H2, Hk|apply H4, Hk].
  - intros. split; [reflexivity|]. intros k [].
  - intros f d tok k a d' t Hk _ [H1 H2]. destruct Hk; cbn [filter not_newline]; rewrite H1; (split; [reflexivity|]); exact H2.
  - intros f d tok k a d1 t b d' kvs Hk _ [H1 H2] _ [H3 H4].
    assert (H : forall k, In k (mentioned (a ++ TComma :: b)) -> In k reserved \/ lookup env k <> None).
    { intros x Hx. apply mentioned_app in Hx as [Hx|Hx]; [apply H2, Hx|apply H4, Hx]. }
    destruct Hk; cbn [filter not_newline]; rewrite filter_app; cbn [filter not_newline]; rewrite H1, H3; (split; [reflexivity|]); exact H.
Qed.

Lemma gfinal_names env d toks d' t : gfinal mods env d toks d' t ->
  forall k, In k (mentioned (filter not_newline toks)) -> In k reserved \/ lookup env k <> None.
Proof.
  intros (a & b & n & -> & Hs & Hg) k. apply (proj1 (gval_names env)) in Hg as [H1 H2].
  rewrite filter_app, filter_newlines, app_nil_r, (filter_spread _ _ Hs), H1. apply H2.
Qed.

Lemma mentioned_id s r k : In k (mentioned (TId s :: r)) -> k = s \/ In k (mentioned r).
Proof. cbn [mentioned]. destruct r as [|[] r]; intros H; try (destruct H; auto); auto. Qed.

Ltac word w := left; apply in_map_iff; exists w; split; [reflexivity|cbn; tauto].

Lemma gmodule_names env d nl toks d' t : gmodule mods env d nl toks d' t ->
  forall k, In k (mentioned (filter not_newline toks)) -> In k reserved \/ lookup env k <> None \/ In k (defined (filter not_newline toks)).
Proof.
  induction 1 as [env d nl toks d' t H IH|env d x a b v d1 rest d' t Hs Hg Hr IH|env d x m v rest d' t Hd Hm Hr IH|env d toks d' t Hd Hf|env d toks d' t Hd Hf|env d tok toks d' t Ho Hn Hf];
    intros k.
  - exact (IH k).
  - cbn [filter not_newline]. rewrite filter_app, (filter_spread _ _ Hs).
    apply (proj1 (gval_names env)) in Hg as [Hf Hg]. rewrite Hf. intros H.
    apply mentioned_id in H as [->|H]; [word "const"%string|]. 
    assert (Hdef : In x (defined (TId (txt "const") :: TId x :: TEquals :: a ++ filter not_newline rest))) by (left; reflexivity).
    apply mentioned_id in H as [->|H]; [right; right; exact Hdef|].
    change (In k (mentioned (a ++ filter not_newline rest))) in H. apply mentioned_app in H as [H|H]; [destruct (Hg k H); auto|].
    destruct (IH k H) as [H'|[H'|H']]; [auto| |].
    + cbn [lookup] in H'. destruct (list_eq_dec Z.eq_dec k x) as [->|]; auto.
    + right; right. do 3 apply defined_cons. apply defined_app, H'.
  - cbn [filter not_newline]. intros H.
    apply mentioned_id in H as [->|H]; [word "import"%string|].
    assert (Hdef : In x (defined (TId (txt "import") :: TId x :: TId (txt "from") :: TString m :: filter not_newline rest))) by (left; reflexivity).
    apply mentioned_id in H as [->|H]; [right; right; exact Hdef|].
    apply mentioned_id in H as [->|H]; [word "from"%string|].
    destruct (IH k H) as [H'|[H'|H']]; [auto| |].
    + cbn [lookup] in H'. destruct (list_eq_dec Z.eq_dec k x) as [->|]; auto.
    + right; right. do 4 apply defined_cons. exact H'.
  - cbn [filter not_newline]. intros H.
    apply mentioned_id in H as [->|H]; [word "export"%string|]. apply mentioned_id in H as [->|H]; [word "default"%string|].
    destruct (gfinal_names _ _ _ _ _ Hf k H); auto.
  - cbn [filter not_newline]. intros H.
    apply mentioned_id in H as [->|H]; [word "module"%string|].
    change (In k (mentioned (TId (txt "exports") :: TEquals :: filter not_newline toks))) in H.
    apply mentioned_id in H as [->|H]; [word "exports"%string|].
    destruct (gfinal_names _ _ _ _ _ Hf k H); auto.
  - intros H. destruct (gfinal_names _ _ _ _ _ Hf k H); auto.
Qed.
End Names.

(** A module that uses a name it does not define is rejected, wherever the use is. *)
Theorem C43_undefined : forall load c toks k,
  In k (mentioned (filter not_newline toks)) -> ~ In k (defined (filter not_newline toks)) -> ~ In k reserved ->
  forall c' r, parse_tokens_with load c toks <> Ok (c', inl r).
Proof.
  intros load c toks k H1 H2 H3 c' [d v] H. unfold parse_tokens_with in H. fold start in H.
  destruct (push_all load start c toks) as [[j c1]| |] eqn:E; cbn [obind] in H; try discriminate. injection H as -> He.
  destruct (run_sound load (fun _ => True) (fun _ _ _ => I) (fun _ _ => True) toks) with (2 := E) (5 := He) as [Hg _];
    [auto|apply start_jwf|exact I|].
  apply start_jres, gmodule_names with (k := k) in Hg; [|exact H1]. destruct Hg as [Hg|[Hg|Hg]]; contradiction.
Qed.
Print Assumptions C43_undefined.

Example C43_case :
  seen (parse (files [("m", "const a = 1
const b = [a]
const a = {""k"":b}
export default [a,a]")%string]) 1000 1 (fresh (txt "m") 0))
  = Ok (inl (Mjs, let a := VObject [(txt "k", VArray [VNumber 0x3FF0000000000000])] in VArray [a; a]), [txt "m"])
  /\ seen (parse (files [("m", "const a = 1
export default [a,c]")%string]) 1000 1 (fresh (txt "m") 0)) = Ok (inr UnexpectedToken, [txt "m"]).
Proof. vmc. Qed.

(** * C44 *)

(** The scanner of the proof: 1 after a comma, 2 after a comma and a name. *)
Definition comma_step (st : nat) (tok : token) : nat :=
  match tok, st with TComma, _ => 1%nat | TId _, 1%nat => 2%nat | _, _ => O end.
Fixpoint comma_key (st : nat) (ts : list token) : bool :=
  match ts with
  | [] => false
  | tok :: r => (match tok, st with TColon, 2%nat => true | _, _ => false end) || comma_key (comma_step st tok) r
  end.
Definition comma_end (st : nat) (ts : list token) : nat := fold_left comma_step ts st.
Lemma comma_app st a b : comma_key st (a ++ b) = comma_key st a || comma_key (comma_end st a) b.
Proof.
  revert st. induction a as [|tok a IH]; intros st; [reflexivity|]. cbn [app comma_key]. rewrite IH, orb_assoc. reflexivity.
Qed.
(** A token other than a name, a colon or a comma forgets the state. *)
Lemma comma_forget st tok r : tok <> TColon -> (forall k, tok <> TId k) -> comma_key st (tok :: r) = comma_key (comma_step O tok) r.
Proof.
  intros H1 H2. destruct tok; cbn [comma_key comma_step orb]; try (destruct st as [|[|[|]]]; reflexivity).
  all: exfalso; (apply H1; reflexivity) || (eapply H2; reflexivity).
Qed.

Lemma gval_comma mods env :
  (forall p d a d' t, gval mods env p d a d' t -> forall st, (st <= 1)%nat -> comma_key st a = false)
  /\ (forall p d a d' ts, gelems mods env p d a d' ts -> forall st, (st <= 1)%nat -> comma_key st a = false)
  /\ (forall f d a d' kvs, gmembers mods env f d a d' kvs -> forall st, st = (if f then O else 1%nat) -> comma_key st a = false).
Proof.
  apply gval_mutind.
  - intros p d tok t Hs _ st Hst. destruct st as [|[|]]; [| |lia]; destruct Hs; reflexivity.
  - intros p d m t _ _ st Hst. destruct st as [|[|]]; [| |lia]; reflexivity.
  - intros p d body d' ts _ H st Hst. rewrite comma_forget by discriminate. cbn [comma_step]. rewrite comma_app, H by lia.
    rewrite comma_forget by discriminate. reflexivity.
  - intros p d body d' kvs o _ H _ st Hst. rewrite comma_forget by discriminate. cbn [comma_step]. rewrite comma_app, H by reflexivity.
    rewrite comma_forget by discriminate. reflexivity.
  - reflexivity.
  - auto.
  - intros p d a d1 t b d' ts _ Ha _ Hb st Hst. rewrite comma_app, Ha by exact Hst. rewrite comma_forget by discriminate. cbn. apply Hb. lia.
  - reflexivity.
  - intros f d tok k a d' t Hk _ Ha st Hst. destruct Hk as [k|k Hf]; [|subst f].
    + rewrite comma_forget by discriminate. cbn [comma_step comma_key orb]. apply Ha. lia.
    + subst st. cbn [comma_step comma_key orb]. apply Ha. lia.
  - intros f d tok k a d1 t b d' kvs Hk _ Ha _ Hb st Hst.
    assert (H : comma_key O (a ++ TComma :: b) = false).
    { rewrite comma_app, Ha by lia. rewrite comma_forget by discriminate. apply Hb. reflexivity. }
    destruct Hk as [k|k Hf]; [|subst f].
    + rewrite comma_forget by discriminate. exact H.
    + subst st. exact H.
Qed.

Lemma gfinal_comma mods env d toks d' t : gfinal mods env d toks d' t -> comma_key O (filter not_newline toks) = false.
Proof.
  intros (a & b & n & -> & Hs & Hg). rewrite filter_app, filter_newlines, app_nil_r, (filter_spread _ _ Hs).
  rewrite (proj1 (proj1 (gval_names mods env) _ _ _ _ _ Hg)). apply (proj1 (gval_comma mods env) _ _ _ _ _ Hg). lia.
Qed.

Lemma gval_comma_end mods env p d a d' t : gval mods env p d a d' t -> comma_end O a = O.
Proof.
  intros H. destruct H as [p d tok t Hs| | |]; try reflexivity.
  - destruct Hs; reflexivity.
  - unfold comma_end. cbn [fold_left]. rewrite fold_left_app. reflexivity.
  - unfold comma_end. cbn [fold_left]. rewrite fold_left_app. reflexivity.
Qed.

Lemma gmodule_comma mods env d nl toks d' t : gmodule mods env d nl toks d' t -> comma_key O (filter not_newline toks) = false.
Proof.
  induction 1 as [env d nl toks d' t H IH|env d x a b v d1 rest d' t Hs Hg Hr IH|env d x m v rest d' t Hd Hm Hr IH|env d toks d' t Hd Hf|env d toks d' t Hd Hf|env d tok toks d' t Ho Hn Hf].
  - exact IH.
  - cbn [filter not_newline comma_key comma_step orb]. rewrite filter_app, (filter_spread _ _ Hs).
    rewrite (proj1 (proj1 (gval_names mods env) _ _ _ _ _ Hg)), comma_app, (proj1 (gval_comma mods env) _ _ _ _ _ Hg) by lia.
    rewrite (gval_comma_end _ _ _ _ _ _ _ Hg). exact IH.
  - exact IH.
  - exact (gfinal_comma _ _ _ _ _ _ Hf).
  - exact (gfinal_comma _ _ _ _ _ _ Hf).
  - exact (gfinal_comma _ _ _ _ _ _ Hf).
Qed.

Lemma comma_key_here st k b : comma_key st (TComma :: TId k :: TColon :: b) = true.
Proof. destruct st; reflexivity. Qed.

(** Whatever a module looks like: with an identifier key after a comma it is rejected. *)
Theorem C44_identifier_key_refuted : forall load c toks a k b,
  filter not_newline toks = a ++ TComma :: TId k :: TColon :: b ->
  forall c' r, parse_tokens_with load c toks <> Ok (c', inl r).
Proof.
  intros load c toks a k b Hf c' [d v] H. unfold parse_tokens_with in H. fold start in H.
  destruct (push_all load start c toks) as [[j c1]| |] eqn:E; cbn [obind] in H; try discriminate. injection H as -> He.
  destruct (run_sound load (fun _ => True) (fun _ _ _ => I) (fun _ _ => True) toks) with (2 := E) (5 := He) as [Hg _];
    [auto|apply start_jwf|exact I|].
  apply start_jres, gmodule_comma in Hg. rewrite Hf, comma_app, comma_key_here, orb_true_r in Hg. discriminate.
Qed.
Print Assumptions C44_identifier_key_refuted.

(** In the first position it is accepted. *)
Theorem C44_identifier_key_partial : forall load c k a v d,
  gval (fun _ _ => False) [] PElsewhere Mjs a d v ->
  exists c' w, parse_tokens_with load c ([TId (txt "export"); TId (txt "default"); TObjectBegin; TId k; TColon] ++ a ++ [TObjectEnd])
    = Ok (c', inl (d, w)) /\ erase w = VObject [(units k, v)].
Proof.
  intros load c k a v d Hg.
  assert (Hm : gmodule (fun _ _ => False) [] Json true ([TId (txt "export"); TId (txt "default"); TObjectBegin; TId k; TColon] ++ a ++ [TObjectEnd])
    d (VObject [(units k, v)])).
  { apply gs_export; [reflexivity|]. exists (TObjectBegin :: (TId k :: TColon :: a) ++ [TObjectEnd]), (TObjectBegin :: (TId k :: TColon :: a) ++ [TObjectEnd]), O.
    split; [rewrite app_nil_r; reflexivity|]. split.
    - generalize (TObjectBegin :: (TId k :: TColon :: a) ++ [TObjectEnd]). induction l; constructor; assumption.
    - eapply gv_object; [apply gm_last; [apply kt_name; reflexivity|exact Hg]|]. apply is_object_iff. unfold ukeys. rewrite utf16_units_keys. reflexivity. }
  apply start_jres in Hm. unfold parse_tokens_with. fold start. set (ts := _ ++ a ++ _) in *.
  assert (Hload : forall (x : context) m (u : tree), In (TString m) ts -> True -> (fun _ _ => False : Prop) m u ->
      exists c' a, load x m = Ok (c', inl a) /\ erase a = u /\ True) by contradiction.
  destruct (run_complete load (fun _ => True) (fun _ _ _ => I) (fun _ _ => False) ts Hload start c d _ Hm start_jwf I)
    as (j' & c' & w & Hp & He & Hv & _).
  exists c', w. rewrite Hp. cbn [obind]. rewrite He. auto.
Qed.
Print Assumptions C44_identifier_key_partial.

Example C44_case :
  seen (parse (files [("m", "export default {a:1}")%string]) 1000 1 (fresh (txt "m") 0))
  = Ok (inl (Mjs, VObject [(txt "a", VNumber 0x3FF0000000000000)]), [txt "m"])
  /\ seen (parse (files [("m", "export default {a:1,b:2}")%string]) 1000 1 (fresh (txt "m") 0)) = Ok (inr UnexpectedToken, [txt "m"]).
Proof. vmc. Qed.

(** * C45 *)

(** Without semicolons, no token sequence makes the parser panic (if loading a module does
    not). *)
Theorem C45_no_panic_partial : forall load c ts,
  (forall x m, load x m <> Panic) -> ~ In TSemicolon ts -> parse_tokens_with load c ts <> Panic.
Proof.
  intros load c ts Hl Hs. unfold parse_tokens_with. fold start.
  pose proof (run_gen load (fun _ => True) (fun _ => True) (fun _ _ _ => I) False True ts) as H.
  specialize (H ltac:(intros x m _ _; specialize (Hl x m); destruct (load x m) as [[c' [|]]| |]; auto) Hs start c start_jwf I).
  destruct (push_all load start c ts) as [[j c']| |]; cbn; [discriminate|contradiction|discriminate].
Qed.
Print Assumptions C45_no_panic_partial.

(** Whole module graphs: if the texts tokenize without panic and have no semicolon. *)
Theorem C45_modules_partial : forall io tf R k depth,
  (forall p text, io p = Some text -> exists ts, tokenize tf text = Ok ts /\ ~ In TSemicolon ts) ->
  parse io tf depth (fresh R k) <> Panic.
Proof.
  intros io tf R k depth Ht.
  assert (Hrun : forall d c ts, ~ In TSemicolon ts -> parse_tokens io tf d c ts <> Panic).
  { induction d as [|d IH]; intros c ts Hs; [discriminate|]. cbn [parse_tokens]. apply C45_no_panic_partial; [|exact Hs].
    intros x m. unfold import_with. cbv zeta. set (p := path_concat _ m).
    destruct (bt_get (cx_complete x) p); [discriminate|]. destruct (bs_contains (cx_progress x) p); [discriminate|].
    destruct (io p) as [text|] eqn:E; [|discriminate]. destruct (Ht _ _ E) as (toks & -> & Hn). cbn [obind].
    specialize (IH (cx_reading x p) toks Hn). destruct (parse_tokens io tf d (cx_reading x p) toks) as [[c2 [[]|]]| |]; cbn; congruence. }
  unfold parse. cbn [fresh cx_path]. destruct (io R) as [text|] eqn:E; [|discriminate].
  destruct (Ht _ _ E) as (toks & -> & Hn). cbn [obind]. apply Hrun, Hn.
Qed.
Print Assumptions C45_modules_partial.

(** A semicolon is met while the value of a constant is being read. *)
Definition semicolon_in_constant (ts : list token) : Prop :=
  exists pre k a rest, ts = pre ++ [TId (txt "const"); TId k; TEquals] ++ a ++ TSemicolon :: rest.

Definition last_read (j : json_state) (p : list token) : Prop :=
  match j with
  | PRoot r => match rs_status r with
               | QConst => exists pre, p = pre ++ [TId (txt "const")]
               | QConstId i => exists pre, p = pre ++ [TId (txt "const"); TId i]
               | _ => True
               end
  | PConst k _ => exists pre a, p = pre ++ [TId (txt "const"); TId k; TEquals] ++ a
  | _ => True
  end.
Lemma last_read_step load j c t j' c' p : cx_push load j c t = Ok (j', c') -> last_read j p -> last_read j' (p ++ [t]).
Proof.
  destruct j as [[q s nl]|k s|s|d v|e].
  - assert (E : cx_push load (PRoot {| rs_status := q; rs_state := s; rs_new_line := nl |}) c t = cx_root_parse load {| rs_status := q; rs_state := s; rs_new_line := nl |} c t)
      by (destruct t; reflexivity).
    rewrite E. clear E. unfold cx_root_parse, root_parse. cbn [rs_status rs_state rs_new_line].
    assert (Hmod : forall x, (let! (ji, n') := (let! (jm, n') := parse_for_module s (cx_next c) x in Ok (fst jm, @None (list Z * list Z), n')) in
       (let '(j, import) := ji in
        match import with
        | None => Ok (j, cx_set_next c n')
        | Some (id, m) => match j with
            | PRoot r' => let! (c2, res) := load (cx_set_next c n') m in
                Ok (match res with inl a => root QInitial (set_consts (rs_state r') (bt_insert (as_consts (rs_state r')) id a)) false | inr e => PError e end, c2)
            | _ => Panic end end)) = Ok (j', c') -> last_read j' (p ++ [t])).
    { intros x. unfold parse_for_module. destruct (any_parse s (cx_next c) x) as [[[r m] n']| |]; cbn [obind]; try discriminate.
      destruct m; cbn [obind]; [destruct r|]; cbn [obind fst]; intros H; try discriminate; injection H as <- <-; cbn; auto. destruct r; exact I. }
    destruct q; cbn [rs_status]; intros H Hl.
    all: try (destruct t; cbn [obind] in H; try (apply (Hmod _ H)); try discriminate;
      repeat match type of H with context [if ?b then _ else _] => destruct b eqn:?; cbn [obind] in H; try (apply (Hmod _ H)) end;
      try (injection H as <- <-; cbn; exact I); fail).
    + destruct t; cbn [obind] in H; try (injection H as <- <-; exact I); destruct nl; cbn [obind] in H; try (injection H as <- <-; exact I); try (apply (Hmod _ H)).
      destruct (str_eqb s0 id_const) eqn:Ec; cbn [obind] in H.
      * injection H as <- <-. cbn. apply str_eqb_eq in Ec. subst s0. exists p. reflexivity.
      * repeat match type of H with context [if ?b then _ else _] => destruct b eqn:?; cbn [obind] in H; try (injection H as <- <-; exact I); try (apply (Hmod _ H)) end.
    + destruct t; cbn [obind] in H; injection H as <- <-; try exact I. destruct Hl as [pre ->]. exists pre. cbn. rewrite <- app_assoc. reflexivity.
    + destruct t; cbn [obind] in H; injection H as <- <-; try exact I. destruct Hl as [pre ->]. exists pre, []. cbn. rewrite <- app_assoc. reflexivity.
    + destruct t; cbn [obind] in H; try (injection H as <- <-; exact I). cbn in H.
      destruct (load _ _) as [[c2 [a|e]]| |]; cbn [obind] in H; try discriminate; injection H as <- <-; exact I.
  - intros H [pre [a ->]]. assert (G : last_read (PConst k s) ((pre ++ [TId (txt "const"); TId k; TEquals] ++ a) ++ [t])).
    { exists pre, (a ++ [t]). rewrite <- !app_assoc. reflexivity. }
    destruct t; cbn in H; try discriminate; try (injection H as <- <-; exact G);
      match type of H with context [cx_any_parse ?a ?b ?c ?d] => destruct (cx_any_parse a b c d) as [[[] ?]| |]; cbn in H; try discriminate; injection H as <- <-; first [exact I|exact G] end.
  - intros H _. destruct t; cbn in H; try (injection H as <- <-; exact I); unfold cx_module_parse in H;
      match type of H with context [cx_any_parse ?a ?b ?c ?d] => destruct (cx_any_parse a b c d) as [[[] ?]| |]; cbn in H; try discriminate; injection H as <- <-; exact I end.
  - intros H _. destruct t; cbn in H; injection H as <- <-; exact I.
  - intros H _. destruct t; cbn in H; injection H as <- <-; exact I.
Qed.
Lemma panic_at load ts : forall p j c, jwf j -> last_read j p -> push_all load j c ts = Panic ->
  (exists x m, load x m = Panic) \/ semicolon_in_constant (p ++ ts).
Proof.
  induction ts as [|t ts IH]; intros p j c Hw Hl; cbn [push_all]; [discriminate|]. intros H.
  destruct (push_cases (fun _ _ => False) j c t Hw) as [(j' & n' & Hp & Hw' & _)|[(m & K & n' & L & -> & Hp & Hk & _)|(-> & (k & s & ->) & Hp & _)]].
  - rewrite Hp in H. cbn [obind] in H. pose proof (last_read_step load _ _ _ _ _ _ (Hp load) Hl) as Hl'.
    destruct (IH _ _ _ Hw' Hl' H) as [G|G]; [left; exact G|right]. rewrite <- app_assoc in G. exact G.
  - pose proof (Hp load) as Hp'. rewrite Hp in H. destruct (load (cx_set_next c n') m) as [[c' [a|e]]| |] eqn:El; cbn [obind] in H, Hp'.
    + pose proof (last_read_step _ _ _ _ _ _ _ Hp' Hl) as Hl'. destruct (IH _ _ _ (Hk a) Hl' H) as [G|G]; [left; exact G|right]. rewrite <- app_assoc in G. exact G.
    + rewrite push_all_err in H. discriminate.
    + left. eauto.
    + discriminate.
  - right. destruct Hl as (pre & a & ->). exists pre, k, a, ts. rewrite <- !app_assoc. reflexivity.
Qed.

(** A panic comes from a panic while loading a module, or from a semicolon inside the value of
    a constant.  A semicolon anywhere else is reported as an error. *)
Theorem C45_panic_only : forall load c ts, parse_tokens_with load c ts = Panic ->
  (exists x m, load x m = Panic) \/ semicolon_in_constant ts.
Proof.
  intros load c ts H. unfold parse_tokens_with in H. fold start in H.
  apply (panic_at load ts [] start c start_jwf I). destruct (push_all load start c ts) as [[]| |]; cbn in H; congruence.
Qed.
Print Assumptions C45_panic_only.

(** The same for module graphs: one of the files has that semicolon. *)
Theorem C45_modules_panic_only : forall io tf R k depth,
  (forall p text, io p = Some text -> tokenize tf text <> Panic) ->
  parse io tf depth (fresh R k) = Panic ->
  exists p text ts, io p = Some text /\ tokenize tf text = Ok ts /\ semicolon_in_constant ts.
Proof.
  intros io tf R k depth Ht.
  assert (Hrun : forall d c ts, parse_tokens io tf d c ts = Panic -> semicolon_in_constant ts
     \/ exists p text ts, io p = Some text /\ tokenize tf text = Ok ts /\ semicolon_in_constant ts).
  { induction d as [|d IH]; intros c ts H; [discriminate|]. cbn [parse_tokens] in H. apply C45_panic_only in H as [(x & m & H)|H]; [right|left; exact H].
    unfold import_with in H. cbv zeta in H. set (p := path_concat _ m) in *.
    destruct (bt_get (cx_complete x) p); [discriminate|]. destruct (bs_contains (cx_progress x) p); [discriminate|].
    destruct (io p) as [text|] eqn:E; [|discriminate]. specialize (Ht _ _ E). destruct (tokenize tf text) as [toks| |] eqn:Et; [|congruence|discriminate].
    cbn [obind] in H. specialize (IH (cx_reading x p) toks). destruct (parse_tokens io tf d (cx_reading x p) toks) as [[c2 [[]|]]| |]; cbn in H; try discriminate.
    destruct (IH eq_refl) as [G|G]; [|exact G]. exists p, text, toks. auto. }
  unfold parse. cbn [fresh cx_path]. destruct (io R) as [text|] eqn:E; [|discriminate].
  specialize (Ht _ _ E). destruct (tokenize tf text) as [toks| |] eqn:Et; [|congruence|discriminate]. cbn [obind].
  intros H. destruct (Hrun _ _ _ H) as [G|G]; [|exact G]. exists R, text, toks. auto.
Qed.
Print Assumptions C45_modules_panic_only.

(** A semicolon instead of a value panics. *)
Theorem C45_semicolon_refuted : forall load c k rest,
  parse_tokens_with load c (TId (txt "const") :: TId k :: TEquals :: TSemicolon :: rest) = Panic.
Proof. reflexivity. Qed.
Print Assumptions C45_semicolon_refuted.

(** And so does the context-free [push] after a complete [require]: there is no way to supply
    the module. *)
Definition json_push_all (j : json_state) (n : Z) (ts : list token) : outcome json_state :=
  fold_left (fun o t => let! j := o in let! (ji, _) := json_push j n t in Ok (fst ji)) ts (Ok j).
Theorem C45_push_refuted : forall n m,
  json_push_all start n [id "require"; TOpenPar; TString m; TClosePar] = Panic.
Proof. reflexivity. Qed.
Print Assumptions C45_push_refuted.

Example C45_case :
  (let! (c, r) := parse_tokens_with no_modules ctx0 [TId (txt "const"); TComma; TSemicolon; TError InvalidHex] in Ok r) = Ok (inr WrongConstStatement)
  /\ (let! (c, r) := parse_tokens_with no_modules ctx0 [TObjectEnd; TDot] in Ok r) = Ok (inr UnexpectedToken)
  /\ (let! (c, r) := parse_tokens_with no_modules ctx0 [TArrayBegin; TNumber 0; TSemicolon] in Ok r) = Ok (inr UnexpectedToken)
  /\ parse_tokens_with no_modules ctx0 [TId (txt "const"); TId (txt "a"); TEquals; TArrayBegin; TNumber 0; TSemicolon] = Panic.
Proof. vmc. Qed.

(** * C46 *)

(** Fuel for all texts of a finite file system. *)
Lemma tokenize_all (io : list Z -> option (list Z)) (F : list (list Z)) :
  (forall p text, In p F -> io p = Some text -> chars text /\ calm text) ->
  exists f0, forall p text tf, In p F -> io p = Some text -> (f0 <= tf)%nat -> exists ts, tokenize tf text = Ok ts.
Proof.
  induction F as [|q F IH]; intros H; [exists O; intros p text tf []|].
  destruct IH as (f1 & H1); [intros p text Hp; apply H; right; exact Hp|].
  destruct (io q) as [text|] eqn:E.
  - destruct (H q text (or_introl eq_refl) E) as [Hc Hs]. destruct (C31_total_partial text Hc Hs) as (toks & f0 & Ht & _).
    exists (Nat.max f0 f1). intros p text' tf [<-|Hp] E' Hf.
    + rewrite E in E'. injection E' as <-. exists toks. apply Ht. lia.
    + apply (H1 p text'); auto. lia.
  - exists f1. intros p text' tf [<-|Hp] E' Hf; [congruence|]. apply (H1 p text'); auto.
Qed.

(** For every finite file system whose texts the tokenizer handles, [parse] returns, and a
    nesting depth of the number of files suffices. *)
Theorem C46_terminates_partial : forall io F R,
  (forall p text, io p = Some text -> In p F /\ chars text /\ calm text) ->
  exists f0, forall tf depth k, (f0 <= tf)%nat -> (List.length F <= depth)%nat -> parse io tf depth (fresh R k) <> NoFuel.
Proof.
  intros io F R H. destruct (tokenize_all io F) as (f0 & H0).
  - intros p text _ E. apply (H p text E).
  - exists f0. intros tf depth k Hf Hd.
    pose proof (total_parse io tf R F (fun p text E => proj1 (H p text E)) True) as Ht.
    assert (Htok : forall p text, io p = Some text -> match tokenize tf text with Ok ts => In TSemicolon ts -> True | Panic => True | NoFuel => False end).
    { intros p text E. destruct (H0 p text tf (proj1 (H p text E)) E Hf) as (ts & ->). auto. }
    specialize (Ht Htok depth k Hd). destruct (parse io tf depth (fresh R k)); [discriminate|discriminate|contradiction].
Qed.
Print Assumptions C46_terminates_partial.

(** Whatever the texts: if tokenizing them returns, so does [parse]. *)
Theorem C46_bounded_nesting : forall io F R tf depth k,
  (forall p text, io p = Some text -> In p F /\ tokenize tf text <> NoFuel) ->
  (List.length F <= depth)%nat -> parse io tf depth (fresh R k) <> NoFuel.
Proof.
  intros io F R tf depth k H Hd.
  pose proof (total_parse io tf R F (fun p text E => proj1 (H p text E)) True) as Ht.
  assert (Htok : forall p text, io p = Some text -> match tokenize tf text with Ok ts => In TSemicolon ts -> True | Panic => True | NoFuel => False end).
  { intros p text E. destruct (H p text E) as [_ Hn]. destruct (tokenize tf text); auto. }
  specialize (Ht Htok depth k Hd). destruct (parse io tf depth (fresh R k)); [discriminate|discriminate|contradiction].
Qed.
Print Assumptions C46_bounded_nesting.

(** A module with a small number is parsed forever. *)
Theorem C46_terminates_refuted : forall tf depth k,
  parse (files [("m", "3e-51")%string]) tf depth (fresh (txt "m") k) = NoFuel.
Proof.
  intros tf depth k. unfold parse. change (files [("m", "3e-51")%string] (cx_path (fresh (txt "m") k))) with (Some (txt "3e-51"%string)).
  cbn match. rewrite C31_total_refuted_hang. reflexivity.
Qed.
Print Assumptions C46_terminates_refuted.

Definition ring : list (string * string) :=
  [("a", "import x from ""b"""); ("b", "import x from ""c"""); ("c", "import x from ""a""")]%string.
Example C46_case :
  seen (parse (files ring) 1000 3 (fresh (txt "a") 0)) = Ok (inr CircularDependency, [txt "a"; txt "b"; txt "c"])
  /\ parse (files ring) 1000 2 (fresh (txt "a") 0) = NoFuel.
Proof. vmc. Qed.

(** * C47 *)

(** Whatever the outcome, no path is read twice. *)
Theorem C47_once : forall io tf depth R k c' r,
  parse io tf depth (fresh R k) = Ok (c', r) -> NoDup (cx_log c').
Proof.
  intros io tf depth R k c' r H. unfold parse in H. cbn [fresh cx_path] in H.
  assert (Hi : log_inv (cx_reading (fresh R k) R)).
  { split; [repeat constructor; intros []|]. intros p [<-|[]]. left. cbn. auto. }
  destruct (io R) as [text|]; [|injection H as <- <-; apply Hi].
  destruct (tokenize tf text) as [ts| |]; cbn [obind] in H; try discriminate.
  pose proof (log_inv_run io tf depth _ ts Hi) as Hl. rewrite H in Hl. apply Hl.
Qed.
Print Assumptions C47_once.

(** An imported module is cached, and once cached every later import of its path, however
    deep in the rest of the parse, yields the very same value (with its block identity). *)
Theorem C47_same_value : forall io tf depth c m c1 a ts c2 r depth' m',
  (forall q, In q (cx_progress c) -> bt_get (cx_complete c) q = None) ->
  import_with io tf (parse_tokens io tf depth) c m = Ok (c1, inl a) ->
  parse_tokens io tf depth' c1 ts = Ok (c2, r) ->
  path_concat (fst (path_split (cx_path c))) m = path_concat (fst (path_split (cx_path c))) m' ->
  import_with io tf (parse_tokens io tf depth) c2 m' = Ok (c2, inl a).
Proof.
  intros io tf depth c m c1 a ts c2 r depth' m' Hc Hi Hp Hm.
  set (P := fun x : context => cx_path x = cx_path c /\ forall q, In q (cx_progress x) -> bt_get (cx_complete x) q = None).
  assert (HP : forall d x l, P x -> match parse_tokens io tf d x l with Ok (x', _) => P x' | _ => True end).
  { intros d x l Hx. revert Hx. apply run_inv with (I := P).
    - intros y n Hy. exact Hy.
    - intros y p [H1 H2] Hg Hq. split; [exact H1|]. cbn. intros q. rewrite bs_insert_In. intros [->|Hq']; auto.
    - intros y p w [H1 H2] Hq. split; [exact H1|]. cbn. intros q. rewrite bs_remove_In, bt_get_insert.
      intros [Hq' Hn]. destruct (list_eq_dec Z.eq_dec q p); [contradiction|auto]. }
  set (p := path_concat (fst (path_split (cx_path c))) m) in *.
  assert (H1 : P c1 /\ bt_get (cx_complete c1) p = Some a).
  { unfold import_with in Hi. cbv zeta in Hi. fold p in Hi. destruct (bt_get (cx_complete c) p) eqn:Eg.
    - injection Hi as <- <-. split; [split; [reflexivity|exact Hc]|exact Eg].
    - destruct (bs_contains (cx_progress c) p) eqn:Eb; [discriminate|]. apply bs_contains_not in Eb.
      destruct (io p) as [text|]; [|discriminate]. destruct (tokenize tf text) as [toks| |]; cbn [obind] in Hi; try discriminate.
      assert (HP0 : P (cx_reading c p)).
      { split; [reflexivity|]. cbn. intros q. rewrite bs_insert_In. intros [->|Hq']; auto. }
      specialize (HP depth (cx_reading c p) toks HP0).
      destruct (parse_tokens io tf depth (cx_reading c p) toks) as [[x [[d v]|e]]| |] eqn:Es; cbn [obind] in Hi; try discriminate.
      injection Hi as <- <-. destruct HP as [HP1 HP2]. split; [split|].
      + exact HP1.
      + cbn. intros q. rewrite bs_remove_In, bt_get_insert. intros [Hq' Hn]. destruct (list_eq_dec Z.eq_dec q p); [contradiction|auto].
      + cbn. rewrite bt_get_insert. destruct (list_eq_dec Z.eq_dec p p); congruence. }
  destruct H1 as [HP1 Hg].
  pose proof (complete_run io tf depth' c1 ts p a (proj2 HP1) Hg) as Hg2. rewrite Hp in Hg2.
  pose proof (HP depth' c1 ts HP1) as HP2. rewrite Hp in HP2. destruct HP2 as [HP2 _].
  unfold import_with. cbv zeta. rewrite HP2, <- Hm. fold p. rewrite Hg2. reflexivity.
Qed.
Print Assumptions C47_same_value.

Example C47_case :
  seen (parse (files [("m", "import a from ""a""
import b from ""b""
export default [a,b]"); ("a", "import c from ""c""
export default [c]"); ("b", "import c from ""z/../c""
export default [c]"); ("c", "[]")]%string) 1000 3 (fresh (txt "m") 0))
  = Ok (inl (Mjs, VArray [VArray [VArray []]; VArray [VArray []]]), [txt "m"; txt "a"; txt "c"; txt "b"]).
Proof. vm_compute. reflexivity. Qed.

(** * C48 *)

(** A module from which a cycle of imports can be reached never yields a value. *)
Theorem C48_no_value : forall io tf R q,
  clos_refl_trans _ (imports io tf R) R q -> clos_trans _ (imports io tf R) q q ->
  forall depth k c' r, parse io tf depth (fresh R k) <> Ok (c', inl r).
Proof.
  intros io tf R q Hr Hq depth k c' [d v] H. apply parse_sound in H as (n & H). revert H.
  apply endless_den with (P := fun p => clos_refl_trans _ (imports io tf R) p q); [|exact Hr].
  intros p Hp. apply clos_rt_rt1n in Hp. destruct Hp as [|y z Hy Hz].
  - apply clos_trans_t1n in Hq. inversion Hq; subst.
    + exists p. split; [assumption|apply rt_refl].
    + exists y. split; [assumption|]. apply clos_t1n_trans in H0. clear - H0. induction H0; [apply rt_step; assumption|eapply rt_trans; eassumption].
  - exists y. split; [exact Hy|]. apply clos_rt1n_rt, Hz.
Qed.
Print Assumptions C48_no_value.

(** When nothing else is wrong before the cyclic import (here: when it is the first
    statement), the error is [CircularDependency]. *)
Theorem C48_circular : forall io tf R S,
  (forall p, In p S -> exists text ts m,
     io p = Some text /\ tokenize tf text = Ok ts /\ first_import ts m /\ In (at_root R p m) S) ->
  In R S -> forall depth k, (List.length S < depth)%nat ->
  exists c', parse io tf depth (fresh R k) = Ok (c', inr CircularDependency).
Proof. intros io tf R S HS HR depth k Hd. exact (cycle_parse io tf R S HS depth k HR Hd). Qed.
Print Assumptions C48_circular.

Example C48_case :
  seen (parse (files ring) 1000 5 (fresh (txt "b") 0)) = Ok (inr CircularDependency, [txt "b"; txt "c"; txt "a"])
  /\ seen (parse (files [("m", "module.exports = {""k"":[1,require(""n"")]}"); ("n", "module.exports = require(""m"")")]%string) 1000 5 (fresh (txt "m") 0))
     = Ok (inr CircularDependency, [txt "m"; txt "n"])
  /\ uses [id "import"; id "a"; id "from"; TString (txt "x"); TNewLine; id "export"; id "default"; TString (txt "y")] = [txt "x"].
Proof. vmc. Qed.

(** * C49 *)

(** Imports resolved against the importing module. *)
Definition relative (p m : list Z) : list Z := path_concat (fst (path_split p)) m.

(** Not so: the import in [dir/a] reads [b], not [dir/b]. *)
Definition nested : list (string * string) :=
  [("m", "import a from ""dir/a""
export default a"); ("dir/a", "import b from ""b""
export default b"); ("dir/b", "true"); ("b", "false")]%string.
Theorem C49_relative_refuted :
  exists io tf R depth c' d v n d' t,
    parse io tf depth (fresh R 0) = Ok (c', inl (d, v)) /\ erase v <> t
    /\ denotes io tf relative n R d' t.
Proof.
  exists (files nested), 1000%nat, (txt "m"), 3%nat. do 3 eexists. exists 3%nat, Mjs, (VBool true).
  split; [vm_compute; reflexivity|]. split; [discriminate|].
  assert (Himp : forall (mods : list Z -> tree -> Prop) k m v,
    k <> txt "null" -> k <> txt "true" -> k <> txt "false" -> mods m v -> gmodule mods [] Json true
    [id "import"; TId k; id "from"; TString m; TNewLine; id "export"; id "default"; TId k] Mjs v).
  { intros mods k m v N1 N2 N3 Hm. eapply gs_import; [reflexivity|exact Hm|]. constructor. apply gs_export; [reflexivity|].
    exists [TId k], [TId k], O. split; [reflexivity|]. split; [repeat constructor|]. constructor; [|reflexivity].
    constructor; auto. cbn [lookup]. destruct (list_eq_dec Z.eq_dec k k); congruence. }
  eexists; eexists. split; [vm_compute; reflexivity|]. split; [vm_compute; reflexivity|].
  apply (Himp _ (txt "a") (txt "dir/a")); try discriminate. exists Mjs.
  eexists; eexists. split; [vm_compute; reflexivity|]. split; [vm_compute; reflexivity|].
  apply (Himp _ (txt "b") (txt "b")); try discriminate. exists Json.
  eexists; eexists. split; [vm_compute; reflexivity|]. split; [vm_compute; reflexivity|].
  apply (gmodule_json _ [id "true"]). exists O, [id "true"], [id "true"], O. split; [reflexivity|]. split; [repeat constructor|]. constructor. constructor.
Qed.
Print Assumptions C49_relative_refuted.

(** When all files are in one directory, the parser agrees with relative resolution. *)
Theorem C49_one_directory_partial : forall io tf R k d t,
  (forall p, io p <> None -> fst (path_split p) = fst (path_split R)) ->
  (exists depth c' v, parse io tf depth (fresh R k) = Ok (c', inl (d, v)) /\ erase v = t)
  <-> exists n, denotes io tf relative n R d t.
Proof.
  intros io tf R k d t Hone. rewrite C39_modules.
  assert (H : forall n p d t, denotes io tf relative n p d t <-> denotes io tf (at_root R) n p d t).
  { induction n as [|n IH]; intros p d0 t0; [reflexivity|]. cbn [denotes].
    split; intros (text & toks & H1 & H2 & H3); exists text, toks; (split; [exact H1|]); (split; [exact H2|]);
      (eapply gmodule_mono; [|exact H3]); intros m u (d' & Hd); exists d'; apply IH;
      assert (Hp : io p <> None) by congruence;
      [unfold relative in Hd|unfold relative]; unfold at_root in *; rewrite (Hone p Hp) in *; exact Hd. }
  split; intros (n & Hn); exists n; apply H; exact Hn.
Qed.
Print Assumptions C49_one_directory_partial.

Example C49_case :
  seen (parse (files nested) 1000 3 (fresh (txt "m") 0)) = Ok (inl (Mjs, VBool false), [txt "m"; txt "dir/a"; txt "b"]).
Proof. vm_compute. reflexivity. Qed.

(** * C50 *)

(** The components of a normalized path are canonical: [..] only at the front, no empty
    component (but the empty path has one). *)
Theorem C50_canonical : forall p, exists l, canonical l /\ normalize p = join_slash l /\ same_place l (split_slash p).
Proof.
  intros p. exists (norm (split_slash p)). split; [apply norm_canonical, split_no_slash|]. split; [apply normalize_norm|apply norm_same].
Qed.
Print Assumptions C50_canonical.

(** Two paths normalize to the same path iff they name the same place. *)
Theorem C50_same_place : forall p q, normalize p = normalize q <-> same_place (split_slash p) (split_slash q).
Proof. exact normalize_same. Qed.
Print Assumptions C50_same_place.

Theorem C50_idempotent : forall p, normalize (normalize p) = normalize p.
Proof.
  intros p. rewrite !normalize_norm. f_equal. rewrite <- normalize_norm. apply norm_split_normalize.
Qed.
Print Assumptions C50_idempotent.

(** Concatenation can be done step by step. *)
Theorem C50_steps : forall a b, path_concat (normalize a) b = path_concat a b /\ path_concat a (normalize b) = path_concat a b.
Proof. intros a b. split; [apply path_concat_steps|apply path_concat_right]. Qed.
Print Assumptions C50_steps.

Example C50_case :
  normalize (txt "a//b/../../../c/"%string) = txt "../c"%string
  /\ path_concat (txt "x/y"%string) (txt "../z"%string) = txt "x/z"%string
  /\ normalize (txt "a/./.."%string) = txt "a"%string.
Proof. vmc. Qed.

(** * C51 *)

(** The opposite holds: no import is ever resolved to an absolute path. *)
Theorem C51_absolute_refuted : forall p m r, path_concat (fst (path_split p)) m <> 47 :: r.
Proof. intros p m r. apply normalize_relative. Qed.
Print Assumptions C51_absolute_refuted.

Example C51_case :
  seen (parse (files [("/d/m", "import a from ""a""
export default a"); ("/d/a", "true")]%string) 1000 3 (fresh (txt "/d/m") 0))
  = Ok (inr CannotReadFile, [txt "/d/m"; txt "d/a"]).
Proof. vm_compute. reflexivity. Qed.

(** * C52 *)

(** After a successful parse the modules in progress are those before it, and the root. *)
Theorem C52_success_partial : forall io tf depth c c' d v,
  parse io tf depth c = Ok (c', inl (d, v)) -> forall q, In q (cx_progress c') <-> q = cx_path c \/ In q (cx_progress c).
Proof.
  intros io tf depth c c' d v H q. unfold parse in H. destruct (io (cx_path c)) as [text|]; [|discriminate].
  destruct (tokenize tf text) as [ts| |]; cbn [obind] in H; try discriminate.
  rewrite (parse_tokens_progress io tf [] depth _ _ _ _ _ H q). cbn [cx_reading cx_progress]. apply bs_insert_In.
Qed.
Print Assumptions C52_success_partial.

Lemma progress_kept io tf depth : forall c ts,
  match parse_tokens io tf depth c ts with Ok (c', _) => incl (cx_progress c) (cx_progress c') | _ => True end.
Proof.
  induction depth as [|depth IH]; intros c ts; cbn [parse_tokens]; [exact I|].
  unfold parse_tokens_with. fold start.
  set (K := fun x : context => incl (cx_progress c) (cx_progress x)).
  pose proof (run_gen (import_with io tf (parse_tokens io tf depth)) K K (fun x n Hx => Hx) True True ts) as Hr.
  assert (Hl : forall x m, In (TString m) ts -> K x ->
    match import_with io tf (parse_tokens io tf depth) x m with Ok (c', inl a) => K c' | Ok (c', inr e) => K c' | Panic => True | NoFuel => True end).
  { intros x m _ Hx. unfold import_with. cbv zeta. set (p := path_concat _ m).
    destruct (bt_get (cx_complete x) p); [exact Hx|]. destruct (bs_contains (cx_progress x) p) eqn:Eb; [exact Hx|]. apply bs_contains_not in Eb.
    assert (Hrd : incl (cx_progress x) (cx_progress (cx_reading x p))) by (intros q Hq; cbn; apply bs_insert_In; auto).
    destruct (io p) as [text|]; [|intros q Hq; apply Hrd, Hx, Hq].
    destruct (tokenize tf text) as [toks| |]; cbn [obind]; try exact I.
    specialize (IH (cx_reading x p) toks). destruct (parse_tokens io tf depth (cx_reading x p) toks) as [[c2 [[d v]|e]]| |]; cbn [obind]; try exact I.
    - intros q Hq. cbn. apply bs_remove_In. split; [apply IH, Hrd, Hx, Hq|]. intros ->. apply Eb, Hx, Hq.
    - intros q Hq. apply IH, Hrd, Hx, Hq. }
  specialize (Hr Hl (fun _ => I) start c start_jwf (fun q Hq => Hq)).
  destruct (push_all _ start c ts) as [[j c1]| |]; cbn [obind]; try exact I.
  destruct Hr as [_ [Hr|[_ Hr]]]; exact Hr.
Qed.

(** The root always stays in progress. *)
Theorem C52_root_refuted : forall io tf depth c c' r,
  parse io tf depth c = Ok (c', r) -> In (cx_path c) (cx_progress c').
Proof.
  intros io tf depth c c' r H. unfold parse in H.
  assert (H0 : In (cx_path c) (cx_progress (cx_reading c (cx_path c)))) by (cbn; apply bs_insert_In; auto).
  destruct (io (cx_path c)) as [text|]; [|injection H as <- <-; exact H0].
  destruct (tokenize tf text) as [ts| |]; cbn [obind] in H; try discriminate.
  pose proof (progress_kept io tf depth (cx_reading c (cx_path c)) ts) as Hk. rewrite H in Hk. apply Hk, H0.
Qed.
Print Assumptions C52_root_refuted.

(** So does a module that fails, and a later parse that imports it, although repaired,
    reports a cycle. *)
Definition broken : list (string * string) := [("m", "import a from ""a""
export default a"); ("a", "]")]%string.
Definition repaired : list (string * string) := [("m", "import a from ""a""
export default a"); ("a", "[]")]%string.
Theorem C52_failure_refuted : exists c1 e,
  parse (files broken) 1000 2 (fresh (txt "m") 0) = Ok (c1, inr e)
  /\ In (txt "a") (cx_progress c1)
  /\ exists c2, parse (files repaired) 1000 2 c1 = Ok (c2, inr CircularDependency).
Proof.
  do 2 eexists. split; [vm_compute; reflexivity|]. split; [vm_compute; auto|]. eexists. vm_compute. reflexivity.
Qed.
Print Assumptions C52_failure_refuted.

Example C52_case :
  (let! (c, _) := parse (files repaired) 1000 2 (fresh (txt "m") 0) in Ok (cx_progress c)) = Ok [txt "m"].
Proof. vm_compute. reflexivity. Qed.
