(** C99: the syntax errors of the parser say what is wrong. *)
From Coq Require Import ZArith List Bool String.
From Verif Require Import Outcome VTac TokenizerModel TokenizerSpec ValueModel ParserModel ParserModules Prop_Parser Prop_Frame BlameProofs.
Import ListNotations.
Open Scope Z_scope.

(** The error is true of a text: the text ends too early, or it has a token that deserves it. *)
Definition true_of (ts : list token) (e : parse_error) : Prop :=
  e = UnexpectedEnd \/ exists before t after, ts = before ++ t :: after /\ blamed e before t.

Section Graph.
Variable io : list Z -> option (list Z).
Variable tf : nat.
Definition true_in (c : context) (e : parse_error) : Prop :=
  exists p text ts, In p (cx_log c) /\ io p = Some text /\ tokenize tf text = Ok ts /\ true_of ts e.

Lemma tokens_told depth : forall c ts c' e, parse_tokens io tf depth c ts = Ok (c', inr e) ->
  e = CannotReadFile \/ e = CircularDependency \/ true_of ts e \/ true_in c' e.
Proof.
  induction depth as [|d IH]; intros c ts c' e H; [discriminate|]. cbn [parse_tokens] in H. unfold parse_tokens_with in H.
  destruct (push_all _ (root QInitial any_default true) c ts) as [[j c1]| |] eqn:E; cbn [obind] in H; try discriminate. injection H as <- He.
  assert (Hj : j = PError e \/ e = UnexpectedEnd) by (destruct j; cbn in He; try discriminate; injection He as <-; auto).
  destruct Hj as [->| ->]; [|right; right; left; left; reflexivity].
  apply push_all_told with (before := []) in E; [|discriminate|split; [reflexivity|left; reflexivity]].
  destruct E as (pre & t & post & a & b & -> & -> & [B|(n & m & R)]).
  - right; right; left; right. exists pre, t, post. split; [reflexivity|exact B].
  - unfold import_with in R. cbv zeta in R. set (p := path_concat _ m) in R. destruct (bt_get _ p); [discriminate|].
    destruct (bs_contains _ p); [injection R as _ <-; auto|]. destruct (io p) as [text|] eqn:Ei; [|injection R as _ <-; auto].
    destruct (tokenize tf text) as [ts'| |] eqn:Et; cbn [obind] in R; try discriminate.
    destruct (parse_tokens io tf d _ ts') as [[c2 [[dt v]|e2]]| |] eqn:Ep; cbn [obind] in R; try discriminate. injection R as -> ->.
    destruct (IH _ _ _ _ Ep) as [->|[->|[T|T]]]; auto. right; right; right. exists p, text, ts'. split; [|auto].
    apply tokens_grows in Ep. eapply grows_in; [exact Ep|]. apply in_or_app. right. left. reflexivity.
Qed.
End Graph.

(** Whatever error a parse returns, it is about a module ([C94_truthful]) or it is true of a file
    that was read: a wrong statement begins with its keyword and goes on as it must not, a new line
    is missing where the line went on, and so on. *)
Theorem C99_true : forall io tf depth R n c e,
  parse io tf depth (fresh R n) = Ok (c, inr e) -> e <> CannotReadFile -> e <> CircularDependency -> true_in io tf c e.
Proof.
  intros io tf depth R n c e H N1 N2. unfold parse in H. cbn [fresh cx_path] in H. destruct (io R) as [text|] eqn:Ei; [|injection H as _ <-; congruence].
  destruct (tokenize tf text) as [ts| |] eqn:Et; cbn [obind] in H; try discriminate.
  destruct (tokens_told io tf depth _ _ _ _ H) as [->|[->|[T|T]]]; [congruence|congruence| |exact T].
  exists R, text, ts. split; [|auto]. apply tokens_grows in H. eapply grows_in; [exact H|]. left. reflexivity.
Qed.
Print Assumptions C99_true.

(** Texts without [const], [export], [module], [import] and [require] get none of the errors about
    statements, and are not asked for a new line. *)
Theorem C99_no_statement : forall io tf depth R n c e,
  (forall p text ts k, io p = Some text -> tokenize tf text = Ok ts -> In (TId k) ts ->
     k <> txt "const" /\ k <> txt "export" /\ k <> txt "module" /\ k <> txt "import" /\ k <> txt "require") ->
  parse io tf depth (fresh R n) = Ok (c, inr e) ->
  e <> WrongConstStatement /\ e <> WrongExportStatement /\ e <> WrongImportStatement /\ e <> WrongRequireStatement /\ e <> NewLineExpected.
Proof.
  intros io tf depth R n c e K H.
  assert (A : forall k, e = WrongConstStatement \/ e = WrongExportStatement \/ e = WrongImportStatement \/ e = WrongRequireStatement \/ e = NewLineExpected ->
    k = e -> False); [|repeat split; intros ->; eapply A; eauto; tauto].
  intros k He _. assert (T : true_in io tf c e) by (apply (C99_true _ _ _ _ _ _ _ H); intros ->; intuition discriminate).
  destruct T as (p & text & ts & _ & Hp & Ht & [->|(before & t & after & -> & B)]); [intuition discriminate|].
  assert (I : forall x last, ends before (x :: last) -> In x (before ++ t :: after)).
  { intros x last [pre ->]. rewrite <- app_assoc. apply in_or_app. right. left. reflexivity. }
  assert (J : forall x last, ends (solid before) (x :: last) -> In x (before ++ t :: after)).
  { intros x last [pre E]. apply in_or_app. left. assert (S : In x (solid before)) by (rewrite E; apply in_or_app; right; left; reflexivity).
    apply filter_In in S. exact (proj1 S). }
  assert (St : stated before -> False).
  { intros [S|S]; match type of S with In (TId ?k) _ => destruct (K p text _ k Hp Ht (in_or_app _ _ _ (or_introl S))) as (K1 & K2 & K3 & K4 & K5); congruence end. }
  inversion B; subst; try (intuition discriminate); try (apply St; assumption);
    match goal with H : ends before _ |- _ => apply I in H | H : ends (solid before) _ |- _ => apply J in H end;
    match goal with H : In (TId ?k) (before ++ t :: after) |- _ => destruct (K p text _ k Hp Ht H) as (K1 & K2 & K3 & K4 & K5) end; congruence.
Qed.
Print Assumptions C99_no_statement.

(** [NewLineExpected] is never about the first token, and [UnexpectedToken] never about a line end:
    a text of new lines only ends too early. *)
Theorem C99_lines : forall io tf depth R n text ts c e, io R = Some text -> tokenize tf text = Ok ts -> (forall t, In t ts -> t = TNewLine) -> (0 < depth)%nat ->
  parse io tf depth (fresh R n) = Ok (c, inr e) -> e = UnexpectedEnd.
Proof.
  intros io tf depth R n text ts c e Hio Ht Hl Hd H. unfold parse in H. cbn [fresh cx_path] in H. rewrite Hio, Ht in H. cbn [obind] in H.
  destruct depth as [|d]; [inversion Hd|]. cbn [parse_tokens] in H. unfold parse_tokens_with in H.
  assert (P : forall load cx l, (forall t, In t l -> t = TNewLine) -> push_all load (root QInitial any_default true) cx l = Ok (root QInitial any_default true, cx)).
  { intros load cx l. induction l as [|t l IH]; intros Hn; [reflexivity|]. rewrite (Hn t (or_introl eq_refl)). cbn [push_all]. destruct cx. cbn. apply IH. intros x Hx. apply Hn. right. exact Hx. }
  rewrite P in H by exact Hl. cbn in H. injection H as _ <-. reflexivity.
Qed.
Print Assumptions C99_lines.

(** The other direction: a text that begins with a broken statement, after any number of new
    lines, gets the error of this statement, whatever follows. *)
Inductive opening : list token -> parse_error -> Prop :=
| o_const t rest : (forall i, t <> TId i) -> opening (TId (txt "const") :: t :: rest) WrongConstStatement
| o_const_id i t rest : t <> TEquals -> opening (TId (txt "const") :: TId i :: t :: rest) WrongConstStatement
| o_export t rest : t <> TId (txt "default") -> opening (TId (txt "export") :: t :: rest) WrongExportStatement
| o_module t rest : t <> TDot -> opening (TId (txt "module") :: t :: rest) WrongExportStatement
| o_dot t rest : t <> TId (txt "exports") -> opening (TId (txt "module") :: TDot :: t :: rest) WrongExportStatement
| o_exports t rest : t <> TEquals -> opening (TId (txt "module") :: TDot :: TId (txt "exports") :: t :: rest) WrongExportStatement
| o_import t rest : (forall i, t <> TId i) -> opening (TId (txt "import") :: t :: rest) WrongImportStatement
| o_import_id i t rest : t <> TId (txt "from") -> opening (TId (txt "import") :: TId i :: t :: rest) WrongImportStatement
| o_from i t rest : (forall m, t <> TString m) -> opening (TId (txt "import") :: TId i :: TId (txt "from") :: t :: rest) WrongImportStatement
| o_require t rest : t <> TOpenPar -> t <> TNewLine -> opening (TId (txt "require") :: t :: rest) WrongRequireStatement
| o_open t rest : (forall m, t <> TString m) -> t <> TNewLine -> opening (TId (txt "require") :: TOpenPar :: t :: rest) WrongRequireStatement
| o_line i x t rest : t <> TNewLine -> opening (TId (txt "const") :: TId i :: TEquals :: TNumber x :: t :: rest) NewLineExpected
| o_second x t rest : t <> TNewLine -> opening (TNumber x :: t :: rest) UnexpectedToken.
Theorem C99_reported : forall io tf depth R n text lines rest e, io R = Some text -> tokenize tf text = Ok (lines ++ rest) -> (0 < depth)%nat ->
  (forall t, In t lines -> t = TNewLine) -> opening rest e -> exists c, parse io tf depth (fresh R n) = Ok (c, inr e).
Proof.
  intros io tf depth R n text lines rest e Hio Ht Hd Hl O. unfold parse. cbn [fresh cx_path]. rewrite Hio, Ht. cbn [obind].
  destruct depth as [|d]; [inversion Hd|]. cbn [parse_tokens]. unfold parse_tokens_with. set (load := import_with _ _ _).
  assert (P : forall cx l k, (forall t, In t l -> t = TNewLine) -> push_all load (root QInitial any_default true) cx (l ++ k) = push_all load (root QInitial any_default true) cx k).
  { intros cx l k. induction l as [|t l IH]; intros Hn; [reflexivity|]. rewrite (Hn t (or_introl eq_refl)). cbn [app push_all]. destruct cx. cbn. apply IH. intros x Hx. apply Hn. right. exact Hx. }
  rewrite P by exact Hl.
  assert (X : forall l cx er, push_all load (PError er) cx l = Ok (PError er, cx)).
  { intros l cx er. induction l as [|t l IH]; cbn [push_all]; [reflexivity|]. replace (cx_push load (PError er) cx t) with (Ok (PError er, cx)) by (destruct t; reflexivity). exact IH. }
  assert (Y : forall k i, TId i <> TId k -> str_eqb i k = false).
  { intros k i N. destruct (str_eqb i k) eqn:E; [|reflexivity]. apply ParserProofs.str_eqb_eq in E. congruence. }
  generalize (cx_reading (fresh R n) R). intros c0. clearbody load.
  assert (G : exists c', push_all load (root QInitial any_default true) c0 rest = Ok (PError e, c')); [|destruct G as [c' ->]; eexists; reflexivity].
  inversion O; subst;
    destruct t; try congruence; try (exfalso; match goal with H : forall _, _ <> _ |- _ => eapply H; reflexivity end);
    try (match goal with H : TId ?i <> TId ?k |- _ => apply Y in H end);
    eexists; cbn;
    try (match goal with H : str_eqb _ _ = false |- _ => unfold cx_root_parse, root_parse; cbn -[str_eqb]; cbn -[str_eqb] in H; rewrite H; cbn end);
    try (unfold cx_root_parse, root_parse; cbn); apply X.
Qed.
Print Assumptions C99_reported.

(** Every kind of error, with the file that it is about. *)
Definition error_of (text : String.string) : option parse_error :=
  match parse (files [("m", text); ("n", "export default
const")]%string) 200 3 (fresh (txt "m") 0) with Ok (_, inr e) => Some e | _ => None end.
Example C99_case :
  error_of "const 1 = 2" = Some WrongConstStatement /\ error_of "const a 2" = Some WrongConstStatement
  /\ error_of "export a" = Some WrongExportStatement /\ error_of "module.export = 1" = Some WrongExportStatement
  /\ error_of "import ""n""" = Some WrongImportStatement /\ error_of "import a of ""n""" = Some WrongImportStatement
  /\ error_of "require[""n""]" = Some WrongRequireStatement /\ error_of "require(1)" = Some WrongRequireStatement
  /\ error_of "const a = 1 const b = 2" = Some NewLineExpected /\ error_of "const a = 1;" = Some NewLineExpected /\ error_of "[1,,2]" = Some UnexpectedToken /\ error_of "[1," = Some UnexpectedEnd
  /\ error_of "import a from ""n""" = Some UnexpectedToken /\ error_of "{""const"":1}" = None
  /\ blamed WrongImportStatement [TNewLine; TId (txt "import"); TId (txt "a")] (TId (txt "of"))
  /\ ~ blamed WrongImportStatement [TId (txt "const")] (TId (txt "of")).
Proof.
  do 14 (split; [vm_compute; reflexivity|]). split; [eapply b_import_id; [exists [TNewLine]; reflexivity|discriminate]|].
  intros B. inversion B; subst; match goal with H : ends _ _ |- _ => destruct H as [[|x [|y pre]] E]; discriminate end.
Qed.
