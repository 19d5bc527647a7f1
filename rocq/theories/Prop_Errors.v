(** C94: errors name their cause.  C95: what the caller of the program sees. *)
From Coq Require Import ZArith List Bool String Lia Relation_Operators Operators_Properties.
From Verif Require Import Outcome VTac TokenizerModel TokenizerSpec ValueModel ParserModel ParserSpec BTreeProofs ParserProofs ParserModules ParserMore SerializerModel Prop_Parser Prop_Serializer Prop_Convert.
Import ListNotations.
Open Scope Z_scope.

(** * C94 *)

(** The modules that can be reached from the root: each names the next one ([imports]). *)
Definition reached io tf R (q : list Z) : Prop := clos_refl_trans _ (imports io tf R) R q.

(** What the errors about modules claim; the file that cannot be read is the last one asked for. *)
Definition truthful io tf R (c : context) (e : parse_error) : Prop :=
  match e with
  | CannotReadFile => exists q l, reached io tf R q /\ io q = None /\ cx_log c = l ++ [q]
  | CircularDependency => exists q, reached io tf R q /\ clos_trans _ (imports io tf R) q q
  | _ => True
  end.
Definition syntax (e : parse_error) : Prop := e <> CannotReadFile /\ e <> CircularDependency.

(** Where a module name is expected, the last token was [from] or an open parenthesis. *)
Definition expects (j : json_state) (prev : nat) : Prop :=
  match j with
  | PRoot r => as_status (rs_state r) = SInitial /\ forall i, rs_status r = QImportIdFrom i -> prev = 1%nat
  | PConst _ s | PModule s => as_status s = SImportValue -> prev = 2%nat
  | _ => True
  end.

Lemma push_value_kind s v r : push_value s v = Ok r ->
  match r with RContinue s' => as_status s' <> SImportValue | RSuccess s2 _ => as_status s2 = SInitial | RError e => syntax e end.
Proof. unfold push_value. destruct (as_current s) as [|[m k|l]|a]; intros [= <-]; reflexivity || discriminate. Qed.
Lemma scalar_kind s t r : parse_scalar s t = Ok r ->
  match r with RContinue s' => as_status s' <> SImportValue | RSuccess s2 _ => as_status s2 = SInitial | RError e => syntax e end.
Proof. unfold parse_scalar. destruct (try_to_any t (as_consts s)); [apply push_value_kind|]. intros [= <-]. split; discriminate. Qed.
Lemma key_kind s k : match push_key s k with RContinue s' => as_status s' <> SImportValue | RSuccess s2 _ => as_status s2 = SInitial | RError e => syntax e end.
Proof. unfold push_key. destruct (as_current s) as [|[m k'|l]|a]; (split; discriminate) || discriminate. Qed.
Lemma common_kind s n t r n' : any_parse_common s n t = Ok (r, n') ->
  match r with RContinue s' => as_status s' = SImportValue -> t = TOpenPar | RSuccess s2 _ => as_status s2 = SInitial | RError e => syntax e end.
Proof.
  assert (W : match r with RContinue s' => as_status s' <> SImportValue | RSuccess s2 _ => as_status s2 = SInitial | RError e => syntax e end ->
    match r with RContinue s' => as_status s' = SImportValue -> t = TOpenPar | RSuccess s2 _ => as_status s2 = SInitial | RError e => syntax e end).
  { destruct r; auto. intros H E. destruct (H E). }
  assert (P : forall k o, opure k o = Ok (r, n') -> o = Ok r).
  { intros k o. unfold opure. destruct o; cbn [obind]; congruence. }
  assert (B : forall o, o = r -> match o with RContinue s' => as_status s' <> SImportValue | RSuccess s2 _ => as_status s2 = SInitial | RError e => syntax e end ->
    match r with RContinue s' => as_status s' = SImportValue -> t = TOpenPar | RSuccess s2 _ => as_status s2 = SInitial | RError e => syntax e end).
  { intros o <-. exact W. }
  assert (PU : forall o, pure n o = Ok (r, n') -> o = r) by (unfold pure; congruence).
  assert (U : syntax UnexpectedToken) by (split; discriminate). assert (U' : syntax WrongRequireStatement) by (split; discriminate).
  assert (EA : end_array s n = Ok (r, n') -> match r with RContinue s' => as_status s' = SImportValue -> t = TOpenPar | RSuccess s2 _ => as_status s2 = SInitial | RError e => syntax e end).
  { unfold end_array. destruct (as_current s) as [|[m k|l]|a]; try discriminate. intros H. apply P in H. apply W, (push_value_kind _ _ _ H). }
  assert (EO : end_object s n = Ok (r, n') -> match r with RContinue s' => as_status s' = SImportValue -> t = TOpenPar | RSuccess s2 _ => as_status s2 = SInitial | RError e => syntax e end).
  { unfold end_object. destruct (as_current s) as [|[m k|l]|a]; try discriminate. intros H. apply P in H. apply W, (push_value_kind _ _ _ H). }
  assert (SC : forall k, opure k (parse_scalar s t) = Ok (r, n') -> match r with RContinue s' => as_status s' = SImportValue -> t = TOpenPar | RSuccess s2 _ => as_status s2 = SInitial | RError e => syntax e end).
  { intros k H. apply P in H. apply W, (scalar_kind _ _ _ H). }
  assert (PK : forall k, pure n (push_key s k) = Ok (r, n') -> match r with RContinue s' => as_status s' = SImportValue -> t = TOpenPar | RSuccess s2 _ => as_status s2 = SInitial | RError e => syntax e end).
  { intros k H. apply PU in H. apply (B _ H), key_kind. }
  unfold any_parse_common. destruct (as_status s).
  - intros H. apply P in H. unfold parse_value in H. destruct t; try (apply W, (scalar_kind _ _ _ H)); try (injection H as <-; discriminate).
    destruct (is_cjs_compatible (as_type s) && str_eqb s0 id_require); [injection H as <-; discriminate|apply W, (scalar_kind _ _ _ H)].
  - unfold parse_array_begin. destruct t; try exact (SC _); try exact EA; try exact EO; intros H; apply PU in H; subst r; discriminate.
  - unfold parse_array_value. destruct t; try exact (SC _); try exact EA; try exact EO; intros H; apply PU in H; subst r; exact U || discriminate.
  - unfold parse_array_comma. destruct t; try exact (SC _); try exact EA; try exact EO; try (intros H; apply PU in H; subst r; discriminate).
    destruct (is_cjs (as_type s) && str_eqb s0 id_require); [intros H; apply PU in H; subst r; discriminate|apply SC].
  - unfold parse_object_begin. destruct t; try exact (PK _); try exact EO; try (intros H; apply PU in H; subst r; exact U || discriminate).
    destruct (is_djs (as_type s)); [apply PK|intros H; apply PU in H; subst r; exact U].
  - intros H. apply PU in H. apply (B _ H). unfold parse_object_key. destruct t; exact U || discriminate.
  - intros H. apply P in H. unfold parse_value in H. destruct t; try (apply W, (scalar_kind _ _ _ H)); try (injection H as <-; discriminate).
    destruct (is_cjs_compatible (as_type s) && str_eqb s0 id_require); [injection H as <-; discriminate|apply W, (scalar_kind _ _ _ H)].
  - unfold parse_object_next. destruct t; try exact (SC _); try exact EA; try exact EO; intros H; apply PU in H; subst r; exact U || discriminate.
  - unfold parse_object_comma. destruct t; try exact (PK _); try exact EO; intros H; apply PU in H; subst r; exact U || discriminate.
  - intros H. apply PU in H. revert H. unfold parse_import_begin. destruct t; intros <-; try exact U'. reflexivity.
  - discriminate.
  - intros H. apply P in H. unfold parse_import_end in H. destruct t; try (injection H as <-; exact U').
    unfold end_import in H. destruct (as_current s); try discriminate. apply W, (push_value_kind _ _ _ H).
Qed.

(** A token either asks for a module that is named there, or only moves the parser on. *)
Definition asks (load : loader) (prev : nat) (c : context) (t : token) (j' : json_state) (c' : context) : Prop :=
  exists m n r, t = TString m /\ prev <> O /\ load (cx_set_next c n) m = Ok (c', r) /\
    (forall e, r = inr e -> j' = PError e) /\ (forall e, j' = PError e -> r = inr e).
Definition moves (c : context) (j' : json_state) (c' : context) : Prop :=
  (exists n, c' = cx_set_next c n) /\ forall e, j' = PError e -> syntax e.

Lemma set_next_same c : cx_set_next c (cx_next c) = c.
Proof. destruct c; reflexivity. Qed.

Lemma any_step load s c t r c' prev : cx_any_parse load s c t = Ok (r, c') -> (as_status s = SImportValue -> prev = 2%nat) ->
  match r with RContinue s' => as_status s' = SImportValue -> next_prev prev t = 2%nat | RSuccess s' _ => as_status s' = SInitial | RError _ => True end /\
  ((exists m n x, t = TString m /\ prev <> O /\ load (cx_set_next c n) m = Ok (c', x) /\ (forall e, x = inr e <-> r = RError e)) \/
   ((exists n, c' = cx_set_next c n) /\ forall e, r = RError e -> syntax e)).
Proof.
  intros H Hp. unfold cx_any_parse in H.
  assert (G : (let! (r0, n') := any_parse_common s (cx_next c) t in Ok (r0, cx_set_next c n')) = Ok (r, c') ->
    match r with RContinue s' => as_status s' = SImportValue -> next_prev prev t = 2%nat | RSuccess s' _ => as_status s' = SInitial | RError _ => True end /\
    ((exists n, c' = cx_set_next c n) /\ forall e, r = RError e -> syntax e)).
  { intros H0. destruct (any_parse_common s (cx_next c) t) as [[r' n']| |] eqn:Ec; cbn [obind] in H0; try discriminate. injection H0 as <- <-.
    apply common_kind in Ec. split; [destruct r'; auto; intros E; rewrite (Ec E); reflexivity|]. split; [eauto|]. intros e ->. exact Ec. }
  destruct (as_status s); try (destruct (G H); auto; fail). clear G.
  assert (Bad : Ok (RError WrongRequireStatement, c) = Ok (r, c') ->
    match r with RContinue s' => as_status s' = SImportValue -> next_prev prev t = 2%nat | RSuccess s' _ => as_status s' = SInitial | RError _ => True end /\
    ((exists n, c' = cx_set_next c n) /\ forall e, r = RError e -> syntax e)).
  { intros [= <- <-]. split; [exact I|]. split; [exists (cx_next c); symmetry; apply set_next_same|]. intros e [= <-]. split; discriminate. }
  destruct t; try (destruct (Bad H); auto; fail). clear Bad.
  destruct (load c s0) as [[c1 x]| |] eqn:El; cbn [obind] in H; try discriminate. injection H as Hr <-.
  split; [destruct x; subst r; [discriminate|exact I]|]. left.
  exists s0, (cx_next c), x. rewrite set_next_same. split; [reflexivity|]. split; [rewrite (Hp eq_refl); discriminate|]. split; [exact El|].
  intros e. destruct x; subst r; split; congruence || discriminate.
Qed.

Lemma pfm_kind s n t j m n' : parse_for_module s n t = Ok (j, m, n') ->
  match j with PModule s' => as_status s' = SImportValue -> t = TOpenPar | PError e => syntax e | PResult _ _ => True | _ => False end.
Proof.
  unfold parse_for_module, any_parse.
  assert (G : (let! (rm, n'0) := (let! (r, n'1) := any_parse_common s n t in Ok (r, None, n'1)) in
    let '(r, m0) := rm in match m0 with Some m1 => match r with RContinue s' => Ok (PModule s', Some m1, n'0) | _ => Panic end
    | None => Ok (match r with RContinue s' => PModule s' | RSuccess s' v => PResult (as_type s') v | RError e => PError e end, None, n'0) end) = Ok (j, m, n') ->
    match j with PModule s' => as_status s' = SImportValue -> t = TOpenPar | PError e => syntax e | PResult _ _ => True | _ => False end).
  { destruct (any_parse_common s n t) as [[r k]| |] eqn:Ec; cbn [obind]; try discriminate. apply common_kind in Ec. intros [= <- _ _]. destruct r; auto. }
  destruct (as_status s); try exact G. clear G.
  unfold parse_import_value. destruct t; cbn [obind]; intros [= <- _ _]; try (split; discriminate); discriminate.
Qed.

Lemma root_kind r n t j1 im n1 prev : root_parse r n t = Ok (j1, im, n1) -> expects (PRoot r) prev ->
  match im with
  | Some (id, m) => t = TString m /\ prev <> O /\ exists r', j1 = PRoot r' /\ as_status (rs_state r') = SInitial
  | None => expects j1 (next_prev prev t) /\ forall e, j1 = PError e -> syntax e
  end.
Proof.
  intros Er [Hs He]. unfold root_parse in Er.
  set (goal := match im with Some (id, m) => t = TString m /\ prev <> O /\ exists r', j1 = PRoot r' /\ as_status (rs_state r') = SInitial | None => expects j1 (next_prev prev t) /\ forall e, j1 = PError e -> syntax e end).
  assert (V : (let! (jm, n') := parse_for_module (rs_state r) n t in Ok (fst jm, None, n')) = Ok (j1, im, n1) -> goal).
  { destruct (parse_for_module (rs_state r) n t) as [[[j2 m2] n2]| |] eqn:Ep; cbn [obind]; try discriminate. apply pfm_kind in Ep.
    intros [= E1 E2 _]. unfold goal. rewrite <- E1, <- E2. cbn [fst]. destruct j2; try contradiction; (split; [try exact I|try discriminate]).
    - intros E. rewrite (Ep E). reflexivity.
    - intros e' [= <-]. exact Ep. }
  assert (SY : syntax NewLineExpected /\ syntax WrongExportStatement /\ syntax WrongConstStatement /\ syntax WrongImportStatement) by (repeat split; discriminate).
  destruct SY as (Y1 & Y2 & Y3 & Y4).
  assert (BAD : forall e, syntax e -> Ok (PError e, None, n) = Ok (j1, im, n1) -> goal).
  { intros e Y [= E1 E2 _]. unfold goal. rewrite <- E1, <- E2. split; [exact I|]. intros e' [= <-]. exact Y. }
  assert (GO : forall q s b, as_status s = SInitial -> (forall i, q = QImportIdFrom i -> next_prev prev t = 1%nat) -> Ok (root q s b, None, n) = Ok (j1, im, n1) -> goal).
  { intros q s b Hi Hq [= E1 E2 _]. unfold goal. rewrite <- E1, <- E2. split; [split; [exact Hi|exact Hq]|discriminate]. }
  assert (MO : forall j2, (j2 = PModule (rs_state r) \/ exists k, j2 = PConst k (rs_state r)) -> Ok (j2, None, n) = Ok (j1, im, n1) -> goal).
  { intros j2 Hj [= E1 E2 _]. unfold goal. rewrite <- E1, <- E2. destruct Hj as [-> |[k ->]]; (split; [cbn; rewrite Hs; discriminate|discriminate]). }
  destruct (rs_status r) eqn:Eq.
  - assert (G : match t with TNewLine => True | _ => False end \/ (if rs_new_line r then
            match t with
            | TId i =>
                if str_eqb i id_const then Ok (root QConst (set_type (rs_state r) Djs) false, None, n)
                else if str_eqb i id_export && is_mjs_compatible (as_type (rs_state r)) then Ok (root QExport (set_type (rs_state r) Mjs) false, None, n)
                else if str_eqb i id_module && is_cjs_compatible (as_type (rs_state r)) then Ok (root QModule (set_type (rs_state r) Cjs) false, None, n)
                else if str_eqb i id_import && is_mjs_compatible (as_type (rs_state r)) then Ok (root QImport (set_type (rs_state r) Mjs) false, None, n)
                else (let! (jm, n') := parse_for_module (rs_state r) n t in Ok (fst jm, None, n'))
            | _ => (let! (jm, n') := parse_for_module (rs_state r) n t in Ok (fst jm, None, n'))
            end
          else Ok (PError NewLineExpected, None, n)) = Ok (j1, im, n1)) by (destruct t; auto).
    destruct G as [G|G].
    + destruct t; try contradiction. revert Er. apply GO; [exact Hs|discriminate].
    + clear Er. destruct (rs_new_line r); [|exact (BAD _ Y1 G)]. destruct t; try exact (V G).
      destruct (str_eqb s id_const); [revert G; apply GO; [exact Hs|discriminate]|].
      destruct (str_eqb s id_export && _); [revert G; apply GO; [exact Hs|discriminate]|].
      destruct (str_eqb s id_module && _); [revert G; apply GO; [exact Hs|discriminate]|].
      destruct (str_eqb s id_import && _); [revert G; apply GO; [exact Hs|discriminate]|]. exact (V G).
  - destruct t; try exact (BAD _ Y2 Er). destruct (str_eqb s id_default); [apply (MO _ (or_introl eq_refl) Er)|exact (BAD _ Y2 Er)].
  - destruct t; try exact (BAD _ Y2 Er). revert Er. apply GO; [exact Hs|discriminate].
  - destruct t; try exact (BAD _ Y2 Er). destruct (str_eqb s id_exports); [|exact (BAD _ Y2 Er)]. revert Er. apply GO; [exact Hs|discriminate].
  - destruct t; try exact (BAD _ Y2 Er). apply (MO _ (or_introl eq_refl) Er).
  - destruct t; try exact (BAD _ Y3 Er). revert Er. apply GO; [exact Hs|discriminate].
  - destruct t; try exact (BAD _ Y3 Er). refine (MO _ (or_intror _) Er). eauto.
  - destruct t; try exact (BAD _ Y4 Er). revert Er. apply GO; [exact Hs|discriminate].
  - destruct t; try exact (BAD _ Y4 Er). destruct (str_eqb s0 id_from) eqn:Ef; [|exact (BAD _ Y4 Er)]. revert Er. apply GO; [exact Hs|].
    intros i _. apply str_eqb_eq in Ef. subst s0. reflexivity.
  - destruct t; try exact (BAD _ Y4 Er). injection Er as <- <- _. unfold goal. split; [reflexivity|]. split; [rewrite (He _ eq_refl); discriminate|].
    eexists. split; [reflexivity|]. exact Hs.
Qed.

Lemma push_kind load j c t j' c' prev : cx_push load j c t = Ok (j', c') -> expects j prev ->
  (forall e, j <> PError e) ->
  expects j' (next_prev prev t) /\ (asks load prev c t j' c' \/ moves c j' c').
Proof.
  intros H He Hne.
  assert (M : forall s x c1, cx_any_parse load s c t = Ok (x, c1) -> (as_status s = SImportValue -> prev = 2%nat) ->
    forall j1, (match x with RContinue s' => j1 = PModule s' \/ exists k, j1 = PConst k s' | RSuccess s' v => (exists d, j1 = PResult d v) \/ exists l, j1 = root QInitial (set_consts s' l) false | RError e => j1 = PError e end) ->
    expects j1 (next_prev prev t) /\ (asks load prev c t j1 c1 \/ moves c j1 c1)).
  { intros s x c1 Hx Hs j1 Hj. destruct (any_step _ _ _ _ _ _ _ Hx Hs) as [Hk Ho]. split.
    - destruct x as [s'|s' v|e]; [destruct Hj as [->|[k ->]]; cbn; eauto|destruct Hj as [[d ->]|[s2 ->]]; cbn; [exact I|split; [exact Hk|discriminate]]|subst j1; exact I].
    - assert (Hjx : forall e, j1 = PError e <-> x = RError e).
      { intros e. destruct x as [s'|s' v|e']; [destruct Hj as [->|[k ->]]|destruct Hj as [[d ->]|[s2 ->]]|subst j1]; split; try discriminate; congruence. }
      destruct Ho as [(m & n & y & -> & Hpv & Hl & Hy)|[Hn Hy]]; [left; exists m, n, y|right].
      + repeat split; auto; intros e E; [apply Hjx, Hy, E|apply Hy, Hjx, E].
      + split; [exact Hn|]. intros e E. apply Hy, Hjx, E. }
  assert (R : forall r, j = PRoot r -> cx_root_parse load r c t = Ok (j', c') -> expects j' (next_prev prev t) /\ (asks load prev c t j' c' \/ moves c j' c')).
  { intros r -> Hr. unfold cx_root_parse in Hr.
    destruct (root_parse r (cx_next c) t) as [[[j1 im] n1]| |] eqn:Er; cbn [obind] in Hr; try discriminate.
    apply root_kind with (prev := prev) in Er; [|exact He]. destruct im as [[id m]|].
    - destruct Er as (-> & Hp & r' & -> & Hi). destruct (load (cx_set_next c n1) m) as [[c2 x]| |] eqn:El; cbn [obind] in Hr; try discriminate. injection Hr as <- <-.
      split; [destruct x; cbn; [split; [exact Hi|discriminate]|exact I]|]. left. exists m, n1, x. repeat split; auto.
      + intros e ->. reflexivity.
      + intros e. destruct x; [discriminate|congruence].
    - injection Hr as <- <-. split; [apply Er|]. right. split; [eauto|apply Er]. }
  assert (C : forall k s, j = PConst k s -> cx_const_parse load k s c t = Ok (j', c') -> expects j' (next_prev prev t) /\ (asks load prev c t j' c' \/ moves c j' c')).
  { intros k s -> Hc. assert (Hc' : (let! (r, c'0) := cx_any_parse load s c t in Ok (const_result k r, c'0)) = Ok (j', c')) by (unfold cx_const_parse in Hc; destruct t; try exact Hc; discriminate).
    destruct (cx_any_parse load s c t) as [[x c1]| |] eqn:Ex; cbn [obind] in Hc'; try discriminate. injection Hc' as <- <-.
    apply (M _ _ _ Ex He). destruct x; cbn; eauto. }
  assert (D : forall s, j = PModule s -> cx_module_parse load s c t = Ok (j', c') -> expects j' (next_prev prev t) /\ (asks load prev c t j' c' \/ moves c j' c')).
  { intros s -> Hc. unfold cx_module_parse in Hc.
    destruct (cx_any_parse load s c t) as [[x c1]| |] eqn:Ex; cbn [obind] in Hc; try discriminate. injection Hc as <- <-.
    apply (M _ _ _ Ex He). destruct x; eauto. }
  assert (N : t = TNewLine -> Ok (j, c) = Ok (j', c') -> expects j' (next_prev prev t) /\ (asks load prev c t j' c' \/ moves c j' c') \/ exists r, j = PRoot r).
  { intros -> [= <- <-]. destruct j as [r|k s|s|d v|e]; [right; eauto| | | |destruct (Hne e eq_refl)]; left; (split; [|right; split; [exists (cx_next c); symmetry; apply set_next_same|discriminate]]).
    - cbn in He |- *. intros E. rewrite (He E). reflexivity.
    - cbn in He |- *. intros E. rewrite (He E). reflexivity.
    - exact I. }
  unfold cx_push in H. destruct j as [r|k s|s|d v|e].
  - apply (R r eq_refl). destruct t; exact H.
  - destruct t; try exact (C _ _ eq_refl H). destruct (N eq_refl H) as [N'|[r [=]]]. exact N'.
  - destruct t; try exact (D _ eq_refl H). destruct (N eq_refl H) as [N'|[r [=]]]. exact N'.
  - assert (G : Ok (PError UnexpectedToken, c) = Ok (j', c') -> expects j' (next_prev prev t) /\ (asks load prev c t j' c' \/ moves c j' c')).
    { intros [= <- <-]. split; [exact I|]. right. split; [exists (cx_next c); symmetry; apply set_next_same|]. intros e [= <-]. split; discriminate. }
    destruct t; try exact (G H). destruct (N eq_refl H) as [N'|[r [=]]]. exact N'.
  - destruct (Hne e eq_refl).
Qed.

(** The modules that load each other: the ones in progress lead to the present one. *)
Section Truth.
Variable io : list Z -> option (list Z).
Variable tf : nat.
Variable R : list Z.
Let imp := imports io tf R.
Let here (p : list Z) (c : context) : Prop := cx_path c = R /\ forall q, In q (cx_progress c) -> clos_refl_trans _ imp q p.
Let kept (c c' : context) : Prop := cx_path c' = cx_path c /\ forall q, In q (cx_progress c') <-> In q (cx_progress c).
Let told {A} (c : context) (x : context * (A + parse_error)) : Prop :=
  match snd x with inl _ => kept c (fst x) | inr e => truthful io tf R (fst x) e end.

Lemma here_kept p c c' : here p c -> kept c c' -> here p c'.
Proof. intros [H1 H2] [K1 K2]. split; [congruence|]. intros q Hq. apply H2, K2, Hq. Qed.
Lemma kept_trans a b c : kept a b -> kept b c -> kept a c.
Proof. intros [H1 H2] [K1 K2]. split; [congruence|]. intros q. rewrite K2. apply H2. Qed.

Lemma push_truth (load : loader) p all :
  (forall c m c' r, here p c -> In m all -> load c m = Ok (c', r) -> told c (c', r)) ->
  forall ts j c prev j' c', (forall m, In m (uses_from prev ts) -> In m all) -> here p c -> expects j prev ->
  (forall e, j = PError e -> truthful io tf R c e) -> push_all load j c ts = Ok (j', c') ->
  (forall e, j' = PError e -> truthful io tf R c' e) /\ ((forall e, j' <> PError e) -> kept c c').
Proof.
  intros Hl. induction ts as [|t ts IH]; intros j c prev j' c' Hu Hh He Ht H; cbn [push_all] in H.
  { injection H as <- <-. split; [exact Ht|]. intros _. split; [reflexivity|intros q; reflexivity]. }
  destruct (cx_push load j c t) as [[j1 c1]| |] eqn:Ep; cbn [obind] in H; try discriminate.
  assert (Hd : (exists e, j = PError e) \/ forall e, j <> PError e) by (destruct j; try (right; discriminate); left; eauto).
  destruct Hd as [[e ->]|Hne].
  { assert (E : Ok (PError e, c) = Ok (j1, c1)) by (rewrite <- Ep; destruct t; reflexivity). injection E as <- <-.
    rewrite push_all_err in H. injection H as <- <-. split; [exact Ht|]. intros Hx. destruct (Hx e eq_refl). }
  destruct (push_kind _ _ _ _ _ _ _ Ep He Hne) as [He1 Ho].
  assert (Hu1 : forall m, In m (uses_from (next_prev prev t) ts) -> In m all).
  { intros m Hm. apply Hu. cbn [uses_from]. destruct t; auto. destruct prev; [exact Hm|right; exact Hm]. }
  assert (K1 : (forall e, j1 = PError e -> truthful io tf R c1 e) /\ ((forall e, j1 <> PError e) -> kept c c1)).
  { destruct Ho as [(m & n & r & -> & Hp & Hc & Hr1 & Hr2)|[[n ->] Hs]].
    - assert (Hm : In m all) by (apply Hu; cbn [uses_from]; destruct prev; [destruct (Hp eq_refl)|left; reflexivity]).
      assert (Hh' : here p (cx_set_next c n)) by exact Hh.
      pose proof (Hl _ _ _ _ Hh' Hm Hc) as T. unfold told in T. cbn [fst snd] in T. split.
      + intros e E. rewrite (Hr2 e E) in T. exact T.
      + intros Hx. destruct r as [a|e]; [exact T|]. destruct (Hx e (Hr1 e eq_refl)).
    - split; [intros e E; destruct (Hs e E) as [E1 E2]; destruct e; try exact I; congruence|]. intros _. split; [reflexivity|intros q; reflexivity]. }
  assert (Hd : (exists e, j1 = PError e) \/ forall e, j1 <> PError e) by (destruct j1; try (right; discriminate); left; eauto).
  destruct Hd as [[e ->]|Hne1].
  { rewrite push_all_err in H. injection H as <- <-. split; [apply K1|]. intros Hx. destruct (Hx e eq_refl). }
  destruct K1 as [K1 K2]. specialize (K2 Hne1).
  destruct (IH _ _ _ _ _ Hu1 (here_kept _ _ _ Hh K2) He1 K1 H) as [R1 R2]. split; [exact R1|].
  intros Hx. exact (kept_trans _ _ _ K2 (R2 Hx)).
Qed.

Lemma tokens_truth depth : forall p text ts c c' r, io p = Some text -> tokenize tf text = Ok ts -> reached io tf R p -> here p c ->
  parse_tokens io tf depth c ts = Ok (c', r) -> told c (c', r).
Proof.
  induction depth as [|d IH]; intros p text ts c c' r Hio Hts Hr Hh H; [discriminate|]. cbn [parse_tokens] in H. unfold parse_tokens_with in H.
  destruct (push_all _ _ c ts) as [[j c1]| |] eqn:E; cbn [obind] in H; try discriminate. injection H as <- <-.
  assert (L : forall x m x' y, here p x -> In m (uses ts) -> import_with io tf (parse_tokens io tf d) x m = Ok (x', y) -> told x (x', y)).
  { intros x m x' y Hx Hm Hi. unfold import_with in Hi. rewrite (proj1 Hx) in Hi.
    set (q := path_concat (fst (path_split R)) m) in *.
    assert (Hpq : imp p q) by (exists text, ts, m; auto).
    destruct (bt_get (cx_complete x) q) as [a|]; [injection Hi as <- <-; split; [reflexivity|intros z; reflexivity]|].
    destruct (bs_contains (cx_progress x) q) eqn:Ec.
    { injection Hi as <- <-. apply bs_contains_In in Ec. cbn. exists q. split.
      - eapply rt_trans; [exact Hr|]. apply rt_step. exact Hpq.
      - eapply clos_rt_t; [apply (proj2 Hx); exact Ec|]. apply t_step. exact Hpq. }
    destruct (io q) as [qt|] eqn:Eq.
    2: { injection Hi as <- <-. cbn. exists q, (cx_log x). split; [|split; [exact Eq|reflexivity]]. eapply rt_trans; [exact Hr|]. apply rt_step. exact Hpq. }
    destruct (tokenize tf qt) as [qs| |] eqn:Et; cbn [obind] in Hi; try discriminate.
    destruct (parse_tokens io tf d (cx_reading x q) qs) as [[c2 z]| |] eqn:Ez; cbn [obind] in Hi; try discriminate.
    assert (Hq : here q (cx_reading x q)).
    { split; [exact (proj1 Hx)|]. cbn. intros w Hw. apply bs_insert_In in Hw. destruct Hw as [->|Hw]; [apply rt_refl|].
      eapply rt_trans; [apply (proj2 Hx), Hw|apply rt_step; exact Hpq]. }
    assert (Hrq : reached io tf R q) by (eapply rt_trans; [exact Hr|apply rt_step; exact Hpq]).
    pose proof (IH _ _ _ _ _ _ Eq Et Hrq Hq Ez) as T. unfold told in T |- *. cbn [fst snd] in T |- *.
    destruct z as [[dt v]|e]; injection Hi as <- <-; [|exact T]. destruct T as [T1 T2]. split; [exact T1|].
    intros w. cbn. rewrite bs_remove_In, T2. cbn. rewrite bs_insert_In.
    assert (Hn : ~ In q (cx_progress x)) by (intros Hin; apply bs_contains_In in Hin; congruence).
    split; [intros [[->|Hw] Hne]; [congruence|exact Hw]|]. intros Hw. split; [right; exact Hw|]. intros ->. exact (Hn Hw). }
  destruct (push_truth _ p (uses ts) L ts (root QInitial any_default true) c O j c1) as [T1 T2]; auto.
  { cbn. split; [reflexivity|discriminate]. }
  { discriminate. }
  unfold told. cbn [fst snd]. destruct j; cbn [json_end]; try exact I.
  - apply T2. discriminate.
  - apply (T1 _ eq_refl).
Qed.

Lemma parse_truth depth n c' e : parse io tf depth (fresh R n) = Ok (c', inr e) -> truthful io tf R c' e.
Proof.
  unfold parse. cbn [fresh cx_path]. destruct (io R) as [text|] eqn:Ei.
  - destruct (tokenize tf text) as [ts| |] eqn:Et; cbn [obind]; try discriminate. intros H.
    refine (tokens_truth depth R text ts _ _ _ Ei Et (rt_refl _ _ _) _ H).
    split; [reflexivity|]. cbn. intros q [<-|[]]. apply rt_refl.
  - intros [= <- <-]. cbn. exists R, []. split; [apply rt_refl|split; [exact Ei|reflexivity]].
Qed.
End Truth.

(** When the parser says that a file cannot be read, a chain of imports leads from the root to a
    file that cannot be read, and it is the last one that was asked for.  When it says that
    there is a circular dependency, a chain of imports leads to a module that imports itself,
    directly or through others. *)
Theorem C94_truthful : forall io tf depth R n c' e,
  parse io tf depth (fresh R n) = Ok (c', inr e) -> truthful io tf R c' e.
Proof. intros. eapply parse_truth; eassumption. Qed.
Print Assumptions C94_truthful.

(** Modules that share others without a circle are never refused for a circle, and modules that
    are all there are never refused for a file. *)
Theorem C94_no_circle : forall io tf depth R n c' e,
  (forall q, clos_refl_trans _ (imports io tf R) R q -> ~ clos_trans _ (imports io tf R) q q) ->
  parse io tf depth (fresh R n) = Ok (c', inr e) -> e <> CircularDependency.
Proof. intros io tf depth R n c' e H Hp ->. destruct (C94_truthful _ _ _ _ _ _ _ Hp) as (q & Hq & Hc). exact (H q Hq Hc). Qed.
Print Assumptions C94_no_circle.
Theorem C94_all_there : forall io tf depth R n c' e,
  (forall q, clos_refl_trans _ (imports io tf R) R q -> io q <> None) ->
  parse io tf depth (fresh R n) = Ok (c', inr e) -> e <> CannotReadFile.
Proof. intros io tf depth R n c' e H Hp ->. destruct (C94_truthful _ _ _ _ _ _ _ Hp) as (q & l & Hq & Hc & _). exact (H q Hq Hc). Qed.
Print Assumptions C94_all_there.

(** The order of the statements decides: of a circle and a missing file, the first is told.  A
    module that two others share is no circle. *)
Example C94_case :
  seen (parse (files [("r", "import x from ""gone""
import y from ""r""
export default 1")]%string) 1000 9 (fresh (txt "r") 0)) = Ok (inr CannotReadFile, [txt "r"; txt "gone"])
  /\ seen (parse (files [("r", "import y from ""r""
import x from ""gone""
export default 1")]%string) 1000 9 (fresh (txt "r") 0)) = Ok (inr CircularDependency, [txt "r"])
  /\ seen (parse (files [("r", "import a from ""a""
import b from ""b""
export default [a,b]"); ("a", "import c from ""c""
export default c"); ("b", "import c from ""c""
export default c"); ("c", "export default true")]%string) 1000 9 (fresh (txt "r") 0))
    = Ok (inl (Mjs, VArray [VBool true; VBool true]), [txt "r"; txt "a"; txt "c"; txt "b"]).
Proof. vmc. Qed.

(** * C95 *)

(** [main], nanvm/src/main.rs 4-6: the result of [run] is dropped ([let _ = ..]), so the program
    ends with status 0 whenever [run] returns; a panic ends it with status 101 (the Rust
    runtime).  [run] writes last, so a panic leaves the files as they were. *)
Definition main show peek disk tf depth cfuel (args : list (list Z)) (io : fs) : outcome (Z * fs) :=
  match app_run show peek disk tf depth cfuel args io with
  | Ok (_, io') => Ok (0, io')
  | Panic => Ok (101, io)
  | NoFuel => NoFuel
  end.

(** No failure that [run] reports can be seen in the exit status. *)
Theorem C95_silent : forall show peek disk tf depth cfuel args io e io',
  app_run show peek disk tf depth cfuel args io = Ok (Some e, io') ->
  main show peek disk tf depth cfuel args io = Ok (0, io').
Proof. intros * H. unfold main. rewrite H. reflexivity. Qed.
Print Assumptions C95_silent.

(** What a caller sees: the exit status and one file. *)
Definition sees disk (args : list (list Z)) (io : fs) (p : list Z) : outcome (option run_error * Z * option (list Z)) :=
  let! (e, _) := app_run show_two first_key disk 100 2 10 args io in
  let! (status, io') := main show_two first_key disk 100 2 10 args io in
  Ok (e, status, io' p).
Definition full_disk (p text : list Z) : write_result := NotWritten (Some (firstn 1 text)).

(** A status of 0 does not mean that the output was written: a missing input, an unknown
    extension and a full disk all end with it, with no output or with half of it. *)
Theorem C95_status_refuted : exists io, forall prog,
  sees good_disk [prog; txt "gone"; txt "o.json"] io (txt "o.json") = Ok (Some (ParseFailed CannotReadFile), 0, None)
  /\ sees good_disk [prog; txt "b.json"; txt "o.txt"] io (txt "o.txt") = Ok (Some BadExtension, 0, None)
  /\ sees full_disk [prog; txt "b.json"; txt "o.json"] io (txt "o.json") = Ok (Some WriteFailed, 0, Some (txt "["))
  /\ sees good_disk [prog; txt "b.json"; txt "o.json"] io (txt "o.json") = Ok (None, 0, Some (txt "[2]")).
Proof. exists c74_files. intros prog. vmc. Qed.
Print Assumptions C95_status_refuted.

(** A caller who has the output file from before cannot tell a run that failed from one that
    succeeded: same arguments, same status, same output file. *)
Theorem C95_stale_refuted : exists io1 io2 e,
  let args := [txt "nanvm"; txt "b.json"; txt "o.json"] in
  sees good_disk args io1 (txt "o.json") = Ok (None, 0, Some (txt "[2]"))
  /\ sees good_disk args io2 (txt "o.json") = Ok (Some e, 0, Some (txt "[2]")).
Proof.
  exists c74_files, (fs_put (fs_put c74_files (txt "o.json") (Some (txt "[2]"))) (txt "b.json") None), (ParseFailed CannotReadFile). vmc.
Qed.
Print Assumptions C95_stale_refuted.

(** The only status that tells of a failure is that of a panic. *)
Example C95_case :
  main show_two first_key good_disk 100 2 10 [txt "nanvm"; txt "b.json"] c74_files = Ok (101, c74_files).
Proof. reflexivity. Qed.
