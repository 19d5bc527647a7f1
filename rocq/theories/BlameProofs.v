(** What the syntax errors of the parser say about the text. *)
From Coq Require Import ZArith List Bool String.
From Verif Require Import Outcome TokenizerModel TokenizerSpec ValueModel ParserModel DropModel DropProofs Prop_Frame.
Import ListNotations.
Open Scope Z_scope.

(** [blamed e before t]: after the tokens [before] the token [t] deserves the error [e].  It is said
    in terms of the last tokens; inside a value new lines do not count. *)
Definition ends (before last : list token) : Prop := exists pre, before = pre ++ last.
Definition solid (ts : list token) : list token := filter (fun t => match t with TNewLine => false | _ => true end) ts.
(** There has been a statement that defines a constant. *)
Definition stated (before : list token) : Prop := In (TId (txt "const")) before \/ In (TId (txt "import")) before.
Inductive blamed : parse_error -> list token -> token -> Prop :=
| b_token before t : t <> TNewLine -> blamed UnexpectedToken before t
| b_line before t : stated before -> before <> [] -> ~ ends before [TNewLine] -> t <> TNewLine -> blamed NewLineExpected before t
| b_const before t : ends before [TId (txt "const")] -> (forall i, t <> TId i) -> blamed WrongConstStatement before t
| b_const_id before i t : ends before [TId (txt "const"); TId i] -> t <> TEquals -> blamed WrongConstStatement before t
| b_export before t : ends before [TId (txt "export")] -> t <> TId (txt "default") -> blamed WrongExportStatement before t
| b_module before t : ends before [TId (txt "module")] -> t <> TDot -> blamed WrongExportStatement before t
| b_dot before t : ends before [TId (txt "module"); TDot] -> t <> TId (txt "exports") -> blamed WrongExportStatement before t
| b_exports before t : ends before [TId (txt "module"); TDot; TId (txt "exports")] -> t <> TEquals -> blamed WrongExportStatement before t
| b_import before t : ends before [TId (txt "import")] -> (forall i, t <> TId i) -> blamed WrongImportStatement before t
| b_import_id before i t : ends before [TId (txt "import"); TId i] -> t <> TId (txt "from") -> blamed WrongImportStatement before t
| b_from before i t : ends before [TId (txt "import"); TId i; TId (txt "from")] -> (forall m, t <> TString m) -> blamed WrongImportStatement before t
| b_require before t : ends (solid before) [TId (txt "require")] -> t <> TOpenPar -> t <> TNewLine -> blamed WrongRequireStatement before t
| b_open before t : ends (solid before) [TId (txt "require"); TOpenPar] -> (forall m, t <> TString m) -> t <> TNewLine -> blamed WrongRequireStatement before t
| b_close before m t : ends (solid before) [TId (txt "require"); TOpenPar; TString m] -> t <> TClosePar -> t <> TNewLine -> blamed WrongRequireStatement before t.

Lemma ends_step before last t : ends before last -> ends (before ++ [t]) (last ++ [t]).
Proof. intros [pre ->]. exists pre. rewrite app_assoc. reflexivity. Qed.
Lemma ends_one before t : ends (before ++ [t]) [t].
Proof. exists before. reflexivity. Qed.
Lemma solid_step before t : t <> TNewLine -> solid (before ++ [t]) = solid before ++ [t].
Proof. intros H. unfold solid. rewrite filter_app. destruct t; try reflexivity. congruence. Qed.
Lemma solid_line before : solid (before ++ [TNewLine]) = solid before.
Proof. unfold solid. rewrite filter_app. apply app_nil_r. Qed.

(** * The state remembers the last tokens *)
Definition asking (before : list token) (s : any_state) : Prop :=
  match as_status s with
  | SImportBegin => ends (solid before) [TId (txt "require")]
  | SImportValue => ends (solid before) [TId (txt "require"); TOpenPar]
  | SImportEnd => exists m, ends (solid before) [TId (txt "require"); TOpenPar; TString m]
  | _ => True
  end.
Definition memory (before : list token) (j : json_state) : Prop :=
  match j with
  | PRoot r =>
      as_status (rs_state r) = SInitial /\
      match rs_status r with
      | QInitial => rs_new_line r = true \/ (stated before /\ before <> [] /\ ~ ends before [TNewLine])
      | QExport => ends before [TId (txt "export")]
      | QModule => ends before [TId (txt "module")]
      | QModuleDot => ends before [TId (txt "module"); TDot]
      | QModuleDotExports => ends before [TId (txt "module"); TDot; TId (txt "exports")]
      | QConst => ends before [TId (txt "const")]
      | QConstId i => ends before [TId (txt "const"); TId i]
      | QImport => ends before [TId (txt "import")]
      | QImportId i => ends before [TId (txt "import"); TId i]
      | QImportIdFrom i => ends before [TId (txt "import"); TId i; TId (txt "from")]
      end
  | PConst _ s => asking before s /\ stated before
  | PModule s => asking before s
  | _ => True
  end.

Lemma stated_step before t : stated before -> stated (before ++ [t]).
Proof. intros [H|H]; [left|right]; apply in_or_app; auto. Qed.
Lemma ends_in before x last : ends before (x :: last) -> In x before.
Proof. intros [pre ->]. apply in_or_app. right. left. reflexivity. Qed.
Lemma not_line before t : t <> TNewLine -> before ++ [t] <> [] /\ ~ ends (before ++ [t]) [TNewLine].
Proof.
  intros H. split; [intros E; apply app_eq_nil in E; destruct E; discriminate|].
  intros [pre E]. apply app_inj_tail in E. destruct E. congruence.
Qed.
Lemma asking_line before s : asking before s -> asking (before ++ [TNewLine]) s.
Proof. unfold asking. rewrite solid_line. auto. Qed.

Definition calm (s : any_state) : Prop := match as_status s with SImportBegin | SImportValue | SImportEnd => False | _ => True end.
Lemma calm_asking before s : calm s -> asking before s.
Proof. unfold calm, asking. destruct (as_status s); tauto. Qed.
Lemma value_calm s v r : push_value s v = Ok r -> match r with RContinue s' => calm s' | RSuccess s' _ => as_status s' = SInitial | RError _ => False end.
Proof. unfold push_value. destruct (as_current s) as [|[m k|l]|a]; intros H; try discriminate; injection H as <-; first [reflexivity|exact I]. Qed.

(** The result of a token in a value. *)
Definition told (before : list token) (t : token) (r : any_result) : Prop :=
  match r with RContinue s' => asking (before ++ [t]) s' | RSuccess s' _ => as_status s' = SInitial | RError e => blamed e before t end.
Lemma common_told before s n t r n' : t <> TNewLine -> asking before s -> any_parse_common s n t = Ok (r, n') -> told before t r.
Proof.
  intros Ht A.
  assert (U : told before t (RError UnexpectedToken)) by (apply b_token; exact Ht).
  assert (V : forall s' v x, push_value s' v = Ok x -> told before t x).
  { intros s' v x P. apply value_calm in P. destruct x; cbn; [apply calm_asking; exact P|exact P|destruct P]. }
  assert (Sc : forall x k, (let! y := parse_scalar s t in Ok (y, n)) = Ok (x, k) -> told before t x).
  { intros x k. unfold parse_scalar. destruct (try_to_any t _); cbn [obind]; [|intros [= <- <-]; exact U].
    destruct (push_value s a) as [y| |] eqn:P; cbn [obind]; try discriminate. intros [= <- <-]. exact (V _ _ _ P). }
  assert (Pu : forall q x k, told before t q -> pure n q = Ok (x, k) -> told before t x) by (intros q x k E [= <- <-]; exact E).
  assert (Oq : forall q x k, told before t q -> opure n (Ok q) = Ok (x, k) -> told before t x) by (intros q x k E [= <- <-]; exact E).
  assert (Ea : forall x k, end_array s n = Ok (x, k) -> told before t x).
  { intros x k. unfold end_array. destruct (as_current s) as [|[m k0|l]|a]; try discriminate. unfold opure. destruct (push_value _ _) as [y| |] eqn:P; cbn [obind]; try discriminate. intros [= <- <-]. exact (V _ _ _ P). }
  assert (Eo : forall x k, end_object s n = Ok (x, k) -> told before t x).
  { intros x k. unfold end_object. destruct (as_current s) as [|[m k0|l]|a]; try discriminate. unfold opure. destruct (push_value _ _) as [y| |] eqn:P; cbn [obind]; try discriminate. intros [= <- <-]. exact (V _ _ _ P). }
  assert (Ei : forall x, end_import s = Ok x -> told before t x).
  { intros x. unfold end_import. destruct (as_current s); try discriminate. apply V. }
  assert (Ke : forall k, told before t (push_key s k)) by (intros k; unfold push_key; destruct (as_current s) as [|[m k0|l]|a]; try exact U; exact I).
  assert (Ba : told before t (begin_array s)) by exact I.
  assert (Bo : told before t (begin_object s)) by exact I.
  assert (Bi : t = TId id_require -> told before t (begin_import s)).
  { intros E. unfold told, begin_import, asking. cbn [as_status]. rewrite solid_step by exact Ht. rewrite E. apply ends_one. }
  unfold asking in A. unfold any_parse_common.
  destruct (as_status s) eqn:Es; [destruct t|destruct t|destruct t|destruct t|destruct t|destruct t|destruct t|destruct t|destruct t|destruct t|destruct t|destruct t]; try congruence; cbn [parse_value parse_array_begin parse_array_value parse_array_comma parse_object_begin parse_object_key parse_object_next parse_object_comma parse_import_begin parse_import_end];
    repeat match goal with |- context [if ?b then _ else _] => destruct b eqn:?Eb end; try discriminate;
    first [ exact (Ea r n') | exact (Eo r n') | exact (Sc r n')
          | apply Pu; first [exact U | apply Ke | exact Ba | exact Bo | exact I | apply b_require; [exact A|discriminate|discriminate]
               | apply Bi; apply andb_prop in Eb; destruct Eb as [_ Eb]; apply ParserProofs.str_eqb_eq in Eb; subst; reflexivity
               | unfold told, asking; cbn [set_status as_status]; rewrite solid_step by discriminate; apply (ends_step _ _ _ A) ]
          | apply Oq; first [exact U | exact Ba | exact Bo | destruct A as [mm A]; eapply b_close; [exact A|discriminate|discriminate]
               | apply Bi; apply andb_prop in Eb; destruct Eb as [_ Eb]; apply ParserProofs.str_eqb_eq in Eb; subst; reflexivity ]
          | unfold opure; destruct (end_import s) as [x| |] eqn:E; cbn [obind]; try discriminate; intros [= <- <-]; exact (Ei x eq_refl) ].
Qed.

Definition refuses (load : loader) (c c' : context) (e : parse_error) : Prop := exists n m, load (cx_set_next c n) m = Ok (c', inr e).
Lemma any_told load before s c t r c' : t <> TNewLine -> asking before s -> cx_any_parse load s c t = Ok (r, c') ->
  told before t r \/ exists e, r = RError e /\ refuses load c c' e.
Proof.
  intros Ht A. unfold cx_any_parse.
  assert (G : (let! (r0, n') := any_parse_common s (cx_next c) t in Ok (r0, cx_set_next c n')) = Ok (r, c') -> told before t r \/ exists e, r = RError e /\ refuses load c c' e).
  { destruct (any_parse_common s (cx_next c) t) as [[x n]| |] eqn:E; cbn [obind]; try discriminate. intros [= <- _]. left. exact (common_told _ _ _ _ _ _ Ht A E). }
  unfold asking in A. destruct (as_status s) eqn:Es; auto. clear G.
  destruct t; try (intros [= <- _]; left; apply b_open; [exact A|discriminate|discriminate]; fail); [|congruence].
  destruct (load c s0) as [[c1 [a|e]]| |] eqn:El; cbn [obind]; try discriminate; intros [= <- <-].
  - left. cbn [told]. unfold asking. cbn [set_current set_status as_status]. exists s0. rewrite solid_step by discriminate. exact (ends_step _ _ _ A).
  - right. exists e. split; [reflexivity|]. exists (cx_next c), s0. rewrite set_next_same. exact El.
Qed.

Definition step_told (load : loader) (before : list token) (t : token) (c c' : context) (j' : json_state) : Prop :=
  memory (before ++ [t]) j' /\ forall e, j' = PError e -> blamed e before t \/ refuses load c c' e.

Lemma root_told before r n t j im n' : memory before (PRoot r) -> root_parse r n t = Ok (j, im, n') ->
  memory (before ++ [t]) j /\ (forall e, j = PError e -> blamed e before t) /\ forall id m, im = Some (id, m) -> t <> TNewLine /\ stated before.
Proof.
  intros [Ms M]. unfold root_parse. cbv zeta.
  assert (V : t <> TNewLine -> (let! (jm, n'0) := parse_for_module (rs_state r) n t in Ok (fst jm, None, n'0)) = Ok (j, im, n') ->
    memory (before ++ [t]) j /\ (forall e, j = PError e -> blamed e before t) /\ forall id m, im = Some (id, m) -> t <> TNewLine /\ stated before).
  { intros Ht. unfold parse_for_module, any_parse. rewrite Ms. destruct (any_parse_common (rs_state r) n t) as [[x k]| |] eqn:E; cbn [obind fst]; try discriminate.
    intros [= <- <- _]. assert (A : asking before (rs_state r)) by (unfold asking; rewrite Ms; exact I). pose proof (common_told _ _ _ _ _ _ Ht A E) as T.
    destruct x as [s'|s' v|e]; cbn in *; (split; [auto|split; [intros e' He; try discriminate; injection He as <-; exact T|discriminate]]). }
  assert (Er : forall e, blamed e before t -> Ok (PError e, None, n) = Ok (j, im, n') -> memory (before ++ [t]) j /\ (forall e, j = PError e -> blamed e before t) /\ forall id m, im = Some (id, m) -> t <> TNewLine /\ stated before).
  { intros e B [= <- <- _]. split; [exact I|]. split; [intros e' [= <-]; exact B|discriminate]. }
  assert (Go : forall q s' nl, memory (before ++ [t]) (root q s' nl) -> Ok (root q s' nl, None, n) = Ok (j, im, n') -> memory (before ++ [t]) j /\ (forall e, j = PError e -> blamed e before t) /\ forall id m, im = Some (id, m) -> t <> TNewLine /\ stated before).
  { intros q s' nl H [= <- <- _]. split; [exact H|]. split; discriminate. }
  assert (Mo : forall j1, (j1 = PModule (rs_state r) \/ stated before /\ exists i, j1 = PConst i (rs_state r)) -> Ok (j1, None, n) = Ok (j, im, n') -> memory (before ++ [t]) j /\ (forall e, j = PError e -> blamed e before t) /\ forall id m, im = Some (id, m) -> t <> TNewLine /\ stated before).
  { intros j1 H [= <- <- _]. split; [destruct H as [->|[St [i ->]]]; cbn; unfold asking; rewrite Ms; [exact I|split; [exact I|apply stated_step; exact St]]|]. split; [|discriminate]. intros e ->. destruct H as [H|[_ [i H]]]; discriminate. }
  assert (Id : forall i k, str_eqb i k = true -> i = k) by (intros i k; apply ParserProofs.str_eqb_eq).
  assert (Ni : forall i k, str_eqb i k = false -> TId i <> TId k) by (intros i k H [= ->]; rewrite ParserProofs.str_eqb_refl in H; discriminate).
  destruct (rs_status r) eqn:Eq.
  - (* initial *)
    assert (Hl : t = TNewLine \/ t <> TNewLine) by (destruct t; auto; right; discriminate). destruct Hl as [->|Hl]; [apply Go; split; [exact Ms|left; reflexivity]|].
    assert (E : (if rs_new_line r then
       match t with
       | TId i =>
           if str_eqb i id_const then Ok (root QConst (set_type (rs_state r) Djs) false, None, n)
           else if str_eqb i id_export && is_mjs_compatible (as_type (rs_state r)) then Ok (root QExport (set_type (rs_state r) Mjs) false, None, n)
           else if str_eqb i id_module && is_cjs_compatible (as_type (rs_state r)) then Ok (root QModule (set_type (rs_state r) Cjs) false, None, n)
           else if str_eqb i id_import && is_mjs_compatible (as_type (rs_state r)) then Ok (root QImport (set_type (rs_state r) Mjs) false, None, n)
           else let! (jm, n'0) := parse_for_module (rs_state r) n t in Ok (fst jm, None, n'0)
       | _ => let! (jm, n'0) := parse_for_module (rs_state r) n t in Ok (fst jm, None, n'0)
       end else Ok (PError NewLineExpected, None, n)) = Ok (j, im, n') -> memory (before ++ [t]) j /\ (forall e, j = PError e -> blamed e before t) /\ forall id m, im = Some (id, m) -> t <> TNewLine /\ stated before).
    { destruct (rs_new_line r) eqn:El; [|apply Er; destruct M as [M|(M0 & M1 & M2)]; [discriminate|apply b_line; assumption]].
      destruct t; try exact (V Hl).
      destruct (str_eqb s id_const) eqn:E1; [apply Id in E1; subst; apply Go; split; [exact Ms|apply ends_one]|].
      destruct (str_eqb s id_export && _) eqn:E2; [apply andb_prop in E2; destruct E2 as [E2 _]; apply Id in E2; subst; apply Go; split; [exact Ms|apply ends_one]|].
      destruct (str_eqb s id_module && _) eqn:E3; [apply andb_prop in E3; destruct E3 as [E3 _]; apply Id in E3; subst; apply Go; split; [exact Ms|apply ends_one]|].
      destruct (str_eqb s id_import && _) eqn:E4; [apply andb_prop in E4; destruct E4 as [E4 _]; apply Id in E4; subst; apply Go; split; [exact Ms|apply ends_one]|].
      exact (V Hl). }
    destruct t; try exact E. congruence.
  - destruct t; try (apply Er; apply b_export; [exact M|discriminate]; fail). destruct (str_eqb s id_default) eqn:E; [apply Mo; auto|apply Er; apply b_export; [exact M|exact (Ni _ _ E)]].
  - destruct t; try (apply Er; apply b_module; [exact M|discriminate]; fail). apply Go. split; [exact Ms|exact (ends_step _ _ _ M)].
  - destruct t; try (apply Er; apply b_dot; [exact M|discriminate]; fail). destruct (str_eqb s id_exports) eqn:E; [apply Id in E; subst; apply Go; split; [exact Ms|exact (ends_step _ _ _ M)]|apply Er; apply b_dot; [exact M|exact (Ni _ _ E)]].
  - destruct t; try (apply Er; apply b_exports; [exact M|discriminate]; fail). apply Mo. auto.
  - destruct t; try (apply Er; apply b_const; [exact M|discriminate]; fail). apply Go. split; [exact Ms|exact (ends_step _ _ _ M)].
  - destruct t; try (apply Er; eapply b_const_id; [exact M|discriminate]; fail). apply Mo. right. split; [left; exact (ends_in _ _ _ M)|eauto].
  - destruct t; try (apply Er; apply b_import; [exact M|discriminate]; fail). apply Go. split; [exact Ms|exact (ends_step _ _ _ M)].
  - destruct t; try (apply Er; eapply b_import_id; [exact M|discriminate]; fail). destruct (str_eqb s0 id_from) eqn:E; [apply Id in E; subst; apply Go; split; [exact Ms|exact (ends_step _ _ _ M)]|apply Er; eapply b_import_id; [exact M|exact (Ni _ _ E)]].
  - destruct t; try (apply Er; eapply b_from; [exact M|discriminate]; fail). intros [= <- <- _].
    split; [split; [exact Ms|right; split; [apply stated_step; right; exact (ends_in _ _ _ M)|apply not_line; discriminate]]|]. split; [discriminate|]. intros. split; [discriminate|right; exact (ends_in _ _ _ M)].
Qed.

Lemma push_told load before j c t j' c' : (forall e, j <> PError e) -> memory before j -> cx_push load j c t = Ok (j', c') -> step_told load before t c c' j'.
Proof.
  intros Hj M.
  assert (R : forall r, j = PRoot r -> cx_root_parse load r c t = Ok (j', c') -> step_told load before t c c' j').
  { intros r ->. unfold cx_root_parse. destruct (root_parse r (cx_next c) t) as [[[j1 im] n1]| |] eqn:E; cbn [obind]; try discriminate.
    destruct (root_told _ _ _ _ _ _ _ M E) as (K1 & K2 & K3). destruct im as [[id m]|]; [|intros [= <- <-]; split; [exact K1|intros e He; left; exact (K2 e He)]].
    destruct j1 as [r'|k s|s|d v|e]; try discriminate. destruct (load _ m) as [[c2 [a|e]]| |] eqn:El; cbn [obind]; try discriminate; intros [= <- <-].
    - split; [|discriminate]. destruct K1 as [K1 _]. split; [exact K1|]. right. destruct (K3 _ _ eq_refl) as [K4 K5]. split; [apply stated_step; exact K5|apply not_line; exact K4].
    - split; [exact I|]. intros e' [= <-]. right. exists n1, m. exact El. }
  assert (C : forall k s, t <> TNewLine -> j = PConst k s -> cx_const_parse load k s c t = Ok (j', c') -> step_told load before t c c' j').
  { intros k s Hl -> H. destruct M as [M St]. assert (Hne : t <> TSemicolon) by (intros ->; discriminate).
    assert (E : cx_const_parse load k s c t = let! (r, c'0) := cx_any_parse load s c t in Ok (const_result k r, c'0)) by (destruct t; reflexivity || congruence).
    rewrite E in H. destruct (cx_any_parse load s c t) as [[x c1]| |] eqn:Ex; cbn [obind] in H; try discriminate. injection H as <- <-.
    destruct (any_told _ _ _ _ _ _ _ Hl M Ex) as [T|(e & -> & T)]; [|split; [exact I|intros e' [= <-]; right; exact T]].
    destruct x as [s'|s' v|e]; cbn in T |- *.
    - split; [split; [exact T|apply stated_step; exact St]|discriminate].
    - split; [|discriminate]. split; [exact T|]. right. split; [apply stated_step; exact St|apply not_line; exact Hl].
    - split; [exact I|]. intros e' [= <-]. left. exact T. }
  assert (D : forall s, t <> TNewLine -> j = PModule s -> cx_module_parse load s c t = Ok (j', c') -> step_told load before t c c' j').
  { intros s Hl ->. unfold cx_module_parse. destruct (cx_any_parse load s c t) as [[x c1]| |] eqn:Ex; cbn [obind]; try discriminate. intros [= <- <-].
    destruct (any_told _ _ _ _ _ _ _ Hl M Ex) as [T|(e & -> & T)]; [|split; [exact I|intros e' [= <-]; right; exact T]].
    destruct x as [s'|s' v|e]; cbn in T |- *; (split; [auto; exact I|]); try discriminate. intros e' [= <-]. left. exact T. }
  unfold cx_push. destruct j as [r|k s|s|d v|e]; [| | | |destruct (Hj e eq_refl)]; destruct t;
    first [ exact (R _ eq_refl) | refine (C _ _ _ eq_refl); discriminate | refine (D _ _ eq_refl); discriminate
          | intros [= <- <-]; split; [first [exact (asking_line _ _ M) | exact (conj (asking_line _ _ (proj1 M)) (stated_step _ _ (proj2 M))) | exact I]|discriminate]
          | intros [= <- <-]; split; [exact I|intros x [= <-]; left; apply b_token; discriminate] ].
Qed.

Lemma push_all_told load ts : forall before j c e c', (forall e, j <> PError e) -> memory before j -> push_all load j c ts = Ok (PError e, c') ->
  exists pre t post c1 c2, ts = pre ++ t :: post /\ c2 = c' /\ (blamed e (before ++ pre) t \/ refuses load c1 c2 e).
Proof.
  induction ts as [|t ts IH]; intros before j c e c' Hj M; cbn [push_all]; [intros [= -> _]; destruct (Hj e eq_refl)|].
  destruct (cx_push load j c t) as [[j1 c1]| |] eqn:E; cbn [obind]; try discriminate. intros H.
  destruct (push_told _ _ _ _ _ _ _ Hj M E) as [M1 T].
  assert (Ec : (exists e1, j1 = PError e1) \/ forall e1, j1 <> PError e1) by (destruct j1; eauto; right; discriminate). destruct Ec as [[e1 ->]|Hj1].
  - assert (X : forall l cx, push_all load (PError e1) cx l = Ok (PError e1, cx)).
    { intros l cx. induction l as [|t' l IHl]; cbn [push_all]; [reflexivity|]. replace (cx_push load (PError e1) cx t') with (Ok (PError e1, cx)) by (destruct t'; reflexivity). exact IHl. }
    rewrite X in H. injection H as -> ->. exists [], t, ts, c, c'. split; [reflexivity|]. split; [reflexivity|]. rewrite app_nil_r. exact (T e eq_refl).
  - destruct (IH (before ++ [t]) j1 c1 e c' Hj1 M1 H) as (pre & t' & post & d1 & d2 & -> & -> & B). exists (t :: pre), t', post, d1, c'. split; [reflexivity|]. split; [reflexivity|].
    rewrite <- app_assoc in B. exact B.
Qed.
