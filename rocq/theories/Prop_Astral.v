(** Properties C53 and C74, the exact role of surrogates: a value with a surrogate anywhere is
    written as a text that is never read back. *)
From Coq Require Import ZArith List Bool String Lia.
From Verif Require Import Outcome VTac JsBigintModel TokenizerModel TokenizerSpec TokenizerGrammar TokenizerRun FuelMono ValueModel ParserModel ParserSpec SerializerModel SerializerSpec
  ConvertSpec ParserProofs ParserRun ParserModules ParserMore SerializerProofs SerializerRead Prop_Tokenizer Prop_Parser Prop_Serializer Prop_Lex Prop_Convert Prop_Canonical.
Import ListNotations.
Open Scope Z_scope.

(** Values without bigints, with numbers that [show] prints as plain decimals of at most 27
    fraction digits; strings and keys are any sequences of 16-bit units. *)
Inductive shown (show : Z -> list Z) : tree -> Prop :=
| sh_null : shown show VNull
| sh_bool b : shown show (VBool b)
| sh_number f : number_shown show f -> shown show (VNumber f)
| sh_string s : Forall unit16 s -> shown show (VString s)
| sh_array l : Forall (shown show) l -> shown show (VArray l)
| sh_object l : Forall (fun kv => Forall unit16 (fst kv) /\ shown show (snd kv)) l -> shown show (VObject l).

(** Some string or key contains a surrogate, as the text of every character beyond the basic
    plane does. *)
Inductive astral : tree -> Prop :=
| as_string s u : In u s -> surrogate u -> astral (VString s)
| as_array l t : In t l -> astral t -> astral (VArray l)
| as_key l k t u : In (k, t) l -> In u k -> surrogate u -> astral (VObject l)
| as_member l k t : In (k, t) l -> astral t -> astral (VObject l).

(** ** Broken texts *)
Definition breaks (text : list Z) : Prop :=
  forall p tp, lexseq p tp false TokenizerGrammar.any -> forall rest fuel toks, tokenize fuel (p ++ text ++ rest) = Ok toks -> exists e, In (TError e) toks.

Lemma breaks_app t r : breaks t -> breaks (t ++ r).
Proof. intros H p tp Hp rest fuel toks. rewrite <- app_assoc. apply (H p tp Hp). Qed.
Lemma breaks_before c t u : punctuator c = Some t -> 0 <= c -> breaks u -> breaks (c :: u).
Proof.
  intros Hc H0 H p tp Hp rest fuel toks. assert (Hl : lexseq (p ++ [c]) (tp ++ [t]) false TokenizerGrammar.any) by (eapply lex_char; eauto; reflexivity).
  specialize (H _ _ Hl rest fuel toks). rewrite <- app_assoc in H. exact H.
Qed.
Lemma breaks_then text toks c t u : appends text toks -> punctuator c = Some t -> 0 <= c -> (c = 44 \/ c = 93 \/ c = 125 \/ c = 59) -> breaks u -> breaks (text ++ c :: u).
Proof.
  intros Ha Hc H0 Hor H p tp Hp rest fuel tk.
  destruct (appends_then text toks c t [] [] Ha Hc H0 Hor appends_nil) as (g & _ & Hg). specialize (Hg p tp Hp).
  assert (Hl : lexseq (p ++ text ++ [c]) (tp ++ toks ++ [t]) false TokenizerGrammar.any).
  { destruct Ha as (g' & (G1 & G2 & G3 & G4) & Ha). specialize (Ha p tp Hp). rewrite !app_assoc. eapply lex_char; [exact Ha|exact Hc|exact H0|].
    destruct Hor as [->|[->|[->| ->]]]; assumption. }
  specialize (H _ _ Hl rest fuel tk). rewrite <- !app_assoc in H |- *. cbn [app] in H. rewrite <- app_assoc in H. exact H.
Qed.

Lemma first_surrogate s : Forall unit16 s -> bmp s \/ exists pre u post, s = pre ++ u :: post /\ bmp pre /\ surrogate u.
Proof.
  induction 1 as [|c s Hc Hs IH]; [left; constructor|].
  assert (surrogate c \/ ~ surrogate c) as [H|H] by (unfold surrogate; lia).
  - right. exists [], c, s. split; [reflexivity|]. split; [constructor|exact H].
  - destruct IH as [IH|(pre & u & post & -> & Hp & Hu)]; [left; constructor; auto|right]. exists (c :: pre), u, post. split; [reflexivity|]. split; [constructor; auto|exact Hu].
Qed.

Lemma breaks_string pre u post : bmp pre -> surrogate u -> breaks (js_string (pre ++ u :: post)).
Proof.
  intros Hp Hu p tp Hl rest fuel toks H. destruct (lexseq_reads _ _ _ _ Hl) as (f0 & Hr).
  set (g := Nat.max fuel f0). pose proof (tokenize_more fuel g (p ++ js_string (pre ++ u :: post) ++ rest) (Nat.le_max_l _ _)) as Hm.
  rewrite H in Hm. unfold upto in Hm. rewrite (Hr g _ (Nat.le_max_r _ _)) in Hm by (unfold js_string; cbn; split; [lia|reflexivity]).
  assert (E : js_string (pre ++ u :: post) ++ rest = 34 :: flat_map js_char pre ++
    [92; 117; u4_hex (Z.shiftr u 12); u4_hex (Z.shiftr u 8); u4_hex (Z.shiftr u 4); u4_hex u] ++ (flat_map js_char post ++ [34]) ++ rest).
  { unfold js_string. cbn [app]. f_equal. rewrite flat_map_app. cbn [flat_map]. unfold js_char at 2. unfold surrogate in Hu.
    destruct (Z.ltb_spec u 0x80); [lia|]. rewrite <- !app_assoc. reflexivity. }
  assert (Hx : 0xD800 <= Z.land (Z.shiftr u 12) 15 * 4096 + Z.land (Z.shiftr u 8) 15 * 256 + Z.land (Z.shiftr u 4) 15 * 16 + Z.land u 15 <= 0xDFFF).
  { unfold surrogate in Hu. rewrite u4_value by lia. lia. }
  rewrite E, (C33_surrogate_refuted g _ _ _ _ _ _ _ _ _ _ _ (js_string_spells pre Hp) (hex_u4 _) (hex_u4 _) (hex_u4 _) (hex_u4 _) Hx) in Hm.
  unfold prepend_list in Hm. destruct (tokenize g _) as [tk| |]; cbn [obind] in Hm; try discriminate. injection Hm as <-.
  exists InvalidHex. apply in_or_app. right. left. reflexivity.
Qed.

(** ** Every written text is either read as tokens or broken *)
Definition good (text : list Z) : Prop := exists toks, appends text toks.

Lemma string_cases s : Forall unit16 s -> (bmp s /\ forall r, good r -> good (js_string s ++ r)) \/ ((exists u, In u s /\ surrogate u) /\ breaks (js_string s)).
Proof.
  intros Hs. destruct (first_surrogate s Hs) as [H|(pre & u & post & -> & Hp & Hu)].
  - left. split; [exact H|]. intros r [toks Hr]. eexists. apply appends_string; [exact H|apply js_string_quoted, Hs|exact Hr].
  - right. split; [exists u; split; [apply in_or_app; right; left; reflexivity|exact Hu]|apply breaks_string; assumption].
Qed.

Lemma list_cases open close topen tclose l :
  punctuator open = Some topen -> 0 <= open -> punctuator close = Some tclose -> 0 <= close -> (close = 44 \/ close = 93 \/ close = 125 \/ close = 59) ->
  (forall t, In t l -> good t) -> good (write_list open close l).
Proof.
  intros H1 H2 H3 H4 H5 Hl. unfold write_list.
  assert (Hc : good (commas l)).
  { clear - Hl. induction l as [|x l IH]; [exists []; apply appends_nil|].
    destruct (Hl x (or_introl eq_refl)) as [tx Hx]. destruct l as [|y l]; [exists tx; exact Hx|].
    change (commas (x :: y :: l)) with (x ++ 44 :: commas (y :: l)).
    destruct IH as [tl Htl]; [intros t Ht; apply Hl; right; exact Ht|]. eexists. eapply appends_then; [exact Hx|reflexivity|lia|auto|exact Htl]. }
  destruct Hc as [tc Hc]. eexists. eapply appends_before; [exact H1|exact H2|]. eapply appends_then; [exact Hc|exact H3|exact H4|exact H5|apply appends_nil].
Qed.
Lemma list_breaks open close topen l : punctuator open = Some topen -> 0 <= open ->
  (forall t, In t l -> good t \/ breaks t) -> (exists t, In t l /\ breaks t) -> breaks (write_list open close l).
Proof.
  intros H1 H2 Hl Hb. unfold write_list. eapply breaks_before; [exact H1|exact H2|]. apply breaks_app.
  induction l as [|x l IH]; [destruct Hb as (t & [] & _)|].
  destruct (Hl x (or_introl eq_refl)) as [[tx Hx]|Hx].
  2:{ destruct l as [|y l]; [exact Hx|]. change (commas (x :: y :: l)) with (x ++ 44 :: commas (y :: l)). apply breaks_app, Hx. }
  destruct l as [|y l].
  - destruct Hb as (t & [<-|[]] & Ht). exact Ht.
  - change (commas (x :: y :: l)) with (x ++ 44 :: commas (y :: l)).
    destruct Hb as (t & [<-|Hin] & Ht).
    + apply breaks_app, Ht.
    + eapply breaks_then; [exact Hx|reflexivity|lia|auto|]. apply IH; [intros z Hz; apply Hl; right; exact Hz|eauto].
Qed.

Section Written.
Variable show : Z -> list Z.

Lemma json_cases a : shown show (erase a) -> exists text, to_json show a = Ok text
  /\ ((~ astral (erase a) /\ good text) \/ (astral (erase a) /\ breaks text)).
Proof.
  unfold to_json. induction a as [ |b|f|s|b|i l IH|i l IH] using any_rect_all; cbn [erase write_json]; intros H; inversion H as [ | |f' Hf|s' Hs|l' Hl|l' Hl]; subst.
  - eexists. split; [reflexivity|left]. split; [inversion 1|]. eexists. apply appends_word. auto.
  - eexists. split; [reflexivity|left]. split; [inversion 1|]. eexists. apply appends_word. destruct b; auto.
  - eexists. split; [reflexivity|left]. split; [inversion 1|]. eexists. apply appends_number. exact Hf.
  - eexists. split; [reflexivity|]. destruct (string_cases s Hs) as [[Hb Hg]|[(u & Hu & Hsu) Hb]]; [left|right].
    + split; [inversion 1; subst; apply (proj1 (Forall_forall _ _) Hb) in H2 as [_ H2]; contradiction|].
      rewrite <- (app_nil_r (js_string s)). apply Hg. exists []. apply appends_nil.
    + split; [econstructor; eauto|exact Hb].
  - assert (G : exists texts, SerializerModel.omap (write_json show) l = Ok texts
       /\ (forall t, In t texts -> good t \/ breaks t)
       /\ ((Forall (fun x => ~ astral (erase x)) l /\ forall t, In t texts -> good t) \/ (Exists (fun x => astral (erase x)) l /\ exists t, In t texts /\ breaks t))).
    { clear H. induction l as [|x l IHl]; [exists []; split; [reflexivity|]; split; [intros t []|left; split; [constructor|intros t []]]|].
      cbn [map] in Hl. inversion Hl as [|? ? Hx Hl']; subst.
      destruct (IH x (or_introl eq_refl) Hx) as (t & Et & Ht). destruct IHl as (ts & Ets & Hgb & Hts); [intros y Hy; apply IH; right; exact Hy|exact Hl'|].
      exists (t :: ts). split; [cbn; rewrite Et; cbn; cbn in Ets; rewrite Ets; reflexivity|]. split.
      { intros y [<-|Hy]; [destruct Ht as [[_ Ht]|[_ Ht]]; auto|auto]. }
      destruct Ht as [[H1 H2]|[H1 H2]]; [|right; split; [left; exact H1|exists t; split; [left; reflexivity|exact H2]]].
      destruct Hts as [[H3 H4]|[H3 (y & Hy & H4)]]; [left|right].
      - split; [constructor; assumption|]. intros y [<-|Hy]; auto.
      - split; [right; exact H3|exists y; split; [right; exact Hy|exact H4]]. }
    destruct G as (texts & -> & Hgb & G). cbn [obind]. eexists. split; [reflexivity|]. destruct G as [[G1 G2]|[G1 G2]]; [left|right].
    + split; [inversion 1; subst; apply in_map_iff in H2 as (x & <- & Hx); exact (proj1 (Forall_forall _ _) G1 x Hx H3)|].
      eapply list_cases; eauto; lia || reflexivity.
    + split; [apply Exists_exists in G1 as (x & Hx & Ha); eapply as_array; [apply in_map; exact Hx|exact Ha]|].
      eapply list_breaks; eauto; lia || reflexivity.
  - set (F := fun kv : list Z * any => let! t := write_json show (snd kv) in Ok (js_string (fst kv) ++ 58 :: t)).
    set (bad := fun kv : list Z * any => (exists u, In u (fst kv) /\ surrogate u) \/ astral (erase (snd kv))).
    assert (G : exists texts, SerializerModel.omap F l = Ok texts
       /\ (forall t, In t texts -> good t \/ breaks t)
       /\ ((Forall (fun x => ~ bad x) l /\ forall t, In t texts -> good t) \/ (Exists bad l /\ exists t, In t texts /\ breaks t))).
    { clear H. induction l as [|[k x] l IHl]; [exists []; split; [reflexivity|]; split; [intros t []|left; split; [constructor|intros t []]]|].
      cbn [map fst snd] in Hl. inversion Hl as [|? ? [Hk Hx] Hl']; subst. cbn [fst snd] in Hk, Hx.
      destruct (IH x (or_introl eq_refl) Hx) as (t & Et & Ht). destruct IHl as (ts & Ets & Hgb & Hts); [intros y Hy; apply IH; right; exact Hy|exact Hl'|].
      exists ((js_string k ++ 58 :: t) :: ts). split; [cbn; unfold F at 1; cbn [snd fst]; rewrite Et; cbn; cbn in Ets; rewrite Ets; reflexivity|].
      assert (Hm : (~ bad (k, x) /\ good (js_string k ++ 58 :: t)) \/ (bad (k, x) /\ breaks (js_string k ++ 58 :: t))).
      { destruct (string_cases k Hk) as [[Hb Hg]|[Hb Hg]].
        - destruct Ht as [[H1 [tt Htt]]|[H1 H2]]; [left|right].
          + split; [intros [(u & Hu & Hsu)|Hb2]; [apply (proj1 (Forall_forall _ _) Hb) in Hu as [_ Hu]; contradiction|contradiction]|].
            apply Hg. eexists. eapply appends_before; [reflexivity|lia|exact Htt].
          + split; [right; exact H1|]. intros p tp Hp rest fuel toks.
            assert (Hq : lexseq (p ++ js_string k ++ [58]) ((tp ++ [TString k]) ++ [TColon]) false TokenizerGrammar.any).
            { rewrite app_assoc. apply (lex_char _ _ TokenizerGrammar.any); [|reflexivity|lia|reflexivity].
              destruct (js_string_quoted k Hk) as (body & -> & Hq). eapply lex_tok; [exact Hp|apply lex_string, (unit_spells_bmp _ _ Hq Hb)|]. cbn. split; [lia|reflexivity]. }
            specialize (H2 _ _ Hq rest fuel toks). rewrite <- !app_assoc in H2. rewrite <- ?(app_assoc (js_string k)) in H2. rewrite <- ?(app_assoc (js_string k)). exact H2.
        - right. split; [left; exact Hb|apply breaks_app, Hg]. }
      split.
      { intros y [<-|Hy]; [destruct Hm as [[_ Hm]|[_ Hm]]; auto|auto]. }
      destruct Hm as [[H1 H2]|[H1 H2]]; [|right; split; [left; exact H1|eexists; split; [left; reflexivity|exact H2]]].
      destruct Hts as [[H3 H4]|[H3 (y & Hy & H4)]]; [left|right].
      - split; [constructor; assumption|]. intros y [<-|Hy]; auto.
      - split; [right; exact H3|exists y; split; [right; exact Hy|exact H4]]. }
    destruct G as (texts & -> & Hgb & G). cbn [obind]. eexists. split; [reflexivity|]. destruct G as [[G1 G2]|[G1 G2]]; [left|right].
    + split.
      * intros X. inversion X as [| |l' k t u Hin Hu Hsu|l' k t Hin Ha]; subst; apply in_map_iff in Hin as ([k' x] & [= <- <-] & Hx); apply (proj1 (Forall_forall _ _) G1 _ Hx); [left; eauto|right; exact Ha].
      * eapply list_cases; eauto; lia || reflexivity.
    + split.
      * apply Exists_exists in G1 as ([k x] & Hx & [(u & Hu & Hsu)|Ha]).
        -- eapply as_key; [apply in_map_iff; exists (k, x); split; [reflexivity|exact Hx]|exact Hu|exact Hsu].
        -- eapply as_member; [apply in_map_iff; exists (k, x); split; [reflexivity|exact Hx]|exact Ha].
      * eapply list_breaks; eauto; lia || reflexivity.
Qed.
End Written.

Lemma error_rejected load c toks e c' d v : In (TError e) toks -> parse_tokens_with load c toks <> Ok (c', inl (d, v)).
Proof.
  intros Hin H. unfold parse_tokens_with in H. fold start in H.
  destruct (push_all load start c toks) as [[j c1]| |] eqn:E; cbn [obind] in H; try discriminate. injection H as -> He.
  destruct (run_sound load (fun _ => True) (fun _ _ _ => I) (fun _ _ => True) toks) with (2 := E) (5 := He) as [Hg _];
    [auto|apply start_jwf|exact I|].
  apply start_jres, gmodule_no_error in Hg. apply (proj1 (Forall_forall _ _) Hg) in Hin. discriminate.
Qed.

(** A surrogate anywhere in a value, in a string or a key, at any depth: the text written for
    it is not read back, neither as this value nor as another. *)
Theorem C53_astral_refuted : forall show a, shown show (erase a) -> astral (erase a) ->
  exists text, to_json show a = Ok text /\
  forall io fuel depth c c' d v, io (cx_path c) = Some text -> parse io fuel (S depth) c <> Ok (c', inl (d, v)).
Proof.
  intros show a Hs Ha. destruct (json_cases show a Hs) as (text & Et & [[Hn _]|[_ Hb]]); [contradiction|].
  exists text. split; [exact Et|]. intros io fuel depth c c' d v Hio H. unfold parse in H. rewrite Hio in H.
  destruct (tokenize fuel text) as [toks| |] eqn:E; cbn [obind] in H; try discriminate.
  destruct (Hb [] [] ls_nil [] fuel toks) as [e He]; [cbn [app]; rewrite app_nil_r; exact E|].
  exact (error_rejected _ _ _ _ _ _ _ He H).
Qed.
Print Assumptions C53_astral_refuted.

Lemma plain_printable show : forall t, shown show t -> ~ astral t -> printable show t.
Proof.
  fix IH 1. intros t Hs Hn. destruct t as [ |b|f|s|b|l|l]; try (inversion Hs; subst; constructor; assumption).
  - inversion Hs as [| | |s' H| |]; subst. constructor. apply Forall_forall. intros u Hu. split; [exact (proj1 (Forall_forall _ _) H u Hu)|].
    intros Hsu. apply Hn. econstructor; eauto.
  - inversion Hs as [| | | |l' H|]; subst. constructor.
    assert (Hn' : forall t, In t l -> ~ astral t) by (intros t Ht Ha; apply Hn; econstructor; eauto). clear Hn Hs.
    revert H Hn'. induction l as [|x l IHl]; intros H Hn'; constructor.
    + apply IH; [inversion H; assumption|apply Hn'; left; reflexivity].
    + apply IHl; [inversion H; assumption|intros t Ht; apply Hn'; right; exact Ht].
  - inversion Hs as [| | | | |l' H]; subst. constructor.
    assert (Hn' : forall kv, In kv l -> (forall u, In u (fst kv) -> ~ surrogate u) /\ ~ astral (snd kv)).
    { intros [k t] Hin. cbn. split; [intros u Hu Hsu; apply Hn; eapply as_key; eauto|intros Ha; apply Hn; eapply as_member; eauto]. } clear Hn Hs.
    revert H Hn'. induction l as [|[k x] l IHl]; intros H Hn'; constructor.
    + apply Forall_inv in H as [H1 H2]. cbn [fst snd] in *. destruct (Hn' (k, x) (or_introl eq_refl)) as [H3 H4]. cbn [fst snd] in *. split; [|apply IH; assumption].
      apply Forall_forall. intros u Hu. split; [exact (proj1 (Forall_forall _ _) H1 u Hu)|apply H3, Hu].
    + apply IHl; [inversion H; assumption|intros kv Hkv; apply Hn'; right; exact Hkv].
Qed.

(** Which values survive a conversion to JSON: of the values without bigints whose numbers are
    printed as plain decimals, exactly those without a surrogate.  The converter itself never
    complains. *)
Theorem C74_exact_partial : forall show peek disk, any_order peek -> (forall p text, disk p text = Written) ->
  forall io tf n input d t, denotes io tf (at_root input) n input d t -> shown show t ->
  forall output, written_as output Json -> forall depth, (n <= depth)%nat -> forall cfuel prog rest,
  exists io', app_run show peek disk tf depth cfuel (prog :: input :: output :: rest) io = Ok (None, io')
    /\ (forall p, p <> output -> io' p = io p)
    /\ (~ astral t -> exists g0, forall g, (g0 <= g)%nat -> exists n', denotes io' g (at_root output) n' output Json t)
    /\ (astral t -> forall g n' d' t', ~ denotes io' g (at_root output) n' output d' t').
Proof.
  intros show peek disk order Hdisk io tf n input d t Hd Hs output W depth Hn cfuel prog rest.
  destruct (parse_complete io tf input n depth 0 d t Hd Hn) as (c' & v & Hv & <-).
  destruct (json_cases show v Hs) as (text & E & Hc).
  exists (fs_put io output (Some text)). split; [|split; [|split]].
  - unfold app_run. rewrite (written_type _ _ W). unfold fresh in Hv. rewrite Hv. cbn [obind]. rewrite E. cbn [obind]. unfold write_out. rewrite Hdisk. reflexivity.
  - intros p Hp. unfold fs_put. destruct (list_eq_dec Z.eq_dec p output); congruence.
  - intros Hna. pose proof (readable_ordered show _ (plain_printable show _ Hs Hna) (denotes_ordered _ _ _ _ _ _ _ Hd)) as Hr.
    destruct (C53_round_trip_partial show v Hr) as (text' & f0 & E' & H). assert (text' = text) by congruence. subst text'.
    exists f0. intros g Hg. destruct (H (fs_put io output (Some text)) g O (fresh output 0) Hg (put_same _ _ _)) as (c2 & b & Hb & <-).
    apply (C39_modules (fs_put io output (Some text)) g output 0 Json (erase b)). exists 1%nat, c2, b. auto.
  - intros Ha g n' d' t' Hd'. destruct (C53_astral_refuted show v Hs Ha) as (text' & E' & H). assert (text' = text) by congruence. subst text'.
    destruct (parse_complete _ _ _ _ (S n') 0 _ _ Hd' (Nat.le_succ_diag_r _)) as (c2 & b & Hb & _).
    exact (H _ _ _ (fresh output 0) _ _ _ (put_same _ _ _) Hb).
Qed.
Print Assumptions C74_exact_partial.

(** An object with a character beyond the basic plane inside: it is written as two escapes,
    which the tokenizer rejects. *)
Example C53_astral_case : let show := fun _ => txt "1" in
  let v := AObject 1 [(txt "k", AArray 2 [AString [0xD83D; 0xDE00]]); (txt "l", ANull)] in
  shown show (erase v) /\ astral (erase v) /\
  let text := txt "{""k"":[""" ++ [92] ++ txt "uD83D" ++ [92] ++ txt "uDE00""],""l"":null}" in
  to_json show v = Ok text /\ (exists toks, tokenize 100 text = Ok toks /\ existsb LexSound.is_error toks = true).
Proof.
  assert (U : forall s, Forall unit16 s <-> forallb (fun u => (0 <=? u) && (u <? 65536)) s = true).
  { intros s. rewrite forallb_forall, Forall_forall. split; intros H u Hu; specialize (H u Hu); unfold unit16 in *; lia. }
  split; [|split].
  - cbn. repeat first [solve [apply U; reflexivity]|apply sh_null|apply sh_array|apply sh_object|apply sh_string|apply Forall_nil|apply Forall_cons|split].
  - cbn. eapply as_member; [left; reflexivity|]. eapply as_array; [left; reflexivity|]. econstructor; [left; reflexivity|unfold surrogate; lia].
  - split; [vm_compute; reflexivity|]. eexists. split; [vm_compute; reflexivity|vm_compute; reflexivity].
Qed.
