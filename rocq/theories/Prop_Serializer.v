(** Properties C53 to C58 and C70: the serializers (nanvm-lib/src/serializer) and the
    converter (nanvm-lib/src/app/mod.rs).  [show] stands for [f64::to_string], which belongs
    to the standard library; [peek] for the iteration order of the hash map. *)
From Coq Require Import ZArith List Bool String Lia.
From Coq Require Import ZifyBool ZifyNat.
From Verif Require Import Outcome VTac LimbsModel LimbsSpec BigIntModel JsBigintModel BigFloatModel BigSpec LimbsProofs JsBigintProofs BigFloatSpec RangeMapSpec
  Prop_BigFloat TokenizerModel TokenizerSpec
  TokenizerRun TokenizerNum TokenizerTotal TokenizerGrammar Prop_Tokenizer ValueModel ParserModel ParserSpec BTreeProofs ParserProofs ParserRun
  ParserModules ParserMore Prop_Parser SerializerModel SerializerSpec SerializerProofs SerializerDjs SerializerRead.
Import ListNotations.
Open Scope Z_scope.
Notation any := ValueModel.any.

(** For the examples: 1.5 and 2, and everything else as 0. *)
Definition show_two (f : Z) : list Z :=
  if f =? 0x3FF8000000000000 then txt "1.5" else if f =? 0x4000000000000000 then txt "2" else txt "0".
Definition first_key (m : list (Z * any)) : option any := match m with [] => None | (_, a) :: _ => Some a end.
Definition last_key (m : list (Z * any)) : option any := first_key (rev m).

(** * C53 *)

(** The JSON text of a value made of null, booleans, numbers printed as plain decimals with at
    most 27 fraction digits, strings and keys without surrogates, arrays, and objects with
    keys in increasing order, is read back as the same value, whatever the file system. *)
Theorem C53_round_trip_partial : forall show a, readable show (erase a) ->
  exists text f0, to_json show a = Ok text /\
  forall io fuel depth c, (f0 <= fuel)%nat -> io (cx_path c) = Some text ->
  exists c' b, parse io fuel (S depth) c = Ok (c', inl (Json, b)) /\ erase b = erase a.
Proof.
  intros show a H. destruct (json_reads show a H) as (text & toks & Ht & (f0 & Hf) & Hj). exists text, f0. split; [exact Ht|].
  intros io fuel depth c Hfuel Hio. unfold parse. rewrite Hio, (Hf fuel Hfuel). cbn [obind parse_tokens].
  apply C39_json. exists O, toks, toks, O. split; [cbn; rewrite app_nil_r; reflexivity|]. split; [|exact Hj].
  clear. induction toks; constructor; assumption.
Qed.
Print Assumptions C53_round_trip_partial.

(** Which numbers that covers: at least all integers printed in decimal. *)
Lemma shown_integer : forall show f (neg : bool) digits, int_part digits -> digits <> [48] ->
  show f = (if neg then [45] else []) ++ digits ->
  f64_nearest f (if neg then Negative else Positive) (dec_real (dec_value digits) 0) -> number_shown show f.
Proof.
  intros show f neg digits Hd Hz Hs Hn.
  exists {| nl_neg := neg; nl_int := digits; nl_frac := []; nl_exp := None |}.
  split; [split; [exact Hd|split; [constructor|exact I]]|]. split; [reflexivity|]. split; [unfold number_text; cbn; rewrite !app_nil_r; exact Hs|].
  split; [vm_compute; discriminate|]. right. unfold number_mantissa. cbn [nl_int nl_frac nl_neg]. rewrite app_nil_r. split; [|exact Hn].
  destruct Hd as [Ha [->|(c & l & -> & Hc)]]; [congruence|]. inversion Ha as [|? ? Hd Hl]; subst.
  unfold dec_value. cbn [fold_left]. unfold is_digit in Hd.
  assert (Hg : forall l a, all_digits l -> 0 < a -> 0 < fold_left (fun a c => a * 10 + (c - 48)) l a).
  { clear. induction l as [|c l IH]; intros a Hl Ha; [exact Ha|]. inversion Hl as [|? ? Hc Hl']; subst. cbn [fold_left].
    apply IH; [exact Hl'|]. unfold is_digit in Hc. lia. }
  apply Hg; [exact Hl|lia].
Qed.

Definition c53_value : any :=
  AObject 1 [(txt "a", AArray 2 [ANumber 0x3FF8000000000000; ANull; AString [233; 10; 34; 1]; ANumber 0]); (txt "b", AObject 3 [])].
Example C53_case :
  (let! text := to_json show_two c53_value in
   Ok (text, seen (parse (fun _ => Some text) 2000 1 {| cx_next := 0; cx_path := []; cx_complete := []; cx_progress := []; cx_log := [] |})))
  = Ok (txt "{""a"":[1.5,null,""" ++ [92] ++ txt "u00E9" ++ [92] ++ txt "n" ++ [92; 34; 92] ++ txt "u0001"",0],""b"":{}}",
        Ok (inl (Json, erase c53_value), [[]])).
Proof. vm_compute. reflexivity. Qed.
Example C53_case_readable : exists show, readable show (erase c53_value).
Proof.
  exists (fun f => if f =? 0x3FF8000000000000 then txt "1.5" else txt "0").
  cbn. constructor; [|repeat constructor]. repeat constructor.
  all: try (unfold unit16, surrogate; cbn; lia).
  - exists {| nl_neg := false; nl_int := [49]; nl_frac := [53]; nl_exp := None |}.
    split; [split; [split; [repeat constructor|right; exists 49, []; split; [reflexivity|lia]]|split; [repeat constructor|exact I]]|].
    split; [reflexivity|]. split; [reflexivity|]. split; [vm_compute; discriminate|]. right. split; [reflexivity|]. cbn [nl_neg].
    apply f64_exact; try reflexivity; [lia|]. vm_compute. Lra.lra.
  - exists {| nl_neg := false; nl_int := [48]; nl_frac := []; nl_exp := None |}.
    split; [split; [split; [repeat constructor|left; reflexivity]|split; [constructor|exact I]]|].
    split; [reflexivity|]. split; [reflexivity|]. split; [vm_compute; discriminate|]. left. auto.
Qed.

(** Text that starts with an error token never yields a value. *)
Lemma error_first : forall load c e toks c' d v, parse_tokens_with load c (TError e :: toks) <> Ok (c', inl (d, v)).
Proof.
  intros load c e toks c' d v H.
  assert (E : exists c1 err, parse_tokens_with load c [TError e] = Ok (c1, inr err) /\ err <> UnexpectedEnd)
    by (eexists; eexists; split; [reflexivity|discriminate]).
  destruct E as (c1 & err & E & Hne). apply C41_error_final with (ts' := toks) in E; [|exact Hne]. cbn [app] in E. congruence.
Qed.

(** A string with a surrogate, as in every character beyond the basic plane, is written in a
    way the tokenizer reports as an error: the text is not read back. *)
Theorem C53_surrogate_refuted : forall show pre u post, bmp pre -> surrogate u ->
  exists text, to_json show (AString (pre ++ u :: post)) = Ok text /\
  forall io fuel depth c c' d v, io (cx_path c) = Some text -> parse io fuel (S depth) c <> Ok (c', inl (d, v)).
Proof.
  intros show pre u post Hp Hu. eexists. split; [reflexivity|]. intros io fuel depth c c' d v Hio H. unfold parse in H. rewrite Hio in H.
  assert (E : js_string (pre ++ u :: post) = 34 :: flat_map js_char pre ++
    [92; 117; u4_hex (Z.shiftr u 12); u4_hex (Z.shiftr u 8); u4_hex (Z.shiftr u 4); u4_hex u] ++ flat_map js_char post ++ [34]).
  { unfold js_string. f_equal. rewrite flat_map_app. cbn [flat_map]. unfold js_char at 2. unfold surrogate in Hu.
    destruct (Z.ltb_spec u 0x80); [lia|]. rewrite <- !app_assoc. reflexivity. }
  assert (Hr : 0xD800 <= Z.land (Z.shiftr u 12) 15 * 4096 + Z.land (Z.shiftr u 8) 15 * 256 + Z.land (Z.shiftr u 4) 15 * 16 + Z.land u 15 <= 0xDFFF).
  { unfold surrogate in Hu. rewrite u4_value by lia. lia. }
  rewrite E, (C33_surrogate_refuted fuel _ _ _ _ _ _ _ _ _ _ _ (js_string_spells pre Hp) (hex_u4 _) (hex_u4 _) (hex_u4 _) (hex_u4 _) Hr) in H.
  unfold prepend_list in H. destruct (tokenize fuel _) as [toks| |]; cbn [obind] in H; try discriminate. exact (error_first _ _ _ _ _ _ _ H).
Qed.
Print Assumptions C53_surrogate_refuted.

(** What [f64::to_string] prints for minus zero, NaN, infinity and 3e-51. *)
Definition prints_as_rust (show : Z -> list Z) : Prop :=
  show 0x8000000000000000 = txt "-0" /\ show 0x7FF8000000000000 = txt "NaN" /\ show 0x7FF0000000000000 = txt "inf"
  /\ show 0x3571F57C934C6E79 = txt "0." ++ repeat 48 50 ++ txt "3".

(** None of these numbers comes back: the first becomes 0, the next two are rejected, the
    last one makes the tokenizer run forever. *)
Theorem C53_numbers_refuted : forall show, prints_as_rust show -> forall f, In f [0x8000000000000000; 0x7FF8000000000000; 0x7FF0000000000000; 0x3571F57C934C6E79] ->
  exists text, to_json show (ANumber f) = Ok text /\
  forall io fuel depth c c' d v, io (cx_path c) = Some text -> parse io fuel (S depth) c = Ok (c', inl (d, v)) -> erase v = VNumber 0 /\ f <> 0.
Proof.
  intros show (H1 & H2 & H3 & H4) f Hf. cbn [to_json write_json]. eexists. split; [reflexivity|].
  intros io fuel depth c c' d v Hio. unfold parse. rewrite Hio. cbn [In] in Hf. destruct Hf as [<-|[<-|[<-|[<-|[]]]]].
  - rewrite H1. assert (E : tokenize fuel (txt "-0") = Ok [TNumber 0]) by reflexivity. rewrite E. cbn [obind parse_tokens].
    intros [= <- <- <-]. split; [reflexivity|lia].
  - rewrite H2. assert (E : tokenize fuel (txt "NaN") = Ok [TId (txt "NaN")]) by reflexivity. rewrite E. cbn [obind parse_tokens]. discriminate.
  - rewrite H3. assert (E : tokenize fuel (txt "inf") = Ok [TId (txt "inf")]) by reflexivity. rewrite E. cbn [obind parse_tokens]. discriminate.
  - rewrite H4, tokenize_run.
    assert (E : run fuel Initial (txt "0." ++ repeat 48 50 ++ txt "3") = Ok ([], ParseFrac {| jb_len := 1; jb_items := [3] |} Positive (-51)))
      by (vm_compute; reflexivity).
    rewrite E. unfold finish. cbn [obind tend].
    destruct (C27_decimal_refuted Positive) as [g [Hg [Vg [Eg [Sg [Rg H]]]]]].
    unfold number_token, bigfloat_to_f64. destruct g as [sig sg ex r]. cbn [bf_sig bf_sign bf_exp bf_rem] in *. subst.
    replace {| jb_len := 1; jb_items := [3] |} with sig; [rewrite H; discriminate|].
    apply jwf_inj; auto. split; [|reflexivity]. split; [repeat constructor; pose proof B_val; lia|]. cbn. lia.
Qed.
Print Assumptions C53_numbers_refuted.
Example C53_numbers_case : prints_as_rust (fun f => if f =? 0x8000000000000000 then txt "-0" else if f =? 0x7FF8000000000000 then txt "NaN"
   else if f =? 0x7FF0000000000000 then txt "inf" else txt "0." ++ repeat 48 50 ++ txt "3").
Proof. repeat split. Qed.

(** * C54 *)

(** The JSON text of every string, of whatever units, denotes these units. *)
Theorem C54_string : forall show s, Forall unit16 s ->
  exists body, to_json show (AString s) = Ok (34 :: body ++ [34]) /\ unit_spells body s.
Proof. intros show s H. exists (flat_map js_char s). split; [reflexivity|]. apply js_string_units, H. Qed.
Print Assumptions C54_string.

(** The output is a JSON text for the value, provided its numbers are printed as JSON numbers. *)
Theorem C54_json_partial : forall show a, no_bigint a -> units a -> numbers_literal show a ->
  exists text, to_json show a = Ok text /\ json_chars show text (erase a).
Proof.
  intros show. unfold to_json.
  assert (Hsub : forall a c, In c (children a) -> no_bigint a -> units a -> numbers_literal show a -> no_bigint c /\ units c /\ numbers_literal show c).
  { intros a c Hc H1 H2 H3. split; [apply (no_bigint_child a); assumption|].
    split; [intros b Hb; apply H2; eapply sub_child; eassumption|intros f Hf; apply H3; eapply sub_child; eassumption]. }
  induction a as [ |b|f|s|b|i l IH|i l IH] using any_rect_all; intros Hn Hu Hl.
  - eexists. split; [reflexivity|constructor].
  - eexists. split; [reflexivity|]. destruct b; constructor.
  - destruct (Hl f (sub_refl _)) as (n & Hok & E). eexists. split; [reflexivity|]. rewrite E. constructor; assumption.
  - eexists. split; [reflexivity|]. constructor. apply js_string_units, (Hu _ (sub_refl _)).
  - exfalso. exact (Hn _ (sub_refl _) b eq_refl).
  - assert (H : forall x, In x l -> exists text, write_json show x = Ok text /\ json_chars show text (erase x)).
    { intros x Hx. destruct (Hsub (AArray i l) x Hx Hn Hu Hl) as (? & ? & ?). apply IH; assumption. }
    destruct (omap_ok (write_json show) (fun x text => json_chars show text (erase x)) l H) as (texts & E & F).
    cbn [write_json]. rewrite E. eexists. split; [reflexivity|]. constructor.
    clear -F. induction F as [|x text l texts H F IH]; [constructor|]. cbn [map commas].
    inversion F; subst; [constructor; exact H|]. apply ji_more; [exact H|exact IH|discriminate].
  - assert (H : forall kv, In kv l -> exists text, (let! t := write_json show (snd kv) in Ok (js_string (fst kv) ++ 58 :: t)) = Ok text
       /\ exists t, text = js_string (fst kv) ++ 58 :: t /\ Forall unit16 (fst kv) /\ json_chars show t (erase (snd kv))).
    { intros kv Hkv. assert (Hx : In (snd kv) (map snd l)) by (apply in_map, Hkv).
      destruct (Hsub (AObject i l) (snd kv) Hx Hn Hu Hl) as (H1 & H2 & H3). destruct (IH _ Hx H1 H2 H3) as (t & E & Hj).
      rewrite E. eexists. split; [reflexivity|]. exists t. split; [reflexivity|]. split; [|exact Hj].
      specialize (Hu _ (sub_refl _)). cbn in Hu. rewrite Forall_forall in Hu. apply Hu, Hkv. }
    destruct (omap_ok _ _ l H) as (texts & E & F).
    cbn [write_json]. rewrite E. eexists. split; [reflexivity|]. constructor.
    clear -F. induction F as [|[k x] text l texts H F IH]; [constructor|]. cbn [map commas fst snd] in *.
    destruct H as (t & -> & Hk & Hj). unfold js_string.
    inversion F; subst.
    + cbn [commas app]. rewrite <- app_assoc. apply jp_one; [apply js_string_units, Hk|exact Hj].
    + cbn [app]. rewrite <- !app_assoc. cbn [app]. apply (jp_more show (flat_map js_char k)); [apply js_string_units, Hk|exact Hj|exact IH|discriminate].
Qed.
Print Assumptions C54_json_partial.

(** Where that is missed: [NaN] is printed as a word. *)
Theorem C54_nan_refuted : forall show, prints_as_rust show -> forall f, In f [0x7FF8000000000000; 0x7FF0000000000000] ->
  exists text, to_json show (ANumber f) = Ok text /\ forall t, ~ json_chars show text t.
Proof.
  intros show (_ & H2 & H3 & _).
  assert (Hn : forall n, number_ok n -> number_text n <> txt "NaN" /\ number_text n <> txt "inf").
  { intros n [[Hd Hi] _]. assert (Hne : exists c r, nl_int n = c :: r) by (destruct Hi as [->|(c & l & -> & _)]; eauto).
    destruct Hne as (c & r & E). unfold number_text. rewrite E in *. inversion Hd as [|? ? Hc _]; subst. unfold is_digit in Hc.
    split; intros [= H]; destruct (nl_neg n); cbn in H; injection H; intros; lia. }
  assert (Hj : forall w t, json_chars show w t -> w <> txt "NaN" /\ w <> txt "inf").
  { intros w t H. destruct H; try (split; discriminate). apply Hn. assumption. }
  intros f [<-|[<-|[]]]; eexists; (split; [reflexivity|]); rewrite ?H2, ?H3; intros t H; destruct (Hj _ _ H); congruence.
Qed.
Print Assumptions C54_nan_refuted.

(** All characters are in 0x20..0x7F, if those of the numbers are. *)
Theorem C54_printable_partial : forall show a text, (forall f, Forall (fun c => 32 <= c <= 126) (show f)) -> units a ->
  to_json show a = Ok text -> Forall (fun c => 32 <= c <= 127) text.
Proof.
  intros show a text Hs. revert text. unfold to_json.
  assert (Hsub : forall a c, In c (children a) -> units a -> units c).
  { intros x c Hc H1 b Hb. apply H1. eapply sub_child; eassumption. }
  assert (Hw : forall o c l, 32 <= o <= 127 -> 32 <= c <= 127 -> Forall (Forall (fun c => 32 <= c <= 127)) l -> Forall (fun c => 32 <= c <= 127) (write_list o c l)).
  { intros o c l Ho Hc Hl. unfold write_list. constructor; [exact Ho|]. apply Forall_app. split; [|repeat constructor; lia].
    induction Hl as [|x l Hx Hl IH]; [constructor|]. cbn [commas]. destruct l; [exact Hx|].
    apply Forall_app. split; [exact Hx|]. constructor; [lia|exact IH]. }
  assert (Hm : forall A (f : A -> outcome (list Z)) l ys, omap f l = Ok ys -> (forall x y, In x l -> f x = Ok y -> Forall (fun c => 32 <= c <= 127) y) ->
     Forall (Forall (fun c => 32 <= c <= 127)) ys).
  { clear. intros A f l. induction l as [|x l IH]; intros ys E H; [injection E as <-; constructor|]. rewrite omap_cons in E.
    destruct (f x) as [y| |] eqn:Ex; cbn [obind] in E; try discriminate. destruct (omap f l) as [ys'| |] eqn:El; cbn [obind] in E; try discriminate.
    injection E as <-. constructor; [apply (H x); [left; reflexivity|exact Ex]|]. apply IH; [reflexivity|]. intros; eapply H; [right|]; eassumption. }
  induction a as [ |b|f|s|b|i l IH|i l IH] using any_rect_all; cbn [write_json]; intros text Hu E.
  - injection E as <-. cbn. repeat constructor; lia.
  - injection E as <-. destruct b; cbn; repeat constructor; lia.
  - injection E as <-. eapply Forall_impl; [|apply Hs]. cbn. lia.
  - injection E as <-. apply js_string_nonneg. exact (Hu _ (sub_refl _)).
  - discriminate.
  - destruct (omap _ l) as [ys| |] eqn:El; cbn [obind] in E; try discriminate. injection E as <-. apply Hw; [lia|lia|].
    apply (Hm _ _ _ _ El). intros x y Hx Ey. apply (IH x Hx); [|exact Ey]. exact (Hsub (AArray i l) x Hx Hu).
  - destruct (omap _ l) as [ys| |] eqn:El; cbn [obind] in E; try discriminate. injection E as <-. apply Hw; [lia|lia|].
    apply (Hm _ _ _ _ El). intros [k x] y Hx Ey. cbn [fst snd] in Ey.
    destruct (write_json show x) as [t| |] eqn:Et; cbn [obind] in Ey; try discriminate. injection Ey as <-.
    assert (Hin : In x (map snd l)) by (apply (in_map snd) in Hx; exact Hx).
    pose proof (Hu _ (sub_refl _)) as Hk. cbn in Hk. rewrite Forall_forall in Hk. specialize (Hk _ Hx). cbn in Hk.
    apply (Forall_app _ (js_string k) (58 :: t)). split; [apply js_string_nonneg, Hk|]. constructor; [lia|]. apply (IH x Hin); [|exact Et]. exact (Hsub (AObject i l) x Hin Hu).
Qed.
Print Assumptions C54_printable_partial.

(** The DELETE character is not escaped. *)
Theorem C54_del_refuted : forall show, exists a text, units a /\ to_json show a = Ok text /\ In 127 text.
Proof.
  intros show. exists (AString [127]), [34; 127; 34]. split; [|split; [reflexivity|cbn; auto]].
  intros b Hb. inversion Hb; subst; [|contradiction]. repeat constructor; lia.
Qed.
Print Assumptions C54_del_refuted.
Example C54_case : to_json show_two (AString [0; 31; 34; 92; 127; 128; 0xD83D; 0xFFFF])
  = Ok (34 :: flat_map (fun h => [92; 117] ++ h) [txt "0000"; txt "001F"] ++ [92; 34; 92; 92; 127] ++
        flat_map (fun h => [92; 117] ++ h) [txt "0080"; txt "D83D"; txt "FFFF"] ++ [34]).
Proof. vm_compute. reflexivity. Qed.

(** * C55 *)

(** Without bigints, both serializers return. *)
Theorem C55_total_partial : forall show a, no_bigint a -> units a ->
  (exists text, to_json show a = Ok text) /\
  (coherent a -> forall peek, any_order peek -> forall cjs, exists f0, forall fuel, (f0 <= fuel)%nat -> exists text, to_djs show peek fuel a cjs = Ok text).
Proof.
  intros show a H Hu. split.
  - destruct (with_refs_written show [] a H Hu) as (text & E & _). exists text. unfold to_json. rewrite <- with_refs_nil. exact E.
  - intros coh peek order cjs. destruct (to_djs_text show a coh H Hu peek order cjs) as [f0 Hf]. exists f0. intros fuel Hfuel.
    destruct (Hf fuel Hfuel) as (defs & bodies & body & E & _). eauto.
Qed.
Print Assumptions C55_total_partial.

(** A bigint anywhere inside makes [to_json] panic, and [to_djs] never returns a text. *)
Theorem C55_bigint_refuted : forall show a b, sub a (ABigint b) ->
  to_json show a = Panic /\
  (coherent a -> forall peek fuel cjs text, any_order peek -> to_djs show peek fuel a cjs <> Ok text).
Proof.
  intros show a b H. split.
  - unfold to_json. rewrite <- with_refs_nil. apply (bigint_panics show [] a b H). reflexivity.
  - intros coh peek fuel cjs text order E. exact (to_djs_clean show a coh peek fuel cjs text order E _ H b eq_refl).
Qed.
Print Assumptions C55_bigint_refuted.
Example C55_case : let b := {| jb_len := 1; jb_items := [7] |} in
  to_json show_two (AArray 1 [ABigint b]) = Panic /\ to_djs show_two first_key 10 (AArray 1 [AArray 2 [ABigint b]; ANull; AArray 2 [ABigint b]]) true = Panic.
Proof. vm_compute. auto. Qed.

(** * C56 *)

(** The module that [to_djs] writes denotes the value, for every hash order. *)
Theorem C56_denotes_partial : forall show r, coherent r -> readable show (erase r) -> forall peek, any_order peek -> forall cjs,
  exists f0, forall fuel, (f0 <= fuel)%nat -> exists text toks, to_djs show peek fuel r cjs = Ok text
    /\ (exists g0, forall g, (g0 <= g)%nat -> tokenize g text = Ok toks) /\ js_module [] cjs toks (erase r).
Proof.
  intros show r coh rd peek order cjs.
  destruct (to_djs_text show r coh (readable_no_bigint show r rd) (readable_units show r rd) peek order cjs) as [f0 Hf]. exists f0. intros fuel Hfuel.
  destruct (Hf fuel Hfuel) as (defs & bodies & body & E & lens & _ & subs & sh & texts & before & Hw).
  destruct (module_read show r coh rd defs bodies lens subs sh texts before cjs body Hw) as (toks & Ht & Hm & _).
  exists (declarations O bodies ++ header cjs ++ body), toks. auto.
Qed.
Print Assumptions C56_denotes_partial.

(** Two blocks shared, one inside the other. *)
Definition c56_inner : any := AArray 5 [ANumber 0x4000000000000000].
Definition c56_outer : any := AObject 6 [(txt "p", c56_inner); (txt "q", c56_inner)].
Definition c56_value : any := AArray 7 [c56_outer; AArray 8 [c56_outer]; c56_inner].
Example C56_case :
  to_djs show_two first_key 10 c56_value false
  = Ok (txt "const _0=[2];const _1={""p"":_0,""q"":_0};export default [_1,[_1],_0]")
  /\ to_djs show_two last_key 10 c56_value true
  = Ok (txt "const _0=[2];const _1={""p"":_0,""q"":_0};module.exports=[_1,[_1],_0]").
Proof. vm_compute. auto. Qed.
(** Blocks side by side are written in the order that the hash map gives. *)
Example C56_order :
  let v := AArray 1 [AArray 2 []; AArray 2 []; AArray 3 [ANull]; AArray 3 [ANull]] in
  to_djs show_two first_key 10 v false = Ok (txt "const _0=[];const _1=[null];export default [_0,_0,_1,_1]")
  /\ to_djs show_two last_key 10 v false = Ok (txt "const _0=[null];const _1=[];export default [_1,_1,_0,_0]").
Proof. vm_compute. auto. Qed.
Lemma c56_subs : forall b, sub c56_value b -> In b [c56_value; c56_outer; AArray 8 [c56_outer]; c56_inner; ANumber 0x4000000000000000].
Proof.
  assert (G : forall a b, sub a b -> In a [c56_value; c56_outer; AArray 8 [c56_outer]; c56_inner; ANumber 0x4000000000000000] ->
     In b [c56_value; c56_outer; AArray 8 [c56_outer]; c56_inner; ANumber 0x4000000000000000]).
  { induction 1 as [|a c b Hc Hs IH]; [auto|]. intros Ha. apply IH.
    cbn [In] in Ha. destruct Ha as [<-|[<-|[<-|[<-|[<-|[]]]]]]; cbn in Hc; cbn; intuition auto. }
  intros b Hb. exact (G _ _ Hb (or_introl eq_refl)).
Qed.
Lemma c56_coherent : coherent c56_value.
Proof.
  assert (H : forall b, sub c56_value b -> forall i, ident_of b = Some i ->
     b = c56_value \/ b = c56_outer \/ b = AArray 8 [c56_outer] \/ b = c56_inner).
  { intros b Hb i Hi. pose proof (c56_subs _ Hb) as G. cbn [In] in G.
    destruct G as [<-|[<-|[<-|[<-|[<-|[]]]]]]; auto. discriminate. }
  intros b c i Hb Hc Ib Ic. destruct (H b Hb i Ib) as [->|[->|[->| ->]]], (H c Hc i Ic) as [->|[->|[->| ->]]]; cbn in *; congruence.
Qed.

(** * C57 *)

(** For every object graph without bigints and every hash order: the text is a list of
    constants, one for each block referred to at least twice and for no other block, followed
    by the export; the blocks inside a constant that are constants themselves come earlier;
    every constant body and the exported value spell out their blocks, except those that have
    a name. *)
Theorem C57_shared_once : forall show r, coherent r -> no_bigint r -> units r -> forall peek, any_order peek -> forall cjs,
  exists f0, forall fuel, (f0 <= fuel)%nat -> exists defs bodies body,
  to_djs show peek fuel r cjs = Ok (declarations O bodies ++ header cjs ++ body)
  /\ List.length bodies = List.length defs
  /\ NoDup (map ident_of defs)
  /\ (forall b, In b defs -> sub r b /\ ident_of b <> None)
  /\ (forall i, shared r i <-> In (Some i) (map ident_of defs))
  /\ (forall k b t, nth_error defs k = Some b -> nth_error bodies k = Some t -> spelled show (index_of defs) b t)
  /\ (forall k b c i, nth_error defs k = Some b -> inside b c -> ident_of c = Some i -> shared r i ->
      exists j, (j < k)%nat /\ index_of defs i = Some j)
  /\ written show (index_of defs) r body.
Proof. intros show r coh nob uni peek order cjs. exact (to_djs_text show r coh nob uni peek order cjs). Qed.
Print Assumptions C57_shared_once.
(** The hypotheses hold of the example above, where blocks 5 and 6 are shared and 8 is not. *)
Example C57_case : coherent c56_value /\ no_bigint c56_value /\ units c56_value /\ any_order first_key /\ any_order last_key
  /\ shared c56_value 5 /\ shared c56_value 6 /\ ~ shared c56_value 8.
Proof.
  split; [exact c56_coherent|]. split.
  { intros b Hb x ->. pose proof (c56_subs _ Hb) as G. cbn [In] in G. intuition discriminate. }
  split.
  { intros b Hb. pose proof (c56_subs _ Hb) as G. cbn [In] in G. destruct G as [<-|[<-|[<-|[<-|[<-|[]]]]]]; cbn; try exact I.
    repeat constructor; cbn; lia. }
  assert (Hf : any_order first_key).
  { split; [reflexivity|]. intros [|[i a] m] H; [congruence|]. exists i, a. split; [left; reflexivity|reflexivity]. }
  split; [exact Hf|]. split.
  { split; [reflexivity|]. intros m H. assert (Hr : rev m <> []) by (intros E; apply H; rewrite <- (rev_involutive m), E; reflexivity).
    destruct (proj2 Hf (rev m) Hr) as (i & a & Hin & E). exists i, a. split; [apply in_rev; exact Hin|exact E]. }
  assert (S6 : sub c56_value c56_outer) by (apply (sub_child _ c56_outer); [left; reflexivity|constructor]).
  assert (S8 : sub c56_value (AArray 8 [c56_outer])) by (eapply sub_child; [right; left; reflexivity|constructor]).
  split; [|split].
  - exists (Some (6, O)), (Some (6, 1%nat)). split; [discriminate|].
    split; eapply pl_child; try exact S6; reflexivity.
  - exists (Some (7, O)), (Some (8, O)). split; [discriminate|]. split.
    + eapply pl_child; [apply sub_refl|reflexivity..].
    + eapply pl_child; [exact S8|reflexivity..].
  - assert (G : forall p, place c56_value 8 p -> p = Some (7, 1%nat)).
    { intros p Hp. inversion Hp as [E|b j k c Hb Hj Hk Hc]; subst; [discriminate|].
      pose proof (c56_subs _ Hb) as G. cbn [In] in G.
      destruct G as [<-|[<-|[<-|[<-|[<-|[]]]]]]; injection Hj as <- || discriminate;
        destruct k as [|[|[|[|k]]]]; cbn in Hk; try discriminate; injection Hk as <-; try discriminate Hc; reflexivity. }
    intros (p & q & Hne & Hp & Hq). apply Hne. rewrite (G p Hp), (G q Hq). reflexivity.
Qed.

(** * C58 *)

(** As soon as some block is shared, the parser rejects the text. *)
Theorem C58_read_back_refuted : forall show r, coherent r -> readable show (erase r) -> forall peek, any_order peek -> forall cjs,
  (exists i, shared r i) ->
  exists f0, forall fuel, (f0 <= fuel)%nat -> exists text, to_djs show peek fuel r cjs = Ok text /\
  exists g0, forall g io depth c c' d v, (g0 <= g)%nat -> io (cx_path c) = Some text -> parse io g (S depth) c <> Ok (c', inl (d, v)).
Proof.
  intros show r coh rd peek order cjs [i Hi].
  destruct (to_djs_text show r coh (readable_no_bigint show r rd) (readable_units show r rd) peek order cjs) as [f0 Hf]. exists f0. intros fuel Hfuel.
  destruct (Hf fuel Hfuel) as (defs & bodies & body & E & lens & _ & subs & sh & texts & before & Hw).
  destruct (module_read show r coh rd defs bodies lens subs sh texts before cjs body Hw) as (toks & [g0 Ht] & _ & Hs & _).
  eexists. split; [exact E|]. exists g0. intros g io depth c c' d v Hg Hio H. unfold parse in H. rewrite Hio, (Ht g Hg) in H.
  cbn [obind parse_tokens] in H. revert H. apply semicolon_rejected, Hs. intros ->. apply sh in Hi. exact Hi.
Qed.
Print Assumptions C58_read_back_refuted.

(** If no block is shared, the text is read back as the same value. *)
Theorem C58_read_back_partial : forall show r, coherent r -> readable show (erase r) -> forall peek, any_order peek -> forall cjs,
  (forall i, ~ shared r i) ->
  exists f0, forall fuel, (f0 <= fuel)%nat -> exists text, to_djs show peek fuel r cjs = Ok text /\
  exists g0, forall g io depth c, (g0 <= g)%nat -> io (cx_path c) = Some text ->
  exists c' v, parse io g (S depth) c = Ok (c', inl (if cjs then Cjs else Mjs, v)) /\ erase v = erase r.
Proof.
  intros show r coh rd peek order cjs Hno.
  destruct (to_djs_text show r coh (readable_no_bigint show r rd) (readable_units show r rd) peek order cjs) as [f0 Hf]. exists f0. intros fuel Hfuel.
  destruct (Hf fuel Hfuel) as (defs & bodies & body & E & lens & _ & subs & sh & texts & before & Hw).
  destruct (module_read show r coh rd defs bodies lens subs sh texts before cjs body Hw) as (toks & [g0 Ht] & _ & _ & Hv).
  assert (Hd : defs = []).
  { destruct defs as [|b defs]; [reflexivity|]. exfalso. destruct (subs b (or_introl eq_refl)) as [_ Hb].
    destruct (ident_of b) as [j|] eqn:Ej; [|congruence]. apply (Hno j), sh. left. exact Ej. }
  destruct (Hv Hd) as (vt & Hj & Etok). eexists. split; [exact E|]. exists g0. intros g io depth c Hg Hio. unfold parse.
  rewrite Hio, (Ht g Hg), Etok. cbn [obind parse_tokens]. apply run_module.
  assert (Hfin : forall d, gfinal (fun _ _ => False) [] d vt d (erase r)).
  { intros d. exists vt, vt, O. split; [cbn; rewrite app_nil_r; reflexivity|].
    split; [clear; induction vt; constructor; assumption|]. apply (proj1 (js_gval (fun _ _ => False) [] d eq_refl)). exact Hj. }
  destruct cjs; cbn [app]; [apply gs_exports|apply gs_export]; try reflexivity; apply Hfin.
Qed.
Print Assumptions C58_read_back_partial.
Example C58_case_readable : readable show_two (erase c56_value) /\ readable show_two (erase (AArray 1 [c56_inner])).
Proof.
  assert (H : number_shown show_two 0x4000000000000000).
  { apply (shown_integer _ _ false (txt "2")); [split; [repeat constructor|right; exists 50, []; split; [reflexivity|lia]]|discriminate|reflexivity|].
    apply f64_exact; try reflexivity; [lia|]. vm_compute. Lra.lra. }
  split; cbn; repeat constructor; try exact H; unfold unit16, surrogate; cbn; lia.
Qed.
Example C58_case :
  let c := {| cx_next := 0; cx_path := []; cx_complete := []; cx_progress := []; cx_log := [] |} in
  (let! text := to_djs show_two first_key 10 c53_value true in Ok (seen (parse (fun _ => Some text) 2000 1 c)))
   = Ok (Ok (inl (Cjs, erase c53_value), [[]]))
  /\ (let! text := to_djs show_two first_key 10 c56_value false in Ok (seen (parse (fun _ => Some text) 2000 1 c)))
   = Ok (Ok (inr NewLineExpected, [[]])).
Proof. vm_compute. auto. Qed.

(** * C70 *)

(** Whenever the converter returns, there are three cases.  It reports an error and no file has
    changed.  Or it has parsed the input and serialized the value as the extension of the output
    says, and the write succeeded: then it reports success, and the output file, and no other
    file, holds that text.  Or this write failed: then it reports an error, and what the
    failed write left is in the output file, and no other file has changed. *)
Theorem C70_run : forall show peek disk tfuel depth cfuel prog input output rest io e io',
  app_run show peek disk tfuel depth cfuel (prog :: input :: output :: rest) io = Ok (e, io') ->
  (e <> None /\ forall p, io' p = io p)
  \/ (exists c v d text,
       parse io tfuel depth {| cx_next := 0; cx_path := input; cx_complete := []; cx_progress := []; cx_log := [] |} = Ok (c, inl (d, v))
       /\ ((exists s, output = s ++ txt ".json") /\ to_json show v = Ok text
           \/ (exists s, output = s ++ txt ".d.cjs") /\ to_djs show peek cfuel v true = Ok text
           \/ (exists s, output = s ++ txt ".d.mjs") /\ to_djs show peek cfuel v false = Ok text)
       /\ (forall p, p <> output -> io' p = io p)
       /\ (e = None /\ disk output text = Written /\ io' output = Some text
           \/ e = Some WriteFailed /\ exists kept, disk output text = NotWritten kept /\ io' output = kept)).
Proof.
  intros show peek disk tfuel depth cfuel prog input output rest io e io'. unfold app_run.
  assert (Hend : forall a b, ends_with a b = true -> exists s, a = s ++ b).
  { intros a b H. unfold ends_with in H. apply andb_true_iff in H as [_ H]. apply str_eqb_eq in H.
    exists (firstn (List.length a - List.length b) a). rewrite <- H at 2. symmetry. apply firstn_skipn. }
  unfold file_to_data_type.
  assert (Hw : forall text, write_out disk io output text = Ok (e, io') -> (forall p, p <> output -> io' p = io p)
       /\ (e = None /\ disk output text = Written /\ io' output = Some text
           \/ e = Some WriteFailed /\ exists kept, disk output text = NotWritten kept /\ io' output = kept)).
  { intros text. unfold write_out. destruct (disk output text) as [|kept]; intros [= <- <-]; (split; [intros p Hp; unfold fs_put; destruct (list_eq_dec Z.eq_dec p output); congruence|]).
    - left. split; [reflexivity|]. split; [reflexivity|]. unfold fs_put. destruct (list_eq_dec Z.eq_dec output output); congruence.
    - right. split; [reflexivity|]. exists kept. split; [reflexivity|]. unfold fs_put. destruct (list_eq_dec Z.eq_dec output output); congruence. }
  destruct (ends_with output (txt ".json")) eqn:E1; [|destruct (ends_with output (txt ".d.cjs")) eqn:E2; [|destruct (ends_with output (txt ".d.mjs")) eqn:E3]].
  4: { intros [= <- <-]. left. split; [discriminate|reflexivity]. }
  all: destruct (parse io tfuel depth _) as [[c [[d v]|err]]| |]; cbn [obind]; intros H; try discriminate;
       [|injection H as <- <-; left; split; [discriminate|reflexivity]].
  - destruct (to_json show v) as [text| |] eqn:Et; cbn [obind] in H; try discriminate. right.
    exists c, v, d, text. split; [reflexivity|]. split; [left; auto|apply Hw, H].
  - destruct (to_djs show peek cfuel v true) as [text| |] eqn:Et; cbn [obind] in H; try discriminate. right.
    exists c, v, d, text. split; [reflexivity|]. split; [right; left; auto|apply Hw, H].
  - destruct (to_djs show peek cfuel v false) as [text| |] eqn:Et; cbn [obind] in H; try discriminate. right.
    exists c, v, d, text. split; [reflexivity|]. split; [right; right; auto|apply Hw, H].
Qed.
Print Assumptions C70_run.

(** A parse error or an unknown extension is reported: the converter does not panic. *)
Theorem C70_reports : forall show peek disk tfuel depth cfuel prog input output rest io,
  let c := {| cx_next := 0; cx_path := input; cx_complete := []; cx_progress := []; cx_log := [] |} in
  ((forall s, output <> s ++ txt ".json" /\ output <> s ++ txt ".d.cjs" /\ output <> s ++ txt ".d.mjs")
   \/ exists c' err, parse io tfuel depth c = Ok (c', inr err)) ->
  exists e, app_run show peek disk tfuel depth cfuel (prog :: input :: output :: rest) io = Ok (Some e, io).
Proof.
  intros show peek disk tfuel depth cfuel prog input output rest io c H. unfold app_run. fold c.
  destruct (file_to_data_type output) as [dt|] eqn:E; [|eauto].
  destruct H as [H|(c' & err & ->)]; [|cbn [obind]; eauto]. exfalso.
  assert (Hend : forall a b, ends_with a b = true -> exists s, a = s ++ b).
  { clear. intros a b H. unfold ends_with in H. apply andb_true_iff in H as [_ H]. apply str_eqb_eq in H.
    exists (firstn (List.length a - List.length b) a). rewrite <- H at 2. symmetry. apply firstn_skipn. }
  unfold file_to_data_type in E.
  destruct (ends_with output (txt ".json")) eqn:E1; [destruct (Hend _ _ E1) as [s Hs]; destruct (H s); tauto|].
  destruct (ends_with output (txt ".d.cjs")) eqn:E2; [destruct (Hend _ _ E2) as [s Hs]; destruct (H s); tauto|].
  destruct (ends_with output (txt ".d.mjs")) eqn:E3; [destruct (Hend _ _ E3) as [s Hs]; destruct (H s); tauto|]. discriminate.
Qed.
Print Assumptions C70_reports.

(** Fewer than two file names, or a value with a bigint in it, panic instead. *)
Theorem C70_panics_refuted : forall show peek disk tfuel depth cfuel io,
  (forall args, (List.length args < 3)%nat -> app_run show peek disk tfuel depth cfuel args io = Panic)
  /\ (forall prog input s rest c d v b,
       parse io tfuel depth {| cx_next := 0; cx_path := input; cx_complete := []; cx_progress := []; cx_log := [] |} = Ok (c, inl (d, v)) ->
       sub v (ABigint b) -> app_run show peek disk tfuel depth cfuel (prog :: input :: (s ++ txt ".json") :: rest) io = Panic).
Proof.
  intros show peek disk tfuel depth cfuel io. split.
  - intros [|a [|b [|c l]]] H; cbn in H; try reflexivity. lia.
  - intros prog input s rest c d v b Hp Hb. unfold app_run, file_to_data_type.
    replace (ends_with (s ++ txt ".json") (txt ".json")) with true.
    + rewrite Hp. cbn [obind]. rewrite (proj1 (C55_bigint_refuted show v b Hb)). reflexivity.
    + symmetry. unfold ends_with. rewrite app_length. apply andb_true_iff. split; [apply Nat.leb_le; lia|].
      rewrite Nat.add_sub, skipn_app, skipn_all, Nat.sub_diag. apply str_eqb_eq. reflexivity.
Qed.
Print Assumptions C70_panics_refuted.

Definition good_disk (p text : list Z) : write_result := Written.
Example C70_case :
  let io : fs := fun p => if str_eqb p (txt "a.json") then Some (txt "{""b"": [1.5, 2]}") else if str_eqb p (txt "b.json") then Some (txt "[7n") else None in
  let go out := app_run show_two first_key good_disk 100 2 10 [txt "nanvm"; txt "a.json"; out] io in
  (let! (e, io') := go (txt "o.json") in Ok (e, io' (txt "o.json"), io' (txt "a.json"))) = Ok (None, Some (txt "{""b"":[1.5,2]}"), io (txt "a.json"))
  /\ (let! (e, io') := go (txt "o.d.cjs") in Ok (e, io' (txt "o.d.cjs"))) = Ok (None, Some (txt "module.exports={""b"":[1.5,2]}"))
  /\ (let! (e, io') := go (txt "o.d.mjs") in Ok (e, io' (txt "o.d.mjs"))) = Ok (None, Some (txt "export default {""b"":[1.5,2]}"))
  /\ (let! (e, io') := go (txt "o.js") in Ok (e, io' (txt "o.js"))) = Ok (Some BadExtension, None)
  /\ (let! (e, io') := app_run show_two first_key good_disk 100 2 10 [txt "nanvm"; txt "b.json"; txt "b.json"] io in Ok (e, io' (txt "b.json")))
     = Ok (Some (ParseFailed UnexpectedEnd), Some (txt "[7n"))
  /\ (let! (e, io') := app_run show_two first_key (fun _ text => NotWritten (Some (firstn 1 text))) 100 2 10 [txt "nanvm"; txt "a.json"; txt "o.json"] io in Ok (e, io' (txt "o.json"), io' (txt "a.json")))
     = Ok (Some WriteFailed, Some (txt "{"), io (txt "a.json")).
Proof. vm_compute. repeat split. Qed.
