(** Reading serialized values back. *)
From Coq Require Import ZArith List Bool String Lia.
From Coq Require Import ZifyBool ZifyNat.
From Coq Require Import Reals Lra.
From Flocq Require Import Core.Core IEEE754.BinarySingleNaN IEEE754.Binary IEEE754.Bits.
From Verif Require Import Outcome LimbsModel LimbsSpec BigIntModel JsBigintModel BigFloatModel BigSpec JsBigintProofs BigFloatSpec RangeMapSpec
  Prop_BigFloat TokenizerModel TokenizerSpec
  TokenizerRun TokenizerNum TokenizerTotal TokenizerGrammar Prop_Tokenizer ValueModel ParserModel ParserSpec BTreeProofs ParserProofs ParserRun
  ParserModules ParserMore SerializerModel SerializerSpec SerializerProofs SerializerDjs.
Import ListNotations.
Open Scope Z_scope.
Notation any := ValueModel.any.

Lemma readable_child show a c : readable show (erase a) -> In c (children a) -> readable show (erase c).
Proof.
  destruct a; cbn [children erase]; try contradiction; intros H Hc; inversion H as [| | | |l Hl|l Hl Hs]; subst.
  - rewrite Forall_map, Forall_forall in Hl. auto.
  - rewrite Forall_map, Forall_forall in Hl. apply in_map_iff in Hc as (kv & <- & Hc). apply (Hl kv Hc).
Qed.
Lemma readable_sub show a b : sub a b -> readable show (erase a) -> readable show (erase b).
Proof. induction 1; [auto|]. intros Hr. apply IHsub. eapply readable_child; eassumption. Qed.
Lemma readable_no_bigint show a : readable show (erase a) -> no_bigint a.
Proof. intros H b Hb x ->. apply (readable_sub show _ _ Hb) in H. inversion H. Qed.

Lemma readable_units show a : readable show (erase a) -> SerializerSpec.units a.
Proof.
  intros H b Hb. apply (readable_sub show _ _ Hb) in H. destruct b; try exact I; inversion H; subst.
  - match goal with H : bmp _ |- _ => eapply Forall_impl; [|exact H] end. cbn. tauto.
  - match goal with H : Forall _ (map _ _) |- _ => rewrite Forall_map in H; eapply Forall_impl; [|exact H] end. cbn. intros kv [Hk _].
    eapply Forall_impl; [|exact Hk]. cbn. tauto.
Qed.

(** ** Exact numbers *)
Lemma f64_exact f s x : 0 <= f < 2 ^ 64 -> is_finite 53 1024 (b64_of_bits f) = true -> Bsign 53 1024 (b64_of_bits f) = neg_bit s ->
  B2R 53 1024 (b64_of_bits f) = (if neg_bit s then - x else x)%R -> f64_nearest f s x.
Proof.
  intros Hr Hf Hs Hx.
  assert (Hg : generic_format radix2 (FLT_exp (-1074) 53) x).
  { pose proof (generic_format_B2R 53 1024 (b64_of_bits f)) as G. change (SpecFloat.fexp 53 1024) with (FLT_exp (-1074) 53) in G.
    rewrite Hx in G. destruct (neg_bit s); [|exact G]. apply generic_format_opp in G. rewrite Ropp_involutive in G. exact G. }
  assert (Hrd : rne64 x = x) by (unfold rne64; apply round_generic; [typeclasses eauto|exact Hg]).
  split; [exact Hr|]. rewrite Hrd. split; [intros _; auto|].
  intros Hb. exfalso. pose proof (abs_B2R_lt_emax 53 1024 (b64_of_bits f)) as A. rewrite Hx in A.
  apply (Rlt_not_le _ _ A). apply Rle_trans with (1 := Hb). destruct (neg_bit s); [rewrite Rabs_Ropp|]; apply Rle_abs.
Qed.

(** ** Values with names in a module *)
Lemma js_gval mods env d : lookup env (txt "require") = None ->
  (forall a t, js_value env a t -> forall p, gval mods env p d a d t)
  /\ (forall a ts, js_elems env a ts -> forall p, gelems mods env p d a d ts)
  /\ (forall a kvs, js_members env a kvs -> forall f, gmembers mods env f d a d kvs).
Proof.
  intros Hr. apply js_mutind; intros.
  - constructor; [assumption|]. intros ->. exfalso. inversion H; subst.
    match goal with L : lookup env _ = Some ?t |- _ => assert (E : Some t = None); [transitivity (lookup env (txt "require")); [symmetry; exact L|exact Hr]|discriminate] end.
  - constructor. auto.
  - econstructor; eauto.
  - constructor.
  - constructor. auto.
  - econstructor; eauto.
  - constructor.
  - constructor; [constructor|auto].
  - econstructor; [constructor|auto|auto].
Qed.

Lemma run_module load c toks d t : gmodule (fun _ _ => False) [] Json true toks d t ->
  exists c' v, parse_tokens_with load c toks = Ok (c', inl (d, v)) /\ erase v = t.
Proof.
  intros H. apply start_jres in H.
  assert (Hl : forall (x : context) m (u : tree), In (TString m) toks -> True -> (fun _ _ => False : Prop) m u ->
    exists c' a, load x m = Ok (c', inl a) /\ erase a = u /\ True) by contradiction.
  destruct (run_complete load (fun _ => True) (fun _ _ _ => I) (fun _ _ => False) toks Hl start c d t H start_jwf I)
    as (j' & c' & v & Hp & He & Hv & _).
  exists c', v. unfold parse_tokens_with. fold start. rewrite Hp. cbn. rewrite He. auto.
Qed.

(** Nothing that the parser accepts contains a semicolon. *)
Lemma gval_semicolon mods env :
  (forall p d a d' t, gval mods env p d a d' t -> ~ In TSemicolon a)
  /\ (forall p d a d' ts, gelems mods env p d a d' ts -> ~ In TSemicolon a)
  /\ (forall f d a d' kvs, gmembers mods env f d a d' kvs -> ~ In TSemicolon a).
Proof.
  apply gval_mutind; intros; cbn [In]; rewrite ?in_app_iff; cbn [In]; try tauto.
  - intros [->|[]]. inversion H.
  - intuition discriminate.
  - intuition discriminate.
  - intuition discriminate.
  - intuition discriminate.
  - intros [->|[[=]|H3]]; [inversion H|tauto].
  - intros [->|[[=]|[H5|[[=]|H5]]]]; [inversion H|tauto|tauto].
Qed.
Lemma spread_semicolon a b : spread a b -> ~ In TSemicolon a -> ~ In TSemicolon b.
Proof. induction 1; cbn [In] in *; intuition discriminate. Qed.
Lemma gfinal_semicolon mods env d toks d' t : gfinal mods env d toks d' t -> ~ In TSemicolon toks.
Proof.
  intros (a & b & n & -> & Hs & Hg). rewrite in_app_iff. intros [H|H].
  - revert H. apply (spread_semicolon a b Hs). eapply (proj1 (gval_semicolon mods env)); exact Hg.
  - apply repeat_spec in H. discriminate.
Qed.
Lemma gmodule_semicolon mods env d nl toks d' t : gmodule mods env d nl toks d' t -> ~ In TSemicolon toks.
Proof.
  induction 1; cbn [In]; rewrite ?in_app_iff.
  - intuition discriminate.
  - intros [[=]|[[=]|[[=]|[H2|H2]]]]; [|tauto]. revert H2. apply (spread_semicolon a b H).
    eapply (proj1 (gval_semicolon mods env)); eassumption.
  - intuition discriminate.
  - apply gfinal_semicolon in H0. intuition discriminate.
  - apply gfinal_semicolon in H0. intuition discriminate.
  - apply gfinal_semicolon in H1. cbn [In] in H1. intuition discriminate.
Qed.
Lemma semicolon_rejected load c toks c' d v : In TSemicolon toks -> parse_tokens_with load c toks <> Ok (c', inl (d, v)).
Proof.
  unfold parse_tokens_with. fold start. intros Hin H.
  destruct (push_all load start c toks) as [[j c1]| |] eqn:E; cbn [obind] in H; try discriminate. injection H as -> He.
  destruct (run_sound load (fun _ => True) (fun _ _ _ => I) (fun _ _ => True) toks) with (2 := E) (5 := He) as [Hg _];
    [auto|apply start_jwf|exact I|].
  apply start_jres in Hg. exact (gmodule_semicolon _ _ _ _ _ _ _ Hg Hin).
Qed.

(** ** JSON *)
Section Show.
Variable show : Z -> list Z.

Lemma json_reads a : readable show (erase a) ->
  exists text toks, to_json show a = Ok text /\ ev (fun fuel => tokenize fuel text) toks /\ json_value toks (erase a).
Proof.
  intros H. destruct (with_refs_written show [] a (readable_no_bigint show a H) (readable_units show a H)) as (text & Ht & Hw).
  destruct (proj1 (written_reads show (find_id []) []) a text Hw H) as (toks & Hj & g & Hg & Ha); [discriminate|].
  exists text, toks. split; [unfold to_json; rewrite <- with_refs_nil; exact Ht|]. split; [|apply (proj1 js_json), Hj].
  eapply lexseq_tokens. exact (Ha [] [] ls_nil).
Qed.

(** ** Modules *)
Lemma header_lex cjs p tp : lexseq p tp false TokenizerGrammar.any ->
  lexseq (p ++ header cjs)
    (tp ++ if cjs then [TId (txt "module"); TDot; TId (txt "exports"); TEquals] else [TId (txt "export"); TId (txt "default")])
    false TokenizerGrammar.any.
Proof.
  intros Hp.
  assert (Hid : forall w c r, w = c :: r -> ident_start c = true -> Forall (fun c => ident_part c = true) r -> forall p tp,
    lexseq p tp false TokenizerGrammar.any -> lexseq (p ++ w) (tp ++ [TId w]) false (fun x => negb (ident_part x))).
  { intros w c r -> Hc Hr q tq Hq. eapply lex_tok; [exact Hq|apply lex_ident; assumption|]. cbn. split; [|reflexivity].
    unfold ident_start, is_letter in Hc. lia. }
  destruct cjs; cbn [header].
  - pose proof (Hid (txt "module") _ _ eq_refl eq_refl ltac:(repeat constructor) p tp Hp) as H1.
    apply (lex_char _ _ _ 46 TDot) in H1; [|reflexivity|lia|reflexivity].
    apply (Hid (txt "exports") _ _ eq_refl eq_refl ltac:(repeat constructor)) in H1.
    apply (lex_char _ _ _ 61 TEquals) in H1; [|reflexivity|lia|reflexivity].
    rewrite <- !app_assoc in H1. exact H1.
  - pose proof (Hid (txt "export") _ _ eq_refl eq_refl ltac:(repeat constructor) p tp Hp) as H1.
    assert (G : gap [32]) by (apply (gap_blank 32 []); [reflexivity|constructor]).
    pose proof (ls_gap _ _ _ _ _ H1 G ltac:(cbn; split; [lia|reflexivity])) as H2. cbn iota in H2. rewrite app_nil_r in H2.
    apply (Hid (txt "default") _ _ eq_refl eq_refl ltac:(repeat constructor)) in H2.
    pose proof (ls_gap _ _ _ _ _ H2 G ltac:(cbn; split; [lia|reflexivity])) as H3. cbn iota in H3. rewrite app_nil_r in H3.
    rewrite <- !app_assoc in H3. exact H3.
Qed.

Lemma const_lex n p tp : lexseq p tp false TokenizerGrammar.any ->
  lexseq (p ++ txt "const " ++ name_text n ++ [61]) (tp ++ [TId (txt "const"); TId (name_text n); TEquals]) false TokenizerGrammar.any.
Proof.
  intros Hp.
  assert (H1 : lexseq (p ++ txt "const") (tp ++ [TId (txt "const")]) false (fun x => negb (ident_part x))).
  { eapply lex_tok; [exact Hp|apply (lex_ident 99 (txt "onst")); [reflexivity|repeat constructor]|]. cbn. split; [lia|reflexivity]. }
  assert (G : gap [32]) by (apply (gap_blank 32 []); [reflexivity|constructor]).
  pose proof (ls_gap _ _ _ _ _ H1 G ltac:(cbn; split; [lia|reflexivity])) as H2. cbn iota in H2. rewrite app_nil_r in H2.
  pose proof (lex_tok _ _ _ _ _ _ H2 (const_name_lexeme show n) ltac:(cbn; split; [lia|reflexivity])) as H3.
  apply (lex_char _ _ _ 61 TEquals) in H3; [|reflexivity|lia|reflexivity].
  rewrite <- !app_assoc in H3. exact H3.
Qed.

(** The names of the definitions [n], [n+1], ... *)
Fixpoint names (n : nat) (defs : list any) : list (list Z * tree) :=
  match defs with [] => [] | b :: r => (name_text n, erase b) :: names (S n) r end.
Lemma names_lookup defs : forall n k b, nth_error defs k = Some b -> lookup (names n defs) (name_text (n + k)) = Some (erase b).
Proof.
  induction defs as [|d defs IH]; intros n [|k] b H; cbn [nth_error names lookup] in *; try discriminate.
  - injection H as ->. rewrite Nat.add_0_r. destruct (list_eq_dec Z.eq_dec (name_text n) (name_text n)); congruence.
  - destruct (list_eq_dec Z.eq_dec (name_text (n + S k)) (name_text n)) as [E|_]; [apply const_name_inj in E; lia|].
    rewrite <- plus_n_Sm. apply (IH (S n) k b H).
Qed.
Lemma names_fresh defs : forall n m, (n + List.length defs <= m)%nat -> lookup (names n defs) (name_text m) = None.
Proof.
  induction defs as [|d defs IH]; intros n m H; cbn [names lookup List.length] in *; [reflexivity|].
  destruct (list_eq_dec Z.eq_dec (name_text m) (name_text n)) as [E|_]; [apply const_name_inj in E; lia|]. apply IH. lia.
Qed.
Lemma names_other defs k : (forall n, k <> name_text n) -> forall n, lookup (names n defs) k = None.
Proof.
  intros H. induction defs as [|d defs IH]; intros n; cbn [names lookup]; [reflexivity|].
  destruct (list_eq_dec Z.eq_dec k (name_text n)) as [E|_]; [exfalso; exact (H n E)|]. apply IH.
Qed.
Lemma index_of_nth defs i k : index_of defs i = Some k -> exists b, nth_error defs k = Some b /\ ident_of b = Some i.
Proof.
  revert k. induction defs as [|d defs IH]; intros k; cbn [index_of]; [discriminate|].
  assert (H : option_map S (index_of defs i) = Some k -> exists b, nth_error (d :: defs) k = Some b /\ ident_of b = Some i).
  { destruct (index_of defs i) as [m|]; cbn; [|discriminate]. intros [= <-]. cbn. auto. }
  destruct (ident_of d) as [j|] eqn:E; [|exact H]. destruct (Z.eqb_spec i j) as [->|]; [|exact H].
  intros [= <-]. exists d. auto.
Qed.

(** The environment in which the definitions [k], [k+1], ... are read. *)
Definition env_at (defs : list any) (k : nat) : list (list Z * tree) := rev (names O (firstn k defs)).

Lemma names_app a : forall n b, names n (a ++ b) = names n a ++ names (n + List.length a) b.
Proof. induction a as [|x a IH]; intros n b; cbn [names app List.length]; [rewrite Nat.add_0_r; reflexivity|]. rewrite IH. f_equal. f_equal. f_equal. lia. Qed.

Lemma lookup_rev_names defs : forall x, lookup (rev (names O defs)) x = lookup (names O defs) x.
Proof.
  induction defs as [|d defs IH] using rev_ind; intros x; [reflexivity|]. rewrite names_app, rev_app_distr. cbn [names rev app Nat.add].
  cbn [lookup]. rewrite lookup_app, IH. cbn [lookup].
  destruct (list_eq_dec Z.eq_dec x (name_text (List.length defs))) as [->|]; [rewrite names_fresh by lia; reflexivity|].
  destruct (lookup (names O defs) x); reflexivity.
Qed.

Lemma env_at_lookup defs k j b : nth_error defs j = Some b -> (j < k)%nat -> lookup (env_at defs k) (name_text j) = Some (erase b).
Proof.
  intros H Hlt. unfold env_at. rewrite lookup_rev_names. apply (names_lookup (firstn k defs) O j b).
  revert k j H Hlt. induction defs as [|d defs IH]; intros [|k] [|j] H Hlt; cbn in *; try discriminate; try lia; auto.
  apply IH; [exact H|lia].
Qed.
Lemma env_at_fresh defs k : (k <= List.length defs)%nat -> lookup (env_at defs k) (name_text k) = None.
Proof. intros H. unfold env_at. rewrite lookup_rev_names. apply names_fresh. rewrite firstn_length. lia. Qed.
Lemma env_at_succ defs k b : nth_error defs k = Some b -> env_at defs (S k) = (name_text k, erase b) :: env_at defs k.
Proof.
  intros H. unfold env_at.
  assert (E : firstn (S k) defs = firstn k defs ++ [b] /\ List.length (firstn k defs) = k).
  { revert k H. clear. induction defs as [|d defs IH]; intros [|k] H; cbn in *; try discriminate.
    - injection H as ->. auto.
    - destruct (IH k H) as [E1 E2]. cbn in E1. rewrite E1, E2. auto. }
  destruct E as [-> E]. rewrite names_app, rev_app_distr. cbn [names rev app Nat.add]. rewrite E. reflexivity.
Qed.

Section Module.
Variable r : any.
Hypothesis coh : coherent r.
Hypothesis rd : readable show (erase r).
Variables (defs : list any) (bodies : list (list Z)).
Hypothesis lens : List.length bodies = List.length defs.
Hypothesis subs : forall b, In b defs -> sub r b /\ ident_of b <> None.
Hypothesis all_shared : forall i, shared r i <-> In (Some i) (map ident_of defs).
Hypothesis texts : forall k b t, nth_error defs k = Some b -> nth_error bodies k = Some t -> spelled show (index_of defs) b t.
Hypothesis before : forall k b c i, nth_error defs k = Some b -> inside b c -> ident_of c = Some i -> shared r i ->
  exists j, (j < k)%nat /\ index_of defs i = Some j.

Lemma index_shared i k : index_of defs i = Some k -> shared r i.
Proof.
  intros H. apply all_shared. apply index_of_nth in H as (b & Hb & Hi). rewrite <- Hi. apply in_map. eapply nth_error_In; exact Hb.
Qed.
Lemma index_lookup c i n k : sub r c -> ident_of c = Some i -> index_of defs i = Some n -> (n < k)%nat ->
  lookup (env_at defs k) (name_text n) = Some (erase c).
Proof.
  intros Hc Hi Hn Hlt. apply index_of_nth in Hn as (b & Hb & Hbi).
  assert (b = c) by (eapply coh; [apply subs; eapply nth_error_In; exact Hb|exact Hc|exact Hbi|exact Hi]). subst b.
  apply env_at_lookup; assumption.
Qed.

Lemma declarations_read : forall suf sufb pre preb, defs = pre ++ suf -> bodies = preb ++ sufb -> List.length preb = List.length pre ->
  exists dt, (forall p tp, lexseq p tp false TokenizerGrammar.any ->
      lexseq (p ++ declarations (List.length pre) sufb) (tp ++ dt) false TokenizerGrammar.any)
    /\ (suf <> [] -> In TSemicolon dt) /\ (suf = [] -> dt = [])
    /\ forall rest t cjs, js_module (env_at defs (List.length defs)) cjs rest t ->
         js_module (env_at defs (List.length pre)) cjs (dt ++ rest) t.
Proof.
  induction suf as [|b suf IH]; intros sufb pre preb Ed Eb El.
  - assert (sufb = []).
    { destruct sufb; [reflexivity|]. rewrite Ed, Eb, !app_length in lens. cbn in lens. lia. }
    subst sufb. exists []. rewrite app_nil_r in Ed. split; [|split; [congruence|split; [reflexivity|]]].
    + intros p tp H. cbn [declarations]. rewrite !app_nil_r. exact H.
    + intros rest t cjs H. rewrite <- Ed. exact H.
  - destruct sufb as [|t sufb].
    { exfalso. rewrite Ed, Eb, !app_length in lens. cbn in lens. lia. }
    destruct (IH sufb (pre ++ [b]) (preb ++ [t])) as (dt & H1 & _ & _ & H2).
    { rewrite <- app_assoc. exact Ed. } { rewrite <- app_assoc. exact Eb. } { rewrite !app_length, El. reflexivity. }
    rewrite app_length in H1, H2. cbn [List.length] in H1, H2. rewrite Nat.add_1_r in H1, H2.
    set (k := List.length pre) in *.
    assert (Hb : nth_error defs k = Some b) by (rewrite Ed, nth_error_app2, Nat.sub_diag by (unfold k; lia); reflexivity).
    assert (Ht : nth_error bodies k = Some t) by (rewrite Eb, nth_error_app2, El, Nat.sub_diag by (unfold k; lia); reflexivity).
    assert (Hsub : sub r b) by (apply subs; eapply nth_error_In; exact Hb).
    destruct (proj1 (proj2 (written_reads show (index_of defs) (env_at defs k))) b t (texts k b t Hb Ht)) as (toks & Hj & g & Hg & Ha).
    { eapply readable_sub; eassumption. }
    { intros c i n Hc Hi Hn. destruct (before k b c i Hb Hc Hi (index_shared i n Hn)) as (j & Hlt & Hj).
      assert (n = j) by congruence. subst j. apply (index_lookup c i n k); auto.
      destruct Hc as (x & Hx & Hxc). eapply sub_trans; [exact Hsub|]. eapply sub_child; eassumption. }
    exists ([TId (txt "const"); TId (name_text k); TEquals] ++ toks ++ [TSemicolon] ++ dt). split; [|split; [|split; [discriminate|]]].
    + intros p tp Hp. cbn [declarations]. apply (const_lex k) in Hp. apply Ha in Hp.
      apply (lex_char _ _ _ 59 TSemicolon) in Hp; [|reflexivity|lia|apply Hg].
      apply H1 in Hp. rewrite <- !app_assoc in Hp. exact Hp.
    + intros _. rewrite !in_app_iff. right. right. left. left. reflexivity.
    + intros rest t' cjs Hm. apply H2 in Hm. cbn [app]. rewrite <- !app_assoc. cbn [app].
      rewrite (env_at_succ defs k b Hb) in Hm. apply jsm_const with (v := erase b); [exact Hj| |exact Hm].
      apply env_at_fresh. apply Nat.lt_le_incl, nth_error_Some. congruence.
Qed.

Lemma module_read cjs body : written show (index_of defs) r body ->
  exists toks, ev (fun fuel => tokenize fuel (declarations O bodies ++ header cjs ++ body)) toks
    /\ js_module [] cjs toks (erase r)
    /\ (defs <> [] -> In TSemicolon toks)
    /\ (defs = [] -> exists vt, js_value [] vt (erase r) /\
         toks = (if cjs then [TId (txt "module"); TDot; TId (txt "exports"); TEquals] else [TId (txt "export"); TId (txt "default")]) ++ vt).
Proof.
  intros Hw. destruct (declarations_read defs bodies [] [] eq_refl eq_refl eq_refl) as (dt & H1 & H2 & H4 & H3).
  destruct (proj1 (written_reads show (index_of defs) (env_at defs (List.length defs))) r body Hw rd) as (vt & Hj & g & Hg & Ha).
  { intros c i n Hc Hi Hn. apply (index_lookup c i n); auto. apply index_of_nth in Hn as (b & Hb & _). apply nth_error_Some. congruence. }
  set (ht := if cjs then [TId (txt "module"); TDot; TId (txt "exports"); TEquals] else [TId (txt "export"); TId (txt "default")]).
  exists (dt ++ ht ++ vt). split; [|split; [|split]].
  - pose proof (Ha _ _ (header_lex cjs _ _ (H1 [] [] ls_nil))) as Hl. cbn [app List.length] in Hl. fold ht in Hl.
    rewrite <- !app_assoc in Hl. exact (lexseq_tokens _ _ _ Hl).
  - apply H3. unfold ht. destruct cjs; cbn [app]; constructor; exact Hj.
  - intros Hd. apply in_app_iff. left. apply H2. exact Hd.
  - intros Hd. exists vt. rewrite (H4 Hd). split; [|reflexivity]. rewrite Hd in Hj. exact Hj.
Qed.
End Module.
End Show.
