(** Properties C79 and C80: nesting and the stack; sizes and the number of calls. *)
From Coq Require Import ZArith List Bool String Lia.
From Coq Require Import ZifyBool ZifyNat.
From Verif Require Import Outcome VTac LimbsModel LimbsSpec BigIntModel JsBigintModel BigFloatModel BigSpec LimbsProofs JsBigintProofs BigFloatSpec RangeMapSpec
  Prop_BigFloat TokenizerModel TokenizerSpec
  TokenizerRun TokenizerNum TokenizerTotal TokenizerGrammar Prop_Tokenizer ValueModel ParserModel ParserSpec BTreeProofs ParserProofs ParserRun
  ParserModules ParserMore Prop_Parser SerializerModel SerializerSpec SerializerProofs SerializerDjs SerializerRead Prop_Serializer CostModel CostSpec.
Import ListNotations.
Open Scope Z_scope.
Notation any := ValueModel.any.

(** * C79 *)
Lemma omap_ext {A B} (f g : A -> outcome B) l : (forall x, In x l -> f x = g x) -> omap f l = omap g l.
Proof. induction l as [|x l IH]; intros H; [reflexivity|]. cbn. rewrite (H x (or_introl eq_refl)), IH by (intros y Hy; apply H; right; exact Hy). reflexivity. Qed.
Lemma omap_nofuel {A B} (f : A -> outcome B) l : (forall x, In x l -> f x <> Panic) -> (exists x, In x l /\ f x = NoFuel) -> omap f l = NoFuel.
Proof.
  induction l as [|x l IH]; intros Hp (y & Hy & Ey); [destruct Hy|]. cbn. destruct (f x) as [b| |] eqn:E; cbn; [| |reflexivity].
  - destruct Hy as [->|Hy]; [congruence|]. rewrite IH; [reflexivity|intros z Hz; apply Hp; right; exact Hz|exists y; auto].
  - exfalso. exact (Hp x (or_introl eq_refl) E).
Qed.

(** With more frames than values are nested, the bounded stack makes no difference. *)
Theorem C79_enough : forall show frames a, ~ nested frames a -> write_json_in show frames a = to_json show a.
Proof.
  intros show. unfold to_json. induction frames as [|k IH]; intros a Ha; [exfalso; apply Ha; constructor|].
  assert (Hc : forall c, In c (children a) -> write_json_in show k c = write_json show c).
  { intros c Hc. apply IH. intros Hn. apply Ha. econstructor; eassumption. }
  destruct a as [ |b|f|s|b|i l|i l]; try reflexivity; cbn [write_json_in write_json children] in *.
  - f_equal. apply omap_ext. exact Hc.
  - f_equal. apply omap_ext. intros kv Hkv. rewrite Hc by (apply in_map, Hkv). reflexivity.
Qed.
Print Assumptions C79_enough.

(** Otherwise it overflows. *)
Theorem C79_overflow : forall show frames a, no_bigint a -> nested frames a -> write_json_in show frames a = NoFuel.
Proof.
  intros show. induction frames as [|k IH]; intros a Hb Ha; [reflexivity|].
  assert (Hp : forall c, In c (children a) -> write_json_in show k c <> Panic).
  { intros c Hc E. assert (G : forall n x, no_bigint x -> write_json_in show n x <> Panic).
    { clear. induction n as [|n IH]; intros x Hx; [discriminate|].
      assert (Hch : forall c, In c (children x) -> write_json_in show n c <> Panic).
      { intros c Hc. apply IH. exact (no_bigint_child x c Hx Hc). }
      assert (Hm : forall {A} (f : A -> outcome (list Z)) l, (forall y, In y l -> f y <> Panic) -> omap f l <> Panic).
      { clear. induction l as [|y l IH]; intros H; [discriminate|]. cbn. destruct (f y) as [b| |] eqn:E; cbn; [|exfalso; exact (H y (or_introl eq_refl) E)|discriminate].
        specialize (IH (fun z Hz => H z (or_intror Hz))). destruct (omap f l); cbn in *; congruence. }
      destruct x as [ |b|f|s|b|i l|i l]; cbn [write_json_in children] in *; try discriminate.
      - intros _. exact (Hx _ (sub_refl _) b eq_refl).
      - specialize (Hm _ _ l Hch). destruct (omap (write_json_in show n) l); cbn; congruence.
      - specialize (Hm _ (fun kv => let! t := write_json_in show n (snd kv) in Ok (js_string (fst kv) ++ 58 :: t)) l).
        destruct (omap (fun kv => let! t := write_json_in show n (snd kv) in Ok (js_string (fst kv) ++ 58 :: t)) l); cbn; try discriminate.
        exfalso. apply Hm; [|reflexivity]. intros kv Hkv. specialize (Hch (snd kv) (in_map snd _ _ Hkv)).
        destruct (write_json_in show n (snd kv)); cbn; congruence. }
    exact (G k c (no_bigint_child a c Hb Hc) E). }
  inversion Ha as [|? ? c Hc Hn]; subst. pose proof (IH c (no_bigint_child a c Hb Hc) Hn) as E.
  destruct a as [ |b|f|s|b|i l|i l]; cbn [children] in *; try contradiction; cbn [write_json_in].
  - rewrite omap_nofuel; [reflexivity|exact Hp|exists c; auto].
  - apply in_map_iff in Hc as (kv & <- & Hkv). rewrite omap_nofuel; [reflexivity| |].
    + intros kv' Hkv'. specialize (Hp (snd kv') (in_map snd _ _ Hkv')). destruct (write_json_in show k (snd kv')); cbn; congruence.
    + exists kv. split; [exact Hkv|]. rewrite E. reflexivity.
Qed.
Print Assumptions C79_overflow.

(** The pass that looks for shared blocks: the same. *)
Lemma oeach_fold {A S} (f : A -> S -> outcome S) (g : A -> S -> S) l : (forall x s, In x l -> f x s = Ok (g x s)) ->
  forall s, oeach f l s = Ok (fold_left (fun s x => g x s) l s).
Proof.
  induction l as [|x l IH]; intros H s; [reflexivity|]. cbn [oeach fold_left]. rewrite (H x s (or_introl eq_refl)). cbn [obind].
  apply IH. intros y t Hy. apply H. right. exact Hy.
Qed.
Theorem C79_track : forall frames a m, ~ nested frames a -> track_in frames a m = Ok (track a m).
Proof.
  induction frames as [|k IH]; intros a m Ha; [exfalso; apply Ha; constructor|].
  assert (Hc : forall c m, In c (children a) -> track_in k c m = Ok (track c m)).
  { intros c m' Hc. apply IH. intros Hn. apply Ha. econstructor; eassumption. }
  destruct a as [ |b|f|s|b|i l|i l]; try reflexivity; cbn [track_in track children] in *; destruct (find_id m i); try reflexivity.
  - apply oeach_fold. intros x s Hx. apply Hc, Hx.
  - apply (oeach_fold (fun kv => track_in k (snd kv)) (fun kv => track (snd kv))). intros x s Hx. apply Hc, in_map, Hx.
Qed.
Print Assumptions C79_track.

Fixpoint chain (n : nat) (i : Z) : any := match n with O => ANull | S n => AArray i [chain n (i + 1)] end.
Lemma chain_track frames : forall n i m, (frames <= n)%nat -> (forall j, i <= j -> find_id m j = None) -> track_in frames (chain n i) m = NoFuel.
Proof.
  induction frames as [|k IH]; intros n i m Hn Hm; [reflexivity|]. destruct n as [|n]; [lia|]. cbn [track_in chain].
  rewrite (Hm i) by lia. cbn [oeach]. rewrite IH; [reflexivity|lia|]. intros j Hj.
  assert (G : forall (m : visited) v, find_id m j = None -> find_id (m ++ [(i, v)]) j = None).
  { clear -Hj. induction m as [|[k w] m IH]; intros v H; cbn [find_id app] in *.
    - destruct (Z.eqb_spec j i); [lia|reflexivity].
    - destruct (j =? k); [discriminate|]. apply IH, H. }
  apply G, Hm. lia.
Qed.

(** With any stack it overflows on some value. *)
Theorem C79_track_refuted : forall frames, exists a, no_bigint a /\ track_in frames a [] = NoFuel.
Proof.
  intros n. exists (chain n 0). split; [|apply chain_track; [lia|reflexivity]].
  generalize 0. induction n as [|n IH]; intros i b Hb x ->; inversion Hb as [|? c ? Hc Hs]; subst; cbn in Hc; try contradiction.
  destruct Hc as [<-|[]]. exact (IH _ _ Hs x eq_refl).
Qed.
Print Assumptions C79_track_refuted.

Lemma lex_one a ta f c t : lexseq a ta false f -> punctuator c = Some t -> 0 <= c -> f c = true -> lexseq (a ++ [c]) (ta ++ [t]) false TokenizerGrammar.any.
Proof. intros H Hp Hc Hf. exact (ls_lexeme _ _ false _ [c] t _ H (lex_punct c _ Hp) (conj Hc Hf)). Qed.

(** The parser itself does not recurse on nesting: it reads brackets nested to any depth, and
    the value that it returns cannot be written with the stack that there is. *)
Theorem C79_converter_refuted : forall frames, exists text, (List.length text <= 2 * frames + 4)%nat
  /\ exists f0, forall fuel io depth c, (f0 <= fuel)%nat -> io (cx_path c) = Some text ->
     exists c' v, parse io fuel (S depth) c = Ok (c', inl (Json, v)) /\ erase v = deep frames
       /\ forall show, write_json_in show frames v = NoFuel.
Proof.
  intros n. exists (deep_text n). split; [unfold deep_text; rewrite !app_length, !repeat_length; change (List.length (txt "null")) with 4%nat; lia|].
  assert (Hopen : forall k, lexseq (repeat 91 k) (repeat TArrayBegin k) false TokenizerGrammar.any).
  { induction k as [|k IH]; [constructor|]. cbn [repeat]. rewrite !repeat_cons. exact (lex_one _ _ _ 91 TArrayBegin IH eq_refl ltac:(lia) eq_refl). }
  assert (Hnull : lexseq (repeat 91 n ++ txt "null") (repeat TArrayBegin n ++ [TId (txt "null")]) false (fun x => negb (ident_part x))).
  { refine (ls_lexeme _ _ false _ (txt "null") _ _ (Hopen n) (lex_ident 110 (txt "ull") eq_refl _) _); [repeat constructor|cbn; split; [lia|reflexivity]]. }
  assert (Hall : exists g, lexseq (deep_text n) (repeat TArrayBegin n ++ [TId (txt "null")] ++ repeat TArrayEnd n) false g).
  { unfold deep_text. rewrite !app_assoc. 
    assert (G : forall k, exists g, g 93 = true /\ lexseq ((repeat 91 n ++ txt "null") ++ repeat 93 k) ((repeat TArrayBegin n ++ [TId (txt "null")]) ++ repeat TArrayEnd k) false g).
    { induction k as [|k (g & Hg & IH)]; [exists (fun x => negb (ident_part x)); rewrite !app_nil_r; split; [reflexivity|exact Hnull]|].
      exists TokenizerGrammar.any. split; [reflexivity|]. cbn [repeat]. rewrite !repeat_cons, !app_assoc. exact (lex_one _ _ _ 93 TArrayEnd IH eq_refl ltac:(lia) Hg). }
    destruct (G n) as (g & _ & H). exists g. rewrite <- !app_assoc in *. exact H. }
  destruct Hall as (g & Hall). destruct (lexseq_tokens _ _ _ Hall) as (f0 & Hf). exists f0. intros fuel io depth c Hfuel Hio.
  assert (Hj : json_value (repeat TArrayBegin n ++ [TId (txt "null")] ++ repeat TArrayEnd n) (deep n)).
  { clear. induction n as [|n IH]; [apply jv_scalar; constructor|]. cbn [deep].
    replace (repeat TArrayBegin (S n) ++ [TId (txt "null")] ++ repeat TArrayEnd (S n))
      with (TArrayBegin :: (repeat TArrayBegin n ++ [TId (txt "null")] ++ repeat TArrayEnd n) ++ [TArrayEnd]).
    - apply jv_array. apply je_last. exact IH.
    - cbn [repeat app]. rewrite <- app_assoc. cbn [app]. rewrite repeat_cons. reflexivity. }
  destruct (proj2 (C39_json (import_with io fuel (parse_tokens io fuel depth)) (cx_reading c (cx_path c)) (repeat TArrayBegin n ++ [TId (txt "null")] ++ repeat TArrayEnd n) (deep n))) as (c' & v & Hp & He).
  { revert Hj. generalize (repeat TArrayBegin n ++ [TId (txt "null")] ++ repeat TArrayEnd n). clear. intros toks Hj.
    exists O, toks, toks, O. split; [cbn; rewrite app_nil_r; reflexivity|]. split; [|exact Hj]. clear Hj. revert toks. intros l. induction l; constructor; assumption. }
  exists c', v. split; [|split; [exact He|]].
  - unfold parse. rewrite Hio, (Hf fuel Hfuel). cbn [obind]. exact Hp.
  - intros show. apply C79_overflow.
    + intros b Hb x ->. clear -He Hb.
      assert (G : forall a b, sub a b -> forall n, erase a = deep n -> exists m, erase b = deep m).
      { clear. induction 1 as [a|a c b Hc Hs IH]; intros n E; [eauto|]. destruct n as [|n]; destruct a as [ |bb|f|s|x|i l|i l]; cbn in *; try discriminate; try contradiction.
        injection E as E. destruct l as [|y [|z l]]; try discriminate. injection E as E. destruct Hc as [->|[]]. eapply IH; exact E. }
      destruct (G v _ Hb n He) as ([|m] & E); discriminate.
    + clear -He. revert v He. induction n as [|n IH]; intros v He; [constructor|]. destruct v as [ |bb|f|s|x|i l|i l]; cbn in He; try discriminate.
      injection He as He. destruct l as [|y [|z l]]; try discriminate. injection He as He. apply ne_child with (c := y); [left; reflexivity|apply IH, He].
Qed.
Print Assumptions C79_converter_refuted.

Example C79_case :
  to_json show_two (chain 3 0) = Ok (txt "[[[null]]]") /\ write_json_in show_two 4 (chain 3 0) = Ok (txt "[[[null]]]")
  /\ write_json_in show_two 3 (chain 3 0) = NoFuel /\ track_in 3 (chain 3 0) [] = NoFuel
  /\ (exists m, track_in 4 (chain 3 0) [] = Ok m) /\ deep_text 3 = txt "[[[null]]]".
Proof. repeat split; try reflexivity. eexists. vm_compute. reflexivity. Qed.

(** * C80 *)

(** Counting changes nothing else. *)
Lemma consts_cost show a : forall s, consts_and_any_cost show a s = let! s' := consts_and_any show a s in Ok (s', Z.of_nat (unfolded a)).
Proof.
  induction a as [ |b|f|s|b|i l IH|i l IH] using any_rect_all; intros s0; try reflexivity; cbn [consts_and_any_cost consts_and_any unfolded].
  - assert (G : forall l, (forall c, In c l -> forall s, consts_and_any_cost show c s = let! s' := consts_and_any show c s in Ok (s', Z.of_nat (unfolded c))) ->
      forall s n, oeach (fun x sn => let! (s', n) := consts_and_any_cost show x (fst sn) in Ok (s', snd sn + n)) l (s, n)
        = let! s' := oeach (consts_and_any show) l s in Ok (s', n + Z.of_nat (list_sum (map unfolded l)))).
    { clear. induction l as [|x l IHl]; intros H s n; [cbn; rewrite Z.add_0_r; reflexivity|]. cbn [oeach]. cbn [fst snd]. rewrite (H x (or_introl eq_refl)).
      destruct (consts_and_any show x s) as [s'| |]; cbn [obind]; [|reflexivity|reflexivity].
      rewrite IHl by (intros c Hc; apply H; right; exact Hc). destruct (oeach (consts_and_any show) l s') as [s''| |]; cbn [obind]; [|reflexivity|reflexivity].
      change (list_sum (map unfolded (x :: l))) with (unfolded x + list_sum (map unfolded l))%nat. do 2 f_equal. lia. }
    rewrite G by exact IH. destruct (oeach (consts_and_any show) l s0) as [s'| |]; cbn [obind]; [|reflexivity|reflexivity].
    destruct (define_const show i (AArray i l) s'); cbn [obind]; [|reflexivity|reflexivity]. do 2 f_equal. lia.
  - assert (G : forall l, (forall c, In c (map snd l) -> forall s, consts_and_any_cost show c s = let! s' := consts_and_any show c s in Ok (s', Z.of_nat (unfolded c))) ->
      forall s n, oeach (fun (kv : list Z * any) sn => let! (s', n) := consts_and_any_cost show (snd kv) (fst sn) in Ok (s', snd sn + n)) l (s, n)
        = let! s' := oeach (fun kv => consts_and_any show (snd kv)) l s in Ok (s', n + Z.of_nat (list_sum (map (fun kv => unfolded (snd kv)) l)))).
    { clear. induction l as [|x l IHl]; intros H s n; [cbn; rewrite Z.add_0_r; reflexivity|]. cbn [oeach]. cbn [fst snd]. rewrite (H (snd x) (or_introl eq_refl)).
      destruct (consts_and_any show (snd x) s) as [s'| |]; cbn [obind]; [|reflexivity|reflexivity].
      rewrite IHl by (intros c Hc; apply H; right; exact Hc). destruct (oeach (fun kv => consts_and_any show (snd kv)) l s') as [s''| |]; cbn [obind]; [|reflexivity|reflexivity].
      change (list_sum (map (fun kv => unfolded (snd kv)) (x :: l))) with (unfolded (snd x) + list_sum (map (fun kv => unfolded (snd kv)) l))%nat. do 2 f_equal. lia. }
    rewrite G by exact IH. destruct (oeach (fun kv => consts_and_any show (snd kv)) l s0) as [s'| |]; cbn [obind]; [|reflexivity|reflexivity].
    destruct (define_const show i (AObject i l) s'); cbn [obind]; [|reflexivity|reflexivity]. do 2 f_equal. lia.
Qed.
Lemma write_consts_cost_same show peek fuel : forall s s', (exists n, write_consts_cost show peek fuel s = Ok (s', n)) <-> write_consts show peek fuel s = Ok s'.
Proof.
  induction fuel as [|fuel IH]; intros s s'; cbn [write_consts_cost write_consts]; destruct (peek (dj_todo s)) as [a|].
  - split; [intros (n & H)|]; discriminate.
  - split; [intros (n & H); congruence|intros [= <-]; eauto].
  - rewrite consts_cost. destruct (consts_and_any show a s) as [s1| |]; cbn [obind]; [|split; [intros (n & H)|]; discriminate|split; [intros (n & H)|]; discriminate].
    rewrite <- IH. split; intros (n & H).
    + destruct (write_consts_cost show peek fuel s1) as [[s2 m]| |]; cbn [obind] in H; try discriminate. injection H as <- _. eauto.
    + rewrite H. cbn [obind]. eauto.
  - split; [intros (n & H); congruence|intros [= <-]; eauto].
Qed.
Theorem C80_counted : forall show peek fuel a cjs text,
  (exists n, to_djs_cost show peek fuel a cjs = Ok (text, n)) <-> to_djs show peek fuel a cjs = Ok text.
Proof.
  intros show peek fuel a cjs text. unfold to_djs_cost, to_djs. set (s0 := {| dj_out := []; dj_todo := _; dj_refs := [] |}).
  pose proof (write_consts_cost_same show peek fuel s0) as G. split.
  - intros (n & H). destruct (write_consts_cost show peek fuel s0) as [[s' m]| |] eqn:E; cbn [obind] in H; try discriminate.
    rewrite (proj1 (G s') ltac:(eauto)). cbn [obind]. destruct (with_refs show (dj_refs s') a) as [body| |]; cbn [obind] in *; try discriminate. congruence.
  - intros H. destruct (write_consts show peek fuel s0) as [s'| |] eqn:E; cbn [obind] in H; try discriminate.
    destruct (proj2 (G s') eq_refl) as (n & ->). cbn [obind]. destruct (with_refs show (dj_refs s') a) as [body| |]; cbn [obind] in *; try discriminate.
    injection H as <-. eauto.
Qed.
Print Assumptions C80_counted.

Definition todo_of (r : any) : list (Z * any) := map (fun jv => (fst jv, fst (snd jv))) (filter (fun jv => snd (snd jv)) (track r [])).
Lemma todo_spec r : coherent r ->
  NoDup (map fst (todo_of r)) /\ (forall i b, In (i, b) (todo_of r) <-> sub r b /\ ident_of b = Some i /\ shared r i).
Proof.
  intros coh. destruct (track_root r coh) as (Hnd & Hval & Hdom). unfold todo_of.
  assert (Hf : forall i b, In (i, b) (map (fun jv => (fst jv, fst (snd jv))) (filter (fun jv => snd (snd jv)) (track r []))) <-> find_id (track r []) i = Some (b, true)).
  { intros i b. rewrite in_map_iff. split.
    - intros ([j [c f]] & [= <- <-] & Hin). apply filter_In in Hin as [Hin Hb]. cbn in Hb. subst f.
      clear -Hin Hnd. induction (track r []) as [|[k v] m IH]; [destruct Hin|]. cbn [find_id]. inversion Hnd; subst.
      destruct Hin as [[= -> ->]|Hin]; [rewrite Z.eqb_refl; reflexivity|].
      destruct (Z.eqb_spec j k) as [->|]; [|auto]. exfalso. apply H1. apply (in_map fst) in Hin. exact Hin.
    - intros H. exists (i, (b, true)). split; [reflexivity|]. apply filter_In. split; [apply find_id_in, H|reflexivity]. }
  split.
  - rewrite map_map. cbn [fst]. clear -Hnd. induction (track r []) as [|[k [v f]] m IH]; cbn; [constructor|]. inversion Hnd as [|? ? H1 H2]; subst.
    destruct f; cbn; [constructor|]; auto. intros H. apply H1. apply in_map_iff in H as (x & Hx & Hin). apply filter_In in Hin as [Hin _].
    apply in_map_iff. exists x. auto.
  - intros i b. rewrite Hf. split.
    + intros H. destruct (Hval i b true H) as (A & B & C). tauto.
    + intros (A & B & C). destruct (find_id (track r []) i) as [[c f]|] eqn:E; [|exfalso; exact (Hdom b i A B E)].
      destruct (Hval i c f E) as (A' & B' & C'). rewrite (proj2 C' C). rewrite (coh b c i A A' B B'). reflexivity.
Qed.

Lemma filter_all {A} (l : list A) : filter (fun _ => true) l = l.
Proof. induction l; cbn; congruence. Qed.
Lemma define_todo show i a s s' : define_const show i a s = Ok s' -> dj_todo s' = filter (fun jv => negb (fst jv =? i)) (dj_todo s).
Proof.
  unfold define_const. destruct (find_id (dj_todo s) i) eqn:E.
  - destruct (with_refs show (dj_refs s) a); cbn; try discriminate. intros [= <-]. reflexivity.
  - intros [= <-]. induction (dj_todo s) as [|[j v] l IH]; [reflexivity|]. cbn [find_id filter fst] in *. destruct (Z.eqb_spec i j); [discriminate|].
    destruct (Z.eqb_spec j i); [congruence|]. cbn. f_equal. apply IH, E.
Qed.
(** One round takes from the list only blocks inside the value that it starts with. *)
Lemma consts_todo show a : forall s s', consts_and_any show a s = Ok s' ->
  (exists f, dj_todo s' = filter f (dj_todo s) /\ forall i b, In (i, b) (dj_todo s) -> f (i, b) = true \/ exists y, sub a y /\ ident_of y = Some i)
  /\ forall i, ident_of a = Some i -> find_id (dj_todo s') i = None.
Proof.
  induction a as [a IH] using any_children_ind. intros s s'. rewrite consts_eq. destruct (ident_of a) as [i|] eqn:Ei.
  2: { intros [= <-]. split; [|discriminate]. exists (fun _ => true). rewrite filter_all. auto. }
  assert (G : forall l, incl l (children a) -> forall s s1, oeach (consts_and_any show) l s = Ok s1 ->
     exists f, dj_todo s1 = filter f (dj_todo s) /\ forall i b, In (i, b) (dj_todo s) -> f (i, b) = true \/ exists y, sub a y /\ ident_of y = Some i).
  { induction l as [|x l IHl]; intros Hl s2 s1; cbn [oeach].
    - intros [= <-]. exists (fun _ => true). rewrite filter_all. auto.
    - destruct (consts_and_any show x s2) as [s3| |] eqn:E; cbn [obind]; try discriminate. intros H.
      assert (Hx : In x (children a)) by (apply Hl; left; reflexivity).
      destruct (IH x Hx _ _ E) as [(f & F & Hf) _]. destruct (IHl (fun y Hy => Hl y (or_intror Hy)) _ _ H) as (g & F' & Hg).
      exists (fun y => f y && g y). rewrite F', F, filter_twice. split; [reflexivity|]. intros j b Hin.
      destruct (Hf j b Hin) as [E1|(y & Hy & Iy)]; [|right; exists y; split; [eapply sub_child; eassumption|exact Iy]].
      rewrite E1. cbn [andb]. apply (Hg j b). rewrite F. apply filter_In. auto. }
  destruct (oeach (consts_and_any show) (children a) s) as [s1| |] eqn:E; cbn [obind]; try discriminate. intros H.
  destruct (G _ (incl_refl _) _ _ E) as (f & F & Hf). pose proof (define_todo _ _ _ _ _ H) as D. split.
  - exists (fun y => f y && negb (fst y =? i)). rewrite D, F, filter_twice. split; [reflexivity|]. intros j b Hin.
    destruct (Hf j b Hin) as [E1|?]; [|auto]. rewrite E1. cbn [andb fst]. destruct (Z.eqb_spec j i) as [->|]; [|auto].
    right. exists a. split; [constructor|exact Ei].
  - intros j [= <-]. rewrite D. change (find_id (remove_id (dj_todo s1) i) i = None). rewrite find_id_remove, Z.eqb_refl. reflexivity.
Qed.

Lemma rounds_cost show peek r fuel : any_order peek -> coherent r -> forall s s' n,
  (forall i b, In (i, b) (dj_todo s) -> sub r b /\ ident_of b = Some i) ->
  write_consts_cost show peek fuel s = Ok (s', n) ->
  (forall i b, In (i, b) (dj_todo s) -> Z.of_nat (unfolded b) <= n) /\ n <= Z.of_nat (List.length (dj_todo s) * unfolded r) /\ 0 <= n.
Proof.
  intros [Hnil Hsome] coh. induction fuel as [|fuel IH]; intros s s' n Hs; cbn [write_consts_cost];
    destruct (dj_todo s) as [|x l] eqn:E; try (rewrite Hnil; intros [= <- <-]; split; [intros i b []|lia]);
    destruct (Hsome (x :: l) ltac:(discriminate)) as (j & a & Hin & ->); [discriminate|]. rewrite <- E in *.
  rewrite consts_cost. destruct (consts_and_any show a s) as [s1| |] eqn:E1; cbn [obind]; try discriminate.
  destruct (write_consts_cost show peek fuel s1) as [[s2 m]| |] eqn:E2; cbn [obind]; try discriminate. intros [= <- <-].
  destruct (consts_todo _ _ _ _ E1) as [(f & F & Hf) Hgone]. destruct (Hs j a Hin) as [Ha Hj].
  destruct (IH s1 s2 m) as (L & U & P); [|exact E2|].
  { intros i b Hb. rewrite F in Hb. apply filter_In in Hb as [Hb _]. exact (Hs i b Hb). }
  split; [|split; [|lia]].
  - intros i b Hb. destruct (Hf i b Hb) as [Ef|(y & Hy & Iy)].
    + specialize (L i b). rewrite F in L. specialize (L (proj2 (filter_In _ _ _) (conj Hb Ef))). lia.
    + destruct (Hs i b Hb) as [B1 B2]. rewrite (coh b y i B1 (sub_trans _ _ _ Ha Hy) B2 Iy). pose proof (size_sub _ _ Hy). change (unfolded y <= unfolded a)%nat in H. lia.
  - assert (Hlen : (List.length (dj_todo s1) < List.length (dj_todo s))%nat).
    { rewrite F. apply (filter_shorter f (dj_todo s) j); [eapply in_find_id; exact Hin|]. rewrite <- F. exact (Hgone j Hj). }
    pose proof (size_sub _ _ Ha) as Hsz. change (unfolded a <= unfolded r)%nat in Hsz. nia.
Qed.

(** Each shared block costs at least its unfolding, and all of them together at most the
    unfolding of the whole value each. *)
Theorem C80_calls : forall show peek fuel a cjs text n, any_order peek -> coherent a ->
  to_djs_cost show peek fuel a cjs = Ok (text, n) ->
  (forall b i, sub a b -> ident_of b = Some i -> shared a i -> Z.of_nat (unfolded b) <= n)
  /\ exists ids, NoDup ids /\ (forall i, In i ids <-> shared a i) /\ n <= Z.of_nat (List.length ids * unfolded a).
Proof.
  intros show peek fuel a cjs text n order coh. unfold to_djs_cost. fold (todo_of a). destruct (todo_spec a coh) as [Hnd Hin].
  destruct (write_consts_cost show peek fuel {| dj_out := []; dj_todo := todo_of a; dj_refs := [] |}) as [[s m]| |] eqn:E; cbn [obind]; try discriminate.
  destruct (with_refs show (dj_refs s) a) as [body| |]; cbn [obind]; try discriminate. intros [= _ <-].
  destruct (fun H => rounds_cost show peek a fuel order coh _ _ _ H E) as (L & U & _); [intros i b H; cbn [dj_todo] in H; apply Hin in H; tauto|].
  split; [intros b i H1 H2 H3; apply (L i b), Hin; auto|]. exists (map fst (todo_of a)). split; [exact Hnd|]. split.
  - intros i. rewrite in_map_iff. split.
    + intros ([j b] & <- & H). apply Hin in H. tauto.
    + intros H. pose proof H as (p & q & _ & Hp & _). assert (exists b, sub a b /\ ident_of b = Some i) as (b & B1 & B2).
      { destruct Hp as [Hr|b j k c Hb _ Hk Hc]; [exists a; split; [constructor|exact Hr]|].
        exists c. split; [|exact Hc]. eapply sub_trans; [exact Hb|]. eapply sub_child; [eapply nth_error_In; exact Hk|constructor]. }
      exists (i, b). split; [reflexivity|]. apply Hin. auto.
  - rewrite map_length. exact U.
Qed.
Print Assumptions C80_calls.

(** [n + 1] blocks, each with two references to the next: writing them takes [2 ^ n] calls. *)
Lemma full_subs n b : sub (shared_full n) b -> exists k, (k <= n)%nat /\ b = shared_full k.
Proof.
  revert b. induction n as [|n IH]; intros b H; inversion H as [|? c ? Hc Hs]; subst; eauto; cbn in Hc; [contradiction|].
  destruct Hc as [<-|[<-|[]]]; destruct (IH _ Hs) as (k & Hk & ->); exists k; split; auto with arith.
Qed.
Lemma full_ident n : ident_of (shared_full n) = Some (Z.of_nat n).
Proof. destruct n; reflexivity. Qed.
Lemma full_coherent n : coherent (shared_full n).
Proof.
  intros b c i Hb Hc Ib Ic. apply full_subs in Hb as (k & _ & ->), Hc as (m & _ & ->). rewrite full_ident in *.
  replace m with k by (injection Ib; injection Ic; lia). reflexivity.
Qed.
Lemma full_unfolded n : (S (unfolded (shared_full n)) = 2 ^ S n)%nat.
Proof.
  induction n as [|n IH]; [reflexivity|]. cbn [shared_full unfolded map]. change (list_sum [unfolded (shared_full n); unfolded (shared_full n)]) with (unfolded (shared_full n) + (unfolded (shared_full n) + 0))%nat.
  rewrite (Nat.pow_succ_r' 2 (S n)), <- IH. lia.
Qed.
Theorem C80_calls_refuted : forall show peek n cjs, any_order peek ->
  exists f0, forall fuel, (f0 <= fuel)%nat -> exists text calls,
  to_djs_cost show peek fuel (shared_full (S n)) cjs = Ok (text, calls) /\ 2 ^ Z.of_nat n <= calls.
Proof.
  intros show peek n cjs order.
  assert (Hb : no_bigint (shared_full (S n))).
  { intros b H x ->. apply full_subs in H as ([|k] & _ & E); discriminate. }
  assert (Hu : SerializerSpec.units (shared_full (S n))).
  { intros b H. apply full_subs in H as ([|k] & _ & ->); exact I. }
  destruct (proj2 (C55_total_partial show _ Hb Hu) (full_coherent _) peek order cjs) as (f0 & Hf). exists f0. intros fuel Hfuel.
  destruct (Hf fuel Hfuel) as (text & E). apply C80_counted in E as (calls & E). exists text, calls. split; [exact E|].
  destruct (C80_calls _ _ _ _ _ _ _ order (full_coherent _) E) as (L & _).
  specialize (L (shared_full n) (Z.of_nat n)). pose proof (full_unfolded n) as Hn.
  assert (2 ^ Z.of_nat (S n) = Z.of_nat (2 ^ S n)) as Hp by (rewrite Nat2Z.inj_pow; reflexivity).
  rewrite Nat2Z.inj_succ, Z.pow_succ_r in Hp by lia.
  assert (Z.of_nat (unfolded (shared_full n)) <= calls); [|lia].
  apply L; [eapply sub_child; [left; reflexivity|constructor]|apply full_ident|].
  exists (Some (Z.of_nat (S n), 0%nat)), (Some (Z.of_nat (S n), 1%nat)). split; [discriminate|].
  split; eapply pl_child; try (apply sub_refl); try reflexivity; try apply full_ident.
Qed.
Print Assumptions C80_calls_refuted.

(** The length of JSON is not bounded by the length of the module: [27 + 14 n] characters,
    that name one array after another, are converted to more than [2 ^ n]. *)
Lemma lex_word a ta nl f w : lexseq a ta nl f -> next_ok f w ->
  match w with [] => False | c :: r => ident_start c = true /\ Forall (fun c => ident_part c = true) r end ->
  lexseq (a ++ w) (ta ++ (if nl then [TNewLine] else []) ++ [TId w]) false (fun x => negb (ident_part x)).
Proof. destruct w as [|c r]; [intros _ _ []|]. intros H Hn [H1 H2]. exact (ls_lexeme _ _ _ _ _ _ _ H (lex_ident c r H1 H2) Hn). Qed.
Lemma lex_space a ta f : lexseq a ta false f -> f 32 = true -> lexseq (a ++ [32]) ta false TokenizerGrammar.any.
Proof. intros H Hf. rewrite <- (app_nil_r ta). refine (ls_gap _ _ false _ _ H _ _); [apply (gap_blank 32 []); [reflexivity|constructor]|split; [lia|exact Hf]]. Qed.
Lemma lex_newline a ta f : lexseq a ta false f -> f 10 = true -> lexseq (a ++ [10]) ta true (fun c => negb (is_space c)).
Proof. intros H Hf. rewrite <- (app_nil_r ta) at 1. refine (ls_line _ _ false _ _ H _ _); [apply (lb_newline []); constructor|split; [lia|exact Hf]]. Qed.

Definition line_tokens (nl : bool) (body : list token) : list token :=
  (if nl then [TNewLine] else []) ++ [TId (txt "const"); TId (txt "a"); TEquals; TArrayBegin] ++ body ++ [TArrayEnd].
Lemma lex_prefix a ta nl f : lexseq a ta nl f -> f 99 = true ->
  lexseq (a ++ txt "const a=[") (ta ++ (if nl then [TNewLine] else []) ++ [TId (txt "const"); TId (txt "a"); TEquals; TArrayBegin]) false TokenizerGrammar.any.
Proof.
  intros H Hf.
  pose proof (lex_word _ _ _ _ (txt "const") H ltac:(cbn; split; [lia|exact Hf]) ltac:(repeat constructor)) as H1.
  pose proof (lex_space _ _ _ H1 eq_refl) as H2.
  pose proof (lex_word _ _ _ _ (txt "a") H2 ltac:(cbn; split; [lia|reflexivity]) ltac:(repeat constructor)) as H3.
  pose proof (lex_one _ _ _ 61 TEquals H3 eq_refl ltac:(lia) eq_refl) as H4.
  pose proof (lex_one _ _ _ 91 TArrayBegin H4 eq_refl ltac:(lia) eq_refl) as H5.
  cbn [app] in H5. rewrite <- !app_assoc in H5. cbn [app] in H5. exact H5.
Qed.
Lemma lex_first : lexseq (txt "const a=[]" ++ [10]) (line_tokens false []) true (fun c => negb (is_space c)).
Proof.
  pose proof (lex_prefix [] [] false _ ls_nil eq_refl) as H1.
  pose proof (lex_one _ _ _ 93 TArrayEnd H1 eq_refl ltac:(lia) eq_refl) as H2. exact (lex_newline _ _ _ H2 eq_refl).
Qed.
Lemma lex_next a ta : lexseq a ta true (fun c => negb (is_space c)) ->
  lexseq (a ++ txt "const a=[a,a]" ++ [10]) (ta ++ line_tokens true [TId (txt "a"); TComma; TId (txt "a")]) true (fun c => negb (is_space c)).
Proof.
  intros H. pose proof (lex_prefix _ _ _ _ H eq_refl) as H1.
  pose proof (lex_word _ _ _ _ (txt "a") H1 ltac:(cbn; split; [lia|reflexivity]) ltac:(repeat constructor)) as H2.
  pose proof (lex_one _ _ _ 44 TComma H2 eq_refl ltac:(lia) eq_refl) as H3.
  pose proof (lex_word _ _ _ _ (txt "a") H3 ltac:(cbn; split; [lia|reflexivity]) ltac:(repeat constructor)) as H4.
  pose proof (lex_one _ _ _ 93 TArrayEnd H4 eq_refl ltac:(lia) eq_refl) as H5.
  pose proof (lex_newline _ _ _ H5 eq_refl) as H6.
  unfold line_tokens. cbn [app] in H6. rewrite <- !app_assoc in H6. cbn [app] in H6. cbn [app]. exact H6.
Qed.
Definition full_tokens (n : nat) : list token :=
  line_tokens false [] ++ List.concat (repeat (line_tokens true [TId (txt "a"); TComma; TId (txt "a")]) n)
  ++ [TNewLine; TId (txt "export"); TId (txt "default"); TId (txt "a")].
Lemma full_lex n : lexseq (full_text n) (full_tokens n) false (fun x => negb (ident_part x)).
Proof.
  assert (H : lexseq ((txt "const a=[]" ++ [10]) ++ List.concat (repeat (txt "const a=[a,a]" ++ [10]) n))
    (line_tokens false [] ++ List.concat (repeat (line_tokens true [TId (txt "a"); TComma; TId (txt "a")]) n)) true (fun c => negb (is_space c))).
  { induction n as [|n IH]; [cbn [repeat List.concat]; rewrite !app_nil_r; exact lex_first|].
    cbn [repeat]. rewrite !repeat_cons, !concat_app. cbn [List.concat]. rewrite !app_nil_r. rewrite (app_assoc (_ ++ [10])), (app_assoc (line_tokens false [])).
    apply lex_next, IH. }
  pose proof (lex_word _ _ _ _ (txt "export") H ltac:(cbn; split; [lia|reflexivity]) ltac:(repeat constructor)) as H1.
  pose proof (lex_space _ _ _ H1 eq_refl) as H2.
  pose proof (lex_word _ _ _ _ (txt "default") H2 ltac:(cbn; split; [lia|reflexivity]) ltac:(repeat constructor)) as H3.
  pose proof (lex_space _ _ _ H3 eq_refl) as H4.
  pose proof (lex_word _ _ _ _ (txt "a") H4 ltac:(cbn; split; [lia|reflexivity]) ltac:(repeat constructor)) as H5.
  unfold full_text, full_tokens. cbn [app] in H5. rewrite <- !app_assoc in H5. exact H5.
Qed.

Lemma spread_same l : spread l l.
Proof. induction l; constructor; assumption. Qed.
Lemma full_module mods n : gmodule mods [] Json true (full_tokens n) Mjs (full n).
Proof.
  assert (Hname : forall env t p d, lookup env (txt "a") = Some t -> gval mods env p d [TId (txt "a")] d t).
  { intros env t p d H. apply gv_scalar; [apply sc_name; [discriminate|discriminate|discriminate|exact H]|discriminate]. }
  assert (G : forall n env k d, may_be_mjs d = true -> lookup env (txt "a") = Some (full k) ->
    gmodule mods env d false (List.concat (repeat (line_tokens true [TId (txt "a"); TComma; TId (txt "a")]) n) ++ [TNewLine; TId (txt "export"); TId (txt "default"); TId (txt "a")]) Mjs (full (k + n))).
  { clear n. induction n as [|n IH]; intros env k d Hd He.
    - rewrite Nat.add_0_r. apply gs_newline. apply gs_export; [exact Hd|]. exists [TId (txt "a")], [TId (txt "a")], O. split; [reflexivity|].
      split; [apply spread_same|apply Hname, He].
    - cbn [repeat List.concat]. rewrite <- app_assoc.
      change (line_tokens true [TId (txt "a"); TComma; TId (txt "a")] ++ ?x) with (TNewLine :: TId (txt "const") :: TId (txt "a") :: TEquals :: [TArrayBegin; TId (txt "a"); TComma; TId (txt "a"); TArrayEnd] ++ x).
      apply gs_newline. eapply (gs_const mods env d (txt "a") _ _ (full (S k)) Djs); [apply spread_same| |].
      + apply (gv_array mods env PElsewhere Djs [TId (txt "a"); TComma; TId (txt "a")]).
        apply (ge_cons mods env PFirst Djs [TId (txt "a")] Djs (full k) [TId (txt "a")]); [apply Hname, He|apply ge_last, Hname, He].
      + replace (k + S n)%nat with (S k + n)%nat by lia. apply IH; [reflexivity|]. cbn [lookup]. destruct (list_eq_dec Z.eq_dec (txt "a") (txt "a")); [reflexivity|congruence]. }
  unfold full_tokens. change (line_tokens false [] ++ ?x) with (TId (txt "const") :: TId (txt "a") :: TEquals :: [TArrayBegin; TArrayEnd] ++ x).
  eapply (gs_const mods [] Json (txt "a") _ _ (full 0) Djs); [apply spread_same|apply (gv_array mods [] PElsewhere Djs []), ge_nil|].
  apply (G n _ O); [reflexivity|]. cbn [lookup]. destruct (list_eq_dec Z.eq_dec (txt "a") (txt "a")); [reflexivity|congruence].
Qed.

Lemma full_json show n : forall v, erase v = full n -> exists text, to_json show v = Ok text /\ (2 ^ n < List.length text)%nat.
Proof.
  induction n as [|n IH]; intros v Hv; destruct v as [ |b|f|s|b|i l|i l]; cbn [erase full] in Hv; try discriminate; injection Hv as Hv.
  - destruct l; [|discriminate]. eexists. split; [reflexivity|]. cbn. lia.
  - destruct l as [|x [|y [|z l]]]; try discriminate. injection Hv as Hx Hy. unfold to_json in *. cbn [write_json omap].
    destruct (IH x Hx) as (tx & Ex & Lx), (IH y Hy) as (ty & Ey & Ly). change (omap (write_json show) [x; y]) with (let! t := write_json show x in let! ts := let! t := write_json show y in Ok [t] in Ok (t :: ts)).
    rewrite Ex. cbn [obind]. rewrite Ey. cbn [obind]. eexists. split; [reflexivity|]. unfold write_list. cbn [commas List.length].
    rewrite !app_length. cbn [List.length]. rewrite Nat.pow_succ_r'. lia.
Qed.

Theorem C80_length_refuted : forall show n, exists text, List.length text = (27 + 14 * n)%nat
  /\ exists f0, forall fuel io R k, (f0 <= fuel)%nat -> io R = Some text ->
     exists depth c v out, parse io fuel depth (fresh R k) = Ok (c, inl (Mjs, v)) /\ to_json show v = Ok out /\ (2 ^ n < List.length out)%nat.
Proof.
  intros show n. exists (full_text n). split.
  { unfold full_text. rewrite !app_length. change (List.length (txt "const a=[]")) with 10%nat. change (List.length [10]) with 1%nat.
    change (List.length (txt "export default a")) with 16%nat.
    assert (List.length (List.concat (repeat (txt "const a=[a,a]" ++ [10]) n)) = (14 * n)%nat); [|lia].
    induction n as [|n IH]; [reflexivity|]. cbn [repeat List.concat]. rewrite app_length, IH. change (List.length (txt "const a=[a,a]" ++ [10])) with 14%nat. lia. }
  destruct (lexseq_tokens _ _ _ (full_lex n)) as (f0 & Hf). exists f0. intros fuel io R k Hfuel Hio.
  destruct (proj2 (C39_modules io fuel R k Mjs (full n))) as (depth & c & v & Hp & Hv).
  { exists 1%nat. exists (full_text n), (full_tokens n). split; [exact Hio|]. split; [exact (Hf fuel Hfuel)|apply full_module]. }
  destruct (full_json show n v Hv) as (out & Ho & Hl). exists depth, c, v, out. auto.
Qed.
Print Assumptions C80_length_refuted.

Example C80_case :
  to_djs_cost show_two first_key 10 (shared_full 3) false = Ok (txt "const _0=[];const _1=[_0,_0];const _2=[_1,_1];export default [_2,_2]", 7)
  /\ to_djs_cost show_two last_key 10 (shared_full 3) false = Ok (txt "const _0=[];const _1=[_0,_0];const _2=[_1,_1];export default [_2,_2]", 11)
  /\ unfolded (shared_full 2) = 7%nat
  /\ to_djs_cost show_two first_key 10 (AArray 1 [AArray 2 [ANull]; AArray 3 [ANull]]) true = Ok (txt "module.exports=[[null],[null]]", 0)
  /\ to_json show_two (shared_full 2) = Ok (txt "[[[],[]],[[],[]]]").
Proof. vm_compute. auto. Qed.
