(** Properties C87 and C88: the two module systems, ES modules and CommonJS
    (nanvm-lib/src/parser). *)
From Coq Require Import ZArith List Bool String Lia.
From Verif Require Import Outcome VTac JsBigintModel TokenizerModel TokenizerSpec ValueModel ParserModel ParserSpec TextSpec
  BTreeProofs ParserProofs ParserRun ParserModules ParserMore Prop_Parser.
Import ListNotations.
Open Scope Z_scope.

(** * C87 *)

(** An [import] or [export] statement; line breaks are not allowed inside. *)
Definition es_words (ts : list token) : Prop :=
  (exists p k m q, ts = p ++ [TId (txt "import"); TId k; TId (txt "from"); TString m] ++ q)
  \/ (exists p q, ts = p ++ [TId (txt "export"); TId (txt "default")] ++ q).
(** A [require] call or [module.exports]; line breaks are allowed inside a call. *)
Definition cjs_words (ts : list token) : Prop :=
  (exists p q, filter not_newline ts = p ++ [TId (txt "require"); TOpenPar] ++ q)
  \/ (exists p q, filter not_newline ts = p ++ [TId (txt "module"); TDot; TId (txt "exports"); TEquals] ++ q).

(** ** Two names in a row *)
Fixpoint pair (ts : list token) : bool :=
  match ts with
  | TId _ :: l => match l with TId _ :: _ => true | _ => pair l end
  | _ :: l => pair l
  | [] => false
  end.
Definition ends_id (ts : list token) : bool := match rev ts with TId _ :: _ => true | _ => false end.
Definition starts_id (ts : list token) : bool := match ts with TId _ :: _ => true | _ => false end.
Definition is_id (t : token) : bool := match t with TId _ => true | _ => false end.

Lemma pair_cons t ts : pair (t :: ts) = (is_id t && starts_id ts) || pair ts.
Proof. destruct t; try reflexivity. destruct ts as [|[]]; reflexivity. Qed.
Lemma pair_app a b : starts_id b = false -> pair (a ++ b) = pair a || pair b.
Proof.
  intros Hb. induction a as [|t a IH]; [reflexivity|]. cbn [app]. rewrite !pair_cons, IH.
  destruct a as [|u a]; [cbn [app starts_id]; rewrite Hb, !andb_false_r; reflexivity|]. cbn [app starts_id]. apply orb_assoc.
Qed.
Lemma pair_suffix a b : pair (a ++ b) = false -> pair b = false.
Proof. induction a as [|t a IH]; [auto|]. cbn [app]. rewrite pair_cons. intros H. apply orb_false_elim in H as [_ H]. auto. Qed.

Lemma es_pair ts : es_words ts -> pair ts = true.
Proof.
  assert (G : forall p i k q, pair (p ++ TId i :: TId k :: q) = true).
  { induction p as [|t p IH]; intros; [reflexivity|]. cbn [app]. rewrite pair_cons, IH. apply orb_true_r. }
  intros [(p & k & m & q & ->)|(p & q & ->)]; apply G.
Qed.

(** A statement word pair at the join of two lists stands in the second list already, if the
    first has no pair and the join is no pair. *)
Lemma app_cons_split {A} (p q a b : list A) (x : A) : p ++ x :: q = a ++ b ->
  (exists a', a = p ++ x :: a' /\ q = a' ++ b) \/ (exists p', p = a ++ p' /\ b = p' ++ x :: q).
Proof.
  revert a. induction p as [|y p IH]; intros a H.
  - destruct a as [|z a]; cbn in H.
    + right. exists []. auto.
    + injection H as <- ->. left. exists a. auto.
  - destruct a as [|z a]; cbn in H.
    + right. exists (y :: p). auto.
    + injection H as <- H. destruct (IH _ H) as [(a' & -> & ->)|(p' & -> & ->)]; [left; exists a'; auto|right; exists p'; auto].
Qed.
Lemma es_app a b : pair a = false -> starts_id b = false -> es_words (a ++ b) -> es_words b.
Proof.
  intros Ha Hb.
  assert (G : forall p i k q, a ++ b = p ++ TId i :: TId k :: q -> exists p', b = p' ++ TId i :: TId k :: q).
  { intros p i k q E. symmetry in E. apply app_cons_split in E as [(a' & -> & E)|(p' & -> & ->)]; [|eauto].
    destruct a' as [|y a']; cbn in E.
    - subst b. discriminate.
    - injection E as <- ->. exfalso. assert (pair (p ++ TId i :: TId k :: a') = true); [|congruence].
      clear. induction p as [|t p IH]; [reflexivity|]. cbn [app]. rewrite pair_cons, IH. apply orb_true_r. }
  intros [(p & k & m & q & E)|(p & q & E)]; apply G in E as [p' ->]; [left; exists p', k, m, q|right; exists p', q]; reflexivity.
Qed.
Lemma es_cons t q : is_id t && starts_id q = false -> es_words (t :: q) -> es_words q.
Proof.
  intros Ht [(p & k & m & r & E)|(p & r & E)]; (destruct p as [|u p]; [injection E as -> ->; discriminate|injection E as -> ->]); [left; exists p, k, m, r|right; exists p, r]; reflexivity.
Qed.

(** ** Values *)
Lemma gval_system mods env :
  (forall p d a d' t, gval mods env p d a d' t ->
     (d = Mjs -> d' = Mjs /\ ~ In TOpenPar a) /\ (d = Cjs -> d' = Cjs) /\ (In TOpenPar a -> d' = Cjs) /\ ~ In TDot a /\ pair a = false /\ ~ In TNewLine a
     /\ (d' = d \/ d' = Cjs))
  /\ (forall p d a d' ts, gelems mods env p d a d' ts ->
     (d = Mjs -> d' = Mjs /\ ~ In TOpenPar a) /\ (d = Cjs -> d' = Cjs) /\ (In TOpenPar a -> d' = Cjs) /\ ~ In TDot a /\ pair a = false /\ ~ In TNewLine a
     /\ (d' = d \/ d' = Cjs))
  /\ (forall f d a d' kvs, gmembers mods env f d a d' kvs ->
     (d = Mjs -> d' = Mjs /\ ~ In TOpenPar a) /\ (d = Cjs -> d' = Cjs) /\ (In TOpenPar a -> d' = Cjs) /\ ~ In TDot a /\ pair a = false /\ ~ In TNewLine a
     /\ (d' = d \/ d' = Cjs)).
Proof.
  apply gval_mutind.
  - intros p d tok t Hs _. destruct Hs; cbn; intuition (congruence || auto).
  - intros p d m t Hr _. cbn. split; [intros ->; destruct p; discriminate|]. repeat split; auto; intuition congruence.
  - intros p d body d' ts _ (H1 & H2 & H3 & H4 & H5 & H6 & H7).
    assert (E : forall x, x <> TArrayBegin -> x <> TArrayEnd -> In x (TArrayBegin :: body ++ [TArrayEnd]) -> In x body).
    { intros x N1 N2 [X|X]; [congruence|]. apply in_app_or in X as [X|[X|[]]]; [exact X|congruence]. }
    repeat split; auto.
    + apply H1; assumption.
    + intros X. apply (proj2 (H1 H)), E; [discriminate|discriminate|exact X].
    + intros X. apply H3, E; [discriminate|discriminate|exact X].
    + intros X. apply H4, E; [discriminate|discriminate|exact X].
    + rewrite pair_cons, pair_app by reflexivity. rewrite H5. reflexivity.
    + intros X. apply H6, E; [discriminate|discriminate|exact X].
  - intros p d body d' kvs o _ (H1 & H2 & H3 & H4 & H5 & H6 & H7) _.
    assert (E : forall x, x <> TObjectBegin -> x <> TObjectEnd -> In x (TObjectBegin :: body ++ [TObjectEnd]) -> In x body).
    { intros x N1 N2 [X|X]; [congruence|]. apply in_app_or in X as [X|[X|[]]]; [exact X|congruence]. }
    repeat split; auto.
    + apply H1; assumption.
    + intros X. apply (proj2 (H1 H)), E; [discriminate|discriminate|exact X].
    + intros X. apply H3, E; [discriminate|discriminate|exact X].
    + intros X. apply H4, E; [discriminate|discriminate|exact X].
    + rewrite pair_cons, pair_app by reflexivity. rewrite H5. reflexivity.
    + intros X. apply H6, E; [discriminate|discriminate|exact X].
  - intros p d. cbn. repeat split; auto; intros [].
  - intros p d a d' t _ H. exact H.
  - intros p d a d1 t b d' ts _ (H1 & H2 & H3 & H4 & H5 & H6 & H7) _ (G1 & G2 & G3 & G4 & G5 & G6 & G7).
    assert (E : forall x, x <> TComma -> In x (a ++ TComma :: b) -> In x a \/ In x b).
    { intros x N X. apply in_app_or in X as [X|[X|X]]; [auto|congruence|auto]. }
    split; [intros X; destruct (H1 X) as [X1 X2]; destruct (G1 X1) as [Y1 Y2]; split; [exact Y1|intros X3; apply E in X3 as [X3|X3]; [auto|auto|discriminate]]|].
    split; [auto|]. split; [intros X; apply E in X as [X|X]; [auto|auto|discriminate]|].
    split; [intros X; apply E in X as [X|X]; [auto|auto|discriminate]|].
    split; [rewrite pair_app by reflexivity; rewrite H5; exact G5|].
    split; [intros X; apply E in X as [X|X]; [auto|auto|discriminate]|].
    destruct H7 as [-> | ->]; [exact G7|right; auto].
  - intros f d. cbn. repeat split; auto; intros [].
  - intros f d tok k a d' t Hk _ (H1 & H2 & H3 & H4 & H5 & H6 & H7).
    assert (E : forall x, x <> TColon -> (forall i, x <> TId i) -> (forall i, x <> TString i) -> In x (tok :: TColon :: a) -> In x a).
    { intros x N1 N2 N3 [X|[X|X]]; [destruct Hk; subst; destruct (N3 k); congruence || (destruct (N2 k); congruence)|congruence|exact X]. }
    repeat split; auto.
    + apply H1; assumption.
    + intros X. apply (proj2 (H1 H)), E; [discriminate..|exact X].
    + intros X. apply H3, E; [discriminate..|exact X].
    + intros X. apply H4, E; [discriminate..|exact X].
    + rewrite !pair_cons. cbn [starts_id is_id]. rewrite andb_false_r. exact H5.
    + intros X. apply H6, E; [discriminate..|exact X].
  - intros f d tok k a d1 t b d' kvs Hk _ (H1 & H2 & H3 & H4 & H5 & H6 & H7) _ (G1 & G2 & G3 & G4 & G5 & G6 & G7).
    assert (E : forall x, x <> TColon -> x <> TComma -> (forall i, x <> TId i) -> (forall i, x <> TString i) -> In x (tok :: TColon :: a ++ TComma :: b) -> In x a \/ In x b).
    { intros x N1 N0 N2 N3 [X|[X|X]]; [destruct Hk; subst; destruct (N3 k); congruence || (destruct (N2 k); congruence)|congruence|].
      apply in_app_or in X as [X|[X|X]]; [auto|congruence|auto]. }
    split; [intros X; destruct (H1 X) as [X1 X2]; destruct (G1 X1) as [Y1 Y2]; split; [exact Y1|intros X3; apply E in X3 as [X3|X3]; [auto|auto|discriminate..]]|].
    split; [auto|]. split; [intros X; apply E in X as [X|X]; [auto|auto|discriminate..]|].
    split; [intros X; apply E in X as [X|X]; [auto|auto|discriminate..]|].
    split; [rewrite !pair_cons; cbn [starts_id is_id]; rewrite andb_false_r; cbn [andb orb]; rewrite pair_app by reflexivity; rewrite H5; exact G5|].
    split; [intros X; apply E in X as [X|X]; [auto|auto|discriminate..]|].
    destruct H7 as [-> | ->]; [exact G7|right; auto].
Qed.

(** Line breaks added before tokens change neither the other tokens nor, for the better, the
    pairs. *)
Lemma spread_in a b x : spread a b -> x <> TNewLine -> In x b -> In x a.
Proof.
  induction 1 as [|y a b H IH|y a b H IH]; intros N X; [exact X| |].
  - destruct X as [X|X]; [congruence|exact (IH N X)].
  - destruct X as [X|X]; [left; exact X|right; exact (IH N X)].
Qed.
Lemma spread_starts a b : spread a b -> starts_id b = true -> starts_id a = true.
Proof. induction 1; cbn; auto; discriminate. Qed.
Lemma spread_pair a b : spread a b -> pair a = false -> pair b = false.
Proof.
  induction 1 as [|x a b H IH|x a b H IH]; [auto| |].
  - intros E. rewrite pair_cons. cbn. auto.
  - rewrite !pair_cons. intros E. apply orb_false_elim in E as [E1 E2]. rewrite IH by exact E2. rewrite orb_false_r.
    destruct (is_id x); [|reflexivity]. cbn in *. destruct (starts_id b) eqn:Eb; [|reflexivity]. rewrite (spread_starts _ _ H Eb) in E1. discriminate.
Qed.
Lemma pair_newlines n : pair (repeat TNewLine n) = false.
Proof. induction n; [reflexivity|assumption]. Qed.

Lemma gfinal_system mods env d toks d' t : gfinal mods env d toks d' t ->
  (d = Mjs -> d' = Mjs /\ ~ In TOpenPar toks) /\ (d = Cjs -> d' = Cjs) /\ (In TOpenPar toks -> d' = Cjs) /\ ~ In TDot toks /\ pair toks = false
  /\ (d' = d \/ d' = Cjs).
Proof.
  intros (a & b & n & -> & Hs & Hg). destruct (proj1 (gval_system mods env) _ _ _ _ _ Hg) as (H1 & H2 & H3 & H4 & H5 & H6 & H7).
  assert (E : forall x, x <> TNewLine -> In x (b ++ repeat TNewLine n) -> In x a).
  { intros x N X. apply in_app_or in X as [X|X]; [exact (spread_in _ _ _ Hs N X)|apply repeat_spec in X; congruence]. }
  split; [intros X; destruct (H1 X) as [X1 X2]; split; [exact X1|intros Y; apply X2, E; [discriminate|exact Y]]|].
  split; [exact H2|]. split; [intros X; apply H3, E; [discriminate|exact X]|]. split; [intros X; apply H4, E; [discriminate|exact X]|].
  split; [|exact H7]. rewrite pair_app by (destruct n; reflexivity). rewrite (spread_pair _ _ Hs H5). apply pair_newlines.
Qed.

(** ** Modules *)
Definition no_const (ts : list token) : Prop := ~ In (TId (txt "const")) ts.

Lemma gmodule_keep mods env d nl toks d' t : gmodule mods env d nl toks d' t -> no_const toks ->
  (d = Mjs -> d' = Mjs) /\ (d = Cjs -> d' = Cjs).
Proof.
  induction 1 as [env d nl toks d' t H IH|env d x a b v d1 rest d' t Hs Hg Hr IH|env d x m v rest d' t Hd Hm Hr IH|env d toks d' t Hd Hf|env d toks d' t Hd Hf|env d tok toks d' t Ho Hn Hf]; intros Hc.
  - apply IH. intros X. apply Hc. right. exact X.
  - destruct Hc. left. reflexivity.
  - assert (no_const rest) as Hc' by (intros X; apply Hc; do 4 right; exact X). destruct (IH Hc') as [G _].
    split; [auto|intros ->; discriminate].
  - destruct (gfinal_system _ _ _ _ _ _ Hf) as (G & _). split; [intros _; apply G; reflexivity|intros ->; discriminate].
  - destruct (gfinal_system _ _ _ _ _ _ Hf) as (_ & G & _). split; [intros ->; discriminate|auto].
  - destruct (gfinal_system _ _ _ _ _ _ Hf) as (G1 & G2 & _). split; [intros X; apply G1, X|exact G2].
Qed.

Lemma no_const_suffix p q : no_const (p ++ q) -> no_const q.
Proof. intros H X. apply H, in_or_app. auto. Qed.
Lemma gmodule_starts mods env d toks d' t : gmodule mods env d false toks d' t -> starts_id toks = false.
Proof. inversion 1; reflexivity. Qed.

(** Suffixes of a list that starts with a given element. *)
Lemma suffix_cons {A} (x : A) l p q : x :: l = p ++ q -> (p = [] /\ q = x :: l) \/ exists p', p = x :: p' /\ l = p' ++ q.
Proof. destruct p as [|y p]; cbn; intros E; [left; auto|injection E as <- ->; right; eauto]. Qed.
Lemma suffix_app {A} (a b p q : list A) : a ++ b = p ++ q -> (exists a2, a = p ++ a2 /\ q = a2 ++ b) \/ (exists p', p = a ++ p' /\ b = p' ++ q).
Proof.
  revert p. induction a as [|x a IH]; intros p E; cbn in E.
  - right. exists p. auto.
  - apply suffix_cons in E as [[-> ->]|(p' & -> & E)]; [left; exists (x :: a); auto|].
    destruct (IH _ E) as [(a2 & -> & ->)|(p2 & -> & ->)]; [left|right]; eexists; split; reflexivity.
Qed.

Definition calls (ts : list token) : Prop := In TOpenPar ts \/ In TDot ts.

Lemma gfinal_suffix mods env d toks d' t p q : gfinal mods env d toks d' t -> toks = p ++ q -> (calls q -> d' = Cjs) /\ ~ es_words q.
Proof.
  intros Hf ->. destruct (gfinal_system _ _ _ _ _ _ Hf) as (_ & _ & G3 & G4 & G5 & _). split.
  - intros [X|X]; [apply G3|destruct G4]; apply in_or_app; auto.
  - intros X. apply es_pair in X. rewrite (pair_suffix _ _ G5) in X. discriminate.
Qed.

Lemma gmodule_suffix mods env d nl toks d' t : gmodule mods env d nl toks d' t -> forall p q, toks = p ++ q -> no_const q ->
  (calls q -> d' = Cjs) /\ (es_words q -> d' = Mjs).
Proof.
  induction 1 as [env d nl toks d' t H IH|env d x a b v d1 rest d' t Hs Hg Hr IH|env d x m v rest d' t Hd Hm Hr IH|env d toks d' t Hd Hf|env d toks d' t Hd Hf|env d tok toks d' t Ho Hn Hf]; intros p q E Hc.
  - apply suffix_cons in E as [[-> ->]|(p' & -> & E)]; [|exact (IH _ _ E Hc)].
    assert (Hc' : no_const toks) by (intros X; apply Hc; right; exact X). destruct (IH [] toks eq_refl Hc') as [G1 G2]. split.
    + intros [[X|X]|[X|X]]; try discriminate; apply G1; [left|right]; exact X.
    + intros X. apply G2, (es_cons TNewLine); [reflexivity|exact X].
  - apply suffix_cons in E as [[-> ->]|(p1 & -> & E)]; [destruct Hc; left; reflexivity|].
    destruct (proj1 (gval_system mods env) _ _ _ _ _ Hg) as (_ & _ & V3 & V4 & V5 & _ & _).
    pose proof (spread_pair _ _ Hs V5) as Vb. pose proof (gmodule_starts _ _ _ _ _ _ Hr) as Hst.
    (* a suffix that reaches into the value *)
    assert (Hval : forall b1 b2, b = b1 ++ b2 -> no_const (b2 ++ rest) -> (calls (b2 ++ rest) -> d' = Cjs) /\ (es_words (b2 ++ rest) -> d' = Mjs)).
    { intros b1 b2 -> Hc2. pose proof (no_const_suffix _ _ Hc2) as Hc3. destruct (IH [] rest eq_refl Hc3) as [G1 G2]. split.
      - intros [X|X]; apply in_app_or in X as [X|X].
        + apply (gmodule_keep _ _ _ _ _ _ _ Hr Hc3). apply V3. apply (spread_in _ _ _ Hs); [discriminate|]. apply in_or_app. auto.
        + apply G1. left. exact X.
        + destruct V4. apply (spread_in _ _ _ Hs); [discriminate|]. apply in_or_app. auto.
        + apply G1. right. exact X.
      - intros X. apply G2. apply (es_app b2 rest); [exact (pair_suffix _ _ Vb)|exact Hst|exact X]. }
    apply suffix_cons in E as [[-> ->]|(p2 & -> & E)].
    + assert (Hc2 : no_const (b ++ rest)) by (intros X; apply Hc; do 2 right; exact X). destruct (Hval [] b eq_refl Hc2) as [G1 G2]. split.
      * intros [[X|[X|X]]|[X|[X|X]]]; try discriminate; apply G1; [left|right]; exact X.
      * intros X. apply G2. apply (es_cons TEquals); [reflexivity|]. apply (es_cons (TId x)); [reflexivity|exact X].
    + apply suffix_cons in E as [[-> ->]|(p3 & -> & E)].
      * assert (Hc2 : no_const (b ++ rest)) by (intros X; apply Hc; right; exact X). destruct (Hval [] b eq_refl Hc2) as [G1 G2]. split.
        -- intros [[X|X]|[X|X]]; try discriminate; apply G1; [left|right]; exact X.
        -- intros X. apply G2, (es_cons TEquals); [reflexivity|exact X].
      * apply suffix_app in E as [(a2 & E & ->)|(p' & -> & E)]; [exact (Hval _ _ E Hc)|exact (IH _ _ E Hc)].
  - (* import *)
    assert (Hrest : no_const rest -> d' = Mjs) by (intros X; apply (gmodule_keep _ _ _ _ _ _ _ Hr X); reflexivity).
    assert (Hin : forall l, In l [[TId (txt "import"); TId x; TId (txt "from"); TString m]; [TId x; TId (txt "from"); TString m]; [TId (txt "from"); TString m]; [TString m]] ->
      no_const (l ++ rest) -> (calls (l ++ rest) -> d' = Cjs) /\ (es_words (l ++ rest) -> d' = Mjs)).
    { intros l Hl Hc2. pose proof (no_const_suffix _ _ Hc2) as Hc3. split; [|intros _; auto].
      intros X. apply (IH [] rest eq_refl Hc3). destruct X as [X|X]; apply in_app_or in X as [X|X]; try ((left; exact X) || (right; exact X));
        cbn in Hl; decompose [or] Hl; try contradiction; subst l; cbn in X; decompose [or] X; discriminate || contradiction. }
    apply suffix_cons in E as [[-> ->]|(p1 & -> & E)]; [apply (Hin [_; _; _; _]); [cbn; auto|exact Hc]|].
    apply suffix_cons in E as [[-> ->]|(p2 & -> & E)]; [apply (Hin [_; _; _]); [cbn; auto|exact Hc]|].
    apply suffix_cons in E as [[-> ->]|(p3 & -> & E)]; [apply (Hin [_; _]); [cbn; auto|exact Hc]|].
    apply suffix_cons in E as [[-> ->]|(p4 & -> & E)]; [apply (Hin [_]); [cbn; auto 6|exact Hc]|].
    exact (IH _ _ E Hc).
  - (* export default *)
    destruct (gfinal_system _ _ _ _ _ _ Hf) as (G1 & _ & _ & G4 & _ & _). destruct (G1 eq_refl) as [-> G]. split; [|auto].
    assert (Hq : forall y, In y q -> y = TId (txt "export") \/ y = TId (txt "default") \/ In y toks).
    { intros y Hy. assert (In y (p ++ q)) by (apply in_or_app; auto). rewrite <- E in H. cbn in H. intuition. }
    intros [X|X]; apply Hq in X as [X|[X|X]]; try discriminate; contradiction.
  - (* module.exports *)
    destruct (gfinal_system _ _ _ _ _ _ Hf) as (_ & G2 & _ & _ & G5 & _). split; [auto|].
    intros X. apply es_pair in X. exfalso. assert (Hp : pair (TId (txt "module") :: TDot :: TId (txt "exports") :: TEquals :: toks) = false) by exact G5.
    rewrite E in Hp. rewrite (pair_suffix _ _ Hp) in X. discriminate.
  - destruct (gfinal_suffix _ _ _ _ _ _ _ _ Hf E) as [G1 G2]. split; [exact G1|contradiction].
Qed.

Lemma cjs_calls q : cjs_words q -> calls q.
Proof.
  intros [(a & b & E)|(a & b & E)]; [left|right].
  - assert (X : In TOpenPar (filter not_newline q)) by (rewrite E; apply in_or_app; cbn; auto). apply filter_In in X. apply X.
  - assert (X : In TDot (filter not_newline q)) by (rewrite E; apply in_or_app; cbn; auto). apply filter_In in X. apply X.
Qed.

Lemma accepted_grammar load c ts c' d v : parse_tokens_with load c ts = Ok (c', inl (d, v)) ->
  gmodule (fun _ _ => True) [] Json true ts d (erase v).
Proof.
  unfold parse_tokens_with. fold start. intros H.
  destruct (push_all load start c ts) as [[j c1]| |] eqn:E; cbn [obind] in H; try discriminate. injection H as -> He.
  destruct (run_sound load (fun _ => True) (fun _ _ _ => I) (fun _ _ => True) ts) with (2 := E) (5 := He) as [Hg _];
    [auto|apply start_jwf|exact I|exact Hg].
Qed.

(** The type of an accepted module is that of the module system used since the last [const]:
    so a module without constants uses at most one. *)
Theorem C87_one_system_partial : forall load c ts c' d v p q,
  parse_tokens_with load c ts = Ok (c', inl (d, v)) -> ts = p ++ q -> ~ In (TId (txt "const")) q ->
  (cjs_words q -> d = Cjs) /\ (es_words q -> d = Mjs).
Proof.
  intros load c ts c' d v p q H E Hc. apply accepted_grammar in H.
  destruct (gmodule_suffix _ _ _ _ _ _ _ H _ _ E Hc) as [G1 G2]. split; [intros X; apply G1, cjs_calls, X|exact G2].
Qed.
Print Assumptions C87_one_system_partial.

Corollary C87_no_constants_partial : forall load c ts c' r,
  parse_tokens_with load c ts = Ok (c', inl r) -> ~ In (TId (txt "const")) ts -> ~ (es_words ts /\ cjs_words ts).
Proof.
  intros load c ts c' [d v] H Hc [X Y]. destruct (C87_one_system_partial _ _ _ _ _ _ [] ts H eq_refl Hc) as [G1 G2].
  rewrite (G1 Y) in G2. discriminate (G2 X).
Qed.
Print Assumptions C87_no_constants_partial.

(** A constant makes the parser forget the module system: any two modules can be used one with
    [import] and the other with [require]. *)
Theorem C87_mixed_refuted : forall load c m1 m2 c1 a1 c2 a2,
  load c m1 = Ok (c1, inl a1) -> load c1 m2 = Ok (c2, inl a2) ->
  exists ts c' v, parse_tokens_with load c ts = Ok (c', inl (Cjs, v)) /\ erase v = VArray [erase a1; erase a2]
    /\ es_words ts /\ cjs_words ts.
Proof.
  intros load c m1 m2 c1 a1 c2 a2 H1 H2.
  exists [id "import"; id "a"; id "from"; TString m1; TNewLine; id "const"; id "b"; TEquals; id "require"; TOpenPar; TString m2; TClosePar; TNewLine;
          id "module"; TDot; id "exports"; TEquals; TArrayBegin; id "a"; TComma; id "b"; TArrayEnd].
  destruct c as [n p co pr lg]. destruct c1 as [n1 p1 co1 pr1 lg1]. destruct c2 as [n2 p2 co2 pr2 lg2].
  do 2 eexists. split; [|split; [|split]].
  - unfold parse_tokens_with. repeat (cbn; unfold cx_root_parse). unfold cx_set_next. cbn. rewrite H1. repeat (cbn; unfold cx_root_parse). unfold cx_set_next. cbn.
    rewrite H2. repeat (cbn; unfold cx_root_parse, cx_module_parse). reflexivity.
  - reflexivity.
  - left. exists [], (txt "a"), m1. eexists. reflexivity.
  - left. eexists [_; _; _; _; _; _; _], _. reflexivity.
Qed.
Print Assumptions C87_mixed_refuted.

Example C87_case :
  let io := files [("m", "import a from ""x""
const b = require(""y"")
module.exports = [a, b]"); ("n", "import a from ""x""
module.exports = a"); ("x", "1"); ("y", "2")]%string in
  seen (parse io 1000 3 (fresh (txt "m") 0))
  = Ok (inl (Cjs, VArray [VNumber 0x3FF0000000000000; VNumber 0x4000000000000000]), [txt "m"; txt "x"; txt "y"])
  /\ seen (parse io 1000 3 (fresh (txt "n") 0)) = Ok (inr UnexpectedToken, [txt "n"; txt "x"]).
Proof. vmc. Qed.

(** * C88 *)

Definition starts_call (ts : list token) : bool :=
  match ts with TId i :: TOpenPar :: _ => str_eqb i (txt "require") | _ => false end.
(** A call opens an array. *)
Fixpoint first_call (ts : list token) : bool :=
  match ts with
  | TArrayBegin :: l => starts_call l || first_call l
  | _ :: l => first_call l
  | [] => false
  end.
(** A call follows a comma, before anything of CommonJS was read. *)
Fixpoint next_call (known : bool) (ts : list token) : bool :=
  match ts with
  | TComma :: l => (negb known && starts_call l) || next_call known l
  | TOpenPar :: l | TDot :: l => next_call true l
  | _ :: l => next_call known l
  | [] => false
  end.
Definition no_open (ts : list token) : Prop := match ts with TOpenPar :: _ => False | _ => True end.

Lemma starts_no_open i b : no_open b -> starts_call (TId i :: b) = false.
Proof. destruct b as [|[]]; cbn; tauto. Qed.

Lemma gval_first mods env :
  (forall p d a d' t, gval mods env p d a d' t -> (forall b, first_call (a ++ b) = first_call b)
     /\ (p = PFirst -> forall b, no_open b -> starts_call (a ++ b) = false))
  /\ (forall p d a d' ts, gelems mods env p d a d' ts -> (forall b, first_call (a ++ b) = first_call b)
     /\ (p = PFirst -> forall b, starts_call (a ++ TArrayEnd :: b) = false))
  /\ (forall f d a d' kvs, gmembers mods env f d a d' kvs -> forall b, first_call (a ++ b) = first_call b).
Proof.
  apply gval_mutind.
  - intros p d tok t Hs _. split.
    + intros b. destruct Hs; reflexivity.
    + intros _ b Hb. destruct Hs; try reflexivity; apply starts_no_open, Hb.
  - intros p d m t Hr _. split; [reflexivity|]. intros ->. discriminate.
  - intros p d body d' ts _ [H1 H2]. split; [|reflexivity]. intros b. cbn [app first_call]. rewrite <- app_assoc. cbn [app].
    rewrite H1. cbn [first_call]. rewrite H2 by reflexivity. reflexivity.
  - intros p d body d' kvs o _ H _. split; [|reflexivity]. intros b. cbn [app first_call]. rewrite <- app_assoc. rewrite H. reflexivity.
  - intros p d. split; reflexivity.
  - intros p d a d' t _ [H1 H2]. split; [exact H1|]. intros Hp b. apply H2; [exact Hp|exact I].
  - intros p d a d1 t b d' ts _ [H1 H2] _ [G1 G2]. split.
    + intros x. rewrite <- app_assoc, H1. cbn [app first_call]. apply G1.
    + intros Hp x. rewrite <- app_assoc. cbn [app]. apply H2; [exact Hp|exact I].
  - reflexivity.
  - intros f d tok k a d' t Hk _ [H1 _] b. cbn [app]. destruct Hk; cbn [first_call]; apply H1.
  - intros f d tok k a d1 t b d' kvs Hk _ [H1 _] _ G x. cbn [app]. rewrite <- app_assoc. cbn [app]. destruct Hk; cbn [first_call]; rewrite H1; apply G.
Qed.

Lemma gfinal_filter mods env d toks d' t : gfinal mods env d toks d' t ->
  exists a, filter not_newline toks = a /\ gval mods env PElsewhere d a d' t.
Proof.
  intros (a & b & n & -> & Hs & Hg). exists a. split; [|exact Hg]. rewrite filter_app, filter_newlines, app_nil_r, (filter_spread _ _ Hs).
  apply (proj1 (gval_names mods env) _ _ _ _ _ Hg).
Qed.

Lemma gmodule_first mods env d nl toks d' t : gmodule mods env d nl toks d' t -> first_call (filter not_newline toks) = false.
Proof.
  induction 1 as [env d nl toks d' t H IH|env d x a b v d1 rest d' t Hs Hg Hr IH|env d x m v rest d' t Hd Hm Hr IH|env d toks d' t Hd Hf|env d toks d' t Hd Hf|env d tok toks d' t Ho Hn Hf].
  - exact IH.
  - cbn [filter not_newline first_call]. rewrite filter_app, (filter_spread _ _ Hs), (proj1 (proj1 (gval_names mods env) _ _ _ _ _ Hg)).
    rewrite (proj1 (proj1 (gval_first mods env) _ _ _ _ _ Hg)). exact IH.
  - exact IH.
  - apply gfinal_filter in Hf as (a & E & Hg). cbn [filter not_newline first_call]. rewrite E, <- (app_nil_r a).
    rewrite (proj1 (proj1 (gval_first mods env) _ _ _ _ _ Hg)). reflexivity.
  - apply gfinal_filter in Hf as (a & E & Hg). cbn [filter not_newline first_call]. rewrite E, <- (app_nil_r a).
    rewrite (proj1 (proj1 (gval_first mods env) _ _ _ _ _ Hg)). reflexivity.
  - apply gfinal_filter in Hf as (a & E & Hg). rewrite E, <- (app_nil_r a).
    rewrite (proj1 (proj1 (gval_first mods env) _ _ _ _ _ Hg)). reflexivity.
Qed.

(** A module with a [require] call as the first element of an array is rejected, whatever else
    it contains. *)
Theorem C88_first_refuted : forall load c ts a b,
  filter not_newline ts = a ++ [TArrayBegin; TId (txt "require"); TOpenPar] ++ b ->
  forall c' r, parse_tokens_with load c ts <> Ok (c', inl r).
Proof.
  intros load c ts a b E c' [d v] H. apply accepted_grammar, gmodule_first in H. rewrite E in H.
  assert (first_call (a ++ [TArrayBegin; TId (txt "require"); TOpenPar] ++ b) = true); [|congruence].
  clear. induction a as [|t a IH]; [reflexivity|]. cbn [app first_call]. cbn [app] in IH. destruct t; try exact IH. rewrite IH. apply orb_true_r.
Qed.
Print Assumptions C88_first_refuted.

Lemma gval_next mods env :
  (forall p d a d' t, gval mods env p d a d' t -> forall s, (d = Cjs -> s = true) ->
     (exists s', (d' = Cjs -> s' = true) /\ forall b, next_call s (a ++ b) = next_call s' b)
     /\ (p = PNext -> s = false -> forall b, no_open b -> starts_call (a ++ b) = false))
  /\ (forall p d a d' ts, gelems mods env p d a d' ts -> forall s, (d = Cjs -> s = true) ->
     (exists s', (d' = Cjs -> s' = true) /\ forall b, next_call s (a ++ TArrayEnd :: b) = next_call s' b)
     /\ (p = PNext -> s = false -> forall b, starts_call (a ++ TArrayEnd :: b) = false))
  /\ (forall f d a d' kvs, gmembers mods env f d a d' kvs -> forall s, (d = Cjs -> s = true) ->
     (exists s', (d' = Cjs -> s' = true) /\ forall b, next_call s (a ++ TObjectEnd :: b) = next_call s' b)
     /\ forall b, starts_call (a ++ TObjectEnd :: b) = false).
Proof.
  apply gval_mutind.
  - intros p d tok t Hs _ s Hd. split.
    + exists s. split; [exact Hd|]. intros b. destruct Hs; reflexivity.
    + intros _ _ b Hb. destruct Hs; try reflexivity; apply starts_no_open, Hb.
  - intros p d m t Hr _ s Hd. split; [exists true; split; reflexivity|]. intros -> ->. destruct d; try discriminate. discriminate (Hd eq_refl).
  - intros p d body d' ts _ H s Hd. destruct (H s Hd) as [(s' & H1 & H2) _]. split; [|reflexivity].
    exists s'. split; [exact H1|]. intros b. cbn [app next_call]. rewrite <- app_assoc. apply H2.
  - intros p d body d' kvs o _ H _ s Hd. destruct (H s Hd) as [(s' & H1 & H2) _]. split; [|reflexivity].
    exists s'. split; [exact H1|]. intros b. cbn [app next_call]. rewrite <- app_assoc. apply H2.
  - intros p d s Hd. split; [|reflexivity]. exists s. split; [exact Hd|reflexivity].
  - intros p d a d' t _ H s Hd. destruct (H s Hd) as [(s' & H1 & H2) H3]. split.
    + exists s'. split; [exact H1|]. intros b. rewrite H2. reflexivity.
    + intros Hp Hs b. apply H3; [exact Hp|exact Hs|exact I].
  - intros p d a d1 t b d' ts _ H _ G s Hd. destruct (H s Hd) as [(s1 & H1 & H2) H3]. destruct (G s1 H1) as [(s' & G1 & G2) G3]. split.
    + exists s'. split; [exact G1|]. intros x. rewrite <- app_assoc, H2. cbn [app next_call]. rewrite G2.
      destruct s1; [reflexivity|]. rewrite G3 by reflexivity. reflexivity.
    + intros Hp Hs x. rewrite <- app_assoc. cbn [app]. apply H3; [exact Hp|exact Hs|exact I].
  - intros f d s Hd. split; [|reflexivity]. exists s. split; [exact Hd|reflexivity].
  - intros f d tok k a d' t Hk _ H s Hd. destruct (H s Hd) as [(s' & H1 & H2) _]. split.
    + exists s'. split; [exact H1|]. intros b. cbn [app]. destruct Hk; cbn [next_call]; rewrite H2; reflexivity.
    + intros b. destruct Hk; reflexivity.
  - intros f d tok k a d1 t b d' kvs Hk _ H _ G s Hd. destruct (H s Hd) as [(s1 & H1 & H2) _]. destruct (G s1 H1) as [(s' & G1 & G2) G3]. split.
    + exists s'. split; [exact G1|]. intros x. cbn [app]. rewrite <- app_assoc. cbn [app]. destruct Hk; cbn [next_call]; rewrite H2; cbn [next_call]; rewrite G2, G3, andb_false_r; reflexivity.
    + intros x. destruct Hk; reflexivity.
Qed.

Lemma gmodule_next mods env d nl toks d' t : gmodule mods env d nl toks d' t -> forall s, (d = Cjs -> s = true) -> next_call s (filter not_newline toks) = false.
Proof.
  assert (Hfin : forall env d toks d' t, gfinal mods env d toks d' t -> forall s, (d = Cjs -> s = true) -> next_call s (filter not_newline toks) = false).
  { clear. intros env d toks d' t Hf s Hd. apply gfinal_filter in Hf as (a & E & Hg). rewrite E, <- (app_nil_r a).
    destruct (proj1 (gval_next mods env) _ _ _ _ _ Hg s Hd) as [(s' & _ & H) _]. rewrite H. reflexivity. }
  induction 1 as [env d nl toks d' t H IH|env d x a b v d1 rest d' t Hs Hg Hr IH|env d x m v rest d' t Hd Hm Hr IH|env d toks d' t Hd Hf|env d toks d' t Hd Hf|env d tok toks d' t Ho Hn Hf]; intros s Hc.
  - exact (IH s Hc).
  - cbn [filter not_newline next_call]. rewrite filter_app, (filter_spread _ _ Hs), (proj1 (proj1 (gval_names mods env) _ _ _ _ _ Hg)).
    destruct (proj1 (gval_next mods env) _ _ _ _ _ Hg s) as [(s' & Hs' & E) _]; [discriminate|]. rewrite E. apply IH, Hs'.
  - cbn [filter not_newline next_call]. apply IH. discriminate.
  - cbn [filter not_newline next_call]. apply (Hfin _ _ _ _ _ Hf). discriminate.
  - cbn [filter not_newline next_call]. apply (Hfin _ _ _ _ _ Hf). reflexivity.
  - apply (Hfin _ _ _ _ _ Hf s Hc).
Qed.

(** So is a module with a call after a comma, if nothing before it shows that the module is
    CommonJS: neither another call nor [module.exports]. *)
Theorem C88_next_refuted : forall load c ts a b,
  filter not_newline ts = a ++ [TComma; TId (txt "require"); TOpenPar] ++ b ->
  ~ In TOpenPar a -> ~ In TDot a ->
  forall c' r, parse_tokens_with load c ts <> Ok (c', inl r).
Proof.
  intros load c ts a b E H1 H2 c' [d v] H. apply accepted_grammar in H. apply (gmodule_next _ _ _ _ _ _ _) with (s := false) in H; [|discriminate]. rewrite E in H.
  assert (next_call false (a ++ [TComma; TId (txt "require"); TOpenPar] ++ b) = true); [|congruence].
  clear - H1 H2. induction a as [|t a IH]; [reflexivity|]. cbn [app next_call]. cbn [app] in IH.
  assert (X : ~ In TOpenPar a) by (intros X; apply H1; right; exact X). assert (Y : ~ In TDot a) by (intros Y; apply H2; right; exact Y).
  specialize (IH X Y). destruct t; try exact IH; [rewrite IH; apply orb_true_r| |]; exfalso; [apply H2|apply H1]; left; reflexivity.
Qed.
Print Assumptions C88_next_refuted.

(** ** Where calls are accepted *)
(** Data with [require] calls as values, written in CommonJS; [mods m t]: the module [m] has
    the value [t].  No array begins with a call. *)
Section Cjs.
Variable mods : list Z -> tree -> Prop.
Inductive cjs_value : list token -> tree -> Prop :=
| cj_scalar tok t : scalar [] tok t -> cjs_value [tok] t
| cj_require m t : mods m t -> cjs_value [TId (txt "require"); TOpenPar; TString m; TClosePar] t
| cj_array body ts : starts_call body = false -> cjs_elems body ts -> cjs_value (TArrayBegin :: body ++ [TArrayEnd]) (VArray ts)
| cj_object body kvs o : cjs_members body kvs -> is_object kvs o -> cjs_value (TObjectBegin :: body ++ [TObjectEnd]) (VObject o)
with cjs_elems : list token -> list tree -> Prop :=
| ce_nil : cjs_elems [] []
| ce_last a t : cjs_value a t -> cjs_elems a [t]
| ce_cons a t b ts : cjs_value a t -> cjs_elems b ts -> cjs_elems (a ++ TComma :: b) (t :: ts)
with cjs_members : list token -> list (list Z * tree) -> Prop :=
| cm_nil : cjs_members [] []
| cm_last k a t : cjs_value a t -> cjs_members (TString k :: TColon :: a) [(k, t)]
| cm_cons k a t b kvs : cjs_value a t -> cjs_members b kvs -> cjs_members (TString k :: TColon :: a ++ TComma :: b) ((k, t) :: kvs).
End Cjs.
Scheme cjs_value_mind := Minimality for cjs_value Sort Prop
  with cjs_elems_mind := Minimality for cjs_elems Sort Prop
  with cjs_members_mind := Minimality for cjs_members Sort Prop.
Combined Scheme cjs_mutind from cjs_value_mind, cjs_elems_mind, cjs_members_mind.

Lemma scalar_no_require tok t : scalar [] tok t -> tok <> TId (txt "require").
Proof. intros H E. destruct H; try discriminate. Qed.
Lemma cjs_grammar mods :
  (forall a t, cjs_value mods a t -> forall p, (p = PFirst -> starts_call a = false) -> gval mods [] p Cjs a Cjs t)
  /\ (forall a ts, cjs_elems mods a ts -> forall p, p = PNext \/ (p = PFirst /\ starts_call a = false) -> gelems mods [] p Cjs a Cjs ts)
  /\ (forall a kvs, cjs_members mods a kvs -> forall f, gmembers mods [] f Cjs a Cjs kvs).
Proof.
  assert (Hst : forall a t b, cjs_value mods a t -> starts_call (a ++ TComma :: b) = false -> starts_call a = false).
  { intros a t b H. destruct H; cbn; auto. }
  apply cjs_mutind.
  - intros tok t Hs p _. apply gv_scalar; [exact Hs|]. intros E. destruct (scalar_no_require _ _ Hs E).
  - intros m t Hm p Hp. apply gv_require; [|exact Hm]. destruct p; try reflexivity. discriminate (Hp eq_refl).
  - intros body ts Hst' _ H p _. apply gv_array. apply H. auto.
  - intros body kvs o _ H Ho p _. exact (gv_object _ _ _ _ _ _ _ _ (H true) Ho).
  - intros p _. constructor.
  - intros a t Ha H p Hp. apply ge_last, H. intros ->. destruct Hp as [Hp|[_ Hp]]; [discriminate|exact Hp].
  - intros a t b ts Ha H _ G p Hp. eapply ge_cons; [|apply G; auto]. apply H. intros ->. destruct Hp as [Hp|[_ Hp]]; [discriminate|]. exact (Hst _ _ _ Ha Hp).
  - intros f. constructor.
  - intros k a t _ H f. apply gm_last; [constructor|]. apply H. discriminate.
  - intros k a t b kvs _ H _ G f. eapply gm_cons; [constructor| |apply G]. apply H. discriminate.
Qed.

(** Everywhere else in the value of [module.exports], a call is accepted and stands for the
    value of the module. *)
Theorem C88_calls_partial : forall load c toks t,
  cjs_value (fun m u => forall x, exists x' a, load x m = Ok (x', inl a) /\ erase a = u) toks t ->
  exists c' v, parse_tokens_with load c ([TId (txt "module"); TDot; TId (txt "exports"); TEquals] ++ toks) = Ok (c', inl (Cjs, v)) /\ erase v = t.
Proof.
  intros load c toks t H. set (mods := fun m u => _) in H.
  assert (Hm : gmodule mods [] Json true ([TId (txt "module"); TDot; TId (txt "exports"); TEquals] ++ toks) Cjs t).
  { apply gs_exports; [reflexivity|]. exists toks, toks, O. split; [rewrite app_nil_r; reflexivity|]. split.
    - clear. induction toks; constructor; assumption.
    - apply (proj1 (cjs_grammar mods)); [exact H|discriminate]. }
  apply start_jres in Hm. unfold parse_tokens_with. fold start. set (ts := _ ++ toks) in *.
  assert (Hload : forall (x : context) m (u : tree), In (TString m) ts -> True -> mods m u -> exists c' a, load x m = Ok (c', inl a) /\ erase a = u /\ True).
  { intros x m u _ _ Hu. destruct (Hu x) as (x' & a & H1 & H2). eauto. }
  destruct (run_complete load (fun _ => True) (fun _ _ _ => I) mods ts Hload start c Cjs t Hm start_jwf I)
    as (j' & c' & w & Hp & He & Hv & _).
  exists c', w. rewrite Hp. cbn [obind]. rewrite He. auto.
Qed.
Print Assumptions C88_calls_partial.

Example C88_case :
  let io := files [("m", "module.exports = {""k"": require(""x""), ""l"": [0, require(""x"")]}"); ("n", "module.exports = [require(""x"")]");
                   ("o", "const a = [0, require(""x"")]"); ("x", "1")]%string in
  seen (parse io 1000 3 (fresh (txt "m") 0))
  = Ok (inl (Cjs, VObject [(txt "k", VNumber 0x3FF0000000000000); (txt "l", VArray [VNumber 0; VNumber 0x3FF0000000000000])]), [txt "m"; txt "x"])
  /\ seen (parse io 1000 3 (fresh (txt "n") 0)) = Ok (inr UnexpectedToken, [txt "n"])
  /\ seen (parse io 1000 3 (fresh (txt "o") 0)) = Ok (inr UnexpectedToken, [txt "o"]).
Proof. vmc. Qed.
