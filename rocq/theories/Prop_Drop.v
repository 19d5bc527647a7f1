(** Property C90: the stack needed to drop a value (nanvm-lib/src/mem/{optional_ref,block}.rs,
    mem/flexible_array/mod.rs).  The fuel of [drop_cell] counts nested calls of
    [OptionalRef::drop], so [RNoFuel] with [n] is a stack that has room for [n] of them. *)
From Coq Require Import ZArith List Bool Lia.
From Verif Require Import Outcome BitsetModel LayoutModel MemModel MemProofs MemRun Prop_Mem.
Import ListNotations.
Open Scope Z_scope.

(** * Specification *)

(** The place [d] is inside the block that the place [c] refers to. *)
Definition refers (h : heap) (c d : cell) : Prop := exists a b, cell_header c = Some a /\ find a h = Some b /\ In d (b_cells b).
(** A chain of [n] references from the place [c]. *)
Inductive chain (h : heap) : cell -> nat -> Prop :=
| ch_end c : chain h c 0
| ch_ref c d n : refers h c d -> chain h d n -> chain h c (S n).

(** * Enough frames *)
Definition shrunk (h h' : heap) : Prop := forall a b', find a h' = Some b' -> exists b, find a h = Some b /\ b_cells b = b_cells b'.
Lemma shrunk_refl h : shrunk h h.
Proof. intros a b H. eauto. Qed.
Lemma shrunk_trans h1 h2 h3 : shrunk h1 h2 -> shrunk h2 h3 -> shrunk h1 h3.
Proof. intros H1 H2 a b H. destruct (H2 a b H) as (b2 & F2 & E2). destruct (H1 a b2 F2) as (b1 & F1 & E1). exists b1. split; [exact F1|congruence]. Qed.
Lemma chain_shrunk h h' c n : shrunk h h' -> chain h' c n -> chain h c n.
Proof.
  intros H. induction 1 as [|c d n (a & b & E1 & E2 & E3) Hc IH]; [constructor|]. destruct (H a b E2) as (b1 & F1 & Q).
  econstructor; [|exact IH]. exists a, b1. split; [exact E1|]. split; [exact F1|rewrite Q; exact E3].
Qed.

Lemma assoc_remove_find a x l b : assoc x (assoc_remove a l) = Some b -> (x <> a -> assoc x l = Some b).
Proof.
  induction l as [|[y c] l IH]; cbn; [discriminate|]. destruct (Z.eqb_spec y a).
  - intros H Hx. destruct (Z.eqb_spec y x); [congruence|exact H].
  - cbn. destruct (Z.eqb_spec y x); auto.
Qed.
Lemma assoc_set_find a x b l : assoc x (assoc_set a b l) = if (x =? a) && match assoc a l with Some _ => true | None => false end then Some b else assoc x l.
Proof.
  induction l as [|[y c] l IH]; cbn; [rewrite andb_false_r; reflexivity|]. destruct (Z.eqb_spec y a) as [->|Hy].
  - cbn. destruct (Z.eqb_spec a x) as [->|]; [rewrite Z.eqb_refl; reflexivity|]. destruct (Z.eqb_spec x a); [congruence|reflexivity].
  - cbn. rewrite IH. destruct (Z.eqb_spec y x) as [->|]; [|reflexivity]. destruct (Z.eqb_spec x a); [congruence|reflexivity].
Qed.
Lemma assoc_remove_some a l x b : assoc x (assoc_remove a l) = Some b -> exists b0, assoc x l = Some b0.
Proof.
  induction l as [|[y c] l IH]; cbn; [discriminate|]. destruct (Z.eqb_spec y a).
  - intros H. destruct (Z.eqb_spec y x); [eauto|eauto].
  - cbn. destruct (Z.eqb_spec y x); eauto.
Qed.

Lemma counter_shrunk a i h o h' : counter_update a i h = ROk (o, h') -> shrunk h h' /\ shrunk h' h.
Proof.
  unfold counter_update. destruct (find a h) as [b|] eqn:E; [|discriminate]. intros [= <- <-].
  assert (F : forall x, find x (store a (with_count b (b_count b + i)) h) = if x =? a then Some (with_count b (b_count b + i)) else find x h).
  { intros x. unfold find, store. cbn. rewrite assoc_set_find. unfold find in E. rewrite E, andb_true_r. reflexivity. }
  split; intros x c Hc.
  - rewrite F in Hc. destruct (Z.eqb_spec x a) as [->|]; [injection Hc as <-; exists b; auto|eauto].
  - rewrite F. destruct (Z.eqb_spec x a) as [->|]; [|eauto]. eexists. split; [reflexivity|]. assert (b = c) by congruence. subst. reflexivity.
Qed.

(** Two copies of an address in the list of blocks would let an old block reappear. *)
Definition distinct (h : heap) : Prop := NoDup (map fst (hp_blocks h)).
Lemma map_fst_set a b l : map fst (assoc_set a b l) = map fst l.
Proof. induction l as [|[y c] l IH]; cbn; [reflexivity|]. destruct (y =? a); cbn; congruence. Qed.
Lemma remove_in a l x : In x (map fst (assoc_remove a l)) -> In x (map fst l).
Proof. induction l as [|[y c] l IH]; cbn; [auto|]. destruct (y =? a); cbn; tauto. Qed.
Lemma remove_nodup a l : NoDup (map fst l) -> NoDup (map fst (assoc_remove a l)) /\ ~ In a (map fst (assoc_remove a l)).
Proof.
  induction l as [|[y c] l IH]; cbn; intros H; [split; [constructor|tauto]|]. inversion H; subst. destruct (Z.eqb_spec y a) as [->|]; [auto|].
  cbn. destruct (IH H3) as [H4 H5]. split; [constructor; [intros Hin; apply H2, (remove_in a), Hin|exact H4]|]. intros [->|Hin]; [congruence|exact (H5 Hin)].
Qed.
Lemma assoc_key x l b : assoc x l = Some b -> In x (map fst l).
Proof. induction l as [|[y c] l IH]; cbn; [discriminate|]. destruct (Z.eqb_spec y x); [auto|intros H; right; auto]. Qed.

Lemma dealloc_shrunk a s h h' : distinct h -> dealloc a s h = ROk h' -> shrunk h h' /\ distinct h'.
Proof.
  unfold dealloc, distinct. intros Hd. destruct (find a h) as [b|]; [|discriminate]. destruct (_ =? s); [|discriminate]. destruct (_ <? s); [discriminate|]. intros [= <-]. cbn [hp_blocks].
  destruct (remove_nodup a _ Hd) as [H1 H2]. split; [|exact H1]. intros x c Hc. unfold find in *. cbn [hp_blocks] in Hc. exists c. split; [|reflexivity].
  eapply assoc_remove_find; [exact Hc|]. intros ->. apply H2, (assoc_key _ _ _ Hc).
Qed.

(** The layout functions have no loops. *)
Definition settled {A} (o : outcome A) : Prop := o <> NoFuel.
Lemma settled_bind {A B} (o : outcome A) (k : A -> outcome B) : settled o -> (forall a, settled (k a)) -> settled (obind o k).
Proof. intros H K. destruct o; cbn; [apply K|discriminate|exact (fun _ => H eq_refl)]. Qed.
Lemma alloc_size_fuel k n : alloc_size k n <> NoFuel.
Proof.
  assert (Hadd : forall a b, settled (uadd a b)) by (intros; unfold uadd; destruct (_ <=? _); discriminate).
  assert (Hmul : forall a b, settled (umul a b)) by (intros; unfold umul; destruct (_ <=? _); discriminate).
  assert (Hal : forall t a x, settled (field_align_to t a x)).
  { intros. unfold field_align_to. destruct (negb _); [discriminate|]. destruct (_ <? _); [discriminate|]. apply settled_bind; [|discriminate].
    unfold align_to. apply settled_bind; [unfold usub; destruct (_ <=? _); discriminate|]. intros. apply settled_bind; [apply Hadd|discriminate]. }
  assert (Hl : forall f a, settled (field_layout_layout f a)) by (intros; unfold field_layout_layout; apply settled_bind; [apply Hadd|discriminate]).
  change (settled (alloc_size k n)). unfold alloc_size. apply settled_bind; [|intros s; apply settled_bind; [|intros a; apply settled_bind; [|intros b; apply settled_bind]]].
  - destruct k; cbn [kind_size]; try discriminate; unfold flexible_size; (apply settled_bind; [apply Hal|]; intros; apply settled_bind; [apply Hmul|]; intros; apply Hadd).
  - destruct k; cbn [kind_align]; try discriminate; unfold flexible_align; (apply settled_bind; [apply Hal|discriminate]).
  - unfold block_layout. apply settled_bind; [apply Hal|intros; apply Hl].
  - unfold local_layout. apply settled_bind; [apply Hal|]. intros. apply settled_bind; [apply Hl|discriminate].
  - intros [f l]. discriminate.
Qed.

Definition tame (h : heap) (r : res heap) : Prop := r <> RNoFuel /\ forall h', r = ROk h' -> shrunk h h' /\ distinct h'.
Lemma drop_list_tame dc h0 cs : (forall c h, In c cs -> shrunk h0 h -> distinct h -> tame h (dc c h)) ->
  forall h, shrunk h0 h -> distinct h -> tame h (drop_list dc cs h).
Proof.
  induction cs as [|c cs IH]; intros H h Hs Hd; cbn [drop_list]; [split; [discriminate|intros h' [= <-]; split; [apply shrunk_refl|exact Hd]]|].
  destruct (H c h (or_introl eq_refl) Hs Hd) as [H1 H2]. destruct (dc c h) as [h1| | | |]; cbn [rbind]; try (split; [congruence|discriminate]).
  destruct (H2 h1 eq_refl) as [S1 D1]. destruct (IH (fun d g Hd => H d g (or_intror Hd)) h1 (shrunk_trans _ _ _ Hs S1) D1) as [H3 H4].
  split; [exact H3|]. intros h' E. destruct (H4 h' E) as [S2 D2]. split; [exact (shrunk_trans _ _ _ S1 S2)|exact D2].
Qed.
Lemma delete_tame dc k a h b : distinct h -> find a h = Some b -> (forall c g, In c (b_cells b) -> shrunk h g -> distinct g -> tame g (dc c g)) -> tame h (delete dc k a h).
Proof.
  intros Hd Hf H. unfold delete. rewrite Hf. destruct (kind_eqb _ k); [|split; [discriminate|discriminate]].
  assert (Ha : of_outcome (alloc_size k (b_len b)) <> RNoFuel).
  { unfold of_outcome. destruct (alloc_size k (b_len b)) eqn:E; try discriminate. exfalso. revert E. apply alloc_size_fuel. }
  destruct (of_outcome _) as [s| | | |]; cbn [rbind]; try (split; [congruence|discriminate]).
  destruct (slots_match b); [|split; [discriminate|discriminate]].
  destruct (drop_list_tame dc h (b_cells b) H h (shrunk_refl _) Hd) as [H1 H2].
  destruct (drop_list _ _ h) as [h1| | | |]; cbn [rbind]; try (split; [congruence|discriminate]). destruct (H2 h1 eq_refl) as [S1 D1].
  split.
  - unfold dealloc. destruct (find a h1); [|discriminate]. destruct (_ =? s); [|discriminate]. destruct (_ <? s); discriminate.
  - intros h' E. destruct (dealloc_shrunk a s h1 h' D1 E) as [S2 D2]. split; [exact (shrunk_trans _ _ _ S1 S2)|exact D2].
Qed.
Lemma drop_tame n : forall c h, distinct h -> (forall m, chain h c m -> (m < n)%nat) -> tame h (drop_cell n c h).
Proof.
  induction n as [|n IH]; intros c h Hd Hc; [specialize (Hc O (ch_end h c)); lia|]. cbn [drop_cell].
  destruct (cell_header c) as [a|] eqn:Ea; [|split; [discriminate|intros h' [= <-]; split; [apply shrunk_refl|exact Hd]]].
  destruct (counter_update a (-1) h) as [[o h1]| | | |] eqn:Eu; cbn [rbind]; try (unfold counter_update in Eu; destruct (find a h); discriminate).
  2:{ split; discriminate. }
  destruct (counter_shrunk _ _ _ _ _ Eu) as [S1 S2].
  assert (D1 : distinct h1).
  { unfold counter_update in Eu. destruct (find a h); [|discriminate]. injection Eu as _ <-. unfold distinct, store. cbn [hp_blocks]. rewrite map_fst_set. exact Hd. }
  destruct (o =? 0); [|split; [discriminate|intros h' [= <-]; auto]].
  destruct (delete_kind c) as [k|]; [|split; discriminate].
  assert (Hb : exists b, find a h1 = Some b).
  { unfold counter_update in Eu. destruct (find a h) as [b|] eqn:Ef; [|discriminate]. destruct (S2 a b Ef) as (b1 & H1 & _). eauto. }
  destruct Hb as [b Hb]. destruct (delete_tame (drop_cell n) k a h1 b D1 Hb) as [H1 H2].
  - intros d g Hin Hs Dg. apply IH; [exact Dg|]. intros m Hm. specialize (Hc (S m)).
    assert (chain h c (S m)); [|specialize (Hc H); lia].
    destruct (S1 a b Hb) as (b0 & F0 & Q0). econstructor; [exists a, b0; split; [exact Ea|split; [exact F0|rewrite Q0; exact Hin]]|].
    eapply chain_shrunk; [exact S1|]. eapply chain_shrunk; [exact Hs|exact Hm].
  - split; [exact H1|]. intros h' E. destruct (H2 h' E) as [S3 D3]. split; [exact (shrunk_trans _ _ _ S1 S3)|exact D3].
Qed.

(** * Nested arrays *)
Definition at_depth (n : nat) : Z := 64 * Z.of_nat n.
Definition array_any (n : nat) : cell := match n with O => CAny 0 | S _ => CAny (move_to_any (BArray (at_depth n))) end.
Fixpoint arrays (n : nat) : list (Z * block) :=
  match n with
  | O => []
  | S m => (at_depth n, {| b_kind := KArray; b_count := 0; b_len := 1; b_cells := [array_any m]; b_size := 32 |}) :: arrays m
  end.
(** [n] arrays, each inside the next. *)
Fixpoint nest (n : nat) : list op :=
  match n with
  | O => [OPlain 0]
  | S m => nest m ++ [ONew KArray 1 [0%nat] (at_depth n); OToRef 0; OToAny 0]
  end.
Definition nested_state (n : nat) : state :=
  {| st_heap := {| hp_blocks := arrays n; hp_counter := Z.of_nat n; hp_size := 32 * Z.of_nat n |}; st_handles := [HRef (array_any n)]; st_lost := [] |}.

Lemma run_app fuel a b st : run fuel (a ++ b) st = do! st := run fuel a st in run fuel b st.
Proof. revert st. induction a as [|o a IH]; intros st; cbn [app run]; [reflexivity|]. destruct (step fuel o st); cbn [rbind]; auto. Qed.

Lemma arrays_above n x : at_depth n < x -> assoc x (arrays n) = None.
Proof.
  revert x. induction n as [|n IH]; intros x H; [reflexivity|]. cbn [arrays assoc]. destruct (Z.eqb_spec (at_depth (S n)) x); [lia|]. apply IH. unfold at_depth in *. lia.
Qed.
Lemma any_array a v : any_bits KArray a = Some v -> 0 <= a < 2 ^ 48 -> cell_header (CAny v) = Some a /\ delete_kind (CAny v) = Some KArray.
Proof.
  intros E H. destruct (any_bits_ok KArray a v E H) as (_ & H1 & H2). split; [exact H1|]. cbn [delete_kind]. clear -H2. unfold any_kind in H2. set (r := ref_type v) in *. clearbody r. cbv zeta.
  destruct (r =? 0); [discriminate|]. destruct (r =? 1); [discriminate|]. destruct (r =? 2); [reflexivity|discriminate].
Qed.
Lemma array_header n : Z.of_nat (S n) <= 2 ^ 40 -> cell_header (array_any (S n)) = Some (at_depth (S n)) /\ delete_kind (array_any (S n)) = Some KArray.
Proof.
  intros H. assert (Hr : 0 <= at_depth (S n) < 2 ^ 48) by (unfold at_depth; lia). cbn [array_any]. set (a := at_depth (S n)) in *. clearbody a.
  apply any_array; [reflexivity|exact Hr].
Qed.

Lemma nest_run fuel n : Z.of_nat n <= 2 ^ 40 -> run fuel (nest n) init = ROk (nested_state n).
Proof.
  induction n as [|n IH]; intros H; [reflexivity|]. cbn [nest]. rewrite run_app, IH by lia. cbn [rbind run].
  assert (E : step fuel (ONew KArray 1 [0%nat] (at_depth (S n))) (nested_state n) =
    ROk {| st_heap := {| hp_blocks := arrays (S n); hp_counter := Z.of_nat n + 1; hp_size := 32 * Z.of_nat n + 32 |}; st_handles := [HMut KArray (at_depth (S n))]; st_lost := [] |}).
  { unfold step, nested_state. cbn [st_handles st_heap st_lost pull_cells pull].
    assert (Hc : cells_ok KArray 1 [array_any n] = true) by (destruct n; reflexivity). rewrite Hc. cbn [negb].
    assert (Hs : alloc_size KArray 1 = Ok 32) by (vm_compute; reflexivity). rewrite Hs. cbn [of_outcome rbind].
    unfold find. cbn [hp_blocks]. rewrite arrays_above by (unfold at_depth; lia).
    destruct (Z.leb_spec 0 (at_depth (S n))); [|unfold at_depth in *; lia]. destruct (Z.ltb_spec (at_depth (S n)) (2 ^ 48)); [|unfold at_depth in *; lia]. reflexivity. }
  rewrite E. cbn [rbind step st_handles pull st_heap st_lost any_bits]. unfold nested_state.
  replace (Z.of_nat n + 1) with (Z.of_nat (S n)) by lia. replace (32 * Z.of_nat n + 32) with (32 * Z.of_nat (S n)) by lia. reflexivity.
Qed.

Definition above (n : nat) (p : list (Z * block)) : Prop := forall x b, In (x, b) p -> at_depth n < x.
Lemma assoc_after p n x l : above n p -> x <= at_depth n -> assoc x (p ++ l) = assoc x l.
Proof.
  intros H Hx. induction p as [|[y c] p IH]; [reflexivity|]. cbn [app assoc]. pose proof (H y c (or_introl eq_refl)).
  destruct (Z.eqb_spec y x); [lia|]. apply IH. intros z d Hz. apply (H z d). right. exact Hz.
Qed.
Lemma set_after p n x b l : above n p -> x <= at_depth n -> assoc_set x b (p ++ l) = p ++ assoc_set x b l.
Proof.
  intros H Hx. induction p as [|[y c] p IH]; [reflexivity|]. cbn [app assoc_set]. pose proof (H y c (or_introl eq_refl)).
  destruct (Z.eqb_spec y x); [lia|]. f_equal. apply IH. intros z d Hz. apply (H z d). right. exact Hz.
Qed.
Lemma remove_after p n x l : above n p -> x <= at_depth n -> assoc_remove x (p ++ l) = p ++ assoc_remove x l.
Proof.
  intros H Hx. induction p as [|[y c] p IH]; [reflexivity|]. cbn [app assoc_remove]. pose proof (H y c (or_introl eq_refl)).
  destruct (Z.eqb_spec y x); [lia|]. f_equal. apply IH. intros z d Hz. apply (H z d). right. exact Hz.
Qed.

Lemma drop_nested n : Z.of_nat n <= 2 ^ 40 -> forall p k s frames, above n p -> 0 <= s ->
  drop_cell frames (array_any n) {| hp_blocks := p ++ arrays n; hp_counter := k + Z.of_nat n; hp_size := s + 32 * Z.of_nat n |} =
  if (frames <=? n)%nat then RNoFuel else ROk {| hp_blocks := p; hp_counter := k; hp_size := s |}.
Proof.
  induction n as [|n IH]; intros Hn p k s frames Hp Hs.
  - destruct frames as [|frames]; [reflexivity|]. cbn -[Z.mul]. rewrite app_nil_r, !Z.add_0_r. reflexivity.
  - destruct frames as [|frames]; [reflexivity|]. destruct (array_header n Hn) as [H1 H2]. cbn [drop_cell]. rewrite H1, H2.
    set (b := {| b_kind := KArray; b_count := 0; b_len := 1; b_cells := [array_any n]; b_size := 32 |}).
    set (h := {| hp_blocks := p ++ arrays (S n); hp_counter := k + Z.of_nat (S n); hp_size := s + 32 * Z.of_nat (S n) |}).
    assert (Hf : find (at_depth (S n)) h = Some b).
    { unfold find, h. cbn [hp_blocks]. rewrite (assoc_after p (S n)) by (auto; lia). cbn [arrays assoc]. rewrite Z.eqb_refl. reflexivity. }
    unfold counter_update. rewrite Hf. cbn [rbind b_count b Z.eqb].
    set (b' := with_count b (0 + -1)).
    assert (Hst : store (at_depth (S n)) b' h = {| hp_blocks := (p ++ [(at_depth (S n), b')]) ++ arrays n; hp_counter := (k + 1) + Z.of_nat n; hp_size := (s + 32) + 32 * Z.of_nat n |}).
    { unfold store, h. cbn [hp_blocks hp_counter hp_size]. rewrite (set_after p (S n)) by (auto; lia). cbn [arrays assoc_set]. rewrite Z.eqb_refl, <- app_assoc. cbn [app].
      f_equal; lia. }
    rewrite Hst. clear Hst. set (p' := p ++ [(at_depth (S n), b')]).
    assert (Hp' : above n p').
    { intros x c Hin. apply in_app_or in Hin as [Hin|[[= <- <-]|[]]]; [apply Hp in Hin|]; unfold at_depth in *; lia. }
    unfold delete. set (h1 := {| hp_blocks := p' ++ arrays n; hp_counter := k + 1 + Z.of_nat n; hp_size := s + 32 + 32 * Z.of_nat n |}).
    assert (Hf1 : find (at_depth (S n)) h1 = Some b').
    { unfold find, h1, p'. cbn [hp_blocks]. rewrite <- app_assoc, (assoc_after p (S n)) by (auto; lia). cbn [app assoc]. rewrite Z.eqb_refl. reflexivity. }
    rewrite Hf1. cbn [b_kind b' with_count b kind_eqb b_len]. assert (Hz : alloc_size KArray 1 = Ok 32) by (vm_compute; reflexivity). rewrite Hz. cbn [of_outcome rbind].
    replace (slots_match b') with true by reflexivity. cbn [drop_list b_cells b' with_count b]. unfold h1.
    rewrite (IH ltac:(lia) p' (k + 1) (s + 32) frames Hp' ltac:(lia)). change (S frames <=? S n)%nat with (frames <=? n)%nat.
    destruct (frames <=? n)%nat; [reflexivity|]. cbn [rbind]. unfold dealloc, find. cbn [hp_blocks hp_size hp_counter].
    unfold p'. rewrite (assoc_after p (S n)) by (auto; lia). cbn [assoc]. rewrite Z.eqb_refl. replace (b_size b') with 32 by reflexivity. cbn [Z.eqb Pos.eqb].
    destruct (Z.ltb_spec (s + 32) 32); [lia|]. rewrite (remove_after p (S n)) by (auto; lia). cbn [assoc_remove]. rewrite Z.eqb_refl, app_nil_r.
    repeat f_equal; lia.
Qed.

(** * C90 *)

(** A stack that has room for one call more than the longest chain of references suffices,
    whatever is shared. *)
Theorem C90_enough : forall os fuel st c, history os fuel st -> In (HRef c) (st_handles st) -> forall frames,
  (forall n, chain (st_heap st) c n -> (n < frames)%nat) -> drop_cell frames c (st_heap st) <> RNoFuel.
Proof.
  intros os fuel st c H Hin frames Hc. apply drop_tame; [|exact Hc]. destruct (history_inv os fuel st H) as [HS _]. exact (c_nodup _ _ _ HS).
Qed.
Print Assumptions C90_enough.

(** False without such a bound: for every number of frames there is a program whose every
    operation, except the last drop, needs no more than one call, and the last drop overflows
    the stack.  With one frame more, the drop releases everything. *)
Theorem C90_nested_refuted : forall frames, Z.of_nat frames <= 2 ^ 40 -> exists os st,
  List.length os = (3 * frames + 1)%nat /\ run 1 os init = ROk st /\ List.length (st_handles st) = 1%nat
  /\ step frames (ODrop 0) st = RNoFuel
  /\ step (S frames) (ODrop 0) st = ROk init.
Proof.
  intros n Hn. exists (nest n), (nested_state n). split; [|split; [apply nest_run, Hn|split; [reflexivity|]]].
  - clear. induction n as [|n IH]; [reflexivity|]. cbn [nest]. rewrite app_length, IH. cbn. lia.
  - assert (Hp : above n []) by (intros x b []).
    unfold step, nested_state. cbn [st_handles pull st_heap st_lost drop_handle].
    pose proof (drop_nested n Hn [] 0 0 n Hp ltac:(lia)) as H1. pose proof (drop_nested n Hn [] 0 0 (S n) Hp ltac:(lia)) as H2.
    rewrite Nat.leb_refl in H1. replace (S n <=? n)%nat with false in H2 by (symmetry; apply Nat.leb_gt; lia).
    cbn [app] in H1, H2. rewrite !Z.add_0_l in H1, H2. rewrite H1, H2. split; reflexivity.
Qed.
Print Assumptions C90_nested_refuted.

(** An object with a key and an array: three calls are nested, the object, the array and the
    number in it. *)
Definition mixed : list op :=
  [OPlain 0; ONew KArray 1 [0%nat] 4096; OToRef 0; OToAny 0; ONew KString 1 [] 8192; OToRef 0; ONew KObject 1 [0%nat; 0%nat] 12288; OToRef 0; OToAny 0].
Example C90_case : exists st, run 20 mixed init = ROk st /\ step 2 (ODrop 0) st = RNoFuel /\ step 3 (ODrop 0) st = ROk init.
Proof. eexists. split; [vm_compute; reflexivity|]. split; vm_compute; reflexivity. Qed.
