(** Properties C28-C30: range maps (nanvm-lib/src/range_map.rs).  [rm_at], [rm_sorted],
    [rm_conflict], [scalar] are in RangeMapSpec. *)
From Coq Require Import ZArith List Bool Lia Sorting.Sorted.
From Coq Require Import ZifyBool ZifyNat.
From Verif Require Import Outcome RangeMapModel RangeMapSpec RangeMapProofs VTac.
Import ListNotations.
Open Scope Z_scope.

(** C28: [get] returns the value of the first entry whose key is >= k, or the default. *)
Theorem C28_get_correct : forall (T : Type) (m : list (Z * option T)) k,
  rm_sorted m -> Z.of_nat (length m) < 2 ^ 31 ->
  exists v, rm_get m k = Ok v /\ rm_at m k v /\ forall v', rm_at m k v' -> v' = v.
Proof.
  intros T m k Hs Hl. exists (look m k). split; [apply rm_get_spec; auto|].
  split; [apply look_at; reflexivity|]. intros v' H. apply look_at in H. congruence.
Qed.
Print Assumptions C28_get_correct.
(** It returns for every list, sorted or not. *)
Theorem C28_get_total : forall (T : Type) (m : list (Z * option T)) k,
  Z.of_nat (length m) < 2 ^ 31 -> exists v, rm_get m k = Ok v.
Proof. intros T m k. apply rm_get_total. Qed.
Print Assumptions C28_get_total.
Example C28_case : rm_get [(10, None); (20, Some 1); (30, Some 2); (40, None); (50, Some 3)] 21 = Ok (Some 2) /\
  rm_get [(10, None); (20, Some 1); (30, Some 2); (40, None); (50, Some 3)] 50 = Ok (Some 3) /\
  rm_get [(10, Some 7); (20, Some 1)] 21 = Ok None.
Proof. vmc. Qed.

(** C29: merging sorted maps is the pointwise union, and panics exactly on a conflict. *)
Theorem C29_merge_union : forall (T : Type) (eqb : T -> T -> bool) (a b : list (Z * option T)),
  (forall x y, eqb x y = true <-> x = y) -> rm_sorted a -> rm_sorted b ->
  (forall k, ~ rm_conflict a b k) ->
  exists m, merge eqb a b = Ok m /\ rm_sorted m /\
    forall k v, rm_at m k (Some v) <-> rm_at a k (Some v) \/ rm_at b k (Some v).
Proof.
  intros T eqb a b Heq Sa Sb Hc.
  destruct (merge_spec eqb Heq a b Sa Sb) as [[m [Em [Sm [Hg [Hl _]]]]]|[Em [k [_ Hk]]]].
  - exists m. split; [exact Em|]. split; [exact Sm|]. intros k v. rewrite !look_at, Hl.
    specialize (Hg k). unfold agree in Hg. destruct (look a k) as [x|]; cbn [punion].
    + split; [auto|]. intros [H|H]; [exact H|]. f_equal. apply (Hg x v); auto.
    + split; [auto|]. intros [H|H]; [discriminate|exact H].
  - exfalso. apply Hk. intros x y Hx Hy.
    destruct (eqb x y) eqn:E; [apply Heq in E; exact E|]. exfalso. apply (Hc k). exists x, y.
    rewrite !look_at. split; [exact Hx|]. split; [exact Hy|]. intros N. apply Heq in N. congruence.
Qed.
Print Assumptions C29_merge_union.
(** A panic means that some boundary of one of the maps is in conflict, and every conflict
    gives a panic. *)
Theorem C29_merge_panic : forall (T : Type) (eqb : T -> T -> bool) (a b : list (Z * option T)),
  (forall x y, eqb x y = true <-> x = y) -> rm_sorted a -> rm_sorted b ->
  (merge eqb a b = Panic -> exists k, In k (map fst a ++ map fst b) /\ rm_conflict a b k) /\
  ((exists k, rm_conflict a b k) -> merge eqb a b = Panic).
Proof.
  intros T eqb a b Heq Sa Sb. unfold merge.
  assert (Hag : forall k, rm_conflict a b k <-> exists x y, look a k = Some x /\ look b k = Some y /\ x <> y).
  { intros k. unfold rm_conflict. split; intros [x [y [H1 [H2 H3]]]]; exists x, y;
      [rewrite !look_at in *|rewrite !look_at]; auto. }
  destruct (merge_spec eqb Heq a b Sa Sb) as [[m [Em [Sm [Hg _]]]]|[Em [k [Hin Hk]]]]; rewrite Em.
  - split; [discriminate|]. intros [k Hc]. apply Hag in Hc as [x [y [H1 [H2 H3]]]]. exfalso. apply H3.
    apply (Hg k); auto.
  - split; [intros _|reflexivity]. exists k. split; [exact Hin|]. apply Hag.
    destruct (look a k) as [x|]; [|exfalso; apply Hk; intros ? ? H; discriminate].
    destruct (look b k) as [y|]; [|exfalso; apply Hk; intros ? ? _ H; discriminate].
    exists x, y. split; [auto|]. split; [auto|]. intros ->. apply Hk. intros u w H1 H2. congruence.
Qed.
Print Assumptions C29_merge_panic.
(** [merge_list] of sorted maps that never disagree. *)
Theorem C29_merge_list : forall (T : Type) (eqb : T -> T -> bool) (l : list (list (Z * option T))),
  (forall x y, eqb x y = true <-> x = y) -> Forall rm_sorted l ->
  (forall a b k, In a l -> In b l -> ~ rm_conflict a b k) ->
  exists m, merge_list eqb l = Ok m /\ rm_sorted m /\
    forall k v, rm_at m k (Some v) <-> exists a, In a l /\ rm_at a k (Some v).
Proof.
  intros T eqb l Heq Sl Hc. unfold merge_list.
  pose proof (merge_fold_spec eqb Heq l [] ltac:(constructor) Sl) as H.
  destruct (merge_fold eqb l []) as [m| |].
  - exists m. destruct H as [H1 [H2 _]]. split; [reflexivity|]. split; [exact H1|]. intros k v.
    rewrite look_at, H2. split.
    + intros [H|[a [Ha H]]]; [discriminate|]. exists a. rewrite look_at. auto.
    + intros [a [Ha H]]. rewrite look_at in H. right. exists a. auto.
  - exfalso. destruct H as [k [a [b [x [y [Ia [Ib [La [Lb N]]]]]]]]].
    destruct Ia as [<-|Ia]; [discriminate|]. destruct Ib as [<-|Ib]; [discriminate|].
    apply (Hc a b k Ia Ib). exists x, y. rewrite !look_at. auto.
  - destruct H.
Qed.
Print Assumptions C29_merge_list.
Example C29_case : merge Z.eqb [(10, None); (20, Some 1)] [(4, None); (15, Some 1); (40, Some 2)] = Panic /\
  merge Z.eqb [(10, None); (20, Some 1)] [(15, Some 1); (19, None); (20, Some 1); (40, Some 2)] =
    Ok [(10, Some 1); (15, Some 1); (19, Some 1); (20, Some 1); (40, Some 2)].
Proof. vmc. Qed.

Lemma get_two (T : Type) p q (u v : option T) c :
  rm_get [(p, u); (q, v)] c = Ok (if c <=? p then u else if c <=? q then v else None).
Proof.
  unfold rm_get, as_i32. cbn [length]. change ((Z.of_nat 2 + 2 ^ 31) mod 2 ^ 32 - 2 ^ 31) with 2.
  cbn. change (Pos.to_nat 1) with 1%nat. cbn. destruct (c <=? p); [reflexivity|].
  destruct (c <=? q); reflexivity.
Qed.
Lemma get_single (T : Type) p (u : option T) c :
  rm_get [(p, u)] c = Ok (if c <=? p then u else None).
Proof.
  unfold rm_get, as_i32. cbn [length]. change ((Z.of_nat 1 + 2 ^ 31) mod 2 ^ 32 - 2 ^ 31) with 1.
  cbn. destruct (c <=? p); reflexivity.
Qed.

(** C30, full statement: false for the first scalar value after the surrogates. *)
Theorem C30_from_range_refuted : exists m, from_range 0xE000 0xE010 tt = Ok m /\
  rm_get m 0xE000 = Ok None.
Proof. eexists. split; [reflexivity|vm_compute; reflexivity]. Qed.
Print Assumptions C30_from_range_refuted.
Theorem C30_from_one_refuted : exists m, from_one 0xE000 tt = Ok m /\ rm_get m 0x41 = Ok (Some tt).
Proof. eexists. split; [reflexivity|vm_compute; reflexivity]. Qed.
Print Assumptions C30_from_one_refuted.
Theorem C30_nul_refuted : forall (T : Type) fin (v : T),
  from_range 0 fin v = Panic /\ from_one 0 v = Panic.
Proof. intros. split; reflexivity. Qed.
Print Assumptions C30_nul_refuted.
(** Proved part: every other start character, every end (also before the start), every key. *)
Theorem C30_from_range_partial : forall (T : Type) a b (v : T), scalar a -> a <> 0 -> a <> 0xE000 ->
  exists m, from_range a b v = Ok m /\
    forall c, rm_get m c = Ok (if (a <=? c) && (c <=? b) then Some v else None).
Proof.
  intros T a b v Ha H0 He. unfold from_range. rewrite (proj2 (Z.eqb_neq a 0) H0).
  assert (Hc : is_char (a - 1) = true) by (unfold is_char, scalar in *; lia).
  unfold from_u32. rewrite Hc. eexists. split; [reflexivity|]. intros c.
  rewrite get_two. destruct (Z.leb_spec c (a - 1)), (Z.leb_spec a c); try lia; [reflexivity|].
  destruct (c <=? b); reflexivity.
Qed.
Print Assumptions C30_from_range_partial.
Theorem C30_from_one_partial : forall (T : Type) a (v : T), scalar a -> a <> 0 -> a <> 0xE000 ->
  exists m, from_one a v = Ok m /\ rm_sorted m /\
    forall c, rm_get m c = Ok (if c =? a then Some v else None).
Proof.
  intros T a v Ha H0 He. unfold from_one. rewrite (proj2 (Z.eqb_neq a 0) H0).
  assert (Hc : is_char (a - 1) = true) by (unfold is_char, scalar in *; lia).
  unfold from_u32. rewrite Hc. eexists. split; [reflexivity|].
  split; [repeat constructor; cbn; lia|]. intros c.
  rewrite get_two. destruct (Z.leb_spec c (a - 1)), (Z.eqb_spec c a); try lia; [reflexivity| |];
  destruct (Z.leb_spec c a); try lia; reflexivity.
Qed.
Print Assumptions C30_from_one_partial.
(** What happens at U+E000: the range loses its first character, the single character map
    covers everything up to it. *)
Theorem C30_E000_exact : forall (T : Type) b (v : T),
  (exists m, from_range 0xE000 b v = Ok m /\
    forall c, rm_get m c = Ok (if (0xE000 <? c) && (c <=? b) then Some v else None)) /\
  (exists m, from_one 0xE000 v = Ok m /\
    forall c, rm_get m c = Ok (if c <=? 0xE000 then Some v else None)).
Proof.
  intros T b v. split; eexists; (split; [reflexivity|]); intros c.
  - rewrite get_two. change (match from_u32 (57344 - 1) with Some p => p | None => 57344 end) with 57344. destruct (Z.leb_spec c 57344), (Z.ltb_spec 57344 c); try lia; [reflexivity|].
    destruct (c <=? b); reflexivity.
  - apply get_single.
Qed.
Print Assumptions C30_E000_exact.
Example C30_case : (let! m := from_range 0x61 0x7A tt in rm_get m 0x6D) = Ok (Some tt) /\
  (let! m := from_range 0x61 0x7A tt in rm_get m 0x7B) = Ok None /\
  (let! m := from_one 0x22 tt in rm_get m 0x22) = Ok (Some tt).
Proof. vmc. Qed.
