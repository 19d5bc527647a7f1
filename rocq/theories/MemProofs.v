(** Proofs about reference counting. *)
From Coq Require Import ZArith List Bool Lia Permutation.
From Verif Require Import Outcome VTac BitsetModel BitsetSpec BitsetProofs Prop_Bitset LayoutModel MemModel MemSpec MemSizes.
Import ListNotations.
Open Scope Z_scope.

(** ** Kinds and cells *)
Lemma kind_eqb_eq a b : kind_eqb a b = true <-> a = b.
Proof.
  destruct a as [| | | |[s t]], b as [| | | |[s' t']]; cbn [kind_eqb]; split; intros H; try discriminate; try reflexivity.
  - unfold ty_eqb in H. cbn [ty_size ty_align] in H. apply andb_true_iff in H as [H1 H2]. apply Z.eqb_eq in H1, H2. congruence.
  - injection H as -> ->. unfold ty_eqb. cbn [ty_size ty_align]. rewrite !Z.eqb_refl. reflexivity.
Qed.

(** The kind of block in an [Any] that is a reference. *)
Definition any_kind (v : Z) : kind :=
  if ref_type v =? 0 then KString else if ref_type v =? 1 then KObject else if ref_type v =? 2 then KArray else KBigint.
Definition hkind (x : handle) : kind :=
  match x with HMut k _ => k | HRef (CTyped k _) => k | HRef (CAny v) => any_kind v end.

(** ** Lists of blocks *)
Lemma assoc_in a b l : assoc a l = Some b -> In (a, b) l.
Proof.
  induction l as [|[x c] l IH]; cbn [assoc]; [discriminate|]. destruct (Z.eqb_spec x a) as [->|]; [intros [= ->]; left; reflexivity|right; auto].
Qed.
Lemma in_assoc a b l : NoDup (map fst l) -> In (a, b) l -> assoc a l = Some b.
Proof.
  induction l as [|[x c] l IH]; cbn [assoc map fst]; intros Hn H; [destruct H|]. apply NoDup_cons_iff in Hn as [Hx Hn].
  destruct H as [[= -> ->]|H]; [rewrite Z.eqb_refl; reflexivity|]. destruct (Z.eqb_spec x a) as [->|]; [|auto].
  exfalso. apply Hx. apply in_map_iff. exists (a, b). split; [reflexivity|exact H].
Qed.
Lemma assoc_none a l : assoc a l = None <-> ~ In a (map fst l).
Proof.
  induction l as [|[x c] l IH]; cbn [assoc map fst In]; [tauto|]. destruct (Z.eqb_spec x a) as [->|Hne]; [split; [discriminate|tauto]|].
  rewrite IH. tauto.
Qed.
Lemma assoc_set_get a b x l : assoc x (assoc_set a b l) = if x =? a then (match assoc a l with Some _ => Some b | None => None end) else assoc x l.
Proof.
  induction l as [|[y c] l IH]; cbn [assoc assoc_set]; [destruct (x =? a); reflexivity|].
  destruct (Z.eqb_spec y a) as [->|Hya]; cbn [assoc].
  - destruct (Z.eqb_spec a x) as [->|Hax]; [rewrite Z.eqb_refl; reflexivity|]. destruct (Z.eqb_spec x a); [congruence|reflexivity].
  - destruct (Z.eqb_spec y x) as [->|Hyx]; [destruct (Z.eqb_spec x a); [contradiction|reflexivity]|exact IH].
Qed.
Lemma assoc_set_fst a b l : map fst (assoc_set a b l) = map fst l.
Proof. induction l as [|[y c] l IH]; cbn [assoc_set map fst]; [reflexivity|]. destruct (y =? a); cbn [map fst]; [reflexivity|rewrite IH; reflexivity]. Qed.
Lemma assoc_remove_get a x l : NoDup (map fst l) -> assoc x (assoc_remove a l) = if x =? a then None else assoc x l.
Proof.
  induction l as [|[y c] l IH]; cbn [assoc assoc_remove map fst]; intros Hn; [destruct (x =? a); reflexivity|].
  apply NoDup_cons_iff in Hn as [Hy Hn]. destruct (Z.eqb_spec y a) as [->|Hya]; cbn [assoc].
  - destruct (Z.eqb_spec x a) as [->|Hxa]; [apply assoc_none, Hy|]. destruct (Z.eqb_spec a x); [congruence|reflexivity].
  - destruct (Z.eqb_spec y x) as [->|Hyx]; [destruct (Z.eqb_spec x a); [contradiction|reflexivity]|apply IH, Hn].
Qed.
Lemma assoc_remove_incl a x l : In x (map fst (assoc_remove a l)) -> In x (map fst l).
Proof. induction l as [|[y c] l IH]; cbn [assoc_remove map fst]; [auto|]. destruct (y =? a); cbn [map fst In]; tauto. Qed.
Lemma assoc_remove_nodup a l : NoDup (map fst l) -> NoDup (map fst (assoc_remove a l)).
Proof.
  induction l as [|[y c] l IH]; cbn [assoc_remove map fst]; [auto|]. intros Hn. apply NoDup_cons_iff in Hn as [Hy Hn].
  destruct (y =? a); cbn [map fst]; [exact Hn|]. apply NoDup_cons; [|auto]. intros H. apply Hy, (assoc_remove_incl a), H.
Qed.

(** Sizes. *)
Definition total_size (l : list (Z * block)) : Z := fold_right (fun xb n => b_size (snd xb) + n) 0 l.
Lemma total_size_set a b c l : assoc a l = Some c -> b_size b = b_size c -> total_size (assoc_set a b l) = total_size l.
Proof.
  induction l as [|[y d] l IH]; cbn [assoc assoc_set]; [reflexivity|]. intros H E. destruct (y =? a); cbn [total_size fold_right snd] in *.
  - injection H as ->. rewrite E. reflexivity.
  - fold (total_size (assoc_set a b l)). fold (total_size l). rewrite IH by assumption. reflexivity.
Qed.
Lemma total_size_remove a c l : assoc a l = Some c -> total_size (assoc_remove a l) = total_size l - b_size c.
Proof.
  induction l as [|[y d] l IH]; cbn [assoc assoc_remove]; [discriminate|]. intros H. destruct (y =? a); cbn [total_size fold_right snd] in *.
  - injection H as ->. fold (total_size l). lia.
  - fold (total_size (assoc_remove a l)). fold (total_size l). rewrite IH by assumption. lia.
Qed.
Lemma length_set a b l : length (assoc_set a b l) = length l.
Proof. induction l as [|[y d] l IH]; cbn [assoc_set]; [reflexivity|]. destruct (y =? a); cbn [length]; [reflexivity|rewrite IH; reflexivity]. Qed.
Lemma length_remove a c l : assoc a l = Some c -> length l = S (length (assoc_remove a l)).
Proof. induction l as [|[y d] l IH]; cbn [assoc assoc_remove]; [discriminate|]. intros H. destruct (y =? a); cbn [length]; [reflexivity|rewrite IH by exact H; reflexivity]. Qed.

Lemma find_store a b x h : find x (store a b h) = if x =? a then (match find a h with Some _ => Some b | None => None end) else find x h.
Proof. apply assoc_set_get. Qed.
Lemma find_store_same a b c h : find a h = Some c -> find a (store a b h) = Some b.
Proof. intros H. rewrite find_store, Z.eqb_refl, H. reflexivity. Qed.
Lemma find_store_other a b x h : x <> a -> find x (store a b h) = find x h.
Proof. intros H. rewrite find_store. destruct (Z.eqb_spec x a); [contradiction|reflexivity]. Qed.

(** ** References in blocks that are not being released *)
Definition inb (a : Z) (zs : list Z) : bool := existsb (Z.eqb a) zs.
Lemma inb_in a zs : inb a zs = true <-> In a zs.
Proof. unfold inb. rewrite existsb_exists. split; [intros (x & H & E); apply Z.eqb_eq in E; congruence|intros H; exists a; split; [exact H|apply Z.eqb_refl]]. Qed.
Lemma inb_out a zs : inb a zs = false <-> ~ In a zs.
Proof. rewrite <- inb_in. destruct (inb a zs); split; congruence. Qed.

Fixpoint inner_of (zs : list Z) (l : list (Z * block)) : list handle :=
  match l with
  | [] => []
  | (x, b) :: l => (if inb x zs then [] else map HRef (b_cells b)) ++ inner_of zs l
  end.
Definition inner (zs : list Z) (h : heap) : list handle := inner_of zs (hp_blocks h).
Fixpoint live_of (zs : list Z) (l : list (Z * block)) : nat :=
  match l with
  | [] => O
  | (x, b) :: l => ((if inb x zs then 0 else 1) + live_of zs l)%nat
  end.
Definition live (zs : list Z) (h : heap) : nat := live_of zs (hp_blocks h).

Lemma inner_nil l : inner_of [] l = flat_map (fun xb => map HRef (b_cells (snd xb))) l.
Proof. induction l as [|[x b] l IH]; cbn [inner_of flat_map snd inb existsb]; [reflexivity|rewrite IH; reflexivity]. Qed.
Lemma inner_set_same zs a b c l : assoc a l = Some c -> b_cells b = b_cells c -> inner_of zs (assoc_set a b l) = inner_of zs l.
Proof.
  induction l as [|[y d] l IH]; cbn [assoc assoc_set]; [reflexivity|]. intros H E. destruct (Z.eqb_spec y a); cbn [inner_of].
  - injection H as ->. rewrite E. reflexivity.
  - rewrite IH by assumption. reflexivity.
Qed.
Lemma inner_out zs a l : ~ In a (map fst l) -> inner_of (a :: zs) l = inner_of zs l.
Proof.
  induction l as [|[y d] l IH]; cbn [inner_of map fst In]; [reflexivity|]. intros H.
  assert (E : inb y (a :: zs) = inb y zs) by (cbn [inb existsb]; destruct (Z.eqb_spec y a); [exfalso; auto|reflexivity]).
  rewrite E, IH by tauto. reflexivity.
Qed.
Lemma live_out zs a l : ~ In a (map fst l) -> live_of (a :: zs) l = live_of zs l.
Proof.
  induction l as [|[y d] l IH]; cbn [live_of map fst In]; [reflexivity|]. intros H.
  assert (E : inb y (a :: zs) = inb y zs) by (cbn [inb existsb]; destruct (Z.eqb_spec y a); [exfalso; auto|reflexivity]).
  rewrite E, IH by tauto. reflexivity.
Qed.
Lemma inb_head a zs : inb a (a :: zs) = true.
Proof. cbn [inb existsb]. rewrite Z.eqb_refl. reflexivity. Qed.
Lemma inb_skip a b zs : a <> b -> inb a (b :: zs) = inb a zs.
Proof. intros H. cbn [inb existsb]. destruct (Z.eqb_spec a b); [contradiction|reflexivity]. Qed.
(** Setting a block aside moves its references out. *)
Lemma inner_aside zs a b c l : NoDup (map fst l) -> ~ In a zs -> assoc a l = Some c ->
  Permutation (inner_of zs l) (map HRef (b_cells c) ++ inner_of (a :: zs) (assoc_set a b l)).
Proof.
  induction l as [|[y d] l IH]; cbn [assoc assoc_set map fst]; intros Hn Ha H; [discriminate|]. apply NoDup_cons_iff in Hn as [Hy Hn].
  destruct (Z.eqb_spec y a) as [->|Hya]; cbn [inner_of].
  - injection H as ->. rewrite (proj2 (inb_out a zs) Ha), inb_head, inner_out by exact Hy. apply Permutation_refl.
  - rewrite inb_skip by exact Hya. destruct (inb y zs); cbn [app]; [apply IH; assumption|].
    rewrite Permutation_app_comm. rewrite (IH Hn Ha H), <- app_assoc. apply Permutation_app_head. apply Permutation_app_comm.
Qed.
Lemma live_aside zs a b c l : NoDup (map fst l) -> ~ In a zs -> assoc a l = Some c -> live_of zs l = S (live_of (a :: zs) (assoc_set a b l)).
Proof.
  induction l as [|[y d] l IH]; cbn [assoc assoc_set map fst]; intros Hn Ha H; [discriminate|]. apply NoDup_cons_iff in Hn as [Hy Hn].
  destruct (Z.eqb_spec y a) as [->|Hya]; cbn [live_of].
  - rewrite (proj2 (inb_out a zs) Ha), inb_head, live_out by exact Hy. reflexivity.
  - rewrite inb_skip by exact Hya. rewrite (IH Hn Ha H). lia.
Qed.
Lemma live_set zs a b l : live_of zs (assoc_set a b l) = live_of zs l.
Proof. induction l as [|[y d] l IH]; cbn [assoc_set]; [reflexivity|]. destruct (Z.eqb_spec y a); cbn [live_of]; [reflexivity|rewrite IH; reflexivity]. Qed.
Lemma inner_remove zs a l : NoDup (map fst l) -> In a (map fst l) -> inner_of zs (assoc_remove a l) = inner_of (a :: zs) l.
Proof.
  induction l as [|[y d] l IH]; cbn [assoc_remove map fst]; intros Hn Ha; [reflexivity|]. apply NoDup_cons_iff in Hn as [Hy Hn].
  destruct (Z.eqb_spec y a) as [->|Hya]; cbn [inner_of].
  - rewrite inb_head. cbn [app]. symmetry. apply inner_out, Hy.
  - rewrite inb_skip by exact Hya. rewrite IH; [reflexivity|exact Hn|]. destruct Ha as [E|Ha]; [contradiction|exact Ha].
Qed.
Lemma live_remove zs a l : NoDup (map fst l) -> In a (map fst l) -> live_of zs (assoc_remove a l) = live_of (a :: zs) l.
Proof.
  induction l as [|[y d] l IH]; cbn [assoc_remove map fst]; intros Hn Ha; [reflexivity|]. apply NoDup_cons_iff in Hn as [Hy Hn].
  destruct (Z.eqb_spec y a) as [->|Hya]; cbn [live_of].
  - rewrite inb_head. cbn [Nat.add]. symmetry. apply live_out, Hy.
  - rewrite inb_skip by exact Hya. rewrite IH; [reflexivity|exact Hn|]. destruct Ha as [E|Ha]; [contradiction|exact Ha].
Qed.

(** ** Counting *)
Definition cnt (a : Z) (l : list handle) : Z := Z.of_nat (length (filter (refers a) l)).
Lemma cnt_cons a x l : cnt a (x :: l) = (if refers a x then 1 else 0) + cnt a l.
Proof. unfold cnt. cbn [filter]. destruct (refers a x); cbn [length]; lia. Qed.
Lemma cnt_app a l l' : cnt a (l ++ l') = cnt a l + cnt a l'.
Proof. unfold cnt. rewrite filter_app, app_length. lia. Qed.
Lemma cnt_nonneg a l : 0 <= cnt a l.
Proof. unfold cnt. lia. Qed.
Lemma cnt_perm a l l' : Permutation l l' -> cnt a l = cnt a l'.
Proof.
  induction 1 as [|x l l' H IH|x y l|l l' l'' H1 IH1 H2 IH2]; [reflexivity| | |congruence]; rewrite !cnt_cons; lia.
Qed.
Lemma refers_target a x : refers a x = true <-> target x = Some a.
Proof. unfold refers. destruct (target x) as [t|]; [rewrite Z.eqb_eq; split; congruence|split; discriminate]. Qed.
Lemma cnt_zero a l : cnt a l = 0 -> forall x, In x l -> target x <> Some a.
Proof.
  intros H x Hx E. apply refers_target in E. assert (Hf : In x (filter (refers a) l)) by (apply filter_In; auto).
  unfold cnt in H. destruct (filter (refers a) l); [destruct Hf|cbn [length] in H; lia].
Qed.
Lemma cnt_pos a l : 0 < cnt a l -> exists x, In x l /\ target x = Some a.
Proof.
  unfold cnt. intros H. destruct (filter (refers a) l) as [|x r] eqn:E; [cbn [length] in H; lia|].
  assert (Hf : In x (filter (refers a) l)) by (rewrite E; left; reflexivity). apply filter_In in Hf as [H1 H2]. exists x. split; [exact H1|apply refers_target, H2].
Qed.
Lemma cnt_in a x l : In x l -> target x = Some a -> 0 < cnt a l.
Proof. intros Hx E. pose proof (cnt_nonneg a l). destruct (Z.eq_dec (cnt a l) 0) as [Ez|]; [|lia]. destruct (cnt_zero a l Ez x Hx E). Qed.

(** ** The invariant *)
Definition ref_ok (h : heap) (zs : list Z) (x : handle) : Prop :=
  match x with HRef (CAny v) => u64v v | _ => True end /\
  forall a, target x = Some a -> ~ In a zs /\ exists b, find a h = Some b /\ b_kind b = hkind x.
Definition block_ok (a : Z) (b : block) : Prop :=
  alloc_size (b_kind b) (b_len b) = Ok (b_size b) /\ cells_ok (b_kind b) (b_len b) (b_cells b) = true /\ 0 <= a < 2 ^ 48.
Record Core (h : heap) (zs : list Z) (all : list handle) : Prop := {
  c_nodup : NoDup (map fst (hp_blocks h));
  c_zs : NoDup zs;
  c_zlive : forall z, In z zs -> exists b, find z h = Some b;
  c_ok : Forall (ref_ok h zs) all;
  c_count : forall a b, find a h = Some b -> ~ In a zs -> 0 <= b_count b /\ b_count b + 1 = cnt a all;
  c_mut : forall k a b, In (HMut k a) all -> find a h = Some b -> b_count b = 0;
  c_block : forall a b, find a h = Some b -> block_ok a b;
  c_acc : hp_counter h = Z.of_nat (length (hp_blocks h)) /\ hp_size h = total_size (hp_blocks h)
}.
Definition Inv (h : heap) (zs : list Z) (roots : list handle) : Prop := Core h zs (roots ++ inner zs h).

Lemma Core_perm h zs l l' : Permutation l l' -> Core h zs l -> Core h zs l'.
Proof.
  intros P [H1 H2 H3 H4 H5 H6 H7 H8]. constructor; auto.
  - rewrite <- P. exact H4.
  - intros a b Hf Hz. rewrite <- (cnt_perm a l l' P). auto.
  - intros k a b Hi. apply (H6 k a b). apply (Permutation_in _ (Permutation_sym P)), Hi.
Qed.

(** Replacing a block and the list of references. *)
Lemma Core_update h zs all a b b' all' : Core h zs all -> find a h = Some b -> ~ In a zs ->
  b_kind b' = b_kind b -> b_size b' = b_size b -> block_ok a b' ->
  Forall (ref_ok h zs) all' -> (forall x, x <> a -> cnt x all' = cnt x all) -> 0 <= b_count b' -> b_count b' + 1 = cnt a all' ->
  (forall k x, In (HMut k x) all' -> if x =? a then b_count b' = 0 else In (HMut k x) all) ->
  Core (store a b' h) zs all'.
Proof.
  intros [H1 H2 H3 H4 H5 H6 H7 H8] Hf Hz Ek Es Hb Hok Hc Hp Hcb Hm. constructor.
  - cbn [store hp_blocks]. rewrite assoc_set_fst. exact H1.
  - exact H2.
  - intros z Hin. rewrite find_store. destruct (Z.eqb_spec z a) as [->|]; [contradiction|apply H3, Hin].
  - apply Forall_forall. intros x Hx. rewrite Forall_forall in Hok. destruct (Hok x Hx) as [A B]. split; [exact A|].
    intros t Ht. destruct (B t Ht) as (C & d & D & E). split; [exact C|]. destruct (Z.eq_dec t a) as [->|Hne].
    + exists b'. split; [apply (find_store_same a b' b), Hf|]. rewrite Ek. congruence.
    + exists d. split; [rewrite find_store_other by exact Hne; exact D|exact E].
  - intros x d Hx Hxz. destruct (Z.eq_dec x a) as [->|Hne].
    + rewrite (find_store_same a b' b h Hf) in Hx. injection Hx as <-. auto.
    + rewrite find_store_other in Hx by exact Hne. rewrite (Hc x Hne). auto.
  - intros k x d Hin Hx. specialize (Hm k x Hin). destruct (Z.eqb_spec x a) as [E|Hne].
    + subst x. rewrite (find_store_same a b' b h Hf) in Hx. injection Hx as <-. exact Hm.
    + rewrite find_store_other in Hx by exact Hne. apply (H6 k x d Hm Hx).
  - intros x d Hx. destruct (Z.eq_dec x a) as [->|Hne].
    + rewrite (find_store_same a b' b h Hf) in Hx. injection Hx as <-. exact Hb.
    + rewrite find_store_other in Hx by exact Hne. auto.
  - cbn [store hp_counter hp_size hp_blocks]. rewrite length_set, (total_size_set a b' b) by assumption. exact H8.
Qed.
(** Removing one of several references. *)
Lemma Core_release h zs x all a b : Core h zs (x :: all) -> target x = Some a -> find a h = Some b -> b_count b <> 0 ->
  Core (store a (with_count b (b_count b + -1)) h) zs all.
Proof.
  intros HC Ht Hf Hn. pose proof HC as [H1 H2 H3 H4 H5 H6 H7 H8].
  assert (Hz : ~ In a zs) by (apply Forall_inv in H4; destruct H4 as [_ H4]; apply (H4 a Ht)).
  destruct (H5 a b Hf Hz) as [Hp Hc]. rewrite cnt_cons, (proj2 (refers_target a x) Ht) in Hc.
  apply (Core_update h zs (x :: all) a b); auto; cbn [with_count b_kind b_size b_count].
  - exact (H7 a b Hf).
  - exact (Forall_inv_tail H4).
  - intros y Hy. rewrite cnt_cons. assert (E : refers y x = false) by (unfold refers; rewrite Ht; destruct (Z.eqb_spec a y); [congruence|reflexivity]). rewrite E. reflexivity.
  - lia.
  - lia.
  - intros k y Hin. destruct (Z.eqb_spec y a) as [->|]; [|right; exact Hin]. exfalso. apply Hn. apply (H6 k a b); [right; exact Hin|exact Hf].
Qed.
(** Adding a reference. *)
Lemma Core_clone h zs x all a b : Core h zs all -> In x all -> (forall k a, x <> HMut k a) -> target x = Some a -> find a h = Some b ->
  Core (store a (with_count b (b_count b + 1)) h) zs (x :: all).
Proof.
  intros HC Hx Hnm Ht Hf. pose proof HC as [H1 H2 H3 H4 H5 H6 H7 H8]. rewrite Forall_forall in H4.
  assert (Hz : ~ In a zs) by (destruct (H4 x Hx) as [_ H]; apply (H a Ht)).
  destruct (H5 a b Hf Hz) as [Hp Hc].
  apply (Core_update h zs all a b); auto; cbn [with_count b_kind b_size b_count].
  - exact (H7 a b Hf).
  - apply Forall_forall. intros y [<-|Hy]; auto.
  - intros y Hy. rewrite cnt_cons. assert (E : refers y x = false) by (unfold refers; rewrite Ht; destruct (Z.eqb_spec a y); [congruence|reflexivity]). rewrite E. reflexivity.
  - lia.
  - rewrite cnt_cons, (proj2 (refers_target a x) Ht). lia.
  - intros k y [E|Hin]; [destruct (Hnm k y E)|]. destruct (Z.eqb_spec y a) as [->|]; [|exact Hin]. exfalso.
    (* a mutable reference is the only one *)
    pose proof (H6 k a b Hin Hf) as E0. rewrite E0 in Hc.
    assert (2 <= cnt a all).
    { apply in_split in Hin as (l1 & l2 & ->). rewrite cnt_app, cnt_cons in Hc. cbn [refers target] in Hc. rewrite Z.eqb_refl in Hc.
      rewrite cnt_app, cnt_cons. cbn [refers target]. rewrite Z.eqb_refl. apply in_app_or in Hx as [Hx|[Hx|Hx]].
      - pose proof (cnt_in a x l1 Hx Ht). pose proof (cnt_nonneg a l2). lia.
      - subst x. destruct (Hnm k a eq_refl).
      - pose proof (cnt_in a x l2 Hx Ht). pose proof (cnt_nonneg a l1). lia. }
    lia.
Qed.
(** Setting aside the block of the only reference. *)
Lemma Core_aside h zs x all a b n : Core h zs (x :: all) -> target x = Some a -> find a h = Some b -> b_count b = 0 ->
  Core (store a (with_count b n) h) (a :: zs) all.
Proof.
  intros HC Ht Hf Hn. pose proof HC as [H1 H2 H3 H4 H5 H6 H7 H8].
  assert (Hz : ~ In a zs) by (apply Forall_inv in H4; destruct H4 as [_ H4]; apply (H4 a Ht)).
  destruct (H5 a b Hf Hz) as [Hp Hc]. rewrite cnt_cons, (proj2 (refers_target a x) Ht), Hn in Hc.
  assert (Ez : cnt a all = 0) by lia. pose proof (cnt_zero a all Ez) as Hno. constructor.
  - cbn [store hp_blocks]. rewrite assoc_set_fst. exact H1.
  - apply NoDup_cons; assumption.
  - intros z [<-|Hin]; [exists (with_count b n); apply (find_store_same a _ b), Hf|]. rewrite find_store. destruct (Z.eqb_spec z a) as [->|]; [contradiction|apply H3, Hin].
  - apply Forall_forall. intros y Hy. apply Forall_inv_tail in H4. rewrite Forall_forall in H4. destruct (H4 y Hy) as [A B]. split; [exact A|].
    intros t Et. destruct (B t Et) as (C & d & D & E). assert (t <> a) by (intros ->; exact (Hno y Hy Et)). split; [intros [<-|Hi]; auto|].
    exists d. rewrite find_store_other by assumption. auto.
  - intros y d Hy Hin. assert (y <> a) by (intros ->; apply Hin; left; reflexivity). rewrite find_store_other in Hy by assumption.
    destruct (H5 y d Hy) as [A B]; [intros Hi; apply Hin; right; exact Hi|]. split; [exact A|]. rewrite B, cnt_cons.
    assert (E : refers y x = false) by (unfold refers; rewrite Ht; destruct (Z.eqb_spec a y); [congruence|reflexivity]). rewrite E. reflexivity.
  - intros k y d Hin Hy. assert (y <> a) by (intros ->; exact (Hno _ Hin eq_refl)). rewrite find_store_other in Hy by assumption. apply (H6 k y d); [right; exact Hin|exact Hy].
  - intros y d Hy. destruct (Z.eq_dec y a) as [->|Hne].
    + rewrite (find_store_same a _ b h Hf) in Hy. injection Hy as <-. exact (H7 a b Hf).
    + rewrite find_store_other in Hy by exact Hne. auto.
  - cbn [store hp_counter hp_size hp_blocks]. rewrite length_set, (total_size_set a _ b) by (assumption || reflexivity). exact H8.
Qed.
(** Releasing a block that was set aside. *)
Definition free (a : Z) (b : block) (h : heap) : heap :=
  {| hp_blocks := assoc_remove a (hp_blocks h); hp_counter := hp_counter h - 1; hp_size := hp_size h - b_size b |}.
Lemma find_free a b x h : NoDup (map fst (hp_blocks h)) -> find x (free a b h) = if x =? a then None else find x h.
Proof. intros H. apply assoc_remove_get, H. Qed.
Lemma Core_free h zs all a b : Core h (a :: zs) all -> find a h = Some b -> Core (free a b h) zs all.
Proof.
  intros [H1 H2 H3 H4 H5 H6 H7 H8] Hf. apply NoDup_cons_iff in H2 as [Ha H2].
  assert (Fo : forall x, x <> a -> find x (free a b h) = find x h) by (intros x Hx; rewrite find_free by exact H1; destruct (Z.eqb_spec x a); [contradiction|reflexivity]).
  assert (Fn : find a (free a b h) = None) by (rewrite find_free by exact H1; rewrite Z.eqb_refl; reflexivity).
  constructor.
  - apply assoc_remove_nodup, H1.
  - exact H2.
  - intros z Hz. rewrite Fo by (intros ->; contradiction). apply H3. right. exact Hz.
  - apply Forall_forall. intros x Hx. rewrite Forall_forall in H4. destruct (H4 x Hx) as [A B]. split; [exact A|]. intros t Et.
    destruct (B t Et) as (C & d & D & E). split; [intros Hi; apply C; right; exact Hi|]. exists d. rewrite Fo by (intros ->; apply C; left; reflexivity). auto.
  - intros x d Hx Hxz. destruct (Z.eq_dec x a) as [->|Hne]; [congruence|]. rewrite Fo in Hx by exact Hne. apply H5; [exact Hx|]. intros [E|Hi]; [congruence|contradiction].
  - intros k x d Hin Hx. destruct (Z.eq_dec x a) as [->|Hne]; [congruence|]. rewrite Fo in Hx by exact Hne. apply (H6 k x d Hin Hx).
  - intros x d Hx. destruct (Z.eq_dec x a) as [->|Hne]; [congruence|]. rewrite Fo in Hx by exact Hne. auto.
  - cbn [free hp_counter hp_size hp_blocks]. rewrite (total_size_remove a b) by exact Hf. pose proof (length_remove a b (hp_blocks h) Hf). destruct H8. lia.
Qed.

(** Sizes of blocks are not negative. *)
Lemma uadd_nonneg a b r : 0 <= a -> 0 <= b -> uadd a b = Ok r -> 0 <= r.
Proof. unfold uadd. destruct (_ <=? _); [|discriminate]. intros ? ? [= <-]. lia. Qed.
Lemma align_to_nonneg i a r : 0 <= i -> align_to i a = Ok r -> 0 <= r.
Proof.
  intros Hi. unfold align_to, usub. destruct (Z.leb_spec 1 a); [|discriminate]. cbn [obind]. unfold uadd. destruct (_ <=? _) ; [|discriminate]. cbn [obind].
  intros [= <-]. apply Z.land_nonneg. left. lia.
Qed.
Lemma field_nonneg t a adj f : 0 <= ty_size t -> field_align_to t a adj = Ok f -> 0 <= fl_size f.
Proof.
  intros Ht. unfold field_align_to. destruct (negb _); [discriminate|]. destruct (adj <? _); [discriminate|].
  destruct (align_to (ty_size t) adj) as [r| |] eqn:E; try discriminate. cbn [obind]. intros [= <-]. cbn [fl_size]. apply (align_to_nonneg (ty_size t) adj r Ht E).
Qed.
Lemma alloc_size_nonneg k len n cs : cells_ok k len cs = true -> alloc_size k len = Ok n -> 0 <= n.
Proof.
  intros Hc. unfold alloc_size. destruct (kind_size k len) as [s| |] eqn:Es; try discriminate. cbn [obind].
  assert (Hlen : 0 <= len /\ (forall t, k = KFixed t -> 0 <= ty_size t)).
  { destruct k; cbn [cells_ok] in Hc.
    - destruct cs; [|discriminate]. apply Z.leb_le in Hc. split; [exact Hc|discriminate].
    - apply andb_true_iff in Hc as [_ Hc]. apply Z.eqb_eq in Hc. split; [lia|discriminate].
    - apply andb_true_iff in Hc as [_ Hc]. apply Z.eqb_eq in Hc. split; [lia|discriminate].
    - destruct cs; [|discriminate]. apply Z.leb_le in Hc. split; [exact Hc|discriminate].
    - apply andb_true_iff in Hc as [Hc1 Hc2]. apply Z.eqb_eq in Hc1. apply Z.leb_le in Hc2. split; [lia|]. intros t' [= <-]. lia. }
  assert (Hs : 0 <= s).
  { destruct k; cbn [kind_size] in Es; try (injection Es as <-; apply (proj2 Hlen); reflexivity);
    unfold flexible_size in Es; destruct (flexible_header_layout isize_ty _) as [f| |] eqn:Ef; try discriminate; cbn [obind] in Es;
    unfold umul in Es; destruct (_ <=? _) in Es; try discriminate; cbn [obind] in Es; (eapply uadd_nonneg; [| |exact Es]);
    try (eapply field_nonneg; [|exact Ef]; cbn; lia); cbn [item_ty ty_size]; lia. }
  destruct (kind_align k) as [al| |]; try discriminate. cbn [obind]. unfold block_layout, block_header_layout.
  destruct (field_align_to isize_ty _ al) as [f| |] eqn:Ef; try discriminate. cbn [obind]. unfold field_layout_layout at 1.
  destruct (uadd (fl_size f) s) as [z| |] eqn:Ez; try discriminate. cbn [obind].
  assert (Hz : 0 <= z) by (eapply uadd_nonneg; [| |exact Ez]; [eapply field_nonneg; [|exact Ef]; cbn; lia|exact Hs]).
  unfold local_layout. cbn [lay_align lay_size]. destruct (field_align_to _ u8_ty _) as [g| |] eqn:Eg; try discriminate. cbn [obind]. unfold field_layout_layout.
  destruct (uadd (fl_size g) z) as [y| |] eqn:Ey; try discriminate. cbn [obind lay_size]. intros [= <-].
  eapply uadd_nonneg; [| |exact Ey]; [eapply field_nonneg; [|exact Eg]; cbn; lia|exact Hz].
Qed.
Lemma total_size_nonneg l : (forall a b, In (a, b) l -> 0 <= b_size b) -> 0 <= total_size l.
Proof.
  induction l as [|[x b] l IH]; cbn [total_size fold_right snd]; intros H; [lia|]. fold (total_size l). pose proof (H x b (or_introl eq_refl)).
  assert (0 <= total_size l) by (apply IH; intros a c Hi; apply (H a c); right; exact Hi). lia.
Qed.
Lemma total_size_ge a b l : (forall a b, In (a, b) l -> 0 <= b_size b) -> In (a, b) l -> b_size b <= total_size l.
Proof.
  induction l as [|[x c] l IH]; intros H Hi; [destruct Hi|]. cbn [total_size fold_right snd]. fold (total_size l).
  assert (H0 : forall a b, In (a, b) l -> 0 <= b_size b) by (intros a' b' H'; apply (H a' b'); right; exact H').
  pose proof (total_size_nonneg l H0). destruct Hi as [[= -> ->]|Hi]; [lia|]. pose proof (H x c (or_introl eq_refl)). specialize (IH H0 Hi). lia.
Qed.
Lemma dealloc_ok h zs all a b : Core h zs all -> find a h = Some b -> dealloc a (b_size b) h = ROk (free a b h).
Proof.
  intros HC Hf. unfold dealloc. rewrite Hf, Z.eqb_refl.
  assert (Hn : forall a b, In (a, b) (hp_blocks h) -> 0 <= b_size b).
  { intros x c Hi. pose proof (in_assoc x c _ (c_nodup _ _ _ HC) Hi) as Hx. destruct (c_block _ _ _ HC x c Hx) as (H1 & H2 & _). apply (alloc_size_nonneg _ _ _ _ H2 H1). }
  pose proof (total_size_ge a b _ Hn (assoc_in _ _ _ Hf)). destruct (c_acc _ _ _ HC) as [_ Es]. destruct (Z.ltb_spec (hp_size h) (b_size b)); [lia|]. reflexivity.
Qed.
Lemma slots_match_ok b : cells_ok (b_kind b) (b_len b) (b_cells b) = true -> slots_match b = true.
Proof.
  unfold slots_match. destruct (b_kind b); cbn [cells_ok]; auto; intros H; apply andb_true_iff in H; apply H.
Qed.

(** ** Dropping *)

(** Blocks that stay have their contents. *)
Definition same_content (b b' : block) : Prop := b_kind b' = b_kind b /\ b_len b' = b_len b /\ b_cells b' = b_cells b /\ b_size b' = b_size b.
Definition kept (zs : list Z) (h h' : heap) : Prop :=
  (forall a b', find a h' = Some b' -> exists b, find a h = Some b /\ same_content b b')
  /\ (forall a, In a zs -> find a h' = find a h).
Lemma same_content_refl b : same_content b b.
Proof. unfold same_content. auto. Qed.
Lemma kept_refl zs h : kept zs h h.
Proof. split; [|auto]. intros a b H. exists b. split; [exact H|apply same_content_refl]. Qed.
Lemma kept_trans zs h1 h2 h3 : kept zs h1 h2 -> kept zs h2 h3 -> kept zs h1 h3.
Proof.
  intros [A B] [C D]. split.
  - intros a b H. destruct (C a b H) as (b2 & H2 & E2). destruct (A a b2 H2) as (b1 & H1 & E1). exists b1. split; [exact H1|].
    unfold same_content in *. intuition congruence.
  - intros a H. rewrite D, B by exact H. reflexivity.
Qed.
Definition bad (all : list handle) : Prop := exists v, In (HRef (CAny v)) all /\ block_header v <> None /\ any_kind v = KBigint.
Lemma bad_incl l l' : incl l l' -> bad l -> bad l'.
Proof. intros H (v & Hv & A). exists v. auto. Qed.

Definition drop_result (fuel : nat) (c : cell) (h : heap) (zs : list Z) (roots : list handle) : Prop :=
  (drop_cell fuel c h = RPanic /\ bad (HRef c :: roots ++ inner zs h))
  \/ exists h', drop_cell fuel c h = ROk h' /\ Inv h' zs roots /\ (live zs h' <= live zs h)%nat /\ kept zs h h'
     /\ incl (inner zs h') (inner zs h).

Lemma drop_list_inv (dc : cell -> heap -> res heap) n zs :
  (forall c h roots, (live zs h <= n)%nat -> Inv h zs (HRef c :: roots) ->
     (dc c h = RPanic /\ bad (HRef c :: roots ++ inner zs h))
     \/ exists h', dc c h = ROk h' /\ Inv h' zs roots /\ (live zs h' <= live zs h)%nat /\ kept zs h h' /\ incl (inner zs h') (inner zs h)) ->
  forall cs h roots, (live zs h <= n)%nat -> Inv h zs (map HRef cs ++ roots) ->
     (drop_list dc cs h = RPanic /\ bad (map HRef cs ++ roots ++ inner zs h))
     \/ exists h', drop_list dc cs h = ROk h' /\ Inv h' zs roots /\ (live zs h' <= live zs h)%nat /\ kept zs h h' /\ incl (inner zs h') (inner zs h).
Proof.
  intros Hdc. induction cs as [|c cs IH]; intros h roots Hl HI; cbn [drop_list map app] in *.
  - right. exists h. split; [reflexivity|]. split; [exact HI|]. split; [lia|]. split; [apply kept_refl|apply incl_refl].
  - destruct (Hdc c h (map HRef cs ++ roots) Hl HI) as [[E B]|(h1 & E & HI1 & Hl1 & K1 & I1)]; rewrite E; cbn [rbind].
    + left. split; [reflexivity|]. rewrite <- app_assoc in B. exact B.
    + destruct (IH h1 roots ltac:(lia) HI1) as [[E2 B]|(h2 & E2 & HI2 & Hl2 & K2 & I2)]; rewrite E2.
      * left. split; [reflexivity|]. apply (bad_incl (map HRef cs ++ roots ++ inner zs h1)); [|exact B].
        apply incl_tl. apply incl_app; [apply incl_appl, incl_refl|apply incl_appr]. apply incl_app; [apply incl_appl, incl_refl|apply incl_appr, I1].
      * right. exists h2. split; [reflexivity|]. split; [exact HI2|]. split; [lia|]. split; [apply (kept_trans zs h h1 h2 K1 K2)|apply (incl_tran I2 I1)].
Qed.

(** Deleting the block of the only reference. *)
Lemma delete_inv fuel n x a b cnt0 h zs roots :
  (forall c h zs roots, (live zs h <= n)%nat -> Inv h zs (HRef c :: roots) -> drop_result fuel c h zs roots) ->
  Inv h zs (x :: roots) -> target x = Some a -> find a h = Some b -> b_count b = 0 -> (live zs h <= S n)%nat ->
  let h1 := store a (with_count b cnt0) h in
  (delete (drop_cell fuel) (hkind x) a h1 = RPanic /\ bad (x :: roots ++ inner zs h))
  \/ exists h', delete (drop_cell fuel) (hkind x) a h1 = ROk h' /\ Inv h' zs roots /\ (live zs h' <= live zs h)%nat /\ kept zs h h'
     /\ incl (inner zs h') (inner zs h).
Proof.
  intros Hrec HI Ht Hf Hc Hl h1. unfold Inv in HI. cbn [app] in HI.
  pose proof (c_nodup _ _ _ HI) as Hnd. pose proof (Forall_inv (c_ok _ _ _ HI)) as [_ Hx]. destruct (Hx a Ht) as (Hz & b0 & Hb0 & Hk). rewrite Hf in Hb0. injection Hb0 as <-.
  destruct (c_block _ _ _ HI a b Hf) as (Hsz & Hcells & _).
  assert (Hf1 : find a h1 = Some (with_count b cnt0)) by (apply (find_store_same a _ b), Hf).
  unfold delete. rewrite Hf1. cbn [with_count b_kind b_len b_cells]. rewrite (proj2 (kind_eqb_eq _ _) Hk). rewrite <- Hk, Hsz. cbn [of_outcome rbind].
  assert (Hsm : slots_match (with_count b cnt0) = true) by (apply slots_match_ok; exact Hcells). rewrite Hsm.
  pose proof (Core_aside h zs x (roots ++ inner zs h) a b cnt0 HI Ht Hf Hc) as HC1. fold h1 in HC1.
  assert (P : Permutation (roots ++ inner zs h) ((map HRef (b_cells b) ++ roots) ++ inner (a :: zs) h1)).
  { unfold inner, h1. cbn [store hp_blocks]. rewrite (inner_aside zs a (with_count b cnt0) b (hp_blocks h) Hnd Hz Hf).
    rewrite !app_assoc. apply Permutation_app_tail. apply Permutation_app_comm. }
  pose proof (Core_perm _ _ _ _ P HC1) as HI1.
  assert (Hlv : live zs h = S (live (a :: zs) h1)) by (apply (live_aside zs a (with_count b cnt0) b (hp_blocks h) Hnd Hz Hf)).
  destruct (drop_list_inv (drop_cell fuel) n (a :: zs) (fun c h roots => Hrec c h (a :: zs) roots) (b_cells b) h1 roots ltac:(lia) HI1) as [[E B]|(h2 & E & HI2 & Hl2 & K2 & I2)]; rewrite E; cbn [rbind].
  - left. split; [reflexivity|]. apply (bad_incl (map HRef (b_cells b) ++ roots ++ inner (a :: zs) h1)); [|exact B]. apply incl_tl.
    intros y Hy. apply (Permutation_in _ (Permutation_sym P)). rewrite <- app_assoc. exact Hy.
  - right. assert (Hf2 : find a h2 = Some (with_count b cnt0)) by (rewrite (proj2 K2 a (or_introl eq_refl)); exact Hf1).
    rewrite (dealloc_ok h2 (a :: zs) _ a (with_count b cnt0) HI2 Hf2 : dealloc a (b_size b) h2 = _).
    exists (free a (with_count b cnt0) h2). split; [reflexivity|].
    pose proof (c_nodup _ _ _ HI2) as Hnd2.
    assert (Hin2 : In a (map fst (hp_blocks h2))) by (apply in_map_iff; exists (a, with_count b cnt0); split; [reflexivity|apply assoc_in, Hf2]).
    assert (Ein : inner zs (free a (with_count b cnt0) h2) = inner (a :: zs) h2) by (apply inner_remove; assumption).
    split; [|split; [|split; [|]]].
    + unfold Inv. rewrite Ein. apply (Core_free h2 zs (roots ++ inner (a :: zs) h2) a (with_count b cnt0) HI2 Hf2).
    + assert (El : live zs (free a (with_count b cnt0) h2) = live (a :: zs) h2) by (apply live_remove; assumption). lia.
    + split.
      * intros y d Hy. rewrite find_free in Hy by exact Hnd2. destruct (Z.eqb_spec y a) as [|Hne]; [discriminate|].
        destruct (proj1 K2 y d Hy) as (d1 & Hd1 & Sd). unfold h1 in Hd1. rewrite find_store_other in Hd1 by exact Hne. exists d1. auto.
      * intros y Hy. assert (Hne : y <> a) by (intros ->; contradiction). rewrite find_free by exact Hnd2. destruct (Z.eqb_spec y a) as [|_]; [contradiction|].
        rewrite (proj2 K2 y (or_intror Hy)). apply find_store_other, Hne.
    + rewrite Ein. apply (incl_tran I2). intros y Hy. unfold inner. apply (Permutation_in _ (Permutation_sym (inner_aside zs a (with_count b cnt0) b (hp_blocks h) Hnd Hz Hf))).
      apply in_or_app. right. exact Hy.
Qed.

Lemma delete_kind_ok c k : delete_kind c = Some k -> k = hkind (HRef c).
Proof.
  destruct c as [k' a|v]; cbn [delete_kind hkind]; [intros [= <-]; reflexivity|]. unfold any_kind.
  destruct (ref_type v =? 0); [intros [= <-]; reflexivity|]. destruct (ref_type v =? 1); [intros [= <-]; reflexivity|]. destruct (ref_type v =? 2); [intros [= <-]; reflexivity|discriminate].
Qed.
Lemma delete_kind_none c : delete_kind c = None -> exists v, c = CAny v /\ any_kind v = KBigint.
Proof.
  destruct c as [k' a|v]; cbn [delete_kind]; [discriminate|]. intros H. exists v. split; [reflexivity|]. unfold any_kind.
  destruct (ref_type v =? 0); [discriminate|]. destruct (ref_type v =? 1); [discriminate|]. destruct (ref_type v =? 2); [discriminate|reflexivity].
Qed.
Lemma kept_store_count zs a b n h : find a h = Some b -> ~ In a zs -> kept zs h (store a (with_count b n) h).
Proof.
  intros Hf Hz. split.
  - intros y d Hy. destruct (Z.eq_dec y a) as [->|Hne].
    + rewrite (find_store_same a _ b h Hf) in Hy. injection Hy as <-. exists b. split; [exact Hf|]. unfold same_content. cbn. auto.
    + rewrite find_store_other in Hy by exact Hne. exists d. split; [exact Hy|apply same_content_refl].
  - intros y Hy. apply find_store_other. intros ->. contradiction.
Qed.
Lemma inner_store_count zs a b n h : find a h = Some b -> inner zs (store a (with_count b n) h) = inner zs h.
Proof. intros Hf. apply (inner_set_same zs a (with_count b n) b); [exact Hf|reflexivity]. Qed.

Lemma drop_cell_inv : forall n fuel c h zs roots, (live zs h <= n)%nat -> (n < fuel)%nat -> Inv h zs (HRef c :: roots) -> drop_result fuel c h zs roots.
Proof.
  induction n as [|n IH]; intros fuel c h zs roots Hl Hfu HI; (destruct fuel as [|fuel]; [lia|]); unfold drop_result; cbn [drop_cell];
    pose proof HI as HC; unfold Inv in HC; cbn [app] in HC; pose proof (Forall_inv (c_ok _ _ _ HC)) as [_ Hx]; tgt_in Hx;
    (destruct (cell_header c) as [a|] eqn:Eh;
     [|right; exists h; split; [reflexivity|]; split; [|split; [lia|split; [apply kept_refl|apply incl_refl]]]; 
       destruct HC as [H1 H2 H3 H4 H5 H6 H7 H8]; constructor; auto;
       [exact (Forall_inv_tail H4)
       |intros y d Hy Hyz; destruct (H5 y d Hy Hyz) as [A B]; split; [exact A|]; rewrite B, cnt_cons; unfold refers; tgt; rewrite Eh; reflexivity
       |intros k y d Hy; apply (H6 k y d); right; exact Hy]]);
    assert (Et : target (HRef c) = Some a) by (tgt; exact Eh);
    destruct (Hx a eq_refl) as (Hz & b & Hf & Hk);
    unfold counter_update; rewrite Hf; cbn [rbind];
    (destruct (Z.eqb_spec (b_count b) 0) as [Ec|Ec];
     [|right; exists (store a (with_count b (b_count b + -1)) h); split; [reflexivity|];
       split; [unfold Inv; rewrite (inner_store_count zs a b) by exact Hf; apply (Core_release h zs (HRef c)); auto|];
       split; [unfold live; cbn [store hp_blocks]; rewrite live_set; lia|];
       split; [apply kept_store_count; assumption|rewrite (inner_store_count zs a b) by exact Hf; apply incl_refl]]).
  - (* no live block *)
    exfalso. pose proof (live_aside zs a b b (hp_blocks h) (c_nodup _ _ _ HC) Hz Hf) as E. unfold live in Hl. lia.
  - destruct (delete_kind c) as [k|] eqn:Ek.
    + rewrite (delete_kind_ok c k Ek).
      apply (delete_inv fuel n (HRef c) a b (b_count b + -1) h zs roots); auto.
      intros c' h' zs' roots' Hl' HI'. apply (IH fuel c' h' zs' roots'); [exact Hl'|lia|exact HI'].
    + left. split; [reflexivity|]. destruct (delete_kind_none c Ek) as (v & -> & Ev). exists v. split; [left; reflexivity|]. split; [cbn [cell_header] in Eh; congruence|exact Ev].
Qed.
