(** C62-C65, C67: reference counting. *)
From Coq Require Import ZArith List Bool Lia Permutation.
From Verif Require Import Outcome VTac BitsetModel BitsetSpec BitsetProofs LayoutModel MemModel MemSpec MemSizes MemProofs MemRun.
Import ListNotations.
Open Scope Z_scope.

(** States of programs that have not written the length of a flexible array or the counter of a
    block. *)
Definition history (os : list op) (fuel : nat) (st : state) : Prop := forallb keeps_headers os = true /\ (length os < fuel)%nat /\ run fuel os init = ROk st.
Lemma history_inv os fuel st : history os fuel st -> SInv st /\ (nblocks st < fuel)%nat.
Proof.
  intros (Hk & Hf & E). pose proof (run_inv os init fuel Hk init_inv ltac:(cbn; lia)) as H. rewrite E in H. destruct H as [HS Hn]. split; [exact HS|]. cbn in Hn. lia.
Qed.

(** For the examples. *)
Definition after (fuel : nat) (os : list op) : state := match run fuel os init with ROk st => st | _ => init end.

(** * C62: safety *)

(** No history accesses memory that is not allocated or is allocated as another type, releases
    a block twice or with another size, or keeps releasing for ever. *)
Theorem C62_no_fault : forall os fuel, forallb keeps_headers os = true -> (length os < fuel)%nat -> run fuel os init <> RFault /\ run fuel os init <> RNoFuel.
Proof.
  intros os fuel Hk Hf. pose proof (run_inv os init fuel Hk init_inv ltac:(cbn; lia)) as H. destruct (run fuel os init); try contradiction; split; discriminate.
Qed.
Print Assumptions C62_no_fault.
(** At any time the allocated blocks are those with a reference, the counters are the numbers of
    references minus 1, and every reference leads to an allocated block of its type. *)
Theorem C62_live_iff_referenced : forall os fuel st, history os fuel st ->
  (forall a, allocated a st <-> (0 < reference_count a st)%nat)
  /\ (forall a b, In (a, b) (hp_blocks (st_heap st)) -> Z.of_nat (reference_count a st) = b_count b + 1)
  /\ (forall x a, In x (references st) -> target x = Some a -> exists b, In (a, b) (hp_blocks (st_heap st)) /\
        match x with HMut k _ | HRef (CTyped k _) => b_kind b = k | HRef (CAny v) => exists t, get_type v = Ok t /\ kind_type (b_kind b) = Some t end).
Proof.
  intros os fuel st H. destruct (history_inv os fuel st H) as [HS _]. split; [|split].
  - intros a. split.
    + intros (b & Hb). destruct (sinv_count st a b HS Hb). lia.
    + intros Hc. destruct (cnt_pos a ((st_handles st ++ st_lost st) ++ inner [] (st_heap st))) as (x & Hx & Ht); [rewrite <- count_cnt; lia|].
      rewrite <- references_inner in Hx. destruct (sinv_refs st x a HS Hx Ht) as (b & Hb & _). exists b. exact Hb.
  - intros a b Hb. apply (sinv_count st a b HS Hb).
  - intros x a Hx Ht. destruct (sinv_refs st x a HS Hx Ht) as (b & Hb & Hk). exists b. split; [exact Hb|]. destruct x as [k t|[k t|v]]; cbn [hkind] in Hk; try exact Hk.
    tgt_in Ht. unfold block_header in Ht. destruct (is_ref v) eqn:Er; [|discriminate].
    unfold get_type. rewrite Er, Hk. unfold any_kind.
    destruct (ref_type_small v) as [E|[E|[E|E]]]; rewrite E; cbn; eexists; split; reflexivity.
Qed.
Print Assumptions C62_live_iff_referenced.
(** A step changes no block that it does not write to: every block that is there afterwards is
    new or has the contents it had, whatever was released. *)
Theorem C62_contents : forall os fuel st o st', history os fuel st -> keeps_headers o = true -> step fuel o st = ROk st' ->
  forall a b', In (a, b') (hp_blocks (st_heap st')) ->
    (exists k len is, o = ONew k len is a)
    \/ (exists b, In (a, b) (hp_blocks (st_heap st)) /\ (written o st <> Some a -> b_kind b' = b_kind b /\ b_len b' = b_len b /\ b_cells b' = b_cells b)).
Proof.
  intros os fuel st o st' H Ho E a b' Hb'. destruct (history_inv os fuel st H) as [HS Hf]. pose proof (step_inv o st fuel Ho HS Hf) as Hst. rewrite E in Hst.
  destruct Hst as (HS' & _ & Hbl). apply (in_assoc a b' _ (c_nodup _ _ _ HS')) in Hb'. destruct (Hbl a b' Hb') as [Hc|(b & Hb & Hs)].
  - left. destruct o; try discriminate. cbn [created] in Hc. injection Hc as ->. eauto.
  - right. exists b. split; [apply assoc_in, Hb|]. intros Hw. destruct (Hs Hw) as (A & B & C & _). auto.
Qed.
Print Assumptions C62_contents.
(** A step panics only for a size that does not fit, an index out of bounds, or a bigint in an
    [Any]. *)
Theorem C62_panics_only : forall os fuel st o, history os fuel st -> keeps_headers o = true -> step fuel o st = RPanic -> may_panic o st.
Proof.
  intros os fuel st o H Ho E. destruct (history_inv os fuel st H) as [HS Hf]. pose proof (step_inv o st fuel Ho HS Hf) as Hst. rewrite E in Hst. exact Hst.
Qed.
Print Assumptions C62_panics_only.
(** Safe code can write the length of a flexible array; reading an item and releasing the
    array are undefined behaviour then. *)
Theorem C62_written_length_refuted :
  (exists os, forall fuel, (3 < fuel)%nat -> run fuel os init = RFault /\ exists o os', os = [o; OSetLen 0 5] ++ os' /\ os' = [OGet 0 2])
  /\ (exists os, (forall fuel, (3 < fuel)%nat -> run fuel os init = RFault) /\ exists o, os = [o; OSetLen 0 5; ODrop 0]).
Proof.
  split.
  - exists [ONew KArray 0 [] 4096; OSetLen 0 5; OGet 0 2]. intros fuel Hf. split; [|do 2 eexists; split; reflexivity].
    do 4 (destruct fuel as [|fuel]; [lia|]). vm_compute. reflexivity.
  - exists [ONew KArray 0 [] 4096; OSetLen 0 5; ODrop 0]. split; [|eexists; reflexivity]. intros fuel Hf.
    do 4 (destruct fuel as [|fuel]; [lia|]). vm_compute. reflexivity.
Qed.
Print Assumptions C62_written_length_refuted.
(** Safe code can also write the counter of a block, through [Any::try_ref]: the block is
    released while another reference to it exists, or never. *)
Theorem C62_written_counter_refuted :
  (exists os st, (forall fuel, (6 < fuel)%nat -> run fuel os init = ROk st) /\ (exists a, (0 < reference_count a st)%nat /\ ~ allocated a st)
     /\ forall fuel, (6 < fuel)%nat -> run fuel (os ++ [OClone 0]) init = RFault)
  /\ (exists os st, (forall fuel, (6 < fuel)%nat -> run fuel os init = ROk st) /\ st_handles st = [] /\ st_lost st = [] /\ hp_counter (st_heap st) = 1).
Proof.
  split.
  - exists [ONew KString 0 [] 4096; OToRef 0; OToAny 0; OClone 0; OSetCount KString 0 0; ODrop 0].
    exists (after 20 [ONew KString 0 [] 4096; OToRef 0; OToAny 0; OClone 0; OSetCount KString 0 0; ODrop 0]).
    split; [|split].
    + intros fuel Hf. do 7 (destruct fuel as [|fuel]; [lia|]). vm_compute. reflexivity.
    + exists 4096. split; [vm_compute; lia|]. intros (b & Hb). vm_compute in Hb. exact Hb.
    + intros fuel Hf. do 7 (destruct fuel as [|fuel]; [lia|]). vm_compute. reflexivity.
  - exists [ONew KString 0 [] 4096; OToRef 0; OToAny 0; OSetCount KString 0 7; ODrop 0].
    exists (after 20 [ONew KString 0 [] 4096; OToRef 0; OToAny 0; OSetCount KString 0 7; ODrop 0]).
    split; [|vm_compute; repeat split].
    intros fuel Hf. do 7 (destruct fuel as [|fuel]; [lia|]). vm_compute. reflexivity.
Qed.
Print Assumptions C62_written_counter_refuted.

(** A string shared by an array and a handle: it survives the array and goes with the handle. *)
Definition sharing : list op :=
  [ONew KString 3 [] 4096; OToRef 0; OClone 0; OToAny 0; ONew KArray 1 [0%nat] 8192; OToRef 0; ODrop 0].
Example C62_case : exists st st', run 20 sharing init = ROk st /\ run 20 (sharing ++ [ODrop 0]) init = ROk st'
  /\ map fst (hp_blocks (st_heap st)) = [4096] /\ hp_blocks (st_heap st') = [] /\ reference_count 4096 st = 1%nat.
Proof. exists (after 20 sharing), (after 20 (sharing ++ [ODrop 0])). vm_compute. repeat split. Qed.

(** * C63: [try_to_mut_ref] *)

(** It gives a mutable reference exactly when the reference is the only one, and otherwise the
    reference itself; nothing else changes. *)
Theorem C63_try_to_mut : forall os fuel st i k a rest, history os fuel st -> pull i (st_handles st) = Some (HRef (CTyped k a), rest) ->
  step fuel (OTryToMut i) st
  = ROk {| st_heap := st_heap st; st_handles := (if (reference_count a st =? 1)%nat then HMut k a else HRef (CTyped k a)) :: rest; st_lost := st_lost st |}.
Proof.
  intros os fuel st i k a rest H Hp. destruct (history_inv os fuel st H) as [HS _]. cbn [step]. rewrite Hp.
  destruct (sinv_in st _ HS (nth_error_In _ _ (pull_nth _ _ _ _ Hp))) as [_ Hx]. destruct (Hx a eq_refl) as (_ & b & Hf & _).
  unfold counter_update. rewrite Hf. cbn [rbind]. rewrite (with_count_same b) by lia. rewrite store_same by exact Hf.
  destruct (sinv_count st a b HS (assoc_in _ _ _ Hf)) as [Hc H0]. unfold try_to_mut.
  destruct (Z.eqb_spec (b_count b) 0), (Nat.eqb_spec (reference_count a st) 1); reflexivity || lia.
Qed.
Print Assumptions C63_try_to_mut.
(** While a mutable reference exists it is the only reference to the block. *)
Theorem C63_exclusive : forall os fuel st k a, history os fuel st -> In (HMut k a) (references st) -> reference_count a st = 1%nat.
Proof.
  intros os fuel st k a H Hin. destruct (history_inv os fuel st H) as [HS _]. destruct (sinv_refs st _ a HS Hin eq_refl) as (b & Hb & _).
  destruct (sinv_count st a b HS Hb) as [Hc _]. rewrite references_inner in Hin.
  pose proof (c_mut _ _ _ HS k a b Hin (in_assoc _ _ _ (c_nodup _ _ _ HS) Hb)). lia.
Qed.
Print Assumptions C63_exclusive.
(** With the arena manager a reference is never made mutable again, even the only one. *)
Theorem C63_arena_refuted : exists os hs hs' k a, arena_run os [] = Some hs /\ hs = [HRef (CTyped k a)]
  /\ arena_step (OTryToMut 0) hs = Some hs' /\ hs' = [HRef (CTyped k a)].
Proof. exists [ONew KString 3 [] 4096; OToRef 0]. do 4 eexists. split; [reflexivity|]. split; [reflexivity|]. split; reflexivity. Qed.
Print Assumptions C63_arena_refuted.
Theorem C63_arena_never : forall hs i hs', arena_step (OTryToMut i) hs = Some hs' -> exists x rest, pull i hs = Some (x, rest) /\ hs' = x :: rest.
Proof.
  intros hs i hs'. cbn [arena_step]. destruct (pull i hs) as [[[k a|[k a|v]] rest]|] eqn:E; try discriminate. intros [= <-]. eauto.
Qed.
Print Assumptions C63_arena_never.
Example C63_case :
  (exists st, run 9 [ONew KString 3 [] 4096; OToRef 0; OTryToMut 0] init = ROk st /\ st_handles st = [HMut KString 4096])
  /\ (exists st, run 9 [ONew KString 3 [] 4096; OToRef 0; OClone 0; OTryToMut 0] init = ROk st
       /\ st_handles st = [HRef (CTyped KString 4096); HRef (CTyped KString 4096)])
  /\ (exists st, run 9 [ONew KString 3 [] 4096; OToRef 0; OClone 0; ODrop 1; OTryToMut 0] init = ROk st /\ st_handles st = [HMut KString 4096]).
Proof.
  split; [|split].
  - exists (after 9 [ONew KString 3 [] 4096; OToRef 0; OTryToMut 0]). vm_compute. split; reflexivity.
  - exists (after 9 [ONew KString 3 [] 4096; OToRef 0; OClone 0; OTryToMut 0]). vm_compute. split; reflexivity.
  - exists (after 9 [ONew KString 3 [] 4096; OToRef 0; OClone 0; ODrop 1; OTryToMut 0]). vm_compute. split; reflexivity.
Qed.

(** * C64: no leaks *)

(** In a program without interior mutability that forgets nothing, the allocated blocks are
    always exactly those that can be reached from its variables. *)
Theorem C64_precise_partial : forall os fuel st, forallb plain_op os = true -> (length os < fuel)%nat -> run fuel os init = ROk st ->
  forall a, allocated a st <-> reachable st a.
Proof.
  intros os fuel st Hp Hf E a. destruct (run_ranked os init fuel st Hp init_inv init_ranked ltac:(cbn; lia) E) as (HS & Hr & Hl).
  split; [apply allocated_reachable; assumption|apply reachable_allocated, HS].
Qed.
Print Assumptions C64_precise_partial.
(** When it has no handle left, nothing is allocated and the manager says so. *)
Theorem C64_nothing_left : forall os fuel st, forallb plain_op os = true -> (length os < fuel)%nat -> run fuel os init = ROk st -> st_handles st = [] ->
  hp_blocks (st_heap st) = [] /\ hp_counter (st_heap st) = 0 /\ hp_size (st_heap st) = 0.
Proof.
  intros os fuel st Hp Hf E Hh. destruct (run_ranked os init fuel st Hp init_inv init_ranked ltac:(cbn; lia) E) as (HS & Hr & Hl).
  assert (Hb : hp_blocks (st_heap st) = []).
  { destruct (hp_blocks (st_heap st)) as [|[a b] l] eqn:Eb; [reflexivity|]. exfalso.
    assert (Ha : allocated a st) by (exists b; rewrite Eb; left; reflexivity). apply (allocated_reachable st HS Hr Hl) in Ha.
    clear - Ha Hh. induction Ha as [x a Hx Ht|]; [rewrite Hh in Hx; destruct Hx|assumption]. }
  split; [exact Hb|]. destruct (c_acc _ _ _ HS) as [H1 H2]. rewrite Hb in H1, H2. cbn in H1, H2. auto.
Qed.
Print Assumptions C64_nothing_left.
(** A program can drop its handles one after another; each drop ends or panics on a bigint. *)
Theorem C64_drop_returns : forall os fuel st i x rest, history os fuel st -> pull i (st_handles st) = Some (x, rest) ->
  step fuel (ODrop i) st = RPanic \/ exists st', step fuel (ODrop i) st = ROk st' /\ st_handles st' = rest /\ st_lost st' = st_lost st.
Proof.
  intros os fuel st i x rest H Hp. destruct (history_inv os fuel st H) as [HS Hf]. cbn [step]. rewrite Hp.
  destruct (drop_step st i x rest fuel rest HS Hf Hp eq_refl) as [[E B]|(h' & E & Hok & K)]; rewrite E; cbn [rbind]; [left; reflexivity|]. right. eexists. split; [reflexivity|]. auto.
Qed.
Print Assumptions C64_drop_returns.
(** With a [Cell] a block can hold itself and is never released; a forgotten handle keeps its
    block. *)
Definition one_cell : ty := {| ty_size := 16; ty_align := 8 |}.
Theorem C64_cycle_refuted : exists os st, run 20 os init = ROk st /\ st_handles st = [] /\ st_lost st = [] /\ hp_counter (st_heap st) = 1
  /\ (exists o1 o2 o3, os = [o1; o2; o3; OToRef 0; OClone 0; OCell 0 0 0; ODrop 0; ODrop 0]).
Proof.
  exists [OPlain 0; OPlain 0; ONew (KFixed one_cell) 0 [0%nat; 0%nat] 4096; OToRef 0; OClone 0; OCell 0 0 0; ODrop 0; ODrop 0].
  exists (after 20 [OPlain 0; OPlain 0; ONew (KFixed one_cell) 0 [0%nat; 0%nat] 4096; OToRef 0; OClone 0; OCell 0 0 0; ODrop 0; ODrop 0]). split; [vm_compute; reflexivity|]. split; [vm_compute; reflexivity|]. split; [vm_compute; reflexivity|]. split; [vm_compute; reflexivity|]. do 3 eexists. reflexivity.
Qed.
Print Assumptions C64_cycle_refuted.
Theorem C64_forget_refuted : exists os st, run 20 os init = ROk st /\ st_handles st = [] /\ hp_counter (st_heap st) = 1.
Proof. exists [ONew KString 3 [] 4096; OForget 0], (after 20 [ONew KString 3 [] 4096; OForget 0]). vm_compute. repeat split. Qed.
Print Assumptions C64_forget_refuted.
(** An object with a shared key, nested in an array, dropped at once. *)
Definition nested : list op :=
  [ONew KString 1 [] 4096; OToRef 0; OClone 0; OToAny 0; ONew KObject 1 [1%nat; 0%nat] 8192; OToRef 0; OToAny 0; ONew KArray 1 [0%nat] 12288].
Example C64_case : exists st st', run 30 nested init = ROk st /\ hp_counter (st_heap st) = 3 /\ reference_count 4096 st = 2%nat
  /\ run 30 (nested ++ [ODrop 0]) init = ROk st' /\ st_heap st' = {| hp_blocks := []; hp_counter := 0; hp_size := 0 |}.
Proof. exists (after 30 nested), (after 30 (nested ++ [ODrop 0])). vm_compute. repeat split. Qed.

(** * C65: dropping [Any]s *)

(** Dropping never panics in a program without bigints in [Any]s. *)
Theorem C65_no_bigint_partial : forall os fuel st o, history os fuel st -> no_any_bigint st -> (exists i, o = ODrop i \/ exists k, o = OTryMove k i) ->
  step fuel o st <> RPanic.
Proof.
  intros os fuel st o H Hno Ho E. apply (C62_panics_only os fuel st o H) in E; destruct Ho as (i & [->|(k & ->)]); auto.
Qed.
Print Assumptions C65_no_bigint_partial.
(** Dropping the last reference to a bigint always panics if it is an [Any]. *)
Theorem C65_last_bigint_panics : forall os fuel st i v rest a, history os fuel st -> pull i (st_handles st) = Some (HRef (CAny v), rest) ->
  any_bigint v = true -> any_block v = Some a -> reference_count a st = 1%nat -> step fuel (ODrop i) st = RPanic.
Proof.
  intros os fuel st i v rest a H Hp Hb Ha Hc. destruct (history_inv os fuel st H) as [HS Hf]. cbn [step]. rewrite Hp. cbn [drop_handle].
  destruct (sinv_in st _ HS (nth_error_In _ _ (pull_nth _ _ _ _ Hp))) as [Hv Hx]. destruct (Hx a Ha) as (_ & b & Hfb & _).
  destruct (sinv_count st a b HS (assoc_in _ _ _ Hfb)) as [Hcb _]. destruct fuel as [|fuel]; [lia|]. cbn [drop_cell cell_header]. rewrite <- any_block_header, Ha.
  unfold counter_update. rewrite Hfb. cbn [rbind]. replace (b_count b) with 0 by lia. cbn [Z.eqb delete_kind].
  destruct (any_kind_type v KBigint JBigint Hv eq_refl (eq_trans (eq_sym (any_bigint_type v)) Hb)) as (_ & Hk & _). unfold any_kind in Hk.
  destruct (ref_type v =? 0); [discriminate|]. destruct (ref_type v =? 1); [discriminate|]. destruct (ref_type v =? 2); [discriminate|]. reflexivity.
Qed.
Print Assumptions C65_last_bigint_panics.
Theorem C65_bigint_refuted : exists os, (forall fuel, (5 < fuel)%nat -> run fuel os init = RPanic) /\ exists o, os = [o; OToRef 0; OToAny 0; ODrop 0].
Proof.
  exists [ONew KBigint 1 [] 4096; OToRef 0; OToAny 0; ODrop 0]. split; [|eexists; reflexivity]. intros fuel Hf. do 6 (destruct fuel as [|fuel]; [lia|]). vm_compute. reflexivity.
Qed.
Print Assumptions C65_bigint_refuted.
(** ... also deep inside another value; as a [Ref] the bigint is released. *)
Theorem C65_inner_bigint_refuted : exists os, forall fuel, (9 < fuel)%nat -> run fuel os init = RPanic /\
  exists o, os = [ONew KBigint 1 [] 4096; OToRef 0; OToAny 0; o; OToRef 0; OToAny 0; ONew KArray 1 [0%nat] 12288; ODrop 0].
Proof.
  exists [ONew KBigint 1 [] 4096; OToRef 0; OToAny 0; ONew KArray 1 [0%nat] 8192; OToRef 0; OToAny 0; ONew KArray 1 [0%nat] 12288; ODrop 0].
  intros fuel Hf. split; [|eexists; reflexivity]. do 10 (destruct fuel as [|fuel]; [lia|]). vm_compute. reflexivity.
Qed.
Print Assumptions C65_inner_bigint_refuted.
Example C65_case :
  (exists st, run 9 [ONew KBigint 1 [] 4096; OToRef 0; ODrop 0] init = ROk st /\ hp_blocks (st_heap st) = [])
  /\ (exists st, run 9 [ONew KBigint 1 [] 4096; OToRef 0; OToAny 0; OTryMove KBigint 0; ODrop 0] init = ROk st /\ hp_blocks (st_heap st) = [])
  /\ (exists st, run 9 [ONew KArray 0 [] 4096; OToRef 0; OToAny 0; ODrop 0] init = ROk st /\ hp_blocks (st_heap st) = []).
Proof.
  split; [|split].
  - exists (after 9 [ONew KBigint 1 [] 4096; OToRef 0; ODrop 0]). vm_compute. split; reflexivity.
  - exists (after 9 [ONew KBigint 1 [] 4096; OToRef 0; OToAny 0; OTryMove KBigint 0; ODrop 0]). vm_compute. split; reflexivity.
  - exists (after 9 [ONew KArray 0 [] 4096; OToRef 0; OToAny 0; ODrop 0]). vm_compute. split; reflexivity.
Qed.

(** * C67: the accounts of the manager *)

(** At any time the counter is the number of allocated blocks, and the size the sum of their
    sizes, each of which is the size of the layout for its type and length. *)
Theorem C67_accounts : forall os fuel st, history os fuel st ->
  hp_counter (st_heap st) = Z.of_nat (length (hp_blocks (st_heap st)))
  /\ hp_size (st_heap st) = fold_right Z.add 0 (map (fun ab => b_size (snd ab)) (hp_blocks (st_heap st)))
  /\ NoDup (map fst (hp_blocks (st_heap st)))
  /\ forall a b, In (a, b) (hp_blocks (st_heap st)) -> 0 <= b_size b /\ (rust_kind (b_kind b) -> b_size b = bytes (b_kind b) (b_len b)).
Proof.
  intros os fuel st H. destruct (history_inv os fuel st H) as [HS _]. destruct (c_acc _ _ _ HS) as [H1 H2]. split; [exact H1|]. split; [|split].
  - rewrite H2. clear. induction (hp_blocks (st_heap st)) as [|[a b] l IH]; cbn [total_size fold_right map snd]; [reflexivity|]. f_equal. exact IH.
  - exact (c_nodup _ _ _ HS).
  - intros a b Hb. destruct (c_block _ _ _ HS a b (in_assoc _ _ _ (c_nodup _ _ _ HS) Hb)) as (Hs & Hc & _). split; [apply (alloc_size_nonneg _ _ _ _ Hc Hs)|].
    intros Hk. rewrite (alloc_size_bytes _ _ Hk (cells_len _ _ _ Hc)) in Hs. destruct (_ <? _); [congruence|discriminate].
Qed.
Print Assumptions C67_accounts.
Example C67_case : exists st, run 30 nested init = ROk st /\ hp_counter (st_heap st) = 3
  /\ map (fun ab => b_size (snd ab)) (hp_blocks (st_heap st)) = [32; 40; 26] /\ hp_size (st_heap st) = 98.
Proof. exists (after 30 nested). vm_compute. repeat split. Qed.
