(** C75: what orders the accesses of several threads to one block. *)
From Coq Require Import ZArith List Bool Lia Relations.
From Verif Require Import VTac ThreadModel ThreadSpec ThreadProofs OrderModel OrderSpec OrderProofs.
Import ListNotations.
Open Scope nat_scope.

Lemma ordered_no_race o tr : ordered o tr -> ~ race o tr.
Proof. intros H (p & q & i & e & j & f & Hlt & Hp & Hq & Hc & Hn). exact (Hn (H _ _ _ _ _ _ Hlt Hp Hq Hc)). Qed.

(** Without orders between the updates and without handing on references, nothing orders two
    threads. *)
Lemma step_no_give i op w w' evs : (forall j, op <> Act (Give j)) -> step i op w = Some (w', evs) -> Forall (fun x => forall j, snd x <> EGive j) evs.
Proof.
  intros Hn H. destruct op as [a| |]; cbn [step] in H.
  - destruct (act HAtomic i a w) as [w1| |]; [|discriminate|injection H as <- <-; constructor].
    injection H as <- <-. destruct a; try constructor; cbn; try discriminate; try constructor.
    + destruct (w_released w1); repeat constructor; discriminate.
    + exfalso. exact (Hn _ eq_refl).
  - destruct (nth_error (w_threads w) i); [|injection H as <- <-; constructor]. destruct (_ || _); [destruct (w_released w); [discriminate|]|];
      injection H as <- <-; repeat constructor; discriminate.
  - destruct (nth_error (w_threads w) i) as [t|]; [|injection H as <- <-; constructor]. destruct (t_mut t); [destruct (w_released w); [discriminate|]|];
      injection H as <- <-; repeat constructor; discriminate.
Qed.
Lemma run_no_give s : no_give s -> forall w w' tr, run s w = Some (w', tr) -> Forall (fun x => forall j, snd x <> EGive j) tr.
Proof.
  induction 1 as [|[i op] s Hn _ IH]; intros w w' tr H; cbn [run] in H; [injection H as <- <-; constructor|].
  destruct (step i op w) as [[w1 e1]|] eqn:E1; [|discriminate]. destruct (run s w1) as [[w2 e2]|] eqn:E2; [|discriminate].
  injection H as <- <-. apply Forall_app. split; [exact (step_no_give _ _ _ _ _ Hn E1)|exact (IH _ _ _ E2)].
Qed.
Lemma relaxed_thread tr : Forall (fun x => forall j, snd x <> EGive j) tr -> forall p q, before Relaxed tr p q ->
  exists i e f, nth_error tr p = Some (i, e) /\ nth_error tr q = Some (i, f).
Proof.
  intros Hn p q. induction 1 as [p q (i & e & j & f & H1 & H2 & _ & H)|p q r _ (i & e & f & H1 & H2) _ (j & e' & f' & H3 & H4)].
  - destruct H as [->|[->|[[=] _]]]; [exists j, e, f; auto|]. rewrite Forall_forall in Hn. destruct (Hn _ (nth_error_In _ _ H1) j eq_refl).
  - rewrite H2 in H3. injection H3 as <- <-. exists i, e, f'. auto.
Qed.

(** The counter of the code orders nothing: whenever references are not handed on, and a block
    that two threads touched is released, this is a data race, for every number of threads and
    every schedule. *)
Theorem C75_relaxed_refuted : forall refs s w tr, no_give s -> run s (start refs) = Some (w, tr) ->
  forall p q i e j, p < q -> nth_error tr p = Some (i, e) -> nth_error tr q = Some (j, EFree) -> i <> j -> race counter_ordering tr.
Proof.
  intros refs s w tr Hg Hr p q i e j Hlt Hp Hq Hne. pose proof (run_no_give s Hg _ _ _ Hr) as Hn.
  exists p, q, i, e, j, EFree. split; [exact Hlt|]. split; [exact Hp|]. split; [exact Hq|]. split.
  - rewrite Forall_forall in Hn. specialize (Hn _ (nth_error_In _ _ Hp)). cbn in Hn. destruct e; cbn; auto. destruct (Hn to eq_refl).
  - intros H. destruct (relaxed_thread tr Hn _ _ H) as (k & e' & f & H1 & H2). congruence.
Qed.
Print Assumptions C75_relaxed_refuted.
(** The shortest one: a thread reads the object and drops its reference, another drops the
    last one. *)
Example C75_relaxed_case : exists w tr, run [(0, Use); (0, Act (Start Release)); (1, Act (Start Release))] (start [1; 1]) = Some (w, tr)
  /\ nth_error tr 0 = Some (0, EUse) /\ nth_error tr 3 = Some (1, EFree) /\ race counter_ordering tr.
Proof.
  set (s := [(0, Use); (0, Act (Start Release)); (1, Act (Start Release))]).
  assert (Hg : no_give s) by (repeat constructor; discriminate).
  assert (E : exists w, run s (start [1; 1]) = Some (w, [(0, EUse); (0, EUpdate); (1, EUpdate); (1, EFree)])) by (eexists; vm_compute; reflexivity).
  destruct E as [w E]. exists w. eexists. split; [exact E|]. split; [reflexivity|]. split; [reflexivity|].
  apply (C75_relaxed_refuted _ _ _ _ Hg E 0 3 0 EUse 1); [lia|reflexivity|reflexivity|discriminate].
Qed.
(** Writing through a mutable reference races as well. *)
Theorem C75_write_refuted : exists refs s w tr, run s (start refs) = Some (w, tr) /\ w_released w = false /\ race counter_ordering tr.
Proof.
  exists [1; 1], [(0, Use); (0, Act (Start Release)); (1, Act (Start Read)); (1, Write)]. eexists. eexists.
  split; [vm_compute; reflexivity|]. split; [reflexivity|].
  exists 0, 3, 0, EUse, 1, EWrite. split; [lia|]. split; [reflexivity|]. split; [reflexivity|]. split; [exact I|].
  intros H. apply relaxed_thread in H as (i & e & f & H1 & H2); [cbn in H1, H2; congruence|]. repeat constructor; discriminate.
Qed.
Print Assumptions C75_write_refuted.

(** With updates that order (acquire and release), every access to the block is ordered with
    every conflicting one, for every number of threads and every schedule. *)
Theorem C75_acquire_release : forall refs s, 1 <= list_sum refs ->
  exists w tr, run s (start refs) = Some (w, tr) /\ ordered AcqRel tr.
Proof.
  intros refs s H. destruct (run_no_fault s _ (start_good _ H)) as (w & tr & E & _). exists w, tr. split; [exact E|].
  set (common := fun (tr : trace) (p : nat) => exists q i, nth_error tr q = Some (i, EUpdate) /\ (p = q \/ before AcqRel tr p q)).
  assert (I : inv AcqRel common w ([] ++ tr)); [|exact (v_ordered _ _ _ _ I)].
  refine (run_inv AcqRel common (fun _ => True) _ _ _ s _ _ _ (start_inv _ _ refs H) _ _ E).
  - intros tr0 l p (q & i & H1 & H2). exists q, i. split; [rewrite nth_error_app1; [exact H1|apply nth_error_Some; congruence]|].
    destruct H2; [auto|right; apply before_ext; assumption].
  - intros tr0 i p _ Hp. exists (List.length tr0), i. split; [rewrite nth_error_app2, Nat.sub_diag by lia; reflexivity|].
    destruct Hp as [Hp|Hp]; [right; apply knows_next, Hp|left; exact Hp].
  - intros tr0 i p _ (q & k & H1 & H2). exists (List.length tr0), i, EUpdate. split; [rewrite nth_error_app2, Nat.sub_diag by lia; reflexivity|].
    split; [|auto]. right. assert (Hq : q < List.length tr0) by (apply nth_error_Some; congruence).
    assert (Ed : before AcqRel (tr0 ++ [(i, EUpdate)]) q (List.length tr0)).
    { apply t_step. exists k, EUpdate, i, EUpdate. rewrite nth_error_app1 by exact Hq. rewrite nth_error_app2, Nat.sub_diag by lia. auto 10. }
    destruct H2 as [->|H2]; [exact Ed|]. eapply t_trans; [apply before_ext, H2|exact Ed].
  - apply Forall_forall. intros [k [[]| |]] _; exact I.
Qed.
Print Assumptions C75_acquire_release.

(** The counter of the code is enough if one thread makes all clones, drops and conversions, and
    the others use their references and hand them on.  Missing: the other schedules, where
    it is not. *)
Theorem C75_one_counter_partial : forall refs s d, 1 <= list_sum refs -> counted_by d s ->
  exists w tr, run s (start refs) = Some (w, tr) /\ ordered counter_ordering tr.
Proof.
  intros refs s d H Hd. destruct (run_no_fault s _ (start_good _ H)) as (w & tr & E & _). exists w, tr. split; [exact E|].
  assert (I : inv counter_ordering (fun tr p => knows counter_ordering tr d p) w ([] ++ tr)); [|exact (v_ordered _ _ _ _ I)].
  refine (run_inv counter_ordering _ (fun i => i = d) _ _ _ s Hd _ _ (start_inv _ _ refs H) _ _ E).
  - intros tr0 l p. apply knows_ext.
  - intros tr0 i p -> [Hp| ->]; [apply knows_ext, Hp|]. eapply knows_self. rewrite nth_error_app2, Nat.sub_diag by lia. reflexivity.
  - intros tr0 i p -> Hp. apply knows_ext, Hp.
Qed.
Print Assumptions C75_one_counter_partial.
(** A thread lends two references, gets them back, and releases the block. *)
Example C75_case :
  let s := [(0, Act (Start AddRef)); (0, Act (Give 1)); (1, Use); (1, Act (Give 2)); (2, Use); (2, Act (Give 0));
            (0, Act (Start Release)); (0, Act (Start Read)); (0, Write); (0, Act ToRef); (0, Act (Start Release))] in
  counted_by 0 s /\ exists w tr, run s (start [1; 0; 0]) = Some (w, tr) /\ w_released w = true
   /\ map snd tr = [EUpdate; EGive 1; EUse; EGive 2; EUse; EGive 0; EUpdate; EUpdate; EWrite; EUpdate; EFree].
Proof.
  split; [repeat constructor|]. eexists. eexists. split; [vm_compute; reflexivity|]. split; reflexivity.
Qed.
