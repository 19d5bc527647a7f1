(** C72: references held by several threads. *)
From Coq Require Import ZArith List Bool Lia.
From Verif Require Import ThreadModel ThreadSpec ThreadProofs.
Import ListNotations.
Open Scope Z_scope.

(** Which references the compiler lets cross threads: only [Any] of the global manager, whose
    counter is not atomic. *)
Theorem C72_any_crosses_threads : forall m,
  (send (any_ty (dealloc_ty m)) = true <-> m = MGlobal) /\
  (sync (any_ty (dealloc_ty m)) = true <-> m = MGlobal) /\
  header_of MGlobal = HCell /\
  send ref_ty = false /\ sync ref_ty = false.
Proof. intros []; cbn; repeat split; intros; congruence. Qed.
Print Assumptions C72_any_crosses_threads.

(** With that counter a block is released while a thread holds a reference to it, and the
    next use of this reference is an access to released memory. *)
Theorem C72_global_refuted : exists refs s w i,
  send (any_ty (dealloc_ty MGlobal)) = true /\
  schedule (header_of MGlobal) s (start refs) = Some w /\
  w_released w = true /\ (0 < owners w)%nat /\
  act (header_of MGlobal) i (Start AddRef) w = Fault.
Proof.
  exists [1; 1]%nat,
    [(0, Start AddRef); (1, Start AddRef); (0, Finish); (1, Finish);
     (0, Start Release); (0, Finish); (0, Start Release); (0, Finish);
     (1, Start Release); (1, Finish)]%nat,
    {| w_count := -1; w_released := true;
       w_threads := [{| t_refs := 0; t_mut := false; t_pending := Idle |}; {| t_refs := 1; t_mut := false; t_pending := Idle |}] |},
    1%nat.
  repeat split. unfold owners; cbn. lia.
Qed.
Print Assumptions C72_global_refuted.

(** It can also be never released though every thread dropped its references. *)
Theorem C72_global_leak_refuted : exists refs s w,
  schedule (header_of MGlobal) s (start refs) = Some w /\
  owners w = 0%nat /\ w_released w = false /\ (forall t, In t (w_threads w) -> t_pending t = Idle).
Proof.
  exists [1; 1]%nat, [(0, Start Release); (1, Start Release); (0, Finish); (1, Finish)]%nat,
    {| w_count := 0; w_released := false;
       w_threads := [{| t_refs := 0; t_mut := false; t_pending := Idle |}; {| t_refs := 0; t_mut := false; t_pending := Idle |}] |}.
  repeat split. cbn. intros t [<-|[<-|[]]]; reflexivity.
Qed.
Print Assumptions C72_global_leak_refuted.

(** The atomic counter is right for every number of threads and every schedule: no access after
    the release, release with the last reference, and mutable references are exclusive. *)
Theorem C72_atomic : forall refs s, (1 <= list_sum refs)%nat ->
  exists w, schedule HAtomic s (start refs) = Some w /\ precise w /\ exclusive w.
Proof.
  intros refs s H. destruct (schedule_atomic s _ (start_good _ H)) as (w & E & G).
  exists w. split; [exact E|]. split; [|exact (g_excl _ G)].
  split; [exact (g_dead _ G)|]. intros Ho. destruct (w_released w) eqn:R; [reflexivity|].
  destruct (g_live _ G R). lia.
Qed.
Print Assumptions C72_atomic.

(** The other counter is right when no thread runs between the two halves of an update of
    another, in particular with one thread.  Missing: the other schedules, where it is wrong. *)
Theorem C72_cell_partial : forall refs s, (1 <= list_sum refs)%nat ->
  exists w, schedule HCell (undisturbed s) (start refs) = Some w /\ precise w /\ exclusive w.
Proof.
  intros refs s H. rewrite undisturbed_atomic by (apply start_good; assumption).
  apply C72_atomic. assumption.
Qed.
Print Assumptions C72_cell_partial.

(** Three threads; one makes a copy and gives it away, all drop; the last one becomes the owner. *)
Example C72_case :
  exists w, schedule HAtomic [(0, Start AddRef); (0, Give 2); (1, Start Release); (0, Start Release); (2, Start Read)]%nat (start [1; 1; 0]%nat) = Some w
  /\ owners w = 1%nat /\ map t_mut (w_threads w) = [false; false; true] /\ w_released w = false.
Proof. eexists. repeat split. Qed.
Example C72_case_cell :
  exists w, schedule HCell (undisturbed [(0, Start AddRef); (1, Start Release); (0, Start Release); (0, Start Release)]%nat) (start [1; 1]%nat) = Some w
  /\ w_released w = true.
Proof. eexists. repeat split. Qed.
