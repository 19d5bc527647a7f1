(** A tactic for the concrete cases shown beside the theorems. *)
From Coq Require Import ZArith List.
From Verif Require Import LimbsSpec.

(** Closes concrete conjunctions by computation. *)
Ltac vmc :=
  cbv zeta; lazymatch goal with
  | |- _ /\ _ => split; [vmc|vmc]
  | |- canon _ => split; [vmc|vm_compute; discriminate]
  | |- limbs _ => repeat (apply Forall_cons; [split; vm_compute; congruence|]); apply Forall_nil
  | |- _ = _ => vm_compute; reflexivity
  | |- _ <> _ => vm_compute; discriminate
  | |- (_ < _)%Z => vm_compute; reflexivity
  | |- (_ <= _)%Z => vm_compute; discriminate
  end.

