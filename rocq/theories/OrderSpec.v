(** Happens-before and data races of a trace. *)
From Coq Require Import List Bool Lia Relations.
From Verif Require Import ThreadModel OrderModel.
Import ListNotations.
Open Scope nat_scope.

(** Position [p] of the trace directly orders the later position [q]: both are of one thread; or
    [p] hands a reference to the thread of [q]; or both update the counter and the updates are
    ordering (every update reads the one before it). *)
Definition edge (o : ordering) (tr : trace) (p q : nat) : Prop :=
  exists i e j f, nth_error tr p = Some (i, e) /\ nth_error tr q = Some (j, f) /\ p < q
    /\ (i = j \/ e = EGive j \/ (o = AcqRel /\ e = EUpdate /\ f = EUpdate)).
Definition before (o : ordering) (tr : trace) : nat -> nat -> Prop := clos_trans nat (edge o tr).

(** Accesses that must be ordered: those of the object of which one is a write, and the release
    of the memory with everything that touches the block. *)
Definition conflict (e f : event) : Prop :=
  match e, f with
  | EGive _, _ | _, EGive _ => False
  | EFree, _ | _, EFree => True
  | EWrite, (EUse | EWrite) | EUse, EWrite => True
  | _, _ => False
  end.
(** Two conflicting accesses that nothing orders: undefined behaviour. *)
Definition race (o : ordering) (tr : trace) : Prop :=
  exists p q i e j f, p < q /\ nth_error tr p = Some (i, e) /\ nth_error tr q = Some (j, f) /\ conflict e f /\ ~ before o tr p q.
(** Every access is ordered with every conflicting one. *)
Definition ordered (o : ordering) (tr : trace) : Prop :=
  forall p q i e j f, p < q -> nth_error tr p = Some (i, e) -> nth_error tr q = Some (j, f) -> conflict e f -> before o tr p q.

(** Only the thread [d] clones, drops and converts references; the others use theirs and hand
    them on. *)
Definition counted_by (d : nat) (s : list (nat * op)) : Prop :=
  Forall (fun io => match snd io with Act (Start _) => fst io = d | _ => True end) s.
(** Nobody hands a reference to another thread. *)
Definition no_give (s : list (nat * op)) : Prop := Forall (fun io => forall j, snd io <> Act (Give j)) s.
