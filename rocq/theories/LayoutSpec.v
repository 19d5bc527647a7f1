(** What layouts are expected to satisfy. *)
From Coq Require Import ZArith List Bool.
From Verif Require Import Outcome LayoutModel.
Import ListNotations.
Open Scope Z_scope.

(** A Rust type: its alignment is a power of two, and its size a multiple of the alignment. *)
Definition valid_ty (t : ty) : Prop := (exists k, 0 <= k < 64 /\ ty_align t = 2 ^ k) /\ 0 <= ty_size t /\ (ty_align t | ty_size t).
(** A layout that can be requested. *)
Definition valid_layout (l : layout) : Prop := (exists k, 0 <= k < 64 /\ lay_align l = 2 ^ k) /\ 0 <= lay_size l.

(** The least multiple of [a] that is not below [i]. *)
Definition least_multiple (a i r : Z) : Prop := (a | r) /\ i <= r /\ forall m, (a | m) -> i <= m -> r <= m.

(** [q, q+m) is inside [p, p+n). *)
Definition inside (q m p n : Z) : Prop := p <= q /\ q + m <= p + n.
(** Intervals that do not overlap. *)
Definition apart (p n q m : Z) : Prop := p + n <= q \/ q + m <= p.

(** Blocks in the order of their allocation, from [lo] to [hi]: each is aligned, after the
    previous one, and inside. *)
Fixpoint packed (lo hi : Z) (ls : list layout) (ps : list Z) : Prop :=
  match ls, ps with
  | [], [] => True
  | l :: ls, p :: ps => least_multiple (lay_align l) lo p /\ p + lay_size l <= hi /\ packed (p + lay_size l) hi ls ps
  | _, _ => False
  end.
(** The end of the last one. *)
Fixpoint packed_end (lo : Z) (ls : list layout) (ps : list Z) : Z :=
  match ls, ps with
  | l :: ls, p :: ps => packed_end (p + lay_size l) ls ps
  | _, _ => lo
  end.
