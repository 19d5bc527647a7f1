(** Property C78: the reference counter as a machine integer. *)
From Coq Require Import ZArith List Bool Lia.
From Coq Require Import ZifyBool ZifyNat.
From Verif Require Import CounterModel.
Import ListNotations.
Open Scope Z_scope.

Lemma wrap_fits z : - 2 ^ 63 <= z < 2 ^ 63 -> wrap z = z.
Proof. intros H. unfold wrap. rewrite Z.mod_small by lia. lia. Qed.
Lemma wrap_add z n : wrap (wrap z + n) = wrap (z + n).
Proof.
  unfold wrap. f_equal. replace ((z + 2 ^ 63) mod 2 ^ 64 - 2 ^ 63 + n + 2 ^ 63) with ((z + 2 ^ 63) mod 2 ^ 64 + n) by lia.
  rewrite Z.add_mod_idemp_l by lia. f_equal. lia.
Qed.

(** How many references a program forgets, and how many it makes. *)
Definition clones (os : list op) : Z := Z.of_nat (List.length (filter (fun o => match o with Clone => true | _ => false end) os)).

(** The counter is the number of references, forgotten ones included, minus one; the block is
    deleted when there are none. *)
Definition counted (lost : Z) (s : state) : Prop :=
  0 <= lost /\ 0 <= refs s
  /\ (if deleted s then refs s = 0 /\ lost = 0 else 1 <= refs s + lost /\ counter s = refs s + lost - 1).

Lemma clones_cons o os : clones (o :: os) = clones os + match o with Clone => 1 | _ => 0 end.
Proof. unfold clones. destruct o; cbn [filter List.length]; lia. Qed.
Lemma clones_nonneg os : 0 <= clones os.
Proof. unfold clones. lia. Qed.

Lemma run_bounded k : forall os lost s, counted lost s -> (deleted s = false -> refs s + lost + clones os <= 2 ^ 63) ->
  (exists s' lost', run k os s = Done s' /\ counted lost' s') \/ run k os s = Stuck.
Proof.
  assert (B : 2 ^ 63 = 9223372036854775808) by reflexivity.
  induction os as [|o os IH]; intros lost s Hc Hb; [left; exists s, lost; split; [reflexivity|exact Hc]|].
  cbn [run]. unfold step. destruct (Z.leb_spec (refs s) 0) as [H0|H0]; [right; reflexivity|].
  destruct s as [c r d]. unfold counted in *. cbn [counter refs deleted] in *. rewrite clones_cons in Hb.
  destruct d; [lia|]. specialize (Hb eq_refl). pose proof (clones_nonneg os).
  assert (U : forall i, - 2 ^ 63 <= c + i < 2 ^ 63 -> update k c i = Some (c + i)).
  { intros i Hi. unfold update. destruct k; rewrite ?wrap_fits by exact Hi; try reflexivity.
    unfold fits. destruct (Z.leb_spec (- 2 ^ 63) (c + i)), (Z.ltb_spec (c + i) (2 ^ 63)); cbn; try reflexivity; lia. }
  destruct o.
  - rewrite U by lia. apply (IH lost); cbn [counter refs deleted]; [lia|intros _; lia].
  - apply (IH (lost + 1)); cbn [counter refs deleted]; [lia|intros _; lia].
  - rewrite U by lia. destruct (Z.eqb_spec c 0) as [->|Hn]; apply (IH lost); cbn [counter refs deleted]; try lia; discriminate.
  - apply (IH lost); cbn [counter refs deleted]; [lia|intros _; lia].
  - destruct (Z.eqb_spec c 0) as [->|Hn].
    + destruct (Z.eqb_spec r 1) as [->|Hr].
      * apply (IH lost); cbn [counter refs deleted]; [lia|intros _; lia].
      * exfalso. lia.
    + apply (IH lost); cbn [counter refs deleted]; [lia|intros _; lia].
Qed.

(** Every program with fewer than 2^63 clones is safe with every counter: it never uses deleted
    memory and writes only through the last reference ([Stuck]: it uses a reference that it
    does not have, which safe code cannot). *)
Theorem C78_bounded_partial : forall k os, clones os < 2 ^ 63 -> run k os start <> Fault.
Proof.
  intros k os H. destruct (run_bounded k os 0 start) as [(s & lost & E & _)|E]; try (rewrite E; discriminate).
  - unfold counted, start. cbn. lia.
  - intros _. cbn [refs start]. lia.
Qed.
Print Assumptions C78_bounded_partial.

(** The checked counter is safe for every program: a clone too many panics. *)
Theorem C78_checked : forall os, run CellChecked os start <> Fault.
Proof.
  assert (B : 2 ^ 63 = 9223372036854775808) by reflexivity.
  assert (G : forall os lost s, counted lost s -> counter s < 2 ^ 63 -> run CellChecked os s <> Fault).
  { induction os as [|o os IH]; intros lost s Hc Hm; [discriminate|].
    cbn [run]. unfold step. destruct (Z.leb_spec (refs s) 0) as [H0|H0]; [discriminate|].
    destruct s as [c r d]. unfold counted in *. cbn [counter refs deleted] in *.
    destruct d; [lia|]. unfold update.
    destruct o.
    - destruct (fits (c + 1)) eqn:F; [unfold fits in F|]; apply (IH lost); cbn [counter refs deleted]; lia.
    - apply (IH (lost + 1)); cbn [counter refs deleted]; lia.
    - destruct (fits (c + -1)) eqn:F.
      + destruct (Z.eqb_spec c 0) as [->|Hn]; apply (IH lost); cbn [counter refs deleted]; lia.
      + exfalso. unfold fits in F. lia.
    - apply (IH lost); cbn [counter refs deleted]; lia.
    - destruct (Z.eqb_spec c 0) as [->|Hn].
      + destruct (Z.eqb_spec r 1) as [->|Hr]; [apply (IH lost); cbn [counter refs deleted]; lia|]. exfalso. lia.
      + apply (IH lost); cbn [counter refs deleted]; lia. }
  intros os. apply (G os 0); unfold counted, start; cbn; lia.
Qed.
Print Assumptions C78_checked.

(** [n] times: clone and forget. *)
Definition leak (n : nat) : list op := flat_map (fun _ => [Clone; Forget]) (repeat tt n).
Lemma run_leak k : k <> CellChecked -> forall n s, 1 <= refs s -> deleted s = false -> forall os,
  wrap (counter s) = counter s ->
  run k (leak n ++ os) s = run k os {| counter := wrap (counter s + Z.of_nat n); refs := refs s; deleted := false |}.
Proof.
  intros Hk. induction n as [|n IH]; intros [c r d] Hr Hd os Hw; cbn [counter refs deleted] in *; subst d.
  - cbn [leak repeat flat_map app Z.of_nat]. rewrite Z.add_0_r, Hw. reflexivity.
  - change (leak (S n)) with ([Clone; Forget] ++ leak n). cbn [app run]. unfold step. cbn [counter refs deleted].
    destruct (Z.leb_spec r 0); [lia|].
    assert (U : update k c 1 = Some (wrap (c + 1))) by (destruct k; cbn; congruence). rewrite U.
    cbn [counter refs deleted]. destruct (Z.leb_spec (r + 1) 0); [lia|].
    replace (r + 1 - 1) with r by lia. rewrite IH; cbn [counter refs deleted]; try lia; try reflexivity.
    + f_equal. f_equal. rewrite wrap_add. f_equal. lia.
    + pose proof (wrap_add (c + 1) 0) as W. rewrite !Z.add_0_r in W. exact W.
Qed.

(** The other two are not safe: after 2^64 clones of which all but one are forgotten, dropping
    one reference deletes the block although there is another one, and reading through that
    is a use of deleted memory; writing through it before hits a shared block. *)
Theorem C78_wrap_refuted : forall k, k <> CellChecked -> exists os,
  clones os = 2 ^ 64 /\ run k (os ++ [Drop; Use]) start = Fault /\ run k (os ++ [Write]) start = Fault.
Proof.
  intros k Hk. destruct (Z_of_nat_complete (2 ^ 64 - 1)) as [n Hn]; [lia|]. exists (Clone :: leak n). split.
  - rewrite clones_cons. assert (L : forall m, clones (leak m) = Z.of_nat m).
    { clear. induction m as [|m IH]; [reflexivity|]. change (leak (S m)) with (Clone :: Forget :: leak m). rewrite !clones_cons, IH. lia. }
    rewrite L, <- Hn. reflexivity.
  - assert (E : forall os, run k ((Clone :: leak n) ++ os) start = run k os {| counter := 0; refs := 2; deleted := false |}).
    { intros os. change ((Clone :: leak n) ++ os) with (Clone :: (leak n ++ os)).
      assert (U : update k 0 1 = Some 1) by (destruct k; [reflexivity|congruence|reflexivity]).
      assert (S1 : step k Clone start = Done {| counter := 1; refs := 2; deleted := false |}).
      { unfold step. cbn [counter refs deleted start]. rewrite U. reflexivity. }
      cbn [run]. rewrite S1. rewrite run_leak; [|exact Hk|cbn; lia|reflexivity|vm_compute; reflexivity].
      cbn [counter refs deleted]. rewrite <- Hn. change (wrap (1 + (2 ^ 64 - 1))) with 0. reflexivity. }
    rewrite !E. destruct k; [split; reflexivity|congruence|split; reflexivity].
Qed.
Print Assumptions C78_wrap_refuted.

Example C78_case :
  run Atomic [Clone; Use; Drop; Write; Clone; Forget; Write; Drop] start = Done {| counter := 0; refs := 0; deleted := false |}
  /\ run CellUnchecked [Clone; Drop; Drop] start = Done {| counter := -1; refs := 0; deleted := true |}
  /\ step CellChecked Clone {| counter := 2 ^ 63 - 1; refs := 1; deleted := false |} = Panicked {| counter := 2 ^ 63 - 1; refs := 1; deleted := false |}
  /\ step Atomic Clone {| counter := 2 ^ 63 - 1; refs := 1; deleted := false |} = Done {| counter := - 2 ^ 63; refs := 2; deleted := false |}.
Proof. vm_compute. auto. Qed.
