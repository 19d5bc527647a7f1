(** Property C82, and C50 once more: what paths mean to a file system, where a component
    [.] stays where it is, and what [split] returns. *)
From Coq Require Import ZArith List Bool String Lia.
From Verif Require Import Outcome VTac RangeMapSpec TokenizerModel TokenizerSpec ValueModel ParserModel ParserSpec PathProofs ParserModules Prop_Parser.
Import ListNotations.
Open Scope Z_scope.

(** A place, seen from the directory where a walk starts: so many directories up, then down
    through these names (the last one first). *)
Definition here : nat * list (list Z) := (O, []).
Definition walk (pos : nat * list (list Z)) (c : list Z) : nat * list (list Z) :=
  let '(up, names) := pos in
  if list_eq_dec Z.eq_dec c [] then pos
  else if list_eq_dec Z.eq_dec c (txt ".") then pos
  else if list_eq_dec Z.eq_dec c (txt "..") then match names with [] => (S up, []) | _ :: r => (up, r) end
  else (up, c :: names).
Definition place (p : list Z) : nat * list (list Z) := fold_left walk (split_slash p) here.

Definition plain_name (x : list Z) : Prop := x <> [] /\ x <> txt "." /\ x <> txt "..".
Lemma walk_norm l : ~ In (txt ".") l -> forall k names, Forall plain_name names ->
  norm_rev (names ++ repeat dotdot k) l = (let '(k', names') := fold_left walk l (k, names) in names' ++ repeat dotdot k') /\
  Forall plain_name (snd (fold_left walk l (k, names))).
Proof.
  induction l as [|c l IH]; intros Hl k names Hn; [cbn; auto|].
  assert (Hc : c <> txt ".") by (intros ->; apply Hl; left; reflexivity).
  assert (Hl' : ~ In (txt ".") l) by (intros H; apply Hl; right; exact H).
  cbn [fold_left]. change (norm_rev (names ++ repeat dotdot k) (c :: l)) with (norm_rev (nstep (names ++ repeat dotdot k) c) l).
  unfold walk at 2 4. destruct (list_eq_dec Z.eq_dec c []) as [->|N1]; [rewrite nstep_empty; apply IH; assumption|].
  destruct (list_eq_dec Z.eq_dec c (txt ".")) as [|_]; [contradiction|].
  destruct (list_eq_dec Z.eq_dec c (txt "..")) as [->|N2].
  - destruct names as [|x names]; cbn [app].
    + change (txt "..") with dotdot. rewrite nstep_up; [|destruct k; [left|right; eexists]; reflexivity].
      change (dotdot :: repeat dotdot k) with ([] ++ repeat dotdot (S k)). apply IH; assumption.
    + inversion Hn as [|? ? (X1 & X2 & X3) Hn']; subst. change (txt "..") with dotdot in *. rewrite nstep_up_name by exact X3. apply IH; assumption.
  - rewrite nstep_name by (try assumption; exact N2). change (c :: names ++ repeat dotdot k) with ((c :: names) ++ repeat dotdot k).
    apply IH; [assumption|]. constructor; [split; [|split]; assumption|exact Hn].
Qed.
Lemma walk_ups k : forall j, fold_left walk (repeat dotdot k) (j, []) = ((k + j)%nat, []).
Proof. induction k as [|k IH]; intros j; [reflexivity|]. cbn [repeat fold_left]. change (walk (j, []) dotdot) with (S j, @nil (list Z)). rewrite IH. f_equal. lia. Qed.
Lemma walk_names l : Forall plain_name l -> forall k names, fold_left walk l (k, names) = (k, rev l ++ names).
Proof.
  induction 1 as [|x l (X1 & X2 & X3) Hl IH]; intros k names; [reflexivity|]. cbn [fold_left]. unfold walk at 2.
  destruct (list_eq_dec Z.eq_dec x []); [contradiction|]. destruct (list_eq_dec Z.eq_dec x (txt ".")); [contradiction|].
  destruct (list_eq_dec Z.eq_dec x (txt "..")); [contradiction|]. rewrite IH. cbn [rev]. rewrite <- app_assoc. reflexivity.
Qed.

(** * C82: places *)

(** Without [.], a path and its normal form lead to the same place, from wherever the walk starts. *)
Theorem C82_place_partial : forall p, ~ In (txt ".") (split_slash p) -> place (normalize p) = place p.
Proof.
  intros p Hp. unfold place.
  destruct (walk_norm (split_slash p) Hp O [] (Forall_nil _)) as [W1 W2]. cbn [app repeat] in W1. fold here in W1, W2.
  destruct (fold_left walk (split_slash p) here) as [k names]. cbn [snd] in W2.
  assert (Hn : norm (split_slash p) = repeat dotdot k ++ rev names).
  { unfold norm. rewrite W1, rev_app_distr, rev_repeat. reflexivity. }
  assert (Hw : fold_left walk (norm (split_slash p)) here = (k, names)).
  { rewrite Hn, fold_left_app. unfold here. rewrite walk_ups, Nat.add_0_r, walk_names by (apply Forall_rev, W2). rewrite rev_involutive, app_nil_r. reflexivity. }
  destruct (split_normalize p) as [[E1 ->]| ->]; [|exact Hw]. rewrite E1 in Hw. exact Hw.
Qed.
Print Assumptions C82_place_partial.
Example C82_place_case :
  place (txt "a//b/../../../c/") = (1%nat, [txt "c"]) /\ ~ In (txt ".") (split_slash (txt "a//b/../../../c/")) /\
  place (txt "./a/./b") = (O, [txt "b"; txt "a"]).
Proof. split; [vmc|]. split; [|vmc]. vm_compute. intuition discriminate. Qed.

(** With [.] they do not: [.] is taken for a name, and a following [..] only undoes the [.]. *)
Theorem C82_dot_refuted : exists p, place p = here /\ place (normalize p) = (O, [txt "a"]).
Proof. exists (txt "a/./.."). split; vm_compute; reflexivity. Qed.
Print Assumptions C82_dot_refuted.

(** * C50: what [split] returns: everything up to the last slash, and the rest. *)
Lemma rsplit_spec p : match rsplit_once p with Some (d, f) => p = d ++ 47 :: f /\ ~ In 47 f | None => ~ In 47 p end.
Proof.
  induction p as [|c p IH]; cbn [rsplit_once]; [intros []|].
  destruct (rsplit_once p) as [[d f]|].
  - destruct IH as [-> H]. split; [reflexivity|exact H].
  - destruct (Z.eqb_spec c 47) as [->|N]; [split; [reflexivity|exact IH]|]. intros [H|H]; [congruence|exact (IH H)].
Qed.
Theorem C50_split : forall p,
  (~ In 47 p /\ path_split p = ([], p)) \/
  (exists d f, p = d ++ 47 :: f /\ ~ In 47 f /\ path_split p = (d, f)).
Proof.
  intros p. unfold path_split. pose proof (rsplit_spec p) as H. destruct (rsplit_once p) as [[d f]|]; [right|left; split; [exact H|reflexivity]].
  exists d, f. destruct H. auto.
Qed.
Print Assumptions C50_split.
Example C50_split_case : path_split (txt "a/b/c") = (txt "a/b", txt "c") /\ path_split (txt "c") = ([], txt "c") /\ path_split (txt "/c") = ([], txt "c").
Proof. vmc. Qed.

(** ** Imports that begin with a dot *)

Lemma split_slash_app a b : split_slash (a ++ 47 :: b) = split_slash a ++ split_slash b.
Proof.
  induction a as [|c a IH]; cbn [app split_slash]; [reflexivity|]. destruct (Z.eqb_spec c 47) as [->|N].
  - rewrite IH. reflexivity.
  - rewrite IH. destruct (split_slash a) as [|h t] eqn:E; [|reflexivity]. destruct a as [|x a]; [discriminate|].
    cbn [split_slash] in E. destruct (x =? 47); [discriminate|]. destruct (split_slash a); discriminate.
Qed.
(** [./../m] is resolved to [m] itself, in the directory of the importing module instead of the
    one above, for every directory and every [m]. *)
Theorem C82_import_refuted : forall d m, path_concat d (txt "./../" ++ m) = path_concat d m.
Proof.
  intros d m. unfold path_concat. change (txt "./../" ++ m) with (txt "." ++ 47 :: (txt ".." ++ 47 :: m)).
  rewrite !normalize_norm. f_equal. rewrite !split_slash_app. unfold norm. f_equal. rewrite !norm_rev_app. reflexivity.
Qed.
Print Assumptions C82_import_refuted.
Example C82_import_case :
  path_concat (txt "lib") (txt "./../a.json") = txt "lib/a.json" /\ path_concat (txt "lib") (txt "../a.json") = txt "a.json".
Proof. vmc. Qed.

(** ** One file under two names *)

(** A file system that ignores [.] components, as the usual ones do. *)
Definition ignores_dots (io : list Z -> option (list Z)) : Prop := forall p q, place p = place q -> io p = io q.
(** There is one, with a module that imports [a] and [./a]: the file is read twice, and gives two
    arrays. *)
Definition by_place (l : list (string * string)) (p : list Z) : option (list Z) :=
  option_map (fun kv => txt (snd kv)) (find (fun kv =>
    match place p, place (txt (fst kv)) with (k, a), (k', b) => (k =? k')%nat && (if list_eq_dec (list_eq_dec Z.eq_dec) a b then true else false) end) l).
Lemma by_place_ignores l : ignores_dots (by_place l).
Proof. intros p q H. unfold by_place. rewrite H. reflexivity. Qed.
Definition twice : list (string * string) := [("m", "import a from ""a""
import b from ""./a""
export default [a,b]"); ("a", "[]")]%string.
Theorem C82_twice_refuted : exists io tf R depth c d v,
  ignores_dots io /\ parse io tf depth (fresh R 0) = Ok (c, inl (d, v)) /\
  cx_log c = [R; txt "a"; txt "./a"] /\ place (txt "a") = place (txt "./a") /\
  exists i j k, v = AArray i [AArray j []; AArray k []] /\ j <> k.
Proof.
  exists (by_place twice), 1000%nat, (txt "m"), 3%nat. do 3 eexists. split; [apply by_place_ignores|]. split; [vm_compute; reflexivity|].
  split; [vm_compute; reflexivity|]. split; [vm_compute; reflexivity|]. do 3 eexists. split; [reflexivity|discriminate].
Qed.
Print Assumptions C82_twice_refuted.
