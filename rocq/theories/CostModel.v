(** The serializers with a bounded stack, and with their calls counted. *)
From Coq Require Import ZArith List Bool String.
From Verif Require Import Outcome TokenizerModel TokenizerSpec ValueModel ParserModel SerializerModel.
Import ListNotations.
Open Scope Z_scope.
Notation any := ValueModel.any.

Section Cost.
Variable show : Z -> list Z.

(** [write_json] (serializer/to_json.rs:75-90) where calls may nest at most [frames] deep (one
    frame: [write_json], [write_list] and the closure); [NoFuel] is the overflow of the
    stack, which ends the process. *)
Fixpoint write_json_in (frames : nat) (a : any) : outcome (list Z) :=
  match frames with
  | O => NoFuel
  | S k =>
      match a with
      | ANumber f => Ok (show f)
      | ANull => Ok (txt "null")
      | ABool b => Ok (if b then txt "true" else txt "false")
      | AString s => Ok (js_string s)
      | AObject _ l =>
          let! items := omap (fun kv => let! t := write_json_in k (snd kv) in Ok (js_string (fst kv) ++ 58 :: t)) l in
          Ok (write_list 123 125 items)
      | AArray _ l =>
          let! items := omap (write_json_in k) l in
          Ok (write_list 91 93 items)
      | ABigint _ => Panic
      end
  end.

(** [track_consts_for_any] (serializer/to_djs.rs:53-63) where calls may nest at most [frames]
    deep. *)
Fixpoint track_in (frames : nat) (a : any) (m : visited) : outcome visited :=
  match frames with
  | O => NoFuel
  | S k =>
      match a with
      | AArray i l =>
          match find_id m i with
          | Some _ => Ok (mark m i)
          | None => oeach (track_in k) l (m ++ [(i, (a, false))])
          end
      | AObject i l =>
          match find_id m i with
          | Some _ => Ok (mark m i)
          | None => oeach (fun kv => track_in k (snd kv)) l (m ++ [(i, (a, false))])
          end
      | _ => Ok m
      end
  end.

(** [write_consts_and_any] (serializer/to_djs.rs:90-103) with [write_compound_const] (67-85):
    as [consts_and_any], and the number of calls of [write_consts_and_any], this one
    included. *)
Fixpoint consts_and_any_cost (a : any) (s : djs) : outcome (djs * Z) :=
  match a with
  | AArray i l =>
      let! (s', n) := oeach (fun x sn => let! (s', n) := consts_and_any_cost x (fst sn) in Ok (s', snd sn + n)) l (s, 1) in
      let! s'' := define_const show i a s' in Ok (s'', n)
  | AObject i l =>
      let! (s', n) := oeach (fun kv sn => let! (s', n) := consts_and_any_cost (snd kv) (fst sn) in Ok (s', snd sn + n)) l (s, 1) in
      let! s'' := define_const show i a s' in Ok (s'', n)
  | _ => Ok (s, 1)
  end.

Variable peek : list (Z * any) -> option any.
(** [write_consts] (112-121). *)
Fixpoint write_consts_cost (fuel : nat) (s : djs) : outcome (djs * Z) :=
  match peek (dj_todo s) with
  | None => Ok (s, 0)
  | Some a => match fuel with
              | O => NoFuel
              | S f => let! (s', n) := consts_and_any_cost a s in
                       let! (s'', m) := write_consts_cost f s' in Ok (s'', n + m)
              end
  end.
(** [to_djs] (167-192): the text and the number of calls of [write_consts_and_any]. *)
Definition to_djs_cost (fuel : nat) (a : any) (common_js : bool) : outcome (list Z * Z) :=
  let todo := map (fun jv => (fst jv, fst (snd jv))) (filter (fun jv => snd (snd jv)) (track a [])) in
  let! (s, n) := write_consts_cost fuel {| dj_out := []; dj_todo := todo; dj_refs := [] |} in
  let! body := with_refs show (dj_refs s) a in
  Ok (dj_out s ++ (if common_js then txt "module.exports=" else txt "export default ") ++ body, n).
End Cost.
