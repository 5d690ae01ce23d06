(** Specification: what a path finds that consists of components, a dot, and a part
    that starts with a modifier or multipath, for example [friends.#.{first,age}].

    [after c] is the text that the part behind the dot finds in the value [c], and
    [nothing] the text that it finds in the empty text (a multipath finds an empty array
    or object there).  The components select values as in S_Eval; every value they lead
    to is handed over to the part behind the dot, one by one below a hash or a query for
    all matches, and where they lead nowhere the empty text is handed over. *)
From Coq Require Import String.
From Verif Require Import M_Base S_Json S_Str S_Path S_Query S_Mod S_ModText S_Eval.

(** The texts that are not empty, as an array. *)
Definition listed (rs : list text) : text := bs "[" ++ commas (filter nonempty rs) ++ bs "]".

(** The value [e] is [c] or stands somewhere in it. *)
Inductive part_of (e : cst) : cst -> Prop :=
| po_self : part_of e e
| po_element : forall w es x, In x es -> part_of e (i_val x) -> part_of e (CArr w es)
| po_member : forall w ms x, In x ms -> part_of e (m_val x) -> part_of e (CObj w ms).

Section Then.
Context (matches : text -> text -> bool) (index : text -> option nat) (holds : text -> cst -> bool).
Context (after : cst -> text) (nothing : text).

Definition handed (o : option text) : text := match o with Some r => r | None => nothing end.

(** The text found in [c]: [None] when the search fails in [c]. *)
Fixpoint eval_then (ss : list step) (c : cst) : option text :=
  match ss with
  | [] => Some (after c)
  | s :: rest =>
      match c with
      | CArr _ es =>
          match s with
          | Hash => Some (listed (map (fun e => handed (eval_then rest e)) (map i_val es)))
          | Query q true => Some (listed (map (fun e => handed (eval_then rest e)) (filter (holds q) (map i_val es))))
          | Query q false =>
              match find (holds q) (map i_val es) with
              | Some e => Some (handed (eval_then rest e))
              | None => None
              end
          | Name k =>
              match index k with
              | Some n => match nth_error es n with Some e => Some (handed (eval_then rest (i_val e))) | None => None end
              | None => None
              end
          end
      | CObj _ _ =>
          let final := match rest with [] => true | _ => false end in
          match scan_with (hits matches s) final (eval_then rest) after nothing c with Found r => Some r | _ => None end
      | _ => None
      end
  end.
Definition result_then (ss : list step) (c : cst) : text := handed (eval_then ss c).
End Then.
