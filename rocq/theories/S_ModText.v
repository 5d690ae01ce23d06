(** The text that [@flatten] and [@join] put together, whatever it is. *)
From Verif Require Import M_Base S_Json S_Mod.

(** The text between the brackets or braces of a value; a scalar as it is. *)
Definition inside (c : cst) : text :=
  match c with
  | CArr w es => w ++ commas (map (render_item render) es)
  | CObj w ms => w ++ commas (map (render_memb render) ms)
  | _ => render c
  end.
Definition nonempty (t : text) : bool := match t with [] => false | _ => true end.

(** [@flatten] without [deep]: the pieces, child arrays without their brackets.  Empty
    pieces are left out, but not those of whitespace. *)
Definition flat_texts (es : list (item cst)) : list text :=
  filter nonempty (map (fun e => match i_val e with CArr _ _ => inside (i_val e) | _ => render (i_val e) end) es).
(** A child array with whitespace and nothing else inside. *)
Definition hollow_array (c : cst) : Prop := exists w, w <> [] /\ c = CArr w [].

(** [@join] with [preserve]: the objects without their braces, also the empty ones. *)
Definition join_texts (es : list (item cst)) : list text :=
  flat_map (fun e => match i_val e with CObj _ _ => [inside (i_val e)] | _ => [] end) es.
Definition empty_object (c : cst) : Prop := exists w, c = CObj w [].
