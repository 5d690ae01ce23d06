(** The meaning of whole paths: rules that say which text a path of components,
    modifiers and multipaths, chained with pipes and dots, makes of which text.  The
    empty text stands for a result that does not exist.  The rules put together the
    specifications of the parts: S_Eval (components), S_Mod, S_ModText, S_Join, S_Tree
    and S_Layout (modifiers), S_Multi (multipaths), S_Same (JSON lines). *)
From Coq Require Import String.
From Verif Require Import M_Base M_Util M_Value M_Get S_Json S_Str S_Get S_Path S_Query S_Follow S_Mod S_ModText S_Join S_Tree S_Layout
  S_Multi S_Compose S_Same S_Eval S_Then.

(** The text of a result. *)
Definition shown (r : option cst) : text := match r with Some c => render c | None => [] end.
(** The text of a document as a value: blanks before it are dropped, blanks behind it
    only if it is neither array nor object. *)
Definition own (c : cst) (w : text) : text := if is_container c then render c ++ w else render c.
Definition bracketed (t : tree) : bool := match t with TArr _ | TObj _ => true | _ => false end.

(** What the modifier [@name:arg] makes of a text. *)
Inductive modifies : text -> option text -> text -> text -> Prop :=
| md_this : forall arg w1 c w2, ws w1 -> wf c -> ws w2 -> modifies (bs "this") arg (w1 ++ render c ++ w2) (own c w2)
| md_valid : forall arg w1 c w2, ws w1 -> wf c -> ws w2 -> modifies (bs "valid") arg (w1 ++ render c ++ w2) (own c w2)
| md_reverse : forall arg w1 c w2, ws w1 -> wf c -> ws w2 ->
    modifies (bs "reverse") arg (w1 ++ render c ++ w2) (render (reversed c))
| md_flatten : forall w1 w es w2, ws w1 -> wf (CArr w es) -> ws w2 ->
    modifies (bs "flatten") None (w1 ++ render (CArr w es) ++ w2) (bs "[" ++ commas (flat_texts es) ++ bs "]")
| md_flatten_deep : forall w1 w es w2, ws w1 -> wf (CArr w es) -> ws w2 ->
    modifies (bs "flatten") (Some (bs "{""deep"":true}")) (w1 ++ render (CArr w es) ++ w2) (render (array_of (flat_deep (CArr w es))))
| md_flatten_other : forall arg w1 c w2, ws w1 -> wf c -> ws w2 -> (forall w es, c <> CArr w es) ->
    modifies (bs "flatten") arg (w1 ++ render c ++ w2) (own c w2)
| md_join : forall w1 w es w2 ms, ws w1 -> wf (CArr w es) -> ws w2 -> merged (all_members es) ms ->
    modifies (bs "join") None (w1 ++ render (CArr w es) ++ w2) (render (CObj [] ms))
| md_join_preserve : forall w1 w es w2, ws w1 -> wf (CArr w es) -> ws w2 ->
    modifies (bs "join") (Some (bs "{""preserve"":true}")) (w1 ++ render (CArr w es) ++ w2) (bs "{" ++ commas (join_texts es) ++ bs "}")
| md_join_other : forall arg w1 c w2, ws w1 -> wf c -> ws w2 -> (forall w es, c <> CArr w es) ->
    modifies (bs "join") arg (w1 ++ render c ++ w2) (own c w2)
| md_ugly : forall arg s t, reads s t -> modifies (bs "ugly") arg s (minimal t)
| md_pretty : forall s t, reads s t -> height t < 500 ->
    modifies (bs "pretty") None s (if bracketed t then page 80 [] (bs "  ") false t else minimal t)
| md_nothing : forall name, modifies name None [] []
| md_unknown : forall name arg s, ~ In name [bs "this"; bs "reverse"; bs "ugly"; bs "pretty"; bs "valid"; bs "flatten"; bs "join"] ->
    modifies name arg s [].

(** What a path makes of a text. *)
Inductive runs : text -> text -> text -> Prop :=
| run_find : forall matches index holds ss w1 c w2,
    meaning matches index holds ss -> steps_ok ss -> ss <> [] -> ws w1 -> wf c -> ws w2 ->
    runs (dotted (map step_text ss)) (w1 ++ render c ++ w2) (shown (result matches index holds ss c))
| run_absent : forall ss, steps_ok ss -> ss <> [] -> runs (dotted (map step_text ss)) [] []
| run_modifier : forall name arg s r, mod_name name -> arg_ok arg -> modifies name arg s r -> runs (modifier name arg) s r
| run_array : forall es s rs, Forall entry_ok es -> es <> [] -> run_all (map snd es) s rs ->
    runs (multi_array es) s (bs "[" ++ commas (filter nonempty rs) ++ bs "]")
| run_object : forall es s rs ks, Forall entry_ok es -> es <> [] -> run_all (map snd es) s rs -> Forall2 entry_key es ks ->
    runs (multi_object es) s
      (bs "{" ++ commas (map (fun kr => escape (fst kr) ++ bs ":" ++ snd kr) (filter (fun kr => nonempty (snd kr)) (combine ks rs))) ++ bs "}")
| run_pipe : forall a b s r1 r2, runs a s r1 -> runs b r1 r2 -> runs (a ++ 0x7C%N :: b) s r2
(** A dot behind a modifier or multipath, and a dot before one. *)
| run_dot : forall a b s r1 r2, stage a -> runs a s r1 -> runs b r1 r2 -> runs (a ++ 0x2E%N :: b) s r2
| run_into : forall ks b s r1 r2, ks <> [] -> Forall one_comp ks -> staged b ->
    runs (dotted ks) s r1 -> runs b r1 r2 -> runs (dotted ks ++ 0x2E%N :: b) s r2
(** Components, also for several values, and a dot before a modifier or multipath. *)
| run_then : forall matches index holds after nothing ss b w1 c w2,
    meaning matches index holds ss -> steps_ok ss -> ss <> [] -> led b -> ws w1 -> wf c -> ws w2 ->
    (forall e, wf e -> part_of e c -> runs b (render e) (after e)) -> runs b [] nothing ->
    runs (dotted (map step_text ss) ++ 0x2E%N :: b) (w1 ++ render c ++ w2) (result_then matches index holds after nothing ss c)
| run_then_absent : forall nothing ss b, steps_ok ss -> ss <> [] -> led b -> runs b [] nothing ->
    runs (dotted (map step_text ss) ++ 0x2E%N :: b) [] nothing
with run_all : list text -> text -> list text -> Prop :=
| ra_nil : forall s, run_all [] s []
| ra_cons : forall p ps s r rs, runs p s r -> run_all ps s rs -> run_all (p :: ps) s (r :: rs).

(** JSON lines: the values of the lines as an array. *)
Inductive run_lines : text -> text -> text -> Prop :=
| rl_lines : forall ls p r, Forall wf_item ls -> spaced ls -> array_path p ->
    runs p (render (array_of (map i_val ls))) r -> run_lines (bs ".." ++ p) (lines_text ls) r.
