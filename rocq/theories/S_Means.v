(** The meaning of every path: how a path is read, whatever its bytes are, and which text
    it makes of a document.  In contrast to S_Run, nothing is demanded of the path: lone
    backslashes, brackets that are not closed, text behind a closing bracket and malformed
    queries have their meaning, too.  The empty text stands for a result that does not
    exist. *)
From Coq Require Import String.
From Verif Require Import M_Base M_Util M_Value M_Get M_Pretty S_Json S_Str S_Get S_Path S_Query S_Follow S_Mod S_ModText S_Multi S_Compose S_Same
  S_Eval S_Then S_Run S_Bad S_Head S_Entry S_PrettyArg.

(* ---------- how a path is read ---------- *)

Definition multi_start (c : N) : Prop := c = 0x5B%N \/ c = 0x7B%N.
Definition cut (r : text) : Prop := forall s u, r = s :: u -> ~ separator s.
(** The first piece of a path; the dot or pipe behind it and the rest, if it is not the
    last piece. *)
Inductive first : text -> text -> option (N * text) -> Prop :=
| fi_last : forall k, any_comp k -> first k k None
| fi_sep : forall k s r, any_comp k -> separator s -> first (k ++ s :: r) k (Some (s, r))
(** A backslash at the very end. *)
| fi_backslash : forall k, comp_body k -> comp_head (k ++ [0x5C%N]) -> first (k ++ [0x5C%N]) (k ++ [0x5C%N]) None
(** A query that is not closed, but ends as if it were. *)
| fi_unclosed : forall q all, unclosed (q ++ 0x29%N :: if all : bool then [0x23%N] else []) -> first (qcomp q all) (qcomp q all) None
(** A malformed component is an empty name, and nothing behind it is read. *)
| fi_malformed : forall b, malformed b -> first b [] None
| fi_modifier : forall p name arg, head p name arg None -> first p p None
| fi_modifier_sep : forall k s r name arg, separator s -> head (k ++ s :: r) name arg (Some r) -> first (k ++ s :: r) k (Some (s, r))
(** Behind a multipath, nothing is read up to the end but a dot or pipe. *)
| fi_multi : forall k r o q, multi_start o -> multi (k ++ r) o q r -> cut r -> first (k ++ r) k None
| fi_multi_sep : forall k s r o q, multi_start o -> separator s -> multi (k ++ s :: r) o q (s :: r) -> first (k ++ s :: r) k (Some (s, r)).

(** What stands before the first pipe between two pieces, and what behind it. *)
Inductive grouped : text -> text -> option text -> Prop :=
| gr_last : forall p k, first p k None -> grouped p k None
| gr_pipe : forall p k r, first p k (Some (0x7C%N, r)) -> grouped p k (Some r)
| gr_dot : forall p k b g r, first p k (Some (0x2E%N, b)) -> grouped b g r -> grouped p (k ++ 0x2E%N :: g) r.

(** The step of a component. *)
Inductive comp_step : text -> step -> Prop :=
| cs_name : forall k, comp_head k -> comp_step k (Name k)
| cs_hash : comp_step [0x23%N] Hash
| cs_query : forall q all, comp_step (qcomp q all) (Query q all).

(** The components at the start of a path, and what ends them: the end of the path, a
    pipe, or a dot before a modifier or multipath. *)
Inductive tail := Done | Pipe (b : text) | Into (b : text).
Definition stage_start (b : text) : Prop := exists c t, b = c :: t /\ (c = 0x40%N \/ multi_start c).
Inductive spelled : text -> list step -> tail -> Prop :=
| sp_last : forall p k s, first p k None -> comp_step k s -> spelled p [s] Done
| sp_pipe : forall p k s b, first p k (Some (0x7C%N, b)) -> comp_step k s -> spelled p [s] (Pipe b)
| sp_into : forall p k s b, first p k (Some (0x2E%N, b)) -> comp_step k s -> stage_start b -> spelled p [s] (Into b)
| sp_dot : forall p k s b ss t, first p k (Some (0x2E%N, b)) -> comp_step k s -> (k = [] -> hd_error b <> Some 0x2E%N) ->
    spelled b ss t -> spelled p (s :: ss) t.

(* ---------- where components lead ---------- *)

(** A value of the document, or the text of a count or a list that was put together. *)
Inductive found := Value (e : cst) | Text (x : text).
Definition found_text (o : option found) : text :=
  match o with Some (Value e) => render e | Some (Text x) => x | None => [] end.

Section Seek.
Context (matches : text -> text -> bool) (index : text -> option nat) (holds : text -> cst -> bool).
(** Whether a hash at the end is a count; the text that comes of a value that is an entry
    of a list, and of an entry that leads nowhere. *)
Context (counts : bool) (inner : cst -> text) (inothing : text).

Definition seen (o : option (option found)) : option found := match o with Some r => r | None => None end.
Definition entry_of (o : option found) : text :=
  match o with Some (Value e) => inner e | Some (Text x) => x | None => inothing end.

(** Where the components lead from [c]: [None] when the search fails in [c], otherwise
    the result. *)
Fixpoint seek (ss : list step) (c : cst) : option (option found) :=
  match ss with
  | [] => Some (Some (Value c))
  | s :: rest =>
      let final := match rest with [] => true | _ => false end in
      match c with
      | CArr _ es =>
          match s with
          | Hash => if final && counts then Some (Some (Text (decimal (length es))))
                    else Some (Some (Text (listed (map (fun e => entry_of (seen (seek rest e))) (map i_val es)))))
          | Query q true => Some (Some (Text (listed (map (fun e => entry_of (seen (seek rest e))) (filter (holds q) (map i_val es))))))
          | Query q false =>
              match find (holds q) (map i_val es) with
              | Some e => Some (seen (seek rest e))
              | None => None
              end
          | Name k =>
              match index k with
              | Some n => match nth_error es n with Some e => Some (seen (seek rest (i_val e))) | None => None end
              | None => None
              end
          end
      | CObj _ _ =>
          match scan_with (hits matches s) final (seek rest) (fun v => Some (Value v)) None c with Found r => Some r | _ => None end
      | _ => None
      end
  end.
End Seek.
Definition counting (t : tail) : bool := match t with Into _ => false | _ => true end.

(* ---------- what a path makes of a text ---------- *)

(** What a modifier with the argument [arg] makes of a text.  The empty argument is as
    none; four modifiers do not look at theirs, two at one member of it, as a boolean. *)
Definition known_names : list text :=
  [bs "this"; bs "reverse"; bs "ugly"; bs "pretty"; bs "valid"; bs "flatten"; bs "join"].
Definition flag (arg name : text) (b : bool) : Prop := exists v, get arg name = Ok v /\ v_bool v = Ok b.
Inductive applies : text -> text -> text -> text -> Prop :=
| ap_none : forall name s r, modifies name None s r -> applies name [] s r
| ap_some : forall name arg s r, mod_arg arg -> modifies name (Some arg) s r -> applies name arg s r
| ap_ignored : forall name arg s r, In name [bs "this"; bs "valid"; bs "reverse"; bs "ugly"] -> modifies name None s r -> applies name arg s r
| ap_flatten : forall arg b s r, flag arg (bs "deep") b ->
    modifies (bs "flatten") (if b then Some (bs "{""deep"":true}") else None) s r -> applies (bs "flatten") arg s r
| ap_join : forall arg b s r, flag arg (bs "preserve") b ->
    modifies (bs "join") (if b then Some (bs "{""preserve"":true}") else None) s r -> applies (bs "join") arg s r
(** [@pretty] is the function [pretty_options], with the options in the argument. *)
| ap_pretty : forall arg o out v s, pretty_arg arg o -> pretty_options s o = Ok out -> parse out = Ok v ->
    applies (bs "pretty") arg s (v_json v)
| ap_unknown : forall name arg s, ~ In name known_names -> applies name arg s []
| ap_nothing : forall name arg, name <> bs "pretty" -> applies name arg [] [].

Definition object_text (ks rs : list text) : text :=
  bs "{" ++ commas (map (fun kr => escape (fst kr) ++ bs ":" ++ snd kr) (filter (fun kr => nonempty (snd kr)) (combine ks rs))) ++ bs "}".

Inductive means : text -> text -> text -> Prop :=
| me_seek : forall matches index holds inner inothing p ss t w1 c w2 r,
    spelled p ss t -> meaning matches index holds ss -> ws w1 -> wf c -> ws w2 ->
    (forall e, wf e -> part_of e c -> inside t (render e) (inner e)) -> inside t [] inothing ->
    goes t (seen (seek matches index holds (counting t) inner inothing ss c)) r ->
    means p (w1 ++ render c ++ w2) r
| me_absent : forall p ss t r, spelled p ss t -> goes t None r -> means p [] r
| me_modifier : forall p name arg s r, head p name arg None -> applies name arg s r -> means p s r
| me_modifier_rest : forall p name arg b s x r, head p name arg (Some b) -> applies name arg s x -> means b x r -> means p s r
(** Brackets of the wrong kind. *)
| me_wrong : forall p o b s, multi_start o -> multi p o None b -> means p s []
| me_array : forall p q b es s rs r, multi p 0x5B%N (Some q) b -> entries q es -> means_all (map snd es) s rs ->
    follows b (listed rs) r -> means p s r
| me_object : forall p q b es ks s rs r, multi p 0x7B%N (Some q) b -> entries q es -> means_all (map snd es) s rs ->
    Forall2 entry_key es ks -> follows b (object_text ks rs) r -> means p s r
(** Two dots in front: the text is taken as JSON lines, and these as an array. *)
| me_lines : forall ls p r, Forall wf_item ls -> spaced ls -> array_path p ->
    means p (render (array_of (map i_val ls))) r -> means (bs ".." ++ p) (lines_text ls) r
(** Behind them, a modifier, a multipath or two dots more lead nowhere. *)
| me_lines_other : forall p k s, ~ array_path p -> first p k None -> means (bs ".." ++ p) s []
| me_lines_rest : forall p k x b s r, ~ array_path p -> first p k (Some (x, b)) -> means b [] r -> means (bs ".." ++ p) s r
(** What becomes of an entry of a list: a pipe is for the list as a whole. *)
with inside : tail -> text -> text -> Prop :=
| in_done : forall x, inside Done x x
| in_pipe : forall b x, inside (Pipe b) x x
| in_into : forall b g r x y, grouped b g r -> means g x y -> inside (Into b) x y
(** What becomes of the result of the components. *)
with goes : tail -> option found -> text -> Prop :=
| go_done : forall o, goes Done o (found_text o)
| go_pipe : forall b o r, means b (found_text o) r -> goes (Pipe b) o r
| go_into : forall b o r, (forall x, o <> Some (Text x)) -> means b (found_text o) r -> goes (Into b) o r
| go_list : forall b g x, grouped b g None -> goes (Into b) (Some (Text x)) x
| go_list_pipe : forall b g u x r, grouped b g (Some u) -> means u x r -> goes (Into b) (Some (Text x)) r
(** What becomes of a multipath. *)
with follows : text -> text -> text -> Prop :=
| fo_end : forall b x, cut b -> follows b x x
| fo_sep : forall s b x r, separator s -> means b x r -> follows (s :: b) x r
with means_all : list text -> text -> list text -> Prop :=
| ma_nil : forall s, means_all [] s []
| ma_cons : forall p ps s r rs, means p s r -> means_all ps s rs -> means_all (p :: ps) s (r :: rs).
