(** Specification vocabulary: documents that are cut off or damaged behind the value
    that a path leads to. *)
From Verif Require Import M_Base M_Util S_Json S_Str S_Get S_Path S_Query S_Eval.

(** An object up to the value of a member, an array up to an element. *)
Definition obj_open (w : text) (ms : list (memb cst)) (a k b c : text) : text :=
  0x7B%N :: w ++ concat (map (fun m => render_memb render m ++ [0x2C%N]) ms) ++ a ++ quoted k ++ b ++ 0x3A%N :: c.
Definition arr_open (w : text) (es : list (item cst)) (a : text) : text :=
  0x5B%N :: w ++ concat (map (fun e => render_item render e ++ [0x2C%N]) es) ++ a.

Section Open.
Context (matches : text -> text -> bool) (index : text -> option nat) (holds : text -> cst -> bool).

(** [leads ss t v]: the text [t] is the beginning of a document, up to the end of the
    value [v] that the path [ss] leads to, or up to the end of a container in which the
    rest of the path finds [v].  Nothing is said about what follows [t]. *)
Inductive leads : list step -> text -> cst -> Prop :=
| ld_whole : forall ss c v, wf c -> eval matches index holds ss c = Some (Some v) -> leads ss (render c) v
| ld_member : forall s ss w ms a k b c t v,
    ws w -> Forall wf_memb ms -> ws a -> chars k -> ws b -> ws c ->
    Forall (fun m => hits matches s (name_of m) = false) ms ->
    hits matches s (name_of (Memb a k b c CNull [])) = true ->
    leads ss t v -> leads (s :: ss) (obj_open w ms a k b c ++ t) v
| ld_elem : forall k ss w es a e v,
    ws w -> Forall wf_item es -> ws a -> wf e ->
    index k = Some (length es) -> result matches index holds ss e = Some v ->
    leads (Name k :: ss) (arr_open w es a ++ render e) v
| ld_first : forall q ss w es a e v,
    ws w -> Forall wf_item es -> ws a -> wf e ->
    Forall (fun x => holds q (i_val x) = false) es -> holds q e = true -> result matches index holds ss e = Some v ->
    leads (Query q false :: ss) (arr_open w es a ++ render e) v.
End Open.

(** What follows does not continue a number. *)
Definition delimited (r : text) : Prop :=
  match r with [] => True | c :: _ => ws_byte c \/ c = 0x2C%N \/ c = 0x5D%N \/ c = 0x7D%N end.
