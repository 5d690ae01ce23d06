(** Specification: documents that differ only in what a path passes by.  Nothing here
    mentions the model, apart from the steps of a path and what they select (S_Eval). *)
From Coq Require Import List NArith.
From Verif Require Import S_Json S_Eval.
Import ListNotations.

Section Frame.
Context (matches : text -> text -> bool) (index : text -> option nat) (holds : text -> cst -> bool).

(** Neither an object nor an array. *)
Definition leaf (c : cst) : Prop := match c with CObj _ _ | CArr _ _ => False | _ => True end.

(** [passed ss c d]: [c] and [d] are the same where the path [ss] goes.  In an array these
    are the element selected by an index, if there is one, the number of elements for a hash at the end,
    all elements for another hash, and the elements that satisfy a query. *)
Inductive passed : list step -> cst -> cst -> Prop :=
| ps_same : forall ss c, passed ss c c
| ps_index : forall k n ss w w' es es' e e', index k = Some n -> nth_error es n = Some e -> nth_error es' n = Some e' ->
    passed ss (i_val e) (i_val e') -> passed (Name k :: ss) (CArr w es) (CArr w' es')
| ps_short : forall k n ss w w' es es', index k = Some n -> length es <= n -> length es' <= n -> passed (Name k :: ss) (CArr w es) (CArr w' es')
| ps_no_index : forall k ss w w' es es', index k = None -> passed (Name k :: ss) (CArr w es) (CArr w' es')
| ps_count : forall w w' es es', length es = length es' -> passed [Hash] (CArr w es) (CArr w' es')
| ps_each : forall ss w w' es es', ss <> [] -> each ss es es' ->
    passed (Hash :: ss) (CArr w es) (CArr w' es')
| ps_all : forall q ss w w' es es', picked q true ss es es' -> passed (Query q true :: ss) (CArr w es) (CArr w' es')
| ps_first : forall q ss w w' es es', picked q false ss es es' -> passed (Query q false :: ss) (CArr w es) (CArr w' es')
| ps_object : forall s ss w w' ms ms', members s ss ms ms' -> passed (s :: ss) (CObj w ms) (CObj w' ms')
with each : list step -> list (item cst) -> list (item cst) -> Prop :=
| ea_nil : forall ss, each ss [] []
| ea_cons : forall ss e e' es es', passed ss (i_val e) (i_val e') -> each ss es es' -> each ss (e :: es) (e' :: es')
(** The elements that satisfy a query correspond; others may come, go and change.  The
    query for the first one passes by all that follows it. *)
with picked : text -> bool -> list step -> list (item cst) -> list (item cst) -> Prop :=
| pk_nil : forall q al ss, picked q al ss [] []
| pk_left : forall q al ss e es es', holds q (i_val e) = false -> picked q al ss es es' -> picked q al ss (e :: es) es'
| pk_right : forall q al ss e' es es', holds q (i_val e') = false -> picked q al ss es es' -> picked q al ss es (e' :: es')
| pk_both : forall q ss e e' es es', holds q (i_val e) = true -> holds q (i_val e') = true -> passed ss (i_val e) (i_val e') ->
    picked q true ss es es' -> picked q true ss (e :: es) (e' :: es')
| pk_first : forall q ss e e' es es', holds q (i_val e) = true -> holds q (i_val e') = true -> passed ss (i_val e) (i_val e') ->
    picked q false ss (e :: es) (e' :: es')
(** Members with other names come, go and change.  What follows the member in which the
    remaining path finds something is passed by; a member in which it finds nothing has
    to stay as it is, unless it is a string, a number or a literal. *)
with members : step -> list step -> list (memb cst) -> list (memb cst) -> Prop :=
| mb_nil : forall s ss, members s ss [] []
| mb_left : forall s ss m ms ms', hits matches s (name_of m) = false -> members s ss ms ms' -> members s ss (m :: ms) ms'
| mb_right : forall s ss m' ms ms', hits matches s (name_of m') = false -> members s ss ms ms' -> members s ss ms (m' :: ms')
| mb_same : forall s ss m m' ms ms', name_of m = name_of m' -> m_val m = m_val m' -> members s ss ms ms' -> members s ss (m :: ms) (m' :: ms')
| mb_found : forall s ss m m' ms ms', hits matches s (name_of m) = true -> hits matches s (name_of m') = true ->
    passed ss (m_val m) (m_val m') -> eval matches index holds ss (m_val m) <> None -> members s ss (m :: ms) (m' :: ms')
| mb_scalar : forall s ss m m' ms ms', hits matches s (name_of m) = true -> hits matches s (name_of m') = true ->
    ss <> [] -> leaf (m_val m) -> leaf (m_val m') -> members s ss (m :: ms) (m' :: ms').
End Frame.
