(** Specification: what a text says, however its strings are spelled and its tokens are
    spaced. *)
From Coq Require Import List NArith.
From Verif Require Export S_Json S_Tree.
From Verif Require Import M_Base M_Util M_Value M_Get S_Query.
Import ListNotations.

(** The text of a string literal. *)
Definition said (b : text) : text := match unescape (quoted b) with Ok t => t | Err _ => [] end.

(** A document with all its strings and names decoded. *)
Fixpoint content (t : tree) : tree :=
  match t with
  | TStr b => TStr (said b)
  | TArr es => TArr (map content es)
  | TObj ms => TObj (map (fun m => match m with (k, v) => (said k, content v) end) ms)
  | t => t
  end.
(** The JSON text [s] says [t]. *)
Definition says (s : text) (t : tree) : Prop := exists u, reads s u /\ content u = t.
(** Two texts say the same, or are the same. *)
Definition same_said (a b : text) : Prop := a = b \/ exists t, says a t /\ says b t.

(** A path that does not notice the spelling: in texts that say the same it finds texts
    that say the same. *)
Definition blind (p : text) : Prop := forall s s', same_said s s' ->
  exists v v', get s p = Ok v /\ get s' p = Ok v' /\ same_said (v_json v) (v_json v').
(** A query that does not notice it. *)
Definition blind_query (q : text) : Prop := forall c c' b, wf c -> wf c' -> content (erase c) = content (erase c') ->
  q_holds c q b -> q_holds c' q b.
