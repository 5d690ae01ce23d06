(** Specification: documents that differ in the order of the members of their objects. *)
From Coq Require Import List NArith Permutation.
From Verif Require Export S_Json S_Tree S_Said.
From Verif Require Import M_Base M_Util M_Value M_Get S_Str S_Query.
Import ListNotations.

(** [shuffled t t']: [t'] is [t] with the members of objects in another order, at any
    depth.  An object with a name twice keeps its order. *)
Inductive shuffled : tree -> tree -> Prop :=
| sf_same : forall t, shuffled t t
| sf_arr : forall l l', Forall2 shuffled l l' -> shuffled (TArr l) (TArr l')
| sf_obj : forall l l', Forall2 (fun m m' => fst m = fst m' /\ shuffled (snd m) (snd m')) l l' -> shuffled (TObj l) (TObj l')
| sf_order : forall l l1 l', NoDup (map fst l) -> Forall2 (fun m m' => fst m = fst m' /\ shuffled (snd m) (snd m')) l l1 ->
    Permutation l1 l' -> shuffled (TObj l) (TObj l').
(** Two texts are the same, or JSON with the same content up to the order of members. *)
Definition reordered (a b : text) : Prop := a = b \/ exists t t', says a t /\ says b t' /\ shuffled t t'.

(** A path that does not notice the order of members (nor the spelling of strings). *)
Definition steady (p : text) : Prop := forall s s', reordered s s' ->
  exists v v', get s p = Ok v /\ get s' p = Ok v' /\ reordered (v_json v) (v_json v').
(** A query that does not notice it. *)
Definition steady_query (q : text) : Prop := forall c c' b, wf c -> wf c' -> shuffled (content (erase c)) (content (erase c')) ->
  q_holds c q b -> q_holds c' q b.
(** A component that selects at most one name. *)
Definition single (k : text) : Prop := forall n n', glob byte_char (bare_qm k) n -> glob byte_char (bare_qm k) n' -> n = n'.
