(** Specification: documents that are the same but for the order of the members of
    their objects.  Nothing here mentions the model. *)
From Coq Require Import List NArith.
From Verif Require Import S_Json S_Tree.
Import ListNotations.

(** The values of the members called [k], in the order in which they are written. *)
Definition called {A} (k : text) (ms : list (text * A)) : list A :=
  map snd (filter (fun m => if list_eq_dec N.eq_dec (fst m) k then true else false) ms).

(** The same leaves, the same elements in the same order, and under every name the same
    values in the same order. *)
Inductive alike : tree -> tree -> Prop :=
| al_same : forall t, alike t t
| al_array : forall es es', Forall2 alike es es' -> alike (TArr es) (TArr es')
| al_object : forall ms ms', (forall k, Forall2 alike (called k ms) (called k ms')) -> alike (TObj ms) (TObj ms').
