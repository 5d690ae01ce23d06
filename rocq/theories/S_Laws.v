(** Specification: paths that mean the same. *)
From Coq Require Import List NArith.
From Verif Require Import M_Base M_Value M_Get S_Json S_Same.
Import ListNotations.

(** What can follow a path: nothing, or a dot or a pipe and another path. *)
Definition further (b : text) : Prop := b = [] \/ exists c t, b = c :: t /\ (c = 0x2E%N \/ c = 0x7C%N).

(** [p] and [q] can replace each other in front of anything, when it is about [s]. *)
Definition alike (s p q : text) : Prop :=
  forall b, further b -> same_outcome (get s (p ++ b)) (get s (q ++ b)).
