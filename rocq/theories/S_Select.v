(** Specification: picking results out of a multipath. *)
From Coq Require Import List NArith.
From Verif Require Import M_Base M_Value M_Get S_Json S_Same S_Multi.
Import ListNotations.

(** [v] is the result [u] without the blanks behind it, which only arrays and objects
    at the end of a document can have. *)
Definition trimmed (v u : value) : Prop :=
  v_exists v = true /\ v_kind v = v_kind u /\
  exists w, ws w /\ v_json u = v_json v ++ w /\ (w = [] -> same_answers v u).

(** [p] and [q] can replace each other, alone and in front of a pipe, when it is
    about [s]. *)
Definition piped (s p q : text) : Prop :=
  same_outcome (get s p) (get s q) /\
  forall b, same_outcome (get s (p ++ 0x7C%N :: b)) (get s (q ++ 0x7C%N :: b)).

(** A text with no blank at its end. *)
Definition ends_well (t : text) : Prop := forall a c, t = a ++ [c] -> ~ ws [c].

(** An entry with a further path behind a pipe. *)
Definition extend (x : text) (e : entry) : entry := (fst e, snd e ++ 0x7C%N :: x).
