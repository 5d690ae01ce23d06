(** Specification vocabulary for whole paths: components, modifiers and multipaths
    chained with pipes and dots. *)
From Coq Require Import List NArith ZArith Bool.
From Verif Require Import S_Json S_Path S_Mod S_Multi.
Import ListNotations.

(** A component that selects one thing: a name, index or pattern, or a first-match
    query. *)
Definition one_comp (k : text) : Prop :=
  (component k /\ k <> []) \/ exists q, balanced q /\ k = qcomp q false.

(** The text of a modifier, or of a multipath whose brackets are balanced. *)
Inductive stage : text -> Prop :=
| st_modifier : forall name arg, mod_name name -> arg_ok arg -> stage (modifier name arg)
| st_array : forall q, balanced q -> stage (0x5B%N :: q ++ [0x5D%N])
| st_object : forall q, balanced q -> stage (0x7B%N :: q ++ [0x7D%N]).

(** A path that starts with a modifier or multipath. *)
Definition ended (t : text) : Prop := t = [] \/ exists s u, t = s :: u /\ (s = 0x2E%N \/ s = 0x7C%N).
Definition staged (p : text) : Prop := exists m t, stage m /\ ended t /\ p = m ++ t.

(** A piece of a path: a component, a modifier or a multipath. *)
Definition piece (k : text) : Prop := any_comp k \/ stage k.

(** Pieces joined by dots, the first one a modifier or multipath. *)
Definition led (t : text) : Prop := exists m ks, stage m /\ Forall piece ks /\ t = dotted (m :: ks).

(** Whole paths: pieces joined by dots, and pipes between these. *)
Inductive whole : text -> Prop :=
| wh_pieces : forall ks, ks <> [] -> Forall piece ks -> whole (dotted ks)
| wh_pipe : forall ks b, ks <> [] -> Forall piece ks -> whole b -> whole (dotted ks ++ 0x7C%N :: b).
