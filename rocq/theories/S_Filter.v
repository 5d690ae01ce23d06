(** Specification: queries as filters. *)
From Coq Require Import List NArith.
From Verif Require Import M_Base M_Util M_Value M_Get S_Json S_Path S_Query S_Same S_Float.
Import ListNotations.

(** Two lookups with the same outcome: both find nothing, or both find values that no
    accessor can tell apart. *)
Definition same_find (x y : R value) : Prop :=
  exists a b, x = Ok a /\ y = Ok b /\ v_exists a = v_exists b /\ (v_exists a = true -> same_answers a b).

(** Whether the text [t] of an element satisfies the query [q]: the array of [t] alone has
    a match. *)
Definition picks (q t : text) (b : bool) : Prop :=
  exists v, get (0x5B%N :: t ++ [0x5D%N]) (qcomp q false) = Ok v /\ v_exists v = b.

(** [x] is what the left-hand side of a query selects, [r] how its right-hand side is
    read.  A right-hand side with a tilde is about the truth value of [x]. *)
Definition tilde (r : text) : Prop := hd 0%N r = 0x7E%N.
Definition comparable (x : value) : Prop := v_exists x = true /\ In (v_kind x) [KString; KNumber; KTrue; KFalse].
Definition orderable (x : value) (r : text) : Prop :=
  v_exists x = true /\ ~ tilde r /\
  (v_kind x = KString \/ v_kind x = KNumber /\ exists a b, f64_reads (v_json x) (Some a) /\ f64_reads r (Some b)).

(** Operators that are the opposite of each other. *)
Inductive opposite (x : value) (r : text) : qop -> qop -> Prop :=
| op_eq : forall e, In e [QEq; QEqEq] -> comparable x \/ tilde r -> opposite x r e QNe
| op_lt : orderable x r -> opposite x r QLt QGe
| op_gt : orderable x r -> opposite x r QGt QLe
| op_like : v_exists x = true -> v_kind x = KString -> ~ tilde r -> opposite x r QLike QNotLike.
