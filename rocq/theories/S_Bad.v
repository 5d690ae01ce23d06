(** Malformed components: what starts with a hash but is neither the hash nor a query. *)
From Coq Require Import List NArith.
From Verif Require Import M_Base S_Json S_Path S_Get S_Eval.
Import ListNotations.

(** No bracket closes the parenthesis that stands before [t]. *)
Definition unclosed (t : text) : Prop :=
  forall q c r, balanced q -> bracket_close c -> t <> q ++ c :: r.
(** The text ends as a query does: with [)] or [)#]. *)
Definition ends_query (t : text) : Prop := exists a, t = a ++ [0x29%N] \/ t = a ++ [0x29; 0x23]%N.

Definition separator (c : N) : Prop := c = 0x2E%N \/ c = 0x7C%N.
Inductive malformed : text -> Prop :=
(** [#x] *)
| mf_name : forall c t, c <> 0x28%N -> ~ separator c -> malformed (0x23%N :: c :: t)
(** [#(q)x], [#(q)#x] *)
| mf_junk : forall q all c t, balanced q -> ~ separator c -> (all = false -> c <> 0x23%N) ->
    malformed (qcomp q all ++ c :: t)
(** [#(q]] *)
| mf_bracket : forall q c t, balanced q -> c = 0x5D%N \/ c = 0x7D%N -> malformed (0x23%N :: 0x28%N :: q ++ c :: t)
(** [#(q] *)
| mf_open : forall t, unclosed t -> ~ ends_query t -> malformed (0x23%N :: 0x28%N :: t).

(** A component and the rest of the path. *)
Definition rest_ok (r : text) : Prop := r = [] \/ exists s u, r = s :: u /\ separator s.

(** No member at any depth has the empty name. *)
Fixpoint all_named (c : cst) : Prop :=
  match c with
  | CArr _ es => (fix go es := match es with [] => True | Item _ v _ :: t => all_named v /\ go t end) es
  | CObj _ ms => (fix go ms := match ms with [] => True | m :: t => name_of m <> [] /\ (match m with Memb _ _ _ _ v _ => all_named v end) /\ go t end) ms
  | _ => True
  end.
(** Steps that select one thing. *)
Definition single (s : step) : Prop := match s with Hash => False | Query _ all => all = false | Name _ => True end.
