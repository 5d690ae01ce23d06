(** Specification of the values a user can take from a document. *)
From Coq Require Import String List.
From Verif Require Import M_Base M_Util M_Value M_Get S_Json S_Get S_Api S_Follow.
Import ListNotations.
Open Scope list_scope.

(** A path without the at sign, so without modifiers. *)
Definition no_modifier (p : text) : Prop := ~ In 0x40%N p.

(** The text [s] somewhere in [t]. *)
Definition contains (t s : text) : Prop := exists a b, t = a ++ s ++ b.
(** A path without the modifier flatten, and without an argument for the modifiers
    join and pretty. *)
Definition tame (p : text) : Prop :=
  ~ contains p (bs "@flatten") /\ ~ contains p (bs "@join:") /\ ~ contains p (bs "@pretty:").

(** The values obtained from [json] by parse, get, each and array. *)
Inductive taken (json : text) : value -> Prop :=
| tk_parse : forall v, parse json = Ok v -> taken json v
| tk_get : forall p v, tame p -> get json p = Ok v -> taken json v
| tk_vget : forall u p v, taken json u -> tame p -> v_get u p = Ok v -> taken json v
| tk_key : forall u l k x, taken json u -> v_each u record_args [] = Ok l -> In (k, x) l -> taken json k
| tk_value : forall u l k x, taken json u -> v_each u record_args [] = Ok l -> In (k, x) l -> taken json x
| tk_elem : forall u l x, taken json u -> v_array u = Ok l -> In x l -> taken json x.

(** The value [v] presents the piece [c]: like [shows], except that an array or
    object may be followed by whitespace (parse keeps the whitespace at the end of
    the document). *)
Record presents (v : value) (c : cst) : Prop := mkPresents {
  pr_exists : v_exists v = true;
  pr_kind : v_kind v = kind_of c;
  pr_json : exists w, ws w /\ v_json v = render c ++ w /\ (scalar c -> w = []);
  pr_str : if match c with CArr _ _ | CObj _ _ => true | _ => false end
           then v_str v = Ok (v_json v) else v_str v = text_of c;
}.
(** A value that shows nothing. *)
Definition absent (v : value) : Prop :=
  v_exists v = false /\ v_kind v = KNull /\ v_json v = [] /\ v_str v = Ok [].
