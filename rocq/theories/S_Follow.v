(** Specification of following a list of keys through a document. *)
From Verif Require Import M_Base M_Util M_Value M_Get S_Json S_Get S_Path S_Query.

(** A key that selects the array element number [n]: a decimal integer within
    64 bits, a sign being accepted. *)
Inductive index_key : text -> nat -> Prop :=
| ik_plain : forall ds n, digits1 ds -> digits_val ds = Z.of_nat n -> (Z.of_nat n < 2 ^ 63)%Z -> index_key ds n
| ik_plus : forall ds n, digits1 ds -> digits_val ds = Z.of_nat n -> (Z.of_nat n < 2 ^ 63)%Z -> index_key (0x2B%N :: ds) n
| ik_minus : forall ds, digits1 ds -> digits_val ds = 0%Z -> index_key (0x2D%N :: ds) 0.

(** Following keys: in an object to the first member of that name, in an array to
    the element of that index. *)
Inductive reaches : cst -> list text -> cst -> Prop :=
| re_here : forall c, reaches c [] c
| re_memb : forall w a m b k ks d, named m k -> Forall (fun m' => ~ named m' k) a -> reaches (m_val m) ks d ->
    reaches (CObj w (a ++ m :: b)) (k :: ks) d
| re_item : forall w a e b k ks d, index_key k (length a) -> reaches (i_val e) ks d ->
    reaches (CArr w (a ++ e :: b)) (k :: ks) d.

(** All strings of a document, names and values, as written between the quotes. *)
Fixpoint strings (c : cst) : list text :=
  match c with
  | CStr b => [b]
  | CArr _ es => flat_map (fun e => match e with Item _ v _ => strings v end) es
  | CObj _ ms => flat_map (fun m => match m with Memb _ k _ _ v _ => k :: strings v end) ms
  | _ => []
  end.
(** At most one string of the document decodes to [k]. *)
Definition at_most_once (k : text) (c : cst) : Prop :=
  forall a x b y d, strings c = a ++ x :: b ++ y :: d ->
  unescape (quoted x) = Ok k -> unescape (quoted y) = Ok k -> False.

(** The result of [get] is the piece [c], or nothing. *)
Definition gets (json p : text) (c : cst) : Prop := exists v, get json p = Ok v /\ shows v c.
Definition gets_none (json p : text) : Prop := exists v, get json p = Ok v /\ v_exists v = false.

(** Two results agree: neither exists, or both are the same piece of a document. *)
Definition agree (v1 v2 : value) : Prop :=
  (v_exists v1 = false /\ v_exists v2 = false) \/ exists c, shows v1 c /\ shows v2 c.
(** Scalars: neither array nor object. *)
Definition scalar (c : cst) : Prop := match c with CArr _ _ | CObj _ _ => False | _ => True end.
