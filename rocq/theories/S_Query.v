(** Specification vocabulary for queries, in terms of the public function [get]. *)
From Verif Require Import M_Base M_Util M_Value M_Get S_Json S_Get S_Path.

(** Whether the piece [c] of a document satisfies the query [q]: the one-element
    array of [c] has a match. *)
Definition q_holds (c : cst) (q : text) (b : bool) : Prop :=
  exists v, get (0x5B%N :: render c ++ [0x5D%N]) (qcomp q false) = Ok v /\ v_exists v = b.

(** What a left-hand side selects in the piece [c]: nothing written, all of it. *)
Definition lhs_of (c : cst) (lhs : text) (x : value) : Prop :=
  match lhs with
  | [] => shows x c
  | _ => get (render c) lhs = Ok x
  end.

(** The member [m] has the decoded name [n]. *)
Definition named (m : memb cst) (n : text) : Prop := unescape (quoted (m_key m)) = Ok n.
(** [get json k] is the value of the first of the members [ms] with a name
    satisfying [P], and does not exist when there is none. *)
Definition gets_first (json k : text) (P : text -> Prop) (ms : list (memb cst)) : Prop :=
  (forall a m b n, ms = a ++ m :: b -> named m n -> P n ->
     Forall (fun m' => forall n', named m' n' -> ~ P n') a ->
     exists v, get json k = Ok v /\ shows v (m_val m)) /\
  (Forall (fun m' => forall n', named m' n' -> ~ P n') ms ->
     exists v, get json k = Ok v /\ v_exists v = false).

(** The comparison operators of queries. *)
Inductive qop := QEq | QEqEq | QNe | QLt | QLe | QGt | QGe | QLike | QNotLike.
Definition op_text (o : qop) : text :=
  match o with
  | QEq => [0x3D] | QEqEq => [0x3D; 0x3D] | QNe => [0x21; 0x3D]
  | QLt => [0x3C] | QLe => [0x3C; 0x3D] | QGt => [0x3E] | QGe => [0x3E; 0x3D]
  | QLike => [0x25] | QNotLike => [0x21; 0x25]
  end%N.

(** Blanks around the parts of a query are ignored. *)
Definition blank (s : text) : Prop := Forall (fun c => (c <= 0x20)%N) s.
Definition trimmed (s : text) : Prop := s = [] \/ ((0x20 < hd 0 s) /\ (0x20 < last s 0))%N.

(** A left-hand side: no operator outside parentheses.  Inside parentheses (nested
    queries) anything goes except parentheses in string literals. *)
Definition op_byte (c : N) : Prop := In c [0x25; 0x21; 0x3D; 0x3C; 0x3E]%N.
Definition paren (c : N) : Prop := c = 0x28%N \/ c = 0x29%N.
Definition plain_byte (c : N) : Prop := ~ bracket_open c /\ ~ bracket_close c /\ c <> 0x22%N /\ c <> 0x5C%N.
Inductive inner : text -> Prop :=
| in_nil : inner []
| in_char : forall c t, plain_byte c -> inner t -> inner (c :: t)
| in_esc : forall c t, inner t -> inner (0x5C%N :: c :: t)
| in_string : forall b t, quotable b -> Forall (fun c => ~ paren c) b -> inner t -> inner (quoted b ++ t)
| in_group : forall q t, inner q -> inner t -> inner (0x28%N :: q ++ 0x29%N :: t).
Inductive lhs_text : text -> Prop :=
| lt_nil : lhs_text []
| lt_char : forall c t, plain_byte c -> ~ op_byte c -> lhs_text t -> lhs_text (c :: t)
| lt_esc : forall c t, lhs_text t -> lhs_text (0x5C%N :: c :: t)
| lt_group : forall q t, inner q -> lhs_text t -> lhs_text (0x28%N :: q ++ 0x29%N :: t).
(** A left-hand side as it may be written in a query. *)
Definition lhs (l : text) : Prop := lhs_text l /\ trimmed l.

(** The text of the query [l o r], with blanks around the parts. *)
Definition query (s0 l s1 : text) (o : qop) (s2 r s3 : text) : text :=
  s0 ++ l ++ s1 ++ op_text o ++ s2 ++ r ++ s3.

(** Bytewise lexicographic order. *)
Definition text_lt (a b : text) : Prop :=
  (exists y t, b = a ++ y :: t) \/
  (exists p x y s t, a = p ++ x :: s /\ b = p ++ y :: t /\ (x < y)%N).

(** A relation for each comparison operator, from equality and order. *)
Definition op_rel {A} (lt : A -> A -> Prop) (o : qop) (a b : A) : Prop :=
  match o with
  | QEq | QEqEq => a = b
  | QNe => a <> b
  | QLt => lt a b
  | QLe => lt a b \/ a = b
  | QGt => lt b a
  | QGe => lt b a \/ a = b
  | QLike | QNotLike => False
  end.
Definition is_like (o : qop) : bool := match o with QLike | QNotLike => true | _ => false end.

(** [q] is the query [l o r], possibly with blanks around the parts, and its
    left-hand side selects the value [x] in [c]. *)
Definition asks (c : cst) (x : value) (q : text) (o : qop) (r : text) : Prop :=
  exists s0 l s1 s2 s3, blank s0 /\ lhs l /\ blank s1 /\ blank s2 /\ blank s3 /\
    q = query s0 l s1 o s2 r s3 /\ lhs_of c l x.
(** [q] consists of a left-hand side that selects [x] in [c]. *)
Definition asks_exists (c : cst) (x : value) (q : text) : Prop :=
  exists s0 l s1, blank s0 /\ lhs l /\ blank s1 /\ q = s0 ++ l ++ s1 /\ lhs_of c l x.
(** A right-hand side written without quotes. *)
Definition bare (r : text) : Prop :=
  trimmed r /\ balanced r /\ (hd 0 r <> 0x3D /\ hd 0 r <> 0x22 /\ hd 0 r <> 0x7E)%N.
(** The order false < true. *)
Definition bool_lt (a b : bool) : Prop := a = false /\ b = true.
Definition bool_text (b : bool) : text := if b then t_true else t_false.
Definition bool_kind (b : bool) : kind := if b then KTrue else KFalse.
