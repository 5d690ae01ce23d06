(** The exact meaning of dotted paths: what [get] finds, as a function on syntax
    trees.  Nothing here follows the text of the document; the one place where the
    code does not follow the structure of the document, the search that goes on
    after a failed lookup below a matching member, is the function [scan]. *)
From Verif Require Import M_Base M_Util M_Value M_Get S_Json S_Str S_Get S_Path S_Query S_Follow S_Mod.

(** A component of a path: a name, an index or a pattern; the hash; a query for the
    first or for all matches. *)
Inductive step := Name (k : text) | Hash | Query (q : text) (all : bool).
Definition step_text (s : step) : text :=
  match s with Name k => k | Hash => [0x23%N] | Query q all => qcomp q all end.
Definition step_ok (s : step) : Prop :=
  match s with
  | Name k => component k
  | Hash => True
  | Query q _ => balanced q
  end.
(** A name may be empty, but not next to another empty name: two dots at the start of
    a path mean JSON lines. *)
Fixpoint apart (ss : list step) : Prop :=
  match ss with
  | [] => True
  | s :: t => (step_text s = [] -> match t with s2 :: _ => step_text s2 <> [] | [] => True end) /\ apart t
  end.
Definition steps_ok (ss : list step) : Prop := Forall step_ok ss /\ apart ss.

(** The decoded name of a member. *)
Definition name_of (m : memb cst) : text :=
  match unescape (quoted (m_key m)) with Ok n => n | Err _ => [] end.
(** The decimal digits of a number. *)
Fixpoint decimal_upto (fuel n : nat) : text :=
  match fuel with
  | 0 => []
  | S f => (if n <? 10 then [] else decimal_upto f (n / 10)) ++ [(0x30 + N.of_nat (n mod 10))%N]
  end.
Definition decimal (n : nat) : text := decimal_upto (S n) n.

(** How the search through an object ends: with a result, by stopping, or not at
    all. *)
Inductive ending (A : Type) := Found (r : A) | Stop | Go.
Arguments Found {A}. Arguments Stop {A}. Arguments Go {A}.

Section Scan.
(** Which names are selected, whether this is the last component, and what the
    remaining components find below a selected member: [None] when they fail.  The
    result for the last component is [found] of the value, and [scalar] if there are
    more components but the value is neither array nor object. *)
Context {A : Type} (hit : text -> bool) (final : bool) (below : cst -> option A) (found : cst -> A) (scalar : A).

(** The search through the text of a value as if it stood in the object.  It stops
    behind the first string that is an element of an array and at the first closing
    brace. *)
Fixpoint scan_with (c : cst) : ending A :=
  match c with
  | CObj _ ms =>
      (fix members ms :=
         match ms with
         | [] => Stop
         | m :: t =>
             match m with Memb _ _ _ _ v _ =>
               if hit (name_of m) then
                 if final then Found (found v)
                 else match v with
                      | CArr _ _ | CObj _ _ =>
                          match below v with
                          | Some r => Found r
                          | None => match scan_with v with Go => members t | e => e end
                          end
                      | _ => Found scalar
                      end
               else members t
             end
         end) ms
  | CArr _ es =>
      (fix elements es :=
         match es with
         | [] => Go
         | e :: t => match e with Item _ v _ => match scan_with v with Go => elements t | r => r end end
         end) es
  | CStr _ => Stop
  | _ => Go
  end.
End Scan.
(** The search for a value. *)
Definition scan (hit : text -> bool) (final : bool) (below : cst -> option (option cst)) : cst -> ending (option cst) :=
  scan_with hit final below Some None.

Section Eval.
(** Which names a component selects, which element it selects, which elements
    satisfy a query. *)
Context (matches : text -> text -> bool) (index : text -> option nat) (holds : text -> cst -> bool).

Definition hits (s : step) (n : text) : bool :=
  match s with
  | Name k => matches k n
  | _ => if list_eq_dec N.eq_dec n (step_text s) then true else false
  end.

Definition flat (o : option (option cst)) : option cst := match o with Some r => r | None => None end.
Definition collect (f : cst -> option cst) (l : list cst) : list cst :=
  flat_map (fun c => match f c with Some d => [d] | None => [] end) l.

(** What the path [ss] finds in [c]: [None] when the search fails in [c], otherwise
    the result. *)
Fixpoint eval (ss : list step) (c : cst) : option (option cst) :=
  match ss with
  | [] => Some (Some c)
  | s :: rest =>
      let final := match rest with [] => true | _ => false end in
      match c with
      | CArr _ es =>
          match s with
          | Hash => if final then Some (Some (CNum (decimal (length es))))
                    else Some (Some (array_of (collect (fun e => flat (eval rest e)) (map i_val es))))
          | Query q true => Some (Some (array_of (collect (fun e => flat (eval rest e)) (filter (holds q) (map i_val es)))))
          | Query q false =>
              match find (holds q) (map i_val es) with
              | Some e => Some (flat (eval rest e))
              | None => None
              end
          | Name k =>
              match index k with
              | Some n => match nth_error es n with Some e => Some (flat (eval rest (i_val e))) | None => None end
              | None => None
              end
          end
      | CObj _ _ => match scan (hits s) final (eval rest) c with Found r => Some r | _ => None end
      | _ => None
      end
  end.
(** The result. *)
Definition result (ss : list step) (c : cst) : option cst := flat (eval ss c).
End Eval.

(** The three parameters mean what they should. *)
Record meaning (matches : text -> text -> bool) (index : text -> option nat) (holds : text -> cst -> bool) (ss : list step) : Prop := mkMeaning {
  mn_match : forall k n, In (Name k) ss -> matches k n = true <-> glob byte_char (bare_qm k) n;
  mn_index : forall k n, In (Name k) ss -> index k = Some n <-> index_key k n;
  mn_holds : forall q all e, In (Query q all) ss -> wf e -> q_holds e q (holds q e);
}.

(** [get] answers [r]: the piece, or nothing. *)
Definition answers (json p : text) (r : option cst) : Prop :=
  match r with Some d => gets json p d | None => gets_none json p end.
