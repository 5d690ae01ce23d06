(** Specification: documents without their insignificant whitespace.  Nothing
    here mentions the model. *)
From Coq Require Import List NArith Bool Arith Permutation.
From Verif Require Export S_Json.
Import ListNotations.

(** What is left of a document when whitespace is ignored: the tokens.  Strings
    and numbers keep their raw text. *)
Inductive tree :=
| TNull
| TTrue
| TFalse
| TNum (raw : text)
| TStr (body : text)
| TArr (es : list tree)
| TObj (ms : list (text * tree)).

Fixpoint erase (c : cst) : tree :=
  match c with
  | CNull => TNull
  | CTrue => TTrue
  | CFalse => TFalse
  | CNum n => TNum n
  | CStr b => TStr b
  | CArr _ es => TArr (map (fun e => match e with Item _ v _ => erase v end) es)
  | CObj _ ms => TObj (map (fun m => match m with Memb _ k _ _ v _ => (k, erase v) end) ms)
  end.

(** The document text without any whitespace between its tokens. *)
Fixpoint minimal (t : tree) : text :=
  match t with
  | TNull => t_null
  | TTrue => t_true
  | TFalse => t_false
  | TNum n => n
  | TStr b => quoted b
  | TArr es => 0x5B%N :: commas (map minimal es) ++ [0x5D%N]
  | TObj ms => 0x7B%N :: commas (map (fun m => match m with (k, v) => quoted k ++ 0x3A%N :: minimal v end) ms) ++ [0x7D%N]
  end.

(** Nesting depth of arrays and objects. *)
Fixpoint height (t : tree) : nat :=
  match t with
  | TArr es => S (fold_right (fun e n => Nat.max (height e) n) 0 es)
  | TObj ms => S (fold_right (fun m n => Nat.max (match m with (_, v) => height v end) n) 0 ms)
  | _ => 0
  end.

(** Byte order of names. *)
Fixpoint le_text (a b : text) : bool :=
  match a, b with
  | [], _ => true
  | _ :: _, [] => false
  | x :: a', y :: b' => if (x =? y)%N then le_text a' b' else (x <? y)%N
  end.

(** Stable sorting of the members of all objects by name. *)
Fixpoint insert_member {A} (x : text * A) (l : list (text * A)) : list (text * A) :=
  match l with
  | [] => [x]
  | y :: t => if le_text (fst x) (fst y) then x :: l else y :: insert_member x t
  end.
Definition sort_members {A} (l : list (text * A)) : list (text * A) := fold_right insert_member [] l.

Fixpoint sorted (t : tree) : tree :=
  match t with
  | TArr es => TArr (map sorted es)
  | TObj ms => TObj (sort_members (map (fun m => match m with (k, v) => (k, sorted v) end) ms))
  | t => t
  end.

(** The same while there is room for [n] levels of nesting: the first array or object
    below that, and whatever follows it in the document, is left as it is, and so is
    the order of the members of the objects around it.  The flag says that there is
    such an array or object. *)
Definition until {A} (f : A -> A * bool) : list A -> list A * bool :=
  fix go l :=
    match l with
    | [] => ([], false)
    | x :: r =>
        let '(x', e) := f x in
        if e then (x' :: r, true) else let '(r', e') := go r in (x' :: r', e')
    end.
Fixpoint sorted_within (n : nat) (t : tree) {struct t} : tree * bool :=
  match t, n with
  | TArr _, 0 | TObj _, 0 => (t, true)
  | TArr es, S n => let '(es', e) := until (sorted_within n) es in (TArr es', e)
  | TObj ms, S n =>
      let '(ms', e) := until (fun m => match m with (k, v) =>
        let '(v', e) := sorted_within n v in ((k, v'), e) end) ms in
      (TObj (if e then ms' else sort_members ms'), e)
  | _, _ => (t, false)
  end.

(** The same up to the order of the members of its objects. *)
Inductive reordered : tree -> tree -> Prop :=
| re_same t : reordered t t
| re_arr es es' : Forall2 reordered es es' -> reordered (TArr es) (TArr es')
| re_obj ms ms1 ms' :
    Forall2 (fun m m' => fst m = fst m' /\ reordered (snd m) (snd m')) ms ms1 -> Permutation ms1 ms' ->
    reordered (TObj ms) (TObj ms').

(** [s] is a JSON text whose tokens are those of [t]. *)
Definition reads (s : text) (t : tree) : Prop :=
  exists w1 c w2, ws w1 /\ wf c /\ ws w2 /\ s = w1 ++ render c ++ w2 /\ erase c = t.
