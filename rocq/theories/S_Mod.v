(** Specification vocabulary for modifiers. *)
From Coq Require Import List NArith ZArith Bool.
From Verif Require Import S_Json.
Import ListNotations.

(** The text of a modifier name: no dot, pipe, colon or backslash. *)
Definition mod_name (n : text) : Prop :=
  Forall (fun c => c <> 0x2E%N /\ c <> 0x7C%N /\ c <> 0x3A%N /\ c <> 0x5C%N) n.
(** The text of an argument: an array, an object or a string; or else a text without
    dots and pipes that does not start like one of those. *)
Inductive mod_arg : text -> Prop :=
| ma_json : forall c, wf c -> match c with CArr _ _ | CObj _ _ | CStr _ => True | _ => False end -> mod_arg (render c)
| ma_plain : forall a, Forall (fun c => c <> 0x2E%N /\ c <> 0x7C%N) a ->
    match a with [] => True | c :: _ => c <> 0x7B%N /\ c <> 0x5B%N /\ c <> 0x22%N end -> mod_arg a.
(** The component [@name] or [@name:arg]. *)
Definition modifier (name : text) (arg : option text) : text :=
  0x40%N :: name ++ match arg with None => [] | Some a => 0x3A%N :: a end.
Definition arg_ok (arg : option text) : Prop := match arg with None => True | Some a => mod_arg a end.
Definition arg_text (arg : option text) : text := match arg with None => [] | Some a => a end.

(** The elements of an array and the members of an object, without the whitespace
    around them. *)
Definition bare_item (e : item cst) : item cst := match e with Item _ v _ => Item [] v [] end.
Definition bare_memb (m : memb cst) : memb cst := match m with Memb _ k b c v _ => Memb [] k b c v [] end.

(** @reverse: elements or members in reverse order. *)
Definition reversed (c : cst) : cst :=
  match c with
  | CArr _ es => CArr [] (rev (map bare_item es))
  | CObj _ ms => CObj [] (rev (map bare_memb ms))
  | _ => c
  end.

(** @flatten: the elements, where those of child arrays stand for the child. *)
Definition flat_once (l : list cst) : list cst :=
  flat_map (fun c => match c with CArr _ es => map i_val es | _ => [c] end) l.
(** With [deep], recursively: the values inside [c] that are not arrays, in order. *)
Fixpoint flat_deep (c : cst) : list cst :=
  match c with
  | CArr _ es => flat_map (fun e => match e with Item _ v _ => flat_deep v end) es
  | _ => [c]
  end.
(** The array of the given elements, without whitespace. *)
Definition array_of (l : list cst) : cst := CArr [] (map (fun v => Item [] v []) l).

(** @join: the members of the objects among the elements. *)
Definition members_of (c : cst) : list (memb cst) := match c with CObj _ ms => ms | _ => [] end.
Definition all_members (es : list (item cst)) : list (memb cst) := flat_map (fun e => members_of (i_val e)) es.

(** No array anywhere in [c] has whitespace and nothing else between its brackets. *)
Fixpoint tight (c : cst) : bool :=
  match c with
  | CArr w es => match w, es with _ :: _, [] => false | _, _ => true end &&
                 forallb (fun e => match e with Item _ v _ => tight v end) es
  | CObj _ ms => forallb (fun m => match m with Memb _ _ _ _ v _ => tight v end) ms
  | _ => true
  end.
