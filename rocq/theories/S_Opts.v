(** Specification: which options a chain of calls asks for.  Only [call], at
    the end, mentions the model. *)
From Coq Require Import List NArith.
From Verif Require Export S_Json.
From Verif Require Import M_Pretty M_Opts.
Import ListNotations.

(** One call on the options. *)
Inductive setting :=
| Width (w : N)
| Prefix (p : text)
| Indent (i : text)
| SortKeys (b : bool).

(** What is asked for: what the last call of its kind says, [d] when there is none. *)
Fixpoint asked {A} (f : setting -> option A) (d : A) (cs : list setting) : A :=
  match cs with
  | [] => d
  | c :: t => asked f (match f c with Some x => x | None => d end) t
  end.
Definition the_width c := match c with Width w => Some w | _ => None end.
Definition the_prefix c := match c with Prefix p => Some p | _ => None end.
Definition the_indent c := match c with Indent i => Some i | _ => None end.
Definition the_sorting c := match c with SortKeys b => Some b | _ => None end.

(** The number of line breaks of a text. *)
Definition breaks (s : text) : nat := count_occ N.eq_dec s 0x0A%N.

(** Calls of the API: [o.width(w)] and so on, and a chain of them. *)
Definition call (o : popts) (c : setting) : popts :=
  match c with
  | Width w => opts_width o w
  | Prefix p => opts_prefix o p
  | Indent i => opts_indent o i
  | SortKeys b => opts_sort_keys o b
  end.
Definition calls (cs : list setting) (o : popts) : popts := fold_left call cs o.
