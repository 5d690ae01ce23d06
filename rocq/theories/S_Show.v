(** Specification: what is printed for a piece of a document.  Nothing here mentions the
    model. *)
From Coq Require Import List NArith.
From Verif Require Import S_Json S_Decode.
Import ListNotations.

(** Nothing for null, strings decoded, everything else as it is written. *)
Inductive printed : cst -> text -> Prop :=
| pr_null : printed CNull []
| pr_true : printed CTrue [0x74; 0x72; 0x75; 0x65]%N
| pr_false : printed CFalse [0x66; 0x61; 0x6C; 0x73; 0x65]%N
| pr_number : forall n, printed (CNum n) n
| pr_string : forall b t, decodes b t -> printed (CStr b) t
| pr_array : forall w es, printed (CArr w es) (render (CArr w es))
| pr_object : forall w ms, printed (CObj w ms) (render (CObj w ms)).

Definition lines (ts : list text) : text := flat_map (fun t => t ++ [0x0A%N]) ts.
(** A member: its decoded name, a colon and a space, and its value. *)
Inductive printed_member : memb cst -> text -> Prop :=
| pr_member : forall w1 k w2 w3 v w4 n t, decodes k n -> printed v t -> printed_member (Memb w1 k w2 w3 v w4) (n ++ [0x3A; 0x20]%N ++ t).
