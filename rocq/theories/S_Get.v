(** Specification vocabulary for values: what it means that a [Value] shows a
    given piece of a document, and the meaning of integer literals.  The only
    parts of the model mentioned are the public accessors ([v_json] = json(),
    [v_kind] = kind(), [v_str] = str(), [v_exists] = exists()) and [unescape],
    whose relation to RFC 8259 is property C05. *)
From Verif Require Import M_Base M_Util M_Value S_Json.

(** The kind of a piece of a document. *)
Definition kind_of (c : cst) : kind :=
  match c with
  | CNull => KNull
  | CTrue => KTrue
  | CFalse => KFalse
  | CNum _ => KNumber
  | CStr _ => KString
  | CArr _ _ => KArray
  | CObj _ _ => KObject
  end.

(** Arrays and objects. *)
Definition is_container (c : cst) : bool := match c with CArr _ _ | CObj _ _ => true | _ => false end.

(** Its text as a string: decoded for strings, raw for numbers and containers. *)
Definition text_of (c : cst) : R text :=
  match c with
  | CNull => Ok []
  | CTrue => Ok t_true
  | CFalse => Ok t_false
  | CNum n => Ok n
  | CStr b => unescape (quoted b)
  | CArr _ _ | CObj _ _ => Ok (render c)
  end.

(** The value [v] shows exactly the piece [c] of a document. *)
Record shows (v : value) (c : cst) : Prop := mkShows {
  sh_exists : v_exists v = true;
  sh_json : v_json v = render c;
  sh_kind : v_kind v = kind_of c;
  sh_str : v_str v = text_of c;
}.

(** Call [step] on the elements of a list until it asks to stop. *)
Fixpoint visit {S A} (step : S -> A -> R (S * bool)) (st : S) (l : list A) : R S :=
  match l with
  | [] => Ok st
  | a :: t =>
      match step st a with
      | Ok (st, true) => visit step st t
      | Ok (st, false) => Ok st
      | Err e => Err e
      end
  end.

(** The integer denoted by decimal digits, with or without a minus sign. *)
Definition digits_val (ds : text) : Z :=
  fold_left (fun a d => a * 10 + (Z.of_N d - 48))%Z ds 0%Z.
Inductive int_literal : text -> Z -> Prop :=
| il_pos : forall ds, digits1 ds -> int_literal ds (digits_val ds)
| il_neg : forall ds, digits1 ds -> int_literal (45%N :: ds) (- digits_val ds).

Definition clamp (lo hi x : Z) : Z := Z.max lo (Z.min hi x).

(** The strings that count as true besides the numeric ones. *)
Definition true_words : list text :=
  [[116]; [49]; [84]; [116;114;117;101]; [84;82;85;69]; [84;114;117;101]]%N.
