(** Base of the model: bytes, the result type with explicit panics, checked
    indexing and slicing.  Nothing here is specific to gjson. *)
From Coq Require Export List NArith ZArith Lia Bool PeanoNat.
From Coq Require String Ascii.
Export ListNotations.
Open Scope nat_scope.

(** A byte.  The model never needs the bound 256: theorems quantify over all
    lists of [N], which include all byte strings. *)
Notation byte := N (only parsing).
Notation bytes := (list N) (only parsing).

(** Byte literals of a Coq string (test and example notation only). *)
Definition bs (s : String.string) : bytes :=
  List.map Ascii.N_of_ascii (String.list_ascii_of_string s).
Arguments bs s%string_scope.

(** Abnormal outcomes.
    [EPanic]: a Rust panic (index or slice out of range, arithmetic underflow,
    [unwrap] on [None]).
    [EUB]: an out-of-bounds [get_unchecked].
    [EFuel]: the fuel of a model loop ran out (a loop of the code that would not
    stop within the model's bound). *)
Inductive err := EPanic | EUB | EFuel.

Inductive R (A : Type) := Ok (a : A) | Err (e : err).
Arguments Ok {A} a.
Arguments Err {A} e.

Definition bind {A B} (m : R A) (f : A -> R B) : R B :=
  match m with Ok a => f a | Err e => Err e end.

Declare Scope r_scope.
Delimit Scope r_scope with R.
Notation "x <- e ;; k" := (bind e (fun x => k))
  (at level 100, e at next level, right associativity) : r_scope.
Notation "' p <- e ;; k" := (bind e (fun p => k))
  (at level 100, p pattern, e at next level, right associativity) : r_scope.
Open Scope r_scope.

(** [json[i]]: panics when out of range. *)
Definition idx (l : bytes) (i : nat) : R byte :=
  match nth_error l i with Some c => Ok c | None => Err EPanic end.

(** [*json.get_unchecked(i)]: undefined behaviour when out of range. *)
Definition idx_unchecked (l : bytes) (i : nat) : R byte :=
  match nth_error l i with Some c => Ok c | None => Err EUB end.

(** [&json[s..e]]: panics unless [s <= e <= len]. *)
Definition slice (l : bytes) (s e : nat) : R bytes :=
  if (s <=? e) && (e <=? length l) then Ok (firstn (e - s) (skipn s l)) else Err EPanic.

(** [&json[s..]]. *)
Definition slice_from (l : bytes) (s : nat) : R bytes := slice l s (length l).

(** [a - b] on [usize]: underflow is a panic (debug profile; in the release
    profile it wraps, and in this crate the wrapped number is then used as a
    slice end, which panics). *)
Definition usub (a b : nat) : R nat := if a <? b then Err EPanic else Ok (a - b).

(** Byte-string equality. *)
Fixpoint beq (a b : bytes) : bool :=
  match a, b with
  | [], [] => true
  | x :: a', y :: b' => (x =? y)%N && beq a' b'
  | _, _ => false
  end.

(** Lexicographic comparison of byte slices ([Ord for [u8]] / [Ord for str]). *)
Fixpoint bcmp (a b : bytes) : comparison :=
  match a, b with
  | [], [] => Eq
  | [], _ :: _ => Lt
  | _ :: _, [] => Gt
  | x :: a', y :: b' =>
      match (x ?= y)%N with Eq => bcmp a' b' | c => c end
  end.

(** ASCII codes used by the code. *)
Notation cTAB := 9%N (only parsing).
Notation cLF := 10%N (only parsing).
Notation cCR := 13%N (only parsing).
Notation cSP := 32%N (only parsing).      (* ' ' *)
Notation cBANG := 33%N (only parsing).    (* ! *)
Notation cQUOTE := 34%N (only parsing).   (* double quote *)
Notation cHASH := 35%N (only parsing).    (* # *)
Notation cPCT := 37%N (only parsing).     (* % *)
Notation cLPAR := 40%N (only parsing).    (* left paren *)
Notation cRPAR := 41%N (only parsing).    (* right paren *)
Notation cSTAR := 42%N (only parsing).    (* star *)
Notation cPLUS := 43%N (only parsing).    (* + *)
Notation cCOMMA := 44%N (only parsing).   (* , *)
Notation cMINUS := 45%N (only parsing).   (* - *)
Notation cDOT := 46%N (only parsing).     (* . *)
Notation cSLASH := 47%N (only parsing).   (* / *)
Notation c0 := 48%N (only parsing).
Notation c9 := 57%N (only parsing).
Notation cCOLON := 58%N (only parsing).   (* : *)
Notation cLT := 60%N (only parsing).      (* < *)
Notation cEQ := 61%N (only parsing).      (* = *)
Notation cGT := 62%N (only parsing).      (* > *)
Notation cQM := 63%N (only parsing).      (* ? *)
Notation cAT := 64%N (only parsing).      (* @ *)
Notation cA := 65%N (only parsing).
Notation cE := 69%N (only parsing).
Notation cF := 70%N (only parsing).
Notation cLBRK := 91%N (only parsing).    (* [ *)
Notation cBSL := 92%N (only parsing).     (* \ *)
Notation cRBRK := 93%N (only parsing).    (* ] *)
Notation ca := 97%N (only parsing).
Notation cb := 98%N (only parsing).
Notation ce := 101%N (only parsing).
Notation cf := 102%N (only parsing).
Notation cn := 110%N (only parsing).
Notation cr := 114%N (only parsing).
Notation ct := 116%N (only parsing).
Notation cu := 117%N (only parsing).
Notation cLBRC := 123%N (only parsing).   (* { *)
Notation cPIPE := 124%N (only parsing).   (* | *)
Notation cRBRC := 125%N (only parsing).   (* } *)
Notation cTILDE := 126%N (only parsing).  (* ~ *)
