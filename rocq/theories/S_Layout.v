(** Specification: the layout of pretty printed documents.  Nothing here mentions
    the model. *)
From Coq Require Import List NArith ZArith Bool Arith.
From Verif Require Export S_Json S_Tree.
Import ListNotations.

(** No object in it. *)
Fixpoint objectless (t : tree) : bool :=
  match t with
  | TArr es => forallb objectless es
  | TObj _ => false
  | _ => true
  end.

(** Texts separated by a comma and a space. *)
Fixpoint spaced (l : list text) : text :=
  match l with
  | [] => []
  | [x] => x
  | x :: t => x ++ [0x2C; 0x20]%N ++ spaced t
  end.

(** An objectless tree on a single line. *)
Fixpoint one_line (t : tree) : text :=
  match t with
  | TArr es => 0x5B%N :: spaced (map one_line es) ++ [0x5D%N]
  | _ => minimal t
  end.

Section layout.
Variables (width : Z) (prefix indent : text) (sort_keys : bool).

(** What a line at nesting level [n] starts with. *)
Definition margin (n : nat) : text := prefix ++ concat (repeat indent n).
Definition line (n : nat) (x : text) : text := 0x0A%N :: margin n ++ x.

(** There is a line width, and an array written from column [col] on stays within it
    on a single line. *)
Definition fits (t : tree) (col : Z) : bool :=
  objectless t && (0 <? width)%Z && (col + Z.max 4 (Z.of_nat (length (one_line t))) <=? width)%Z.

(** The text of [t] written at nesting level [n] from column [col] on.  The column
    of the first element of an array and of the members of an object is counted from
    the line break on, that of the other elements from the byte after it. *)
Fixpoint layout (t : tree) (n : nat) (col : Z) : text :=
  match t with
  | TArr [] => [0x5B; 0x5D]%N
  | TArr (e :: es) =>
      if fits t col then one_line t
      else
        let m := Z.of_nat (length (margin (S n))) in
        0x5B%N :: commas (line (S n) (layout e (S n) (m + 1)) ::
                          map (fun e => line (S n) (layout e (S n) m)) es)
        ++ line n [0x5D%N]
  | TObj [] => [0x7B; 0x7D]%N
  | TObj ms =>
      let lines := map (fun m => match m with (k, v) =>
        let head := quoted k ++ [0x3A; 0x20]%N in
        (k, line (S n) (head ++ layout v (S n) (Z.of_nat (length (margin (S n) ++ head)) + 1))) end) ms in
      0x7B%N :: commas (map snd (if sort_keys then sort_members lines else lines))
      ++ line n [0x7D%N]
  | _ => minimal t
  end.

(** A whole document: it starts with the prefix and ends with a line break. *)
Definition page (t : tree) : text := prefix ++ layout t 0 (Z.of_nat (length prefix)) ++ [0x0A%N].
End layout.
