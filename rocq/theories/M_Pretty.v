(** Model of src/pretty.rs. *)
From Verif Require Import M_Base.

(** pretty.rs:444-474 [ugly].  The body of the inner string loop pushes every
    byte and stops at a quote preceded by an even number of backslashes, which it
    counts backwards (lines 456-465). *)
Fixpoint back_over (fuel : nat) (src : bytes) (j : nat) : R nat :=
  match fuel with
  | O => Err EFuel
  | S fuel =>
      c <- idx src j ;;
      if negb (c =? cBSL)%N then Ok j
      else j <- usub j 1 ;; back_over fuel src j
  end.

(** pretty.rs:453-468; the result is the index at the break (or the length) and
    the output. *)
Fixpoint ugly_string (fuel : nat) (src : bytes) (i : nat) (dst : bytes) : R (nat * bytes) :=
  match fuel with
  | O => Err EFuel
  | S fuel =>
      if i <? length src then
        c <- idx src i ;;
        let dst := dst ++ [c] in
        if (c =? cQUOTE)%N then
          j0 <- usub i 1 ;;
          j <- back_over (S (length src)) src j0 ;;
          d <- usub i j ;;
          if negb (d mod 2 =? 0) then Ok (i, dst)
          else ugly_string fuel src (i + 1) dst
        else ugly_string fuel src (i + 1) dst
      else Ok (i, dst)
  end.

Fixpoint ugly_loop (fuel : nat) (src : bytes) (i : nat) (dst : bytes) : R bytes :=
  match fuel with
  | O => Err EFuel
  | S fuel =>
      if i <? length src then
        c <- idx src i ;;
        if (cSP <? c)%N then
          let dst := dst ++ [c] in
          if (c =? cQUOTE)%N then
            '(i, dst) <- ugly_string (S (length src)) src (i + 1) dst ;;
            ugly_loop fuel src (i + 1) dst
          else ugly_loop fuel src (i + 1) dst
        else ugly_loop fuel src (i + 1) dst
      else Ok dst
  end.

Definition ugly (src : bytes) : R bytes := ugly_loop (S (length src)) src 0 [].

(** pretty.rs:12 [MAX_DEPTH]. *)
Definition MAX_DEPTH : nat := 500.

(** pretty.rs:14-27 [InnerOptions]. *)
Record popts := mkOpts {
  o_width : Z;
  o_prefix : bytes;
  o_indent : bytes;
  o_sort : bool;
}.

(** pretty.rs:33-44 [PrettyOptions::default]. *)
Definition popts_default : popts := mkOpts 80 [] [cSP; cSP] false.

(** pretty.rs:192-223 [extend_pretty_string]: count the backslashes before the
    quote at [j + 1], not going past [s]. *)
Fixpoint count_back (fuel : nat) (json : bytes) (s j : nat) (sc : nat) : R nat :=
  match fuel with
  | O => Err EFuel
  | S fuel =>
      if s <? j then
        c <- idx json j ;;
        if (c =? cBSL)%N then j <- usub j 1 ;; count_back fuel json s j (sc + 1)
        else Ok sc
      else Ok sc
  end.

Fixpoint pretty_string_loop (fuel : nat) (json : bytes) (s i : nat) : R nat :=
  match fuel with
  | O => Err EFuel
  | S fuel =>
      if i <? length json then
        c <- idx json i ;;
        if (c =? cQUOTE)%N then
          j <- usub i 1 ;;
          sc <- count_back (S (length json)) json s j 0 ;;
          if sc mod 2 =? 1 then pretty_string_loop fuel json s (i + 1)
          else Ok (i + 1)
        else pretty_string_loop fuel json s (i + 1)
      else Ok i
  end.

(** Result of the extend functions: (buf, i, nl, ok). *)
Definition extend_pretty_string (buf json : bytes) (i : nat) (nl : Z)
  : R (bytes * nat * Z * bool) :=
  let s := i in
  i <- pretty_string_loop (S (length json)) json s (i + 1) ;;
  t <- slice json s i ;;
  Ok (buf ++ t, i, nl, true).

(** pretty.rs:225-246 [extend_pretty_number]. *)
Fixpoint pretty_number_loop (fuel : nat) (json : bytes) (i : nat) : R nat :=
  match fuel with
  | O => Err EFuel
  | S fuel =>
      if i <? length json then
        c <- idx json i ;;
        if ((c <=? cSP) || (c =? cCOMMA) || (c =? cCOLON) || (c =? cRBRK) || (c =? cRBRC))%N
        then Ok i else pretty_number_loop fuel json (i + 1)
      else Ok i
  end.

Definition extend_pretty_number (buf json : bytes) (i : nat) (nl : Z)
  : R (bytes * nat * Z * bool) :=
  let s := i in
  i <- pretty_number_loop (S (length json)) json (i + 1) ;;
  t <- slice json s i ;;
  Ok (buf ++ t, i, nl, true).

(** pretty.rs:435-442 [extend_tabs]. *)
Fixpoint repeat_bytes (n : nat) (b : bytes) : bytes :=
  match n with O => [] | S n => b ++ repeat_bytes n b end.
Definition extend_tabs (buf prefix indent : bytes) (tabs : Z) : bytes :=
  buf ++ prefix ++ repeat_bytes (Z.to_nat tabs) indent.

(** pretty.rs:248-254 [Pair]. *)
Record pair := mkPair { pr_kstart : nat; pr_kend : nat; pr_vstart : nat; pr_vend : nat }.

(** pretty.rs:413-420: the comparison, on pairs with their key text. *)
Definition pair_le (a b : bytes * pair) : bool :=
  match bcmp (fst a) (fst b) with
  | Lt => true
  | Gt => false
  | Eq => pr_vstart (snd a) <=? pr_vstart (snd b)
  end.

(** [Vec::sort_by] of the standard library is a stable comparison sort; modelled
    by stable insertion sort (the result of a stable sort is unique). *)
Fixpoint insert_pair (x : bytes * pair) (l : list (bytes * pair)) : list (bytes * pair) :=
  match l with
  | [] => [x]
  | y :: t => if pair_le x y then x :: l else y :: insert_pair x t
  end.
Fixpoint isort_pairs (l : list (bytes * pair)) : list (bytes * pair) :=
  match l with
  | [] => []
  | x :: t => insert_pair x (isort_pairs t)
  end.

(** pretty.rs:414-415: the key texts; the slices panic when the key is shorter
    than its two quotes. *)
Fixpoint pair_keys (json : bytes) (pairs : list pair) : R (list (bytes * pair)) :=
  match pairs with
  | [] => Ok []
  | p :: t =>
      e <- usub (pr_kend p) 1 ;;
      k <- slice json (pr_kstart p + 1) e ;;
      r <- pair_keys json t ;;
      Ok ((k, p) :: r)
  end.

(** pretty.rs:423-430: concatenate the sorted members. *)
Fixpoint join_pairs (buf : bytes) (pairs : list pair) : R bytes :=
  match pairs with
  | [] => Ok []
  | p :: t =>
      s <- slice buf (pr_vstart p) (pr_vend p) ;;
      r <- join_pairs buf t ;;
      Ok (s ++ match t with [] => [] | _ => [cCOMMA; cLF] end ++ r)
  end.

(** pretty.rs:406-433 [sort_pairs].  With fewer than two pairs the comparison is
    never called, so no key is sliced. *)
Definition sort_pairs (json buf : bytes) (pairs : list pair) : R bytes :=
  match pairs with
  | [] => Ok buf
  | p0 :: rest =>
      let vstart := pr_vstart p0 in
      let vend := pr_vend (last pairs p0) in
      sorted <- (match rest with
                 | [] => Ok pairs
                 | _ => ks <- pair_keys json pairs ;; Ok (map snd (isort_pairs ks))
                 end) ;;
      _ <- usub vend vstart ;;
      nbuf <- join_pairs buf sorted ;;
      Ok (firstn vstart buf ++ nbuf)
  end.

(** pretty.rs:125-189: skip to the next byte that starts a value; anything else
    is dropped.  Returns the length when there is none. *)
Definition starts_value (c : byte) : bool :=
  ((c =? cQUOTE) || ((c0 <=? c) && (c <=? c9)) || (c =? cMINUS) || (c =? cLBRC)
   || (c =? cLBRK) || (c =? ct) || (c =? cf) || (c =? cn))%N.
Fixpoint skip_to_value (fuel : nat) (json : bytes) (i : nat) : R nat :=
  match fuel with
  | O => Err EFuel
  | S fuel =>
      if i <? length json then
        c <- idx json i ;;
        if (c <=? cSP)%N then skip_to_value fuel json (i + 1)
        else if starts_value c then Ok i
        else skip_to_value fuel json (i + 1)
      else Ok i
  end.

(** [buf[n] = c] on a vector. *)
Definition set_byte (l : bytes) (n : nat) (c : byte) : R bytes :=
  if n <? length l then Ok (firstn n l ++ c :: skipn (S n) l) else Err EPanic.

(** pretty.rs:111-190 [extend_pretty_any], 256-404 [extend_pretty_object] and
    its loop (316-403); one fuel for all three.  [open]/[close] are the bracket
    bytes.  Results: (buf, i, nl, ok). *)
Fixpoint extend_pretty_any (fuel : nat) (buf json : bytes) (i : nat) (pretty : bool)
    (width : Z) (prefix indent : bytes) (sort_keys : bool) (tabs nl max : Z) (depth : nat)
    : R (bytes * nat * Z * bool) :=
  match fuel with
  | O => Err EFuel
  | S fuel =>
      i <- skip_to_value (S (length json)) json i ;;
      if negb (i <? length json) then Ok (buf, i, nl, true) else
      c <- idx json i ;;
      if (c =? cQUOTE)%N then extend_pretty_string buf json i nl
      else if (((c0 <=? c) && (c <=? c9)) || (c =? cMINUS))%N then
        extend_pretty_number buf json i nl
      else if (c =? cLBRC)%N then
        extend_pretty_object fuel buf json i cLBRC cRBRC pretty width prefix indent
          sort_keys tabs nl max (depth + 1)
      else if (c =? cLBRK)%N then
        extend_pretty_object fuel buf json i cLBRK cRBRK pretty width prefix indent
          sort_keys tabs nl max (depth + 1)
      else if (c =? ct)%N then Ok (buf ++ [116; 114; 117; 101]%N, i + 4, nl, true)
      else if (c =? cf)%N then Ok (buf ++ [102; 97; 108; 115; 101]%N, i + 5, nl, true)
      else (* n *) Ok (buf ++ [110; 117; 108; 108]%N, i + 4, nl, true)
  end
with extend_pretty_object (fuel : nat) (buf json : bytes) (i : nat) (open close : byte)
    (pretty : bool) (width : Z) (prefix indent : bytes) (sort_keys : bool)
    (tabs nl max : Z) (depth : nat) : R (bytes * nat * Z * bool) :=
  match fuel with
  | O => Err EFuel
  | S fuel =>
      if depth =? MAX_DEPTH then
        rest <- slice_from json i ;;
        fragment <- ugly rest ;;
        Ok (buf ++ fragment, length json, nl, true)
      else
        let full :=
          extend_pretty_loop fuel (buf ++ [open]) json (i + 1) open close pretty width
            prefix indent sort_keys tabs nl max depth [] 0 in
        if (0 <? width)%Z then
          if pretty && (open =? cLBRK)%N && (max =? -1)%Z then
            (* try to create a single line array *)
            let max1 := (width - (Z.of_nat (length buf) - nl))%Z in
            if (3 <? max1)%Z then
              '(buf1, i1, _, ok) <-
                 extend_pretty_object fuel buf json i cLBRK cRBRK false width prefix []
                   sort_keys 0 0 max1 depth ;;
              if ok && (Z.of_nat (length buf1) - Z.of_nat (length buf) <=? max1)%Z
              then Ok (buf1, i1, nl, true)
              else
                (* buf.truncate(s1): back to the bytes before the attempt *)
                extend_pretty_loop fuel (firstn (length buf) buf1 ++ [open]) json (i + 1)
                  open close pretty width prefix indent sort_keys tabs nl max depth [] 0
            else full
          else if negb (max =? -1)%Z && (open =? cLBRC)%N then Ok (buf, i, nl, false)
          else full
        else full
  end
with extend_pretty_loop (fuel : nat) (buf json : bytes) (i : nat) (open close : byte)
    (pretty : bool) (width : Z) (prefix indent : bytes) (sort_keys : bool)
    (tabs nl max : Z) (depth : nat) (pairs : list pair) (n : nat)
    : R (bytes * nat * Z * bool) :=
  match fuel with
  | O => Err EFuel
  | S fuel =>
      if negb (i <? length json) then Ok (buf, i, nl, negb (open =? cLBRC)%N) else
      c <- idx json i ;;
      if (c <=? cSP)%N then
        extend_pretty_loop fuel buf json (i + 1) open close pretty width prefix indent
          sort_keys tabs nl max depth pairs n
      else if (c =? close)%N then
        '(buf, nl) <-
          (if pretty then
             buf <- (if (open =? cLBRC)%N && sort_keys then sort_pairs json buf pairs
                     else Ok buf) ;;
             '(buf, nl) <-
               (if 0 <? n then
                  let nl := Z.of_nat (length buf) in
                  l <- usub (length buf) 1 ;;
                  z <- idx buf l ;;
                  if negb (z =? cSP)%N then Ok (buf ++ [cLF], nl) else Ok (buf, nl)
                else Ok (buf, nl)) ;;
             l <- usub (length buf) 1 ;;
             z <- idx buf l ;;
             if negb (z =? open)%N then Ok (extend_tabs buf prefix indent tabs, nl)
             else Ok (buf, nl)
           else Ok (buf, nl)) ;;
        Ok (buf ++ [close], i + 1, nl, negb (open =? cLBRC)%N)
      else if (open =? cLBRK)%N || (c =? cQUOTE)%N then
        let buf := if 0 <? n then
                     let buf := buf ++ [cCOMMA] in
                     if negb (width =? -1)%Z && (open =? cLBRK)%N then buf ++ [cSP] else buf
                   else buf in
        '(buf, nl, kstart, vstart) <-
          (if pretty then
             let nl := Z.of_nat (length buf) in
             l <- usub (length buf) 1 ;;
             z <- idx buf l ;;
             buf <- (if (z =? cSP)%N then set_byte buf l cLF else Ok (buf ++ [cLF])) ;;
             let '(ks, vs) := if (open =? cLBRC)%N && sort_keys then (i, length buf)
                              else (0, 0) in
             Ok (extend_tabs buf prefix indent (tabs + 1), nl, ks, vs)
           else Ok (buf, nl, 0, 0)) ;;
        '(buf, i, nl, kend) <-
          (if (open =? cLBRC)%N then
             '(buf, i, nl, _) <- extend_pretty_string buf json i nl ;;
             let kend := if sort_keys then i else 0 in
             let buf := buf ++ [cCOLON] in
             let buf := if pretty then buf ++ [cSP] else buf in
             Ok (buf, i, nl, kend)
           else Ok (buf, i, nl, 0)) ;;
        '(buf, i, nl, ok) <-
          extend_pretty_any fuel buf json i pretty width prefix indent sort_keys
            (tabs + 1) nl max depth ;;
        if negb (max =? -1)%Z && negb ok then Ok (buf, i, nl, false) else
        let vend := length buf in
        let pairs := if pretty && (open =? cLBRC)%N && sort_keys then
                       if (kstart <=? kend) && (vstart <=? vend)
                       then pairs ++ [mkPair kstart kend vstart vend] else pairs
                     else pairs in
        i <- usub i 1 ;;
        extend_pretty_loop fuel buf json (i + 1) open close pretty width prefix indent
          sort_keys tabs nl max depth pairs (n + 1)
      else
        extend_pretty_loop fuel buf json (i + 1) open close pretty width prefix indent
          sort_keys tabs nl max depth pairs n
  end.

(** pretty.rs:81-109 [pretty_options]. *)
Definition pretty_options (json : bytes) (o : popts) : R bytes :=
  '(buf, _, _, _) <-
    extend_pretty_any (8 + 4 * length json) (o_prefix o) json 0 true (o_width o)
      (o_prefix o) (o_indent o) (o_sort o) 0 0 (-1) 0 ;;
  Ok (match buf with [] => [] | _ => buf ++ [cLF] end).

(** pretty.rs:74-79 [pretty]. *)
Definition pretty (json : bytes) : R bytes := pretty_options json popts_default.
