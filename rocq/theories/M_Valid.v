(** Model of src/valid.rs. *)
From Verif Require Import M_Base.

(** valid.rs:8-54: the class table. *)
Definition VSPACE : N := 2.    (* 1 << 1 *)
Definition VSTRING : N := 4.   (* 1 << 2 *)
Definition vtable (c : byte) : N :=
  N.lor (if ((c =? cTAB) || (c =? cLF) || (c =? cCR) || (c =? cSP))%N then VSPACE else 0)
        (if ((c <=? 0x1F) || (c =? cQUOTE) || (c =? cBSL))%N then VSTRING else 0).

(** valid.rs:56-58 [isspace]. *)
Definition isspace (c : byte) : bool := (N.land (vtable c) VSPACE =? VSPACE)%N.
Definition isstring (c : byte) : bool := (N.land (vtable c) VSTRING =? VSTRING)%N.

(** A [while i < len && !stop(json[i]) { i += 1 }] loop: valid.rs:86-90 (first
    loop of [valid_any]), 120-125 and 222-228. *)
Fixpoint scan_while (fuel : nat) (stop : byte -> bool) (json : bytes) (i : nat) : R nat :=
  match fuel with
  | O => Err EFuel
  | S fuel =>
      if i <? length json then
        c <- idx json i ;;
        if stop c then Ok i else scan_while fuel stop json (i + 1)
      else Ok i
  end.

(** valid.rs:113-118 and 214-220: a [for] over a block of bytes, leaving at the
    first stop byte: [inl i] stopped at [i], [inr i] block exhausted. *)
Fixpoint scan_block (stop : byte -> bool) (block : bytes) (i : nat) : nat + nat :=
  match block with
  | [] => inr i
  | c :: t => if stop c then inl i else scan_block stop t (i + 1)
  end.

(** Block of [n] bytes once, then byte by byte: valid.rs:112-126 with n = 16,
    213-228 with n = 32.  The result is the index of the first stop byte at or
    after [i], or the length. *)
Definition scan_blocked (n : nat) (stop : byte -> bool) (json : bytes) (i : nat) : R nat :=
  if i + n <? length json then
    block <- slice json i (i + n) ;;
    match scan_block stop block i with
    | inl i => Ok i
    | inr i => scan_while (S (length json)) stop json i
    end
  else scan_while (S (length json)) stop json i.

(** valid.rs:110-128 [strip_ws]. *)
Definition strip_ws (json : bytes) (i : nat) : R nat :=
  scan_blocked 16 (fun c => negb (isspace c)) json i.

(** valid.rs:204-206 [ishexdigit]. *)
Definition ishexdigit (c : byte) : bool :=
  (((c0 <=? c) && (c <=? c9)) || ((ca <=? c) && (c <=? cf)) || ((cA <=? c) && (c <=? cF)))%N.

(** valid.rs:245-253: the four hex digits of a unicode escape; on entry [i] is
    the index of the [u]. *)
Fixpoint valid_hex (n : nat) (json : bytes) (i : nat) : R (bool * nat) :=
  match n with
  | O => Ok (true, i)
  | S n =>
      let i := i + 1 in
      if i =? length json then Ok (false, i) else
      c <- idx json i ;;
      if negb (ishexdigit c) then Ok (false, i) else valid_hex n json i
  end.

(** valid.rs:243: the one-letter escapes. *)
Definition is_short_escape (c : byte) : bool :=
  ((c =? cQUOTE) || (c =? cBSL) || (c =? cSLASH) || (c =? cb) || (c =? cf)
   || (c =? cn) || (c =? cr) || (c =? ct))%N.

(** valid.rs:210-259: the loop of [valid_string]. *)
Fixpoint valid_string_loop (fuel : nat) (json : bytes) (i : nat) : R (bool * nat) :=
  match fuel with
  | O => Err EFuel
  | S fuel =>
      i <- scan_blocked 32 isstring json i ;;
      if negb (i <? length json) then Ok (false, i) else
      c <- idx json i ;;
      if (c <? cSP)%N then Ok (false, i)
      else if (c =? cQUOTE)%N then Ok (true, i + 1)
      else if (c =? cBSL)%N then
        let i := i + 1 in
        if i =? length json then Ok (false, i) else
        e <- idx json i ;;
        if is_short_escape e then valid_string_loop fuel json (i + 1)
        else if (e =? cu)%N then
          '(ok, i) <- valid_hex 4 json i ;;
          if ok : bool then valid_string_loop fuel json (i + 1) else Ok (false, i)
        else Ok (false, i)
      else valid_string_loop fuel json (i + 1)
  end.

(** valid.rs:208-260 [valid_string]. *)
Definition valid_string (json : bytes) (i : nat) : R (bool * nat) :=
  valid_string_loop (S (length json)) json (i + 1).

Definition vdigit (c : byte) : bool := ((c0 <=? c) && (c <=? c9))%N.

(** valid.rs:280-286, 301-307, 328-334: skip digits. *)
Definition skip_digits (json : bytes) (i : nat) : R nat :=
  scan_while (S (length json)) (fun c => negb (vdigit c)) json i.

(** valid.rs:309-336: the exponent part. *)
Definition valid_number_exp (json : bytes) (i : nat) : R (bool * nat) :=
  if i =? length json then Ok (true, i) else
  c <- idx json i ;;
  if ((c =? ce) || (c =? cE))%N then
    let i := i + 1 in
    if i =? length json then Ok (false, i) else
    c <- idx json i ;;
    let i := if ((c =? cPLUS) || (c =? cMINUS))%N then i + 1 else i in
    if i =? length json then Ok (false, i) else
    c <- idx json i ;;
    if ((c <? c0) || (c9 <? c))%N then Ok (false, i) else
    i <- skip_digits json (i + 1) ;;
    Ok (true, i)
  else Ok (true, i).

(** valid.rs:288-308: the fraction part, then the exponent. *)
Definition valid_number_frac (json : bytes) (i : nat) : R (bool * nat) :=
  if i =? length json then Ok (true, i) else
  c <- idx json i ;;
  if (c =? cDOT)%N then
    let i := i + 1 in
    if i =? length json then Ok (false, i) else
    c <- idx json i ;;
    if ((c <? c0) || (c9 <? c))%N then Ok (false, i) else
    i <- skip_digits json (i + 1) ;;
    valid_number_exp json i
  else valid_number_exp json i.

(** valid.rs:273-287: the integer part, then the rest. *)
Definition valid_number_int (json : bytes) (i : nat) : R (bool * nat) :=
  if i =? length json then Ok (false, i) else
  c <- idx json i ;;
  if (c =? c0)%N then valid_number_frac json (i + 1)
  else i <- skip_digits json i ;; valid_number_frac json i.

(** valid.rs:262-337 [valid_number]. *)
Definition valid_number (json : bytes) (i : nat) : R (bool * nat) :=
  c <- idx json i ;;
  if (c =? cMINUS)%N then
    let i := i + 1 in
    if i =? length json then Ok (false, i) else
    c <- idx json i ;;
    if ((c <? c0) || (c9 <? c))%N then Ok (false, i) else
    valid_number_int json i
  else valid_number_int json i.

(** valid.rs:339-360 [valid_true], [valid_false], [valid_null]. *)
Definition valid_lit (lit : bytes) (json : bytes) (i : nat) : R (bool * nat) :=
  if i + length lit <=? length json then
    s <- slice json i (i + length lit) ;;
    if beq s lit then Ok (true, i + length lit) else Ok (false, i)
  else Ok (false, i).

Definition lit_true : bytes := [116; 114; 117; 101]%N.
Definition lit_false : bytes := [102; 97; 108; 115; 101]%N.
Definition lit_null : bytes := [110; 117; 108; 108]%N.

(** valid.rs:85-108 [valid_any], 130-174 [valid_object], 176-202 [valid_array];
    one fuel for the recursion and the two member/element loops. *)
Fixpoint valid_any (fuel : nat) (json : bytes) (i : nat) : R (bool * nat) :=
  match fuel with
  | O => Err EFuel
  | S fuel =>
      i <- scan_while (S (length json)) (fun c => negb (isspace c)) json i ;;
      if negb (i <? length json) then Ok (false, i) else
      c <- idx json i ;;
      if (c =? cLBRC)%N then
        i <- strip_ws json (i + 1) ;;
        if i =? length json then Ok (false, i) else
        c <- idx json i ;;
        if (c =? cRBRC)%N then Ok (true, i + 1) else valid_object_loop fuel json i
      else if (c =? cLBRK)%N then
        i <- strip_ws json (i + 1) ;;
        if i =? length json then Ok (false, i) else
        c <- idx json i ;;
        if (c =? cRBRK)%N then Ok (true, i + 1) else valid_array_loop fuel json i
      else if (c =? cQUOTE)%N then valid_string json i
      else if (c =? ct)%N then valid_lit lit_true json i
      else if (c =? cf)%N then valid_lit lit_false json i
      else if (c =? cn)%N then valid_lit lit_null json i
      else if ((c =? cMINUS) || vdigit c)%N then valid_number json i
      else Ok (false, i)
  end
with valid_object_loop (fuel : nat) (json : bytes) (i : nat) : R (bool * nat) :=
  match fuel with
  | O => Err EFuel
  | S fuel =>
      c <- idx json i ;;
      if negb (c =? cQUOTE)%N then Ok (false, i) else
      '(ok, next_i) <- valid_string json i ;;
      if negb ok then Ok (false, i) else
      i <- strip_ws json next_i ;;
      if i =? length json then Ok (false, i) else
      c <- idx json i ;;
      if negb (c =? cCOLON)%N then Ok (false, i) else
      '(ok, next_i) <- valid_any fuel json (i + 1) ;;
      if negb ok then Ok (false, i) else
      i <- strip_ws json next_i ;;
      if i =? length json then Ok (false, i) else
      c <- idx json i ;;
      if (c =? cRBRC)%N then Ok (true, i + 1)
      else if negb (c =? cCOMMA)%N then Ok (false, i) else
      i <- strip_ws json (i + 1) ;;
      if i =? length json then Ok (false, i) else
      valid_object_loop fuel json i
  end
with valid_array_loop (fuel : nat) (json : bytes) (i : nat) : R (bool * nat) :=
  match fuel with
  | O => Err EFuel
  | S fuel =>
      '(ok, next_i) <- valid_any fuel json i ;;
      if negb ok then Ok (false, i) else
      i <- strip_ws json next_i ;;
      if i =? length json then Ok (false, i) else
      c <- idx json i ;;
      if (c =? cRBRK)%N then Ok (true, i + 1)
      else if negb (c =? cCOMMA)%N then Ok (false, i)
      else valid_array_loop fuel json (i + 1)
  end.

(** valid.rs:68-83 [valid]. *)
Definition valid (json : bytes) : R bool :=
  '(ok, i) <- valid_any (S (S (2 * length json))) json 0 ;;
  if negb ok then Ok false else
  i <- scan_while (S (length json)) (fun c => negb (isspace c)) json i ;;
  Ok (negb (i <? length json)).
