(** Model of the low-level scanners of src/lib.rs (lines 436-569). *)
From Verif Require Import M_Base.

(** lib.rs:54-66, the info bits. *)
Definition INFO_NULL : N := 2.     (* 1 << 1 *)
Definition INFO_FALSE : N := 4.    (* 1 << 2 *)
Definition INFO_NUMBER : N := 8.   (* 1 << 3 *)
Definition INFO_STRING : N := 16.  (* 1 << 4 *)
Definition INFO_TRUE : N := 32.    (* 1 << 5 *)
Definition INFO_OBJECT : N := 64.  (* 1 << 6 *)
Definition INFO_ARRAY : N := 128.  (* 1 << 7 *)
Definition INFO_ESC : N := 256.    (* 1 << 8 *)
Definition INFO_SIGN : N := 512.   (* 1 << 9 *)
Definition INFO_DOT : N := 1024.   (* 1 << 10 *)
Definition INFO_E : N := 2048.     (* 1 << 11 *)
Definition INFO_FOG : N := 4096.   (* 1 << 12 *)

(** [info & bit == bit]. *)
Definition has (info bit : N) : bool := (N.land info bit =? bit)%N.

(** lib.rs:436-455, the character class table [CHTABLE]. *)
Definition CHQUOTE : N := 2.
Definition CHOPEN : N := 4.
Definition CHCLOSE : N := 8.
Definition CHSTRTOK : N := 16.
Definition CHSQUASH : N := 32.

Definition chtable (c : byte) : N :=
  if ((c =? cLBRC) || (c =? cLBRK) || (c =? cLPAR))%N then N.lor CHSQUASH CHOPEN
  else if ((c =? cRBRC) || (c =? cRBRK) || (c =? cRPAR))%N then N.lor CHSQUASH CHCLOSE
  else if (c =? cQUOTE)%N then N.lor (N.lor CHSQUASH CHQUOTE) CHSTRTOK
  else if (c =? cBSL)%N then N.lor CHSQUASH CHSTRTOK
  else 0%N.

(** lib.rs:458-477 [scan_number] -> (val, info, next_i). *)
Fixpoint scan_number_loop (fuel : nat) (json : bytes) (i : nat) (info : N) : R (nat * N) :=
  match fuel with
  | O => Err EFuel
  | S fuel =>
      if i <? length json then
        ch <- idx json i ;;
        if (ch =? cDOT)%N then scan_number_loop fuel json (i + 1) (N.lor info INFO_DOT)
        else if ((ch =? ce) || (ch =? cE))%N then
          scan_number_loop fuel json (i + 1) (N.lor info INFO_E)
        else if (((ch <? c0) || (c9 <? ch)) && negb (ch =? cMINUS) && negb (ch =? cPLUS))%N then
          Ok (i, info)
        else scan_number_loop fuel json (i + 1) info
      else Ok (i, info)
  end.

Definition scan_number (json : bytes) (i : nat) : R (bytes * N * nat) :=
  let s := i in
  c <- idx json i ;;
  let info := if (c =? cMINUS)%N then INFO_SIGN else 0%N in
  '(i, info) <- scan_number_loop (S (length json)) json (i + 1) info ;;
  v <- slice json s i ;;
  Ok (v, info, i).

(** lib.rs:486-505 / 529-548: the ['tok] loop, which looks for the next byte
    whose class has the given bit, eight bytes at a time while at least nine
    remain ([get_unchecked]) and then one by one.  [Some (ch, i)]: found, the
    loop was left by [break 'tok]; [None]: end of input ([break 'outer]). *)
Inductive tok8 := TFound (ch : byte) (i : nat) | TNext (i : nat).

Fixpoint tok_for (n : nat) (bit : N) (json : bytes) (i : nat) : R tok8 :=
  match n with
  | O => Ok (TNext i)
  | S n =>
      ch <- idx_unchecked json i ;;
      if has (chtable ch) bit then Ok (TFound ch i) else tok_for n bit json (i + 1)
  end.

Fixpoint tok_by1 (fuel : nat) (bit : N) (json : bytes) (i : nat) : R (option (byte * nat)) :=
  match fuel with
  | O => Err EFuel
  | S fuel =>
      if i <? length json then
        ch <- idx json i ;;
        if has (chtable ch) bit then Ok (Some (ch, i)) else tok_by1 fuel bit json (i + 1)
      else Ok None
  end.

Fixpoint tok_by8 (fuel : nat) (bit : N) (json : bytes) (i : nat) : R (option (byte * nat)) :=
  match fuel with
  | O => Err EFuel
  | S fuel =>
      if i + 8 <? length json then
        r <- tok_for 8 bit json i ;;
        match r with
        | TFound ch i => Ok (Some (ch, i))
        | TNext i => tok_by8 fuel bit json i
        end
      else tok_by1 (S (length json)) bit json i
  end.

Definition tok (bit : N) (json : bytes) (i : nat) : R (option (byte * nat)) :=
  tok_by8 (S (length json)) bit json i.

(** lib.rs:480-520 [scan_string] -> (val, info, next_i).  On an unterminated
    string: empty slice, no info, end of input. *)
Fixpoint scan_string_loop (fuel : nat) (json : bytes) (s i : nat) (info : N)
  : R (bytes * N * nat) :=
  match fuel with
  | O => Err EFuel
  | S fuel =>
      t <- tok CHSTRTOK json i ;;
      match t with
      | None => Ok ([], 0%N, length json)
      | Some (ch, i) =>
          if (ch =? cQUOTE)%N then
            let i := i + 1 in
            v <- slice json s i ;;
            Ok (v, info, i)
          else
            let info := N.lor info INFO_ESC in
            let i := i + 1 in
            if i =? length json then Ok ([], 0%N, length json)
            else scan_string_loop fuel json s (i + 1) info
      end
  end.

Definition scan_string (json : bytes) (i : nat) : R (bytes * N * nat) :=
  scan_string_loop (S (length json)) json i (i + 1) 0%N.

(** lib.rs:523-569 [scan_squash] -> (val, next_i).  On an unbalanced value:
    empty slice, end of input. *)
Fixpoint scan_squash_loop (fuel : nat) (json : bytes) (s i : nat) (depth : Z)
  : R (bytes * nat) :=
  match fuel with
  | O => Err EFuel
  | S fuel =>
      t <- tok CHSQUASH json i ;;
      match t with
      | None => Ok ([], length json)
      | Some (ch, i) =>
          if (ch =? cQUOTE)%N then
            '(_, _, i) <- scan_string json i ;;
            scan_squash_loop fuel json s i depth
          else if has (chtable ch) CHOPEN then
            scan_squash_loop fuel json s (i + 1) (depth + 1)
          else if has (chtable ch) CHCLOSE then
            let depth := (depth - 1)%Z in
            if (depth =? 0)%Z then
              let i := i + 1 in
              v <- slice json s i ;;
              Ok (v, i)
            else scan_squash_loop fuel json s (i + 1) depth
          else if (ch =? cBSL)%N then
            let i := i + 1 in
            if i =? length json then Ok ([], length json)
            else scan_squash_loop fuel json s (i + 1) depth
          else scan_squash_loop fuel json s (i + 1) depth
      end
  end.

Definition scan_squash (json : bytes) (i : nat) : R (bytes * nat) :=
  scan_squash_loop (S (length json)) json i (i + 1) 1%Z.
