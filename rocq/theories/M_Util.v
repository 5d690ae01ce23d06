(** Model of src/util.rs. *)
From Verif Require Import M_Base.

(** util.rs:23-31 [trim]: drop bytes [<= ' '] at both ends.  The two loops
    re-slice one byte at a time; here they are structural recursions. *)
Fixpoint trim_start (b : bytes) : bytes :=
  match b with
  | c :: t => if (c <=? cSP)%N then trim_start t else b
  | [] => []
  end.

Fixpoint trim_end (b : bytes) : bytes :=
  match b with
  | [] => []
  | c :: t =>
      match trim_end t with
      | [] => if (c <=? cSP)%N then [] else [c]
      | t' => c :: t'
      end
  end.

Definition trim (b : bytes) : bytes := trim_end (trim_start b).

(** [char::to_digit(16)] of the standard library, used by [from_str_radix]. *)
Definition hex_digit (c : byte) : option N :=
  if ((c0 <=? c) && (c <=? c9))%N then Some (c - c0)%N
  else if ((ca <=? c) && (c <=? cf))%N then Some (c - ca + 10)%N
  else if ((cA <=? c) && (c <=? cF))%N then Some (c - cA + 10)%N
  else None.

Fixpoint hex_digits (acc : N) (s : bytes) : option N :=
  match s with
  | [] => Some acc
  | c :: t =>
      match hex_digit c with
      | Some d => hex_digits (acc * 16 + d)%N t
      | None => None
      end
  end.

(** [u32::from_str_radix(s, 16)] of the standard library: one optional leading
    '+', then at least one hex digit.  Only used on 4-byte slices, so u32
    overflow cannot occur and is not modelled. *)
Definition from_str_radix16 (s : bytes) : option N :=
  match s with
  | [] => None
  | c :: t =>
      if (c =? cPLUS)%N then
        match t with [] => None | _ => hex_digits 0 t end
      else hex_digits 0 s
  end.

(** util.rs:96-98 [utf16_is_surrogate]. *)
Definition utf16_is_surrogate (r : N) : bool := ((0xd800 <=? r) && (r <? 0xe000))%N.

(** util.rs:100-106 [utf16_decode].  In Rust [+] binds tighter than [<<], which
    binds tighter than [|]: the constant is added to the low half only. *)
Definition utf16_decode (r1 r2 : N) : N :=
  if ((0xd800 <=? r1) && (r1 <? 0xdc00) && (0xdc00 <=? r2) && (r2 <? 0xe000))%N then
    N.lor (N.shiftl (r1 - 0xd800) 10) ((r2 - 0xdc00) + 0x10000)
  else 0xFFFD%N.

(** [char::from_u32(r).unwrap_or(REPLACEMENT_CHARACTER)] of the standard library. *)
Definition char_or_replacement (r : N) : N :=
  if ((r <=? 0x10FFFF) && negb ((0xd800 <=? r) && (r <=? 0xdfff)))%N then r else 0xFFFD%N.

(** [char::encode_utf8] of the standard library. *)
Definition encode_utf8 (r : N) : bytes :=
  if (r <? 0x80)%N then [r]
  else if (r <? 0x800)%N then [0xC0 + r / 64; 0x80 + r mod 64]%N
  else if (r <? 0x10000)%N then
    [0xE0 + r / 4096; 0x80 + (r / 64) mod 64; 0x80 + r mod 64]%N
  else [0xF0 + r / 262144; 0x80 + (r / 4096) mod 64; 0x80 + (r / 64) mod 64; 0x80 + r mod 64]%N.

(** util.rs:50-58: the one-letter escapes. *)
Definition short_escape (c : byte) : option byte :=
  if (c =? cQUOTE)%N then Some cQUOTE
  else if (c =? cBSL)%N then Some cBSL
  else if (c =? cSLASH)%N then Some cSLASH
  else if (c =? cb)%N then Some 8%N
  else if (c =? cf)%N then Some 12%N
  else if (c =? cn)%N then Some cLF
  else if (c =? cr)%N then Some cCR
  else if (c =? ct)%N then Some cTAB
  else None.

(** util.rs:40-94, the loop of [unescape]; [json] is already stripped of its
    quotes, [out] is the output so far. *)
Fixpoint unescape_loop (fuel : nat) (json : bytes) (i : nat) (out : bytes) : R bytes :=
  match fuel with
  | O => Err EFuel
  | S fuel =>
      if i =? length json then Ok out else
      c <- idx json i ;;
      if (c <? cSP)%N then Ok out
      else if (c =? cBSL)%N then
        let i := i + 1 in
        if i =? length json then Ok out else
        e <- idx json i ;;
        match short_escape e with
        | Some x => unescape_loop fuel json (i + 1) (out ++ [x])
        | None =>
            if (e =? cu)%N then
              if length json <? i + 5 then Ok out else
              hs <- slice json (i + 1) (i + 5) ;;
              let r := match from_str_radix16 hs with Some r => r | None => 0xFFFD%N end in
              let i := i + 5 in
              '(r, i) <-
                (if utf16_is_surrogate r then
                   rest <- slice_from json i ;;
                   if 6 <=? length rest then
                     x0 <- idx json i ;;
                     x1 <- idx json (i + 1) ;;
                     if ((x0 =? cBSL) && (x1 =? cu))%N then
                       hs2 <- slice json (i + 2) (i + 6) ;;
                       let r := match from_str_radix16 hs2 with
                                | Some r2 => utf16_decode r r2
                                | None => 0xFFFD%N
                                end in
                       Ok (r, i + 6)
                     else Ok (r, i)
                   else Ok (r, i)
                 else Ok (r, i)) ;;
              unescape_loop fuel json i (out ++ encode_utf8 (char_or_replacement r))
            else Ok out
        end
      else unescape_loop fuel json (i + 1) (out ++ [c])
  end.

(** util.rs:34-94 [unescape]. *)
Definition unescape (json : bytes) : R bytes :=
  if length json <? 2 then Ok [] else
  a <- idx json 0 ;;
  if negb (a =? cQUOTE)%N then Ok [] else
  last <- usub (length json) 1 ;;
  z <- idx json last ;;
  if negb (z =? cQUOTE)%N then Ok [] else
  body <- slice json 1 last ;;
  unescape_loop (S (length body)) body 0 [].

(** util.rs:143-146: one hex digit of [\u00XX]. *)
Definition hex_upper (h : N) : byte := if (h <? 10)%N then (h + c0)%N else (h - 10 + cA)%N.

(** util.rs:128-151: the output for one byte of [extend_json_string]. *)
Definition escape_byte (c : byte) : bytes :=
  if ((c <? cSP) || (c =? cLF) || (c =? cBSL) || (c =? cQUOTE))%N then
    cBSL ::
    (if (c =? cQUOTE)%N then [cQUOTE]
     else if (c =? cBSL)%N then [cBSL]
     else if (c =? 8)%N then [cb]
     else if (c =? 12)%N then [cf]
     else if (c =? cLF)%N then [cn]
     else if (c =? cCR)%N then [cr]
     else if (c =? cTAB)%N then [ct]
     else [cu; c0; c0; hex_upper (N.shiftr c 4); hex_upper (N.land c 15)])
  else [c].

(** util.rs:126-154 [extend_json_string]: the bytes appended to [out]. *)
Definition json_string (s : bytes) : bytes :=
  cQUOTE :: flat_map escape_byte s ++ [cQUOTE].

(** util.rs:157-161 [escape]. *)
Definition escape (s : bytes) : bytes := json_string s.

(** util.rs:174-214 [pmatch].  The code re-slices [pattern] and [string], so the
    model works on the remaining suffixes; [continue] and the recursive call are
    both recursive calls here. *)
Fixpoint pmatch_loop (fuel : nat) (pattern string : bytes) : R bool :=
  match fuel with
  | O => Err EFuel
  | S fuel =>
      match pattern with
      | [] => Ok (match string with [] => true | _ => false end)
      | p0 :: p1 =>
          (* util.rs:204-211: compare the first bytes *)
          let step (pattern : bytes) :=
            match string with
            | [] => Ok false
            | s0 :: s1 =>
                match pattern with
                | [] => Err EPanic
                | q0 :: q1 =>
                    if negb (q0 =? cQM)%N && negb (s0 =? q0)%N then Ok false
                    else pmatch_loop fuel q1 s1
                end
            end in
          if (p0 =? cBSL)%N then
            match p1 with [] => Ok false | _ => step p1 end
          else if (p0 =? cSTAR)%N then
            match p1 with
            | [] => Ok true
            | p2 :: _ =>
                if (p2 =? cSTAR)%N then pmatch_loop fuel p1 string
                else
                  m <- pmatch_loop fuel p1 string ;;
                  if m : bool then Ok true
                  else match string with
                       | [] => Ok false
                       | _ :: s1 => pmatch_loop fuel pattern s1
                       end
            end
          else step pattern
      end
  end.

Definition pmatch (pattern string : bytes) : R bool :=
  pmatch_loop (S (length pattern + length string)) pattern string.
