(** Model of src/path.rs. *)
From Verif Require Import M_Base M_Util M_Scan M_Value.

Definition is_sep (c : byte) : bool := ((c =? cDOT) || (c =? cPIPE))%N.

(** path.rs:22-24 [more]. *)
Definition p_more (p : path) : bool := negb (p_sep p =? 0)%N.

(** path.rs:36-38 [is_modifier]. *)
Definition is_modifier (p : path) : bool :=
  match p_comp p with c :: _ => (c =? cAT)%N | [] => false end.

(** path.rs:39-41 [is_multipath]. *)
Definition is_multipath (p : path) : bool :=
  match p_comp p with c :: _ => ((c =? cLBRC) || (c =? cLBRK))%N | [] => false end.

(** path.rs:192-244 [path_next_query]; [extra] is [path.extra]. *)
Definition path_next_query (extra : bytes) : R path :=
  c1 <- idx extra 1 ;;
  if negb (c1 =? cLPAR)%N then Ok path_default else
  '(_, next_i) <- scan_squash extra 1 ;;
  (* lines 198-222: [None] is [return Path::default()] *)
  r <- (let i := next_i in
        if i <? length extra then
          c <- idx extra i ;;
          if (c =? cHASH)%N then
            let i := i + 1 in
            if i <? length extra then
              c <- idx extra i ;;
              if is_sep c then Ok (Some (i, c)) else Ok None
            else Ok (Some (i, 0%N))
          else if is_sep c then Ok (Some (i, c))
          else Ok None
        else Ok (Some (i, 0%N))) ;;
  match r with
  | None => Ok path_default
  | Some (i, sep) =>
      ex <- (if (sep =? 0)%N then slice_from extra i else slice_from extra (i + 1)) ;;
      comp <- slice extra 0 i ;;
      l1 <- usub (length comp) 1 ;;
      z <- idx comp l1 ;;
      let p := mkPath comp false false sep 0 ex in
      if (z =? cHASH)%N then
        l2 <- usub (length comp) 2 ;;
        y <- idx comp l2 ;;
        if negb (y =? cRPAR)%N then Ok path_default else Ok p
      else if negb (z =? cRPAR)%N then Ok path_default
      else Ok p
  end.

(** path.rs:246-268 [path_next_multipath]. *)
Definition path_next_multipath (extra : bytes) : R path :=
  '(_, i) <- scan_squash extra 0 ;;
  at_sep <- (if i =? length extra then Ok None
             else c <- idx extra i ;; Ok (if is_sep c then Some c else None)) ;;
  let '(e, s, sep) := match at_sep with
                      | None => (i, length extra, 0%N)
                      | Some c => (i, i + 1, c)
                      end in
  comp <- slice extra 0 e ;;
  ex <- slice_from extra s ;;
  Ok (mkPath comp false false sep 0 ex).

(** path.rs:314-321: skip to just after the next separator. *)
Fixpoint skip_to_sep (fuel : nat) (extra : bytes) (i : nat) : R (nat * byte) :=
  match fuel with
  | O => Err EFuel
  | S fuel =>
      if i <? length extra then
        c <- idx extra i ;;
        if is_sep c then Ok (i + 1, c) else skip_to_sep fuel extra (i + 1)
      else Ok (i, 0%N)
  end.

(** path.rs:290-331, the main loop of [path_next]; the state is
    (i, sep, esc, pat, marg). *)
Fixpoint path_next_loop (fuel : nat) (extra : bytes) (modi : bool)
    (i : nat) (esc pat : bool) (marg : nat) : R (nat * byte * bool * bool * nat) :=
  match fuel with
  | O => Err EFuel
  | S fuel =>
      if i <? length extra then
        c <- idx extra i ;;
        if (c =? cBSL)%N then
          let i := i + 1 in
          if i =? length extra then Ok (i, 0%N, true, pat, marg)
          else path_next_loop fuel extra modi (i + 1) true pat marg
        else if modi && (c =? cCOLON)%N then
          let marg := i in
          let i := i + 1 in
          if i =? length extra then Ok (i, 0%N, esc, pat, marg)
          else
            c <- idx extra i ;;
            if ((c =? cLBRC) || (c =? cLBRK) || (c =? cQUOTE))%N then
              '(_, i, _) <- proc_flat extra i ;;
              if i <? length extra then
                c <- idx extra i ;;
                if is_sep c then Ok (i + 1, c, esc, pat, marg)
                else Ok (i, 0%N, esc, pat, marg)
              else Ok (i, 0%N, esc, pat, marg)
            else
              '(i, sep) <- skip_to_sep (S (length extra)) extra i ;;
              Ok (i, sep, esc, pat, marg)
        else if ((c =? cSTAR) || (c =? cQM))%N then
          path_next_loop fuel extra modi (i + 1) esc true marg
        else if is_sep c then Ok (i + 1, c, esc, pat, marg)
        else path_next_loop fuel extra modi (i + 1) esc pat marg
      else Ok (i, 0%N, esc, pat, marg)
  end.

(** path.rs:332-343: the resulting path. *)
Definition path_next_scan (extra : bytes) (modi : bool) : R path :=
  '(i, sep, esc, pat, marg) <-
     path_next_loop (S (length extra)) extra modi 0 false false 0 ;;
  comp <- (if (sep =? 0)%N then Ok extra
           else e <- usub i 1 ;; slice extra 0 e) ;;
  ex <- slice_from extra i ;;
  Ok (mkPath comp esc pat sep marg ex).

(** path.rs:271-344 [path_next]; only [path.extra] is read. *)
Definition path_next (extra : bytes) : R path :=
  if 0 <? length extra then
    c <- idx extra 0 ;;
    if (c =? cAT)%N then path_next_scan extra true
    else if (c =? cHASH)%N then
      simple <- (if length extra =? 1 then Ok true
                 else c1 <- idx extra 1 ;; Ok (is_sep c1)) ;;
      if simple : bool then path_next_scan extra false
      else path_next_query extra
    else if ((c =? cLBRC) || (c =? cLBRK))%N then path_next_multipath extra
    else path_next_scan extra false
  else path_next_scan extra false.

(** path.rs:25-35 [Path::new]. *)
Definition path_new (text : bytes) : R path := path_next text.

(** path.rs:43-45 [next]. *)
Definition p_next (p : path) : R path := path_next (p_extra p).

(** path.rs:63-69: the loop of [next_group]. *)
Fixpoint next_group_loop (fuel : nat) (remaining : path) (len : nat) : R (path * nat) :=
  match fuel with
  | O => Err EFuel
  | S fuel =>
      if (p_sep remaining =? cDOT)%N then
        remaining <- path_next (p_extra remaining) ;;
        next_group_loop fuel remaining (len + 1 + length (p_comp remaining))
      else Ok (remaining, len)
  end.

(** path.rs:59-73 [next_group] -> (next_group, remaining_path). *)
Definition next_group (p : path) : R (bytes * path) :=
  if negb (p_sep p =? cDOT)%N then Ok ([], p) else
  remaining <- p_next p ;;
  '(remaining, len) <-
     next_group_loop (S (length (p_extra p))) remaining (length (p_comp remaining)) ;;
  group <- slice (p_extra p) 0 len ;;
  Ok (group, mkPath [] (p_esc remaining) (p_pat remaining) (p_sep remaining)
                    (p_marg remaining) (p_extra remaining)).

(** path.rs:100-167: locate the operator; [Some (s, e)] when found.  The arm for
    a left paren at line 128 is unreachable, as line 111 catches it. *)
Fixpoint find_op (fuel : nat) (query : bytes) (i : nat) (depth : Z) : R (option (nat * nat)) :=
  match fuel with
  | O => Err EFuel
  | S fuel =>
      if i <? length query then
        c <- idx query i ;;
        if (c =? cBSL)%N then
          if i + 1 =? length query then Ok None
          else find_op fuel query (i + 2) depth
        else if (c =? cLPAR)%N then find_op fuel query (i + 1) (depth + 1)
        else if (c =? cRPAR)%N then find_op fuel query (i + 1) (depth - 1)
        else if (0 <? depth)%Z then find_op fuel query (i + 1) depth
        else if (c =? cPCT)%N then Ok (Some (i, i + 1))
        else if (c =? cBANG)%N then
          two <- (if i + 1 <? length query then
                    c1 <- idx query (i + 1) ;; Ok ((c1 =? cEQ) || (c1 =? cPCT))%N
                  else Ok false) ;;
          if two : bool then Ok (Some (i, i + 2)) else Ok (Some (i, i + 1))
        else if ((c =? cEQ) || (c =? cLT) || (c =? cGT))%N then
          two <- (if i + 1 <? length query then
                    c1 <- idx query (i + 1) ;; Ok (c1 =? cEQ)%N
                  else Ok false) ;;
          if two : bool then Ok (Some (i, i + 2)) else Ok (Some (i, i + 1))
        else find_op fuel query (i + 1) depth
      else Ok None
  end.

(** path.rs:76-171 [query_parts] -> (lh, op, rh); the argument is [self.comp]. *)
Definition query_parts (comp : bytes) : R (bytes * bytes * bytes) :=
  let bad := Ok ([], [], []) in
  if length comp <? 2 then bad else
  a <- idx comp 0 ;;
  b <- idx comp 1 ;;
  if negb (a =? cHASH)%N || negb (b =? cLPAR)%N then bad else
  l1 <- usub (length comp) 1 ;;
  z <- idx comp l1 ;;
  inner <-
    (if (z =? cHASH)%N then
       l2 <- usub (length comp) 2 ;;
       y <- idx comp l2 ;;
       if negb (y =? cRPAR)%N then Ok None
       else t <- slice comp 2 l2 ;; Ok (Some t)
     else if negb (z =? cRPAR)%N then Ok None
     else t <- slice comp 2 l1 ;; Ok (Some t)) ;;
  match inner with
  | None => bad
  | Some t =>
      let query := trim t in
      r <- find_op (S (length query)) query 0 0%Z ;;
      match r with
      | None => Ok (query, [], [])
      | Some (s, e) =>
          lh <- slice query 0 s ;;
          op <- slice query s e ;;
          rh <- slice_from query e ;;
          let op := trim op in
          let op := if beq op [cEQ; cEQ] then [cEQ] else op in
          Ok (trim lh, op, trim rh)
      end
  end.
