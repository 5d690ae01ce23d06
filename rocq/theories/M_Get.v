(** Model of the lookup functions: src/lib.rs:655-1078, src/modifiers.rs and
    src/multipath.rs.

    [get] is mutually recursive with everything below it.  Every function that
    calls [get] takes it as a parameter [getrec]; the knot is tied by the
    fuelled [get_fuel] at the end.  The fuel is the length of the path, since
    every recursive call of [get] receives a shorter path (or one of the constant
    option names of the modifiers). *)
From Coq Require Import Floats.SpecFloat.
From Verif Require Import M_Base M_Util M_Num M_Scan M_Value M_Path M_Valid M_Pretty.

Definition getter := bytes -> bytes -> R value.

(** lib.rs:192-199 and 1070-1077: the index of a nested result. *)
Definition add_index (outer : option nat) (v : value) : value :=
  mkValue (v_slice v) (v_owned v) (v_uesc v) (v_info v)
          (match outer, v_index v with Some a, Some b => Some (a + b) | _, _ => None end).

(** lib.rs:186-200 [Value::get]; also lib.rs:1065-1077, the same steps at the end
    of [get]. *)
Definition v_get_with (getrec : getter) (v : value) (p : bytes) : R value :=
  r <- (match v_slice v with
        | [] => r <- getrec (v_owned v) p ;; Ok (json_into_owned r)
        | _ => getrec (v_slice v) p
        end) ;;
  Ok (add_index (v_index v) r).

(** lib.rs:692-709 [key_match]. *)
Definition key_match (key : bytes) (info : N) (p : path) : R bool :=
  key <- (if has info INFO_ESC then unescape key else strip_quotes key) ;;
  if p_pat p || p_esc p then pmatch (p_comp p) key else Ok (beq key (p_comp p)).

(** lib.rs:749-762 [get_arr_count]. *)
Definition get_arr_count (json : bytes) (i : nat) (lines : bool) (p : path)
  : R (value * nat * path) :=
  '(i, count) <- for_each json i lines KArray (fun n _ _ => Ok (n + 1, true)) 0 ;;
  res <- json_from_owned (dec_of_nat count) None INFO_NUMBER ;;
  Ok (res, i, p).

(** lib.rs:764-788 [get_arr_child_at_index].  The closure captures the incoming
    [i], which is what [next_i] becomes. *)
Definition get_arr_child_at_index (json : bytes) (i : nat) (lines : bool) (p : path)
  : R (value * nat * path) :=
  let comp_index := match parse_i64 (p_comp p) with Some n => n | None => (-1)%Z end in
  '(i1, st) <- for_each json i lines KArray
     (fun '(index, res, next_i) _ v =>
        if (index =? comp_index)%Z then Ok ((index, v, i), false)
        else Ok (((index + 1)%Z, res, next_i), true))
     (0%Z, value_default, 0) ;;
  let '(_, res, next_i) := st in
  if v_exists res then Ok (res, next_i, p) else Ok (value_default, i1, p).

Definition is_op (op : bytes) (s : bytes) : bool := beq op s.

(** lib.rs:792-806: the right-hand side with its quotes removed. *)
Definition query_rhs (rpv : bytes) : R bytes :=
  if 2 <? length rpv then
    a <- idx rpv 0 ;;
    l <- usub (length rpv) 1 ;;
    z <- idx rpv l ;;
    if ((a =? cQUOTE) && (z =? cQUOTE))%N then
      if existsb (fun c => c =? cBSL)%N rpv then unescape rpv else slice rpv 1 l
    else Ok rpv
  else Ok rpv.

(** lib.rs:833-843: string operators. *)
Definition query_string (v : value) (op rpv : bytes) : R bool :=
  if is_op op [cEQ] then s <- v_str v ;; Ok (beq s rpv)
  else if is_op op [cBANG; cEQ] then s <- v_str v ;; Ok (negb (beq s rpv))
  else if is_op op [cLT] then
    s <- v_str v ;; Ok (match bcmp s rpv with Lt => true | _ => false end)
  else if is_op op [cLT; cEQ] then
    s <- v_str v ;; Ok (match bcmp s rpv with Gt => false | _ => true end)
  else if is_op op [cGT] then
    s <- v_str v ;; Ok (match bcmp s rpv with Gt => true | _ => false end)
  else if is_op op [cGT; cEQ] then
    s <- v_str v ;; Ok (match bcmp s rpv with Lt => false | _ => true end)
  else if is_op op [cPCT] then s <- v_str v ;; pmatch rpv s
  else if is_op op [cBANG; cPCT] then s <- v_str v ;; b <- pmatch rpv s ;; Ok (negb b)
  else Ok false.

(** lib.rs:844-855: number operators. *)
Definition query_number (v : value) (op rpv : bytes) : R bool :=
  let rpvn := raw_to_f64 rpv in
  if is_op op [cEQ] then x <- v_f64 v ;; Ok (SFeqb x rpvn)
  else if is_op op [cBANG; cEQ] then x <- v_f64 v ;; Ok (negb (SFeqb x rpvn))
  else if is_op op [cLT] then x <- v_f64 v ;; Ok (SFltb x rpvn)
  else if is_op op [cLT; cEQ] then x <- v_f64 v ;; Ok (SFleb x rpvn)
  else if is_op op [cGT] then x <- v_f64 v ;; Ok (SFltb rpvn x)
  else if is_op op [cGT; cEQ] then x <- v_f64 v ;; Ok (SFleb rpvn x)
  else Ok false.

(** lib.rs:832-871: the comparison by kind. *)
Definition query_compare (v : value) (op rpv : bytes) : R bool :=
  match v_kind v with
  | KString => query_string v op rpv
  | KNumber => query_number v op rpv
  | KTrue =>
      Ok (if is_op op [cEQ] then beq rpv lit_true
          else if is_op op [cBANG; cEQ] then negb (beq rpv lit_true)
          else if is_op op [cGT] then beq rpv lit_false
          else if is_op op [cGT; cEQ] then true
          else false)
  | KFalse =>
      Ok (if is_op op [cEQ] then beq rpv lit_false
          else if is_op op [cBANG; cEQ] then negb (beq rpv lit_false)
          else if is_op op [cLT] then beq rpv lit_true
          else if is_op op [cLT; cEQ] then true
          else false)
  | _ => Ok false
  end.

(** lib.rs:790-872 [query_matches]. *)
Definition query_matches (valin : value) (op rpv : bytes) : R bool :=
  rpv <- query_rhs rpv ;;
  '(v, rpv) <-
    (match rpv with
     | c :: t =>
         if (c =? cTILDE)%N then
           b <- v_bool valin ;;
           Ok (if b : bool then mkValue lit_true [] [] INFO_TRUE None
               else mkValue lit_false [] [] INFO_FALSE None, t)
         else Ok (valin, rpv)
     | [] => Ok (valin, rpv)
     end) ;;
  if negb (v_exists v) then Ok false
  else match op with
       | [] => Ok true
       | _ => query_compare v op rpv
       end.

(** lib.rs:883-887 and 918-922: does an element match the query. *)
Definition elem_matches (getrec : getter) (v : value) (lh op rh : bytes) : R bool :=
  match lh with
  | [] => query_matches v op rh
  | _ => x <- v_get_with getrec v lh ;; query_matches x op rh
  end.

(** lib.rs:874-899 [get_arr_child_with_query]. *)
Definition get_arr_child_with_query (getrec : getter) (json : bytes) (i : nat)
    (lines : bool) (p : path) : R (value * nat * path) :=
  '(lh, op, rh) <- query_parts (p_comp p) ;;
  '(i, res) <- for_each json i lines KArray
     (fun res _ v =>
        m <- elem_matches getrec v lh op rh ;;
        if m : bool then Ok (v, false) else Ok (res, true))
     value_default ;;
  if v_exists res then Ok (res, i, p) else Ok (value_default, i, p).

(** lib.rs:929-935, 963-969, multipath.rs:116-122: append a result to a comma
    separated buffer. *)
Definition push_elem (st : bytes * nat) (v : value) : bytes * nat :=
  let '(out, index) := st in
  if v_exists v then
    ((if 0 <? index then out ++ [cCOMMA] else out) ++ v_json v, index + 1)
  else st.

(** lib.rs:901-947 [get_arr_children_with_query_subpath]. *)
Definition get_arr_children_with_query_subpath (getrec : getter) (json : bytes) (i : nat)
    (lines : bool) (p : path) : R (value * nat * path) :=
  '(lh, op, rh) <- query_parts (p_comp p) ;;
  '(group, rest) <- next_group p ;;
  let subpath := if (p_sep p =? cDOT)%N then Some group else None in
  '(i, st) <- for_each json i lines KArray
     (fun st _ v =>
        m <- elem_matches getrec v lh op rh ;;
        if m : bool then
          v <- (match subpath with
                | Some sp => v_get_with getrec v sp
                | None => Ok v
                end) ;;
          Ok (push_elem st v, true)
        else Ok (st, true))
     ([cLBRK], 0) ;;
  res <- json_from_owned (fst st ++ [cRBRK]) None INFO_ARRAY ;;
  Ok (res, i, rest).

(** lib.rs:949-980 [get_arr_children_with_subpath]. *)
Definition get_arr_children_with_subpath (getrec : getter) (json : bytes) (i : nat)
    (lines : bool) (p : path) : R (value * nat * path) :=
  '(subpath, rest) <- next_group p ;;
  '(i, st) <- for_each json i lines KArray
     (fun st _ v =>
        v <- v_get_with getrec v subpath ;;
        Ok (push_elem st v, true))
     ([cLBRK], 0) ;;
  res <- json_from_owned (fst st ++ [cRBRK]) None INFO_ARRAY ;;
  Ok (res, i, rest).

(** lib.rs:711-747 [get_arr]. *)
Definition get_arr (getrec : getter) (json : bytes) (i : nat) (lines : bool) (p : path)
  : R (value * nat * path) :=
  match p_comp p with
  | [] => get_arr_child_at_index json i lines p
  | c :: t =>
      if (c =? cHASH)%N then
        match t with
        | [] =>
            if (p_sep p =? cDOT)%N
            then get_arr_children_with_subpath getrec json i lines p
            else get_arr_count json i lines p
        | _ =>
            if (last t 0 =? cHASH)%N
            then get_arr_children_with_query_subpath getrec json i lines p
            else get_arr_child_with_query getrec json i lines p
        end
      else get_arr_child_at_index json i lines p
  end.

(** lib.rs:672-678: skip white space and colons after a key. *)
Fixpoint skip_colon (fuel : nat) (json : bytes) (i : nat) : R nat :=
  match fuel with
  | O => Err EFuel
  | S fuel =>
      if i <? length json then
        c <- idx json i ;;
        if ((c <=? cSP) || (c =? cCOLON))%N then skip_colon fuel json (i + 1) else Ok i
      else Ok i
  end.

(** lib.rs:660-689: the loop of [get_obj]; [sub] is the nested lookup passed on
    to [proc_value]. *)
Fixpoint get_obj_loop (fuel : nat) (sub : bytes -> nat -> path -> R descent)
    (json : bytes) (i : nat) (p : path) : R (value * nat * path) :=
  match fuel with
  | O => Err EFuel
  | S fuel =>
      if i <? length json then
        c <- idx json i ;;
        if (c =? cRBRC)%N then Ok (value_default, i + 1, p)
        else if negb (c =? cQUOTE)%N then get_obj_loop fuel sub json (i + 1) p
        else
          '(key, info, i) <- scan_string json i ;;
          i <- skip_colon (S (length json)) json i ;;
          if i =? length json then Ok (value_default, i, p)
          else
            is_match <- key_match key info p ;;
            '(res, i, next_path) <- proc_value sub json i p is_match ;;
            if v_exists res then Ok (res, i, next_path)
            else get_obj_loop fuel sub json i p
      else Ok (value_default, i, p)
  end.

(** lib.rs:655-690 [get_obj], with lib.rs:586-600 (the nested lookup of
    [proc_value]) inlined as the argument of the loop.  The fuel bounds the
    nesting, each level of which consumes a path component. *)
Fixpoint get_obj (fuel : nat) (getrec : getter) (json : bytes) (i : nat) (p : path)
  : R (value * nat * path) :=
  match fuel with
  | O => Err EFuel
  | S fuel =>
      if i =? length json then Ok (value_default, i, p)
      else
        c <- idx json i ;;
        if negb (c =? cLBRC)%N then Ok (value_default, i, p)
        else
          get_obj_loop (S (length json))
            (fun json i p =>
               next_path <- p_next p ;;
               if is_modifier next_path || is_multipath next_path then Ok DSquash
               else
                 c <- idx json i ;;
                 '(res, next_i, next_path) <-
                   (if (c =? cLBRC)%N then get_obj fuel getrec json i next_path
                    else get_arr getrec json i false next_path) ;;
                 if v_exists res then Ok (DReturn (res, next_i, next_path)) else Ok DNone)
            json (i + 1) p
  end.

(** lib.rs:1040-1058: find the first byte above the space and dispatch. *)
Fixpoint get_start (fuel : nat) (getrec : getter) (json : bytes) (i : nat) (p : path)
  : R (value * path) :=
  match fuel with
  | O => Err EFuel
  | S fuel =>
      if i =? length json then Ok (value_default, p)
      else
        c <- idx json i ;;
        if (c <=? cSP)%N then get_start fuel getrec json (i + 1) p
        else if (c =? cLBRC)%N then
          '(v, _, p) <- get_obj (S (S (length (p_extra p)))) getrec json i p ;; Ok (v, p)
        else if (c =? cLBRK)%N then
          '(v, _, p) <- get_arr getrec json i false p ;; Ok (v, p)
        else Ok (value_default, p)
  end.

(* ---------- modifiers.rs ---------- *)

(** modifiers.rs:222-233 [unwrap]. *)
Fixpoint drop_ws (b : bytes) : bytes :=
  match b with
  | c :: t => if (c <=? cSP)%N then drop_ws t else b
  | [] => []
  end.
Definition drop_ws_end (b : bytes) : bytes := rev (drop_ws (rev b)).
Definition unwrap (json : bytes) : R bytes :=
  let json := drop_ws_end (drop_ws json) in
  match json with
  | c :: _ =>
      if (2 <=? length json) && ((c =? cLBRK) || (c =? cLBRC))%N
      then slice json 1 (length json - 1)
      else Ok json
  | [] => Ok json
  end.

(** modifiers.rs:47-53 [mod_valid]. *)
Definition mod_valid (json : bytes) : R bytes :=
  ok <- valid json ;; Ok (if ok : bool then json else []).

Definition s_indent : bytes := [105; 110; 100; 101; 110; 116]%N.
Definition s_prefix : bytes := [112; 114; 101; 102; 105; 120]%N.
Definition s_sortKeys : bytes := [115; 111; 114; 116; 75; 101; 121; 115]%N.
Definition s_width : bytes := [119; 105; 100; 116; 104]%N.
Definition s_preserve : bytes := [112; 114; 101; 115; 101; 114; 118; 101]%N.
Definition s_deep : bytes := [100; 101; 101; 112]%N.

(** modifiers.rs:55-78 [mod_pretty]. *)
Definition mod_pretty (getrec : getter) (json arg : bytes) : R bytes :=
  match arg with
  | [] => pretty json
  | _ =>
      indent <- getrec arg s_indent ;;
      prefix <- getrec arg s_prefix ;;
      sort_keys <- getrec arg s_sortKeys ;;
      width <- getrec arg s_width ;;
      ind <- (if v_exists indent then v_str indent else Ok (o_indent popts_default)) ;;
      pre <- (if v_exists prefix then v_str prefix else Ok (o_prefix popts_default)) ;;
      srt <- (if v_exists sort_keys then v_bool sort_keys else Ok (o_sort popts_default)) ;;
      wid <- (if v_exists width then v_u32 width else Ok (o_width popts_default)) ;;
      pretty_options json (mkOpts wid pre ind srt)
  end.

(** modifiers.rs:116-121: join with commas. *)
Fixpoint join_commas (l : list bytes) : bytes :=
  match l with
  | [] => []
  | [x] => x
  | x :: t => x ++ cCOMMA :: join_commas t
  end.

Definition unwrap_opt (o : option nat) : R nat :=
  match o with Some n => Ok n | None => Err EPanic end.

(** modifiers.rs:84-125 [mod_reverse]. *)
Definition mod_reverse (json : bytes) : R bytes :=
  res <- parse json ;;
  let json := v_slice res in
  match v_kind res with
  | KObject =>
      slices <- v_each res
        (fun acc k v =>
           kindex <- unwrap_opt (v_index k) ;;
           vindex <- unwrap_opt (v_index v) ;;
           s <- slice json kindex (vindex + length (v_slice v)) ;;
           Ok (acc ++ [s], true)) [] ;;
      Ok (cLBRC :: join_commas (rev slices) ++ [cRBRC])
  | KArray =>
      slices <- v_each res
        (fun acc _ v =>
           vindex <- unwrap_opt (v_index v) ;;
           s <- slice json vindex (vindex + length (v_slice v)) ;;
           Ok (acc ++ [s], true)) [] ;;
      Ok (cLBRK :: join_commas (rev slices) ++ [cRBRK])
  | _ => Ok json
  end.

(** modifiers.rs:152, 159, 163, 175: the [HashMap], as an association list. *)
Fixpoint map_get (k : bytes) (m : list (bytes * bytes)) : option bytes :=
  match m with
  | [] => None
  | (k', v) :: t => if beq k k' then Some v else map_get k t
  end.
Fixpoint map_insert (k v : bytes) (m : list (bytes * bytes)) : list (bytes * bytes) :=
  match m with
  | [] => [(k, v)]
  | (k', v') :: t => if beq k k' then (k', v) :: t else (k', v') :: map_insert k v t
  end.

(** modifiers.rs:157-165: the callback over the members of one element. *)
Definition join_member (st : list (bytes * bytes) * list (bytes * bytes)) (k v : value)
  : R ((list (bytes * bytes) * list (bytes * bytes)) * bool) :=
  let '(keys, kvals) := st in
  kt <- v_str k ;;
  let keys := match map_get kt kvals with
              | None => keys ++ [(v_json k, kt)]
              | Some _ => keys
              end in
  Ok ((keys, map_insert kt (v_json v) kvals), true).

(** modifiers.rs:169-176: write the members. *)
Fixpoint join_out (first : bool) (keys kvals : list (bytes * bytes)) : R bytes :=
  match keys with
  | [] => Ok []
  | (kj, kt) :: t =>
      match map_get kt kvals with
      | None => Err EPanic
      | Some v =>
          r <- join_out false t kvals ;;
          Ok ((if first then [] else [cCOMMA]) ++ kj ++ [cCOLON] ++ v ++ r)
      end
  end.

(** modifiers.rs:127-181 [mod_join]. *)
Definition mod_join (getrec : getter) (json arg : bytes) : R bytes :=
  res <- parse json ;;
  if negb (kind_eqb (v_kind res) KArray) then Ok json else
  pv <- getrec arg s_preserve ;;
  preserve <- v_bool pv ;;
  if preserve : bool then
    '(out, _) <- v_each res
      (fun '(out, n) _ v =>
         if negb (kind_eqb (v_kind v) KObject) then Ok ((out, n), true)
         else
           let out := if 0 <? n then out ++ [cCOMMA] else out in
           u <- unwrap (v_slice v) ;;
           Ok ((out ++ u, n + 1), true))
      ([cLBRC], 0) ;;
    Ok (out ++ [cRBRC])
  else
    '(keys, kvals) <- v_each res
      (fun st _ v =>
         if negb (kind_eqb (v_kind v) KObject) then Ok (st, true)
         else st <- v_each v join_member st ;; Ok (st, true))
      ([], []) ;;
    out <- join_out true keys kvals ;;
    Ok (cLBRC :: out ++ [cRBRC]).

(** modifiers.rs:188-220 [mod_flatten]; the fuel bounds the nesting depth. *)
Fixpoint mod_flatten (fuel : nat) (getrec : getter) (json arg : bytes) : R bytes :=
  match fuel with
  | O => Err EFuel
  | S fuel =>
      res <- parse json ;;
      if negb (kind_eqb (v_kind res) KArray) then Ok json else
      dv <- getrec arg s_deep ;;
      deep <- v_bool dv ;;
      '(out, _) <- v_each res
        (fun '(out, n) _ v =>
           raw <- (if kind_eqb (v_kind v) KArray then
                     if deep : bool then
                       f <- mod_flatten fuel getrec (v_json v) arg ;; unwrap f
                     else unwrap (v_json v)
                   else Ok (v_slice v)) ;;
           match raw with
           | [] => Ok ((out, n), true)
           | _ => Ok (((if 0 <? n then out ++ [cCOMMA] else out) ++ raw, n + 1), true)
           end)
        ([cLBRK], 0) ;;
      Ok (out ++ [cRBRK])
  end.

Definition n_this : bytes := [116; 104; 105; 115]%N.
Definition n_reverse : bytes := [114; 101; 118; 101; 114; 115; 101]%N.
Definition n_ugly : bytes := [117; 103; 108; 121]%N.
Definition n_pretty : bytes := [112; 114; 101; 116; 116; 121]%N.
Definition n_valid : bytes := [118; 97; 108; 105; 100]%N.
Definition n_flatten : bytes := [102; 108; 97; 116; 116; 101; 110]%N.
Definition n_join : bytes := [106; 111; 105; 110]%N.

(** modifiers.rs:30-39: dispatch on the name; an unknown name gives the empty
    string.  [mod_this] (43-45) is the identity, [mod_ugly] (80-82) is [ugly]. *)
Definition mod_apply (getrec : getter) (name json arg : bytes) : R bytes :=
  if beq name n_this then Ok json
  else if beq name n_reverse then mod_reverse json
  else if beq name n_ugly then ugly json
  else if beq name n_pretty then mod_pretty getrec json arg
  else if beq name n_valid then mod_valid json
  else if beq name n_flatten then mod_flatten (S (length json)) getrec json arg
  else if beq name n_join then mod_join getrec json arg
  else Ok [].

(** modifiers.rs:15-41 [exec]. *)
Definition mod_exec (getrec : getter) (json : bytes) (p : path) : R (value * path) :=
  '(name, arg) <-
    (if p_marg p =? 0 then
       n <- slice_from (p_comp p) 1 ;; Ok (n, [])
     else
       n <- slice (p_comp p) 1 (p_marg p) ;;
       a <- slice_from (p_comp p) (p_marg p + 1) ;;
       Ok (n, a)) ;;
  out <- mod_apply getrec name json arg ;;
  v <- parse out ;;
  Ok (json_into_owned v, p).

(* ---------- multipath.rs ---------- *)

(** multipath.rs:13-26 [name_of_last]; [n] counts down the index. *)
Fixpoint name_of_last_loop (n : nat) (p : bytes) : R bytes :=
  match n with
  | O => Ok p
  | S i =>
      c <- idx p i ;;
      if ((c =? cPIPE) || (c =? cDOT))%N then
        escaped <- (if 0 <? i then b <- idx p (i - 1) ;; Ok (b =? cBSL)%N else Ok false) ;;
        if escaped : bool then name_of_last_loop i p else slice_from p (i + 1)
      else name_of_last_loop i p
  end.
Definition name_of_last (p : bytes) : R bytes := name_of_last_loop (length p) p.

(** multipath.rs:30-43 [is_simple_name]. *)
Definition is_simple_name (comp : bytes) : bool :=
  forallb (fun c => negb ((c <? cSP) || (c =? cLBRK) || (c =? cRBRK) || (c =? cLBRC)
                          || (c =? cRBRC) || (c =? cLPAR) || (c =? cRPAR) || (c =? cHASH)
                          || (c =? cPIPE)))%N comp.

(** multipath.rs:45-52 [key_for_path]. *)
Definition key_for_path (p : bytes) : R bytes :=
  key <- name_of_last p ;; Ok (if is_simple_name key then key else [95%N]).

(** multipath.rs:61-65 and 81-85: the pair (key, path) of one component. *)
Definition comp_pair (p : bytes) (s i : nat) (c : option nat) : R (bytes * bytes) :=
  match c with
  | Some c => a <- slice p s c ;; b <- slice p (c + 1) i ;; Ok (a, b)
  | None => b <- slice p s i ;; a <- key_for_path b ;; Ok (a, b)
  end.

(** multipath.rs:54-96 [each_comp], collecting the callback arguments in order
    (the callbacks have no influence on the iteration). *)
Fixpoint each_comp_loop (fuel : nat) (p : bytes) (i s : nat) (c : option nat)
  : R (list (bytes * bytes)) :=
  match fuel with
  | O => Err EFuel
  | S fuel =>
      if i =? length p then kp <- comp_pair p s i c ;; Ok [kp]
      else
        b <- idx p i ;;
        if (b =? cBSL)%N then
          if i + 1 =? length p then Ok [] else each_comp_loop fuel p (i + 2) s c
        else if ((b =? cLPAR) || (b =? cLBRK) || (b =? cLBRC))%N then
          '(_, next_i) <- scan_squash p i ;; each_comp_loop fuel p next_i s c
        else if (b =? cCOMMA)%N then
          kp <- comp_pair p s i c ;;
          r <- each_comp_loop fuel p (i + 1) (i + 1) None ;;
          Ok (kp :: r)
        else if (b =? cCOLON)%N then each_comp_loop fuel p (i + 1) s (Some i)
        else each_comp_loop fuel p (i + 1) s c
  end.
Definition each_comp (comp : bytes) : R (list (bytes * bytes)) :=
  e <- usub (length comp) 1 ;;
  p <- slice comp 1 e ;;
  each_comp_loop (S (length p)) p 0 0 None.

(** multipath.rs:114-123: the elements of [exec_arr]. *)
Fixpoint multi_arr (getrec : getter) (json : bytes) (l : list (bytes * bytes))
    (st : bytes * nat) : R (bytes * nat) :=
  match l with
  | [] => Ok st
  | (_, p) :: t => v <- getrec json p ;; multi_arr getrec json t (push_elem st v)
  end.

(** multipath.rs:136-147: the members of [exec_obj]; [json_string] is
    [extend_json_string] (util.rs:126-154). *)
Fixpoint multi_obj (getrec : getter) (json : bytes) (l : list (bytes * bytes))
    (st : bytes * nat) : R (bytes * nat) :=
  match l with
  | [] => Ok st
  | (k, p) :: t =>
      v <- getrec json p ;;
      let '(out, index) := st in
      let st :=
        if v_exists v then
          ((if 0 <? index then out ++ [cCOMMA] else out)
             ++ json_string k ++ [cCOLON] ++ v_json v, index + 1)
        else st in
      multi_obj getrec json t st
  end.

(** multipath.rs:98-151 [exec], [exec_arr], [exec_obj]. *)
Definition multi_exec (getrec : getter) (json : bytes) (p : path) : R (value * path) :=
  c <- idx (p_comp p) 0 ;;
  l <- usub (length (p_comp p)) 1 ;;
  z <- idx (p_comp p) l ;;
  if (c =? cLBRK)%N then
    if negb (z =? cRBRK)%N then Ok (value_default, path_default) else
    comps <- each_comp (p_comp p) ;;
    '(out, _) <- multi_arr getrec json comps ([cLBRK], 0) ;;
    v <- json_from_owned (out ++ [cRBRK]) None INFO_ARRAY ;;
    Ok (v, p)
  else
    if (c =? cLBRC)%N && negb (z =? cRBRC)%N then Ok (value_default, path_default) else
    comps <- each_comp (p_comp p) ;;
    '(out, _) <- multi_obj getrec json comps ([cLBRC], 0) ;;
    v <- json_from_owned (out ++ [cRBRC]) None INFO_OBJECT ;;
    Ok (v, p).

(* ---------- get ---------- *)

(** lib.rs:1022-1028: the [..] prefix for JSON lines. *)
Definition split_lines (p : bytes) : bool * bytes :=
  match p with
  | a :: b :: t => if ((a =? cDOT) && (b =? cDOT))%N then (true, t) else (false, p)
  | _ => (false, p)
  end.

(** lib.rs:1021-1078 [get], with the recursive calls as a parameter. *)
Definition get_body (getrec : getter) (json text : bytes) : R value :=
  let '(lines, text) := split_lines text in
  p <- path_new text ;;
  '(res, p) <-
    (if lines then
       '(v, _, p) <- get_arr getrec json 0 true p ;; Ok (v, p)
     else if is_modifier p then mod_exec getrec json p
     else if is_multipath p then multi_exec getrec json p
     else get_start (S (length json)) getrec json 0 p) ;;
  if negb (p_more p) then Ok res
  else v_get_with getrec res (p_extra p).

Fixpoint get_fuel (fuel : nat) (json text : bytes) : R value :=
  match fuel with
  | O => Err EFuel
  | S fuel => get_body (get_fuel fuel) json text
  end.

(** lib.rs:1021-1078 [get]; lib.rs:1090-1092 [get_bytes] is the same function. *)
Definition get (json text : bytes) : R value := get_fuel (S (S (length text))) json text.

(** lib.rs:186-200 [Value::get]. *)
Definition v_get (v : value) (text : bytes) : R value := v_get_with get v text.
