(** Model of [Value] and of the non-recursive parts of src/lib.rs. *)
From Coq Require Import Floats.SpecFloat.
From Verif Require Import M_Base M_Util M_Num M_Scan.

(** lib.rs:25-33 [Kind]; the order of the constructors is the [Ord] order
    (lib.rs:47-51 compares the discriminants). *)
Inductive kind := KNull | KFalse | KNumber | KString | KTrue | KArray | KObject.

Definition kind_disc (k : kind) : N :=
  match k with
  | KNull => 0 | KFalse => 1 | KNumber => 2 | KString => 3 | KTrue => 4
  | KArray => 5 | KObject => 6
  end.

(** lib.rs:47-51 [Kind::cmp]; lib.rs:41-45 [Kind::eq]. *)
Definition kind_cmp (a b : kind) : comparison := (kind_disc a ?= kind_disc b)%N.
Definition kind_eqb (a b : kind) : bool := match kind_cmp a b with Eq => true | _ => false end.

(** lib.rs:68-78 [KINDMAP]. *)
Definition kindmap (x : N) : kind :=
  if (x =? INFO_NULL)%N then KNull
  else if (x =? INFO_FALSE)%N then KFalse
  else if (x =? INFO_NUMBER)%N then KNumber
  else if (x =? INFO_STRING)%N then KString
  else if (x =? INFO_TRUE)%N then KTrue
  else if (x =? INFO_OBJECT)%N then KObject
  else if (x =? INFO_ARRAY)%N then KArray
  else KNull.

(** lib.rs:81-87 [Value].  [slice: &str] and [owned: String] are byte strings. *)
Record value := mkValue {
  v_slice : bytes;
  v_owned : bytes;
  v_uesc : bytes;
  v_info : N;
  v_index : option nat;
}.

(** lib.rs:126-136 [Value::default]. *)
Definition value_default : value := mkValue [] [] [] 0 None.

(** lib.rs:210-216 [Value::json]. *)
Definition v_json (v : value) : bytes :=
  match v_owned v with [] => v_slice v | _ => v_owned v end.

(** lib.rs:202-204 [Value::exists]. *)
Definition v_exists (v : value) : bool :=
  match v_json v with [] => false | _ => true end.

(** lib.rs:206-208 [Value::kind]: the low eight bits select the kind. *)
Definition v_kind (v : value) : kind := kindmap (N.land (v_info v) 255).

(** lib.rs:178-183 [json_unescape_string]. *)
Definition json_unescape_string (v : value) : R value :=
  if has (v_info v) (N.lor INFO_STRING INFO_ESC) then
    u <- unescape (v_json v) ;;
    Ok (mkValue (v_slice v) (v_owned v) u (v_info v) (v_index v))
  else Ok v.

(** lib.rs:154-164 [json_from_slice]. *)
Definition json_from_slice (s : bytes) (index : option nat) (info : N) : R value :=
  json_unescape_string (mkValue s [] [] info index).

(** lib.rs:166-176 [json_from_owned]. *)
Definition json_from_owned (s : bytes) (index : option nat) (info : N) : R value :=
  json_unescape_string (mkValue [] s [] info index).

(** lib.rs:144-152 [json_clone_from_ref]. *)
Definition json_clone_from_ref (v : value) : value :=
  mkValue (v_json v) [] (v_uesc v) (v_info v) (v_index v).

(** lib.rs:1094-1106 [json_into_owned]. *)
Definition json_into_owned (v : value) : value :=
  mkValue [] (match v_slice v with [] => v_owned v | _ => v_slice v end)
          (v_uesc v) (v_info v) (v_index v).

(** [&raw[1..raw.len() - 1]] (lib.rs:226, 246, 262, 343, 702). *)
Definition strip_quotes (raw : bytes) : R bytes :=
  e <- usub (length raw) 1 ;; slice raw 1 e.

(** lib.rs:333-350 [Value::str]. *)
Definition v_str (v : value) : R bytes :=
  match v_kind v with
  | KTrue => Ok [116; 114; 117; 101]%N
  | KFalse => Ok [102; 97; 108; 115; 101]%N
  | KObject | KArray | KNumber => Ok (v_json v)
  | KString =>
      if has (v_info v) INFO_ESC then Ok (v_uesc v) else strip_quotes (v_json v)
  | KNull => Ok []
  end.

(** lib.rs:222-228, 242-248, 258-264: the text a string value is converted from. *)
Definition string_text (v : value) : R bytes :=
  if has (v_info v) INFO_ESC then unescape (v_json v) else strip_quotes (v_json v).

(** lib.rs:218-232 [Value::f64]. *)
Definition v_f64 (v : value) : R f64 :=
  match v_kind v with
  | KTrue => Ok f64_one
  | KString => t <- string_text v ;; Ok (raw_to_f64 t)
  | KNumber => Ok (raw_to_f64 (v_json v))
  | _ => Ok f64_zero
  end.

(** lib.rs:234-236 [Value::f32]. *)
Definition v_f32 (v : value) : R spec_float := x <- v_f64 v ;; Ok (f64_to_f32 x).

(** lib.rs:238-252 [Value::i64]. *)
Definition v_i64 (v : value) : R Z :=
  match v_kind v with
  | KTrue => Ok 1%Z
  | KString => t <- string_text v ;; Ok (raw_to_i64 t)
  | KNumber => Ok (raw_to_i64 (v_json v))
  | _ => Ok 0%Z
  end.

(** lib.rs:254-268 [Value::u64]. *)
Definition v_u64 (v : value) : R Z :=
  match v_kind v with
  | KTrue => Ok 1%Z
  | KString => t <- string_text v ;; Ok (raw_to_u64 t)
  | KNumber => Ok (raw_to_u64 (v_json v))
  | _ => Ok 0%Z
  end.

(** [x as i32] / [i16] / [i8] on an [i64]: keep the low bits, two's complement. *)
Definition wrap_signed (bits : Z) (x : Z) : Z :=
  ((x + 2 ^ (bits - 1)) mod 2 ^ bits - 2 ^ (bits - 1))%Z.
(** [x as u32] / [u16] / [u8] on a [u64]. *)
Definition wrap_unsigned (bits : Z) (x : Z) : Z := (x mod 2 ^ bits)%Z.

(** lib.rs:270-279 [Value::i32]: the bounds are compared as written in the code. *)
Definition v_i32 (v : value) : R Z :=
  x <- v_i64 v ;;
  Ok (wrap_signed 32 (if (x <? -2147483648)%Z then (-2147483648)%Z
                      else if (2147483648 <? x)%Z then 2147483648%Z else x)).

(** lib.rs:281-290 [Value::i16]. *)
Definition v_i16 (v : value) : R Z :=
  x <- v_i64 v ;;
  Ok (wrap_signed 16 (if (x <? -32768)%Z then (-32768)%Z
                      else if (32767 <? x)%Z then 32767%Z else x)).

(** lib.rs:292-301 [Value::i8]. *)
Definition v_i8 (v : value) : R Z :=
  x <- v_i64 v ;;
  Ok (wrap_signed 8 (if (x <? -128)%Z then (-128)%Z
                     else if (127 <? x)%Z then 127%Z else x)).

(** lib.rs:303-306 [Value::u32]. *)
Definition v_u32 (v : value) : R Z :=
  x <- v_u64 v ;; Ok (wrap_unsigned 32 (if (4294967295 <? x)%Z then 4294967295%Z else x)).

(** lib.rs:308-311 [Value::u16]. *)
Definition v_u16 (v : value) : R Z :=
  x <- v_u64 v ;; Ok (wrap_unsigned 16 (if (65535 <? x)%Z then 65535%Z else x)).

(** lib.rs:313-316 [Value::u8]. *)
Definition v_u8 (v : value) : R Z :=
  x <- v_u64 v ;; Ok (wrap_unsigned 8 (if (255 <? x)%Z then 255%Z else x)).

(** lib.rs:320-328: the literal texts of [Value::bool]. *)
Definition bool_true_texts : list bytes :=
  [ [49]; [116;114;117;101];                                             (* 1 true *)
    [34;116;34]; [34;49;34]; [34;84;34];                                 (* quoted t 1 T *)
    [34;116;114;117;101;34]; [34;84;82;85;69;34]; [34;84;114;117;101;34] (* quoted true TRUE True *)
  ]%N.
Definition bool_false_texts : list bytes :=
  [ [48]; [102;97;108;115;101];
    [34;102;34]; [34;48;34]; [34;70;34];
    [34;102;97;108;115;101;34]; [34;70;65;76;83;69;34]; [34;70;97;108;115;101;34]
  ]%N.

(** lib.rs:318-331 [Value::bool]. *)
Definition v_bool (v : value) : R bool :=
  if existsb (beq (v_json v)) bool_true_texts then Ok true
  else if existsb (beq (v_json v)) bool_false_texts then Ok false
  else x <- v_i64 v ;; Ok (negb (x =? 0)%Z).

(** [x < y] on f64 as written in lib.rs:113-119. *)
Definition f64_lt (x y : f64) : bool := SFltb x y.

(** lib.rs:103-124 [Value::cmp]. *)
Definition v_cmp (a b : value) : R comparison :=
  match kind_cmp (v_kind a) (v_kind b) with
  | Eq =>
      if kind_eqb (v_kind a) KString then
        x <- v_str a ;; y <- v_str b ;; Ok (bcmp x y)
      else if kind_eqb (v_kind a) KNumber then
        x <- v_f64 a ;; y <- v_f64 b ;;
        Ok (if f64_lt x y then Lt else if f64_lt y x then Gt else Eq)
      else Ok (bcmp (v_json a) (v_json b))
  | c => Ok c
  end.

(** lib.rs:97-101 [Value::eq]. *)
Definition v_eq (a b : value) : R bool :=
  c <- v_cmp a b ;; Ok (match c with Eq => true | _ => false end).

(** path.rs:12-19 [Path]. *)
Record path := mkPath {
  p_comp : bytes;
  p_esc : bool;
  p_pat : bool;
  p_sep : byte;      (* 0 when there is no separator *)
  p_marg : nat;
  p_extra : bytes;
}.

(** path.rs:174-178 [Path::default] is [Path::new("")], which is [path_next] on
    an empty [extra] (path.rs:271-344 with nothing to scan); see
    [path_new_nil] in the proofs. *)
Definition path_default : path := mkPath [] false false 0 0 [].

(** The outcome of lines 586-600 of [proc_value]. *)
Inductive descent :=
| DReturn (r : value * nat * path)   (* the nested lookup found something *)
| DSquash                            (* [squash] is still true *)
| DNone.                             (* [squash] is false, nothing found *)

(** lib.rs:571-653 [proc_value].  The nested lookup of lines 588-599 is a
    parameter [sub], called only when [path.sep == '.'] and [is_match]; it gets
    [json], [i] and [path].  [proc_value] without nested lookups (all calls with
    a path without separator) is [proc_flat] below. *)
Definition proc_value (sub : bytes -> nat -> path -> R descent)
    (json : bytes) (i : nat) (p : path) (is_match : bool) : R (value * nat * path) :=
  c <- idx json i ;;
  if (c =? cQUOTE)%N then
    let s := i in
    '(val, info, next_i) <- scan_string json i ;;
    let i := next_i in
    if is_match then
      v <- json_from_slice val (Some s) (N.lor info INFO_STRING) ;;
      Ok (v, i, p)
    else Ok (value_default, i, p)
  else if ((c =? cLBRC) || (c =? cLBRK))%N then
    if is_match then
      d <- (if (p_sep p =? cDOT)%N then sub json i p else Ok DSquash) ;;
      match d with
      | DReturn r => Ok r
      | DSquash =>
          let s := i in
          '(val, next_i) <- scan_squash json i ;;
          let i := next_i in
          let k := if (c =? cLBRC)%N then INFO_OBJECT else INFO_ARRAY in
          v <- json_from_slice val (Some s) k ;;
          Ok (v, i, p)
      | DNone => Ok (value_default, i, p)
      end
    else
      '(_, i) <- scan_squash json i ;;
      Ok (value_default, i, p)
  else if (((c0 <=? c) && (c <=? c9)) || (c =? cMINUS))%N then
    let s := i in
    '(val, info, next_i) <- scan_number json i ;;
    let i := next_i in
    if is_match then
      v <- json_from_slice val (Some s) (N.lor info INFO_NUMBER) ;;
      Ok (v, i, p)
    else Ok (value_default, i, p)
  else
    let s := i in
    (* n: length of the literal, k: its kind *)
    let literal (n : nat) (k : N) :=
      if length json <=? i + (n - 1) then Ok (value_default, length json, p)
      else
        let i := i + n in
        if is_match then
          t <- slice json s i ;;
          v <- json_from_slice t (Some s) k ;;
          Ok (v, i, p)
        else Ok (value_default, i, p) in
    if (c =? ct)%N then literal 4 INFO_TRUE
    else if (c =? cf)%N then literal 5 INFO_FALSE
    else if (c =? cn)%N then literal 4 INFO_NULL
    else Ok (value_default, length json, path_default).

(** [proc_value(json, i, Path::default(), true)] (lib.rs:400, 1129, path.rs:306):
    the default path has no separator, so the nested lookup is unreachable. *)
Definition proc_flat (json : bytes) (i : nat) : R (value * nat * path) :=
  proc_value (fun _ _ _ => Err EPanic) json i path_default true.

(** lib.rs:377-422 [for_each].  [step s key value] is the callback: it returns
    its new state and whether to continue.  The result is the final index and
    the final state. *)
Fixpoint for_each_loop {S} (fuel : nat) (json : bytes) (i : nat) (k : kind)
    (step : S -> value -> value -> R (S * bool))
    (index : nat) (tmp_key : value) (st : S) : R (nat * S) :=
  match fuel with
  | O => Err EFuel
  | Datatypes.S fuel =>
      if i <? length json then
        c <- idx json i ;;
        if ((c <=? cSP) || (c =? cCOMMA) || (c =? cCOLON))%N then
          for_each_loop fuel json (i + 1) k step index tmp_key st
        else if ((c =? cRBRC) || (c =? cRBRK))%N then Ok (i + 1, st)
        else
          '(res, next_i, _) <- proc_flat json i ;;
          let i := next_i in
          if v_exists res then
            if kind_eqb k KObject then
              if index mod 2 =? 0 then
                for_each_loop fuel json i k step (index + 1) res st
              else
                '(st, go_on) <- step st tmp_key res ;;
                if go_on : bool
                then for_each_loop fuel json i k step (index + 1) value_default st
                else Ok (i, st)
            else
              '(st, go_on) <- step st value_default res ;;
              if go_on : bool
              then for_each_loop fuel json i k step (index + 1) tmp_key st
              else Ok (i, st)
          else for_each_loop fuel json i k step index tmp_key st
      else Ok (i, st)
  end.

Definition for_each {S} (json : bytes) (i : nat) (lines : bool) (k : kind)
    (step : S -> value -> value -> R (S * bool)) (st : S) : R (nat * S) :=
  if i =? length json then Ok (i, st)
  else
    let i := if lines then i else i + 1 in
    for_each_loop (Datatypes.S (length json)) json i k step 0 value_default st.

(** lib.rs:352-363 [Value::each]; the result is the final callback state. *)
Definition v_each {S} (v : value) (step : S -> value -> value -> R (S * bool)) (st : S) : R S :=
  if negb (v_exists v) then Ok st
  else if negb (kind_eqb (v_kind v) KObject) && negb (kind_eqb (v_kind v) KArray) then
    '(st, _) <- step st value_default (json_clone_from_ref v) ;; Ok st
  else
    '(_, st) <- for_each (v_json v) 0 false (v_kind v) step st ;; Ok st.

(** lib.rs:365-374 [Value::array]. *)
Definition v_array (v : value) : R (list value) :=
  if kind_eqb (v_kind v) KArray then
    v_each v (fun arr _ x => Ok (arr ++ [x], true)) []
  else Ok [].

(** lib.rs:1114-1132 [parse]. *)
Fixpoint parse_loop (fuel : nat) (json : bytes) (i : nat) : R value :=
  match fuel with
  | O => Err EFuel
  | S fuel =>
      if i <? length json then
        c <- idx json i ;;
        if (c <=? cSP)%N then parse_loop fuel json (i + 1)
        else if (c =? cLBRC)%N then
          t <- slice_from json i ;;
          json_from_slice t (Some i) (N.lor INFO_OBJECT INFO_FOG)
        else if (c =? cLBRK)%N then
          t <- slice_from json i ;;
          json_from_slice t (Some i) (N.lor INFO_ARRAY INFO_FOG)
        else if ((c =? ct) || (c =? cf) || (c =? cn) || (c =? cQUOTE)
                 || ((c0 <=? c) && (c <=? c9)) || (c =? cMINUS))%N then
          '(v, _, _) <- proc_flat json i ;; Ok v
        else Ok value_default
      else Ok value_default
  end.

Definition parse (json : bytes) : R value := parse_loop (S (length json)) json 0.
