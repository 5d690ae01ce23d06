(** Two values that answer every question alike, and JSON lines. *)
From Verif Require Import M_Base M_Util M_Num M_Value M_Get S_Json S_Api.

(** The same answers from every accessor of [Value] (only the position of the value
    in its document, which no accessor shows, may differ). *)
Record same_answers (a b : value) : Prop := mkSame {
  sa_exists : v_exists a = v_exists b;
  sa_json : v_json a = v_json b;
  sa_kind : v_kind a = v_kind b;
  sa_str : v_str a = v_str b;
  sa_bool : v_bool a = v_bool b;
  sa_f64 : v_f64 a = v_f64 b;
  sa_f32 : v_f32 a = v_f32 b;
  sa_i64 : v_i64 a = v_i64 b;
  sa_i32 : v_i32 a = v_i32 b;
  sa_i16 : v_i16 a = v_i16 b;
  sa_i8 : v_i8 a = v_i8 b;
  sa_u64 : v_u64 a = v_u64 b;
  sa_u32 : v_u32 a = v_u32 b;
  sa_u16 : v_u16 a = v_u16 b;
  sa_u8 : v_u8 a = v_u8 b;
  sa_array : v_array a = v_array b;
  sa_each : v_kind a = KArray \/ v_kind a = KObject -> v_each a record_args [] = v_each b record_args [];
  sa_cmp : forall x, v_cmp a x = v_cmp b x;
}.

(** Two calls that end alike: both return, with the same answers, or both panic. *)
Definition same_outcome (x y : R value) : Prop :=
  match x, y with
  | Ok a, Ok b => same_answers a b
  | Err e, Err f => e = f
  | _, _ => False
  end.

(** A document of JSON lines: values with whitespace around them, at least one byte of
    it between two values. *)
Definition lines_text (ls : list (item cst)) : text := concat (map (render_item render) ls).
Fixpoint spaced (ls : list (item cst)) : Prop :=
  match ls with
  | Item _ _ post :: ((Item pre _ _ :: _) as t) => (post <> [] \/ pre <> []) /\ spaced t
  | _ => True
  end.

(** A path for an array: no modifier, no multipath, no JSON lines prefix at its head. *)
Definition array_path (p : text) : Prop :=
  match p with
  | [] => True
  | c :: t => c <> 0x40%N /\ c <> 0x5B%N /\ c <> 0x7B%N /\ (c = 0x2E%N -> hd 0%N t <> 0x2E%N)
  end.
