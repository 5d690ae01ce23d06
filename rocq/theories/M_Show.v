(** lib.rs:138-142, 1090-1092: printing a value, and [get_bytes]. *)
From Verif Require Import M_Base M_Value M_Get.

(** lib.rs:138-142 [Display for Value]: [write!] of [self.str()], which takes no notice of
    the width and fill of the format. *)
Definition v_display (v : value) : R bytes := v_str v.

(** lib.rs:1090-1092 [get_bytes]: [tostr] (util.rs:16-18) changes the type only; strings
    are lists of bytes here. *)
Definition get_bytes (json path : bytes) : R value := get json path.

(** README.md:244-246, 265-268: a loop over [array()] that calls [println!] with each
    value, and the same with [each]; [println_members] also prints the key, a colon and a
    space in front of each value. *)
Fixpoint println_all (vs : list value) : R bytes :=
  match vs with
  | [] => Ok []
  | v :: t => a <- v_display v ;; b <- println_all t ;; Ok (a ++ cLF :: b)
  end.
Definition println_array (v : value) : R bytes := vs <- v_array v ;; println_all vs.
Definition println_each (v : value) : R bytes :=
  v_each v (fun out _ x => t <- v_display x ;; Ok (out ++ t ++ [cLF], true)) [].
Definition println_members (v : value) : R bytes :=
  v_each v (fun out k x => n <- v_display k ;; t <- v_display x ;; Ok (out ++ n ++ [cCOLON; cSP] ++ t ++ [cLF], true)) [].
