(** Specification: two calls whose results differ only in where they begin. *)
From Coq Require Import List NArith.
From Verif Require Import M_Base M_Value S_Json S_Same.
Import ListNotations.

(** Blanks, as the lookups understand them: every byte up to the space. *)
Definition blanks (w : text) : Prop := Forall (fun c => (c <= 0x20)%N) w.

(** The same answers, the first value beginning [n] bytes further on. *)
Definition moved (n : nat) (x y : R value) : Prop :=
  match x, y with
  | Ok a, Ok b => same_answers a b /\ v_index a = option_map (fun i => n + i) (v_index b)
  | Err e, Err f => e = f
  | _, _ => False
  end.

(** A path that begins with a component, or with two dots: not with a modifier or a
    multipath. *)
Definition plain_path (p : text) : Prop :=
  match p with c :: _ => c <> 0x40%N /\ c <> 0x5B%N /\ c <> 0x7B%N | [] => True end.

(** An object or array begins here, closed or not. *)
Definition begins_container (s : text) : Prop := exists c r, s = c :: r /\ (c = 0x7B%N \/ c = 0x5B%N).
