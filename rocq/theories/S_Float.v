(** Specification vocabulary: which texts are read as floating-point numbers, and as
    which (the documented syntax of Rust's [str::parse::<f64>]). *)
From Coq Require Import List NArith ZArith Reals.
From Flocq Require Import Core.
From Verif Require Import S_Json S_Get S_Num.
Import ListNotations.

(** An optional sign. *)
Definition sign_text (sg : text) (neg : bool) : Prop :=
  (sg = [] /\ neg = false) \/ (sg = [0x2B%N] /\ neg = false) \/ (sg = [0x2D%N] /\ neg = true).
(** An integer. *)
Inductive int_text : text -> Z -> Prop :=
| it_int : forall sg neg ds, sign_text sg neg -> digits1 ds -> int_text (sg ++ ds) (signed neg (digits_val ds)).
(** Digits, with a dot somewhere between, before or after them, and an exponent: the
    number [m * 10^e]. *)
Inductive float_text : text -> Z -> Z -> Prop :=
| ft_int : forall sg neg ip ex x, sign_text sg neg -> digits1 ip -> exp_val ex x ->
    float_text (sg ++ ip ++ ex) (signed neg (digits_val ip)) x
| ft_dot : forall sg neg ip fp ex x, sign_text sg neg -> digits1 (ip ++ fp) -> exp_val ex x ->
    float_text (sg ++ ip ++ 0x2E%N :: fp ++ ex) (signed neg (digits_val (ip ++ fp))) (x - Z.of_nat (length fp)).
(** A word in lower-case letters, written in any case, with an optional sign. *)
Inductive word_text (w : text) : text -> bool -> Prop :=
| wd_word : forall sg neg u, sign_text sg neg -> Forall2 (fun a b => b = a \/ (b + 32)%N = a) w u -> word_text w (sg ++ u) neg.
Definition w_nan : text := [110; 97; 110]%N.
Definition w_inf : text := [105; 110; 102]%N.
Definition w_infinity : text := [105; 110; 102; 105; 110; 105; 116; 121]%N.

(** The number a text is read as, [None] for NaN; +-2^1024 stand for the infinities,
    and what is no number at all is read as zero. *)
Inductive f64_reads : text -> option R -> Prop :=
| fr_num : forall s m e, float_text s m e -> f64_reads s (Some (f64_val (num_val m e)))
| fr_inf : forall s neg, word_text w_inf s neg \/ word_text w_infinity s neg ->
    f64_reads s (Some (if neg then (- bpow radix2 1024)%R else bpow radix2 1024))
| fr_nan : forall s neg, word_text w_nan s neg -> f64_reads s None
| fr_other : forall s, (forall m e, ~ float_text s m e) ->
    (forall neg, ~ word_text w_inf s neg /\ ~ word_text w_infinity s neg /\ ~ word_text w_nan s neg) ->
    f64_reads s (Some 0%R).
