(** Specification vocabulary for numbers: the rational number a JSON number text
    denotes, and its nearest binary64 value.  Uses the real numbers of the standard
    library and the rounding function of Flocq. *)
From Coq Require Import List NArith ZArith Reals SpecFloat.
From Flocq Require Import Core BinarySingleNaN.
From Verif Require Import S_Json S_Get.
Import ListNotations.

Definition signed (neg : bool) (z : Z) : Z := if neg then (- z)%Z else z.

(** The exponent part of a number text and its value. *)
Inductive exp_val : text -> Z -> Prop :=
| ev_none : exp_val [] 0
| ev_plain : forall e ds, e = 0x65%N \/ e = 0x45%N -> digits1 ds -> exp_val (e :: ds) (digits_val ds)
| ev_plus : forall e ds, e = 0x65%N \/ e = 0x45%N -> digits1 ds -> exp_val (e :: 0x2B%N :: ds) (digits_val ds)
| ev_minus : forall e ds, e = 0x65%N \/ e = 0x45%N -> digits1 ds -> exp_val (e :: 0x2D%N :: ds) (- digits_val ds).
(** The number text [n] denotes [m * 10^e]. *)
Inductive denotes : text -> Z -> Z -> Prop :=
| den_int : forall (neg : bool) ip ex x, digits1 ip -> exp_val ex x ->
    denotes ((if neg then [0x2D%N] else []) ++ ip ++ ex) (signed neg (digits_val ip)) x
| den_frac : forall (neg : bool) ip fp ex x, digits1 ip -> digits1 fp -> exp_val ex x ->
    denotes ((if neg then [0x2D%N] else []) ++ ip ++ 0x2E%N :: fp ++ ex)
      (signed neg (digits_val (ip ++ fp))) (x - Z.of_nat (length fp)).

(** As a real number. *)
Definition num_val (m e : Z) : R := (IZR m * powerRZ 10 e)%R.

(** The nearest binary64 value, ties to even; beyond the largest finite value
    +-2^1024 stand for the infinities. *)
Definition rnd64 (x : R) : R := round radix2 (FLT_exp (-1074) 53) ZnearestE x.
Definition f64_val (x : R) : R := Rmax (- bpow radix2 1024) (Rmin (bpow radix2 1024) (rnd64 x)).

(** The same for binary32, with +-2^128. *)
Definition rnd32 (x : R) : R := round radix2 (FLT_exp (-149) 24) ZnearestE x.
Definition f32_val (x : R) : R := Rmax (- bpow radix2 128) (Rmin (bpow radix2 128) (rnd32 x)).

(** Floats that are numbers (not NaN) of the given format, and their real values; the
    infinities are +-2^emax. *)
Definition is_float (prec emax : Z) (x : spec_float) : Prop := valid_binary prec emax x = true /\ is_nan_SF x = false.
Definition float_val (emax : Z) (x : spec_float) : R :=
  match x with
  | S754_infinity s => if s then (- bpow radix2 emax)%R else bpow radix2 emax
  | _ => SF2R radix2 x
  end.
