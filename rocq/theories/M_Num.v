(** Model of the standard-library number conversions used by src/lib.rs:
    [str::parse::<i64>], [str::parse::<u64>], [str::parse::<f64>], float
    comparison, and the saturating [as] casts.  These are library functions, so
    they are modelled from their documentation. *)
From Coq Require Import Floats.SpecFloat.
From Verif Require Import M_Base.

Definition is_digit (c : byte) : bool := ((c0 <=? c) && (c <=? c9))%N.

(** Value of a non-empty all-digit string. *)
Fixpoint dec_acc (acc : Z) (s : bytes) : option Z :=
  match s with
  | [] => Some acc
  | c :: t => if is_digit c then dec_acc (acc * 10 + Z.of_N (c - c0))%Z t else None
  end.

Definition dec_digits (s : bytes) : option Z :=
  match s with [] => None | _ => dec_acc 0 s end.

Definition i64_min : Z := (- 2 ^ 63)%Z.
Definition i64_max : Z := (2 ^ 63 - 1)%Z.
Definition u64_max : Z := (2 ^ 64 - 1)%Z.

Definition in_range (lo hi z : Z) : option Z :=
  if ((lo <=? z) && (z <=? hi))%Z then Some z else None.

(** [<i64 as FromStr>::from_str]: optional sign, at least one digit, in range. *)
Definition parse_i64 (s : bytes) : option Z :=
  match s with
  | [] => None
  | c :: t =>
      let r := if (c =? cMINUS)%N then option_map Z.opp (dec_digits t)
               else if (c =? cPLUS)%N then dec_digits t
               else dec_digits s in
      match r with Some z => in_range i64_min i64_max z | None => None end
  end.

(** [<u64 as FromStr>::from_str]: optional '+', at least one digit, in range. *)
Definition parse_u64 (s : bytes) : option Z :=
  match s with
  | [] => None
  | c :: t =>
      let r := if (c =? cPLUS)%N then dec_digits t else dec_digits s in
      match r with Some z => in_range 0 u64_max z | None => None end
  end.

(** IEEE 754 binary64. *)
Notation f64 := spec_float (only parsing).
Definition prec64 : Z := 53.
Definition emax64 : Z := 1024.

(** The float nearest to [num / den] (ties to even): the exact quotient is
    computed with a sticky location and rounded once. *)
Definition round_ratio (neg : bool) (num den : positive) : f64 :=
  let '(q, e, l) := SFdiv_core_binary prec64 emax64 (Zpos num) 0 (Zpos den) 0 in
  binary_round_aux prec64 emax64 neg q e l.

(** The float nearest to [(-1)^neg * d * 10^e]. *)
Definition round_decimal (neg : bool) (d : Z) (e : Z) : f64 :=
  match d with
  | Zpos p =>
      match e with
      | Zneg k => round_ratio neg p (Pos.pow 10 k)
      | Zpos k => round_ratio neg (p * Pos.pow 10 k) 1
      | Z0 => round_ratio neg p 1
      end
  | _ => S754_zero neg
  end.

(** Split off the leading digits. *)
Fixpoint span_digits (s : bytes) : bytes * bytes :=
  match s with
  | c :: t => if is_digit c then let '(d, r) := span_digits t in (c :: d, r) else ([], s)
  | [] => ([], [])
  end.

Definition lower (c : byte) : byte := if ((cA <=? c) && (c <=? 90))%N then (c + 32)%N else c.

(** The optional exponent part: [Some e] when all of [s] is a well-formed
    exponent (or empty). *)
Definition parse_exp (s : bytes) : option Z :=
  match s with
  | [] => Some 0%Z
  | c :: t =>
      if ((c =? ce) || (c =? cE))%N then
        match t with
        | s0 :: t' =>
            if (s0 =? cMINUS)%N then option_map Z.opp (dec_digits t')
            else if (s0 =? cPLUS)%N then dec_digits t'
            else dec_digits t
        | [] => None
        end
      else None
  end.

(** [<f64 as FromStr>::from_str]: optional sign, then [inf], [infinity], [nan]
    (any case) or digits with an optional dot and optional exponent with at
    least one digit in the mantissa. *)
Definition parse_f64 (s : bytes) : option f64 :=
  match s with
  | [] => None
  | c :: t =>
      let neg := (c =? cMINUS)%N in
      let u := if ((c =? cMINUS) || (c =? cPLUS))%N then t else s in
      let '(ip, r) := span_digits u in
      let '(fp, r) := match r with
                      | d :: r' => if (d =? cDOT)%N then span_digits r' else ([], r)
                      | [] => ([], r)
                      end in
      match dec_digits (ip ++ fp), parse_exp r with
      | Some d, Some e => Some (round_decimal neg d (e - Z.of_nat (length fp)))
      | _, _ =>
          let w := map lower u in
          if beq w [110; 97; 110]%N then Some S754_nan
          else if beq w [105; 110; 102]%N
               || beq w [105; 110; 102; 105; 110; 105; 116; 121]%N
               then Some (S754_infinity neg)
          else None
      end
  end.

(** Truncation towards zero of a float, saturating; NaN is 0
    ([x as i64] / [x as u64]). *)
Definition f64_to_int (lo hi : Z) (x : f64) : Z :=
  match x with
  | S754_zero _ => 0
  | S754_nan => 0
  | S754_infinity s => if s then lo else hi
  | S754_finite s m e =>
      let a := match e with
               | Zneg k => (Zpos m / 2 ^ Zpos k)%Z
               | _ => (Zpos m * 2 ^ e)%Z
               end in
      let z := if s then (- a)%Z else a in
      Z.max lo (Z.min hi z)
  end.

Definition f64_to_i64 : f64 -> Z := f64_to_int i64_min i64_max.
Definition f64_to_u64 : f64 -> Z := f64_to_int 0 u64_max.

(** [x as f32]. *)
Definition f64_to_f32 (x : f64) : spec_float :=
  match x with
  | S754_finite s m e => binary_round 24 128 s m e
  | _ => x
  end.

(** [1.0] and [0.0]. *)
Definition f64_one : f64 := round_ratio false 1 1.
Definition f64_zero : f64 := S754_zero false.

(** lib.rs:424-426 [raw_to_f64]. *)
Definition raw_to_f64 (raw : bytes) : f64 :=
  match parse_f64 raw with Some x => x | None => f64_zero end.

(** lib.rs:428-430 [raw_to_i64]. *)
Definition raw_to_i64 (raw : bytes) : Z :=
  match parse_i64 raw with Some z => z | None => f64_to_i64 (raw_to_f64 raw) end.

(** lib.rs:432-434 [raw_to_u64]. *)
Definition raw_to_u64 (raw : bytes) : Z :=
  match parse_u64 raw with Some z => z | None => f64_to_u64 (raw_to_f64 raw) end.

(** [format!] of an unsigned integer: decimal digits without leading zeros. *)
Fixpoint dec_of_nat_loop (fuel : nat) (n : nat) (acc : bytes) : bytes :=
  match fuel with
  | O => acc
  | S f =>
      let acc := (c0 + N.of_nat (n mod 10))%N :: acc in
      if n / 10 =? 0 then acc else dec_of_nat_loop f (n / 10) acc
  end.
Definition dec_of_nat (n : nat) : bytes := dec_of_nat_loop (S n) n [].
