(** How the integer conversions of one value are related. *)
From Coq Require Import Reals ZArith Lia String List.
From Coq.Floats Require Import SpecFloat.
From Flocq Require Import Core.
From Verif Require Import M_Base M_Util M_Num M_Scan M_Value M_Get S_Json S_Str S_Get S_Num S_Conv S_Float S_Truth.
From Verif Require Import P_Base P_Num P_Order P_Truth P_FloatText P_QNum P_Float P_Conv P_Mono.
Import ListNotations. Open Scope list_scope.
Open Scope Z_scope.

(** Both are made of the same integer, whatever the text is. *)
Lemma raw_clamped t : exists i, raw_to_i64 t = clamp (- 2 ^ 63) (2 ^ 63 - 1) i /\ raw_to_u64 t = clamp 0 (2 ^ 64 - 1) i.
Proof.
  set (w := mkValue t [] [] INFO_NUMBER None). assert (Hw : num_text w t) by exact (nt_number w eq_refl).
  destruct (num_text_raw w t Hw) as (_ & A & B). destruct (reads_total t) as ([y|] & R).
  - destruct (whole_some t y) as (i & Hi). exists i. pose proof (whole_i64 w t y i Hw R Hi) as C. pose proof (whole_u64 w t y i Hw R Hi) as D.
    rewrite A in C. rewrite B in D. injection C as ->. injection D as ->. split; reflexivity.
  - exists 0. pose proof (proj2 (proj2 (i64_any w t Hw)) R) as C. pose proof (proj2 (proj2 (u64_any w t Hw)) R) as D.
    rewrite A in C. rewrite B in D. injection C as ->. injection D as ->. split; reflexivity.
Qed.
Lemma both_clamped v x : v_i64 v = Ok x -> exists i, x = clamp (- 2 ^ 63) (2 ^ 63 - 1) i /\ v_u64 v = Ok (clamp 0 (2 ^ 64 - 1) i).
Proof.
  unfold v_i64, v_u64. destruct (v_kind v); intros H.
  all: try (injection H as <-; first [exists 1; split; reflexivity|exists 0; split; reflexivity]).
  all: try (destruct (string_text v) as [t|]; [|discriminate H]; cbn [bind] in *; injection H as <-; destruct (raw_clamped t) as (i & -> & ->); exists i; split; reflexivity).
  injection H as <-. destruct (raw_clamped (v_json v)) as (i & -> & ->). exists i. split; reflexivity.
Qed.
Theorem fit_agree v i : v_i64 v = Ok i -> exists k, v_u64 v = Ok k /\ - 2 ^ 63 <= i < 2 ^ 63 /\ 0 <= k < 2 ^ 64 /\
  (i < 2 ^ 63 - 1 -> k = Z.max 0 i) /\ (i = 2 ^ 63 - 1 -> i <= k).
Proof. intros H. destruct (both_clamped v i H) as (z & -> & B). eexists. split; [exact B|]. unfold clamp. lia. Qed.
Theorem fit_narrow v i : v_i64 v = Ok i -> v_u32 v = Ok (clamp 0 4294967295 i) /\ v_u16 v = Ok (clamp 0 65535 i) /\ v_u8 v = Ok (clamp 0 255 i).
Proof.
  intros H. destruct (both_clamped v i H) as (z & -> & B). destruct (narrow_saturate_u v _ B) as (C1 & C2 & C3). rewrite C1, C2, C3. unfold clamp.
  repeat split; f_equal; lia.
Qed.
Theorem fit_small v i : v_i64 v = Ok i -> 0 <= i <= 127 -> Forall (fun f : value -> M_Base.R Z => f v = Ok i) [v_i64; v_i32; v_i16; v_i8; v_u64; v_u32; v_u16; v_u8].
Proof.
  intros H L. destruct (fit_agree v i H) as (k & K & _ & _ & E & _). destruct (fit_narrow v i H) as (C1 & C2 & C3). destruct (narrow_saturate v i H) as (D1 & D2).
  pose proof (i32_exact v i H) as I. rewrite E in K by lia. unfold clamp in *.
  constructor; [exact H|]. constructor; [rewrite I; destruct (Z.ltb_spec 2147483647 i); f_equal; lia|]. constructor; [rewrite D1; f_equal; lia|].
  constructor; [rewrite D2; f_equal; lia|]. constructor; [rewrite K; f_equal; lia|]. constructor; [rewrite C1; f_equal; lia|].
  constructor; [rewrite C2; f_equal; lia|]. constructor; [rewrite C3; f_equal; lia|constructor].
Qed.
(** A conversion fails in one of the types just when it fails in all. *)
Theorem fit_ok v : (exists i, v_i64 v = Ok i) <-> (exists k, v_u64 v = Ok k).
Proof.
  unfold v_i64, v_u64. destruct (v_kind v); try (split; intros _; eexists; reflexivity).
  destruct (string_text v); cbn [bind]; split; intros (x & H); solve [eexists; reflexivity|discriminate H].
Qed.

(** The integer is f64() without its fraction, as long as it has at most 53 bits. *)
Lemma raw_trunc t : (Z.abs (raw_to_i64 t) <= 2 ^ 53) ->
  (raw_to_f64 t = S754_nan /\ raw_to_i64 t = 0) \/ (is_float 53 1024 (raw_to_f64 t) /\ Ztrunc (float_val 1024 (raw_to_f64 t)) = raw_to_i64 t).
Proof.
  set (w := mkValue t [] [] INFO_NUMBER None). assert (Hw : num_text w t) by exact (nt_number w eq_refl).
  destruct (num_text_raw w t Hw) as (F & A & _). intros L. destruct (reads_total t) as ([y|] & R).
  - right. destruct (f64_any w t _ Hw R) as (x & Ex & G & V). rewrite F in Ex. injection Ex as <-. split; [exact G|]. rewrite V.
    destruct (whole_some t y) as (i & Hi). pose proof (whole_i64 w t y i Hw R Hi) as C. rewrite A in C. assert (C' : raw_to_i64 t = clamp (- 2 ^ 63) (2 ^ 63 - 1) i) by congruence.
    assert (E : raw_to_i64 t = i) by (unfold clamp in C'; lia). rewrite E in L |- *.
    destruct Hi as [Hi|[_ Hi]]; [|symmetry; exact Hi]. rewrite (int_reads t i y Hi R), (P_QNum.f64_val_int i L). apply Ztrunc_IZR.
  - left. destruct (f64_any w t _ Hw R) as (x & Ex & V). rewrite F in Ex. injection Ex as <-. split; [exact V|].
    pose proof (proj2 (proj2 (i64_any w t Hw)) R) as C. rewrite A in C. injection C as C. exact C.
Qed.
Theorem fit_float v i : v_i64 v = Ok i -> (Z.abs i <= 2 ^ 53) ->
  exists x, v_f64 v = Ok x /\ ((x = S754_nan /\ i = 0) \/ (is_float 53 1024 x /\ Ztrunc (float_val 1024 x) = i)).
Proof.
  intros H L. destruct (v_kind v) eqn:K; unfold v_i64 in H; rewrite K in H; unfold v_f64; rewrite K.
  all: try (injection H as <-; exists f64_zero; split; [reflexivity|]; right; split; [split; reflexivity|exact (Ztrunc_IZR 0)]).
  all: try (destruct (string_text v) as [t|]; [|discriminate H]; cbn [bind] in *; injection H as <-; eexists; split; [reflexivity|]; apply raw_trunc, L).
  all: try (injection H as <-; eexists; split; [reflexivity|]; apply raw_trunc, L).
  injection H as <-. destruct (true_is_one v K) as (_ & _ & x & E & G & V). unfold v_f64 in E. rewrite K in E. exists x. split; [exact E|]. right. split; [exact G|].
  rewrite V. exact (Ztrunc_IZR 1).
Qed.
