(** Property C58: the outcome of every comparison in a query, and C50, C51 and C53 for
    values with arbitrary text.
    [asks c x q o r] and [q_holds c q b] (S_Query.v) are as for C18; [satisfies x o r]
    (S_Truth.v) is the meaning of the comparison, and [f64_reads s o] (S_Float.v) says
    which number, if any, is read from a text. *)
From Coq Require Import Reals Lra Lia ZArith String List.
From Coq.Floats Require Import SpecFloat.
From Flocq Require Import Core BinarySingleNaN.
From Verif Require Import M_Base M_Util M_Num M_Value M_Get S_Json S_Str S_Get S_Path S_Query S_Num S_Conv S_Float S_Truth
  P_Wf P_Num P_QNum P_FloatText P_Truth Properties_Query.
Import ListNotations.
Open Scope list_scope.
Open Scope nat_scope.
Delimit Scope R_scope with R.

(** C58: for a right-hand side of any form and a selected value of any kind, the query
    holds exactly when the value satisfies the comparison. *)
Theorem C58_query : forall c x q o r r1, wf c -> asks c x q o r ->
  trimmed r -> balanced r -> hd 0%N r <> 0x3D%N -> rhs_reads r r1 ->
  (exists a, v_bool x = Ok a) -> (exists s, v_str x = Ok s) ->
  exists t, q_holds c q t /\ (t = true <-> satisfies x o r1).
Proof. exact holds_any. Qed.
Print Assumptions C58_query.

Lemma plain_balanced l : forallb (fun c => negb (existsb (N.eqb c) [0x28; 0x29; 0x5B; 0x5D; 0x7B; 0x7D; 0x22; 0x5C]%N)) l = true -> balanced l.
Proof.
  induction l as [|c t IH]; [constructor|]. cbn [forallb]. intros H. apply andb_prop in H as [H1 H2].
  apply Bool.negb_true_iff in H1. unfold existsb in H1. repeat (apply Bool.orb_false_elim in H1 as [? H1]).
  repeat match goal with H : (_ =? _)%N = false |- _ => apply N.eqb_neq in H end.
  apply bal_char; unfold bracket_open, bracket_close; auto; lia.
Qed.
Lemma bare_reads r : hd 0%N r <> 0x22%N -> rhs_reads r r.
Proof. intros H. apply rr_bare. intros b _ E. apply H. rewrite E. reflexivity. Qed.
(** -125 is less than a right-hand side that is no number, since that counts as zero. *)
Example C58_case : exists x, asks qobj x (bs " n<abc") QLt (bs "abc") /\ trimmed (bs "abc") /\ balanced (bs "abc") /\
  rhs_reads (bs "abc") (bs "abc") /\ (exists a, v_bool x = Ok a) /\ (exists s, v_str x = Ok s) /\
  v_kind x = KNumber /\ f64_reads (v_json x) (Some (-125)%R) /\ f64_reads (bs "abc") (Some 0%R) /\ satisfies x QLt (bs "abc") /\
  q_holds qobj (bs " n<abc") true.
Proof.
  assert (H1 : f64_reads (bs "-12.50e1") (Some (-125)%R)).
  { pose proof (fr_num _ _ _ (ft_dot [0x2D%N] true (bs "12") (bs "50") (bs "e1") 1 ltac:(right; right; auto) ltac:(apply digs; reflexivity)
      ltac:(apply (ev_plain 101 (bs "1")); [auto | apply digs; reflexivity]))) as H. cbn in H.
    match type of H with f64_reads _ (Some (f64_val ?v)) => assert (E : v = IZR (-125)) end.
    { unfold num_val. cbn. change (Pos.to_nat 1) with 1. lra. }
    rewrite E in H. rewrite f64_val_int in H by lia. exact H. }
  assert (H2 : f64_reads (bs "abc") (Some 0%R)).
  { destruct (reads_total (bs "abc")) as (o & H). pose proof H as H'. apply reads_raw in H' as [_ E]. vm_compute in E. subst o. exact H. }
  eexists. split; [asks_key (bs "n")|]. split; [right; vm_compute; auto|]. split; [apply plain_balanced; reflexivity|].
  split; [apply bare_reads; discriminate|]. split; [eexists; vm_compute; reflexivity|]. split; [eexists; vm_compute; reflexivity|].
  split; [vm_compute; reflexivity|]. split; [exact H1|]. split; [exact H2|]. split.
  - eapply sat_number; [discriminate | vm_compute; reflexivity | vm_compute; reflexivity | exact H1 | exact H2 |]. cbn. lra.
  - holds_by.
Qed.
(** NaN is different from every number, and nothing else. *)
Example C58_nan : f64_reads (bs "-NaN") None /\ q_holds qobj (bs " n!=-NaN") true /\ q_holds qobj (bs " n<=-NaN") false /\
  q_holds qobj (bs " n>-NaN") false.
Proof.
  split; [|split; [holds_by|split; holds_by]]. eapply (fr_nan _ true). apply (wd_word w_nan [0x2D%N] true (bs "NaN")).
  - right. right. auto.
  - repeat constructor; lia.
Qed.

(** Every text is read as exactly one number, or as NaN. *)
Theorem C50_reads : forall s, exists! o, f64_reads s o.
Proof. intros s. destruct (reads_total s) as (o & H). exists o. split; auto. intros o' H'. exact (reads_unique s o o' H H'). Qed.
Print Assumptions C50_reads.
(** C50 for every text: f64() is the number it is read as. *)
Theorem C50_f64_any : forall v s o, num_text v s -> f64_reads s o ->
  exists x, v_f64 v = Ok x /\
    match o with
    | Some y => is_float 53 1024 x /\ float_val 1024 x = y
    | None => x = S754_nan
    end.
Proof. exact f64_any. Qed.
Print Assumptions C50_f64_any.
(** C34 for every number, well-formed or not: the order of what they are read as; a text
    that is not a number compares as equal to all numbers. *)
Theorem C34_numbers_any : forall a b o o', v_kind a = KNumber -> v_kind b = KNumber ->
  f64_reads (v_json a) o -> f64_reads (v_json b) o' ->
  exists c, v_cmp a b = Ok c /\
    match o, o' with
    | Some x, Some y => cmp_by Rlt x y c
    | _, _ => c = Eq
    end.
Proof. exact cmp_numbers_any. Qed.
Print Assumptions C34_numbers_any.
(** C53 for every text. *)
Theorem C53_f32_any : forall v s o, num_text v s -> f64_reads s o ->
  exists x, v_f32 v = Ok x /\
    match o with
    | Some y => is_float 24 128 x /\ float_val 128 x = f32_val y
    | None => x = S754_nan
    end.
Proof. exact f32_any. Qed.
Print Assumptions C53_f32_any.
(** C51 for every text: integers, which may have a sign, saturate; from other numbers the
    fraction is dropped; NaN is zero. *)
Theorem C51_i64_any : forall v s, num_text v s ->
  (forall z, int_text s z -> v_i64 v = Ok (clamp (- 2 ^ 63) (2 ^ 63 - 1) z)) /\
  (forall y, (forall z, ~ int_text s z) -> f64_reads s (Some y) -> v_i64 v = Ok (clamp (- 2 ^ 63) (2 ^ 63 - 1) (Ztrunc y))) /\
  (f64_reads s None -> v_i64 v = Ok 0%Z).
Proof. exact i64_any. Qed.
Print Assumptions C51_i64_any.
Theorem C51_u64_any : forall v s, num_text v s ->
  (forall z, int_text s z -> v_u64 v = Ok (clamp 0 (2 ^ 64 - 1) z)) /\
  (forall y, (forall z, ~ int_text s z) -> f64_reads s (Some y) -> v_u64 v = Ok (clamp 0 (2 ^ 64 - 1) (Ztrunc y))) /\
  (f64_reads s None -> v_u64 v = Ok 0%Z).
Proof. exact u64_any. Qed.
Print Assumptions C51_u64_any.
(** The string "+.5E1" is read as 5, and "Infinity" as more than every integer. *)
Example C50_any_case : exists v w x, get (bs "[""+.5E1"",""Infinity""]") (bs "0") = Ok v /\ get (bs "[""+.5E1"",""Infinity""]") (bs "1") = Ok w /\
  num_text v (bs "+.5E1") /\ num_text w (bs "Infinity") /\ f64_reads (bs "+.5E1") (Some 5%R) /\
  f64_reads (bs "Infinity") (Some (bpow radix2 1024)) /\ v_f64 v = Ok x /\ SF2R radix2 x = 5%R /\
  v_i64 v = Ok 5%Z /\ v_i64 w = Ok (2 ^ 63 - 1)%Z.
Proof.
  eexists. eexists. eexists. split; [vm_compute; reflexivity|]. split; [vm_compute; reflexivity|].
  split; [apply (nt_string _ (bs "+.5E1")); [split; vm_compute; reflexivity | vm_compute; reflexivity]|].
  split; [apply (nt_string _ (bs "Infinity")); [split; vm_compute; reflexivity | vm_compute; reflexivity]|].
  split.
  { pose proof (fr_num _ _ _ (ft_dot [0x2B%N] false [] (bs "5") (bs "E1") 1 ltac:(right; left; auto) ltac:(apply digs; reflexivity)
      ltac:(apply (ev_plain 69 (bs "1")); [auto | apply digs; reflexivity]))) as H. cbn in H.
    match type of H with f64_reads _ (Some (f64_val ?v)) => assert (E : v = IZR 5) end.
    { unfold num_val. cbn. change (Pos.to_nat 1) with 1. lra. }
    rewrite E in H. rewrite f64_val_int in H by lia. exact H. }
  split.
  { apply (fr_inf _ false). right. apply (wd_word w_infinity [] false (bs "Infinity")); [left; auto|]. repeat constructor; lia. }
  split; [vm_compute; reflexivity|]. split; [|split; vm_compute; reflexivity].
  cbn. unfold F2R. cbn. lra.
Qed.
