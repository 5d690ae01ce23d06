(** The order of values, kind by kind. *)
From Verif Require Import P_Base M_Util M_Num M_Scan M_Value P_Num P_POut P_Query S_Json S_Get S_Query S_Num S_Conv P_Float P_Conv.
From Coq Require Import Reals Lra SpecFloat.
From Flocq Require Import Core BinarySingleNaN.
Open Scope nat_scope.

Lemma kind_order a b : cmp_by kind_lt a b (kind_cmp a b).
Proof.
  assert (E : forall a b, kind_lt a b <-> kind_cmp a b = Lt).
  { intros x y. split.
    - intros (i & j & Hij & Hi & Hj).
      do 7 (destruct i as [|i]; [cbn in Hi; injection Hi as <-; do 7 (destruct j as [|j]; [cbn in Hj; first [injection Hj as <-|discriminate]; first [reflexivity|lia]|]); destruct j; discriminate|]).
      destruct i; discriminate.
    - intros H. exists (N.to_nat (kind_disc x)), (N.to_nat (kind_disc y)). destruct x, y; try discriminate H; cbn; repeat split; lia. }
  split; [|split].
  - symmetry. apply E.
  - destruct a, b; cbn; split; congruence.
  - rewrite E. destruct a, b; cbn; split; congruence.
Qed.
Lemma cmp_kinds a b : v_kind a <> v_kind b -> exists c, v_cmp a b = Ok c /\ cmp_by kind_lt (v_kind a) (v_kind b) c.
Proof.
  intros H. pose proof (kind_order (v_kind a) (v_kind b)) as O. exists (kind_cmp (v_kind a) (v_kind b)). split; auto.
  unfold v_cmp. destruct (kind_cmp _ _) eqn:E; auto. destruct O as (_ & [O _] & _). exfalso. auto.
Qed.
Lemma bcmp_by a b : cmp_by text_lt a b (bcmp a b).
Proof. split; [apply text_lt_bcmp|]. split; [apply bcmp_eq | apply text_gt_bcmp]. Qed.
Lemma kind_cmp_refl k : kind_cmp k k = Eq.
Proof. destruct k; reflexivity. Qed.
Lemma cmp_strings a b s t : v_kind a = KString -> v_kind b = KString -> v_str a = Ok s -> v_str b = Ok t ->
  exists c, v_cmp a b = Ok c /\ cmp_by text_lt s t c.
Proof.
  intros Ka Kb Sa Sb. exists (bcmp s t). split; [|apply bcmp_by]. unfold v_cmp. rewrite Ka, Kb, Sa, Sb. reflexivity.
Qed.
Lemma cmp_others a b : v_kind a = v_kind b -> v_kind a <> KString -> v_kind a <> KNumber ->
  exists c, v_cmp a b = Ok c /\ cmp_by text_lt (v_json a) (v_json b) c.
Proof.
  intros E Hs Hn. exists (bcmp (v_json a) (v_json b)). split; [|apply bcmp_by]. unfold v_cmp. rewrite <- E, kind_cmp_refl.
  destruct (v_kind a); try congruence; reflexivity.
Qed.
Lemma cmp_numbers a b m e m' e' : v_kind a = KNumber -> v_kind b = KNumber ->
  denotes (v_json a) m e -> denotes (v_json b) m' e' ->
  exists c, v_cmp a b = Ok c /\ cmp_by Rlt (f64_val (num_val m e)) (f64_val (num_val m' e')) c.
Proof.
  intros Ka Kb Da Db. destruct (raw_f64_denotes _ _ _ Da) as [G1 V1]. destruct (raw_f64_denotes _ _ _ Db) as [G2 V2].
  rewrite <- V1, <- V2. unfold v_cmp, v_f64. rewrite Ka, Kb. cbn [kind_cmp kind_disc kind_eqb N.compare bind]. eexists. split; [reflexivity|].
  unfold f64_lt. pose proof (good_ltb _ _ G1 G2) as L1. pose proof (good_ltb _ _ G2 G1) as L2.
  set (x := raw_to_f64 (v_json a)) in *. set (y := raw_to_f64 (v_json b)) in *. unfold cmp_by.
  destruct (SFltb x y) eqn:E1; [|destruct (SFltb y x) eqn:E2].
  - assert (H := proj1 L1 eq_refl). repeat split; intros; try discriminate; auto; lra.
  - assert (H := proj1 L2 eq_refl). repeat split; intros; try discriminate; auto; lra.
  - assert (H1 : ~ (sfv x < sfv y)%R) by (intros H; apply L1 in H; discriminate).
    assert (H2 : ~ (sfv y < sfv x)%R) by (intros H; apply L2 in H; discriminate).
    repeat split; intros; try discriminate; auto; lra.
Qed.

(* ---------- numbers of values ---------- *)

Lemma num_text_raw v s : num_text v s ->
  v_f64 v = Ok (raw_to_f64 s) /\ v_i64 v = Ok (raw_to_i64 s) /\ v_u64 v = Ok (raw_to_u64 s).
Proof.
  intros [K|b t H E].
  - unfold v_f64, v_i64, v_u64. rewrite K. auto.
  - pose proof (string_text_shows v b H) as T. pose proof (sh_kind _ _ H) as K. cbn in K.
    unfold v_f64, v_i64, v_u64. rewrite K, T, E. auto.
Qed.
Lemma f64_nearest v s m e : num_text v s -> denotes s m e ->
  exists x, v_f64 v = Ok x /\ is_float 53 1024 x /\ float_val 1024 x = f64_val (num_val m e) /\
    (sign_SF x = true <-> exists t, s = 0x2D%N :: t).
Proof.
  intros Hv Hd. exists (raw_to_f64 s). split; [apply (num_text_raw v s Hv)|].
  destruct (raw_f64_denotes _ _ _ Hd) as [G V]. split; auto. split; auto. apply (raw_f64_sign _ _ _ Hd).
Qed.
Lemma f32_nearest v x : v_f64 v = Ok x -> is_float 53 1024 x ->
  exists y, v_f32 v = Ok y /\ is_float 24 128 y /\ float_val 128 y = f32_val (float_val 1024 x).
Proof. intros E G. exists (f64_to_f32 x). unfold v_f32. rewrite E. split; auto. apply f32_good, G. Qed.
Lemma i64_saturates v s z : num_text v s -> int_literal s z -> v_i64 v = Ok (clamp (- 2 ^ 63) (2 ^ 63 - 1) z).
Proof. intros H Hz. destruct (num_text_raw v s H) as (_ & -> & _). rewrite (raw_i64_int _ _ Hz). reflexivity. Qed.
Lemma u64_saturates v s z : num_text v s -> int_literal s z -> v_u64 v = Ok (clamp 0 (2 ^ 64 - 1) z).
Proof. intros H Hz. destruct (num_text_raw v s H) as (_ & _ & ->). rewrite (raw_u64_int _ _ Hz). reflexivity. Qed.
Lemma i64_truncates v s m e : num_text v s -> denotes s m e -> (forall z, ~ int_literal s z) ->
  v_i64 v = Ok (clamp (- 2 ^ 63) (2 ^ 63 - 1) (Ztrunc (f64_val (num_val m e)))).
Proof.
  intros H Hd Hz. destruct (num_text_raw v s H) as (_ & -> & _). rewrite (raw_i64_trunc _ _ _ Hd); auto.
  intros z X. destruct (Hz z X).
Qed.
Lemma u64_truncates v s m e : num_text v s -> denotes s m e -> (forall z, ~ int_literal s z) ->
  v_u64 v = Ok (clamp 0 (2 ^ 64 - 1) (Ztrunc (f64_val (num_val m e)))).
Proof.
  intros H Hd Hz. destruct (num_text_raw v s H) as (_ & _ & ->). rewrite (raw_u64_trunc _ _ _ Hd); auto.
  intros z X. destruct (Hz z X).
Qed.
Lemma true_is_one v : v_kind v = KTrue -> v_i64 v = Ok 1%Z /\ v_u64 v = Ok 1%Z /\
  exists x, v_f64 v = Ok x /\ is_float 53 1024 x /\ float_val 1024 x = 1%R.
Proof.
  intros K. unfold v_i64, v_u64, v_f64. rewrite K. split; auto. split; auto. exists f64_one. split; auto.
  unfold f64_one. destruct (round_ratio_good false 1 1) as [G V]. split; auto. rewrite V. cbn [signed].
  replace (IZR 1 / IZR 1)%R with (IZR (signed false (2 ^ 0))) by (cbn; field).
  rewrite f64_val_pow by lia. reflexivity.
Qed.
Lemma others_are_zero v : v_kind v = KNull \/ v_kind v = KFalse \/ v_kind v = KArray \/ v_kind v = KObject ->
  v_i64 v = Ok 0%Z /\ v_u64 v = Ok 0%Z /\ v_f64 v = Ok (S754_zero false).
Proof. intros K. unfold v_i64, v_u64, v_f64. destruct K as [-> | [-> | [-> | ->]]]; auto. Qed.

(** A text that does not start like a number. *)
Lemma raw_not_number s : match s with
    | [] => True
    | c :: _ => ~ digit c /\ ~ In c [0x2B; 0x2D; 0x2E; 0x49; 0x69; 0x4E; 0x6E]%N
    end ->
  raw_to_f64 s = S754_zero false /\ raw_to_i64 s = 0%Z /\ raw_to_u64 s = 0%Z.
Proof.
  intros H. assert (F : parse_f64 s = None /\ parse_i64 s = None /\ parse_u64 s = None).
  { destruct s as [|c t]; [auto|]. destruct H as [Hd H]. cbn [In] in H.
    assert (Ed : is_digit c = false) by (destruct (is_digit c) eqn:E; auto; apply is_digit_spec in E; contradiction).
    unfold parse_f64, parse_i64, parse_u64.
    replace (c =? cMINUS)%N with false by (change cMINUS with 45%N; lia).
    replace (c =? cPLUS)%N with false by (change cPLUS with 43%N; lia).
    cbn [orb dec_digits dec_acc]. rewrite Ed. split; [|auto]. cbn [span_digits]. rewrite Ed.
    replace (c =? cDOT)%N with false by (change cDOT with 46%N; lia). cbn [app dec_digits].
    assert (L : (lower c <> 110 /\ lower c <> 105)%N) by (unfold lower; change cA with 65%N; destruct (_ && _)%N eqn:E; lia).
    cbn [map]. cbv zeta. unfold digit in Hd.
    assert (B : forall x l, lower c <> x -> beq (lower c :: map lower t) (x :: l) = false).
    { intros x l Hx. cbn [beq]. destruct (N.eqb_spec (lower c) x); [contradiction|reflexivity]. }
    rewrite !B by tauto. reflexivity. }
  destruct F as (F1 & F2 & F3). unfold raw_to_f64, raw_to_i64, raw_to_u64. rewrite F2, F3. unfold raw_to_f64. rewrite F1. auto.
Qed.
Lemma not_number_zero v b s : shows v (CStr b) -> v_str v = Ok s -> match s with
    | [] => True
    | c :: _ => ~ digit c /\ ~ In c [0x2B; 0x2D; 0x2E; 0x49; 0x69; 0x4E; 0x6E]%N
    end ->
  v_i64 v = Ok 0%Z /\ v_u64 v = Ok 0%Z /\ v_f64 v = Ok (S754_zero false).
Proof.
  intros H1 H2 H3. destruct (num_text_raw v s (nt_string v b s H1 H2)) as (-> & -> & ->).
  destruct (raw_not_number s H3) as (-> & -> & ->). auto.
Qed.
