(** The conversions of numbers keep their order. *)
From Coq Require Import Reals Lra Lia ZArith String List Classical_Prop.
From Coq.Floats Require Import SpecFloat.
From Flocq Require Import Core BinarySingleNaN.
From Verif Require Import M_Base M_Util M_Num M_Value M_Get S_Json S_Str S_Get S_Path S_Query S_Num S_Conv S_Float S_Truth.
From Verif Require Import P_Base P_Num P_QNum P_Float P_Conv P_Order P_FloatText P_Truth.
Import ListNotations. Open Scope list_scope.
Delimit Scope R_scope with R.

Lemma clamp_mono lo hi x y : (x <= y)%Z -> (clamp lo hi x <= clamp lo hi y)%Z.
Proof. unfold clamp. lia. Qed.
Lemma rnd64_mono x y : (x <= y)%R -> (rnd64 x <= rnd64 y)%R.
Proof. intros H. unfold rnd64. apply round_le; [apply FLT_exp_valid; reflexivity|apply valid_rnd_N|exact H]. Qed.
Lemma rnd32_mono x y : (x <= y)%R -> (rnd32 x <= rnd32 y)%R.
Proof. intros H. unfold rnd32. apply round_le; [apply FLT_exp_valid; reflexivity|apply valid_rnd_N|exact H]. Qed.
Lemma f32_val_mono x y : (x <= y)%R -> (f32_val x <= f32_val y)%R.
Proof. intros H. unfold f32_val. apply Rle_max_compat_l, Rle_min_compat_l, rnd32_mono, H. Qed.
Lemma rnd64_big (s : bool) : rnd64 (if s then - bpow radix2 1024 else bpow radix2 1024)%R = (if s then - bpow radix2 1024 else bpow radix2 1024)%R.
Proof.
  unfold rnd64. apply round_generic; [apply valid_rnd_N|].
  assert (G : generic_format radix2 (FLT_exp (-1074) 53) (bpow radix2 1024)) by (apply generic_format_bpow; vm_compute; discriminate).
  destruct s; [apply generic_format_opp|]; exact G.
Qed.
Lemma bpow_pos_1024 : (0 < bpow radix2 1024)%R.
Proof. apply bpow_gt_0. Qed.
(** What is a double stays as it is. *)
Definition still (x : Rdefinitions.R) : Prop := f64_val x = x.
Lemma still_big (s : bool) : still (if s then - bpow radix2 1024 else bpow radix2 1024)%R.
Proof.
  assert (P := bpow_pos_1024). unfold still, f64_val. rewrite rnd64_big. destruct s.
  - rewrite Rmin_right by lra. rewrite Rmax_left by lra. reflexivity.
  - rewrite Rmin_left by lra. rewrite Rmax_right by lra. reflexivity.
Qed.
Lemma still_val x : still (f64_val x).
Proof.
  assert (P := bpow_pos_1024).
  assert (C : f64_val x = (- bpow radix2 1024)%R \/ f64_val x = bpow radix2 1024 \/ (f64_val x = rnd64 x /\ (- bpow radix2 1024 <= rnd64 x <= bpow radix2 1024)%R)).
  { unfold f64_val. destruct (Rle_or_lt (rnd64 x) (bpow radix2 1024)) as [H|H].
    - rewrite Rmin_right by exact H. destruct (Rle_or_lt (- bpow radix2 1024) (rnd64 x)) as [H'|H'].
      + rewrite Rmax_right by exact H'. auto.
      + rewrite Rmax_left by lra. auto.
    - rewrite Rmin_left by lra. rewrite Rmax_right by lra. auto. }
  destruct C as [->|[->|[-> [H1 H2]]]]; [exact (still_big true)|exact (still_big false)|]. unfold still, f64_val.
  assert (E : rnd64 (rnd64 x) = rnd64 x).
  { unfold rnd64. apply round_generic; [apply valid_rnd_N|]. apply generic_format_round; [apply FLT_exp_valid; reflexivity|apply valid_rnd_N]. }
  rewrite E, Rmin_right by exact H2. apply Rmax_right, H1.
Qed.
Lemma reads_still s y : f64_reads s (Some y) -> still y.
Proof. intros H. inversion H; subst; [apply still_val|apply still_big|exact f64_val_0]. Qed.

Lemma trunc_below y z : (Ztrunc y < z)%Z -> (y <= IZR z)%R.
Proof.
  intros H. destruct (Rle_or_lt 0 y) as [Hy|Hy].
  - rewrite Ztrunc_floor in H by exact Hy. left. apply Rlt_le_trans with (IZR (Zfloor y + 1)); [rewrite plus_IZR; apply Zfloor_ub|]. apply IZR_le. lia.
  - rewrite Ztrunc_ceil in H by lra. apply Rle_trans with (IZR (Zceil y)); [apply Zceil_ub|]. apply IZR_le. lia.
Qed.
Lemma trunc_above y z : (z < Ztrunc y)%Z -> (IZR z <= y)%R.
Proof.
  intros H. assert (E : (Ztrunc (- y) < - z)%Z) by (rewrite Ztrunc_opp; lia). apply trunc_below in E. rewrite opp_IZR in E. lra.
Qed.
(** The integer a text stands for. *)
Definition whole_of (s : text) (y : Rdefinitions.R) (i : Z) : Prop := int_text s i \/ ((forall z, ~ int_text s z) /\ i = Ztrunc y).
Lemma whole_some s y : exists i, whole_of s y i.
Proof.
  destruct (classic (exists z, int_text s z)) as [(z & H)|H]; [exists z; left; exact H|]. exists (Ztrunc y). right. split; [|reflexivity]. intros z Hz. apply H. eauto.
Qed.
Lemma int_reads s z x : int_text s z -> f64_reads s (Some x) -> x = f64_val (IZR z).
Proof.
  intros H Hr. pose proof (reads_unique _ _ _ Hr (fr_num _ _ _ (int_text_float _ _ H))) as E. injection E as ->. f_equal. unfold num_val. cbn [powerRZ]. lra.
Qed.
Lemma whole_order s t x y i j : f64_reads s (Some x) -> f64_reads t (Some y) -> (x < y)%R -> whole_of s x i -> whole_of t y j -> (i <= j)%Z.
Proof.
  intros Hx Hy Hlt Hi Hj. destruct (Z_le_gt_dec i j) as [H|H]; [exact H|exfalso]. assert (Sx := reads_still _ _ Hx). assert (Sy := reads_still _ _ Hy). unfold still in *.
  destruct Hi as [Hi|[_ ->]]; destruct Hj as [Hj|[_ ->]].
  - rewrite (int_reads _ _ _ Hi Hx), (int_reads _ _ _ Hj Hy) in Hlt. assert (E : (IZR j <= IZR i)%R) by (apply IZR_le; lia). apply f64_val_mono in E. lra.
  - rewrite (int_reads _ _ _ Hi Hx) in Hlt. assert (E : (y <= IZR i)%R) by (apply trunc_below; lia). apply f64_val_mono in E. lra.
  - rewrite (int_reads _ _ _ Hj Hy) in Hlt. assert (E : (IZR j <= x)%R) by (apply trunc_above; lia). apply f64_val_mono in E. lra.
  - assert (E : (Ztrunc x <= Ztrunc y)%Z) by (apply Ztrunc_le; lra). lia.
Qed.
Lemma whole_i64 v s y i : num_text v s -> f64_reads s (Some y) -> whole_of s y i -> v_i64 v = Ok (clamp (- 2 ^ 63) (2 ^ 63 - 1) i).
Proof. intros Hv Hr [H|[H ->]]; [apply (proj1 (i64_any v s Hv) i H)|apply (proj1 (proj2 (i64_any v s Hv)) y H Hr)]. Qed.
Lemma whole_u64 v s y i : num_text v s -> f64_reads s (Some y) -> whole_of s y i -> v_u64 v = Ok (clamp 0 (2 ^ 64 - 1) i).
Proof. intros Hv Hr [H|[H ->]]; [apply (proj1 (u64_any v s Hv) i H)|apply (proj1 (proj2 (u64_any v s Hv)) y H Hr)]. Qed.

Lemma reads_order a b : v_kind a = KNumber -> v_kind b = KNumber -> v_cmp a b = Ok Lt ->
  exists x y, f64_reads (v_json a) (Some x) /\ f64_reads (v_json b) (Some y) /\ (x < y)%R.
Proof.
  intros Ha Hb Hc. destruct (reads_total (v_json a)) as (o & Ro). destruct (reads_total (v_json b)) as (o' & Ro').
  destruct (cmp_numbers_any a b o o' Ha Hb Ro Ro') as (c & Ec & H). rewrite Hc in Ec. injection Ec as <-.
  destruct o as [x|]; [|discriminate H]. destruct o' as [y|]; [|discriminate H]. exists x, y. split; [exact Ro|]. split; [exact Ro'|]. apply (proj1 H). reflexivity.
Qed.
Theorem keep_int a b : v_kind a = KNumber -> v_kind b = KNumber -> v_cmp a b = Ok Lt ->
  (exists i j, v_i64 a = Ok i /\ v_i64 b = Ok j /\ (i <= j)%Z) /\ (exists i j, v_u64 a = Ok i /\ v_u64 b = Ok j /\ (i <= j)%Z).
Proof.
  intros Ha Hb Hc. destruct (reads_order a b Ha Hb Hc) as (x & y & Rx & Ry & Hlt).
  destruct (whole_some (v_json a) x) as (i & Hi). destruct (whole_some (v_json b) y) as (j & Hj). pose proof (whole_order _ _ _ _ _ _ Rx Ry Hlt Hi Hj) as Hij. split.
  - exists (clamp (- 2 ^ 63) (2 ^ 63 - 1) i), (clamp (- 2 ^ 63) (2 ^ 63 - 1) j).
    split; [eapply whole_i64; [apply nt_number, Ha|exact Rx|exact Hi]|]. split; [eapply whole_i64; [apply nt_number, Hb|exact Ry|exact Hj]|]. apply clamp_mono, Hij.
  - exists (clamp 0 (2 ^ 64 - 1) i), (clamp 0 (2 ^ 64 - 1) j).
    split; [eapply whole_u64; [apply nt_number, Ha|exact Rx|exact Hi]|]. split; [eapply whole_u64; [apply nt_number, Hb|exact Ry|exact Hj]|]. apply clamp_mono, Hij.
Qed.
Theorem keep_float a b : v_kind a = KNumber -> v_kind b = KNumber -> v_cmp a b = Ok Lt ->
  (exists x y, v_f64 a = Ok x /\ v_f64 b = Ok y /\ is_float 53 1024 x /\ is_float 53 1024 y /\ (float_val 1024 x < float_val 1024 y)%R) /\
  (exists x y, v_f32 a = Ok x /\ v_f32 b = Ok y /\ is_float 24 128 x /\ is_float 24 128 y /\ (float_val 128 x <= float_val 128 y)%R).
Proof.
  intros Ha Hb Hc. destruct (reads_order a b Ha Hb Hc) as (x & y & Rx & Ry & Hlt). split.
  - destruct (f64_any a _ _ (nt_number _ Ha) Rx) as (p & Ep & Fp & Vp). destruct (f64_any b _ _ (nt_number _ Hb) Ry) as (q & Eq & Fq & Vq). exists p, q.
    split; [exact Ep|]. split; [exact Eq|]. split; [exact Fp|]. split; [exact Fq|]. rewrite Vp, Vq. exact Hlt.
  - destruct (f32_any a _ _ (nt_number _ Ha) Rx) as (p & Ep & Fp & Vp). destruct (f32_any b _ _ (nt_number _ Hb) Ry) as (q & Eq & Fq & Vq). exists p, q.
    split; [exact Ep|]. split; [exact Eq|]. split; [exact Fp|]. split; [exact Fq|]. rewrite Vp, Vq. apply f32_val_mono. lra.
Qed.
(** By the numbers written. *)
Theorem keep_written u v s t m e m' e' : num_text u s -> num_text v t -> denotes s m e -> denotes t m' e' -> (num_val m e <= num_val m' e')%R ->
  exists x y, v_f64 u = Ok x /\ v_f64 v = Ok y /\ is_float 53 1024 x /\ is_float 53 1024 y /\ (float_val 1024 x <= float_val 1024 y)%R.
Proof.
  intros Hu Hv Ds Dt H. destruct (f64_nearest u s m e Hu Ds) as (x & Ex & Fx & Vx & _). destruct (f64_nearest v t m' e' Hv Dt) as (y & Ey & Fy & Vy & _).
  exists x, y. split; [exact Ex|]. split; [exact Ey|]. split; [exact Fx|]. split; [exact Fy|]. rewrite Vx, Vy. apply f64_val_mono, H.
Qed.
Theorem keep_ints a b : v_kind a = KNumber -> v_kind b = KNumber -> v_cmp a b = Ok Lt ->
  Forall (fun f : value -> M_Base.R Z => exists i j, f a = Ok i /\ f b = Ok j /\ (i <= j)%Z) [v_i64; v_i16; v_i8; v_u64; v_u32; v_u16; v_u8].
Proof.
  intros Ha Hb Hc. destruct (keep_int a b Ha Hb Hc) as [(i & j & Ei & Ej & Hij) (k & l & Ek & El & Hkl)].
  destruct (narrow_saturate a i Ei) as (A1 & A2). destruct (narrow_saturate b j Ej) as (B1 & B2).
  destruct (narrow_saturate_u a k Ek) as (C1 & C2 & C3). destruct (narrow_saturate_u b l El) as (D1 & D2 & D3).
  constructor; [eauto|]. constructor; [do 2 eexists; split; [exact A1|split; [exact B1|apply clamp_mono, Hij]]|].
  constructor; [do 2 eexists; split; [exact A2|split; [exact B2|apply clamp_mono, Hij]]|]. constructor; [eauto|].
  constructor; [do 2 eexists; split; [exact C1|split; [exact D1|apply clamp_mono, Hkl]]|].
  constructor; [do 2 eexists; split; [exact C2|split; [exact D2|apply clamp_mono, Hkl]]|].
  constructor; [do 2 eexists; split; [exact C3|split; [exact D3|apply clamp_mono, Hkl]]|constructor].
Qed.

(** All integer conversions follow the clamped ones. *)
Definition ints_up (u v : value) : Prop :=
  Forall (fun f : value -> M_Base.R Z => exists i j, f u = Ok i /\ f v = Ok j /\ (i <= j)%Z) [v_i64; v_i16; v_i8; v_u64; v_u32; v_u16; v_u8].
Lemma ints_clamped u v i j : v_i64 u = Ok (clamp (- 2 ^ 63) (2 ^ 63 - 1) i) -> v_i64 v = Ok (clamp (- 2 ^ 63) (2 ^ 63 - 1) j) ->
  v_u64 u = Ok (clamp 0 (2 ^ 64 - 1) i) -> v_u64 v = Ok (clamp 0 (2 ^ 64 - 1) j) -> (i <= j)%Z -> ints_up u v.
Proof.
  intros Ei Ej Ek El H. pose proof (clamp_mono (- 2 ^ 63) (2 ^ 63 - 1) i j H) as Hij. pose proof (clamp_mono 0 (2 ^ 64 - 1) i j H) as Hkl.
  destruct (narrow_saturate u _ Ei) as (A1 & A2). destruct (narrow_saturate v _ Ej) as (B1 & B2).
  destruct (narrow_saturate_u u _ Ek) as (C1 & C2 & C3). destruct (narrow_saturate_u v _ El) as (D1 & D2 & D3). unfold ints_up.
  constructor; [eauto|]. constructor; [do 2 eexists; split; [exact A1|split; [exact B1|apply clamp_mono, Hij]]|].
  constructor; [do 2 eexists; split; [exact A2|split; [exact B2|apply clamp_mono, Hij]]|]. constructor; [eauto|].
  constructor; [do 2 eexists; split; [exact C1|split; [exact D1|apply clamp_mono, Hkl]]|].
  constructor; [do 2 eexists; split; [exact C2|split; [exact D2|apply clamp_mono, Hkl]]|].
  constructor; [do 2 eexists; split; [exact C3|split; [exact D3|apply clamp_mono, Hkl]]|constructor].
Qed.
Theorem keep_whole u v s t z z' : num_text u s -> num_text v t -> int_literal s z -> int_literal t z' -> (z <= z')%Z -> ints_up u v.
Proof.
  intros Hu Hv Hz Hz' H. exact (ints_clamped u v z z' (i64_saturates u s z Hu Hz) (i64_saturates v t z' Hv Hz') (u64_saturates u s z Hu Hz) (u64_saturates v t z' Hv Hz') H).
Qed.
Theorem keep_parts u v s t m e m' e' : num_text u s -> num_text v t -> denotes s m e -> denotes t m' e' ->
  (forall z, ~ int_literal s z) -> (forall z, ~ int_literal t z) -> (num_val m e <= num_val m' e')%R -> ints_up u v.
Proof.
  intros Hu Hv Hs Ht Ns Nt H. eapply ints_clamped; [eapply i64_truncates; eauto|eapply i64_truncates; eauto|eapply u64_truncates; eauto|eapply u64_truncates; eauto|].
  apply Ztrunc_le, f64_val_mono, H.
Qed.
Theorem keep_mixed u v s t z m e : num_text u s -> num_text v t -> int_literal s z -> (Z.abs z <= 2 ^ 53)%Z -> denotes t m e -> (forall z, ~ int_literal t z) ->
  ((IZR z <= num_val m e)%R -> ints_up u v) /\ ((num_val m e <= IZR z)%R -> ints_up v u).
Proof.
  intros Hu Hv Hz Hb Ht Nt.
  pose proof (i64_saturates u s z Hu Hz) as A. pose proof (u64_saturates u s z Hu Hz) as B.
  pose proof (i64_truncates v t m e Hv Ht Nt) as C. pose proof (u64_truncates v t m e Hv Ht Nt) as D. split; intros H.
  - apply (ints_clamped u v z (Ztrunc (f64_val (num_val m e))) A C B D). apply f64_val_mono, Ztrunc_le in H. rewrite (f64_val_int z Hb), Ztrunc_IZR in H. exact H.
  - apply (ints_clamped v u (Ztrunc (f64_val (num_val m e))) z C A D B). apply f64_val_mono, Ztrunc_le in H. rewrite (f64_val_int z Hb), Ztrunc_IZR in H. exact H.
Qed.
(** Numbers that compare as equal. *)
Theorem keep_equal a b m e m' e' : v_kind a = KNumber -> v_kind b = KNumber -> denotes (v_json a) m e -> denotes (v_json b) m' e' -> v_cmp a b = Ok Eq ->
  (exists x y, v_f64 a = Ok x /\ v_f64 b = Ok y /\ is_float 53 1024 x /\ is_float 53 1024 y /\ float_val 1024 x = float_val 1024 y) /\
  ((forall z, ~ int_literal (v_json a) z) -> (forall z, ~ int_literal (v_json b) z) -> v_i64 a = v_i64 b /\ v_u64 a = v_u64 b).
Proof.
  intros Ha Hb Da Db Hc. destruct (cmp_numbers a b m e m' e' Ha Hb Da Db) as (c & Ec & H). rewrite Hc in Ec. injection Ec as <-.
  assert (E : f64_val (num_val m e) = f64_val (num_val m' e')).
  { destruct H as (H1 & H2 & H3). apply H2. reflexivity. }
  split.
  - destruct (f64_nearest a _ m e (nt_number _ Ha) Da) as (x & Ex & Fx & Vx & _). destruct (f64_nearest b _ m' e' (nt_number _ Hb) Db) as (y & Ey & Fy & Vy & _).
    exists x, y. split; [exact Ex|]. split; [exact Ey|]. split; [exact Fx|]. split; [exact Fy|]. rewrite Vx, Vy. exact E.
  - intros Na Nb. rewrite (i64_truncates a _ m e (nt_number _ Ha) Da Na), (i64_truncates b _ m' e' (nt_number _ Hb) Db Nb).
    rewrite (u64_truncates a _ m e (nt_number _ Ha) Da Na), (u64_truncates b _ m' e' (nt_number _ Hb) Db Nb). rewrite E. split; reflexivity.
Qed.
