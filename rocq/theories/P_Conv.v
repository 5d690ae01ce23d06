(** Conversions of values to numbers. *)
From Verif Require Import P_Base M_Util M_Num M_Scan M_Value P_Num S_Json S_Get S_Num P_Float.
From Coq Require Import Reals Lra SpecFloat.
From Flocq Require Import Core BinarySingleNaN.
Open Scope nat_scope.

(* ---------- float to integer ---------- *)

Lemma trunc_div (m k : positive) : Ztrunc (IZR (Zpos m) * bpow radix2 (Zneg k)) = (Zpos m / 2 ^ Zpos k)%Z.
Proof.
  rewrite Ztrunc_floor.
  - change (Z.neg k) with (- Z.pos k)%Z. rewrite bpow_opp.
    change (bpow radix2 (Z.pos k)) with (IZR (Z.pow_pos 2 k)). change (Z.pow_pos 2 k) with (2 ^ Z.pos k)%Z.
    apply Zfloor_div. pose proof (Z.pow_pos_nonneg 2 (Z.pos k)). lia.
  - apply Rmult_le_pos; [apply IZR_le; lia | apply bpow_ge_0].
Qed.
Lemma trunc_finite s m e :
  Ztrunc (SF2R radix2 (S754_finite s m e)) =
  let a := match e with Zneg k => (Zpos m / 2 ^ Zpos k)%Z | _ => (Zpos m * 2 ^ e)%Z end in
  if s then (- a)%Z else a.
Proof.
  assert (P : Ztrunc (F2R (Float radix2 (Zpos m) e)) = match e with Zneg k => (Zpos m / 2 ^ Zpos k)%Z | _ => (Zpos m * 2 ^ e)%Z end).
  { unfold F2R. cbn [Fnum Fexp]. destruct e as [|k|k].
    - cbn [bpow]. rewrite Rmult_1_r, Ztrunc_IZR. cbn. lia.
    - change (bpow radix2 (Z.pos k)) with (IZR (2 ^ Z.pos k)). rewrite <- mult_IZR, Ztrunc_IZR. reflexivity.
    - apply trunc_div. }
  cbn [SF2R]. cbv zeta. rewrite <- P. destruct s; cbn [cond_Zopp].
  - rewrite F2R_Zopp. apply Ztrunc_opp.
  - reflexivity.
Qed.
Lemma f64_to_int_val lo hi x : good x -> (- 2 ^ 1024 <= lo <= 0)%Z -> (0 <= hi <= 2 ^ 1024)%Z ->
  f64_to_int lo hi x = clamp lo hi (Ztrunc (sfv x)).
Proof.
  intros [_ Hn] Hlo Hhi. destruct x as [s|s| |s m e]; try discriminate.
  - cbn [f64_to_int float_val SF2R]. rewrite Ztrunc_IZR. unfold clamp. lia.
  - cbn [f64_to_int float_val].
    assert (E : bpow radix2 1024 = IZR (2 ^ 1024)) by reflexivity.
    destruct s; rewrite E; [rewrite <- opp_IZR|]; rewrite Ztrunc_IZR; unfold clamp; lia.
  - cbn [float_val]. rewrite trunc_finite. reflexivity.
Qed.

(* ---------- text to integer ---------- *)

Lemma dec_acc_inv s : forall a z, dec_acc a s = Some z -> Forall digit s.
Proof.
  induction s as [|c t IH]; intros a z H; [constructor|]. cbn [dec_acc] in H. destruct (is_digit c) eqn:E; [|discriminate].
  constructor; [apply is_digit_spec; auto | eauto].
Qed.
Lemma dec_digits_inv s z : dec_digits s = Some z -> digits1 s /\ z = digits_val s.
Proof.
  intros H. assert (D : digits1 s).
  { destruct s as [|c t]; [discriminate|]. split; [discriminate|]. eapply dec_acc_inv. exact H. }
  split; auto. rewrite dec_digits_val in H by auto. congruence.
Qed.
Lemma denotes_head n m e : denotes n m e -> exists c t, n = c :: t /\ (c = 45%N \/ digit c).
Proof.
  intros H. inversion H as [neg ip ex x Hip Hex|neg ip fp ex x Hip Hfp Hex]; subst;
    destruct (digits_head ip Hip) as (c & t & E & Hc); rewrite E; destruct neg; cbn [app]; eauto.
Qed.
Lemma in_range_some lo hi z y : in_range lo hi z = Some y -> y = z /\ (lo <= z <= hi)%Z.
Proof. unfold in_range. destruct (_ && _)%Z eqn:E; intros H; [|discriminate]. injection H as <-. split; auto. lia. Qed.
Lemma parse_i64_inv n m e z : denotes n m e -> parse_i64 n = Some z -> int_literal n z /\ (- 2 ^ 63 <= z < 2 ^ 63)%Z.
Proof.
  intros Hd H. destruct (denotes_head _ _ _ Hd) as (c & t & E & Hc). unfold parse_i64 in H. rewrite E in H.
  assert (Hp : (c =? cPLUS)%N = false) by (change cPLUS with 43%N; destruct Hc as [-> | Hc]; unfold digit in *; lia).
  rewrite Hp in H. destruct (c =? cMINUS)%N eqn:Em.
  - destruct (dec_digits t) as [d|] eqn:Ed; cbn [option_map] in H; [|discriminate].
    apply in_range_some in H as [-> Hr]. apply dec_digits_inv in Ed as [D ->]. apply N.eqb_eq in Em. subst c n.
    split; [apply il_neg; auto|]. unfold i64_min, i64_max in Hr. lia.
  - destruct (dec_digits (c :: t)) as [d|] eqn:Ed; [|discriminate].
    apply in_range_some in H as [-> Hr]. apply dec_digits_inv in Ed as [D ->]. rewrite <- E in *.
    split; [apply il_pos; auto|]. unfold i64_min, i64_max in Hr. lia.
Qed.
Lemma parse_u64_inv n m e z : denotes n m e -> parse_u64 n = Some z -> int_literal n z /\ (0 <= z < 2 ^ 64)%Z.
Proof.
  intros Hd H. destruct (denotes_head _ _ _ Hd) as (c & t & E & Hc). unfold parse_u64 in H. rewrite E in H.
  assert (Hp : (c =? cPLUS)%N = false) by (change cPLUS with 43%N; destruct Hc as [-> | Hc]; unfold digit in *; lia).
  rewrite Hp in H. destruct (dec_digits (c :: t)) as [d|] eqn:Ed; [|discriminate].
  apply in_range_some in H as [-> Hr]. apply dec_digits_inv in Ed as [D ->]. rewrite <- E in *.
  split; [apply il_pos; auto|]. unfold u64_max in Hr. lia.
Qed.

Lemma raw_i64_trunc n m e : denotes n m e -> (forall z, int_literal n z -> ~ (- 2 ^ 63 <= z < 2 ^ 63)%Z) ->
  raw_to_i64 n = clamp (- 2 ^ 63) (2 ^ 63 - 1) (Ztrunc (f64_val (num_val m e))).
Proof.
  intros Hd Hz. unfold raw_to_i64. destruct (parse_i64 n) as [z|] eqn:E.
  - destruct (parse_i64_inv _ _ _ _ Hd E) as [H1 H2]. exfalso. eapply Hz; eauto.
  - destruct (raw_f64_denotes _ _ _ Hd) as [G V]. rewrite <- V. apply f64_to_int_val; auto; unfold i64_min, i64_max; lia.
Qed.
Lemma raw_u64_trunc n m e : denotes n m e -> (forall z, int_literal n z -> ~ (0 <= z < 2 ^ 64)%Z) ->
  raw_to_u64 n = clamp 0 (2 ^ 64 - 1) (Ztrunc (f64_val (num_val m e))).
Proof.
  intros Hd Hz. unfold raw_to_u64. destruct (parse_u64 n) as [z|] eqn:E.
  - destruct (parse_u64_inv _ _ _ _ Hd E) as [H1 H2]. exfalso. eapply Hz; eauto.
  - destruct (raw_f64_denotes _ _ _ Hd) as [G V]. rewrite <- V. apply f64_to_int_val; auto; unfold u64_max; lia.
Qed.

(* ---------- integers saturate ---------- *)

Lemma f64_val_mono x y : (x <= y)%R -> (f64_val x <= f64_val y)%R.
Proof.
  intros H. unfold f64_val. apply Rle_max_compat_l, Rle_min_compat_l. apply round_le; auto with typeclass_instances.
  apply FLT_exp_valid. reflexivity.
Qed.
Lemma f64_val_pow s k : (0 <= k < 1024)%Z -> f64_val (IZR (signed s (2 ^ k))) = IZR (signed s (2 ^ k)).
Proof.
  intros H. assert (Hb : forall k, (0 <= k)%Z -> IZR (2 ^ k) = bpow radix2 k).
  { intros j Hj. apply (IZR_Zpower radix2). auto. }
  assert (Hs : Rabs (IZR (signed s (2 ^ k))) = bpow radix2 k).
  { rewrite <- abs_IZR. replace (Z.abs (signed s (2 ^ k))) with (2 ^ k)%Z; [apply Hb; lia|].
    pose proof (Z.pow_nonneg 2 k). destruct s; cbn [signed]; lia. }
  assert (Hr : rnd64 (IZR (signed s (2 ^ k))) = IZR (signed s (2 ^ k))).
  { unfold rnd64. apply round_generic; auto with typeclass_instances. apply generic_format_abs_inv. rewrite Hs.
    apply generic_format_FLT_bpow; [reflexivity | lia]. }
  rewrite rnd_clamp; rewrite Hr; auto. rewrite Hs. apply bpow_lt. lia.
Qed.
Lemma trunc_ge z x : (IZR z <= x)%R -> (z <= Ztrunc x)%Z.
Proof. intros H. rewrite <- (Ztrunc_IZR z). apply Ztrunc_le. auto. Qed.
Lemma trunc_le z x : (x <= IZR z)%R -> (Ztrunc x <= z)%Z.
Proof. intros H. rewrite <- (Ztrunc_IZR z). apply Ztrunc_le. auto. Qed.

Lemma literal_denotes n z : int_literal n z -> denotes n z 0.
Proof.
  intros H. inversion H as [ds Hd|ds Hd]; subst.
  - pose proof (den_int false n [] 0 Hd ev_none) as E. cbn [app signed] in E. rewrite app_nil_r in E. exact E.
  - pose proof (den_int true ds [] 0 Hd ev_none) as E. cbn [app signed] in E. rewrite app_nil_r in E. exact E.
Qed.
Lemma int_literal_fun n z z' : int_literal n z -> int_literal n z' -> z = z'.
Proof.
  intros H1 H2. inversion H1 as [ds D1|ds D1]; inversion H2 as [ds2 D2|ds2 D2]; subst; auto.
  - destruct D1 as [_ D1]. inversion D1 as [|? ? X _]. subst. unfold digit in X. lia.
  - destruct D2 as [_ D2]. inversion D2 as [|? ? X _]. subst. unfold digit in X. lia.
  - congruence.
Qed.
Lemma num_val_z z : num_val z 0 = IZR z.
Proof. unfold num_val. cbn. ring. Qed.

Lemma raw_i64_int n z : int_literal n z -> raw_to_i64 n = clamp (- 2 ^ 63) (2 ^ 63 - 1) z.
Proof.
  intros H. assert (D : (- 2 ^ 63 <= z < 2 ^ 63 \/ z < - 2 ^ 63 \/ 2 ^ 63 <= z)%Z) by lia. destruct D as [D|D].
  - rewrite (raw_to_i64_literal n z) by auto. unfold clamp. lia.
  - rewrite (raw_i64_trunc n z 0) by (auto using literal_denotes; intros z' H'; rewrite <- (int_literal_fun n z z') by auto; lia).
    rewrite num_val_z. unfold clamp. destruct D as [D|D].
    + assert (X : (Ztrunc (f64_val (IZR z)) <= - 2 ^ 63)%Z); [|lia]. apply trunc_le.
      pose proof (f64_val_pow true 63 ltac:(lia)) as E. cbn [signed] in E. rewrite <- E. apply f64_val_mono, IZR_le. lia.
    + assert (X : (2 ^ 63 <= Ztrunc (f64_val (IZR z)))%Z); [|lia]. apply trunc_ge.
      pose proof (f64_val_pow false 63 ltac:(lia)) as E. cbn [signed] in E. rewrite <- E. apply f64_val_mono, IZR_le. lia.
Qed.
Lemma raw_u64_int n z : int_literal n z -> raw_to_u64 n = clamp 0 (2 ^ 64 - 1) z.
Proof.
  intros H. assert (D : (0 <= z < 2 ^ 64 \/ z < 0 \/ 2 ^ 64 <= z)%Z) by lia. destruct D as [D|D].
  - rewrite (raw_to_u64_literal n z) by auto. unfold clamp. lia.
  - rewrite (raw_u64_trunc n z 0) by (auto using literal_denotes; intros z' H'; rewrite <- (int_literal_fun n z z') by auto; lia).
    rewrite num_val_z. unfold clamp. destruct D as [D|D].
    + assert (X : (Ztrunc (f64_val (IZR z)) <= 0)%Z); [|lia]. apply trunc_le.
      rewrite <- f64_val_0. apply f64_val_mono, IZR_le. lia.
    + assert (X : (2 ^ 64 <= Ztrunc (f64_val (IZR z)))%Z); [|lia]. apply trunc_ge.
      pose proof (f64_val_pow false 64 ltac:(lia)) as E. cbn [signed] in E. rewrite <- E. apply f64_val_mono, IZR_le. lia.
Qed.

(* ---------- signs, zeros included ---------- *)

Lemma round_ratio_sign neg num den : sign_SF (round_ratio neg num den) = neg.
Proof.
  pose proof (Bdiv_correct_aux 53 1024 prec_gt prec_lt mode_NE neg num 0 false den 0) as H.
  cbv zeta in H. unfold round_ratio. change prec64 with 53%Z. change emax64 with 1024%Z.
  destruct (SFdiv_core_binary 53 1024 (Z.pos num) 0 (Z.pos den) 0) as [[q e] l].
  rewrite aux_equiv. rewrite xorb_false_r in H. destruct H as [_ H]. destruct (Rlt_bool _ _).
  - apply H.
  - rewrite H. destruct neg; reflexivity.
Qed.
Lemma round_decimal_sign neg d e : (0 <= d)%Z -> sign_SF (round_decimal neg d e) = neg.
Proof. intros H. unfold round_decimal. destruct d; [reflexivity| |lia]. destruct e; apply round_ratio_sign. Qed.
Lemma raw_f64_sign n m e : denotes n m e -> sign_SF (raw_to_f64 n) = true <-> exists t, n = 45%N :: t.
Proof.
  intros H. destruct (parse_f64_denotes _ _ _ H) as (neg & d & Hd & Hs & _ & E). unfold raw_to_f64.
  rewrite E, round_decimal_sign by auto. exact Hs.
Qed.

(* ---------- binary32 ---------- *)

Lemma prec_gt32 : Prec_gt_0 24. Proof. reflexivity. Qed.
Lemma prec_lt32 : Prec_lt_emax 24 128. Proof. reflexivity. Qed.
#[local] Existing Instance prec_gt32.
#[local] Existing Instance prec_lt32.
Lemma round32_equiv s m e : SpecFloat.binary_round 24 128 s m e = BinarySingleNaN.binary_round 24 128 mode_NE s m e.
Proof.
  unfold SpecFloat.binary_round, BinarySingleNaN.binary_round, BinarySingleNaN.shl_align_fexp. destruct (shl_align m e _) as [mz ez].
  unfold SpecFloat.binary_round_aux, BinarySingleNaN.binary_round_aux. destruct (shr_fexp _ _ _ _ _) as [m' e'].
  rewrite (ne_equiv s). reflexivity.
Qed.
Lemma rnd32_clamp x : (Rabs (rnd32 x) < bpow radix2 128)%R -> f32_val x = rnd32 x.
Proof.
  intros H. apply Rabs_lt_inv in H. unfold f32_val. rewrite Rmin_right by lra. rewrite Rmax_right by lra. reflexivity.
Qed.
Lemma rnd32_sign x : (0 <= x -> 0 <= rnd32 x)%R /\ (x <= 0 -> rnd32 x <= 0)%R.
Proof.
  unfold rnd32. split; intros H.
  - apply round_ge_generic; auto with typeclass_instances. apply generic_format_0.
  - apply round_le_generic; auto with typeclass_instances. apply generic_format_0.
Qed.
Lemma rnd32_big : rnd32 (bpow radix2 1024) = bpow radix2 1024.
Proof. unfold rnd32. apply round_generic; auto with typeclass_instances. apply generic_format_FLT_bpow; [reflexivity | lia]. Qed.
Lemma f32_big (s : bool) : f32_val (if s then - bpow radix2 1024 else bpow radix2 1024)%R = (if s then - bpow radix2 128 else bpow radix2 128)%R.
Proof.
  assert (Hb : (bpow radix2 128 < bpow radix2 1024)%R) by (apply bpow_lt; lia). pose proof (bpow_gt_0 radix2 128) as Hp.
  unfold f32_val. destruct s.
  - unfold rnd32. rewrite round_NE_opp. fold (rnd32 (bpow radix2 1024)). rewrite rnd32_big.
    rewrite Rmin_right by lra. rewrite Rmax_left by lra. reflexivity.
  - rewrite rnd32_big. rewrite Rmin_left by lra. rewrite Rmax_right by lra. reflexivity.
Qed.
Lemma f32_good x : good x -> is_float 24 128 (f64_to_f32 x) /\ float_val 128 (f64_to_f32 x) = f32_val (sfv x).
Proof.
  intros [_ Hn]. destruct x as [s|s| |s m e]; try discriminate; cbn [f64_to_f32].
  - split; [split; reflexivity|]. cbn [float_val SF2R]. unfold f32_val, rnd32. rewrite round_0 by auto with typeclass_instances.
    pose proof (bpow_gt_0 radix2 128) as Hp. rewrite Rmin_right by lra. rewrite Rmax_right by lra. reflexivity.
  - split; [split; reflexivity|]. cbn [float_val]. rewrite f32_big. reflexivity.
  - rewrite round32_equiv. pose proof (binary_round_correct 24 128 prec_gt32 prec_lt32 mode_NE s m e) as H. cbv zeta in H.
    set (z := BinarySingleNaN.binary_round 24 128 mode_NE s m e) in *. destruct H as [Hv H]. cbn [float_val].
    change (SF2R radix2 (S754_finite s m e)) with (F2R (Float radix2 (cond_Zopp s (Z.pos m)) e)).
    set (x := F2R (Float radix2 (cond_Zopp s (Z.pos m)) e)) in *.
    change (round_mode mode_NE) with ZnearestE in H. change (SpecFloat.fexp 24 128) with (FLT_exp (-149) 24) in H. fold (rnd32 x) in H.
    destruct (Rlt_bool_spec (Rabs (rnd32 x)) (bpow radix2 128)) as [Hlt|Hge].
    + destruct H as (H1 & H2 & H3). split; [split; auto; destruct z; auto; discriminate|].
      rewrite rnd32_clamp by auto. rewrite <- H1. destruct z; try reflexivity; discriminate.
    + rewrite H. change (binary_overflow 24 128 mode_NE s) with (S754_infinity s). split; [split; reflexivity|].
      cbn [float_val]. unfold f32_val. pose proof (bpow_gt_0 radix2 128) as Hp. destruct (rnd32_sign x) as [S1 S2].
      destruct s.
      * assert (Hx : (x <= 0)%R) by (unfold x; apply F2R_le_0; cbn; lia). specialize (S2 Hx).
        rewrite Rabs_left1 in Hge by lra. rewrite Rmin_right by lra. rewrite Rmax_left by lra. reflexivity.
      * assert (Hx : (0 <= x)%R) by (unfold x; apply F2R_ge_0; cbn; lia). specialize (S1 Hx).
        rewrite Rabs_pos_eq in Hge by lra. rewrite Rmin_left by lra. rewrite Rmax_right by lra. reflexivity.
Qed.
