(** f32(): rounding twice. *)
From Verif Require Import P_Base M_Util M_Num M_Scan M_Value P_Num S_Json S_Get S_Num S_Conv P_Float P_Conv P_Order.
From Coq Require Import Reals Lra SpecFloat.
From Flocq Require Import Core BinarySingleNaN.
Open Scope nat_scope.
Delimit Scope R_scope with R.

Lemma f32_in_f64 z : generic_format radix2 (FLT_exp (-149) 24) z -> generic_format radix2 (FLT_exp (-1074) 53) z.
Proof.
  apply generic_inclusion_mag. intros _. unfold FLT_exp. lia.
Qed.

Lemma rnd32_fix z : generic_format radix2 (FLT_exp (-149) 24) z -> rnd32 z = z.
Proof. intros H. unfold rnd32. apply round_generic; [apply valid_rnd_N|exact H]. Qed.
Lemma rnd64_fix z : generic_format radix2 (FLT_exp (-149) 24) z -> rnd64 z = z.
Proof. intros H. unfold rnd64. apply round_generic; [apply valid_rnd_N|apply f32_in_f64, H]. Qed.
Lemma rnd32_mono x y : (x <= y)%R -> (rnd32 x <= rnd32 y)%R.
Proof. apply round_le; [apply FLT_exp_valid; reflexivity|apply valid_rnd_N]. Qed.
Lemma rnd64_mono x y : (x <= y)%R -> (rnd64 x <= rnd64 y)%R.
Proof. apply round_le; [apply FLT_exp_valid; reflexivity|apply valid_rnd_N]. Qed.

Lemma clip_ge b z x : (Rabs z <= b)%R -> (z <= x)%R -> (z <= Rmax (- b) (Rmin b x))%R.
Proof. intros Hb H. apply Rabs_le_inv in Hb. eapply Rle_trans; [|apply Rmax_r]. apply Rmin_glb; lra. Qed.
Lemma clip_le b z x : (Rabs z <= b)%R -> (x <= z)%R -> (Rmax (- b) (Rmin b x) <= z)%R.
Proof. intros Hb H. apply Rabs_le_inv in Hb. apply Rmax_lub; [lra|]. eapply Rle_trans; [apply Rmin_r|exact H]. Qed.

Lemma twice_faithful x z : generic_format radix2 (FLT_exp (-149) 24) z -> (Rabs z <= bpow radix2 128)%R ->
  ((z <= x -> z <= f32_val (f64_val x)) /\ (x <= z -> f32_val (f64_val x) <= z))%R.
Proof.
  intros F B.
  assert (B' : (Rabs z <= bpow radix2 1024)%R) by (eapply Rle_trans; [exact B|apply bpow_le; lia]).
  split; intros H; unfold f32_val, f64_val.
  - apply clip_ge; [exact B|]. rewrite <- (rnd32_fix z F) at 1. apply rnd32_mono. apply clip_ge; [exact B'|].
    rewrite <- (rnd64_fix z F) at 1. apply rnd64_mono, H.
  - apply clip_le; [exact B|]. apply Rle_trans with (rnd32 z); [|right; exact (rnd32_fix z F)].
    apply rnd32_mono. apply clip_le; [exact B'|].
    apply Rle_trans with (rnd64 z); [apply rnd64_mono, H|right; exact (rnd64_fix z F)].
Qed.

Lemma f32_faithful v s m e : num_text v s -> denotes s m e ->
  exists y, v_f32 v = Ok y /\ is_float 24 128 y /\
    forall z, generic_format radix2 (FLT_exp (-149) 24) z -> (Rabs z <= bpow radix2 128)%R ->
      ((z <= num_val m e -> z <= float_val 128 y) /\ (num_val m e <= z -> float_val 128 y <= z))%R.
Proof.
  intros Hv Hd. destruct (f64_nearest v s m e Hv Hd) as (x & E & G & V & _).
  destruct (f32_nearest v x E G) as (y & Ey & Gy & Vy). exists y. split; [exact Ey|]. split; [exact Gy|].
  intros z F B. rewrite Vy, V. exact (twice_faithful _ z F B).
Qed.

Lemma f32_exact v s m e : num_text v s -> denotes s m e ->
  generic_format radix2 (FLT_exp (-149) 24) (num_val m e) -> (Rabs (num_val m e) <= bpow radix2 128)%R ->
  exists y, v_f32 v = Ok y /\ is_float 24 128 y /\ float_val 128 y = num_val m e.
Proof.
  intros Hv Hd F B. destruct (f32_faithful v s m e Hv Hd) as (y & E & G & N). exists y. split; [exact E|]. split; [exact G|].
  destruct (N _ F B) as [N1 N2]. apply Rle_antisym; [apply N2|apply N1]; apply Rle_refl.
Qed.

(** 1 + 2^-23 is nearer to everything above 1 + 2^-24 than 1 is. *)
Lemma f32_above x : (1 + / 16777216 < x < 1 + / 8388608)%R -> f32_val x <> 1%R.
Proof.
  intros H E.
  assert (R1 : rnd32 x = 1%R).
  { revert E. unfold f32_val. assert (B : (1 < bpow radix2 128)%R) by (change 1%R with (bpow radix2 0) at 1; apply bpow_lt; lia).
    destruct (Rle_dec (rnd32 x) (bpow radix2 128)) as [L|L].
    - rewrite (Rmin_right _ _ L). destruct (Rle_dec (- bpow radix2 128) (rnd32 x)) as [M|M].
      + rewrite (Rmax_right _ _ M). auto.
      + rewrite Rmax_left by lra. lra.
    - rewrite Rmin_left by lra. rewrite Rmax_right by lra. lra. }
  assert (Fv : Valid_exp (FLT_exp (-149) 24)) by (apply FLT_exp_valid; reflexivity).
  assert (N := round_N_pt radix2 (FLT_exp (-149) 24) (fun t => negb (Z.even t)) x). fold (rnd32 x) in N.
  change (round radix2 (FLT_exp (-149) 24) (Znearest (fun t => negb (Z.even t))) x) with (rnd32 x) in N. rewrite R1 in N.
  destruct N as [_ N]. assert (F : generic_format radix2 (FLT_exp (-149) 24) (1 + / 8388608)%R).
  { replace (1 + / 8388608)%R with (F2R (Float radix2 8388609 (-23))).
    - apply generic_format_FLT. exists (Float radix2 8388609 (-23)); [reflexivity|cbn; lia|cbn; lia].
    - unfold F2R. cbn [Fnum Fexp]. change (bpow radix2 (-23)) with (/ 8388608)%R. lra. }
  specialize (N _ F). rewrite (Rabs_left1 (1 - x)) in N by lra. rewrite Rabs_right in N by lra. lra.
Qed.
