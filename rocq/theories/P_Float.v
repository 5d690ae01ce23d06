(** Floating-point numbers of the model and real numbers. *)
From Verif Require Import P_Base P_Num M_Num S_Json S_Get S_Num.
From Coq Require Import Reals Lra SpecFloat.
From Flocq Require Import Core BinarySingleNaN.
Open Scope nat_scope.

Lemma prec_gt : Prec_gt_0 53. Proof. reflexivity. Qed.
Lemma prec_lt : Prec_lt_emax 53 1024. Proof. reflexivity. Qed.
#[local] Existing Instance prec_gt.
#[local] Existing Instance prec_lt.

Lemma ne_equiv s m l : SpecFloat.round_nearest_even m l = choice_mode mode_NE s m l.
Proof.
  destruct l as [|c]; cbn; auto. destruct c; cbn; auto. unfold Round.cond_incr. destruct (Z.even m); reflexivity.
Qed.
Lemma aux_equiv sx mx ex lx :
  SpecFloat.binary_round_aux 53 1024 sx mx ex lx = BinarySingleNaN.binary_round_aux 53 1024 mode_NE sx mx ex lx.
Proof.
  unfold SpecFloat.binary_round_aux, BinarySingleNaN.binary_round_aux. destruct (shr_fexp _ _ _ _ _) as [m e].
  rewrite (ne_equiv sx). reflexivity.
Qed.

Notation sfv := (float_val 1024).
Notation good := (is_float 53 1024).

Lemma fexp_eq : SpecFloat.fexp 53 1024 = FLT_exp (-1074) 53.
Proof. reflexivity. Qed.

Lemma rnd_clamp x : (Rabs (rnd64 x) < bpow radix2 1024)%R -> f64_val x = rnd64 x.
Proof.
  intros H. apply Rabs_lt_inv in H. unfold f64_val. rewrite Rmin_right by lra. rewrite Rmax_right by lra. reflexivity.
Qed.

Lemma round_ratio_good neg num den :
  good (round_ratio neg num den) /\
  sfv (round_ratio neg num den) = f64_val (IZR (signed neg (Zpos num)) / IZR (Zpos den)).
Proof.
  pose proof (Bdiv_correct_aux 53 1024 prec_gt prec_lt mode_NE neg num 0 false den 0) as H.
  cbv zeta in H. unfold round_ratio.
  change prec64 with 53%Z. change emax64 with 1024%Z.
  destruct (SFdiv_core_binary 53 1024 (Z.pos num) 0 (Z.pos den) 0) as [[q e] l].
  rewrite aux_equiv. rewrite xorb_false_r in H.
  assert (Ex : (F2R (Float radix2 (cond_Zopp neg (Z.pos num)) 0) / F2R (Float radix2 (cond_Zopp false (Z.pos den)) 0) =
                IZR (signed neg (Z.pos num)) / IZR (Z.pos den))%R).
  { unfold F2R. cbn [Fnum Fexp bpow cond_Zopp]. rewrite !Rmult_1_r. destruct neg; reflexivity. }
  rewrite Ex in H. set (x := (IZR (signed neg (Z.pos num)) / IZR (Z.pos den))%R) in *.
  change (round_mode mode_NE) with ZnearestE in H. rewrite fexp_eq in H. fold (rnd64 x) in H.
  set (z := BinarySingleNaN.binary_round_aux 53 1024 mode_NE neg q e l) in *. destruct H as [Hv H].
  assert (Hsign : if neg then (x < 0)%R else (0 < x)%R).
  { unfold x, Rdiv. assert (Hd : (0 < / IZR (Z.pos den))%R) by (apply Rinv_0_lt_compat, IZR_lt; reflexivity).
    destruct neg; cbn [signed].
    - rewrite <- (Rmult_0_l (/ IZR (Z.pos den))). apply Rmult_lt_compat_r; auto. apply IZR_lt. reflexivity.
    - apply Rmult_lt_0_compat; auto. apply IZR_lt. reflexivity. }
  destruct (Rlt_bool_spec (Rabs (rnd64 x)) (bpow radix2 1024)) as [Hlt|Hge].
  - destruct H as (H1 & H2 & H3). split.
    + split; auto. destruct z; auto; discriminate.
    + rewrite rnd_clamp by auto. rewrite <- H1. destruct z; try reflexivity; discriminate.
  - rewrite H. change (binary_overflow 53 1024 mode_NE neg) with (S754_infinity neg). split; [split; reflexivity|].
    cbn [float_val]. unfold f64_val.
    assert (Hr : if neg then (rnd64 x <= 0)%R else (0 <= rnd64 x)%R).
    { unfold rnd64. destruct neg.
      - apply round_le_generic; auto with typeclass_instances; [apply generic_format_0 | lra].
      - apply round_ge_generic; auto with typeclass_instances; [apply generic_format_0 | lra]. }
    pose proof (bpow_gt_0 radix2 1024) as Hp.
    destruct neg.
    + rewrite Rabs_left1 in Hge by lra. rewrite Rmin_right by lra. rewrite Rmax_left by lra. reflexivity.
    + rewrite Rabs_pos_eq in Hge by lra. rewrite Rmin_left by lra. rewrite Rmax_right by lra. reflexivity.
Qed.

Lemma f64_val_0 : f64_val 0 = 0%R.
Proof. rewrite rnd_clamp; unfold rnd64; rewrite round_0 by auto with typeclass_instances; auto. rewrite Rabs_R0. apply bpow_gt_0. Qed.

Lemma pow_pos_10 k : IZR (Zpos (Pos.pow 10 k)) = powerRZ 10 (Zpos k).
Proof.
  rewrite Pos2Z.inj_pow. cbn [powerRZ]. rewrite <- (positive_nat_Z k) at 1. rewrite <- pow_IZR. reflexivity.
Qed.

Lemma round_decimal_good neg d e : (0 <= d)%Z ->
  good (round_decimal neg d e) /\ sfv (round_decimal neg d e) = f64_val (num_val (signed neg d) e).
Proof.
  intros Hd. unfold round_decimal, num_val. destruct d as [|p|p]; [|clear Hd|lia].
  - split; [split; reflexivity|]. cbn [float_val SF2R]. replace (signed neg 0) with 0%Z by (destruct neg; reflexivity).
    rewrite Rmult_0_l, f64_val_0. reflexivity.
  - destruct e as [|k|k].
    + destruct (round_ratio_good neg p 1) as [H1 H2]. split; auto. rewrite H2. f_equal. cbn [powerRZ].
      change (IZR (Z.pos 1)) with 1%R. field.
    + destruct (round_ratio_good neg (p * Pos.pow 10 k) 1) as [H1 H2]. split; auto. rewrite H2. f_equal.
      rewrite <- pow_pos_10. rewrite <- mult_IZR. change (IZR (Z.pos 1)) with 1%R. unfold Rdiv. rewrite Rinv_1, Rmult_1_r. f_equal.
      destruct neg; cbn [signed]; lia.
    + destruct (round_ratio_good neg p (Pos.pow 10 k)) as [H1 H2]. split; auto. rewrite H2. f_equal.
      unfold Rdiv. f_equal. rewrite pow_pos_10. reflexivity.
Qed.

(* ---------- comparison ---------- *)

Lemma sfv_bound x : good x -> (forall s, x <> S754_infinity s) -> (Rabs (sfv x) < bpow radix2 1024)%R.
Proof.
  intros [Hv Hn] Hi. destruct x as [s|s| |s m e]; cbn [float_val SF2R]; try discriminate.
  - rewrite Rabs_R0. apply bpow_gt_0.
  - exfalso. apply (Hi s). reflexivity.
  - pose proof (abs_B2R_lt_emax 53 1024 (SF2B (prec := 53) (emax := 1024) (S754_finite s m e) Hv)) as H. rewrite B2R_SF2B in H. exact H.
Qed.
Lemma compare_good x y : good x -> good y -> SFcompare x y = Some (Rcompare (sfv x) (sfv y)).
Proof.
  intros Hx Hy.
  assert (Hfin : forall z, good z -> (forall s, z <> S754_infinity s) -> is_finite_SF z = true).
  { intros z [_ Hz] Hi. destruct z; auto; try discriminate. exfalso. eapply Hi; reflexivity. }
  assert (Hi : forall z, (exists s, z = S754_infinity s) \/ (forall s, z <> S754_infinity s)).
  { intros [s|s| |s m e]; eauto; right; discriminate. }
  pose proof (bpow_gt_0 radix2 1024) as Hp.
  destruct (Hi x) as [(sx & ->)|Hxi], (Hi y) as [(sy & ->)|Hyi].
  - destruct sx, sy; cbn [float_val SFcompare]; f_equal; symmetry;
      [apply Rcompare_Eq; auto | apply Rcompare_Lt; lra | apply Rcompare_Gt; lra | apply Rcompare_Eq; auto].
  - pose proof (sfv_bound y Hy Hyi) as Hb. apply Rabs_lt_inv in Hb. cbn [float_val]. destruct Hy as [_ Hn].
    destruct y as [s|s| |s m e]; try discriminate; [|exfalso; eapply Hyi; reflexivity|];
      destruct sx; cbn [SFcompare float_val]; f_equal; symmetry; (apply Rcompare_Lt; cbn [float_val] in Hb; lra) || (apply Rcompare_Gt; cbn [float_val] in Hb; lra).
  - pose proof (sfv_bound x Hx Hxi) as Hb. apply Rabs_lt_inv in Hb. cbn [float_val]. destruct Hx as [_ Hn].
    destruct x as [s|s| |s m e]; try discriminate; [|exfalso; eapply Hxi; reflexivity|];
      destruct sy; cbn [SFcompare float_val]; f_equal; symmetry; (apply Rcompare_Lt; cbn [float_val] in Hb; lra) || (apply Rcompare_Gt; cbn [float_val] in Hb; lra).
  - pose proof (Hfin x Hx Hxi) as Fx. pose proof (Hfin y Hy Hyi) as Fy. destruct Hx as [Vx _], Hy as [Vy _].
    pose proof (Bcompare_correct 53 1024 (SF2B x Vx) (SF2B y Vy)) as H. rewrite !is_finite_SF2B in H.
    specialize (H Fx Fy). unfold Bcompare in H. rewrite !B2SF_SF2B, !B2R_SF2B in H. rewrite H.
    destruct x; try discriminate; destruct y; try discriminate; reflexivity.
Qed.

Lemma good_eqb x y : good x -> good y -> SFeqb x y = true <-> sfv x = sfv y.
Proof.
  intros Hx Hy. unfold SFeqb. rewrite compare_good by auto. destruct (Rcompare_spec (sfv x) (sfv y)); split; intros; try discriminate; auto; lra.
Qed.
Lemma good_ltb x y : good x -> good y -> SFltb x y = true <-> (sfv x < sfv y)%R.
Proof.
  intros Hx Hy. unfold SFltb. rewrite compare_good by auto. destruct (Rcompare_spec (sfv x) (sfv y)); split; intros; try discriminate; auto; lra.
Qed.
Lemma good_leb x y : good x -> good y -> SFleb x y = true <-> (sfv x < sfv y \/ sfv x = sfv y)%R.
Proof.
  intros Hx Hy. unfold SFleb. rewrite compare_good by auto. destruct (Rcompare_spec (sfv x) (sfv y)); split; intros; try discriminate; auto; lra.
Qed.

(* ---------- parsing ---------- *)

Lemma span_stop ds r : Forall digit ds -> match r with [] => True | c :: _ => is_digit c = false end ->
  span_digits (ds ++ r) = (ds, r).
Proof.
  intros H Hr. induction H as [|c t Hc Ht IH]; cbn [app span_digits].
  - destruct r as [|c r]; auto. cbn [span_digits]. rewrite Hr. reflexivity.
  - apply is_digit_spec in Hc. rewrite Hc, IH. reflexivity.
Qed.
Lemma exp_head ex x : exp_val ex x -> match ex with [] => True | c :: _ => is_digit c = false /\ c <> 46%N end.
Proof. intros H. inversion H as [|e ds He|e ds He|e ds He]; subst; auto; destruct He as [-> | ->]; split; auto; discriminate. Qed.
Lemma parse_exp_val ex x : exp_val ex x -> parse_exp ex = Some x.
Proof.
  intros H. inversion H as [|e ds He Hd|e ds He Hd|e ds He Hd]; subst; auto.
  - assert (Ee : ((e =? ce) || (e =? cE))%N = true) by (destruct He as [-> | ->]; reflexivity).
    unfold parse_exp. rewrite Ee. destruct (digits_head ds Hd) as (c & t & E & Hc). rewrite E. unfold digit in Hc.
    replace (c =? cMINUS)%N with false by (change cMINUS with 45%N; lia).
    replace (c =? cPLUS)%N with false by (change cPLUS with 43%N; lia). rewrite <- E. apply dec_digits_val; auto.
  - assert (Ee : ((e =? ce) || (e =? cE))%N = true) by (destruct He as [-> | ->]; reflexivity).
    unfold parse_exp. rewrite Ee. change (43 =? cMINUS)%N with false. change (43 =? cPLUS)%N with true. cbv match. apply dec_digits_val; auto.
  - assert (Ee : ((e =? ce) || (e =? cE))%N = true) by (destruct He as [-> | ->]; reflexivity).
    unfold parse_exp. rewrite Ee. change (45 =? cMINUS)%N with true. cbv match. rewrite dec_digits_val by auto. reflexivity.
Qed.
Lemma digits1_app a b : digits1 a -> Forall digit b -> digits1 (a ++ b).
Proof. intros [H1 H2] Hb. split; [destruct a; [congruence | discriminate] | apply Forall_app; auto]. Qed.

Lemma parse_f64_denotes n m e : denotes n m e ->
  exists neg d, (0 <= d)%Z /\ (neg = true <-> exists t, n = 45%N :: t) /\ m = signed neg d /\ parse_f64 n = Some (round_decimal neg d e).
Proof.
  assert (Hp : forall (neg : bool) u c t, u = c :: t -> digit c ->
    parse_f64 ((if neg then [45%N] else []) ++ u) =
      let '(ip, r) := span_digits u in
      let '(fp, r) := match r with
                      | d :: r' => if (d =? cDOT)%N then span_digits r' else ([], r)
                      | [] => ([], r)
                      end in
      match dec_digits (ip ++ fp), parse_exp r with
      | Some d, Some e => Some (round_decimal neg d (e - Z.of_nat (length fp)))
      | _, _ =>
          let w := map lower u in
          if beq w [110; 97; 110]%N then Some S754_nan
          else if beq w [105; 110; 102]%N
               || beq w [105; 110; 102; 105; 110; 105; 116; 121]%N
               then Some (S754_infinity neg)
          else None
      end).
  { intros neg u c t -> Hc. unfold digit in Hc. unfold parse_f64. destruct neg; cbn [app].
    - reflexivity.
    - replace (c =? cMINUS)%N with false by (change cMINUS with 45%N; lia).
      replace (c =? cPLUS)%N with false by (change cPLUS with 43%N; lia). reflexivity. }
  assert (Hsg : forall (neg : bool) u c t, u = c :: t -> digit c ->
    neg = true <-> exists t, (if neg then [45%N] else []) ++ u = 45%N :: t).
  { intros neg u c t -> Hc. unfold digit in Hc. destruct neg; cbn [app]; split; intros X; eauto; try discriminate.
    destruct X as (t' & X). injection X as -> ->. lia. }
  intros H. inversion H as [neg ip ex x Hip Hex|neg ip fp ex x Hip Hfp Hex]; subst.
  - exists neg, (digits_val ip). split; [apply digits_val_nonneg, Hip|].
    destruct (digits_head ip Hip) as (c & t & E & Hc).
    split; [apply Hsg with (c := c) (t := t ++ ex); auto; rewrite E; reflexivity|]. split; auto.
    rewrite (Hp neg (ip ++ ex) c (t ++ ex)) by (auto; rewrite E; reflexivity).
    pose proof (exp_head ex e Hex) as Hh.
    rewrite span_stop by (try apply Hip; destruct ex; auto; apply Hh).
    assert (Ef : (match ex with d :: r' => if (d =? cDOT)%N then span_digits r' else ([], ex) | [] => ([], ex) end) = ([], ex)).
    { destruct ex as [|d ex]; auto. destruct Hh as [_ Hh]. replace (d =? cDOT)%N with false by (change cDOT with 46%N; lia). reflexivity. }
    rewrite Ef, app_nil_r, dec_digits_val, (parse_exp_val ex e) by auto. cbn [length]. rewrite Z.sub_0_r. reflexivity.
  - exists neg, (digits_val (ip ++ fp)). split; [apply digits_val_nonneg, Forall_app; split; [apply Hip | apply Hfp]|].
    destruct (digits_head ip Hip) as (c & t & E & Hc).
    split; [apply Hsg with (c := c) (t := t ++ 46%N :: fp ++ ex); auto; rewrite E; reflexivity|]. split; auto.
    rewrite (Hp neg (ip ++ 46%N :: fp ++ ex) c (t ++ 46%N :: fp ++ ex)) by (auto; rewrite E; reflexivity).
    pose proof (exp_head ex x Hex) as Hh.
    rewrite span_stop by (try apply Hip; reflexivity). change (46 =? cDOT)%N with true. cbv match.
    rewrite span_stop by (try apply Hfp; destruct ex; auto; apply Hh).
    rewrite dec_digits_val, (parse_exp_val ex x) by (auto; apply digits1_app; auto; apply Hfp). reflexivity.
Qed.

Lemma raw_f64_denotes n m e : denotes n m e ->
  good (raw_to_f64 n) /\ sfv (raw_to_f64 n) = f64_val (num_val m e).
Proof.
  intros H. apply parse_f64_denotes in H as (neg & d & Hd & _ & -> & E). unfold raw_to_f64. rewrite E. apply round_decimal_good; auto.
Qed.
