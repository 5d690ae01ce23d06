(** The order on values. *)
From Coq Require Import Floats.SpecFloat ZifyBool.
From Verif Require Import P_Base P_Str P_Scan P_Each P_Doc P_Value M_Util M_Num M_Scan M_Value S_Get.

Definition key (x : spec_float) : Z * Z * Z :=
  match x with
  | S754_infinity true => (-2, 0, 0)
  | S754_finite true m e => (-1, -e, Z.neg m)
  | S754_zero _ | S754_nan => (0, 0, 0)
  | S754_finite false m e => (1, e, Z.pos m)
  | S754_infinity false => (2, 0, 0)
  end%Z.
Definition kcmp (a b : Z * Z * Z) : comparison :=
  match (fst (fst a) ?= fst (fst b))%Z with
  | Eq => match (snd (fst a) ?= snd (fst b))%Z with Eq => (snd a ?= snd b)%Z | c => c end
  | c => c
  end.

Lemma kcmp_antisym a b : kcmp b a = CompOpp (kcmp a b).
Proof.
  unfold kcmp. rewrite (Z.compare_antisym (fst (fst a))), (Z.compare_antisym (snd (fst a))), (Z.compare_antisym (snd a)).
  destruct (fst (fst a) ?= fst (fst b))%Z; auto. destruct (snd (fst a) ?= snd (fst b))%Z; auto.
Qed.
Lemma kcmp_refl a : kcmp a a = Eq.
Proof. unfold kcmp. rewrite !Z.compare_refl. reflexivity. Qed.
Lemma kcmp_eq a b : kcmp a b = Eq -> a = b.
Proof.
  unfold kcmp. destruct a as [[a1 a2] a3], b as [[b1 b2] b3]. cbn [fst snd].
  destruct (Z.compare_spec a1 b1); try discriminate. destruct (Z.compare_spec a2 b2); try discriminate.
  destruct (Z.compare_spec a3 b3); try discriminate. congruence.
Qed.
Lemma kcmp_lt_trans a b c : kcmp a b = Lt -> kcmp b c = Lt -> kcmp a c = Lt.
Proof.
  unfold kcmp. destruct a as [[a1 a2] a3], b as [[b1 b2] b3], c as [[c1 c2] c3]. cbn [fst snd].
  destruct (Z.compare_spec a1 b1), (Z.compare_spec b1 c1), (Z.compare_spec a1 c1); try discriminate; try lia; auto;
  destruct (Z.compare_spec a2 b2), (Z.compare_spec b2 c2), (Z.compare_spec a2 c2); try discriminate; try lia; auto;
  destruct (Z.compare_spec a3 b3), (Z.compare_spec b3 c3), (Z.compare_spec a3 c3); try discriminate; try lia; auto.
Qed.

Lemma SFcompare_key x y : x <> S754_nan -> y <> S754_nan -> SFcompare x y = Some (kcmp (key x) (key y)).
Proof.
  intros Hx Hy. destruct x as [s|s| |s m e], y as [s'|s'| |s' m' e']; try congruence;
    try destruct s; try destruct s'; try reflexivity; cbn [SFcompare key]; unfold kcmp; cbn [fst snd].
  - rewrite Z.compare_refl. replace (- e ?= - e')%Z with (CompOpp (e ?= e')%Z)
      by (destruct (Z.compare_spec e e'), (Z.compare_spec (- e) (- e')); reflexivity || lia).
    destruct (e ?= e')%Z; reflexivity.
Qed.

Lemma f64_cmp_key x y : x <> S754_nan -> y <> S754_nan ->
  (if f64_lt x y then Lt else if f64_lt y x then Gt else Eq) = kcmp (key x) (key y).
Proof.
  intros Hx Hy. unfold f64_lt, SFltb. rewrite !SFcompare_key by auto. rewrite (kcmp_antisym (key x) (key y)).
  destruct (kcmp (key x) (key y)); reflexivity.
Qed.

(** Values on which nothing can go wrong. *)
Definition fine (v : value) : Prop :=
  (exists s, v_str v = Ok s) /\ (v_kind v = KNumber -> raw_to_f64 (v_json v) <> S754_nan).

Definition strv (v : value) : bytes := match v_str v with Ok s => s | Err _ => [] end.
Definition vcmp (a b : value) : comparison :=
  match kind_cmp (v_kind a) (v_kind b) with
  | Eq => if kind_eqb (v_kind a) KString then bcmp (strv a) (strv b)
          else if kind_eqb (v_kind a) KNumber then kcmp (key (raw_to_f64 (v_json a))) (key (raw_to_f64 (v_json b)))
          else bcmp (v_json a) (v_json b)
  | c => c
  end.

Lemma kind_cmp_eq a b : kind_cmp a b = Eq <-> a = b.
Proof. destruct a, b; vm_compute; split; congruence. Qed.
Lemma kind_cmp_antisym a b : kind_cmp b a = CompOpp (kind_cmp a b).
Proof. destruct a, b; reflexivity. Qed.
Lemma kind_cmp_lt_trans a b c : kind_cmp a b = Lt -> kind_cmp b c = Lt -> kind_cmp a c = Lt.
Proof. destruct a, b, c; vm_compute; congruence. Qed.

Lemma v_cmp_fine a b : fine a -> fine b -> v_cmp a b = Ok (vcmp a b).
Proof.
  intros [[sa Ha] Hna] [[sb Hb] Hnb]. unfold v_cmp, vcmp.
  destruct (kind_cmp (v_kind a) (v_kind b)) eqn:E; auto. apply kind_cmp_eq in E.
  unfold strv. destruct (kind_eqb (v_kind a) KString) eqn:E1.
  - rewrite Ha, Hb. reflexivity.
  - destruct (kind_eqb (v_kind a) KNumber) eqn:E2; auto.
    apply kind_eqb_eq in E2. unfold v_f64. rewrite <- E, E2. cbn [bind].
    rewrite f64_cmp_key; auto. apply Hnb. congruence.
Qed.

Lemma bcmp_refl a : bcmp a a = Eq.
Proof. apply bcmp_eq. reflexivity. Qed.

Lemma vcmp_refl a : vcmp a a = Eq.
Proof.
  unfold vcmp. replace (kind_cmp (v_kind a) (v_kind a)) with Eq by (symmetry; apply kind_cmp_eq; auto).
  destruct (kind_eqb _ _); [apply bcmp_refl|]. destruct (kind_eqb _ _); [apply kcmp_refl | apply bcmp_refl].
Qed.
Lemma vcmp_antisym a b : vcmp b a = CompOpp (vcmp a b).
Proof.
  unfold vcmp. rewrite (kind_cmp_antisym (v_kind a)). destruct (kind_cmp (v_kind a) (v_kind b)) eqn:E; auto.
  apply kind_cmp_eq in E. rewrite <- E. cbn [CompOpp].
  destruct (kind_eqb _ _); [apply bcmp_antisym|]. destruct (kind_eqb _ _); [apply kcmp_antisym | apply bcmp_antisym].
Qed.
(** [x] then [y] composed. *)
Definition seq_cmp (x y : comparison) : option comparison :=
  match x, y with
  | Eq, c => Some c
  | c, Eq => Some c
  | Lt, Lt => Some Lt
  | Gt, Gt => Some Gt
  | _, _ => None
  end.
Lemma seq_of {A} (f : A -> A -> comparison)
  (He : forall a b, f a b = Eq -> a = b) (Hr : forall a, f a a = Eq) (Ha : forall a b, f b a = CompOpp (f a b))
  (Ht : forall a b c, f a b = Lt -> f b c = Lt -> f a c = Lt) a b c z :
  seq_cmp (f a b) (f b c) = Some z -> f a c = z.
Proof.
  intros H. destruct (f a b) eqn:E1.
  - apply He in E1. subst. cbn in H. congruence.
  - destruct (f b c) eqn:E2; cbn in H; try discriminate; injection H as <-.
    + apply He in E2. subst. auto.
    + eauto.
  - destruct (f b c) eqn:E2; cbn in H; try discriminate; injection H as <-.
    + apply He in E2. subst. auto.
    + rewrite (Ha c a). rewrite (Ht c b a); auto; rewrite Ha; [rewrite E2 | rewrite E1]; auto.
Qed.
Lemma vcmp_trans a b c z : seq_cmp (vcmp a b) (vcmp b c) = Some z -> vcmp a c = z.
Proof.
  unfold vcmp. destruct (kind_cmp (v_kind a) (v_kind b)) eqn:E1, (kind_cmp (v_kind b) (v_kind c)) eqn:E2; cbn [seq_cmp].
  - apply kind_cmp_eq in E1, E2. rewrite <- E2, <- E1.
    replace (kind_cmp (v_kind a) (v_kind a)) with Eq by (symmetry; apply kind_cmp_eq; auto).
    destruct (kind_eqb _ _); [|destruct (kind_eqb _ _)].
    + apply (seq_of bcmp); [apply bcmp_eq | apply bcmp_refl | apply bcmp_antisym | apply bcmp_lt_trans].
    + apply (seq_of kcmp); [apply kcmp_eq | apply kcmp_refl | apply kcmp_antisym | apply kcmp_lt_trans].
    + apply (seq_of bcmp); [apply bcmp_eq | apply bcmp_refl | apply bcmp_antisym | apply bcmp_lt_trans].
  - apply kind_cmp_eq in E1. rewrite E1, E2. destruct (if kind_eqb _ _ then _ else _); cbn; congruence.
  - apply kind_cmp_eq in E1. rewrite E1, E2. destruct (if kind_eqb _ _ then _ else _); cbn; congruence.
  - apply kind_cmp_eq in E2. rewrite <- E2, E1. destruct (if kind_eqb _ _ then _ else _); cbn; congruence.
  - rewrite (kind_cmp_lt_trans _ _ _ E1 E2). congruence.
  - discriminate.
  - apply kind_cmp_eq in E2. rewrite <- E2, E1. destruct (if kind_eqb _ _ then _ else _); cbn; congruence.
  - discriminate.
  - rewrite (kind_cmp_antisym (v_kind c) (v_kind a)).
    rewrite (kind_cmp_lt_trans (v_kind c) (v_kind b) (v_kind a)); [cbn; congruence| |];
      rewrite kind_cmp_antisym; [rewrite E2 | rewrite E1]; auto.
Qed.

(* ---------- no NaN from number texts ---------- *)

Lemma shr_1_nonneg mrs : (0 <= shr_m mrs)%Z -> (0 <= shr_m (shr_1 mrs))%Z.
Proof.
  unfold shr_1. destruct mrs as [m r s]. cbn [shr_m shr_r shr_s]. destruct m as [|[p|p|]|[p|p|]]; cbn; lia.
Qed.
Lemma iter_shr_nonneg p : forall mrs, (0 <= shr_m mrs)%Z -> (0 <= shr_m (SpecFloat.iter_pos shr_1 p mrs))%Z.
Proof.
  induction p as [p IH|p IH|]; intros mrs H; cbn [SpecFloat.iter_pos]; auto using shr_1_nonneg.
Qed.
Lemma shr_fexp_nonneg prec emax m e l mrs e' : (0 <= m)%Z ->
  shr_fexp prec emax m e l = (mrs, e') -> (0 <= shr_m mrs)%Z.
Proof.
  intros H. unfold shr_fexp, shr.
  assert (H0 : (0 <= shr_m (shr_record_of_loc m l))%Z).
  { unfold shr_record_of_loc. destruct l as [|[| |]]; cbn; auto. }
  destruct (_ - _)%Z; intros E; injection E as <- _; auto. apply iter_shr_nonneg; auto.
Qed.
Lemma rne_nonneg m l : (0 <= m)%Z -> (0 <= round_nearest_even m l)%Z.
Proof. unfold round_nearest_even. destruct l as [|[| |]]; try lia. destruct (Z.even m); lia. Qed.
Lemma bra_not_nan prec emax s m e l : (0 <= m)%Z -> binary_round_aux prec emax s m e l <> S754_nan.
Proof.
  intros H. unfold binary_round_aux.
  destruct (shr_fexp prec emax m e l) as [mrs1 e1] eqn:E1.
  pose proof (shr_fexp_nonneg _ _ _ _ _ _ _ H E1) as H1.
  destruct (shr_fexp prec emax (round_nearest_even _ _) e1 loc_Exact) as [mrs2 e2] eqn:E2.
  pose proof (shr_fexp_nonneg _ _ _ _ _ _ _ (rne_nonneg _ _ H1) E2) as H2.
  destruct (shr_m mrs2); try discriminate; [|lia]. destruct (_ <=? _)%Z; discriminate.
Qed.
Lemma round_ratio_not_nan neg a b : round_ratio neg a b <> S754_nan.
Proof.
  unfold round_ratio. unfold SFdiv_core_binary. cbv zeta.
  set (e' := Z.min _ _).
  set (s := (0 - 0 - e')%Z).
  set (m' := match s with Zpos _ => _ | Z0 => _ | Zneg _ => _ end).
  assert (Hm : (0 <= m')%Z).
  { unfold m'. destruct s; try lia. apply Z.shiftl_nonneg. lia. }
  destruct (Z.div_eucl m' (Z.pos b)) as [q r] eqn:E.
  apply bra_not_nan. replace q with (m' / Z.pos b)%Z by (unfold Z.div; rewrite E; reflexivity).
  apply Z.div_pos; lia.
Qed.
Lemma round_decimal_not_nan neg d e : round_decimal neg d e <> S754_nan.
Proof. unfold round_decimal. destruct d; try discriminate. destruct e; apply round_ratio_not_nan. Qed.

Lemma numish_not_nan n : Forall numish n -> raw_to_f64 n <> S754_nan.
Proof.
  intros Hn. unfold raw_to_f64, parse_f64. destruct n as [|c t]; [discriminate|]. cbv zeta.
  set (u := if ((c =? 45) || (c =? 43))%N then t else c :: t).
  assert (Hu : Forall numish u) by (unfold u; destruct (_ || _)%N; auto; inversion Hn; auto).
  clearbody u. destruct (span_digits u) as [ip r].
  destruct (match r with [] => _ | _ => _ end) as [fp r'].
  assert (Hw : match
    (if beq (map lower u) [110; 97; 110]%N then Some S754_nan
     else if beq (map lower u) [105; 110; 102]%N || beq (map lower u) [105; 110; 102; 105; 110; 105; 116; 121]%N
     then Some (S754_infinity (c =? 45)%N) else None) with Some x => x | None => f64_zero end <> S754_nan).
  { destruct (beq (map lower u) [110; 97; 110]%N) eqn:E.
    - apply beq_eq in E. destruct Hu as [|h u' Hh]; [discriminate|]. cbn [map] in E. injection E as E _.
      exfalso. unfold numish, numch in Hh. unfold lower in E. revert E; destruct ((65 <=? h) && (h <=? 90))%N eqn:?; intros E; lia.
    - destruct (_ || _)%bool; discriminate. }
  destruct (dec_digits (ip ++ fp)); [destruct (parse_exp r')|]; try exact Hw. apply round_decimal_not_nan.
Qed.
