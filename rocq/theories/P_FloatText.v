(** Every text as a floating-point number. *)
From Verif Require Import P_Base P_Num M_Num S_Json S_Get S_Num S_Float P_Float P_Conv.
From Coq Require Import Reals Lra SpecFloat.
From Flocq Require Import Core BinarySingleNaN.
Open Scope nat_scope.

(** [parse_f64] behind the sign. *)
Definition body (neg : bool) (u : bytes) : option spec_float :=
  let '(ip, r) := span_digits u in
  let '(fp, r) := match r with
                  | d :: r' => if (d =? 46)%N then span_digits r' else ([], r)
                  | [] => ([], r)
                  end in
  match dec_digits (ip ++ fp), parse_exp r with
  | Some d, Some e => Some (round_decimal neg d (e - Z.of_nat (length fp)))
  | _, _ =>
      let w := map lower u in
      if beq w w_nan then Some S754_nan
      else if beq w w_inf || beq w w_infinity then Some (S754_infinity neg)
      else None
  end.

Definition no_sign (u : bytes) : Prop := match u with [] => False | c :: _ => c <> 43%N /\ c <> 45%N end.

Lemma parse_body sg neg u : sign_text sg neg -> (sg = [] -> no_sign u) -> parse_f64 (sg ++ u) = body neg u.
Proof.
  intros [[-> ->]|[[-> ->]|[-> ->]]] H; [|reflexivity|reflexivity]. specialize (H eq_refl).
  destruct u as [|c t]; [destruct H|]. cbn [app]. unfold parse_f64, body. destruct H as [H1 H2].
  replace (c =? cMINUS)%N with false by (change cMINUS with 45%N; lia).
  replace (c =? cPLUS)%N with false by (change cPLUS with 43%N; lia). reflexivity.
Qed.
Lemma split_sign s : s <> [] -> exists sg neg u, s = sg ++ u /\ sign_text sg neg /\ (sg = [] -> no_sign u).
Proof.
  destruct s as [|c t]; [congruence|]. intros _. destruct (N.eq_dec c 43) as [->|H1]; [|destruct (N.eq_dec c 45) as [->|H2]].
  - exists [43%N], false, t. repeat split; [right; left; auto | discriminate].
  - exists [45%N], true, t. repeat split; [right; right; auto | discriminate].
  - exists [], false, (c :: t). repeat split; auto. left. auto.
Qed.

Lemma span_inv u : forall ip r, span_digits u = (ip, r) -> u = ip ++ r /\ Forall digit ip.
Proof.
  induction u as [|c t IH]; intros ip r E; cbn [span_digits] in E.
  - injection E as <- <-. auto.
  - destruct (is_digit c) eqn:Ec; [|injection E as <- <-; auto].
    destruct (span_digits t) as [d r'] eqn:Et. injection E as <- <-. destruct (IH d r' eq_refl) as [-> H].
    split; auto. constructor; auto. apply is_digit_spec; auto.
Qed.
Lemma parse_exp_inv r x : parse_exp r = Some x -> exp_val r x.
Proof.
  destruct r as [|c t]; cbn [parse_exp]; [intros [= <-]; constructor|].
  destruct (((c =? ce) || (c =? cE))%N) eqn:Ec; [|discriminate].
  assert (Hc : c = 0x65%N \/ c = 0x45%N) by (change ce with 101%N in Ec; change cE with 69%N in Ec; lia).
  destruct t as [|s t]; [discriminate|]. destruct (N.eqb_spec s cMINUS) as [->|].
  - destruct (dec_digits t) as [d|] eqn:Ed; cbn [option_map]; intros [= <-]. apply dec_digits_inv in Ed as [Hd ->].
    apply ev_minus; auto.
  - destruct (N.eqb_spec s cPLUS) as [->|]; intros Ed; apply dec_digits_inv in Ed as [Hd ->]; [apply ev_plus | apply ev_plain]; auto.
Qed.

Lemma exp_nodigit ex x : exp_val ex x -> match ex with [] => True | c :: _ => is_digit c = false end.
Proof. intros H. apply exp_head in H. destruct ex; auto. apply H. Qed.
Lemma body_int neg ip ex x : digits1 ip -> exp_val ex x -> body neg (ip ++ ex) = Some (round_decimal neg (digits_val ip) x).
Proof.
  intros Hip Hex. unfold body. rewrite span_stop by (try apply Hip; eapply exp_nodigit; eauto).
  pose proof (exp_head ex x Hex) as Hh.
  assert (Ef : (match ex with d :: r' => if (d =? 46)%N then span_digits r' else ([], ex) | [] => ([], ex) end) = ([], ex)).
  { destruct ex as [|d ex]; auto. destruct Hh as [_ Hh]. replace (d =? 46)%N with false by lia. reflexivity. }
  rewrite Ef, app_nil_r, dec_digits_val, (parse_exp_val ex x) by auto. cbn [length]. rewrite Z.sub_0_r. reflexivity.
Qed.
Lemma body_dot neg ip fp ex x : digits1 (ip ++ fp) -> exp_val ex x ->
  body neg (ip ++ 46%N :: fp ++ ex) = Some (round_decimal neg (digits_val (ip ++ fp)) (x - Z.of_nat (length fp))).
Proof.
  intros Hd Hex. destruct Hd as [Hne Hd]. pose proof (proj1 (Forall_app _ _ _) Hd) as [Hip Hfp].
  unfold body. rewrite span_stop by (auto; reflexivity). change (46 =? 46)%N with true. cbv iota.
  rewrite span_stop by (auto; eapply exp_nodigit; eauto).
  rewrite dec_digits_val, (parse_exp_val ex x) by (auto; split; auto). reflexivity.
Qed.

Lemma lower_word w u : Forall (fun a => (97 <= a <= 122)%N) w -> beq (map lower u) w = true <-> Forall2 (fun a b => b = a \/ (b + 32)%N = a) w u.
Proof.
  intros Hw. rewrite beq_eq. revert w Hw. induction u as [|b u IH]; intros w Hw; cbn [map].
  - split; [intros <-; constructor | intros H; inversion H; auto].
  - destruct w as [|a w].
    + split; [discriminate | intros H; inversion H].
    + inversion Hw as [|? ? Ha Hw']; subst. split.
      * intros E. injection E as E1 E2. constructor; [|apply IH; auto]. unfold lower in E1. change cA with 65%N in E1.
        destruct ((65 <=? b) && (b <=? 90))%N eqn:E; lia.
      * intros H. inversion H as [|? ? ? ? H1 H2]; subst. f_equal; [|apply IH; auto].
        unfold lower. change cA with 65%N. destruct ((65 <=? b) && (b <=? 90))%N eqn:E; lia.
Qed.
Lemma word_letters : Forall (fun a => (97 <= a <= 122)%N) w_nan /\ Forall (fun a => (97 <= a <= 122)%N) w_inf /\
  Forall (fun a => (97 <= a <= 122)%N) w_infinity.
Proof. repeat split; repeat (constructor; [lia|]); constructor. Qed.

(** A word is no number. *)
Lemma body_word neg u : (forall ip ex x, digits1 ip -> exp_val ex x -> u <> ip ++ ex) ->
  (forall ip fp ex x, digits1 (ip ++ fp) -> exp_val ex x -> u <> ip ++ 46%N :: fp ++ ex) ->
  body neg u = (let w := map lower u in
      if beq w w_nan then Some S754_nan
      else if beq w w_inf || beq w w_infinity then Some (S754_infinity neg)
      else None).
Proof.
  intros H1 H2. unfold body. destruct (span_digits u) as [ip r] eqn:E. apply span_inv in E as [-> Hip].
  destruct r as [|d r].
  - rewrite app_nil_r. destruct (dec_digits ip) as [z|] eqn:Ez; auto. apply dec_digits_inv in Ez as [Hz _].
    exfalso. apply (H1 ip [] 0%Z); auto. constructor.
  - destruct (N.eqb_spec d 46) as [->|Hd].
    + destruct (span_digits r) as [fp r'] eqn:E'. apply span_inv in E' as [-> Hfp].
      destruct (dec_digits (ip ++ fp)) as [z|] eqn:Ez; auto. apply dec_digits_inv in Ez as [Hz _].
      destruct (parse_exp r') as [x|] eqn:Ex; auto. apply parse_exp_inv in Ex. exfalso. apply (H2 ip fp r' x); auto.
    + rewrite app_nil_r. destruct (dec_digits ip) as [z|] eqn:Ez; auto. apply dec_digits_inv in Ez as [Hz _].
      destruct (parse_exp (d :: r)) as [x|] eqn:Ex; auto. apply parse_exp_inv in Ex. exfalso. apply (H1 ip (d :: r) x); auto.
Qed.
Lemma word_no_number u c t : u = c :: t -> ~ digit c -> c <> 46%N ->
  (forall ip ex x, digits1 ip -> exp_val ex x -> u <> ip ++ ex) /\
  (forall ip fp ex x, digits1 (ip ++ fp) -> exp_val ex x -> u <> ip ++ 46%N :: fp ++ ex).
Proof.
  intros -> Hc Hd. split.
  - intros ip ex x [Hn Hip] _ E. destruct ip as [|a ip]; [congruence|]. injection E as -> _. inversion Hip; auto.
  - intros ip fp ex x [Hn Hip] _ E. destruct ip as [|a ip]; cbn [app] in E; [congruence|]. injection E as -> _. inversion Hip; auto.
Qed.
Lemma letters_head w u : Forall (fun a => (97 <= a <= 122)%N) w -> w <> [] -> Forall2 (fun a b => b = a \/ (b + 32)%N = a) w u ->
  exists c t, u = c :: t /\ (65 <= c)%N.
Proof.
  intros Hw Hn H. destruct H as [|a b w u H1 H2]; [congruence|]. inversion Hw; subst. exists b, u. split; auto. lia.
Qed.

Lemma sign_head sg neg c t : sign_text sg neg -> c <> 43%N -> c <> 45%N -> sg = [] -> no_sign (c :: t).
Proof. cbn. auto. Qed.

Definition fval (x : spec_float) : option R := if is_nan_SF x then None else Some (sfv x).

Lemma good_fval x : good x -> fval x = Some (sfv x).
Proof. intros [_ H]. unfold fval. rewrite H. reflexivity. Qed.

Lemma parse_float_text s m e : float_text s m e ->
  exists neg d, (0 <= d)%Z /\ m = signed neg d /\ parse_f64 s = Some (round_decimal neg d e).
Proof.
  intros H. inversion H as [sg neg ip ex x Hs Hip Hex|sg neg ip fp ex x Hs Hd Hex]; subst.
  - exists neg, (digits_val ip). split; [apply digits_val_nonneg, Hip|]. split; auto.
    rewrite (parse_body sg neg) by (auto; intros _; destruct (digits_head ip Hip) as (c & t & -> & Hc); unfold digit in Hc; cbn; lia).
    apply body_int; auto.
  - exists neg, (digits_val (ip ++ fp)). split; [apply digits_val_nonneg, Hd|]. split; auto.
    rewrite (parse_body sg neg).
    + apply body_dot; auto.
    + auto.
    + intros _. destruct ip as [|c t]; [cbn; lia|]. destruct Hd as [_ Hd]. inversion Hd as [|? ? Hc _]; subst. unfold digit in Hc. cbn. lia.
Qed.

Lemma parse_word w s neg : Forall (fun a => (97 <= a <= 122)%N) w -> w <> [] -> word_text w s neg ->
  exists u, beq (map lower u) w = true /\ parse_f64 s = (let w := map lower u in
      if beq w w_nan then Some S754_nan
      else if beq w w_inf || beq w w_infinity then Some (S754_infinity neg)
      else None).
Proof.
  intros Hw Hn [sg neg' u Hs H]. exists u. split; [apply lower_word; auto|].
  destruct (letters_head w u Hw Hn H) as (c & t & E & Hc).
  rewrite (parse_body sg neg') by (auto; intros _; rewrite E; cbn; lia).
  destruct (word_no_number u c t E) as [H1 H2]; [unfold digit; lia | lia |]. apply body_word; auto.
Qed.

Lemma beq_sub a b c : beq a b = true -> beq a c = beq b c.
Proof. intros H. apply beq_eq in H. subst. reflexivity. Qed.

Theorem reads_raw s o : f64_reads s o -> valid_binary 53 1024 (raw_to_f64 s) = true /\ fval (raw_to_f64 s) = o.
Proof.
  destruct word_letters as (Wn & Wi & Wy).
  intros H. inversion H as [? m e Hf|? neg Hw|? neg Hw|? Hf Hw]; subst.
  - apply parse_float_text in Hf as (neg & d & Hd & -> & E). unfold raw_to_f64. rewrite E.
    destruct (round_decimal_good neg d e Hd) as [G V]. split; [apply G|]. rewrite good_fval, V by auto. reflexivity.
  - assert (E : parse_f64 s = Some (S754_infinity neg)).
    { destruct Hw as [Hw|Hw]; [apply (parse_word w_inf) in Hw as (u & Hu & E) | apply (parse_word w_infinity) in Hw as (u & Hu & E)];
        auto; try discriminate; rewrite E; cbv zeta; rewrite !(beq_sub _ _ _ Hu); reflexivity. }
    unfold raw_to_f64. rewrite E. split; [reflexivity|]. reflexivity.
  - assert (E : parse_f64 s = Some S754_nan).
    { apply (parse_word w_nan) in Hw as (u & Hu & E); auto; try discriminate. rewrite E. cbv zeta. rewrite Hu. reflexivity. }
    unfold raw_to_f64. rewrite E. split; reflexivity.
  - assert (E : parse_f64 s = None).
    { destruct s as [|c0 t0]; [reflexivity|]. destruct (split_sign (c0 :: t0)) as (sg & neg & u & Es & Hs & Hn); [discriminate|].
      rewrite Es in *. rewrite (parse_body sg neg) by auto.
      rewrite body_word.
      - destruct (Hw neg) as (W1 & W2 & W3). cbv zeta.
        destruct (beq (map lower u) w_nan) eqn:B1; [exfalso; apply W3; constructor; auto; apply lower_word; auto|].
        destruct (beq (map lower u) w_inf) eqn:B2; [exfalso; apply W1; constructor; auto; apply lower_word; auto|].
        destruct (beq (map lower u) w_infinity) eqn:B3; [exfalso; apply W2; constructor; auto; apply lower_word; auto|].
        reflexivity.
      - intros ip ex x Hip Hex ->. eapply Hf. apply ft_int; eauto.
      - intros ip fp ex x Hip Hex ->. eapply Hf. apply ft_dot; eauto. }
    unfold raw_to_f64. rewrite E. split; reflexivity.
Qed.

Theorem reads_total s : exists o, f64_reads s o.
Proof.
  destruct word_letters as (Wn & Wi & Wy).
  assert (D : (exists m e, float_text s m e) \/ forall m e, ~ float_text s m e).
  { destruct (Classical_Prop.classic (exists m e, float_text s m e)) as [H|H]; auto. right. intros m e Hf. apply H. eauto. }
  destruct D as [(m & e & Hf)|Hf]; [eexists; apply fr_num; eauto|].
  destruct (Classical_Prop.classic (exists neg, word_text w_inf s neg \/ word_text w_infinity s neg)) as [(neg & H)|H1]; [eexists; eapply fr_inf; eauto|].
  destruct (Classical_Prop.classic (exists neg, word_text w_nan s neg)) as [(neg & H)|H2]; [eexists; eapply fr_nan; eauto|].
  eexists. apply fr_other; auto. intros neg. repeat split; intros H; [apply H1 | apply H1 | apply H2]; eauto.
Qed.
Theorem reads_unique s a b : f64_reads s a -> f64_reads s b -> a = b.
Proof. intros Ha Hb. apply reads_raw in Ha as [_ <-]. apply reads_raw in Hb as [_ <-]. reflexivity. Qed.
