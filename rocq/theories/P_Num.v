(** Integer and boolean accessors. *)
From Coq Require Import Floats.SpecFloat ZifyBool.
From Verif Require Import P_Base P_Json P_Valid P_ValidSpec P_Str P_Scan P_Each P_Doc P_LGet P_Value
  M_Util M_Num M_Scan M_Value S_Str S_Get.

Lemma is_digit_spec c : is_digit c = true <-> digit c.
Proof. unfold is_digit, digit. lia. Qed.

Lemma dec_acc_digits ds : Forall digit ds -> forall a,
  dec_acc a ds = Some (fold_left (fun a d => a * 10 + (Z.of_N d - 48))%Z ds a).
Proof.
  induction 1 as [|c t Hc _ IH]; intros a; auto. cbn [dec_acc fold_left].
  pose proof (proj2 (is_digit_spec c) Hc) as E. rewrite E.
  unfold digit in Hc. rewrite IH. do 2 f_equal. lia.
Qed.
Lemma dec_digits_val ds : digits1 ds -> dec_digits ds = Some (digits_val ds).
Proof.
  intros [Hne Hd]. unfold dec_digits. destruct ds; [congruence|]. apply dec_acc_digits; auto.
Qed.
Lemma digits_val_nonneg ds : Forall digit ds -> (0 <= digits_val ds)%Z.
Proof.
  intros H. unfold digits_val. assert (G : forall a, (0 <= a)%Z ->
    (0 <= fold_left (fun a d => a * 10 + (Z.of_N d - 48)) ds a)%Z); [|apply G; lia].
  induction H as [|c t Hc _ IH]; intros a Ha; auto. cbn [fold_left]. apply IH. unfold digit in Hc. lia.
Qed.

Lemma digits_head ds : digits1 ds -> exists c t, ds = c :: t /\ digit c.
Proof. intros [Hne Hd]. destruct Hd; [congruence|]. eauto. Qed.

Lemma in_range_ok lo hi z : (lo <= z <= hi)%Z -> in_range lo hi z = Some z.
Proof. intros H. unfold in_range. replace ((lo <=? z) && (z <=? hi))%Z with true by lia. reflexivity. Qed.

Lemma parse_i64_literal s z : int_literal s z -> (- 2 ^ 63 <= z < 2 ^ 63)%Z -> parse_i64 s = Some z.
Proof.
  intros H Hr. destruct H as [ds Hd|ds Hd]; unfold parse_i64.
  - destruct (digits_head ds Hd) as (c & t & E & Hc). unfold digit in Hc. rewrite E.
    replace (c =? 45)%N with false by lia. replace (c =? 43)%N with false by lia. rewrite <- E.
    rewrite dec_digits_val by auto. apply in_range_ok. unfold i64_min, i64_max. lia.
  - change ((45 =? 45)%N) with true. cbv match. rewrite dec_digits_val by auto. cbn [option_map].
    apply in_range_ok. unfold i64_min, i64_max. lia.
Qed.

Lemma span_digits_all ds : Forall digit ds -> span_digits ds = (ds, []).
Proof.
  induction 1 as [|c t Hc _ IH]; auto. cbn [span_digits].
  rewrite (proj2 (is_digit_spec c) Hc), IH. reflexivity.
Qed.

Lemma raw_to_u64_literal s z : int_literal s z -> (0 <= z < 2 ^ 64)%Z -> raw_to_u64 s = z.
Proof.
  intros H Hr. destruct H as [ds Hd|ds Hd]; unfold raw_to_u64, parse_u64.
  - destruct (digits_head ds Hd) as (c & t & E & Hc). unfold digit in Hc. rewrite E.
    replace (c =? 43)%N with false by lia. rewrite <- E.
    rewrite dec_digits_val by auto. rewrite in_range_ok; auto. unfold u64_max. lia.
  - change ((45 =? 43)%N) with false. cbv match.
    change (dec_digits (45%N :: ds)) with (@None Z). cbv match.
    assert (E0 : digits_val ds = 0%Z) by (destruct Hd as [_ Hd]; pose proof (digits_val_nonneg ds Hd); lia).
    unfold raw_to_f64, parse_f64. change ((45 =? 45)%N) with true. cbn [orb]. cbv zeta.
    rewrite span_digits_all by apply Hd. cbv beta iota. rewrite app_nil_r. rewrite dec_digits_val by auto. rewrite E0.
    reflexivity.
Qed.
Lemma raw_to_i64_literal s z : int_literal s z -> (- 2 ^ 63 <= z < 2 ^ 63)%Z -> raw_to_i64 s = z.
Proof. intros H Hr. unfold raw_to_i64. rewrite (parse_i64_literal s z) by auto. reflexivity. Qed.

(** The text a string value is converted from is its [str]. *)
Lemma string_text_shows v b : shows v (CStr b) -> string_text v = v_str v.
Proof.
  intros [_ Hj Hk Hs]. cbn [render kind_of text_of] in *. unfold string_text, v_str in *. rewrite Hk in *.
  destruct (has (v_info v) INFO_ESC); auto. rewrite Hj. auto.
Qed.

Lemma i64_number v s z : v_kind v = KNumber -> v_json v = s -> int_literal s z ->
  (- 2 ^ 63 <= z < 2 ^ 63)%Z -> v_i64 v = Ok z.
Proof. intros Hk <- H Hr. unfold v_i64. rewrite Hk. f_equal. apply raw_to_i64_literal; auto. Qed.
Lemma u64_number v s z : v_kind v = KNumber -> v_json v = s -> int_literal s z ->
  (0 <= z < 2 ^ 64)%Z -> v_u64 v = Ok z.
Proof. intros Hk <- H Hr. unfold v_u64. rewrite Hk. f_equal. apply raw_to_u64_literal; auto. Qed.
Lemma i64_string v b s z : shows v (CStr b) -> v_str v = Ok s -> int_literal s z ->
  (- 2 ^ 63 <= z < 2 ^ 63)%Z -> v_i64 v = Ok z.
Proof.
  intros Hv Hs H Hr. unfold v_i64. rewrite (sh_kind _ _ Hv). cbn [kind_of].
  rewrite (string_text_shows v b), Hs by auto. cbn [bind]. f_equal. apply raw_to_i64_literal; auto.
Qed.
Lemma u64_string v b s z : shows v (CStr b) -> v_str v = Ok s -> int_literal s z ->
  (0 <= z < 2 ^ 64)%Z -> v_u64 v = Ok z.
Proof.
  intros Hv Hs H Hr. unfold v_u64. rewrite (sh_kind _ _ Hv). cbn [kind_of].
  rewrite (string_text_shows v b), Hs by auto. cbn [bind]. f_equal. apply raw_to_u64_literal; auto.
Qed.

(** Every integer has a literal, and it is a JSON number. *)
Fixpoint dec_pos (fuel : nat) (z : Z) (acc : bytes) : bytes :=
  match fuel with
  | O => acc
  | S f => let acc := (Z.to_N (z mod 10) + 48)%N :: acc in
           if (z / 10 =? 0)%Z then acc else dec_pos f (z / 10) acc
  end.
Lemma fold_digits_app a ds l : fold_left (fun a d => a * 10 + (Z.of_N d - 48))%Z (ds ++ l) a =
  fold_left (fun a d => a * 10 + (Z.of_N d - 48))%Z l (fold_left (fun a d => a * 10 + (Z.of_N d - 48))%Z ds a).
Proof. apply fold_left_app. Qed.
Lemma dec_pos_spec : forall fuel z acc, (0 < z < Z.of_nat fuel)%Z ->
  exists d ds, dec_pos fuel z acc = d :: ds ++ acc /\ (49 <= d <= 57)%N /\ Forall digit ds /\ digits_val (d :: ds) = z.
Proof.
  induction fuel as [|f IH]; intros z acc Hz; [lia|]. cbn [dec_pos].
  pose proof (Z.div_mod z 10 ltac:(lia)) as Hdm. pose proof (Z.mod_pos_bound z 10 ltac:(lia)) as Hm.
  destruct (Z.eqb_spec (z / 10) 0) as [E|E].
  - exists (Z.to_N (z mod 10) + 48)%N, []. repeat split; auto; try lia. unfold digits_val. cbn [fold_left]. lia.
  - assert (Hq : (0 < z / 10)%Z) by (pose proof (Z.div_pos z 10 ltac:(lia) ltac:(lia)); lia).
    destruct (IH (z / 10)%Z ((Z.to_N (z mod 10) + 48)%N :: acc)) as (d & ds & E' & Hd & Hds & Hv).
    { split; [lia|]. apply Z.div_lt_upper_bound; lia. }
    exists d, (ds ++ [(Z.to_N (z mod 10) + 48)%N]). rewrite E'. rewrite <- app_assoc. cbn [app].
    repeat split; auto; try lia.
    + apply Forall_app. split; auto. constructor; auto. unfold digit. lia.
    + unfold digits_val in *. rewrite app_comm_cons, fold_digits_app. rewrite Hv. cbn [fold_left]. lia.
Qed.
Lemma int_literal_exists z : exists s, int_literal s z /\ number s.
Proof.
  assert (P : forall z, (0 < z)%Z -> exists d ds, (49 <= d <= 57)%N /\ Forall digit ds /\ digits_val (d :: ds) = z).
  { clear z. intros z Hz. destruct (dec_pos_spec (S (Z.to_nat z)) z [] ltac:(lia)) as (d & ds & _ & H). eauto. }
  destruct (Z.lt_trichotomy z 0) as [H|[->|H]].
  - destruct (P (- z)%Z ltac:(lia)) as (d & ds & Hd & Hds & Hv). exists (45%N :: d :: ds). split.
    + replace z with (- digits_val (d :: ds))%Z by lia. apply il_neg. split; [discriminate|]. constructor; auto.
      unfold digit. lia.
    + rewrite <- (app_nil_r (45%N :: d :: ds)).
      apply (number_intro [45%N] (d :: ds) [] []); auto; constructor; auto.
  - exists [48%N]. split.
    + apply (il_pos [48%N]). split; [discriminate|]. constructor; auto. unfold digit. lia.
    + apply (number_intro [] [48%N] [] []); auto; constructor.
  - destruct (P z ltac:(lia)) as (d & ds & Hd & Hds & Hv). exists (d :: ds). split.
    + rewrite <- Hv. apply il_pos. split; [discriminate|]. constructor; auto. unfold digit. lia.
    + rewrite <- (app_nil_r (d :: ds)). apply (number_intro [] (d :: ds) [] []); auto; constructor; auto.
Qed.

(* ---------- narrow accessors ---------- *)

Lemma f64_to_int_range lo hi x : (lo <= 0 <= hi)%Z -> (lo <= f64_to_int lo hi x <= hi)%Z.
Proof. intros H. destruct x as [s|s| |s m e]; simpl; try lia; destruct s; lia. Qed.
Lemma in_range_inv lo hi z y : in_range lo hi z = Some y -> (lo <= y <= hi)%Z.
Proof. unfold in_range. destruct ((lo <=? z) && (z <=? hi))%Z eqn:E; [|discriminate]. intros H; injection H as <-. lia. Qed.
Lemma raw_i64_range s : (- 2 ^ 63 <= raw_to_i64 s < 2 ^ 63)%Z.
Proof.
  unfold raw_to_i64. destruct (parse_i64 s) as [z|] eqn:E.
  - unfold parse_i64 in E. destruct s as [|c t]; [discriminate|]. cbv zeta in E.
    destruct (if (c =? 45)%N then _ else _) as [y|]; [|discriminate]. apply in_range_inv in E.
    unfold i64_min, i64_max in E. lia.
  - pose proof (f64_to_int_range i64_min i64_max (raw_to_f64 s)) as H. unfold f64_to_i64.
    specialize (H ltac:(unfold i64_min, i64_max; lia)). unfold i64_min, i64_max in *. lia.
Qed.
Lemma raw_u64_range s : (0 <= raw_to_u64 s < 2 ^ 64)%Z.
Proof.
  unfold raw_to_u64. destruct (parse_u64 s) as [z|] eqn:E.
  - unfold parse_u64 in E. destruct s as [|c t]; [discriminate|]. cbv zeta in E.
    destruct (if (c =? 43)%N then _ else _) as [y|]; [|discriminate]. apply in_range_inv in E.
    unfold u64_max in E. lia.
  - pose proof (f64_to_int_range 0 u64_max (raw_to_f64 s)) as H. unfold f64_to_u64.
    specialize (H ltac:(unfold u64_max; lia)). unfold u64_max in *. lia.
Qed.
Lemma v_i64_range v x : v_i64 v = Ok x -> (- 2 ^ 63 <= x < 2 ^ 63)%Z.
Proof.
  unfold v_i64. destruct (v_kind v); intros E; try (injection E as <-; lia).
  - injection E as <-. apply raw_i64_range.
  - destruct (string_text v) as [t|e]; [|discriminate]. cbn [bind] in E. injection E as <-. apply raw_i64_range.
Qed.
Lemma v_u64_range v x : v_u64 v = Ok x -> (0 <= x < 2 ^ 64)%Z.
Proof.
  unfold v_u64. destruct (v_kind v); intros E; try (injection E as <-; lia).
  - injection E as <-. apply raw_u64_range.
  - destruct (string_text v) as [t|e]; [|discriminate]. cbn [bind] in E. injection E as <-. apply raw_u64_range.
Qed.

Lemma wrap_signed_id b x : (0 < b)%Z -> (- 2 ^ (b - 1) <= x < 2 ^ (b - 1))%Z -> wrap_signed b x = x.
Proof.
  intros Hb H. unfold wrap_signed. rewrite Z.mod_small; [lia|].
  replace (2 ^ b)%Z with (2 * 2 ^ (b - 1))%Z; [lia|]. rewrite <- Z.pow_succ_r by lia. f_equal. lia.
Qed.
Lemma wrap_unsigned_id b x : (0 <= x < 2 ^ b)%Z -> wrap_unsigned b x = x.
Proof. intros H. unfold wrap_unsigned. apply Z.mod_small. lia. Qed.

Lemma narrow_saturate v x : v_i64 v = Ok x ->
  v_i16 v = Ok (clamp (-32768) 32767 x) /\ v_i8 v = Ok (clamp (-128) 127 x).
Proof.
  intros E. unfold v_i16, v_i8, clamp. rewrite E. cbn [bind]. split; f_equal.
  - rewrite wrap_signed_id; change (2 ^ (16 - 1))%Z with 32768%Z;
      destruct (Z.ltb_spec x (-32768)), (Z.ltb_spec 32767 x); lia.
  - rewrite wrap_signed_id; change (2 ^ (8 - 1))%Z with 128%Z;
      destruct (Z.ltb_spec x (-128)), (Z.ltb_spec 127 x); lia.
Qed.
Lemma narrow_saturate_u v x : v_u64 v = Ok x ->
  v_u32 v = Ok (clamp 0 4294967295 x) /\ v_u16 v = Ok (clamp 0 65535 x) /\ v_u8 v = Ok (clamp 0 255 x).
Proof.
  intros E. pose proof (v_u64_range _ _ E) as Hr.
  unfold v_u32, v_u16, v_u8, clamp. rewrite E. cbn [bind]. repeat split; f_equal.
  - rewrite wrap_unsigned_id; change (2 ^ 32)%Z with 4294967296%Z; destruct (Z.ltb_spec 4294967295 x); lia.
  - rewrite wrap_unsigned_id; change (2 ^ 16)%Z with 65536%Z; destruct (Z.ltb_spec 65535 x); lia.
  - rewrite wrap_unsigned_id; change (2 ^ 8)%Z with 256%Z; destruct (Z.ltb_spec 255 x); lia.
Qed.
Lemma i32_exact v x : v_i64 v = Ok x ->
  v_i32 v = Ok (if (2147483647 <? x)%Z then -2147483648 else clamp (-2147483648) 2147483647 x)%Z.
Proof.
  intros E. unfold v_i32, clamp. rewrite E. cbn [bind]. f_equal.
  destruct (Z.ltb_spec 2147483647 x) as [H|H].
  - replace (x <? -2147483648)%Z with false by lia.
    assert (Ex : (if (2147483648 <? x)%Z then 2147483648%Z else x) = 2147483648%Z)
      by (destruct (Z.ltb_spec 2147483648 x); lia).
    rewrite Ex. reflexivity.
  - rewrite wrap_signed_id; change (2 ^ (32 - 1))%Z with 2147483648%Z;
      destruct (Z.ltb_spec x (-2147483648)), (Z.ltb_spec 2147483648 x); lia.
Qed.

(* ---------- bool ---------- *)

Lemma existsb_beq t l : existsb (beq t) l = true <-> In t l.
Proof.
  rewrite existsb_exists. split.
  - intros (x & Hx & E). apply beq_eq in E. subst. auto.
  - intros H. exists t. split; auto. apply beq_refl.
Qed.

Lemma bool_number v n x : number n -> shows v (CNum n) -> v_i64 v = Ok x -> v_bool v = Ok (negb (x =? 0)%Z).
Proof.
  intros Hn [_ Hj Hk _] E. cbn [render kind_of] in *. unfold v_bool. rewrite E. cbn [bind].
  unfold v_i64 in E. rewrite Hk in E. injection E as <-. rewrite Hj.
  destruct (number_head n Hn) as (h & t & -> & Hh).
  destruct (existsb (beq (h :: t)) bool_true_texts) eqn:E1.
  - apply existsb_beq in E1. cbn [bool_true_texts In] in E1.
    repeat (destruct E1 as [E1|E1]; [injection E1 as <- <-; first [reflexivity | exfalso; lia] | ]).
    contradiction.
  - destruct (existsb (beq (h :: t)) bool_false_texts) eqn:E2; auto.
    apply existsb_beq in E2. cbn [bool_false_texts In] in E2.
    repeat (destruct E2 as [E2|E2]; [injection E2 as <- <-; first [reflexivity | exfalso; lia] | ]).
    contradiction.
Qed.

Lemma quoted_inj a b : quoted a = quoted b -> a = b.
Proof. unfold quoted. intros H. injection H as H. apply app_inv_tail in H. exact H. Qed.

Lemma bool_string v b : shows v (CStr b) ->
  exists x, v_i64 v = Ok x /\ (v_bool v = Ok true <-> In b true_words \/ x <> 0%Z) /\
    (v_bool v = Ok false <-> ~ In b true_words /\ x = 0%Z).
Proof.
  intros Hv. pose proof (string_text_shows v b Hv) as Ht. destruct Hv as [_ Hj Hk Hs].
  cbn [render kind_of text_of] in *.
  assert (Ei : v_i64 v = Ok (raw_to_i64 (un b))).
  { unfold v_i64. rewrite Hk, Ht, Hs, unescape_quoted. reflexivity. }
  exists (raw_to_i64 (un b)). split; auto.
  assert (Eb : v_bool v = Ok (if existsb (beq b) true_words then true else negb (raw_to_i64 (un b) =? 0)%Z)).
  { unfold v_bool. rewrite Ei, Hj. cbn [bind].
    destruct (existsb (beq b) true_words) eqn:E1.
    - apply existsb_beq in E1. cbn [true_words In] in E1.
      repeat (destruct E1 as [<-|E1]; [reflexivity|]). contradiction.
    - assert (E3 : existsb (beq (quoted b)) bool_true_texts = false).
      { apply not_true_iff_false. intros E. apply existsb_beq in E.
        apply not_true_iff_false in E1. apply E1. apply existsb_beq.
        cbn [bool_true_texts In] in E. cbn [true_words In].
        destruct E as [E|[E|E]]; [discriminate|discriminate|].
        repeat (destruct E as [E|E];
          [match type of E with ?l = quoted b => change l with (quoted (removelast (tl l))) in E end;
           apply quoted_inj in E; cbn in E; tauto|]). contradiction. }
      rewrite E3. destruct (existsb (beq (quoted b)) bool_false_texts) eqn:E2; auto.
      apply existsb_beq in E2. cbn [bool_false_texts In] in E2.
      destruct E2 as [E|[E|E]]; [discriminate|discriminate|].
      repeat (destruct E as [E|E];
          [match type of E with ?l = quoted b => change l with (quoted (removelast (tl l))) in E end;
           apply quoted_inj in E; subst b; vm_compute; reflexivity|]). contradiction. }
  rewrite Eb. pose proof (existsb_beq b true_words) as Hw.
  destruct (existsb (beq b) true_words).
  - split; [intuition|]. split; [discriminate|]. intros [H _]. exfalso. apply H, Hw. auto.
  - assert (Hnw : ~ In b true_words) by (intros H; apply Hw in H; discriminate).
    destruct (Z.eqb_spec (raw_to_i64 (un b)) 0) as [E|E]; cbn [negb]; split; split; intros H; auto; try discriminate.
    + destruct H; [contradiction|congruence].
    + destruct H; congruence.
Qed.
Lemma bool_other v c : shows v c -> wf c ->
  match c with CNull | CFalse | CArr _ _ | CObj _ _ => v_bool v = Ok false | CTrue => v_bool v = Ok true | _ => True end.
Proof.
  intros [_ Hj Hk _] _. unfold v_bool, v_i64. rewrite Hj, Hk.
  destruct c; auto; reflexivity.
Qed.

Lemma i32_not_saturating : exists v x,
  v_i64 v = Ok x /\ v_i32 v <> Ok (clamp (-2147483648) 2147483647 x).
Proof.
  exists (mkValue [50;49;52;55;52;56;51;54;52;56]%N [] [] INFO_NUMBER None), 2147483648%Z.
  split; [vm_compute; reflexivity|]. vm_compute. discriminate.
Qed.

Lemma bool_escaped : exists v b s,
  chars b /\ shows v (CStr b) /\ v_str v = Ok s /\ In s true_words /\ v_bool v = Ok false.
Proof.
  exists (tval (CStr [92; 117; 48; 48; 55; 52]%N) None), [92; 117; 48; 48; 55; 52]%N, [116%N].
  assert (C : chars [92; 117; 48; 48; 55; 52]%N)
    by (apply chars_uni; [unfold hex; lia | unfold hex; lia | unfold hex; lia | unfold hex; lia | constructor]).
  split; auto. split; [apply tval_shows; constructor; auto|].
  split; [vm_compute; reflexivity|]. split; [left; reflexivity|]. vm_compute. reflexivity.
Qed.
