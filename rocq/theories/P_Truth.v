(** The outcome of every comparison, and the conversions of every text. *)
From Verif Require Import P_Base M_Util M_Num M_Scan M_Value M_Get P_Num P_LGet P_Str P_Glob P_Parts P_GetArr S_Json S_Str S_Get S_Path S_Query S_Conv S_Num
  S_Float S_Truth P_Query P_Float P_Conv P_Order P_FloatText.
From Coq Require Import Reals Lra SpecFloat.
From Flocq Require Import Core BinarySingleNaN.
Open Scope nat_scope.

(* ---------- right-hand sides ---------- *)

Lemma quoted_len b : length (quoted b) = length b + 2.
Proof. unfold quoted. cbn [length]. rewrite app_length. cbn [length]. lia. Qed.
Lemma existsb_bsl l : existsb (fun c => c =? cBSL)%N l = true <-> In 92%N l.
Proof.
  rewrite existsb_exists. split.
  - intros (x & H & E). apply N.eqb_eq in E. subst x. exact H.
  - intros H. exists 92%N. split; auto.
Qed.
Lemma in_quoted b : In 92%N (quoted b) <-> In 92%N b.
Proof.
  unfold quoted. cbn [In]. rewrite in_app_iff. cbn [In]. split; [intros [H|[H|[H|[]]]]; try discriminate; auto | auto].
Qed.
Lemma query_rhs_shape b : b <> [] ->
  query_rhs (quoted b) = if existsb (fun c => c =? cBSL)%N (quoted b) then unescape (quoted b) else Ok b.
Proof.
  intros Hb. unfold query_rhs. rewrite quoted_len.
  assert (Hl : 0 < length b) by (destruct b; [congruence|cbn [length]; lia]).
  replace (2 <? length b + 2) with true by lia.
  change (idx (quoted b) 0) with (Ok 34%N). cbn [bind]. rewrite usub_ok by lia. cbn [bind].
  assert (Hz : idx (quoted b) (length b + 2 - 1) = Ok 34%N).
  { unfold idx, quoted. replace (length b + 2 - 1) with (S (length b)) by lia. cbn [nth_error].
    rewrite nth_error_app2, Nat.sub_diag by lia. reflexivity. }
  rewrite Hz. cbn [bind]. change ((34 =? cQUOTE) && (34 =? cQUOTE))%N with true. cbv match.
  destruct (existsb _ _); auto. unfold slice. rewrite quoted_len.
  replace ((1 <=? length b + 2 - 1) && (length b + 2 - 1 <=? length b + 2)) with true by lia.
  f_equal. unfold quoted. cbn [skipn]. replace (length b + 2 - 1 - 1) with (length b) by lia.
  rewrite firstn_app, Nat.sub_diag, firstn_all. cbn [firstn]. apply app_nil_r.
Qed.
Lemma query_rhs_other r : (forall b, b <> [] -> r <> quoted b) -> query_rhs r = Ok r.
Proof.
  intros H. unfold query_rhs. destruct (2 <? length r) eqn:El; auto.
  destruct r as [|a [|b r]]; cbn [length] in El; try (exfalso; lia).
  change (idx (a :: b :: r) 0) with (Ok a). cbn [bind]. rewrite usub_ok by (cbn [length]; lia). cbn [bind].
  destruct (idx_lt (a :: b :: r) (length (a :: b :: r) - 1) ltac:(cbn [length]; lia)) as (z & Ez). rewrite Ez. cbn [bind].
  destruct ((a =? cQUOTE) && (z =? cQUOTE))%N eqn:E; auto. exfalso. apply andb_prop in E as [E1 E2].
  apply N.eqb_eq in E1, E2. subst a z.
  assert (Hn : b :: r <> []) by discriminate. destruct (exists_last Hn) as (m & y & Em). rewrite Em in *.
  apply (H m).
  - intros ->. apply (f_equal (@length N)) in Em. cbn in Em. cbn [length] in El. lia.
  - unfold quoted. do 3 f_equal. unfold idx in Ez. cbn [length] in Ez. rewrite app_length in Ez. cbn [length] in Ez.
    replace (S (length m + 1) - 1) with (S (length m)) in Ez by lia. cbn [nth_error] in Ez.
    rewrite nth_error_app2, Nat.sub_diag in Ez by lia. cbn [nth_error] in Ez. congruence.
Qed.
Lemma rhs_query r r1 : rhs_reads r r1 -> query_rhs r = Ok r1.
Proof.
  intros H. inversion H as [b Hb Hi E|b r' Hi Hu E|? Hr E]; subst.
  - rewrite query_rhs_shape by auto. destruct (existsb _ _) eqn:X; auto. apply existsb_bsl in X. apply (proj1 (in_quoted _)) in X. contradiction.
  - assert (b <> []) by (intros ->; destruct Hi). rewrite query_rhs_shape by auto.
    replace (existsb (fun c => c =? cBSL)%N (quoted b)) with true by (symmetry; apply existsb_bsl; apply (proj2 (in_quoted _)); auto). exact Hu.
  - apply query_rhs_other; auto.
Qed.

(* ---------- comparisons by kind ---------- *)

Lemma SFcompare_nan_l y : SFcompare S754_nan y = None.
Proof. destruct y; reflexivity. Qed.
Lemma SFcompare_nan_r x : SFcompare x S754_nan = None.
Proof. destruct x as [s|s| |s m e]; try reflexivity; destruct s; reflexivity. Qed.
Lemma fval_cases x o : valid_binary 53 1024 x = true -> fval x = o ->
  match o with Some y => good x /\ sfv x = y | None => x = S754_nan end.
Proof.
  unfold fval. intros Hv <-. destruct (is_nan_SF x) eqn:E.
  - destruct x; try discriminate. reflexivity.
  - split; [split; auto | reflexivity].
Qed.

Lemma number_compare_any x o r a b : v_kind x = KNumber -> f64_reads (v_json x) a -> f64_reads r b ->
  exists t, query_compare x (norm_op (op_text o)) r = Ok t /\ (t = true <-> number_sat a o b).
Proof.
  intros Hk Hx Hr. unfold query_compare. rewrite Hk. unfold query_number, v_f64. rewrite Hk. cbn [bind].
  apply reads_raw in Hx as [V1 F1]. apply reads_raw in Hr as [V2 F2].
  pose proof (fval_cases _ _ V1 F1) as C1. pose proof (fval_cases _ _ V2 F2) as C2. clear V1 F1 V2 F2.
  set (u := raw_to_f64 (v_json x)) in *. set (w := raw_to_f64 r) in *. clearbody u w.
  assert (Hnan : (u = S754_nan \/ w = S754_nan) ->
     SFeqb u w = false /\ SFltb u w = false /\ SFleb u w = false /\ SFltb w u = false /\ SFleb w u = false).
  { intros [-> | ->]; unfold SFeqb, SFltb, SFleb; rewrite ?SFcompare_nan_l, ?SFcompare_nan_r; auto. }
  assert (Hn : (a = None \/ b = None) -> exists t,
      (if is_op (norm_op (op_text o)) [cEQ] then Ok (SFeqb u w)
       else if is_op (norm_op (op_text o)) [cBANG; cEQ] then Ok (negb (SFeqb u w))
       else if is_op (norm_op (op_text o)) [cLT] then Ok (SFltb u w)
       else if is_op (norm_op (op_text o)) [cLT; cEQ] then Ok (SFleb u w)
       else if is_op (norm_op (op_text o)) [cGT] then Ok (SFltb w u)
       else if is_op (norm_op (op_text o)) [cGT; cEQ] then Ok (SFleb w u) else Ok false) = Ok t /\
      (t = true <-> number_sat a o b)).
  { intros H. destruct Hnan as (N1 & N2 & N3 & N4 & N5); [destruct H; subst; auto|]. rewrite N1, N2, N3, N4, N5.
    assert (Hs : number_sat a o b <-> o = QNe) by (destruct H as [-> | ->]; [|destruct a]; reflexivity).
    destruct o; (eexists; split; [reflexivity|]); rewrite Hs; cbn; intuition congruence. }
  destruct a as [y|]; [|apply Hn; auto]. destruct b as [z|]; [|apply Hn; auto].
  destruct C1 as [G1 <-]. destruct C2 as [G2 <-]. cbn [number_sat]. clear Hn Hnan.
  destruct o; cbn [op_rel]; (eexists; split; [reflexivity|]).
  - apply good_eqb; auto.
  - apply good_eqb; auto.
  - rewrite negb_true_iff, <- good_eqb by auto. destruct (SFeqb _ _); intuition congruence.
  - apply good_ltb; auto.
  - apply good_leb; auto.
  - apply good_ltb; auto.
  - rewrite good_leb by auto. intuition.
  - split; [discriminate | tauto].
  - split; [discriminate | tauto].
Qed.
Lemma bool_compare_any x o a r : v_kind x = bool_kind a ->
  exists t, query_compare x (norm_op (op_text o)) r = Ok t /\ (t = true <-> bool_sat a o r).
Proof.
  intros Hk. unfold query_compare. rewrite Hk. destruct a, o; cbn; (eexists; split; [reflexivity|]);
    rewrite ?negb_true_iff, ?beq_eq; unfold t_true, t_false, lit_true, lit_false; intuition (try congruence).
  all: try (apply Bool.not_true_iff_false; rewrite beq_eq; auto).
  all: match goal with H : beq ?a ?b = false |- False => assert (beq a b = true) by (apply beq_eq; auto); congruence end.
Qed.
Lemma string_compare_any x o s r : v_kind x = KString -> v_str x = Ok s ->
  exists t, query_compare x (norm_op (op_text o)) r = Ok t /\ (t = true <-> string_sat s o r).
Proof.
  intros Hk Hs. destruct (is_like o) eqn:Ho.
  - unfold query_compare. rewrite Hk. unfold query_string. rewrite Hs. cbn [bind].
    destruct (pmatch_exact r s) as (m & Em & Hm).
    destruct o; try discriminate; cbn -[pmatch bare_qm]; rewrite Em; cbn [bind]; (eexists; split; [reflexivity|]).
    + exact Hm.
    + rewrite <- Hm. destruct m; cbn; intuition congruence.
  - destruct (string_compare x o s r Hk Hs Ho) as (t & E & H). exists t. split; auto. rewrite H. destruct o; try discriminate; reflexivity.
Qed.

Theorem holds_any c x q o r r1 : wf c -> asks c x q o r -> trimmed r -> balanced r -> hd 0%N r <> 61%N -> rhs_reads r r1 ->
  (exists a, v_bool x = Ok a) -> (exists s, v_str x = Ok s) ->
  exists t, q_holds c q t /\ (t = true <-> satisfies x o r1).
Proof.
  intros Hc Ha Ht Hb Hh Hr (a & Eb) (s & Es). apply rhs_query in Hr.
  assert (M : exists t, query_matches x (norm_op (op_text o)) r = Ok t /\ (t = true <-> satisfies x o r1)).
  { destruct (N.eq_dec (hd 0%N r1) 126) as [E|E].
    - destruct r1 as [|c1 u]; [discriminate|]. cbn [hd] in E. subst c1.
      set (y := if a then mkValue lit_true [] [] INFO_TRUE None else mkValue lit_false [] [] INFO_FALSE None).
      destruct (bool_compare_any y o a u ltac:(unfold y; destruct a; reflexivity)) as (t & Et & Hs). exists t. split.
      + unfold query_matches. rewrite Hr. cbn [bind]. change (126 =? cTILDE)%N with true. cbv match.
        rewrite Eb. cbn [bind]. fold y. replace (v_exists y) with true by (unfold y; destruct a; reflexivity). cbn [negb].
        rewrite <- Et. destruct o; reflexivity.
      + rewrite Hs. split.
        * intros H. eapply sat_tilde; eauto.
        * intros H. inversion H as [? a' Eb' Hb'|? ? X|? ? ? X|? ? X]; subst; try (cbn in X; congruence).
          assert (a' = a) by congruence. subst a'. exact Hb'.
    - destruct (v_exists x) eqn:Ex.
      + rewrite (query_matches_eq x o r r1) by auto.
        assert (T0 : forall u, r1 <> 126%N :: u) by (intros u ->; apply E; reflexivity).
        destruct (v_kind x) eqn:Ek.
        * exists false. split; [unfold query_compare; rewrite Ek; reflexivity|]. split; [discriminate|].
          intros H. inversion H as [u ? X|? ? X|? ? ? X|? a' X Y Z]; subst; try (destruct (T0 u eq_refl)); try congruence; destruct a'; cbn [bool_kind] in *; congruence.
        * destruct (bool_compare_any x o false r1 Ek) as (t & Et & Hs). exists t. split; auto. rewrite Hs. split.
          -- intros H. eapply (sat_bool x o r1 false); auto.
          -- intros H. inversion H as [u ? X|? ? X|? ? ? X|? a' X Y Z]; subst; try (destruct (T0 u eq_refl)); try congruence.
             destruct a'; cbn [bool_kind] in *; [congruence|]. auto.
        * destruct (reads_total (v_json x)) as (p & Hp). destruct (reads_total r1) as (p' & Hp').
          destruct (number_compare_any x o r1 p p' Ek Hp Hp') as (t & Et & Hs). exists t. split; auto. rewrite Hs. split.
          -- intros H. eapply sat_number; eauto.
          -- intros H. inversion H as [u ? X|? ? X|? ? ? X Y Z F1 F2 F3|? a' X Y Z]; subst; try (destruct (T0 u eq_refl)); try congruence.
             ++ rewrite (reads_unique _ _ _ Hp F1), (reads_unique _ _ _ Hp' F2). exact F3.
             ++ destruct a'; cbn [bool_kind] in *; congruence.
        * destruct (string_compare_any x o s r1 Ek Es) as (t & Et & Hs). exists t. split; auto. rewrite Hs. split.
          -- intros H. eapply sat_string; eauto.
          -- intros H. inversion H as [u ? X|? s' X Y Z F1 F2|? ? ? X|? a' X Y Z]; subst; try (destruct (T0 u eq_refl)); try congruence.
             destruct a'; cbn [bool_kind] in *; congruence.
        * destruct (bool_compare_any x o true r1 Ek) as (t & Et & Hs). exists t. split; auto. rewrite Hs. split.
          -- intros H. eapply (sat_bool x o r1 true); auto.
          -- intros H. inversion H as [u ? X|? ? X|? ? ? X|? a' X Y Z]; subst; try (destruct (T0 u eq_refl)); try congruence.
             destruct a'; cbn [bool_kind] in *; [|congruence]. auto.
        * exists false. split; [unfold query_compare; rewrite Ek; reflexivity|]. split; [discriminate|].
          intros H. inversion H as [u ? X|? ? X|? ? ? X|? a' X Y Z]; subst; try (destruct (T0 u eq_refl)); try congruence; destruct a'; cbn [bool_kind] in *; congruence.
        * exists false. split; [unfold query_compare; rewrite Ek; reflexivity|]. split; [discriminate|].
          intros H. inversion H as [u ? X|? ? X|? ? ? X|? a' X Y Z]; subst; try (destruct (T0 u eq_refl)); try congruence; destruct a'; cbn [bool_kind] in *; congruence.
      + exists false. split.
        * unfold query_matches. rewrite Hr. cbn [bind].
          destruct r1 as [|c1 u].
          -- cbn [bind]. rewrite Ex. reflexivity.
          -- cbn [hd] in E. change cTILDE with 126%N. replace (c1 =? 126)%N with false by lia. cbn [bind]. rewrite Ex. reflexivity.
        * split; [discriminate|]. intros H. inversion H as [u ? X|? ? X|? ? ? X|? a' X]; subst; try congruence. cbn in E. congruence. }
  destruct M as (t & Et & Hs). exists t. split; auto. eapply asks_holds; eauto.
Qed.

(* ---------- conversions of every text ---------- *)

Lemma f64_any v s o : num_text v s -> f64_reads s o ->
  exists x, v_f64 v = Ok x /\ match o with Some y => is_float 53 1024 x /\ float_val 1024 x = y | None => x = S754_nan end.
Proof.
  intros H Hr. destruct (num_text_raw v s H) as (-> & _). eexists. split; [reflexivity|].
  apply reads_raw in Hr as [V F]. exact (fval_cases _ _ V F).
Qed.
Lemma f32_any v s o : num_text v s -> f64_reads s o ->
  exists x, v_f32 v = Ok x /\ match o with Some y => is_float 24 128 x /\ float_val 128 x = f32_val y | None => x = S754_nan end.
Proof.
  intros H Hr. destruct (f64_any v s o H Hr) as (x & E & Hx). destruct o as [y|].
  - destruct Hx as [G <-]. exact (f32_nearest v x E G).
  - subst x. unfold v_f32. rewrite E. eexists. split; reflexivity.
Qed.

Lemma int_text_float s z : int_text s z -> float_text s z 0.
Proof.
  intros [sg neg ds Hs Hd]. pose proof (ft_int sg neg ds [] 0 Hs Hd ev_none) as E. rewrite app_nil_r in E. exact E.
Qed.
Lemma parse_i64_text s : forall z, parse_i64 s = Some z -> int_text s z.
Proof.
  intros z H. destruct s as [|c t]; [discriminate|]. unfold parse_i64 in H. destruct (N.eqb_spec c cMINUS) as [->|].
  - destruct (dec_digits t) as [d|] eqn:Ed; cbn [option_map] in H; [|discriminate]. apply in_range_some in H as [-> _].
    apply dec_digits_inv in Ed as [D ->]. apply (it_int [45%N] true t); auto. right. right. auto.
  - destruct (N.eqb_spec c cPLUS) as [->|].
    + destruct (dec_digits t) as [d|] eqn:Ed; [|discriminate]. apply in_range_some in H as [-> _].
      apply dec_digits_inv in Ed as [D ->]. apply (it_int [43%N] false t); auto. right. left. auto.
    + destruct (dec_digits (c :: t)) as [d|] eqn:Ed; [|discriminate]. apply in_range_some in H as [-> _].
      apply dec_digits_inv in Ed as [D ->]. apply (it_int [] false (c :: t)); auto. left. auto.
Qed.
Lemma parse_u64_text s : forall z, parse_u64 s = Some z -> int_text s z.
Proof.
  intros z H. destruct s as [|c t]; [discriminate|]. unfold parse_u64 in H. destruct (N.eqb_spec c cPLUS) as [->|].
  - destruct (dec_digits t) as [d|] eqn:Ed; [|discriminate]. apply in_range_some in H as [-> _].
    apply dec_digits_inv in Ed as [D ->]. apply (it_int [43%N] false t); auto. right. left. auto.
  - destruct (dec_digits (c :: t)) as [d|] eqn:Ed; [|discriminate]. apply in_range_some in H as [-> _].
    apply dec_digits_inv in Ed as [D ->]. apply (it_int [] false (c :: t)); auto. left. auto.
Qed.
Lemma in_range_ok lo hi z : (lo <= z <= hi)%Z -> in_range lo hi z = Some z.
Proof. intros H. unfold in_range. replace ((lo <=? z) && (z <=? hi))%Z with true by lia. reflexivity. Qed.
Lemma int_text_i64 s z : int_text s z -> (- 2 ^ 63 <= z < 2 ^ 63)%Z -> parse_i64 s = Some z.
Proof.
  intros H Hz. inversion H as [sg neg ds Hs Hd]; subst.
  assert (R : in_range i64_min i64_max (signed neg (digits_val ds)) = Some (signed neg (digits_val ds)))
    by (apply in_range_ok; unfold i64_min, i64_max; lia).
  destruct Hs as [[-> ->]|[[-> ->]|[-> ->]]]; cbn [app signed] in *.
  - destruct (digits_head ds Hd) as (c & t & -> & Hc). unfold parse_i64, digit in *. change cMINUS with 45%N. change cPLUS with 43%N.
    replace (c =? 45)%N with false by lia. replace (c =? 43)%N with false by lia. rewrite dec_digits_val by auto. exact R.
  - unfold parse_i64. change (43 =? cMINUS)%N with false. change (43 =? cPLUS)%N with true. cbv match. rewrite dec_digits_val by auto. exact R.
  - unfold parse_i64. change (45 =? cMINUS)%N with true. cbv match. rewrite dec_digits_val by auto. exact R.
Qed.
Lemma int_text_u64 s z : int_text s z -> (0 <= z < 2 ^ 64)%Z -> raw_to_u64 s = z.
Proof.
  intros H Hz. inversion H as [sg neg ds Hs Hd]; subst. unfold raw_to_u64.
  assert (R : in_range 0 u64_max (signed neg (digits_val ds)) = Some (signed neg (digits_val ds)))
    by (apply in_range_ok; unfold u64_max; lia).
  destruct Hs as [[-> ->]|[[-> ->]|[-> ->]]]; cbn [app signed] in *.
  - destruct (digits_head ds Hd) as (c & t & -> & Hc). unfold parse_u64, digit in *. change cPLUS with 43%N.
    replace (c =? 43)%N with false by lia. rewrite dec_digits_val by auto. rewrite R. reflexivity.
  - unfold parse_u64. change (43 =? cPLUS)%N with true. cbv match. rewrite dec_digits_val by auto. rewrite R. reflexivity.
  - assert (E0 : digits_val ds = 0%Z) by (pose proof (digits_val_nonneg ds (proj2 Hd)); lia).
    assert (P : parse_u64 (45%N :: ds) = None) by reflexivity. rewrite P.
    pose proof (int_text_float _ _ H) as F. cbn [app] in F. rewrite E0 in *.
    pose proof (fr_num _ _ _ F) as Fr. apply reads_raw in Fr as [V Fv]. pose proof (fval_cases _ _ V Fv) as [G S].
    unfold f64_to_u64. rewrite f64_to_int_val by (auto; unfold u64_max; lia). rewrite S.
    change (- 0)%Z with 0%Z. rewrite num_val_z, f64_val_0, Ztrunc_IZR. unfold clamp, u64_max. lia.
Qed.
Lemma int_text_fun s z z' : int_text s z -> int_text s z' -> z = z'.
Proof.
  intros H1 H2. inversion H1 as [sg neg ds Hs Hd]; inversion H2 as [sg' neg' ds' Hs' Hd' E]; subst.
  assert (X : forall c t, digits1 (c :: t) -> (48 <= c <= 57)%N) by (intros c t [_ D]; inversion D; auto).
  destruct Hs as [[-> ->]|[[-> ->]|[-> ->]]], Hs' as [[-> ->]|[[-> ->]|[-> ->]]]; cbn [app] in E; try congruence; subst;
    try (apply X in Hd; lia); try (apply X in Hd'; lia).
Qed.

Lemma raw_i64_any s : (forall z, int_text s z -> raw_to_i64 s = clamp (- 2 ^ 63) (2 ^ 63 - 1) z) /\
  (forall y, (forall z, ~ int_text s z) -> f64_reads s (Some y) -> raw_to_i64 s = clamp (- 2 ^ 63) (2 ^ 63 - 1) (Ztrunc y)) /\
  (f64_reads s None -> raw_to_i64 s = 0%Z).
Proof.
  assert (T : forall y, f64_reads s (Some y) -> parse_i64 s = None -> raw_to_i64 s = clamp (- 2 ^ 63) (2 ^ 63 - 1) (Ztrunc y)).
  { intros y Hy E. unfold raw_to_i64. rewrite E. apply reads_raw in Hy as [V F]. pose proof (fval_cases _ _ V F) as [G <-].
    apply f64_to_int_val; auto; unfold i64_min, i64_max; lia. }
  split; [|split].
  - intros z Hz. destruct (parse_i64 s) as [z'|] eqn:E.
    + pose proof (parse_i64_text s z' E) as H'. pose proof (int_text_fun _ _ _ Hz H'). subst z'. unfold raw_to_i64. rewrite E.
      assert (Hr : (- 2 ^ 63 <= z < 2 ^ 63)%Z).
      { clear - E. destruct s as [|c t]; [discriminate|]. unfold parse_i64 in E.
        match type of E with match ?r with _ => _ end = _ => destruct r; [|discriminate] end.
        apply in_range_some in E as [-> E]. unfold i64_min, i64_max in E. lia. }
      unfold clamp. lia.
    + pose proof (fr_num _ _ _ (int_text_float _ _ Hz)) as Hy. rewrite (T _ Hy eq_refl). rewrite num_val_z.
      assert (D : (- 2 ^ 63 <= z < 2 ^ 63 \/ z < - 2 ^ 63 \/ 2 ^ 63 <= z)%Z) by lia. destruct D as [D|[D|D]].
      * rewrite (int_text_i64 s z Hz D) in E. discriminate.
      * assert (X : (Ztrunc (f64_val (IZR z)) <= - 2 ^ 63)%Z); [|unfold clamp; lia]. apply trunc_le.
        pose proof (f64_val_pow true 63 ltac:(lia)) as W. cbn [signed] in W. rewrite <- W. apply f64_val_mono, IZR_le. lia.
      * assert (X : (2 ^ 63 <= Ztrunc (f64_val (IZR z)))%Z); [|unfold clamp; lia]. apply trunc_ge.
        pose proof (f64_val_pow false 63 ltac:(lia)) as W. cbn [signed] in W. rewrite <- W. apply f64_val_mono, IZR_le. lia.
  - intros y Hn Hy. apply T; auto. destruct (parse_i64 s) as [z|] eqn:E; auto. destruct (Hn z). apply parse_i64_text; auto.
  - intros Hy. pose proof Hy as Hy'. apply reads_raw in Hy as [V F]. pose proof (fval_cases _ _ V F) as En. unfold raw_to_i64.
    destruct (parse_i64 s) as [z|] eqn:E.
    + apply parse_i64_text in E. pose proof (reads_unique _ _ _ Hy' (fr_num _ _ _ (int_text_float _ _ E))). discriminate.
    + rewrite En. reflexivity.
Qed.
Lemma raw_u64_any s : (forall z, int_text s z -> raw_to_u64 s = clamp 0 (2 ^ 64 - 1) z) /\
  (forall y, (forall z, ~ int_text s z) -> f64_reads s (Some y) -> raw_to_u64 s = clamp 0 (2 ^ 64 - 1) (Ztrunc y)) /\
  (f64_reads s None -> raw_to_u64 s = 0%Z).
Proof.
  assert (T : forall y, f64_reads s (Some y) -> parse_u64 s = None -> raw_to_u64 s = clamp 0 (2 ^ 64 - 1) (Ztrunc y)).
  { intros y Hy E. unfold raw_to_u64. rewrite E. apply reads_raw in Hy as [V F]. pose proof (fval_cases _ _ V F) as [G <-].
    apply f64_to_int_val; auto; unfold u64_max; lia. }
  split; [|split].
  - intros z Hz. assert (D : (0 <= z < 2 ^ 64 \/ z < 0 \/ 2 ^ 64 <= z)%Z) by lia. destruct D as [D|D].
    + rewrite (int_text_u64 s z Hz D). unfold clamp. lia.
    + assert (E : parse_u64 s = None).
      { destruct (parse_u64 s) as [z'|] eqn:E; auto. exfalso. pose proof (int_text_fun _ _ _ Hz (parse_u64_text s z' E)). subst z'.
        clear - E D. destruct s as [|c t]; [discriminate|]. unfold parse_u64 in E.
        match type of E with match ?r with _ => _ end = _ => destruct r; [|discriminate] end.
        apply in_range_some in E as [-> E]. unfold u64_max in E. lia. }
      pose proof (fr_num _ _ _ (int_text_float _ _ Hz)) as Hy. rewrite (T _ Hy E). rewrite num_val_z. destruct D as [D|D].
      * assert (X : (Ztrunc (f64_val (IZR z)) <= 0)%Z); [|unfold clamp; lia]. apply trunc_le.
        rewrite <- f64_val_0. apply f64_val_mono, IZR_le. lia.
      * assert (X : (2 ^ 64 <= Ztrunc (f64_val (IZR z)))%Z); [|unfold clamp; lia]. apply trunc_ge.
        pose proof (f64_val_pow false 64 ltac:(lia)) as W. cbn [signed] in W. rewrite <- W. apply f64_val_mono, IZR_le. lia.
  - intros y Hn Hy. apply T; auto. destruct (parse_u64 s) as [z|] eqn:E; auto. destruct (Hn z). apply parse_u64_text; auto.
  - intros Hy. pose proof Hy as Hy'. apply reads_raw in Hy as [V F]. pose proof (fval_cases _ _ V F) as En. unfold raw_to_u64.
    destruct (parse_u64 s) as [z|] eqn:E.
    + apply parse_u64_text in E. pose proof (reads_unique _ _ _ Hy' (fr_num _ _ _ (int_text_float _ _ E))). discriminate.
    + rewrite En. reflexivity.
Qed.
Lemma i64_any v s : num_text v s ->
  (forall z, int_text s z -> v_i64 v = Ok (clamp (- 2 ^ 63) (2 ^ 63 - 1) z)) /\
  (forall y, (forall z, ~ int_text s z) -> f64_reads s (Some y) -> v_i64 v = Ok (clamp (- 2 ^ 63) (2 ^ 63 - 1) (Ztrunc y))) /\
  (f64_reads s None -> v_i64 v = Ok 0%Z).
Proof.
  intros H. destruct (num_text_raw v s H) as (_ & -> & _). destruct (raw_i64_any s) as (H1 & H2 & H3).
  split; [|split]; intros; f_equal; auto.
Qed.
Lemma u64_any v s : num_text v s ->
  (forall z, int_text s z -> v_u64 v = Ok (clamp 0 (2 ^ 64 - 1) z)) /\
  (forall y, (forall z, ~ int_text s z) -> f64_reads s (Some y) -> v_u64 v = Ok (clamp 0 (2 ^ 64 - 1) (Ztrunc y))) /\
  (f64_reads s None -> v_u64 v = Ok 0%Z).
Proof.
  intros H. destruct (num_text_raw v s H) as (_ & _ & ->). destruct (raw_u64_any s) as (H1 & H2 & H3).
  split; [|split]; intros; f_equal; auto.
Qed.

Lemma cmp_numbers_any a b o o' : v_kind a = KNumber -> v_kind b = KNumber -> f64_reads (v_json a) o -> f64_reads (v_json b) o' ->
  exists c, v_cmp a b = Ok c /\ match o, o' with Some x, Some y => cmp_by Rlt x y c | _, _ => c = Eq end.
Proof.
  intros Ka Kb Ha Hb. apply reads_raw in Ha as [V1 F1]. apply reads_raw in Hb as [V2 F2].
  pose proof (fval_cases _ _ V1 F1) as C1. pose proof (fval_cases _ _ V2 F2) as C2. clear V1 F1 V2 F2.
  unfold v_cmp, v_f64. rewrite Ka, Kb. cbn [kind_cmp kind_disc kind_eqb N.compare bind]. eexists. split; [reflexivity|]. unfold f64_lt.
  set (x := raw_to_f64 (v_json a)) in *. set (y := raw_to_f64 (v_json b)) in *.
  destruct o as [p|].
  2:{ rewrite C1. unfold SFltb. cbn [SFcompare]. rewrite SFcompare_nan_r. reflexivity. }
  destruct o' as [q|].
  2:{ rewrite C2. unfold SFltb. cbn [SFcompare]. rewrite SFcompare_nan_r. reflexivity. }
  destruct C1 as [G1 <-]. destruct C2 as [G2 <-].
  pose proof (good_ltb _ _ G1 G2) as L1. pose proof (good_ltb _ _ G2 G1) as L2. unfold cmp_by.
  destruct (SFltb x y) eqn:E1; [|destruct (SFltb y x) eqn:E2].
  - assert (H := proj1 L1 eq_refl). repeat split; intros; try discriminate; auto; lra.
  - assert (H := proj1 L2 eq_refl). repeat split; intros; try discriminate; auto; lra.
  - assert (H1 : ~ (sfv x < sfv y)%R) by (intros H; apply L1 in H; discriminate).
    assert (H2 : ~ (sfv y < sfv x)%R) by (intros H; apply L2 in H; discriminate).
    repeat split; intros; try discriminate; auto; lra.
Qed.
