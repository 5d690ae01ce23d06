(** Parsing the text of a value again. *)
From Coq Require Import String List.
From Verif Require Import M_Base M_Util M_Num M_Value M_Get S_Json S_Api S_Same P_Base P_Scan P_Each P_Total P_Reach P_ModDoc P_Num.

Import ListNotations.
Open Scope list_scope.

Section Fields.
Context (a b : value) (J : v_json a = v_json b) (K : v_kind a = v_kind b)
  (T : v_kind a = KString -> string_text a = string_text b) (S : v_str a = v_str b).
Lemma fields_same : same_answers a b.
Proof using J K T S.
  assert (E : v_exists a = v_exists b) by (unfold v_exists; rewrite J; reflexivity).
  assert (F : v_f64 a = v_f64 b) by (unfold v_f64; rewrite <- K, J; destruct (v_kind a); auto; rewrite T; auto).
  assert (I : v_i64 a = v_i64 b) by (unfold v_i64; rewrite <- K, J; destruct (v_kind a); auto; rewrite T; auto).
  assert (N : v_u64 a = v_u64 b) by (unfold v_u64; rewrite <- K, J; destruct (v_kind a); auto; rewrite T; auto).
  constructor; auto.
  - unfold v_bool. rewrite J, I. reflexivity.
  - unfold v_f32. rewrite F. reflexivity.
  - unfold v_i32. rewrite I. reflexivity.
  - unfold v_i16. rewrite I. reflexivity.
  - unfold v_i8. rewrite I. reflexivity.
  - unfold v_u32. rewrite N. reflexivity.
  - unfold v_u16. rewrite N. reflexivity.
  - unfold v_u8. rewrite N. reflexivity.
  - rewrite !v_array_spec, J, K. reflexivity.
  - intros Hc. rewrite !v_each_spec, E, <- K, J. destruct Hc as [-> | ->]; reflexivity.
  - intros x. unfold v_cmp. rewrite K, S, F, J. reflexivity.
Qed.
End Fields.

Lemma veq_same a b : veq a b -> same_answers a b.
Proof.
  intros (J & U & I). assert (K : v_kind a = v_kind b) by (unfold v_kind; rewrite I; reflexivity). apply fields_same; auto.
  - intros _. unfold string_text. rewrite I, J. reflexivity.
  - unfold v_str. rewrite K, I, J, U. reflexivity.
Qed.
Lemma self_same v : self_text v -> same_answers v (lparse (v_json v)).
Proof.
  intros (J & K & E). apply fields_same; auto.
  - intros Hk. destruct (E Hk) as [E1 _]. unfold string_text. rewrite E1, J. reflexivity.
  - unfold v_str. rewrite K, J. destruct (v_kind v) eqn:Ek; auto. destruct (E eq_refl) as [E1 E2]. rewrite E1, E2. reflexivity.
Qed.

Theorem parse_again v : returned v -> v_exists v = true -> exists x, parse (v_json v) = Ok x /\ same_answers v x.
Proof.
  intros H He. exists (lparse (v_json v)). split; [apply parse_spec|]. apply self_same, (w_text _ (returned_Wv _ H)), He.
Qed.

Theorem vget_text v p : returned v -> same_outcome (v_get v p) (get (v_json v) p).
Proof.
  intros H. pose proof (v_get_like v p (w_one _ (returned_Wv _ H))) as L.
  destruct (v_get v p) as [x|e], (get (v_json v) p) as [y|f]; cbn in L; try contradiction; cbn; auto. apply veq_same, L.
Qed.

(** Values with the same text are the same. *)
Lemma same_sym a b : same_answers a b -> same_answers b a.
Proof.
  intros [A1 A2 A3 A4 A5 A6 A7 A8 A9 A10 A11 A12 A13 A14 A15 A16 A17 A18]. constructor; auto. intros H. symmetry. apply A17. rewrite A3. auto.
Qed.
Lemma same_trans a b c : same_answers a b -> same_answers b c -> same_answers a c.
Proof.
  intros [A1 A2 A3 A4 A5 A6 A7 A8 A9 A10 A11 A12 A13 A14 A15 A16 A17 A18] [B1 B2 B3 B4 B5 B6 B7 B8 B9 B10 B11 B12 B13 B14 B15 B16 B17 B18].
  constructor; try congruence.
  - intros H. rewrite A17, B17; auto. rewrite <- A3. auto.
Qed.
Theorem text_decides a b : returned a -> returned b -> v_exists a = true -> v_json a = v_json b ->
  same_answers a b /\ forall p, same_outcome (v_get a p) (v_get b p).
Proof.
  intros Ha Hb He E. assert (He' : v_exists b = true) by (unfold v_exists in *; rewrite <- E; exact He). split.
  - destruct (parse_again a Ha He) as (x & Ex & Sx). destruct (parse_again b Hb He') as (y & Ey & Sy).
    assert (x = y) as <- by congruence. eapply same_trans; [exact Sx|]. apply same_sym, Sy.
  - intros p. pose proof (vget_text a p Ha) as La. pose proof (vget_text b p Hb) as Lb. rewrite <- E in Lb.
    destruct (v_get a p) as [x|e], (get (v_json a) p) as [y|f], (v_get b p) as [z|g]; cbn in *; try contradiction; try congruence.
    eapply same_trans; [exact La|]. apply same_sym, Lb.
Qed.

Lemma missing_kind : exists v, returned v /\ v_exists v = false /\ forall x, parse (v_json v) = Ok x -> v_kind x <> v_kind v.
Proof.
  eexists. split; [apply (ret_parse (34%N :: bs "abc")); vm_compute; reflexivity|]. split; [reflexivity|].
  intros x E. vm_compute in E. injection E as <-. discriminate.
Qed.

Lemma bool_number_any v x : returned v -> v_exists v = true -> v_kind v = KNumber -> v_i64 v = Ok x -> v_bool v = Ok (negb (x =? 0)%Z).
Proof.
  intros H He Hk E. destruct (w_text _ (returned_Wv _ H) He) as (_ & K & _). rewrite Hk in K.
  unfold v_bool. rewrite E. cbn [bind]. unfold v_i64 in E. rewrite Hk in E. injection E as <-.
  destruct (existsb (beq (v_json v)) bool_true_texts) eqn:E1.
  - apply existsb_beq in E1. cbn [bool_true_texts In] in E1.
    repeat (destruct E1 as [E1|E1]; [rewrite <- E1 in *; first [discriminate K | reflexivity]|]). contradiction.
  - destruct (existsb (beq (v_json v)) bool_false_texts) eqn:E2; auto.
    apply existsb_beq in E2. cbn [bool_false_texts In] in E2.
    repeat (destruct E2 as [E2|E2]; [rewrite <- E2 in *; first [discriminate K | reflexivity]|]). contradiction.
Qed.
