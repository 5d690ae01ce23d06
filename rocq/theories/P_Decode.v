(** The decoding of every string literal. *)
From Verif Require Import P_Base P_Str P_Utf8 P_Wf P_Taken P_GetMod P_GetValid S_Json S_Get S_Taken S_Decode M_Valid M_Value.

Lemma hex_digit_none c : ~ hex c -> hex_digit c = None.
Proof. unfold hex, hex_digit. intros H. cls; cbn [andb]; try reflexivity; exfalso; lia. Qed.
Lemma hex_dec c : hex c \/ ~ hex c.
Proof. unfold hex. lia. Qed.
Lemma code4_radix a b c d u : code4 a b c d u -> radix [a; b; c; d] = u.
Proof.
  intros H. unfold radix. inversion H as [? ? ? ? Ha Hb Hc Hd|? ? ? Hb Hc Hd|? ? ? ? Hn]; subst.
  - rewrite radix_hex by auto. reflexivity.
  - unfold from_str_radix16. change (43 =? cPLUS)%N with true. cbv match. cbn [hex_digits].
    rewrite (hex_digit_val b), (hex_digit_val c), (hex_digit_val d) by auto. reflexivity.
  - unfold from_str_radix16. change cPLUS with 43%N. destruct (N.eqb_spec a 43) as [->|Ea].
    + destruct (hex_dec b) as [Hb|Hb]; cbn [hex_digits]; [rewrite (hex_digit_val b Hb)|rewrite (hex_digit_none b Hb); reflexivity].
      destruct (hex_dec c) as [Hc|Hc]; [rewrite (hex_digit_val c Hc)|rewrite (hex_digit_none c Hc); reflexivity].
      rewrite (hex_digit_none d) by tauto. reflexivity.
    + cbn [hex_digits].
      destruct (hex_dec a) as [Ha|Ha]; [rewrite (hex_digit_val a Ha)|rewrite (hex_digit_none a Ha); reflexivity].
      destruct (hex_dec b) as [Hb|Hb]; [rewrite (hex_digit_val b Hb)|rewrite (hex_digit_none b Hb); reflexivity].
      destruct (hex_dec c) as [Hc|Hc]; [rewrite (hex_digit_val c Hc)|rewrite (hex_digit_none c Hc); reflexivity].
      rewrite (hex_digit_none d) by tauto. reflexivity.
Qed.
Lemma code4_total a b c d : exists u, code4 a b c d u.
Proof.
  destruct (hex_dec b) as [Hb|Hb]; [|eexists; apply c4_bad; tauto].
  destruct (hex_dec c) as [Hc|Hc]; [|eexists; apply c4_bad; tauto].
  destruct (hex_dec d) as [Hd|Hd]; [|eexists; apply c4_bad; tauto].
  destruct (hex_dec a) as [Ha|Ha]; [eexists; apply c4_hex; auto|].
  destruct (N.eq_dec a 43) as [->|Ea]; [eexists; apply c4_plus; auto|]. eexists. apply c4_bad. left. tauto.
Qed.
Lemma code4_lt a b c d u : code4 a b c d u -> (u < 0x10000)%N.
Proof.
  intros H. inversion H; subst; [apply hex4_val_lt; auto | apply hex4_val_lt; auto; unfold hex; lia | lia].
Qed.
Lemma surrogate_true u : utf16_is_surrogate u = true <-> surrogate u.
Proof. unfold utf16_is_surrogate, surrogate, high_surrogate, low_surrogate. lia. Qed.
Lemma surrogate_dec u : surrogate u \/ ~ surrogate u.
Proof. unfold surrogate, high_surrogate, low_surrogate. lia. Qed.
Lemma lone_char_val u x : (u < 0x110000)%N -> lone_char u x -> char_or_replacement u = x.
Proof.
  intros Hu H. inversion H as [? Hs|? Hs]; subst; unfold char_or_replacement, surrogate, high_surrogate, low_surrogate in *.
  - replace (_ && _) with true by lia. reflexivity.
  - replace (_ && _) with false by lia. reflexivity.
Qed.
Lemma pair_char_val u w x : pair_char u w x -> char_or_replacement (utf16_decode u w) = x.
Proof.
  intros H. inversion H as [? ? Hh Hl Ho|? ? Hh Hl Ho|? ? Hn]; subst.
  - rewrite utf16_decode_eq by auto. rewrite (proj1 (odd_plane_iff u w Hh Hl) Ho). apply char_scalar, pair_value_scalar; auto.
  - rewrite utf16_decode_eq by auto. rewrite (odd_plane_iff u w Hh Hl) in Ho.
    destruct (N.eqb_spec (((u - 55296) / 64) mod 2)%N 0%N) as [E0|E0]; [contradiction|].
    apply char_scalar. unfold high_surrogate, low_surrogate, pair_value, scalar in *.
    assert (X : ((u - 55296) < 64 -> (u - 55296) / 64 = 0)%N) by (intros; apply N.div_small; auto).
    destruct (N.lt_ge_cases (u - 55296)%N 64) as [Y|Y]; [rewrite X in E0 by auto; cbn in E0; congruence|]. lia.
  - unfold utf16_decode. unfold high_surrogate, low_surrogate in Hn. replace (_ && _) with false by lia. reflexivity.
Qed.
Lemma pair_char_bad u x : pair_char u 0xFFFD x -> x = 0xFFFD%N.
Proof. intros H. inversion H; subst; auto; unfold low_surrogate in *; lia. Qed.

Lemma luni_lone h1 h2 h3 h4 u b : code4 h1 h2 h3 h4 u ->
  (surrogate u -> forall l1 l2 l3 l4 b', b <> u_escape l1 l2 l3 l4 ++ b') -> luni (h1 :: h2 :: h3 :: h4 :: b) = Some (u, b).
Proof.
  intros Hc Hn. unfold luni. rewrite (code4_radix _ _ _ _ _ Hc). cbv zeta. destruct (utf16_is_surrogate u) eqn:E; auto.
  apply surrogate_true in E. specialize (Hn E).
  destruct b as [|x0 [|x1 [|e [|f [|g [|h b]]]]]]; auto.
  destruct ((x0 =? 92) && (x1 =? 117))%N eqn:Ex; auto. apply andb_prop in Ex as [E1 E2]. apply N.eqb_eq in E1, E2. subst.
  destruct (Hn e f g h b). reflexivity.
Qed.
Lemma luni_pair h1 h2 h3 h4 u l1 l2 l3 l4 w b : code4 h1 h2 h3 h4 u -> surrogate u -> code4 l1 l2 l3 l4 w ->
  exists r, luni (h1 :: h2 :: h3 :: h4 :: u_escape l1 l2 l3 l4 ++ b) = Some (r, b) /\
    (forall x, pair_char u w x -> char_or_replacement r = x).
Proof.
  intros Hu Hs Hw. unfold luni. rewrite (code4_radix _ _ _ _ _ Hu). cbv zeta. apply surrogate_true in Hs. rewrite Hs.
  cbn [u_escape app]. change ((92 =? 92) && (117 =? 117))%N with true. cbv match.
  apply code4_radix in Hw. unfold radix in Hw. destruct (from_str_radix16 [l1; l2; l3; l4]) as [r2|].
  - subst r2. eexists. split; [reflexivity|]. intros x Hx. apply pair_char_val; auto.
  - subst w. eexists. split; [reflexivity|]. intros x Hx. apply pair_char_bad in Hx. subst x. reflexivity.
Qed.
Lemma un_lone h1 h2 h3 h4 u x b : code4 h1 h2 h3 h4 u -> lone_char u x ->
  (surrogate u -> forall l1 l2 l3 l4 b', b <> u_escape l1 l2 l3 l4 ++ b') ->
  un (u_escape h1 h2 h3 h4 ++ b) = utf8_enc x ++ un b.
Proof.
  intros Hc Hl Hn. cbn [u_escape app]. rewrite (un_uni _ u b) by (apply luni_lone; auto).
  rewrite (lone_char_val u x) by (auto; apply code4_lt in Hc; lia). reflexivity.
Qed.
Lemma un_pair h1 h2 h3 h4 u l1 l2 l3 l4 w x b : code4 h1 h2 h3 h4 u -> surrogate u -> code4 l1 l2 l3 l4 w -> pair_char u w x ->
  un (u_escape h1 h2 h3 h4 ++ u_escape l1 l2 l3 l4 ++ b) = utf8_enc x ++ un b.
Proof.
  intros Hu Hs Hw Hx. destruct (luni_pair h1 h2 h3 h4 u l1 l2 l3 l4 w b Hu Hs Hw) as (r & E & Hr).
  unfold u_escape at 1. cbn [app]. rewrite (un_uni _ _ _ E), (Hr x Hx). reflexivity.
Qed.
Lemma short_escape_none e : ~ short_esc e -> short_escape e = None.
Proof.
  unfold short_esc, short_escape. cbn [In]. intros H.
  repeat match goal with |- (if ?c then _ else _) = None => replace c with false; [|symmetry; apply N.eqb_neq; intros ->; apply H; tauto] end. reflexivity.
Qed.
Lemma short_esc_dec e : short_esc e \/ ~ short_esc e.
Proof. unfold short_esc. destruct (in_dec N.eq_dec e [0x22; 0x5C; 0x2F; 0x62; 0x66; 0x6E; 0x72; 0x74]%N); auto. Qed.

Lemma decodes_un b t : decodes b t -> un b = t.
Proof.
  induction 1 as [|c b Hc|c b t H1 H2 _ IH|e b t He _ IH| |e b H1 H2|b Hb|h1 h2 h3 h4 u x b t Hu Hx Hn _ IH
    |h1 h2 h3 h4 u l1 l2 l3 l4 w x b t Hu Hs Hw Hx _ IH].
  - reflexivity.
  - unfold un. cbn [length lun]. replace (c <? 32)%N with true by lia. reflexivity.
  - rewrite un_plain by auto. congruence.
  - rewrite (un_short _ _ _ (short_escape_val e He)). congruence.
  - reflexivity.
  - unfold un. cbn [length lun]. change (92 <? 32)%N with false. change (92 =? 92)%N with true. cbv match.
    rewrite short_escape_none by auto. replace (e =? 117)%N with false by lia. reflexivity.
  - destruct b as [|? [|? [|? [|? b]]]]; try reflexivity. cbn [length] in Hb. lia.
  - rewrite (un_lone _ _ _ _ u x) by auto. congruence.
  - rewrite (un_pair _ _ _ _ u _ _ _ _ w x) by auto. congruence.
Qed.
Lemma starts_u_dec b : (exists l1 l2 l3 l4 b', b = u_escape l1 l2 l3 l4 ++ b') \/ forall l1 l2 l3 l4 b', b <> u_escape l1 l2 l3 l4 ++ b'.
Proof.
  destruct b as [|x0 [|x1 [|e [|f [|g [|h b]]]]]]; try (right; intros; discriminate).
  destruct (N.eq_dec x0 92) as [->|]; [|right; intros; intros E; injection E as E; congruence].
  destruct (N.eq_dec x1 117) as [->|]; [|right; intros; intros E; injection E as E; congruence].
  left. exists e, f, g, h, b. reflexivity.
Qed.
Lemma decodes_total : forall b, exists t, decodes b t.
Proof.
  intros b. remember (length b) as n eqn:En. revert b En. induction n as [n IH] using (well_founded_induction Wf_nat.lt_wf).
  intros b En. assert (R : forall b', length b' < n -> exists t, decodes b' t) by (intros b' Hb'; eapply IH; eauto). clear IH.
  destruct b as [|c b]; [eexists; constructor|]. cbn [length] in En.
  destruct (N.lt_ge_cases c 32) as [Hc|Hc]; [eexists; apply dc_control; auto|].
  destruct (N.eq_dec c 92) as [->|Hb].
  2:{ destruct (R b) as (t & Ht); [lia|]. eexists. apply dc_plain; eauto. }
  destruct b as [|e b]; [eexists; apply dc_end|]. cbn [length] in En.
  destruct (short_esc_dec e) as [He|He]; [destruct (R b) as (t & Ht); [lia|]; eexists; apply dc_short; eauto|].
  destruct (N.eq_dec e 117) as [->|Hu]; [|eexists; apply dc_unknown; auto].
  destruct b as [|h1 [|h2 [|h3 [|h4 b]]]]; try (eexists; apply dc_cut; cbn; lia). cbn [length] in En.
  destruct (code4_total h1 h2 h3 h4) as (u & Hu). destruct (surrogate_dec u) as [Hs|Hs].
  - destruct (starts_u_dec b) as [(l1 & l2 & l3 & l4 & b' & ->)|Hn].
    + destruct (code4_total l1 l2 l3 l4) as (w & Hw). destruct (R b') as (t & Ht); [rewrite app_length in En; cbn [u_escape length] in En; lia|].
      assert (X : exists x, pair_char u w x).
      { destruct (N.lt_ge_cases u 0xDC00) as [A|A]; [|eexists; apply pc_other; unfold high_surrogate; lia].
        assert (Hh : high_surrogate u) by (unfold surrogate, high_surrogate, low_surrogate in *; lia).
        assert (L : low_surrogate w \/ ~ low_surrogate w) by (unfold low_surrogate; lia).
        destruct L as [L|L]; [|eexists; apply pc_other; tauto].
        destruct (N.eq_dec ((pair_value u w / 0x10000) mod 2) 1) as [O|O]; eexists; [apply pc_odd|apply pc_even]; auto. }
      destruct X as (x & Hx). eexists. eapply (dc_pair h1 h2 h3 h4 u l1 l2 l3 l4 w x b' t); eauto.
    + destruct (R b) as (t & Ht); [lia|]. eexists. apply (dc_lone h1 h2 h3 h4 u 0xFFFD b t); eauto. apply lc_surrogate; auto.
  - destruct (R b) as (t & Ht); [lia|]. eexists. apply (dc_lone h1 h2 h3 h4 u u b t); eauto. apply lc_scalar; auto.
Qed.
Theorem unescape_decodes b : exists t, decodes b t /\ (forall t', decodes b t' -> t' = t) /\ unescape (quoted b) = Ok t.
Proof.
  destruct (decodes_total b) as (t & Ht). exists t. split; auto. pose proof (decodes_un b t Ht) as E. split.
  - intros t' H'. apply decodes_un in H'. congruence.
  - rewrite unescape_quoted, E. reflexivity.
Qed.
Theorem unescape_unquoted s : (forall b, s <> quoted b) -> unescape s = Ok [].
Proof.
  intros H. destruct (unescape_total s) as (t & E). destruct (unescape_shape s t E) as [->|(b & Hb & _)]; auto. destruct (H b Hb).
Qed.

(* ---------- RFC 8259 ---------- *)
Lemma denotes_odd_iff b t : denotes b t -> un b = t -> denotes_odd b t.
Proof.
  unfold denotes, denotes_odd.
  induction 1 as [|c b t Hc _ IH|e b t He _ IH|h1 h2 h3 h4 b t H1 H2 H3 H4 Hs _ IH
    |h1 h2 h3 h4 l1 l2 l3 l4 b t H1 H2 H3 H4 L1 L2 L3 L4 Hh Hl _ _ IH]; intros E.
  - constructor.
  - rewrite un_plain in E by (unfold plain in Hc; lia). injection E as E. constructor; auto.
  - rewrite (un_short _ _ _ (short_escape_val e He)) in E. injection E as E. constructor; auto.
  - assert (Ns : ~ surrogate (hex4_val h1 h2 h3 h4)) by (unfold scalar, surrogate, high_surrogate, low_surrogate in *; lia).
    rewrite (un_lone h1 h2 h3 h4 _ (hex4_val h1 h2 h3 h4) b) in E by (try (apply c4_hex); try (apply lc_scalar); auto; contradiction).
    apply app_inv_head in E. constructor; auto.
  - assert (C1 := c4_hex _ _ _ _ H1 H2 H3 H4). assert (C2 := c4_hex _ _ _ _ L1 L2 L3 L4).
    assert (S1 : surrogate (hex4_val h1 h2 h3 h4)) by (left; auto).
    destruct (N.eq_dec ((pair_value (hex4_val h1 h2 h3 h4) (hex4_val l1 l2 l3 l4) / 0x10000) mod 2) 1) as [O|O].
    + assert (X := pc_odd _ _ Hh Hl O). rewrite (un_pair _ _ _ _ _ _ _ _ _ _ _ b C1 S1 C2 X) in E.
      apply app_inv_head in E. constructor; auto.
    + exfalso. assert (X := pc_even _ _ Hh Hl O). rewrite (un_pair _ _ _ _ _ _ _ _ _ _ _ b C1 S1 C2 X) in E.
      apply utf8_enc_prefix in E as [E _].
      * unfold pair_value in E. lia.
      * rewrite <- (pair_char_val _ _ _ X). apply char_or_replacement_scalar.
      * apply pair_value_scalar; auto.
Qed.
Theorem unescape_rfc_exact b t : denotes b t -> (unescape (quoted b) = Ok t <-> denotes_odd b t).
Proof.
  intros H. split.
  - rewrite unescape_quoted. intros [= E]. apply denotes_odd_iff; auto.
  - apply unescape_denotes_odd.
Qed.

(* ---------- UTF-8 ---------- *)
Lemma utf8_high_ascii p c t : (c < 128)%N -> utf8 (p ++ c :: t) -> utf8 p /\ utf8 (c :: t).
Proof. intros Hc H. apply (utf8_cut _ H p (c :: t)); auto. cbn. unfold cont. lia. Qed.
Lemma utf8_app_iff p t : utf8 p -> (utf8 (p ++ t) <-> utf8 t).
Proof. intros H. split; [apply utf8_app_inv_l; auto | apply utf8_app; auto]. Qed.
Lemma utf8_enc_utf8 x : scalar x -> utf8 (utf8_enc x).
Proof. intros H. rewrite <- (app_nil_r (utf8_enc x)). constructor; auto. constructor. Qed.
Lemma lone_scalar h1 h2 h3 h4 u x : code4 h1 h2 h3 h4 u -> lone_char u x -> scalar x.
Proof. intros Hu Hx. rewrite <- (lone_char_val u x); auto; [apply char_or_replacement_scalar|]. apply code4_lt in Hu. lia. Qed.
Lemma pair_scalar u w x : pair_char u w x -> scalar x.
Proof. intros Hx. rewrite <- (pair_char_val _ _ _ Hx). apply char_or_replacement_scalar. Qed.
Lemma short_not_u : ~ short_esc 117.
Proof. unfold short_esc. cbn. lia. Qed.
Lemma whole_uni h1 h2 h3 h4 b : whole_u (u_escape h1 h2 h3 h4 ++ b) -> utf8 [h1; h2; h3; h4] /\ whole_u b.
Proof.
  intros H. inversion H; subst; auto; try lia; try congruence; exfalso;
    [match goal with X : short_esc 117 |- _ => exact (short_not_u X) end | cbn [length] in *; lia].
Qed.
Lemma whole_plain c b : (0x20 <= c)%N -> c <> 0x5C%N -> whole_u (c :: b) -> whole_u b.
Proof. intros H1 H2 H. inversion H; subst; try lia; try congruence; auto. Qed.
Lemma whole_short e b : short_esc e -> whole_u (92%N :: e :: b) -> whole_u b.
Proof.
  intros H1 H. inversion H; subst; try lia; try congruence; auto; try contradiction; destruct (short_not_u H1).
Qed.
Lemma short_ascii e : short_esc e -> (e < 128 /\ short_val e < 128)%N.
Proof.
  unfold short_esc. cbn [In]. intros H.
  repeat (destruct H as [<-|H]; [vm_compute; auto|]). destruct H.
Qed.
Lemma decodes_cont c b t : cont c -> decodes (c :: b) t -> exists t', t = c :: t'.
Proof. unfold cont. intros Hc H. inversion H; subst; try lia; eauto. Qed.
Lemma after_uni h1 h2 h3 h4 b t : utf8 (u_escape h1 h2 h3 h4 ++ b) -> decodes b t ->
  (utf8 b -> (utf8 t <-> whole_u b)) -> (utf8 t <-> utf8 [h1; h2; h3; h4] /\ whole_u b).
Proof.
  intros Hu Hd IH. change (u_escape h1 h2 h3 h4 ++ b) with ([92; 117]%N ++ [h1; h2; h3; h4] ++ b) in Hu.
  apply utf8_app_ascii_l in Hu; [|repeat (constructor; [lia|]); constructor].
  destruct b as [|c b].
  - assert (X := utf8_cut _ Hu [h1; h2; h3; h4] [] eq_refl I). rewrite IH by (constructor). tauto.
  - assert (D : cont c \/ ~ cont c) by (unfold cont; lia). destruct D as [D|D].
    + destruct (decodes_cont c b t D Hd) as (t' & ->). split.
      * intros H. destruct (utf8_head _ _ H D).
      * intros [H _]. apply utf8_app_inv_l in Hu; auto. destruct (utf8_head _ _ Hu D).
    + destruct (utf8_cut _ Hu [h1; h2; h3; h4] (c :: b) eq_refl D) as [X Y]. rewrite (IH Y). tauto.
Qed.
Lemma decodes_utf8 b t : decodes b t -> forall p, utf8 (p ++ b) -> (utf8 (p ++ t) <-> whole_u b).
Proof.
  induction 1 as [|c b Hc|c b t H1 H2 _ IH|e b t He _ IH| |e b H1 H2|b Hb|h1 h2 h3 h4 u x b t Hu Hx Hn Hd IH
    |h1 h2 h3 h4 u l1 l2 l3 l4 w x b t Hu Hs Hw Hx Hd IH]; intros p Hp.
  - split; [constructor|auto].
  - apply utf8_high_ascii in Hp as [Hp _]; [|lia]. rewrite app_nil_r. split; [intros; apply wu_control; auto|auto].
  - specialize (IH (p ++ [c])). rewrite <- !app_assoc in IH. cbn [app] in IH. rewrite (IH Hp).
    split; [apply wu_plain; auto|apply whole_plain; auto].
  - destruct (short_ascii e He) as [E1 E2].
    apply utf8_high_ascii in Hp as [Hp Hq]; [|lia]. rewrite utf8_app_iff, utf8_ascii_cons by auto.
    rewrite !utf8_ascii_cons in Hq by (auto; lia). rewrite (IH [] Hq).
    split; [apply wu_short; auto|apply whole_short; auto].
  - apply utf8_high_ascii in Hp as [Hp _]; [|lia]. rewrite app_nil_r. split; [intros; apply wu_end; auto|auto].
  - apply utf8_high_ascii in Hp as [Hp _]; [|lia]. rewrite app_nil_r. split; [intros; apply wu_unknown; auto|auto].
  - apply utf8_high_ascii in Hp as [Hp _]; [|lia]. rewrite app_nil_r. split; [intros; apply wu_cut; auto|auto].
  - apply utf8_high_ascii in Hp as [Hp Hq]; [|lia]. rewrite !utf8_app_iff by (auto; apply utf8_enc_utf8; eapply lone_scalar; eauto).
    rewrite (after_uni h1 h2 h3 h4 b t Hq Hd (fun X => IH [] X)). split; [intros []; apply wu_uni; auto|apply whole_uni].
  - apply utf8_high_ascii in Hp as [Hp Hq]; [|lia]. rewrite !utf8_app_iff by (auto; apply utf8_enc_utf8; eapply pair_scalar; eauto).
    split.
    + intros Ht. assert (Q : utf8 [h1; h2; h3; h4] /\ utf8 (u_escape l1 l2 l3 l4 ++ b)).
      { change (utf8 ([92; 117; h1; h2; h3; h4]%N ++ u_escape l1 l2 l3 l4 ++ b)) in Hq.
        destruct (utf8_cut _ Hq [92; 117; h1; h2; h3; h4]%N (u_escape l1 l2 l3 l4 ++ b) eq_refl) as [A B]; [cbn; unfold cont; lia|].
        split; auto. apply (utf8_app_ascii_l [92; 117]%N [h1; h2; h3; h4]); [repeat (constructor; [lia|]); constructor|exact A]. }
      destruct Q as [Q1 Q2]. apply (proj1 (after_uni l1 l2 l3 l4 b t Q2 Hd (fun X => IH [] X))) in Ht as [T1 T2].
      apply wu_uni; auto. apply wu_uni; auto.
    + intros W. apply whole_uni in W as [W1 W2]. apply (utf8_app_inv_l [92; 117; h1; h2; h3; h4]%N) in Hq.
      2:{ apply (utf8_app_ascii_l [92; 117]%N); [repeat (constructor; [lia|]); constructor|auto]. }
      apply (after_uni l1 l2 l3 l4 b t Hq Hd (fun X => IH [] X)). apply whole_uni; auto.
Qed.
Theorem unescape_utf8_exact b t : utf8 b -> unescape (quoted b) = Ok t -> (utf8 t <-> whole_u b).
Proof.
  intros Hb E. destruct (unescape_decodes b) as (t' & Hd & _ & E'). rewrite E in E'. injection E' as <-.
  exact (decodes_utf8 b t Hd [] Hb).
Qed.

Theorem str_decodes json v : valid json = Ok true -> taken json v -> v_kind v = KString ->
  exists b t, chars b /\ v_json v = quoted b /\ v_str v = Ok t /\ decodes b t.
Proof.
  intros Hv Ht Hk. destruct (taken_str json v Hv Ht) as [(X & _)|(c & Hc & K & S)].
  { destruct (taken_presents json v Hv Ht) as [(_ & K & _)|(c & _ & [P1 _ _ _])]; congruence. }
  rewrite Hk in K. destruct c as [| | |n|b|w es|w ms]; try discriminate. cbn [kind_of] in S. destruct S as [S1 S2].
  destruct (unescape_decodes b) as (t & Hd & _ & E). exists b, t. cbn [text_of] in S2. rewrite S2.
  refine (conj _ (conj S1 (conj E Hd))). inversion Hc; auto.
Qed.
