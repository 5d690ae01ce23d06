(** Facts about well-formed UTF-8, and the UTF-8 half of unescape. *)
From Verif Require Export P_Str.

Definition cont (c : N) : Prop := (128 <= c < 192)%N.
Definition tail_len (h : N) : nat :=
  if (h <? 128)%N then 0 else if (h <? 224)%N then 1 else if (h <? 240)%N then 2 else 3.

Lemma utf8_enc_shape u : scalar u -> exists h t, utf8_enc u = h :: t /\ length t = tail_len h /\
  Forall cont t /\ ((u < 128 /\ h = u)%N \/ (192 <= h < 248)%N /\ t <> []).
Proof.
  intros Hs. unfold scalar in Hs. unfold utf8_enc.
  assert (D : forall x, exists q r, (x / 64 = q /\ x mod 64 = r /\ x = 64 * q + r /\ r < 64)%N).
  { intros x. exists (x / 64)%N, (x mod 64)%N. repeat split; auto.
    - apply N.div_mod. discriminate.
    - apply N.mod_lt. discriminate. }
  replace (u / 4096)%N with (u / 64 / 64)%N by (rewrite N.div_div by discriminate; reflexivity).
  replace (u / 262144)%N with (u / 64 / 64 / 64)%N by (rewrite !N.div_div by discriminate; reflexivity).
  destruct (D u) as (q1 & r1 & -> & -> & E1 & H1).
  destruct (D q1) as (q2 & r2 & -> & -> & E2 & H2).
  destruct (D q2) as (q3 & r3 & -> & -> & E3 & H3). clear D.
  unfold tail_len, cont.
  destruct (u <? 128)%N eqn:A.
  { exists u, []. rewrite A. repeat split; auto. left. lia. }
  destruct (u <? 2048)%N eqn:B.
  { do 2 eexists. split; [reflexivity|].
    replace (192 + q1 <? 128)%N with false by lia. replace (192 + q1 <? 224)%N with true by lia.
    repeat split; auto; [repeat constructor; lia|]. right. split; [lia|discriminate]. }
  destruct (u <? 65536)%N eqn:C.
  { do 2 eexists. split; [reflexivity|].
    replace (224 + q2 <? 128)%N with false by lia. replace (224 + q2 <? 224)%N with false by lia.
    replace (224 + q2 <? 240)%N with true by lia.
    repeat split; auto; [repeat constructor; lia|]. right. split; [lia|discriminate]. }
  do 2 eexists. split; [reflexivity|].
  replace (240 + q3 <? 128)%N with false by lia. replace (240 + q3 <? 224)%N with false by lia.
  replace (240 + q3 <? 240)%N with false by lia.
  repeat split; auto; [repeat constructor; lia|]. right. split; [lia|discriminate].
Qed.

Lemma app_inj_len {A} (a b c d : list A) : length a = length b -> a ++ c = b ++ d -> a = b /\ c = d.
Proof.
  revert b; induction a as [|x a IH]; intros [|y b]; simpl; intros Hl E; try discriminate; auto.
  injection Hl as Hl. injection E as -> E. destruct (IH b Hl E) as [-> ->]. auto.
Qed.

Lemma utf8_enc_prefix u v a b : scalar u -> scalar v ->
  utf8_enc u ++ a = utf8_enc v ++ b -> u = v /\ a = b.
Proof.
  intros Hu Hv E.
  destruct (utf8_enc_shape u Hu) as (h & t & Eu & Lu & _).
  destruct (utf8_enc_shape v Hv) as (h' & t' & Ev & Lv & _).
  rewrite Eu, Ev in E. cbn [app] in E. injection E as -> E.
  apply app_inj_len in E as [-> ->]; [|congruence].
  split; auto. apply utf8_enc_inj. congruence.
Qed.

Lemma utf8_enc_nonnil u : scalar u -> utf8_enc u <> [].
Proof. intros Hu. destruct (utf8_enc_shape u Hu) as (h & t & -> & _). discriminate. Qed.

Lemma utf8_app a b : utf8 a -> utf8 b -> utf8 (a ++ b).
Proof. induction 1; simpl; auto. intros. rewrite <- app_assoc. constructor; auto. Qed.

Lemma utf8_app_inv_l a b : utf8 a -> utf8 (a ++ b) -> utf8 b.
Proof.
  induction 1 as [|u t Hu Ht IH]; simpl; auto. intros H. apply IH.
  rewrite <- app_assoc in H. inversion H as [E|v t' Hv Ht' E].
  { symmetry in E. apply app_eq_nil in E as [E _]. destruct (utf8_enc_nonnil u Hu E). }
  apply utf8_enc_prefix in E as [_ E]; auto. subst t'. auto.
Qed.

(** A UTF-8 string may be cut before any byte that is not a continuation byte. *)
Definition boundary (b : bytes) : Prop := match b with [] => True | c :: _ => ~ cont c end.

Lemma utf8_cut s : utf8 s -> forall a b, s = a ++ b -> boundary b -> utf8 a /\ utf8 b.
Proof.
  induction 1 as [|u t Hu Ht IH]; intros a b E Hb.
  - symmetry in E. apply app_eq_nil in E as [-> ->]. split; constructor.
  - destruct (app_eq_app _ _ _ _ E) as (l & [[E1 E2]|[E1 E2]]).
    + (* enc u = a ++ l, b = l ++ t *)
      destruct (utf8_enc_shape u Hu) as (h & tl & Eu & _ & Hc & _).
      destruct a as [|x a].
      { subst b. simpl in E1. subst l. split; constructor; auto. }
      destruct l as [|y l].
      { rewrite app_nil_r in E1. simpl in E2. subst. split; auto.
        rewrite <- E1, <- (app_nil_r (utf8_enc u)). constructor; auto. constructor. }
      exfalso. rewrite Eu in E1. injection E1 as -> E1. subst tl b. simpl in Hb.
      apply Forall_app in Hc as [_ Hc]. inversion Hc; auto.
    + destruct (IH l b E2 Hb) as [H1 H2]. split; auto. rewrite E1. constructor; auto.
Qed.

Lemma utf8_ascii_cons c t : (c < 128)%N -> (utf8 (c :: t) <-> utf8 t).
Proof.
  intros Hc. assert (E : utf8_enc c = [c]) by (unfold utf8_enc; replace (c <? 128)%N with true by lia; auto).
  split; intros H.
  - apply (utf8_app_inv_l [c]); auto. rewrite <- E, <- (app_nil_r (utf8_enc c)).
    constructor; [unfold scalar; lia | constructor].
  - change (c :: t) with ([c] ++ t). rewrite <- E. constructor; auto. unfold scalar; lia.
Qed.

Lemma utf8_ascii a : Forall (fun c => (c < 128)%N) a -> utf8 a.
Proof. induction 1; [constructor|]. apply utf8_ascii_cons; auto. Qed.

Lemma utf8_app_ascii_l a t : Forall (fun c => (c < 128)%N) a -> (utf8 (a ++ t) <-> utf8 t).
Proof. induction 1; simpl; [tauto|]. rewrite utf8_ascii_cons; auto. Qed.

Lemma utf8_quoted b : utf8 (quoted b) <-> utf8 b.
Proof.
  unfold quoted. rewrite utf8_ascii_cons by lia. split; intros H.
  - eapply (utf8_cut _ H b [34%N]); auto. simpl. unfold cont; lia.
  - apply utf8_app; auto. apply utf8_ascii. repeat constructor.
Qed.

(* ---------- unescape ---------- *)

Lemma char_or_replacement_scalar r : scalar (char_or_replacement r).
Proof. unfold char_or_replacement, scalar. destruct (_ && _) eqn:E; lia. Qed.

Lemma un_high a t : Forall (fun c => (128 <= c)%N) a -> un (a ++ t) = a ++ un t.
Proof. induction 1; simpl; auto. rewrite un_plain by lia. congruence. Qed.
Lemma u_ascii_high a t : Forall (fun c => (128 <= c)%N) a -> u_ascii (a ++ t) -> u_ascii t.
Proof.
  induction 1 as [|c a Hc _ IH]; simpl; auto. intros H; inversion H; subst; try lia. auto.
Qed.

Lemma un_control c t : (c < 32)%N -> un (c :: t) = [].
Proof. intros. unfold un. cbn [lun]. replace (c <? 32)%N with true by lia. reflexivity. Qed.
Lemma un_bs : un [92%N] = [].
Proof. reflexivity. Qed.
Lemma un_bad e t : short_escape e = None -> e <> 117%N -> un (92%N :: e :: t) = [].
Proof.
  intros H1 H2. unfold un.
  transitivity (match short_escape e with
     | Some x => x :: lun (S (S (length t))) t
     | None => if (e =? 117)%N then match luni t with
         | Some (r, t2) => encode_utf8 (char_or_replacement r) ++ lun (S (S (length t))) t2
         | None => [] end else [] end); [reflexivity|].
  rewrite H1. replace (e =? 117)%N with false by lia. reflexivity.
Qed.
Lemma un_uni_none t : luni t = None -> un (92%N :: 117%N :: t) = [].
Proof.
  intros H. unfold un.
  change (lun (S (length (92%N :: 117%N :: t))) (92%N :: 117%N :: t)) with
    (match luni t with
     | Some (r, t2) => encode_utf8 (char_or_replacement r) ++ lun (S (S (length t))) t2
     | None => [] end).
  rewrite H. reflexivity.
Qed.
Lemma short_escape_lt e x : short_escape e = Some x -> (x < 128 /\ e < 128)%N /\ e <> 117%N.
Proof.
  unfold short_escape. 
  repeat match goal with |- context [(e =? ?n)%N] => destruct (N.eqb_spec e n); [intros [= <-]; lia|] end.
  discriminate.
Qed.

Lemma un_utf8 : forall n b, length b <= n -> utf8 b -> u_ascii b -> utf8 (un b).
Proof.
  induction n as [|n IH]; intros b Hn Hb Hu.
  { destruct b; [constructor | simpl in Hn; lia]. }
  destruct b as [|c t]; [constructor|]. simpl in Hn.
  destruct (N.lt_ge_cases c 128) as [Hc|Hc].
  - apply utf8_ascii_cons in Hb; auto.
    destruct (N.lt_ge_cases c 32) as [H32|H32]. { rewrite un_control by auto. constructor. }
    inversion Hu; subst.
    + rewrite un_plain by auto. apply utf8_ascii_cons; auto. apply IH; auto. lia.
    + rewrite un_bs. constructor.
    + destruct (short_escape e) as [x|] eqn:E.
      * rewrite (un_short _ _ _ E). apply short_escape_lt in E as [[Ex Ee] _].
        apply utf8_ascii_cons in Hb; auto. simpl in Hn.
        apply utf8_ascii_cons; auto. apply IH; auto. lia.
      * rewrite un_bad by auto. constructor.
    + simpl in Hn.
      assert (Hb' : utf8 t0).
      { apply (utf8_app_ascii_l [117%N; a; b; c0; d]); [repeat (constructor; [lia|]); constructor | exact Hb]. }
      clear Hb. rename Hb' into Hb.
      destruct (luni (a :: b :: c0 :: d :: t0)) as [(r, t2)|] eqn:E.
      2:{ rewrite un_uni_none by auto. constructor. }
      rewrite (un_uni _ _ _ E), encode_utf8_enc.
      constructor; [apply char_or_replacement_scalar|].
      unfold luni in E. destruct (utf16_is_surrogate (radix [a; b; c0; d])).
      2:{ injection E as <- <-. apply IH; auto. lia. }
      destruct t0 as [|x0 [|x1 [|e [|f [|g [|h t0]]]]]]; try (injection E as <- <-; apply IH; auto; lia).
      destruct ((x0 =? 92) && (x1 =? 117))%N eqn:Ex; injection E as <- <-; [|apply IH; auto; lia].
      assert (x0 = 92 /\ x1 = 117)%N as [-> ->] by lia.
      match goal with H : u_ascii (92%N :: 117%N :: _) |- _ => inversion H; subst; try congruence end;
        [|simpl in *; lia].
      simpl in Hn. apply IH; auto; [lia|].
      apply (utf8_app_ascii_l [92%N; 117%N; e; f; g; h]); [repeat (constructor; [lia|]); constructor | exact Hb].
    + rewrite un_uni_none; [constructor|].
      destruct t0 as [|x0 [|x1 [|e [|f t0]]]]; auto. simpl in *. lia.
  - inversion Hb as [|u t' Hsu Ht' E].
    assert (HF : Forall (fun c => (128 <= c)%N) (utf8_enc u)).
    { destruct (utf8_enc_shape u Hsu) as (h & tl & Eu & _ & Hcn & Hh). rewrite Eu in *.
      injection E as -> _. constructor; auto.
      eapply Forall_impl; [|exact Hcn]. unfold cont. intros; simpl in *; lia. }
    rewrite <- E in Hu. rewrite un_high by auto. constructor; auto.
    apply IH; auto; [|eapply u_ascii_high; eauto].
    assert (length (c :: t) = length (utf8_enc u ++ t')) as HL by congruence.
    rewrite app_length in HL. simpl in HL. pose proof (utf8_enc_nonnil u Hsu).
    destruct (utf8_enc u); [congruence|]. simpl in HL. lia.
Qed.

Lemma unescape_shape s t : unescape s = Ok t -> t = [] \/ exists b, s = quoted b /\ t = un b.
Proof.
  intros H. destruct s as [|a s]. { injection H as <-. auto. }
  destruct s as [|z s] using rev_ind. { cbn in H. injection H as <-. auto. } clear IHs.
  unfold unescape in H. cbn [length] in H. rewrite app_length in H. cbn [length] in H.
  replace (S (length s + 1) <? 2) with false in H by (symmetry; apply Nat.ltb_ge; lia).
  cbn [idx nth_error bind] in H. destruct (a =? 34)%N eqn:Ea; cbn [negb] in H.
  2:{ injection H as <-. auto. }
  assert (a = 34)%N as -> by lia.
  rewrite usub_ok in H by lia. cbn [bind] in H.
  replace (S (length s + 1) - 1) with (S (length s)) in H by lia.
  unfold idx at 1 in H. cbn [nth_error] in H. rewrite nth_error_app2, Nat.sub_diag in H by lia.
  cbn [nth_error bind] in H. destruct (z =? 34)%N eqn:Ez; cbn [negb] in H.
  2:{ injection H as <-. auto. }
  assert (z = 34)%N as -> by lia.
  right. exists s. split; [reflexivity|].
  pose proof (unescape_quoted s) as Hq. unfold unescape in Hq. unfold quoted in Hq.
  cbn [length] in Hq. rewrite app_length in Hq. cbn [length] in Hq.
  replace (S (length s + 1) <? 2) with false in Hq by (symmetry; apply Nat.ltb_ge; lia).
  cbn [idx nth_error bind N.eqb Pos.eqb negb] in Hq.
  rewrite usub_ok in Hq by lia. cbn [bind] in Hq.
  replace (S (length s + 1) - 1) with (S (length s)) in Hq by lia.
  unfold idx at 1 in Hq. cbn [nth_error] in Hq. rewrite nth_error_app2, Nat.sub_diag in Hq by lia.
  cbn [nth_error bind N.eqb Pos.eqb negb] in Hq. congruence.
Qed.

Lemma chars_u_ascii b : chars b -> u_ascii b.
Proof.
  induction 1 as [|c t Hc _ IH|e t He _ IH|a b c d t Ha Hb Hc Hd _ IH].
  - constructor.
  - apply ua_other; auto. unfold plain in Hc; lia.
  - apply ua_esc; auto. unfold short_esc in He. cbn in He. lia.
  - unfold hex in *. apply ua_uni; auto; lia.
Qed.

Lemma unescape_utf8 b t : utf8 (quoted b) -> u_ascii b -> unescape (quoted b) = Ok t -> utf8 t.
Proof.
  intros H1 H2 H3. rewrite unescape_quoted in H3. injection H3 as <-.
  apply (proj1 (utf8_quoted b)) in H1. apply (un_utf8 (length b)); auto.
Qed.

Lemma unescape_utf8_literal s t : json_value s -> utf8 s -> unescape s = Ok t -> utf8 t.
Proof.
  intros Hv Hs Hu. destruct (unescape_shape s t Hu) as [->|(b & -> & ->)]; [constructor|].
  apply (proj1 (utf8_quoted b)) in Hs. apply (un_utf8 (length b)); auto. apply chars_u_ascii.
  inversion Hv as [| | |n Hn E|b' Hb E| | | | ].
  - exfalso. destruct (lnum_complete (quoted b) [] Hn I) as (c & t & En & Hc & _).
    injection En as <- _. cbn in Hc. discriminate.
  - apply app_inj_tail in E as [E _]. subst. auto.
Qed.

Lemma utf8_head c t : utf8 (c :: t) -> ~ cont c.
Proof.
  intros H. inversion H as [|u t' Hu Ht E].
  destruct (utf8_enc_shape u Hu) as (h & tl & Eu & _ & _ & Hh). rewrite Eu in E.
  injection E as -> _. unfold cont. lia.
Qed.

(** The literal: quote, backslash, u123, e-acute, quote. *)
Lemma unescape_not_utf8 : exists s t, utf8 s /\ unescape s = Ok t /\ ~ utf8 t.
Proof.
  exists ([34; 92; 117; 49; 50; 51] ++ utf8_enc 233 ++ [34])%N, (utf8_enc 0xFFFD ++ [0xA9])%N.
  split; [|split].
  - apply utf8_app_ascii_l; [repeat (constructor; [lia|]); constructor|].
    constructor; [unfold scalar; lia|]. apply utf8_ascii. repeat constructor.
  - vm_compute. reflexivity.
  - intros H. apply utf8_app_inv_l in H.
    + apply utf8_head in H. unfold cont in H. lia.
    + rewrite <- (app_nil_r (utf8_enc _)). constructor; [unfold scalar; lia | constructor].
Qed.

(** U+20000 as a surrogate pair. *)
Lemma unescape_even_plane : exists b t, denotes b t /\ utf8 b /\ unescape (quoted b) <> Ok t.
Proof.
  exists (u_escape 100 56 52 48 ++ u_escape 100 99 48 48 ++ [])%N.
  exists (utf8_enc (pair_value (hex4_val 100 56 52 48) (hex4_val 100 99 48 48)) ++ [])%N.
  split; [|split].
  - apply den_pair; try (unfold hex; lia).
    + vm_compute; split; congruence.
    + vm_compute; split; congruence.
    + apply den_nil.
  - apply utf8_ascii. repeat (constructor; [lia|]). constructor.
  - vm_compute. discriminate.
Qed.

Lemma escape_json_string s :
  valid (escape s) = Ok true
  /\ (exists b, chars b /\ escape s = quoted b)
  /\ Forall (fun c => (0x20 <= c)%N) (escape s)
  /\ (Forall plain s -> escape s = quoted s).
Proof.
  split; [apply escape_valid|]. split; [|split; [apply escape_no_control|apply escape_plain]].
  exists (flat_map escape_byte s). split; [apply escape_chars | reflexivity].
Qed.

Lemma unescape_denotes_odd b t : denotes_odd b t -> unescape (quoted b) = Ok t.
Proof. intros H. rewrite unescape_quoted, (un_denotes b t H). reflexivity. Qed.

Lemma unescape_utf8_cases s t :
  utf8 s -> (json_value s \/ exists b, s = quoted b /\ u_ascii b) -> unescape s = Ok t -> utf8 t.
Proof.
  intros Hs [Hv|(b & -> & Hb)] Hu; [eapply unescape_utf8_literal | eapply unescape_utf8]; eauto.
Qed.
