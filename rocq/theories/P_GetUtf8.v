(** Results on valid UTF-8 documents are UTF-8. *)
From Verif Require Import P_Base P_Json P_Valid P_ValidSpec P_Str P_Utf8 P_Glob P_Scan P_Each P_Doc P_Path P_LGet P_Parts P_Ext P_Total P_Value P_Num
  P_Key P_Find P_GetDoc P_GetArr P_Stream P_Closed M_Util M_Num M_Scan M_Value M_Path M_Get S_Json S_Str S_Get S_Path S_Follow.

(* ---------- cutting UTF-8 at ASCII bytes ---------- *)

Lemma utf8_iff a b : boundary b -> utf8 (a ++ b) <-> utf8 a /\ utf8 b.
Proof.
  intros Hb. split; [intros H; exact (utf8_cut _ H a b eq_refl Hb) | intros [H1 H2]; apply utf8_app; auto].
Qed.
Lemma utf8_mid a x b : (x < 128)%N -> utf8 (a ++ x :: b) <-> utf8 a /\ utf8 b.
Proof.
  intros Hx. rewrite utf8_iff by (cbn; unfold cont; lia). rewrite (utf8_ascii_cons x b Hx). reflexivity.
Qed.
Lemma utf8_after a x b : (x < 128)%N -> utf8 ((a ++ [x]) ++ b) -> utf8 (a ++ [x]) /\ utf8 b.
Proof.
  intros Hx H. rewrite <- app_assoc in H. cbn [app] in H. apply utf8_mid in H as [H1 H2]; auto. split; auto.
  apply utf8_app; auto. apply utf8_ascii. constructor; [exact Hx | constructor].
Qed.
Lemma ws_ascii w : ws w -> Forall (fun c => (c < 128)%N) w.
Proof. intros H. eapply Forall_impl; [|exact H]. intros c Hc. unfold ws_byte in Hc. lia. Qed.
Lemma ws_boundary w b : ws w -> boundary b -> boundary (w ++ b).
Proof. destruct 1 as [|c w Hc _]; cbn; auto. unfold ws_byte in Hc. unfold cont. lia. Qed.
Lemma utf8_ws_r a w : ws w -> utf8 (a ++ w) <-> utf8 a.
Proof.
  intros Hw. rewrite utf8_iff.
  - pose proof (utf8_ascii w (ws_ascii w Hw)). tauto.
  - rewrite <- (app_nil_r w). apply ws_boundary; cbn; auto.
Qed.
Lemma utf8_ws_l w b : ws w -> utf8 (w ++ b) <-> utf8 b.
Proof. intros Hw. apply utf8_app_ascii_l, ws_ascii, Hw. Qed.

Lemma utf8_commas {A} (f : A -> bytes) l : utf8 (commas (map f l)) <-> Forall (fun x => utf8 (f x)) l.
Proof.
  induction l as [|x [|y l] IH].
  - split; constructor.
  - cbn [map commas]. split; [intros H; constructor; auto | intros H; inversion H; auto].
  - change (map f (x :: y :: l)) with (f x :: map f (y :: l)). rewrite commas_cons by discriminate.
    rewrite utf8_mid by lia. rewrite IH. split; [intros [H1 H2]; constructor; auto | intros H; inversion H; auto].
Qed.

(* ---------- documents ---------- *)

Definition u8 (c : cst) : Prop := Forall utf8 (strings c).

Lemma number_ascii n : number n -> Forall (fun c => (c < 128)%N) n.
Proof.
  intros H. apply number_numish in H. eapply Forall_impl; [|exact H]. intros c Hc. unfold numish, numch in Hc. lia.
Qed.

Lemma Forall_flat_map' {A B} (P : B -> Prop) (f : A -> list B) l :
  Forall P (flat_map f l) <-> Forall (fun x => Forall P (f x)) l.
Proof.
  induction l as [|x l IH]; cbn [flat_map]; [split; constructor|].
  rewrite Forall_app, IH. split; [intros [H1 H2]; constructor; auto | intros H; inversion H; auto].
Qed.

Lemma Forall_iff {A} (P Q : A -> Prop) l : Forall (fun x => P x <-> Q x) l -> (Forall P l <-> Forall Q l).
Proof.
  induction 1 as [|x l H1 _ IH]; [split; constructor|].
  split; intros H; inversion H; subst; constructor; tauto.
Qed.

Lemma utf8_render c : wf c -> (utf8 (render c) <-> u8 c).
Proof.
  unfold u8. induction c as [ | | |n|b|w es IH|w ms IH] using cst_ind'; intros Hc; cbn [strings].
  - split; [constructor|]. intros _. apply utf8_ascii. repeat constructor.
  - split; [constructor|]. intros _. apply utf8_ascii. repeat constructor.
  - split; [constructor|]. intros _. apply utf8_ascii. repeat constructor.
  - inversion Hc as [| | |? Hn| | |]; subst. split; [constructor|]. intros _. apply utf8_ascii, number_ascii, Hn.
  - cbn [render]. rewrite utf8_quoted. split; [intros H; constructor; auto | intros H; inversion H; auto].
  - inversion Hc as [| | | | |? ? Hw Hes|]; subst. cbn [render].
    rewrite utf8_ascii_cons by lia. rewrite utf8_ws_l by auto.
    rewrite utf8_mid by lia. rewrite utf8_commas, Forall_flat_map'.
    assert (H : Forall (fun e => utf8 (render_item render e) <-> Forall utf8 (match e with Item _ v _ => strings v end)) es).
    { apply Forall_forall. intros e He. rewrite Forall_forall in IH, Hes. specialize (IH e He). specialize (Hes e He).
      destruct Hes as [a v b Ha Hv Hb]. cbn [render_item i_val] in *. rewrite utf8_ws_l by auto. rewrite utf8_ws_r by auto. auto. }
    apply Forall_iff in H. rewrite H. split; [tauto | intros; split; auto; constructor].
  - inversion Hc as [| | | | | |? ? Hw Hes]; subst. cbn [render].
    rewrite utf8_ascii_cons by lia. rewrite utf8_ws_l by auto.
    rewrite utf8_mid by lia. rewrite utf8_commas, Forall_flat_map'.
    assert (H : Forall (fun m => utf8 (render_memb render m) <-> Forall utf8 (match m with Memb _ k _ _ v _ => k :: strings v end)) ms).
    { apply Forall_forall. intros e He. rewrite Forall_forall in IH, Hes. specialize (IH e He). specialize (Hes e He).
      destruct Hes as [a k b c v d Ha Hk Hb Hc' Hv Hd]. cbn [render_memb m_val] in *. rewrite utf8_ws_l by auto.
      replace (quoted k ++ b ++ 58%N :: c ++ render v ++ d) with ((quoted k ++ b) ++ 58%N :: c ++ render v ++ d)
        by (rewrite <- app_assoc; reflexivity).
      rewrite utf8_mid by lia. rewrite utf8_ws_r, utf8_quoted by auto. rewrite utf8_ws_l, utf8_ws_r by auto.
      rewrite (IH Hv). split; [intros [H1 H2]; constructor; auto | intros H; inversion H; auto]. }
    apply Forall_iff in H. rewrite H. split; [tauto | intros; split; auto; constructor].
Qed.

Lemma u8_closed : closed utf8 u8.
Proof.
  unfold u8. repeat split.
  - intros w es e H He. cbn [strings] in H. rewrite Forall_flat_map' in H. rewrite Forall_forall in H. specialize (H e He).
    destruct e. exact H.
  - cbn [strings] in H. rewrite Forall_flat_map' in H. rewrite Forall_forall in H. specialize (H m H0).
    destruct m. inversion H; auto.
  - cbn [strings] in H. rewrite Forall_flat_map' in H. rewrite Forall_forall in H. specialize (H m H0).
    destruct m. inversion H; auto.
  - intros b H. inversion H; auto.
Qed.

Lemma u8_mkarr (W : bytes -> Prop) l : Forall (fun cw => u8 (fst cw) /\ W (snd cw)) l -> u8 (mkarrw l).
Proof.
  unfold u8, mkarrw. cbn [strings]. intros H. rewrite Forall_flat_map'. apply Forall_map. eapply Forall_impl; [|exact H]. intros cw [Hc _]. exact Hc.
Qed.

Lemma key_body_app a b : key_body (a ++ b) = key_body a ++ key_body b.
Proof. apply flat_map_app. Qed.
Lemma escape_byte_high c : (128 <= c)%N -> escape_byte c = [c].
Proof.
  intros H. unfold escape_byte. replace (c <? cSP)%N with false by (change cSP with 32%N; lia).
  replace (c =? cLF)%N with false by (change cLF with 10%N; lia). replace (c =? cBSL)%N with false by (change cBSL with 92%N; lia).
  replace (c =? cQUOTE)%N with false by (change cQUOTE with 34%N; lia). reflexivity.
Qed.
Lemma escape_byte_low c : (c < 128)%N -> Forall (fun c => (c < 128)%N) (escape_byte c).
Proof.
  intros H. unfold escape_byte.
  destruct ((c <? cSP) || (c =? cLF) || (c =? cBSL) || (c =? cQUOTE))%N eqn:E; [|constructor; [exact H | constructor]].
  assert (Hh : forall n, (n < 16)%N -> (hex_upper n < 128)%N).
  { intros n Hn. unfold hex_upper. destruct (n <? 10)%N; lia. }
  constructor; [vm_compute; reflexivity|].
  repeat match goal with |- context [if ?b then _ else _] => destruct b end;
    try solve [constructor; [vm_compute; reflexivity | constructor]].
  assert (Hs : (N.shiftr c 4 < 16)%N).
  { rewrite N.shiftr_div_pow2. apply N.div_lt_upper_bound; lia. }
  assert (Hl : (N.land c 15 < 16)%N).
  { change 15%N with (N.ones 4). rewrite N.land_ones. apply N.mod_lt. discriminate. }
  constructor; [vm_compute; reflexivity|]. constructor; [vm_compute; reflexivity|]. constructor; [vm_compute; reflexivity|].
  constructor; [apply Hh; auto|]. constructor; [apply Hh; auto|]. constructor.
Qed.
Lemma key_body_high t : Forall cont t -> key_body t = t.
Proof.
  induction 1 as [|c t H _ IH]; auto. change (key_body (c :: t)) with (escape_byte c ++ key_body t).
  unfold cont in H. rewrite escape_byte_high by lia. rewrite IH. reflexivity.
Qed.
Lemma utf8_key_body k : utf8 k -> utf8 (key_body k).
Proof.
  induction 1 as [|u t Hu _ IH]; [constructor|]. rewrite key_body_app.
  destruct (utf8_enc_shape u Hu) as (h & r & E & _ & Hr & Hh). destruct Hh as [[H1 H2]|[H1 H2]].
  - assert (E' : utf8_enc u = [u]) by (unfold utf8_enc; replace (u <? 128)%N with true by lia; reflexivity).
    rewrite E'. apply utf8_app; auto. apply utf8_ascii. unfold key_body. cbn [flat_map]. rewrite app_nil_r.
    apply escape_byte_low, H1.
  - assert (E' : key_body (utf8_enc u) = utf8_enc u).
    { rewrite E. change (key_body (h :: r)) with (escape_byte h ++ key_body r).
      rewrite escape_byte_high by lia. rewrite key_body_high by auto. reflexivity. }
    rewrite E'. constructor; auto.
Qed.

Lemma u8_mkobj (W : bytes -> Prop) l : Forall (fun kv => utf8 (fst kv) /\ u8 (fst (snd kv)) /\ W (snd (snd kv))) l -> u8 (mkobjw l).
Proof.
  unfold u8, mkobjw. cbn [strings]. intros H. rewrite Forall_flat_map'. apply Forall_map.
  eapply Forall_impl; [|exact H]. intros [k [c w]] (H1 & H2 & _). cbn [fst snd] in *. constructor; auto using utf8_key_body.
Qed.

(* ---------- paths ---------- *)

Definition last_ascii (a : bytes) : Prop := exists u x, a = u ++ [x] /\ (x < 128)%N.

Lemma sq_last q d l r : sq q d l = Some r -> exists a, last_ascii a /\ l = a ++ r.
Proof.
  revert q d r. induction l as [l IH] using (induction_ltof1 _ (@length N)). unfold ltof in IH.
  intros q d r. destruct l as [|c t]; cbn [sq]; try discriminate.
  assert (Hpre : forall x a, last_ascii a -> last_ascii (x :: a)).
  { intros x a (u & y & -> & Hy). exists (x :: u), y. auto. }
  assert (Hc : forall q d, sq q d t = Some r -> exists a, last_ascii a /\ c :: t = a ++ r).
  { intros q' d' H. apply IH in H; [|simpl; lia]. destruct H as (a & Ha & ->). exists (c :: a). auto. }
  destruct (c =? 92)%N.
  - destruct t as [|e t']; try discriminate. intros H. apply IH in H; [|simpl; lia].
    destruct H as (a & Ha & ->). exists (c :: e :: a). auto.
  - destruct (c =? 34)%N; [apply Hc|]. destruct q; [apply Hc|].
    destruct (is_open c); [apply Hc|]. destruct (is_close c) eqn:Ec; [|apply Hc].
    destruct d; [|apply Hc]. intros [= ->]. exists [c]. split; auto. exists [], c. split; auto.
    unfold is_close in Ec. lia.
Qed.

(** Without a separator the component is cut where a character ends. *)
Definition cut_ok (t : bytes) (p : path) : Prop :=
  p_sep p = 0%N -> (p_comp p = t \/ p_comp p = [] \/ exists b, t = p_comp p ++ b /\ last_ascii (p_comp p)).

Lemma lscan_cut modi t : cut_ok t (lscan modi t).
Proof.
  unfold lscan, cut_ok. destruct (lpn modi t false false) as [[[[r sep] e] p] o]. cbn [p_sep p_comp]. intros ->. left. reflexivity.
Qed.

Lemma multi_cut c t p : path_next_multipath (c :: t) = Ok p -> cut_ok (c :: t) p.
Proof.
  unfold path_next_multipath.
  pose proof (scan_squash_spec (c :: t) c t (suf_refl _)) as H. rewrite pos_refl in H. rewrite H. clear H.
  cbn [bind]. set (extra := c :: t).
  assert (Hr : exists r, (r = [] \/ exists a, last_ascii a /\ extra = a ++ r) /\ suf r extra /\
    (match sq false 0 t with Some r => (upto extra r, pos extra r) | None => ([], length extra) end)
      = (match sq false 0 t with Some r => upto extra r | None => [] end, pos extra r)).
  { destruct (sq false 0 t) as [r|] eqn:E.
    - exists r. destruct (sq_last _ _ _ _ E) as (a & (u & x & -> & Hx) & ->).
      split; [|split; auto; exists (c :: u ++ [x]); reflexivity].
      right. exists (c :: u ++ [x]). split; [|reflexivity]. exists (c :: u), x. auto.
    - exists []. split; [auto|]. split; [apply suf_nil | rewrite pos_nil; reflexivity]. }
  destruct Hr as (r & Hr & Hre & ->). cbn [bind].
  pose proof (slice_upto extra r extra Hre (suf_refl _)) as Hsl. rewrite pos_refl in Hsl.
  assert (Hlast : forall ex, ex = [] -> cut_ok extra (mkPath (upto extra r) false false 0 0 ex)).
  { intros ex -> _. cbn [p_comp]. destruct Hr as [->|(a & Ha & Er)].
    - left. pose proof (upto_suf _ _ Hre) as Eu. rewrite app_nil_r in Eu. auto.
    - right. right. exists r. rewrite Er, upto_app. auto. }
  destruct r as [|d r'].
  - rewrite pos_eqb_nil. cbn [bind]. rewrite Hsl. cbn [bind].
    rewrite <- (pos_nil extra). rewrite slice_from_pos by apply suf_nil. cbn [bind]. intros [= <-]. apply Hlast. reflexivity.
  - rewrite (pos_eqb _ _ _ Hre), (idx_pos _ _ _ Hre). cbn [bind].
    destruct (is_sep d) eqn:Ed.
    + rewrite Hsl. cbn [bind]. rewrite (pos_S _ _ _ Hre). rewrite slice_from_pos by (eapply suf_tail; eauto).
      cbn [bind]. intros [= <-]. intros Hs. cbn [p_sep] in Hs. subst d. discriminate.
    + rewrite Hsl. cbn [bind]. rewrite <- (pos_nil extra). rewrite slice_from_pos by apply suf_nil. cbn [bind].
      intros [= <-]. apply Hlast. reflexivity.
Qed.

Lemma default_cut t : cut_ok t path_default.
Proof. intros _. cbn [path_default p_comp]. auto. Qed.

Lemma query_cut c d t p : path_next_query (c :: d :: t) = Ok p -> cut_ok (c :: d :: t) p.
Proof.
  unfold path_next_query. set (extra := c :: d :: t). change (idx extra 1) with (@Ok N d). cbn [bind].
  destruct (negb (d =? 40)%N); [intros [= <-]; apply default_cut|].
  destruct (scan_squash extra 1) as [[x i]|]; [|discriminate]. cbn [bind].
  intros E. apply bind_ok in E as (o & Eo & E).
  destruct o as [[i' sep]|]; [|injection E as <-; apply default_cut].
  assert (Hcase : sep <> 0%N \/ i' >= length extra).
  { revert Eo. destruct (i <? length extra) eqn:Ei.
    - destruct (idx extra i) as [y|]; [|discriminate]. cbn [bind]. destruct (y =? cHASH)%N.
      + destruct (i + 1 <? length extra) eqn:Ei1.
        * destruct (idx extra (i + 1)) as [y'|]; [|discriminate]. cbn [bind].
          destruct (is_sep y') eqn:Ey; [|discriminate]. intros [= <- <-]. left. intros ->. discriminate.
        * intros [= <- <-]. right. lia.
      + destruct (is_sep y) eqn:Ey; [|discriminate]. intros [= <- <-]. left. intros ->. discriminate.
    - intros [= <- <-]. right. lia. }
  assert (Hp : forall ex comp, (if (sep =? 0)%N then slice_from extra i' else slice_from extra (i' + 1)) = Ok ex ->
     slice extra 0 i' = Ok comp -> cut_ok extra (mkPath comp false false sep 0 ex)).
  { intros ex comp H1 H2 Hs. cbn [p_sep p_extra p_comp] in *. destruct Hcase as [H|H]; [congruence|].
    subst sep. cbn [N.eqb] in H1. unfold slice in H2.
    destruct (i' <=? length extra) eqn:El; [|rewrite ?andb_false_r in H2; discriminate].
    assert (i' = length extra) by lia. subst i'.
    rewrite slice_from_ok in H1 by apply le_n. left.
    cbn [Nat.leb andb] in H2. injection H2 as <-. apply (firstn_all extra). }
  apply bind_ok in E as (ex & Eex & E). apply bind_ok in E as (comp & Ec & E).
  specialize (Hp ex comp Eex Ec).
  apply bind_ok in E as (l1 & _ & E). apply bind_ok in E as (z & _ & E).
  destruct (z =? cHASH)%N.
  - apply bind_ok in E as (l2 & _ & E). apply bind_ok in E as (y & _ & E).
    destruct (negb (y =? cRPAR)%N); injection E as <-; auto using default_cut.
  - destruct (negb (z =? cRPAR)%N); injection E as <-; auto using default_cut.
Qed.

Lemma pnext_cut t : cut_ok t (pnext t).
Proof.
  pose proof (pnext_eq t) as E. revert E. generalize (pnext t). intros p. unfold path_next.
  destruct t as [|c t].
  - cbn [length Nat.ltb Nat.leb]. rewrite path_next_scan_spec. intros [= <-]. apply lscan_cut.
  - change (0 <? length (c :: t)) with true. change (idx (c :: t) 0) with (@Ok N c). cbn [bind].
    destruct (c =? cAT)%N; [rewrite path_next_scan_spec; intros [= <-]; apply lscan_cut|].
    destruct (c =? cHASH)%N.
    { destruct t as [|d t].
      - cbn [length Nat.eqb bind]. rewrite path_next_scan_spec. intros [= <-]. apply lscan_cut.
      - cbn [length Nat.eqb]. change (idx (c :: d :: t) 1) with (@Ok N d). cbn [bind].
        destruct (is_sep d); [rewrite path_next_scan_spec; intros [= <-]; apply lscan_cut | apply query_cut]. }
    destruct ((c =? cLBRC) || (c =? cLBRK))%N; [apply multi_cut|].
    rewrite path_next_scan_spec. intros [= <-]. apply lscan_cut.
Qed.

Section P8.
(** Any property of texts that goes over to the parts of a text. *)
Context (Q : bytes -> Prop) (HQ : forall a b, infix a b -> Q b -> Q a).
Definition p8 (t : bytes) : Prop := utf8 t /\ Q t.

Lemma sep_ascii s : is_sep s = true -> (s < 128)%N.
Proof. unfold is_sep. lia. Qed.

Lemma p8_pnext t : p8 t -> ppath p8 (pnext t).
Proof.
  intros [Hu Ha]. pose proof (pin_pnext t) as [I1 I2 _].
  assert (Hn : utf8 (p_comp (pnext t)) /\ (p_more (pnext t) = true -> utf8 (p_extra (pnext t)))).
  { destruct (pnext_shape t) as [[Hs|[Hs E]] _ _ _ _].
    - split; [|unfold p_more; rewrite Hs; discriminate].
      destruct (pnext_cut t Hs) as [->|[->|(b & Eb & u & x & Ec & Hx)]]; [exact Hu | constructor|].
      rewrite Eb, Ec in Hu. rewrite Ec. apply utf8_after in Hu; tauto.
    - rewrite E in Hu. apply utf8_mid in Hu as [H1 H2]; auto using sep_ascii. }
  destruct Hn as [H1 H2]. split; [split; eauto|]. intros Hm. split; eauto.
Qed.

Lemma lgroup_utf8 fuel e g r : p8 e -> lgroup fuel e = (g, r) -> utf8 g /\ (p_more r = true -> utf8 (p_extra r)).
Proof.
  revert e g r. induction fuel as [|fuel IH]; intros e g r He; cbn [lgroup];
    destruct (p8_pnext e He) as [[H1 H1'] H2].
  - intros [= <- <-]. split; auto. intros Hm. apply H2, Hm.
  - destruct (p_sep (pnext e) =? 46)%N eqn:Es.
    + destruct (lgroup fuel (p_extra (pnext e))) as [g' r'] eqn:E. intros [= <- <-].
      apply IH in E; [|apply H2, sep_dot_more, Es]. destruct E as [E1 E2]. split; auto. apply utf8_mid; [lia | auto].
    + intros [= <- <-]. split; auto. intros Hm. apply H2, Hm.
Qed.

Lemma p8_group e g r : p8 e -> group e = (g, r) -> p8 g /\ (p_more r = true -> p8 (p_extra r)).
Proof.
  intros He Hg. pose proof (lgroup_utf8 _ _ _ _ He Hg) as [H1 H2].
  apply group_length in Hg as (_ & I1 & I2 & _). destruct He as [_ Ha].
  split; [split; eauto|]. intros Hm. split; eauto.
Qed.
End P8.

(* ---------- the parts of a multipath ---------- *)

Lemma name_of_last_utf8 p : utf8 p -> forall n r, n <= length p -> name_of_last_loop n p = Ok r -> utf8 r.
Proof.
  intros Hp. induction n as [|n IH]; intros r Hn; cbn [name_of_last_loop]; [intros [= <-]; auto|].
  destruct (idx p n) as [c|] eqn:Ei; [|discriminate]. cbn [bind].
  destruct ((c =? cPIPE) || (c =? cDOT))%N eqn:Ec; [|apply IH; lia].
  intros E. apply bind_ok in E as ([|] & _ & E); [revert E; apply IH; lia|].
  rewrite slice_from_ok in E by lia. injection E as <-.
  unfold idx in Ei. destruct (nth_error p n) as [x|] eqn:En; [|discriminate]. injection Ei as ->.
  apply nth_error_split in En as (a & b & Ep & Hlen).
  rewrite Ep in Hp |- *. apply utf8_mid in Hp as [_ Hb]; [|change cPIPE with 124%N in Ec; change cDOT with 46%N in Ec; lia].
  rewrite <- Hlen. replace (length a + 1) with (length (a ++ [c])) by (rewrite app_length; reflexivity).
  replace (a ++ c :: b) with ((a ++ [c]) ++ b) by (rewrite <- app_assoc; reflexivity).
  rewrite skipn_app, skipn_all, Nat.sub_diag. exact Hb.
Qed.

Lemma keyname_utf8 b : utf8 b -> utf8 (keyname b).
Proof.
  intros Hb. pose proof (keyname_eq b) as E. unfold key_for_path in E. apply bind_ok in E as (k & Ek & E).
  injection E as E. rewrite <- E. destruct (is_simple_name k).
  - eapply name_of_last_utf8; [exact Hb | apply le_n | exact Ek].
  - apply utf8_ascii. constructor; [lia | constructor].
Qed.

Definition edge (l : bytes) : Prop := l = [] \/ exists x t, l = x :: t /\ (x < 128)%N.
Lemma edge_boundary l : edge l -> boundary l.
Proof. intros [->|(x & t & -> & Hx)]; cbn; auto. unfold cont. lia. Qed.

Lemma upto_utf8 s l : utf8 s -> suf l s -> edge l -> utf8 (upto s l) /\ utf8 l.
Proof.
  intros Hs Hl He. pose proof (upto_suf _ _ Hl) as E. exact (utf8_cut s Hs _ _ E (edge_boundary _ He)).
Qed.

Definition co_edge (co : option bytes) : Prop := match co with Some c => edge c | None => True end.

Lemma lpair_utf8 s co l : utf8 s -> co_ok s co l -> co_edge co -> edge l ->
  utf8 (fst (lpair s co l)) /\ utf8 (snd (lpair s co l)).
Proof.
  intros Hs [Hl Hc] Hce Hle. destruct co as [c|]; cbn [lpair fst snd].
  - destruct Hc as (C1 & C2 & C3). cbn [co_edge] in Hce. destruct (upto_utf8 s c Hs C1 Hce) as [H1 H2]. split; auto.
    destruct Hce as [->|(x & t & -> & Hx)]; [congruence|]. cbn [tl] in *. apply utf8_ascii_cons in H2; auto.
    apply upto_utf8; auto.
  - destruct (upto_utf8 s l Hs Hl Hle) as [H1 H2]. split; auto using keyname_utf8.
Qed.

Lemma lcomps_utf8 : forall fuel l s co, utf8 s -> co_ok s co l -> co_edge co ->
  forall k q, In (k, q) (lcomps fuel l s co) -> utf8 k /\ utf8 q.
Proof.
  induction fuel as [|fuel IH]; intros l s co Hs Hco Hce k q; cbn [lcomps]; [intros []|].
  destruct l as [|b t].
  { intros [E|[]]. pose proof (lpair_utf8 s co [] Hs Hco Hce (or_introl eq_refl)) as H. rewrite E in H. exact H. }
  destruct (b =? 92)%N.
  { destruct t as [|e t']; [intros []|]. apply IH; auto. eapply co_ok_suf; [|exact Hco]. exists [b; e]. reflexivity. }
  destruct ((b =? 40) || (b =? 91) || (b =? 123))%N.
  { apply IH; auto. eapply co_ok_suf; [|exact Hco]. eapply suf_trans; [apply sq_end_suf | apply suf_cons]. }
  assert (Hedge : forall x, (x < 128)%N -> b = x -> edge (b :: t)).
  { intros x Hx ->. right. eauto. }
  destruct (N.eqb_spec b 44) as [Eb|].
  { pose proof (Hedge 44%N ltac:(lia) Eb) as He.
    intros [E|H].
    - pose proof (lpair_utf8 s co (b :: t) Hs Hco Hce He) as H. rewrite E in H. exact H.
    - revert H. apply IH; cbn; auto.
      + destruct (upto_utf8 s (b :: t) Hs (proj1 Hco) He) as [_ H]. apply utf8_ascii_cons in H; auto. lia.
      + split; auto using suf_refl. }
  destruct (N.eqb_spec b 58) as [Eb|].
  { apply IH; auto; [|exact (Hedge 58%N ltac:(lia) Eb)].
    split; [eapply suf_tail; exact (proj1 Hco)|]. repeat split; [exact (proj1 Hco) | discriminate | cbn [tl]; apply suf_refl]. }
  apply IH; auto. eapply co_ok_suf; [|exact Hco]. apply suf_cons.
Qed.

Lemma p8_comps (Q : bytes -> Prop) (HQ : forall a b, infix a b -> Q b -> Q a) a p z k q :
  p8 Q (a :: p ++ [z]) -> (a < 128)%N -> (z < 128)%N -> In (k, q) (comps p) -> utf8 k /\ p8 Q q.
Proof.
  intros [Hu Hat] Ha Hz Hq.
  assert (Hp : utf8 p).
  { apply utf8_ascii_cons in Hu; auto. apply (utf8_mid p z []) in Hu; tauto. }
  pose proof (comps_infix _ _ Hq) as Hi. unfold comps in Hq.
  apply lcomps_utf8 in Hq; cbn; auto.
  - destruct Hq as [H1 H2]. split; auto. split; auto. eapply HQ; [exact Hi|].
    eapply HQ; [|exact Hat]. exists [a], [z]. reflexivity.
  - split; auto using suf_refl.
Qed.

Lemma p8_lines (Q : bytes -> Prop) (HQ : forall a b, infix a b -> Q b -> Q a) t : p8 Q t -> p8 Q (snd (split_lines t)).
Proof.
  intros [H1 H2]. destruct (split_lines t) as [b u] eqn:Es. cbn [snd]. split; [|exact (HQ _ _ (split_lines_infix _ _ _ Es) H2)].
  unfold split_lines in Es. destruct t as [|x [|y t]]; try (injection Es as <- <-; exact H1).
  destruct ((x =? cDOT) && (y =? cDOT))%N eqn:Exy; [|injection Es as <- <-; exact H1]. injection Es as <- <-.
  change cDOT with 46%N in Exy. apply (proj1 (utf8_app_ascii_l [x; y] t ltac:(constructor; [lia|constructor; [lia|constructor]]))). exact H1.
Qed.

Lemma get_utf8 text json v : utf8 text -> no_at text ->
  json = [] \/ (exists w1 c w2, json = doc w1 c w2 /\ ws w1 /\ wf c /\ ws w2) -> utf8 json ->
  get json text = Ok v -> utf8 (v_json v).
Proof.
  intros Hu Ht Hj Hj8 E.
  assert (H : good u8 (eq []) v).
  { eapply (get_good utf8 u8 (p8 no_at) utf8) with (W := eq []) (D := ws) (n := length text) (text := text) (j := json) (v := v);
      [| | | | | | | | | | | | | |exact (le_n _)|split; assumption| |exact E].
    - exact u8_closed.
    - intros n. constructor.
    - intros w <-. constructor.
    - auto.
    - intros w <-. constructor.
    - reflexivity.
    - apply u8_mkarr.
    - apply u8_mkobj.
    - split; [constructor | intros []].
    - apply p8_lines, no_at_infix.
    - apply p8_pnext, no_at_infix.
    - apply p8_group, no_at_infix.
    - intros a p z k q H Ha Hz. apply (p8_comps no_at no_at_infix) with (a := a) (z := z); auto; lia.
    - intros t j v' p' [_ Hat] Hm. rewrite (no_at_modifier t Hat) in Hm. discriminate.
    - destruct Hj as [->|(w1 & c & w2 & -> & H1 & H2 & H3)]; [left; auto|]. right. exists w1, c, w2. repeat (split; auto).
      unfold doc in Hj8. rewrite utf8_ws_l, utf8_ws_r in Hj8 by auto. apply utf8_render; auto. }
  destruct H as [H1 [[H2 _]|(c & w & Hc & H8 & <- & Hs)]]; [rewrite H2; constructor|].
  rewrite (sw_json _ _ _ Hs), app_nil_r. apply utf8_render; auto.
Qed.
