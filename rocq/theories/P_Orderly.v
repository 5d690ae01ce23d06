(** Orderly texts: what is taken out of them and put together from them is orderly. *)
From Verif Require Import P_Base P_Json P_Valid P_ValidSpec P_Str P_Glob P_Scan P_Each P_Doc P_Path P_LGet P_Parts P_Ext P_Total P_Value P_Num
  P_Key P_Find P_GetDoc P_GetArr P_Stream P_Closed P_Utf8 P_GetUtf8 P_Head P_Pretty P_Ugly P_Keep P_KeepMod M_Util M_Num M_Scan M_Value M_Path M_Get M_Pretty
  S_Json S_Get S_Path S_Str S_Rough S_Orderly.

Definition stopper (d : N) : Prop := In d [44; 58; 93; 125]%N.

(* ---------- what may follow a number ---------- *)

Lemma ended_nil : ended [].
Proof. exists [], []. repeat split; auto. Qed.
Lemma ended_stop d r : stopper d -> ended (d :: r).
Proof. intros H. exists [], (d :: r). repeat split; auto. right. exists d, r. auto. Qed.
Lemma ended_blank c r : (c <= 32)%N -> ended r -> ended (c :: r).
Proof. intros Hc (w & s & -> & Hw & Hs). exists (c :: w), s. repeat split; auto. Qed.
Lemma ended_blanks w r : Forall (fun c => (c <= 32)%N) w -> ended r -> ended (w ++ r).
Proof. induction 1; cbn [app]; auto using ended_blank. Qed.
Lemma ended_prefix a r : ended (a ++ r) -> ended a.
Proof.
  intros (w & s & E & Hw & Hs). revert w E Hw. induction a as [|c a IH]; intros w E Hw; [apply ended_nil|].
  destruct w as [|c' w]; cbn [app] in E.
  - destruct Hs as [->|(d & s' & -> & Hd)]; [discriminate|]. injection E as -> _. apply ended_stop, Hd.
  - injection E as -> E. inversion Hw; subst. apply ended_blank; auto. eapply IH; eauto.
Qed.
Lemma ended_past a e r x : ended (a ++ e :: r) -> (32 < e)%N -> ended (a ++ e :: x).
Proof.
  intros (w & s & E & Hw & Hs) He. revert w E Hw. induction a as [|c a IH]; intros w E Hw; destruct w as [|c' w]; cbn [app] in *.
  - destruct Hs as [->|(d & s' & -> & Hd)]; [discriminate|]. injection E as -> _. apply ended_stop, Hd.
  - exfalso. injection E as -> _. inversion Hw; subst. lia.
  - destruct Hs as [->|(d & s' & -> & Hd)]; [discriminate|]. injection E as -> _. apply ended_stop, Hd.
  - injection E as -> E. inversion Hw; subst. apply ended_blank; auto. eapply IH; eauto.
Qed.
Lemma ended_app a b : ended a -> ended b -> ended (a ++ b).
Proof.
  intros (w & s & -> & Hw & Hs) Hb. rewrite <- app_assoc. apply ended_blanks; auto.
  destruct Hs as [->|(d & s' & -> & Hd)]; [exact Hb | apply ended_stop, Hd].
Qed.
Lemma ended_cons c r : ended (c :: r) -> (c <= 32)%N /\ ended r \/ stopper c.
Proof.
  intros (w & s & E & Hw & Hs). destruct w as [|c' w]; cbn [app] in E.
  - right. destruct Hs as [->|(d & s' & -> & Hd)]; [discriminate|]. injection E as -> _. exact Hd.
  - left. injection E as -> ->. inversion Hw; subst. split; auto. exists w, s. auto.
Qed.

(* ---------- the parts of an orderly text ---------- *)

Lemma num_byte_numch c : num_byte c <-> numch c = true.
Proof. unfold num_byte, numch. cbn [In]. lia. Qed.

Lemma or_numbers b r : Forall num_byte b -> ended r -> orderly r -> orderly (b ++ r).
Proof.
  intros Hb He Hr. induction Hb as [|c b Hc Hb IH]; auto. cbn [app].
  destruct (N.eq_dec c 45) as [->|H1]; [apply (or_number 45 b); auto|].
  destruct ((48 <=? c) && (c <=? 57))%N eqn:E; [apply (or_number c b); auto; left; lia|].
  apply or_mark; auto. unfold num_byte in Hc. cbn [In] in Hc. unfold mark. cbn [In]. lia.
Qed.

Lemma or_words l r : Forall mark l -> orderly r -> orderly (l ++ r).
Proof. induction 1; cbn [app]; auto using or_mark. Qed.

Lemma word_tail w c t : In w [t_true; t_false; t_null] -> w = c :: t -> Forall mark t.
Proof.
  intros Hw E. cbn [In] in Hw. destruct Hw as [<-|[<-|[<-|[]]]]; injection E as <- <-;
  repeat constructor; unfold mark; cbn [In]; lia.
Qed.

(** The four ways an orderly text begins. *)
Lemma or_inv l : orderly l -> l = [] \/ (exists c r, mark c /\ orderly r /\ l = c :: r) \/
  (exists b r, quotable b /\ utf8 b /\ orderly r /\ l = quoted b ++ r) \/
  (exists w r, In w [t_true; t_false; t_null] /\ orderly r /\ l = w ++ r) \/
  (exists c b r, ((48 <= c <= 57)%N \/ c = 45%N) /\ Forall num_byte b /\ ended r /\ orderly r /\ l = (c :: b) ++ r).
Proof. destruct 1; eauto 10. right; right; right; right. exists c, b, r. auto. Qed.

Lemma or_tail c t : c <> 34%N -> orderly (c :: t) -> orderly t.
Proof.
  intros Hc H. apply or_inv in H as [E|[(c' & r & Hm & Hr & E)|[(b & r & Hb & Hu & Hr & E)|[(w & r & Hw & Hr & E)|(c' & b & r & Hd & Hb & He & Hr & E)]]]]; [discriminate| | | |].
  - injection E as -> ->. exact Hr.
  - rewrite quoted_app_cons in E. injection E as -> _. contradiction.
  - destruct w as [|a w]; [cbn [In] in Hw; destruct Hw as [Hw|[Hw|[Hw|[]]]]; discriminate|].
    injection E as -> ->. apply or_words; auto. eapply word_tail; eauto.
  - injection E as -> ->. apply or_numbers; auto.
Qed.

Lemma or_split t : orderly (34%N :: t) -> exists b r, t = b ++ 34%N :: r /\ split_str t = Some (b, r) /\ quotable b /\ utf8 b /\ orderly r.
Proof.
  intros H. apply or_inv in H as [E|[(c' & r & Hm & Hr & E)|[(b & r & Hb & Hu & Hr & E)|[(w & r & Hw & Hr & E)|(c' & b & r & Hd & Hb & He & Hr & E)]]]]; [discriminate| | | |].
  - exfalso. injection E as <- _. destruct Hm as (_ & Hm & _). apply Hm. left. reflexivity.
  - rewrite quoted_app_cons in E. injection E as ->. exists b, r. rewrite quotable_split by auto. auto.
  - exfalso. cbn [In] in Hw. destruct Hw as [<-|[<-|[<-|[]]]]; discriminate.
  - exfalso. injection E as <- _. lia.
Qed.

Lemma or_num c t : (48 <= c <= 57)%N \/ c = 45%N -> orderly (c :: t) ->
  exists b r, t = b ++ r /\ Forall num_byte b /\ ended r /\ orderly r.
Proof.
  intros Hc H. apply or_inv in H as [E|[(c' & r & Hm & Hr & E)|[(b & r & Hb & Hu & Hr & E)|[(w & r & Hw & Hr & E)|(c' & b & r & Hd & Hb & He & Hr & E)]]]]; [discriminate| | | |].
  - exfalso. injection E as -> _. destruct Hm as (_ & Hm & Hn). cbn [In] in Hm. lia.
  - exfalso. rewrite quoted_app_cons in E. injection E as -> _. lia.
  - exfalso. cbn [In] in Hw. destruct Hw as [<-|[<-|[<-|[]]]]; injection E as -> _; lia.
  - injection E as -> ->. exists b, r. auto.
Qed.
Lemma or_lit c t : In c [116; 102; 110]%N -> orderly (c :: t) -> exists w r, c :: t = w ++ r /\ In w [t_true; t_false; t_null] /\ orderly r.
Proof.
  intros Hc H. apply or_inv in H as [E|[(c' & r & Hm & Hr & E)|[(b & r & Hb & Hu & Hr & E)|[(w & r & Hw & Hr & E)|(c' & b & r & Hd & Hb & He & Hr & E)]]]]; [discriminate| | | |].
  - exfalso. injection E as -> _. destruct Hm as (_ & Hm & Hn). cbn [In] in *. lia.
  - exfalso. rewrite quoted_app_cons in E. injection E as -> _. cbn [In] in Hc. lia.
  - exists w, r. auto.
  - exfalso. injection E as -> _. cbn [In] in Hc. lia.
Qed.

(* ---------- putting together ---------- *)

Lemma or_glue a b : orderly a -> ended b -> orderly b -> orderly (a ++ b).
Proof.
  intros Ha He Hb. induction Ha as [|c r Hm Hr IH|s r Hs Hu Hr IH|w r Hw Hr IH|c s r Hd Hs Hn Hr IH]; auto.
  - apply or_mark; auto.
  - rewrite <- app_assoc. apply or_string; auto.
  - rewrite <- app_assoc. apply or_word; auto.
  - rewrite <- app_assoc. apply or_number; auto using ended_app.
Qed.

(** Anything orderly may follow. *)
Definition sealed (a : bytes) : Prop := forall b, orderly b -> orderly (a ++ b).
Lemma sealed_nil : sealed [].
Proof. intros b H. exact H. Qed.
Lemma sealed_or a : sealed a -> orderly a.
Proof. intros H. rewrite <- (app_nil_r a). apply H, or_nil. Qed.
Lemma sealed_app a b : sealed a -> sealed b -> sealed (a ++ b).
Proof. intros Ha Hb x Hx. rewrite <- app_assoc. auto. Qed.
Lemma sealed_mark c : mark c -> sealed [c].
Proof. intros H b Hb. apply or_mark; auto. Qed.
Lemma sealed_marks l : Forall mark l -> sealed l.
Proof. intros H b Hb. apply or_words; auto. Qed.
Lemma sealed_quoted b : quotable b -> utf8 b -> sealed (quoted b).
Proof. intros H1 H2 r Hr. apply or_string; auto. Qed.
Lemma sealed_word w : In w [t_true; t_false; t_null] -> sealed w.
Proof. intros H r Hr. apply or_word; auto. Qed.
Lemma stopper_mark d : stopper d -> mark d.
Proof. unfold stopper, mark. cbn [In]. lia. Qed.
Lemma sealed_stop a d : orderly a -> stopper d -> sealed (a ++ [d]).
Proof. intros Ha Hd b Hb. rewrite <- app_assoc. apply or_glue; auto; [apply ended_stop, Hd|]. apply or_mark; auto using stopper_mark. Qed.
Lemma blank_mark c : (c <= 32)%N -> mark c.
Proof. unfold mark. cbn [In]. lia. Qed.
Lemma sealed_blanks w : Forall (fun c => (c <= 32)%N) w -> sealed w.
Proof. intros H. apply sealed_marks. eapply Forall_impl; [|exact H]. apply blank_mark. Qed.
Lemma or_blanks a w : orderly a -> Forall (fun c => (c <= 32)%N) w -> orderly (a ++ w).
Proof.
  intros Ha Hw. apply or_glue; auto.
  - rewrite <- (app_nil_r w). apply ended_blanks; auto using ended_nil.
  - apply sealed_or, sealed_blanks, Hw.
Qed.

Lemma or_utf8 s : orderly s -> utf8 s.
Proof.
  induction 1 as [|c r Hm Hr IH|b r Hb Hu Hr IH|w r Hw Hr IH|c b r Hd Hb He Hr IH].
  - constructor.
  - apply utf8_ascii_cons; auto. apply Hm.
  - rewrite quoted_app_cons. apply utf8_ascii_cons; [lia|]. apply utf8_mid; auto. lia.
  - apply utf8_app; auto. apply utf8_ascii. cbn [In] in Hw. destruct Hw as [<-|[<-|[<-|[]]]]; repeat constructor; lia.
  - apply utf8_app; auto. apply utf8_ascii. constructor; [lia|]. eapply Forall_impl; [|exact Hb].
    intros x Hx. unfold num_byte in Hx. cbn [In] in Hx. lia.
Qed.

(* ---------- the text of a value ---------- *)

Lemma sq_plain d l r : Forall (fun c => c <> 92%N /\ c <> 34%N /\ is_open c = false /\ is_close c = false) l -> sq false d (l ++ r) = sq false d r.
Proof.
  induction 1 as [|c l (H1 & H2 & H3 & H4) Hl IH]; auto. cbn [app sq].
  replace (c =? 92)%N with false by lia. replace (c =? 34)%N with false by lia. rewrite H3, H4. exact IH.
Qed.

(** What stands before the closing bracket is orderly, and what follows it. *)
Lemma or_sq t : orderly t -> forall d r, sq false d t = Some r ->
  exists a e, t = a ++ e :: r /\ orderly a /\ sealed (a ++ [e]) /\ is_close e = true /\ orderly r.
Proof.
  induction 1 as [|c t Hm Ht IH|b t Hb Hu Ht IH|w t Hw Ht IH|c b t Hd Hb He Ht IH]; intros d r.
  - discriminate.
  - cbn [sq]. pose proof Hm as (M1 & M2 & M3). cbn [In] in M2. replace (c =? 92)%N with false by lia. replace (c =? 34)%N with false by lia.
    assert (Hgo : forall d', sq false d' t = Some r -> exists a e, c :: t = a ++ e :: r /\ orderly a /\ sealed (a ++ [e]) /\ is_close e = true /\ orderly r).
    { intros d' H. apply IH in H as (a & e & -> & Ha & Hse & He & Hr). exists (c :: a), e. split; [reflexivity|]. split; [apply or_mark; auto|]. split; [|auto].
      apply (sealed_app [c]); auto using sealed_mark. }
    destruct (is_open c); [apply Hgo|]. destruct (is_close c) eqn:Ec; [|apply Hgo]. destruct d; [|apply Hgo].
    intros [= <-]. exists [], c. split; [reflexivity|]. split; [constructor|]. split; [apply sealed_mark, Hm | auto].
  - rewrite sq_quotable by auto. intros H. apply IH in H as (a & e & -> & Ha & Hse & He & Hr). exists (quoted b ++ a), e.
    rewrite <- !app_assoc. split; [reflexivity|]. split; [apply or_string; auto|]. split; [apply sealed_app; auto using sealed_quoted | auto].
  - rewrite sq_plain. 2: { cbn [In] in Hw. destruct Hw as [<-|[<-|[<-|[]]]]; repeat constructor; (discriminate || reflexivity). }
    intros H. apply IH in H as (a & e & -> & Ha & Hse & He & Hr). exists (w ++ a), e.
    rewrite <- !app_assoc. split; [reflexivity|]. split; [apply or_word; auto|]. split; [apply sealed_app; auto using sealed_word | auto].
  - rewrite sq_plain.
    2: { apply Forall_cons; [|eapply Forall_impl; [|exact Hb]; intros x Hx; unfold num_byte in Hx; cbn [In] in Hx]; unfold is_open, is_close; lia. }
    intros H. apply IH in H as (a & e & -> & Ha & Hse & He' & Hr). exists ((c :: b) ++ a), e.
    rewrite <- !app_assoc. split; [reflexivity|].
    split; [apply or_number; auto; eapply ended_prefix; eauto|]. split; [|auto].
    intros x Hx. rewrite <- app_assoc. apply or_number; auto. rewrite <- app_assoc. eapply ended_past; eauto. unfold is_close in He'. lia.
Qed.

Lemma close_mark e : is_close e = true -> mark e.
Proof. unfold is_close, mark. cbn [In]. lia. Qed.

Lemma dropw_num b r : Forall num_byte b -> ended r -> dropw num_stop (b ++ r) = r.
Proof.
  intros Hb He. rewrite dropw_app.
  - destruct r as [|c r]; auto. cbn [dropw]. replace (num_stop c) with true; [reflexivity|]. symmetry. unfold num_stop, numch.
    apply ended_cons in He as [[He _]|He]; [lia|]. unfold stopper in He. cbn [In] in He. lia.
  - eapply Forall_impl; [|exact Hb]. intros x Hx. apply num_byte_numch in Hx. unfold num_stop. rewrite Hx. reflexivity.
Qed.

Lemma or_llit n k c t : In (n, c) [(4, 116%N); (5, 102%N); (4, 110%N)] -> orderly (c :: t) ->
  exists w r, fst (fst (llit n k (c :: t))) = w /\ snd (llit n k (c :: t)) = r /\ c :: t = w ++ r /\ sealed w /\ orderly r.
Proof.
  intros Hin H. apply or_lit in H as (w & r & E & Hw & Hr); [|cbn [In] in *; destruct Hin as [Hi|[Hi|[Hi|[]]]]; injection Hi as _ <-; auto].
  exists w, r. rewrite E. unfold llit.
  assert (Hl : length w = n).
  { cbn [In] in *. destruct Hw as [<-|[<-|[<-|[]]]], Hin as [Hi|[Hi|[Hi|[]]]]; injection Hi as <- <-; try reflexivity; discriminate. }
  rewrite app_length. replace (length w + length r <? n) with false by lia. cbn [fst snd]. rewrite <- Hl.
  rewrite firstn_app, firstn_all, Nat.sub_diag, skipn_app, skipn_all, Nat.sub_diag. cbn [firstn skipn app]. rewrite app_nil_r.
  repeat split; auto. apply sealed_word, Hw.
Qed.

(** The text of the value, and how it goes on. *)
Lemma or_value l : orderly l -> ltext l = [] /\ lrest l = [] \/
  (l = ltext l ++ lrest l /\ orderly (lrest l) /\ orderly (ltext l) /\ (sealed (ltext l) \/ ended (lrest l))).
Proof.
  intros H. destruct l as [|c t]; [left; auto|]. unfold ltext, lrest, lflat.
  destruct (N.eqb_spec c 34) as [->|Hq].
  { apply or_split in H as (b & r & -> & -> & Hb & Hu & Hr). right. cbn [fst snd].
    change (34%N :: b ++ [34%N]) with (quoted b). split; [rewrite quoted_app_cons; reflexivity|].
    split; [exact Hr|]. pose proof (sealed_quoted b Hb Hu). split; [apply sealed_or|left]; auto. }
  destruct ((c =? 123) || (c =? 91))%N eqn:Ec.
  { destruct (sq false 0 t) as [r|] eqn:Es; [|left; auto]. right. cbn [fst snd].
    pose proof (or_tail _ _ Hq H) as Ht. apply or_sq in Es as (a & e & -> & Ha & Hse & He & Hr); auto.
    replace (c :: a ++ e :: r) with ((c :: a ++ [e]) ++ r) by (cbn [app]; rewrite <- app_assoc; reflexivity).
    rewrite upto_app. split; [reflexivity|]. split; [exact Hr|].
    assert (Hm : mark c) by (unfold mark; cbn [In]; lia).
    assert (Hs : sealed (c :: a ++ [e])) by (apply (sealed_app [c]); auto using sealed_mark).
    split; [apply sealed_or|left]; exact Hs. }
  destruct (((48 <=? c) && (c <=? 57)) || (c =? 45))%N eqn:En.
  { apply or_num in H as (b & r & -> & Hb & He & Hr); [|lia]. right. cbn [fst snd]. rewrite dropw_num, upto_app by auto.
    split; [reflexivity|]. split; [exact Hr|]. split; [|right; exact He].
    rewrite <- (app_nil_r (c :: b)). apply or_number; auto using ended_nil, or_nil. lia. }
  assert (Hl : forall n k, In (n, c) [(4, 116%N); (5, 102%N); (4, 110%N)] ->
    fst (fst (llit n k (c :: t))) = [] /\ snd (llit n k (c :: t)) = [] \/
    (c :: t = fst (fst (llit n k (c :: t))) ++ snd (llit n k (c :: t)) /\ orderly (snd (llit n k (c :: t))) /\
      orderly (fst (fst (llit n k (c :: t)))) /\ (sealed (fst (fst (llit n k (c :: t)))) \/ ended (snd (llit n k (c :: t)))))).
  { intros n k Hin. right. destruct (or_llit n k c t Hin H) as (w & r & E1 & E2 & E3 & Hs & Hr). rewrite E1, E2. auto using sealed_or. }
  destruct (N.eqb_spec c 116) as [->|H1]; [apply Hl; cbn [In]; tauto|].
  destruct (N.eqb_spec c 102) as [->|H2]; [apply Hl; cbn [In]; tauto|].
  destruct (N.eqb_spec c 110) as [->|H3]; [apply Hl; cbn [In]; tauto|].
  left. auto.
Qed.

Lemma or_flat l : orderly l -> orderly (ltext l) /\ orderly (lrest l).
Proof. intros H. destruct (or_value l H) as [[-> ->]|(_ & H1 & H2 & _)]; split; auto using or_nil. Qed.

Lemma or_digits l : Forall digit l -> orderly l.
Proof.
  intros H. rewrite <- (app_nil_r l). apply or_numbers; auto using ended_nil, or_nil. eapply Forall_impl; [|exact H].
  intros c Hc. left. exact Hc.
Qed.
Lemma or_count n : orderly (dec_of_nat n).
Proof. apply or_digits, dec_of_nat_digits. Qed.

Lemma or_commas_stop l d : Forall orderly l -> stopper d -> orderly (commas l ++ [d]).
Proof.
  intros H Hd. assert (Hn : orderly [d]) by (apply or_mark; [apply stopper_mark, Hd | apply or_nil]).
  induction H as [|x l Hx Hl IH]; [exact Hn|]. destruct l as [|y l].
  - cbn [commas]. apply sealed_or, sealed_stop; auto.
  - change (commas (x :: y :: l)) with (x ++ 44%N :: commas (y :: l)). rewrite <- app_assoc. cbn [app].
    replace (x ++ 44%N :: commas (y :: l) ++ [d]) with ((x ++ [44%N]) ++ commas (y :: l) ++ [d]) by (rewrite <- app_assoc; reflexivity).
    apply sealed_stop; auto. unfold stopper; cbn [In]; auto.
Qed.
Lemma or_commas l : Forall orderly l -> orderly (commas l).
Proof.
  induction 1 as [|x l Hx Hl IH]; [apply or_nil|]. destruct l as [|y l]; [exact Hx|].
  change (commas (x :: y :: l)) with (x ++ 44%N :: commas (y :: l)).
  replace (x ++ 44%N :: commas (y :: l)) with ((x ++ [44%N]) ++ commas (y :: l)) by (rewrite <- app_assoc; reflexivity).
  apply sealed_stop; auto. unfold stopper; cbn [In]; auto.
Qed.
Lemma or_arr l : Forall orderly l -> orderly (91%N :: commas l ++ [93%N]).
Proof. intros H. apply or_mark; [unfold mark; cbn [In]; lia|]. apply or_commas_stop; auto. unfold stopper; cbn [In]; auto. Qed.
Lemma or_brace l : Forall orderly l -> orderly (123%N :: commas l ++ [125%N]).
Proof. intros H. apply or_mark; [unfold mark; cbn [In]; lia|]. apply or_commas_stop; auto. unfold stopper; cbn [In]; auto. Qed.
Lemma or_pair k v : orderly k -> orderly v -> orderly (k ++ 58%N :: v).
Proof.
  intros Hk Hv. replace (k ++ 58%N :: v) with ((k ++ [58%N]) ++ v) by (rewrite <- app_assoc; reflexivity).
  apply sealed_stop; auto. unfold stopper; cbn [In]; auto.
Qed.
Lemma or_name k : utf8 k -> orderly (json_string k).
Proof.
  intros H. rewrite json_string_quoted. apply sealed_or, sealed_quoted; [|apply utf8_key_body, H]. apply chars_quotable, key_body_chars.
Qed.
Lemma or_obj l : Forall (fun kv => utf8 (fst kv) /\ orderly (snd kv)) l ->
  orderly (123%N :: commas (map (fun kv : bytes * bytes => json_string (fst kv) ++ 58%N :: snd kv) l) ++ [125%N]).
Proof.
  intros H. apply or_brace. apply Forall_map. eapply Forall_impl; [|exact H]. intros kv [H1 H2]. apply or_pair; auto using or_name.
Qed.

Lemma or_inner l c q e : orderly l -> (c = 91 \/ c = 123)%N -> ltext l = c :: q ++ [e] -> orderly q.
Proof.
  intros H Hc E. destruct l as [|d t]; [discriminate|]. unfold ltext, lflat in E.
  assert (Hd : d = c).
  { revert E. destruct (N.eqb_spec d 34) as [->|Hq]; [destruct (split_str t) as [[b r]|]; intros [= <- _]; lia|].
    destruct ((d =? 123) || (d =? 91))%N.
    { destruct (sq false 0 t) as [r|] eqn:Es; [|discriminate]. apply sq_suf in Es as (a & _ & ->).
      change (d :: a ++ r) with ((d :: a) ++ r). rewrite upto_app. intros [= <- _]; auto. }
    destruct (((48 <=? d) && (d <=? 57)) || (d =? 45))%N; [intros [= <- _]; auto|].
    unfold llit. destruct (N.eqb_spec d 116); [destruct (_ <? 4); intros [= <- _]; auto|].
    destruct (N.eqb_spec d 102); [destruct (_ <? 5); intros [= <- _]; auto|].
    destruct (N.eqb_spec d 110); [destruct (_ <? 4); intros [= <- _]; auto|]. discriminate. }
  subst d. replace (c =? 34)%N with false in E by lia. replace ((c =? 123) || (c =? 91))%N with true in E by lia.
  destruct (sq false 0 t) as [r|] eqn:Es; [|discriminate].
  assert (Ht : orderly t) by (eapply or_tail; [|exact H]; lia).
  apply or_sq in Es as (a & e' & -> & Ha & _); auto.
  replace (c :: a ++ e' :: r) with ((c :: a ++ [e']) ++ r) in E by (cbn [app]; rewrite <- app_assoc; reflexivity).
  rewrite upto_app in E. cbn [fst] in E. injection E as E. apply app_inj_tail in E as [<- _]. exact Ha.
Qed.

Lemma sep_mark c : skip_sep c = true -> mark c.
Proof. unfold skip_sep, mark. cbn [In]. lia. Qed.

Lemma or_span x g y : orderly x -> ltext x <> [] -> ltext y <> [] -> lrest x = g ++ y -> Forall (fun c => skip_sep c = true) g ->
  orderly (ltext x ++ g ++ ltext y).
Proof.
  intros Hx Hn Hy E Hg. destruct (or_value x Hx) as [[E1 _]|(_ & Hr & Ht & Hs)]; [contradiction|].
  assert (Hg' : Forall mark g) by (eapply Forall_impl; [|exact Hg]; apply sep_mark).
  assert (Hyo : orderly y).
  { rewrite E in Hr. clear - Hr Hg'. induction Hg' as [|c g Hc Hg IH]; auto. apply IH. eapply or_tail; [|exact Hr].
    intros ->. destruct Hc as (_ & Hc & _). apply Hc. left. reflexivity. }
  assert (Hgy : orderly (g ++ ltext y)) by (apply sealed_marks; auto; apply or_flat, Hyo).
  destruct Hs as [Hs|Hs]; [apply Hs, Hgy|]. apply or_glue; auto. rewrite E, (ltext_app y Hy), app_assoc in Hs. eapply ended_prefix; eauto.
Qed.

Lemma ended_ugly r : ended r -> ended (lugly r).
Proof.
  intros (w & s & -> & Hw & Hs). induction Hw as [|c w Hc Hw IH]; cbn [app].
  - destruct Hs as [->|(d & s' & -> & Hd)]; [apply ended_nil|]. rewrite lugly_cons. cbn [In] in Hd.
    replace (32 <? d)%N with true by lia. replace (d =? 34)%N with false by lia. apply ended_stop. exact Hd.
  - rewrite lugly_cons. replace (32 <? c)%N with false by lia. exact IH.
Qed.
Lemma ugly_plain l r : Forall (fun c => (32 < c)%N /\ c <> 34%N) l -> lugly (l ++ r) = l ++ lugly r.
Proof.
  induction 1 as [|c l [H1 H2] Hl IH]; auto. cbn [app]. rewrite lugly_cons. replace (32 <? c)%N with true by lia.
  replace (c =? 34)%N with false by lia. rewrite IH. reflexivity.
Qed.
Lemma or_ugly l : orderly l -> orderly (lugly l).
Proof.
  induction 1 as [|c r Hm Hr IH|b r Hb Hu Hr IH|w r Hw Hr IH|c b r Hd Hb He Hr IH].
  - apply or_nil.
  - rewrite lugly_cons. destruct (32 <? c)%N; auto. destruct (N.eqb_spec c 34) as [->|]; [|apply or_mark; auto].
    exfalso. destruct Hm as (_ & Hm & _). apply Hm. left. reflexivity.
  - rewrite quoted_app_cons, lugly_cons. cbn [N.eqb Pos.eqb]. rewrite quotable_split by auto.
    change (32 <? 34)%N with true. cbv iota. change (34%N :: b ++ 34%N :: lugly r) with (34%N :: b ++ [34%N] ++ lugly r). rewrite app_assoc.
    apply (or_string b); auto.
  - rewrite ugly_plain; [apply or_word; auto|]. cbn [In] in Hw. destruct Hw as [<-|[<-|[<-|[]]]]; repeat constructor; lia.
  - rewrite ugly_plain; [apply or_number; auto using ended_ugly|]. constructor; [lia|]. eapply Forall_impl; [|exact Hb].
    intros x Hx. unfold num_byte in Hx. cbn [In] in Hx. lia.
Qed.

(* ---------- the pretty printer ---------- *)

Section Pretty.
Context (width : Z) (prefix : bytes) (Hpre : Forall (fun c => (c <= 32)%N) prefix).
Notation blanks := (Forall (fun c => (c <= 32)%N)).

Lemma repeat_blanks n w : blanks w -> blanks (repeat_bytes n w).
Proof. intros H. induction n as [|n IH]; cbn [repeat_bytes]; [constructor | apply Forall_app; auto]. Qed.
Lemma tabs_eq buf indent tabs : blanks indent -> exists w, blanks w /\ extend_tabs buf prefix indent tabs = buf ++ w.
Proof. intros H. eexists. split; [|reflexivity]. apply Forall_app. split; auto using repeat_blanks. Qed.

Definition fine (r : bytes * bytes * Z * bool) : Prop := orderly (fst (fst (fst r))) /\ orderly (snd (fst (fst r))).

Lemma lpstr_or t : orderly (34%N :: t) -> sealed (fst (lpstr t)) /\ orderly (snd (lpstr t)).
Proof.
  intros H. apply or_split in H as (b & r & -> & E & Hb & Hu & Hr). unfold lpstr. rewrite E. cbn [fst snd].
  split; auto. apply (sealed_quoted b); auto.
Qed.
Lemma dropw_pnum b r : Forall num_byte b -> ended r -> dropw pnum_stop (b ++ r) = r.
Proof.
  intros Hb He. rewrite dropw_app.
  - destruct r as [|c r]; auto. cbn [dropw]. replace (pnum_stop c) with true; [reflexivity|]. symmetry. unfold pnum_stop.
    apply ended_cons in He as [[He _]|He]; [lia|]. unfold stopper in He. cbn [In] in He. lia.
  - eapply Forall_impl; [|exact Hb]. intros x Hx. unfold num_byte in Hx. cbn [In] in Hx. unfold pnum_stop. lia.
Qed.

Lemma lclose_or pretty open indent tabs nl n ps buf : blanks indent -> orderly buf ->
  exists w, blanks w /\ fst (lclose prefix false pretty open indent tabs nl n ps buf) = buf ++ w.
Proof.
  intros Hi Hb. unfold lclose. destruct pretty; [|exists []; split; [constructor | rewrite app_nil_r; reflexivity]].
  rewrite andb_false_r. cbv zeta.
  destruct (0 <? n).
  - destruct (last buf 0 =? 32)%N; cbn [fst].
    + destruct (last buf 0 =? open)%N; [exists []; split; [constructor | rewrite app_nil_r; reflexivity]|]. apply tabs_eq; auto.
    + destruct (last (buf ++ [10%N]) 0 =? open)%N; [exists [10%N]; split; [repeat constructor; lia | reflexivity]|].
      destruct (tabs_eq (buf ++ [10%N]) indent tabs Hi) as (w & Hw & ->). exists (10%N :: w). split; [constructor; auto; lia | rewrite <- app_assoc; reflexivity].
  - cbn [fst]. destruct (last buf 0 =? open)%N; [exists []; split; [constructor | rewrite app_nil_r; reflexivity]|]. apply tabs_eq; auto.
Qed.

Lemma lp_or : forall fuel,
  (forall buf l pretty indent tabs nl max depth, blanks indent -> sealed buf -> orderly l ->
     fine (lpany width prefix false fuel buf l pretty indent tabs nl max depth)) /\
  (forall buf t open close pretty indent tabs nl max depth, blanks indent -> sealed buf -> orderly t ->
     (open = 91 /\ close = 93 \/ open = 123 /\ close = 125)%N ->
     fine (lpobj width prefix false fuel buf (open :: t) open close pretty indent tabs nl max depth)) /\
  (forall buf l open close pretty indent tabs nl max depth ps n, blanks indent -> orderly buf -> orderly l ->
     (open = 91 /\ close = 93 \/ open = 123 /\ close = 125)%N ->
     (n = 0 -> sealed buf /\ last buf 0%N = open) ->
     fine (lploop width prefix false fuel buf l open close pretty indent tabs nl max depth ps n)).
Proof.
  induction fuel as [|fuel (IH1 & IH2 & IH3)].
  { repeat split; cbn; auto using or_nil, sealed_or. }
  split; [|split].
  - intros buf l pretty indent tabs nl max depth Hi Hb Hl. rewrite lpany_S. cbv zeta.
    assert (Hd : orderly (dropw starts_value l)).
    { clear - Hl. induction l as [|c t IH]; auto. cbn [dropw]. destruct (starts_value c) eqn:E; auto. apply IH. eapply or_tail; [|exact Hl].
      intros ->. discriminate. }
    destruct (dropw starts_value l) as [|c t] eqn:Ed; [split; cbn; auto using or_nil, sealed_or|].
    assert (Hsv : starts_value c = true).
    { clear - Ed. induction l as [|a l IH]; [discriminate|]. cbn [dropw] in Ed. destruct (starts_value a) eqn:E; auto. injection Ed as <- _. exact E. }
    destruct (N.eqb_spec c 34) as [->|Hq].
    { apply lpstr_or in Hd as [H1 H2]. split; cbn [fst snd]; auto. apply Hb, sealed_or, H1. }
    destruct (((48 <=? c) && (c <=? 57)) || (c =? 45))%N eqn:En.
    { apply or_num in Hd as (b & r & -> & H1 & H2 & H3); [|lia]. rewrite dropw_pnum, upto_app by auto. split; cbn [fst snd]; auto.
      apply Hb. rewrite <- (app_nil_r (c :: b)). apply or_number; auto using ended_nil, or_nil. lia. }
    pose proof (or_tail _ _ Hq Hd) as Ht.
    destruct (N.eqb_spec c 123) as [->|H1]; [apply IH2; auto|].
    destruct (N.eqb_spec c 91) as [->|H2]; [apply IH2; auto|].
    destruct (N.eqb_spec c 116) as [->|H3].
    { destruct (or_lit 116 t) as (w' & r' & F1 & F2 & F3); [cbn [In]; tauto | exact Hd|].
      assert (Ew : w' = t_true) by (cbn [In] in F2; destruct F2 as [<-|[<-|[<-|[]]]]; auto; discriminate).
      subst w'. rewrite F1. split; cbn [fst snd skipn t_true app]; auto. apply Hb, sealed_or, (sealed_word t_true). cbn [In]; auto. }
    destruct (N.eqb_spec c 102) as [->|H4].
    { destruct (or_lit 102 t) as (w' & r' & F1 & F2 & F3); [cbn [In]; tauto | exact Hd|].
      assert (Ew : w' = t_false) by (cbn [In] in F2; destruct F2 as [<-|[<-|[<-|[]]]]; auto; discriminate).
      subst w'. rewrite F1. split; cbn [fst snd skipn t_false app]; auto. apply Hb, sealed_or, (sealed_word t_false). cbn [In]; auto. }
    assert (c = 110%N) by (unfold starts_value in Hsv; lia). subst c.
    destruct (or_lit 110 t) as (w' & r' & F1 & F2 & F3); [cbn [In]; tauto | exact Hd|].
    assert (Ew : w' = t_null) by (cbn [In] in F2; destruct F2 as [<-|[<-|[<-|[]]]]; auto; discriminate).
    subst w'. rewrite F1. split; cbn [fst snd skipn t_null app]; auto. apply Hb, sealed_or, (sealed_word t_null). cbn [In]; auto.
  - intros buf t open close pretty indent tabs nl max depth Hi Hb Ht Ho. rewrite lpobj_S.
    assert (Hmk : mark open) by (unfold mark; cbn [In]; lia).
    destruct (depth =? MAX_DEPTH).
    { split; cbn [fst snd]; [|apply or_nil]. apply Hb, or_ugly, or_mark; auto. }
    cbv zeta. cbn [tl].
    assert (Hf : fine (lploop width prefix false fuel (buf ++ [open]) t open close pretty indent tabs nl max depth [] 0)).
    { apply IH3; auto.
      - apply sealed_or, sealed_app; auto using sealed_mark.
      - intros _. split; [apply sealed_app; auto using sealed_mark | apply last_last]. }
    destruct (0 <? width)%Z; auto.
    destruct (pretty && (open =? 91)%N && (max =? -1)%Z) eqn:E1.
    { destruct (3 <? _)%Z; auto. assert (open = 91%N) by lia. subst open.
      pose proof (IH2 buf t 91%N 93%N false [] 0%Z 0%Z (width - (Z.of_nat (length buf) - nl))%Z depth ltac:(constructor) Hb Ht ltac:(auto)) as Hs.
      destruct (lpobj _ _ _ _ _ _ _ _ _ _ _ _ _) as [[[b1 l1] z] ok]. destruct (ok && _); auto. }
    destruct (negb (max =? -1)%Z && (open =? 123)%N); auto. split; cbn [fst snd]; [apply sealed_or, Hb | apply or_mark; auto].
  - intros buf l open close pretty indent tabs nl max depth ps n Hi Hb Hl Ho Hn. rewrite lploop_S.
    destruct l as [|c t]; [split; cbn [fst snd]; auto using or_nil|].
    destruct (c <=? 32)%N eqn:E1; [apply IH3; auto; eapply or_tail; [|exact Hl]; lia|].
    destruct (c =? close)%N eqn:E2.
    { destruct (lclose_or pretty open indent tabs nl n ps buf Hi Hb) as (w & Hw & E). destruct (lclose _ _ _ _ _ _ _ _ _ _) as [buf' nl'].
      cbn [fst] in E. subst buf'. split; cbn [fst snd]; [|eapply or_tail; [|exact Hl]; lia].
      apply sealed_or, sealed_stop; [apply or_blanks; auto|]. unfold stopper. cbn [In]. lia. }
    destruct ((open =? 91)%N || (c =? 34)%N) eqn:E3; [|apply IH3; auto; eapply or_tail; [|exact Hl]; lia].
    cbv zeta.
    assert (H1 : sealed (lcomma width open n buf) /\ sealed (lnl (lcomma width open n buf))).
    { assert (Hs : forall x, orderly x -> sealed (x ++ [44%N])) by (intros; apply sealed_stop; auto; unfold stopper; cbn [In]; auto).
      unfold lcomma. destruct (0 <? n) eqn:En.
      - destruct (negb (width =? -1)%Z && (open =? 91)%N).
        + replace (buf ++ [44; 32]%N) with ((buf ++ [44%N]) ++ [32%N]) by (rewrite <- app_assoc; reflexivity).
          split; [apply sealed_app; auto; apply sealed_mark, blank_mark; lia|].
          unfold lnl. rewrite last_last. cbn [N.eqb Pos.eqb]. rewrite removelast_last. apply sealed_app; auto. apply sealed_mark, blank_mark. lia.
        + split; auto. unfold lnl. rewrite last_last. cbn [N.eqb Pos.eqb]. apply sealed_app; auto. apply sealed_mark, blank_mark. lia.
      - destruct Hn as [H1 H2]; [destruct n; [reflexivity | discriminate]|]. split; auto. unfold lnl. rewrite H2.
        replace (open =? 32)%N with false by lia. apply sealed_app; auto. apply sealed_mark, blank_mark. lia. }
    destruct H1 as [H1 H1'].
    assert (H2 : sealed (fst (lstart_item prefix pretty indent tabs nl (lcomma width open n buf)))).
    { unfold lstart_item. destruct pretty; cbn [fst]; auto. destruct (tabs_eq (lnl (lcomma width open n buf)) indent (tabs + 1) Hi) as (w & Hw & ->).
      apply sealed_app; auto using sealed_blanks. }
    destruct (lstart_item _ _ _ _ _ _) as [buf2 nl2]. cbn [fst] in H2.
    assert (H3 : sealed (fst (lkey pretty open t (c :: t) buf2)) /\ orderly (snd (lkey pretty open t (c :: t) buf2))).
    { unfold lkey. destruct (open =? 123)%N eqn:Eo; cbn [fst snd]; auto. assert (c = 34%N) by lia. subst c.
      apply lpstr_or in Hl as [S1 S2]. split; auto. apply sealed_app; auto. apply sealed_app; auto.
      apply sealed_app; [apply sealed_mark; unfold mark; cbn [In]; lia|]. destruct pretty; [apply sealed_mark, blank_mark; lia | apply sealed_nil]. }
    destruct (lkey _ _ _ _ _) as [buf3 l3]. cbn [fst snd] in H3. destruct H3 as [H3 H3'].
    pose proof (IH1 buf3 l3 pretty indent (tabs + 1)%Z nl2 max depth Hi H3 H3') as [H4 H4'].
    destruct (lpany _ _ _ _ _ _ _ _ _ _ _ _) as [[[buf4 l4] nl4] ok]. cbn [fst snd] in *.
    destruct (negb (max =? -1)%Z && negb ok); [split; auto|]. apply IH3; auto. intros E. exfalso. lia.
Qed.
End Pretty.

Lemma or_pretty json : orderly json -> orderly (lpretty json popts_default).
Proof.
  intros H. unfold lpretty.
  pose proof (proj1 (lp_or (o_width popts_default) (o_prefix popts_default) ltac:(constructor) (8 + 4 * length json))
    (o_prefix popts_default) json true (o_indent popts_default) 0%Z 0%Z (-1)%Z 0) as Hp.
  change (o_sort popts_default) with false.
  destruct (lpany _ _ _ _ _ _ _ _ _ _ _ _) as [[[buf l] z] ok]. destruct Hp as [Hp _]; auto using sealed_nil.
  { repeat constructor; lia. }
  cbn [fst snd] in Hp. destruct buf; [apply or_nil|]. apply or_blanks; auto. repeat constructor; lia.
Qed.

(* ---------- get ---------- *)

Definition plain_path (t : bytes) : Prop := ~ infix (64%N :: n_pretty ++ [58%N]) t.
Lemma plain_infix a b : infix a b -> plain_path b -> plain_path a.
Proof. intros H Hb Ha. apply Hb. eapply infix_trans; eauto. Qed.

Lemma exec_orderly t json v p' : plain_path t -> is_modifier (pnext t) = true -> orderly json ->
  mod_exec get json (pnext t) = Ok (v, p') -> kept orderly v /\ p' = pnext t.
Proof.
  intros Ht Hm H. destruct (mod_exec_parts get _ _ (pnext_shape t) Hm) as (name & arg & Hp & ->).
  intros E. apply bind_ok in E as (o & E & Ev). rewrite parse_spec in Ev. cbn [bind] in Ev. injection Ev as <- <-. split; auto.
  apply kept_into. apply kept_parse; eauto using or_nil, or_tail, or_flat.
  revert E. apply (apply_kept orderly or_nil or_tail or_flat or_arr or_commas or_brace or_pair or_inner or_span or_ugly); auto.
  - intros o' Hn. assert (arg = []) as ->.
    { destruct Hp as [[_ ->]|Ec]; auto. exfalso. pose proof (pin_pnext t) as [I1 _ _]. apply (plain_infix _ _ I1 Ht). rewrite Ec, Hn.
      exists [], arg. cbn [app]. rewrite <- app_assoc. reflexivity. }
    cbn [mod_pretty]. unfold pretty. rewrite pretty_options_spec. intros [= <-]. apply or_pretty, H.
Qed.

Theorem get_orderly json text v : orderly json -> p8 plain_path text -> get json text = Ok v -> kept orderly v.
Proof.
  intros Hj Hp Hg.
  eapply (get_kept orderly (p8 plain_path) utf8 or_nil or_tail or_flat or_count or_arr or_obj)
    with (n := length text) (text := text) (j := json); eauto.
  - split; [constructor | intros (a & b & E); destruct a; discriminate].
  - apply p8_lines, plain_infix.
  - apply p8_pnext, plain_infix.
  - apply p8_group, plain_infix.
  - intros a p z k q H Ha Hz. apply (p8_comps _ plain_infix) with (a := a) (z := z); auto; lia.
  - intros t j v' p' [_ H]. apply exec_orderly, H.
Qed.
