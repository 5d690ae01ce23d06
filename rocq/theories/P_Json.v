(** Facts about the JSON specification: induction on trees, grammar = trees. *)
From Coq Require Import Lia.
From Verif Require Export P_Base S_Json.

(** Induction on concrete syntax trees. *)
Lemma cst_ind' (P : cst -> Prop) :
  P CNull -> P CTrue -> P CFalse -> (forall n, P (CNum n)) -> (forall b, P (CStr b)) ->
  (forall w es, Forall (fun x => P (i_val x)) es -> P (CArr w es)) ->
  (forall w ms, Forall (fun x => P (m_val x)) ms -> P (CObj w ms)) ->
  forall c, P c.
Proof.
  intros H1 H2 H3 H4 H5 H6 H7.
  fix IH 1. intros [ | | |n|b|w es|w ms].
  - exact H1.
  - exact H2.
  - exact H3.
  - apply H4.
  - apply H5.
  - apply H6. induction es as [|[a v b] es IHes]; constructor; [apply IH | exact IHes].
  - apply H7. induction ms as [|[a k b c v d] ms IHms]; constructor; [apply IH | exact IHms].
Qed.

Scheme json_value_mind := Minimality for json_value Sort Prop
  with elements_mind := Minimality for elements Sort Prop
  with members_mind := Minimality for members Sort Prop.
Combined Scheme json_mutind from json_value_mind, elements_mind, members_mind.

Lemma commas_cons x l : l <> [] -> commas (x :: l) = x ++ 44%N :: commas l.
Proof. destruct l; [congruence | reflexivity]. Qed.

Lemma grammar_to_cst :
  (forall s, json_value s -> exists c, wf c /\ render c = s) /\
  (forall s, elements s -> exists es, es <> [] /\ Forall wf_item es /\
      commas (map (render_item render) es) = s) /\
  (forall s, members s -> exists ms, ms <> [] /\ Forall wf_memb ms /\
      commas (map (render_memb render) ms) = s).
Proof.
  apply json_mutind.
  - exists CNull. split; [constructor | reflexivity].
  - exists CTrue. split; [constructor | reflexivity].
  - exists CFalse. split; [constructor | reflexivity].
  - intros n Hn. exists (CNum n). split; [constructor; auto | reflexivity].
  - intros b Hb. exists (CStr b). split; [constructor; auto | reflexivity].
  - intros w Hw. exists (CArr w []). split; [constructor; auto | reflexivity].
  - intros s _ (es & _ & Hes & <-). exists (CArr [] es).
    split; [constructor; auto; constructor | reflexivity].
  - intros w Hw. exists (CObj w []). split; [constructor; auto | reflexivity].
  - intros s _ (es & _ & Hes & <-). exists (CObj [] es).
    split; [constructor; auto; constructor | reflexivity].
  - intros w1 v w2 H1 _ (c & Hc & <-) H2. exists [Item w1 c w2].
    split; [discriminate | split; [repeat constructor; auto | reflexivity]].
  - intros w1 v w2 s H1 _ (c & Hc & <-) H2 _ (es & Hne & Hes & <-).
    exists (Item w1 c w2 :: es).
    split; [discriminate | split; [repeat constructor; auto | ]].
    cbn [map]. rewrite commas_cons by (destruct es; [congruence | discriminate]).
    cbn [render_item]. rewrite <- !app_assoc. reflexivity.
  - intros w1 b w2 w3 v w4 H1 Hb H2 H3 _ (c & Hc & <-) H4. exists [Memb w1 b w2 w3 c w4].
    split; [discriminate | split; [repeat constructor; auto | ]].
    cbn. reflexivity.
  - intros w1 b w2 w3 v w4 s H1 Hb H2 H3 _ (c & Hc & <-) H4 _ (ms & Hne & Hms & <-).
    exists (Memb w1 b w2 w3 c w4 :: ms).
    split; [discriminate | split; [repeat constructor; auto | ]].
    cbn [map]. rewrite commas_cons by (destruct ms; [congruence | discriminate]).
    cbn [render_memb]. cbn [app]. repeat (rewrite <- ?app_assoc; cbn [app]). reflexivity.
Qed.

Lemma ws_app a b : ws a -> ws b -> ws (a ++ b).
Proof. intros. apply Forall_app. auto. Qed.

Lemma elements_prefix w s : ws w -> elements s -> elements (w ++ s).
Proof.
  intros Hw H. destruct H; rewrite app_assoc; [apply el_one | apply el_more]; auto using ws_app.
Qed.
Lemma members_prefix w s : ws w -> members s -> members (w ++ s).
Proof.
  intros Hw H. destruct H; rewrite app_assoc; [apply mb_one | apply mb_more]; auto using ws_app.
Qed.

Lemma cst_to_grammar c : wf c -> json_value (render c).
Proof.
  induction c as [ | | |n|b|w es IH|w ms IH] using cst_ind'; intros H; inversion H; subst.
  - apply jv_null.
  - apply jv_true.
  - apply jv_false.
  - apply jv_number; auto.
  - apply jv_string; auto.
  - destruct es as [|e es].
    + apply (jv_empty_array w); auto.
    + assert (Hel : elements (w ++ commas (map (render_item render) (e :: es)))).
      { apply elements_prefix; auto. clear H H2 w.
        revert e IH H3. induction es as [|e' es IHes]; intros [a v b] IH H3.
        - inversion H3; subst. inversion H1; subst. inversion IH; subst.
          cbn. apply el_one; auto.
        - inversion H3; subst. inversion IH; subst. inversion H1; subst.
          cbn [map]. rewrite commas_cons by discriminate. cbn [render_item].
          rewrite <- !app_assoc. apply (el_more a (render v) b); auto.
          apply (IHes e'); auto. }
      pose proof (jv_array _ Hel) as G. rewrite <- app_assoc in G. exact G.
  - destruct ms as [|e ms].
    + apply (jv_empty_object w); auto.
    + assert (Hel : members (w ++ commas (map (render_memb render) (e :: ms)))).
      { apply members_prefix; auto. clear H H2 w.
        revert e IH H3. induction ms as [|e' ms IHes]; intros [a k b c v d] IH H3.
        - inversion H3; subst. inversion H1; subst. inversion IH; subst.
          cbn. apply mb_one; auto.
        - inversion H3; subst. inversion IH; subst. inversion H1; subst.
          cbn [map]. rewrite commas_cons by discriminate. cbn [render_memb].
          assert (G : members (commas (map (render_memb render) (e' :: ms))))
            by (apply IHes; auto).
          apply (mb_more a k b c (render v) d) in G; auto.
          repeat (rewrite <- ?app_assoc in *; cbn [app] in * ). exact G. }
      pose proof (jv_object _ Hel) as G. rewrite <- app_assoc in G. exact G.
Qed.

Lemma json_value_cst s : json_value s <-> exists c, wf c /\ render c = s.
Proof.
  split.
  - apply grammar_to_cst.
  - intros (c & Hc & <-). apply cst_to_grammar; auto.
Qed.

Lemma json_text_cst s :
  json_text s <-> exists w1 c w2, ws w1 /\ wf c /\ ws w2 /\ s = w1 ++ render c ++ w2.
Proof.
  split.
  - intros (w1 & v & w2 & H1 & Hv & H2 & ->).
    apply json_value_cst in Hv as (c & Hc & <-). eauto 10.
  - intros (w1 & c & w2 & H1 & Hc & H2 & ->).
    exists w1, (render c), w2. repeat split; auto. apply json_value_cst. eauto.
Qed.
