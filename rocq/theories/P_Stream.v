(** What the object loop can meet inside a valid document, also when it runs on
    inside a value whose lookup failed. *)
From Verif Require Import P_Base P_Json P_Valid P_ValidSpec P_Str P_Glob P_Scan P_Each P_Doc P_Path P_LGet P_Parts P_Ext P_Value P_Key P_Find
  M_Util M_Num M_Scan M_Value M_Path M_Get S_Json S_Get S_Path.

Section Stream.
Context (K : bytes -> Prop) (V : cst -> Prop).

Inductive stream : bytes -> Prop :=
| st_nil : stream []
| st_skip c l : plain_skip c -> stream l -> stream (c :: l)
| st_brace l : stream (125%N :: l)
| st_key k b c v r : chars k -> ws b -> ws c -> wf v -> follow r -> K k -> V v -> stream r ->
    (is_container v = true -> stream (render v ++ r)) -> stream (quoted k ++ b ++ 58%N :: c ++ render v ++ r)
| st_str k b c r : chars k -> ws b -> c = 44%N \/ c = 93%N -> K k -> stream (quoted k ++ b ++ c :: r).

Lemma st_skips a l : Forall plain_skip a -> stream l -> stream (a ++ l).
Proof. intros H. induction H; auto. cbn [app]. intros. apply st_skip; auto. Qed.
Lemma st_ws a l : ws a -> stream l -> stream (a ++ l).
Proof. intros H. apply st_skips, ws_plain_skip; auto. Qed.

Definition closed : Prop :=
  (forall w es e, V (CArr w es) -> In e es -> V (i_val e)) /\
  (forall w ms m, V (CObj w ms) -> In m ms -> V (m_val m) /\ K (m_key m)) /\
  (forall b, V (CStr b) -> K b).
Hypothesis Hcl : closed.

Lemma number_skip n : number n -> Forall plain_skip n.
Proof.
  intros H. apply number_numish in H. eapply Forall_impl; [|exact H]. intros c Hc. unfold plain_skip. unfold numish, numch in Hc. lia.
Qed.

Lemma stream_render c : wf c -> V c -> is_container c = true -> forall r, stream r -> stream (render c ++ r).
Proof.
  destruct Hcl as (C1 & C2 & C3).
  induction c as [ | | |n|b|w es IH|w ms IH] using cst_ind'; intros Hc HV Hco r Hr; try discriminate.
  - inversion Hc as [| | | | |w' es' Hw Hes|]; subst. cbn [render]. apps. apply st_skip; [split; discriminate|].
    apply st_ws; auto. assert (Hin : forall e, In e es -> V (i_val e)) by (intros e He; eapply C1; eauto). clear HV Hc Hw.
    assert (Ht : stream (93%N :: r)) by (apply st_skip; auto; split; discriminate).
    induction Hes as [|e es He Hes IHes]; [exact Ht|].
    inversion IH as [|? ? IHe IHt]; subst. rewrite commas_tail.
    assert (Htl : stream (arr_tail es (93%N :: r))).
    { destruct es as [|e2 es]; [exact Ht|]. cbn [arr_tail]. apply st_skip; [split; discriminate|]. apply IHes; auto.
      intros e0 He0. apply Hin. right; auto. }
    assert (HVe : V (i_val e)) by (apply Hin; left; auto).
    destruct He as [a v b Ha Hv Hb]. cbn [render_item i_val] in *. apps. apply st_ws; auto.
    pose proof (st_ws b _ Hb Htl) as Hbt.
    destruct v as [ | | |n|s|w' es'|w' ms'].
    + apply (st_skips t_null); auto. repeat constructor; discriminate.
    + apply (st_skips t_true); auto. repeat constructor; discriminate.
    + apply (st_skips t_false); auto. repeat constructor; discriminate.
    + inversion Hv; subst. apply (st_skips n); auto. apply number_skip; auto.
    + inversion Hv; subst. cbn [render].
      assert (E : exists c t, arr_tail es (93%N :: r) = c :: t /\ (c = 44%N \/ c = 93%N)) by (destruct es; cbn [arr_tail]; eauto).
      destruct E as (c & t & -> & Hc). apply st_str; auto.
    + apply IHe; auto.
    + apply IHe; auto.
  - inversion Hc as [| | | | | |w' ms' Hw Hms]; subst. cbn [render]. apps. apply st_skip; [split; discriminate|].
    apply st_ws; auto. assert (Hin : forall e, In e ms -> V (m_val e) /\ K (m_key e)) by (intros e He; eapply C2; eauto). clear HV Hc Hw.
    assert (Ht : stream (125%N :: r)) by apply st_brace.
    induction Hms as [|e ms He Hms IHms]; [exact Ht|].
    inversion IH as [|? ? IHe IHt]; subst. rewrite commas_tail_m.
    assert (Htl : stream (obj_tail ms (125%N :: r))).
    { destruct ms as [|e2 ms]; [exact Ht|]. cbn [obj_tail]. apply st_skip; [split; discriminate|]. apply IHms; auto.
      intros e0 He0. apply Hin. right; auto. }
    destruct (Hin e ltac:(left; auto)) as [HVe HKe].
    destruct He as [a k b c v d Ha Hk Hb Hcc Hv Hd]. cbn [render_memb m_val m_key] in *. apps. apply st_ws; auto.
    pose proof (st_ws d _ Hd Htl) as Hdt.
    apply st_key; auto.
    apply follow_ws; auto. apply obj_tail_follow. right; auto.
Qed.

(** The tail of an object after some of its members. *)
Lemma stream_obj_tail ms r : Forall wf_memb ms -> (forall m, In m ms -> V (m_val m) /\ K (m_key m)) ->
  stream (obj_tail ms (125%N :: r)).
Proof.
  intros Hms Hin. induction Hms as [|e ms He Hms IH]; [apply st_brace|]. cbn [obj_tail]. apply st_skip; [split; discriminate|].
  rewrite commas_tail_m. destruct (Hin e ltac:(left; auto)) as [HVe HKe].
  specialize (IH ltac:(intros m Hm; apply Hin; right; auto)).
  destruct He as [a k b c v d Ha Hk Hb Hcc Hv Hd]. cbn [render_memb m_val m_key] in *. apps. apply st_ws; auto.
  pose proof (st_ws d _ Hd IH) as Hdt. apply st_key; auto.
  - apply follow_ws; auto. apply obj_tail_follow. right; auto.
  - intros Hco. apply stream_render; auto.
Qed.

(** Two ways the loop ends: nothing, or a value of the document. *)
Lemma lloop_stream lsub json p l : stream l -> suf l json ->
  forall v p', lloop lsub json l p = Ok (v, p') ->
  (v = value_default /\ p' = p) \/
  (exists c ix, wf c /\ V c /\ v = tval c ix /\ p' = p) \/
  (exists c r, wf c /\ V c /\ is_container c = true /\ follow r /\ suf (render c ++ r) json /\ (p_sep p =? 46)%N = true /\ lsub (render c ++ r) = Ok (LReturn v p')).
Proof.
  intros H. induction H as [|c l [H1 H2] H IH|l|k b c v0 r Hk Hb Hc Hv Hf HK HV Hr IHr Hco IHco|k b c r Hk Hb Hc HK]; intros Hl v p' E.
  - rewrite lloop_nil in E. injection E as <- <-. auto.
  - rewrite lloop_skip in E by auto. apply IH; auto. eapply suf_tail; eauto.
  - rewrite lloop_brace in E. injection E as <- <-. auto.
  - assert (Hvr : suf (render v0 ++ r) json).
    { eapply suf_trans; [|exact Hl]. rewrite !app_comm_cons, !app_assoc. rewrite <- (app_assoc _ (render v0) r). apply suf_app. }
    assert (Hrr : suf r json) by (eapply suf_trans; [apply suf_app | exact Hvr]).
    pose proof (lloop_memb lsub json p [] k b c v0 r ltac:(constructor) Hk Hb Hc Hv Hf) as Em. rewrite app_nil_l in Em.
    rewrite Em in E. clear Em. cbv zeta in E.
    rewrite fval_render in E by auto. destruct (kmatch p k); [|apply IHr; auto].
    assert (Hflat : forall x, Ok (tval v0 (Some x), p) = Ok (v, p') -> exists c ix, wf c /\ V c /\ v = tval c ix /\ p' = p).
    { intros x Hx. injection Hx as <- <-. eauto 6. }
    destruct ((p_sep p =? 46)%N && is_container v0) eqn:Ec; [|right; left; eauto].
    apply andb_true_iff in Ec as [Ep Ec]. apply bind_ok in E as (d & Ed & E). destruct d as [v1 p1| |].
    + injection E as <- <-. right; right. exists v0, r. auto 9.
    + right; left; eauto.
    + apply IHco; auto.
  - rewrite quoted_app_cons, lloop_str, chars_split in E by auto.
    assert (Ed : dropw colon_stop (b ++ c :: r) = c :: r).
    { rewrite dropw_app; [cbn [dropw]; destruct Hc as [-> | ->]; reflexivity|].
      eapply Forall_impl; [|exact Hb]. intros x Hx. unfold ws_byte in Hx. unfold colon_stop. lia. }
    rewrite Ed in E. cbv zeta in E.
    assert (Ec : container c = false) by (destruct Hc as [-> | ->]; reflexivity).
    assert (Ef : v_exists (fval json (c :: r)) = false) by (destruct Hc as [-> | ->]; reflexivity).
    assert (El : lrest (c :: r) = []) by (destruct Hc as [-> | ->]; reflexivity).
    rewrite Ec, Ef, El, !andb_false_r in E. injection E as <- <-. auto.
Qed.

(** Without a matching string the loop finds nothing. *)
Lemma lloop_stream_none lsub json p l : (forall k, K k -> kmatch p k = false) -> stream l ->
  lloop lsub json l p = Ok (value_default, p).
Proof.
  intros Hno H. induction H as [|c l [H1 H2] H IH|l|k b c v0 r Hk Hb Hc Hv Hf HK HV Hr IHr Hco IHco|k b c r Hk Hb Hc HK]; auto.
  - rewrite lloop_skip by auto. auto.
  - pose proof (lloop_memb lsub json p [] k b c v0 r ltac:(constructor) Hk Hb Hc Hv Hf) as Em. rewrite app_nil_l in Em.
    rewrite Em. cbv zeta. rewrite Hno by auto. auto.
  - rewrite quoted_app_cons, lloop_str, chars_split by auto.
    assert (Ed : dropw colon_stop (b ++ c :: r) = c :: r).
    { rewrite dropw_app; [cbn [dropw]; destruct Hc as [-> | ->]; reflexivity|].
      eapply Forall_impl; [|exact Hb]. intros x Hx. unfold ws_byte in Hx. unfold colon_stop. lia. }
    rewrite Ed. cbv zeta. rewrite Hno by auto. cbn [andb].
    assert (El : lrest (c :: r) = []) by (destruct Hc as [-> | ->]; reflexivity). rewrite El. reflexivity.
Qed.
End Stream.
