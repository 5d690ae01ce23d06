(** Everything obtained from an orderly text is orderly, and everything obtained from any text is made of its bytes. *)
From Verif Require Import P_Base P_Json P_Valid P_ValidSpec P_Str P_Glob P_Scan P_Each P_Doc P_Path P_LGet P_Parts P_Ext P_Total P_Value P_Num
  P_Key P_Find P_GetDoc P_GetArr P_Stream P_Closed P_Utf8 P_GetUtf8 P_Head P_Keep P_KeepMod P_Orderly P_Bytes P_Reach P_Taken M_Util M_Num M_Scan M_Value M_Path M_Get M_Valid
  S_Json S_Get S_Path S_Str S_Rough S_Api S_Follow S_Taken S_Orderly S_Drawn.

Lemma drawn_returned ok json v : drawn ok json v -> returned v.
Proof. induction 1; eauto using returned. Qed.

Section Drawn.
Context (I : bytes -> Prop) (I_nil : I []) (I_tail : forall c t, c <> 34%N -> I (c :: t) -> I t)
  (I_flat : forall l, I l -> I (ltext l) /\ I (lrest l)).
Context (ok : bytes -> Prop) (Hget : forall t, ok t -> keeps I get t).

Lemma kept_clone v : kept I v -> kept I (json_clone_from_ref v).
Proof. intros [_ H]. split; [right; reflexivity|]. exact H. Qed.

Lemma Wv_head v : Wv v -> v_exists v = true -> v_kind v = KArray \/ v_kind v = KObject -> forall c t, v_json v = c :: t -> c <> 34%N.
Proof.
  intros H He Hk c t E. destruct (w_text _ H He) as (E1 & E2 & _). rewrite <- E2 in Hk. rewrite <- E1 in E.
  eapply parse_not_quote; eauto.
Qed.

Lemma each_drawn v l : Wv v -> kept I v -> v_each v record_args [] = Ok l -> Forall (fun kx => kept I (fst kx) /\ kept I (snd kx)) l.
Proof.
  intros Hw Hv. rewrite v_each_spec. destruct (v_exists v) eqn:Ee; cbn [negb]; [|intros [= <-]; constructor].
  pose proof (kept_default I I_nil) as Hd.
  assert (Hit : v_kind v = KArray \/ v_kind v = KObject -> Forall I (items (tl (v_json v)))).
  { intros Hk. apply kept_items; auto; [apply Hv|]. apply Wv_head; auto. }
  destruct (v_kind v) eqn:Ek; try (cbn; intros [= <-]; constructor; auto; cbn [fst snd]; split; auto using kept_clone).
  - apply run_kept; [|constructor]. intros s a s' b Hin Hs. unfold record_args. intros [= <- _]. constructor; auto. cbn [fst snd].
    split; auto. apply in_map_iff in Hin as (y & <- & Hy). apply I_fval; auto. specialize (Hit (or_introl eq_refl)). rewrite Forall_forall in Hit. auto.
  - apply run_kept; [|constructor]. intros s a s' b Hin Hs. unfold record_args. intros [= <- _]. constructor; auto. cbn [fst snd].
    specialize (Hit (or_intror eq_refl)). rewrite Forall_forall in Hit.
    rewrite pair_up_map in Hin. apply in_map_iff in Hin as ([x y] & <- & Hy). cbn [fst snd]. apply in_pair_up in Hy as [H1 H2].
    split; apply I_fval; auto.
Qed.

Theorem drawn_kept json v : I json -> drawn ok json v -> kept I v.
Proof.
  intros Hj H. induction H as [v E|p v Hp E|u p v Hu IH Hp E|u l k x Hu IH E Hi|u l k x Hu IH E Hi|u l x Hu IH E Hi];
    try (pose proof (returned_Wv _ (drawn_returned _ _ _ Hu)) as Hw).
  - rewrite parse_spec in E. injection E as <-. apply kept_parse; auto.
  - exact (Hget p Hp json v Hj E).
  - eapply kept_get; eauto.
  - pose proof (proj1 (Forall_forall _ _) (each_drawn u l Hw IH E) _ Hi) as H. apply H.
  - pose proof (proj1 (Forall_forall _ _) (each_drawn u l Hw IH E) _ Hi) as H. apply H.
  - rewrite v_array_spec in E. injection E as <-. destruct (v_kind u) eqn:Ek; try contradiction.
    apply in_map_iff in Hi as (y & <- & Hy). apply I_fval; auto.
    destruct (v_exists u) eqn:Ee; [|unfold v_exists in Ee; destruct (v_json u); [contradiction | discriminate]].
    assert (Hit : Forall I (items (tl (v_json u)))) by (apply kept_items; auto; [apply IH | apply Wv_head; auto]).
    rewrite Forall_forall in Hit. auto.
Qed.
End Drawn.

From Coq Require Import String.
From Verif Require Import M_Get.
Open Scope list_scope.
Local Notation get := M_Get.get.

Lemma contains_infix t s : contains t s <-> infix s t.
Proof. split; intros (a & b & E); exists a, b; exact E. Qed.
Lemma plain_contains p : ~ contains p (bs "@pretty:") -> plain_path p.
Proof. intros H Hi. apply H. apply contains_infix. exact Hi. Qed.

(** C30 *)
Theorem drawn_orderly json v : orderly json -> drawn (fun p => utf8 p /\ ~ contains p (bs "@pretty:")) json v ->
  orderly (v_json v) /\ utf8 (v_json v).
Proof.
  intros Hj H. assert (Hk : kept orderly v).
  { eapply (drawn_kept orderly or_nil or_tail or_flat); [|exact Hj|exact H]. intros t [Hu Ht] j w Hj' E.
    eapply get_orderly; eauto. split; auto using plain_contains. }
  split; [apply Hk | apply or_utf8, Hk].
Qed.

Theorem drawn_bytes json (Q : N -> Prop) v : Forall Q json ->
  drawn (fun p => Forall Q p /\ (~ contains p (bs "@pretty:") \/ ~ In 92%N p)) json v ->
  Forall (fun c => (c < 128)%N \/ Q c) (v_json v).
Proof.
  intros Hj H. set (P := fun c => (c < 128)%N \/ Q c). assert (HQ : forall l, Forall Q l -> Forall P l) by (intros l; apply Forall_impl; unfold P; auto).
  assert (HA : forall c, (c < 128)%N -> P c) by (intros; left; auto).
  assert (Hk : kept (Forall P) v); [|exact (proj2 Hk)].
  eapply (drawn_kept (Forall P) (Forall_nil P) (by_tail P) (by_flat P)); [|apply HQ, Hj|exact H]. intros t [Hu Ht] j w Hj' E.
  apply (get_bytes P HA j t w); auto. split; [apply HQ, Hu|]. destruct Ht; auto using plain_contains.
Qed.

(** A valid document in UTF-8 is orderly. *)
Lemma number_num_bytes n : number n -> exists c b, n = c :: b /\ ((48 <= c <= 57)%N \/ c = 45%N) /\ Forall num_byte b.
Proof.
  intros H. destruct (number_head n H) as (c & t & E & Hc). exists c, t. repeat split; auto.
  apply number_numish in H. rewrite E in H. inversion H; subst. eapply Forall_impl; [|eassumption]. intros x Hx. apply num_byte_numch. exact Hx.
Qed.
Lemma ws_blanks w : ws w -> Forall (fun c => (c <= 32)%N) w.
Proof. apply Forall_impl. intros c H. unfold ws_byte in H. cbn [In] in H. lia. Qed.

Lemma or_render c : wf c -> u8 c -> orderly (render c).
Proof.
  induction c as [ | | |n|b|w es IH|w ms IH] using cst_ind'; intros Hc Hu; unfold u8 in *; cbn [render].
  - apply sealed_or, sealed_word. cbn [In]; auto.
  - apply sealed_or, sealed_word. cbn [In]; auto.
  - apply sealed_or, sealed_word. cbn [In]; auto.
  - inversion Hc; subst. destruct (number_num_bytes n) as (c & b & -> & H1 & H2); auto.
    rewrite <- (app_nil_r (c :: b)). apply or_number; auto using ended_nil, or_nil.
  - inversion Hc; subst. apply sealed_or, sealed_quoted; [apply chars_quotable; auto|]. cbn [strings] in Hu. inversion Hu; auto.
  - inversion Hc as [| | | | |? ? Hw Hes|]; subst.
    apply or_mark; [unfold mark; cbn [In]; lia|]. apply sealed_blanks; [apply ws_blanks, Hw|].
    apply or_commas_stop; [|unfold stopper; cbn [In]; auto]. cbn [strings] in Hu. rewrite Forall_flat_map' in Hu.
    apply Forall_map. clear Hc. induction es as [|[a v b] es IHe]; [constructor|].
    inversion IH as [|? ? IH1 IH2]; subst. inversion Hes as [|? ? He1 He2]; subst. inversion Hu as [|? ? Hu1 Hu2]; subst.
    constructor; auto. cbn [i_val] in *. inversion He1 as [? ? ? Ha Hv Hb]; subst. cbn [render_item].
    apply sealed_blanks; [apply ws_blanks, Ha|]. apply or_blanks; auto using ws_blanks.
  - inversion Hc as [| | | | | |? ? Hw Hms]; subst.
    apply or_mark; [unfold mark; cbn [In]; lia|]. apply sealed_blanks; [apply ws_blanks, Hw|].
    apply or_commas_stop; [|unfold stopper; cbn [In]; auto]. cbn [strings] in Hu. rewrite Forall_flat_map' in Hu.
    apply Forall_map. clear Hc. induction ms as [|[a k b c v d] ms IHe]; [constructor|].
    inversion IH as [|? ? IH1 IH2]; subst. inversion Hms as [|? ? He1 He2]; subst. inversion Hu as [|? ? Hu1 Hu2]; subst.
    constructor; auto. cbn [m_val m_key] in *. inversion He1 as [? ? ? ? ? ? Ha Hk Hb Hc Hv Hd]; subst. inversion Hu1 as [|? ? Hk8 Hv8]; subst.
    cbn [render_memb]. apply sealed_blanks; [apply ws_blanks, Ha|]. apply sealed_quoted; [apply chars_quotable, Hk | exact Hk8|].
    apply sealed_blanks; [apply ws_blanks, Hb|]. apply or_mark; [unfold mark; cbn [In]; lia|].
    apply sealed_blanks; [apply ws_blanks, Hc|]. apply or_blanks; auto using ws_blanks.
Qed.

Theorem valid_orderly json : valid json = Ok true -> utf8 json -> orderly json.
Proof.
  intros Hv Hu. apply valid_doc in Hv as (w1 & c & w2 & -> & H1 & Hc & H2). unfold doc in *.
  rewrite utf8_ws_l, utf8_ws_r in Hu by auto. apply utf8_render in Hu; auto.
  apply sealed_blanks; [apply ws_blanks, H1|]. apply or_blanks; auto using ws_blanks, or_render.
Qed.

Theorem valid_drawn json v : valid json = Ok true -> utf8 json -> drawn (fun p => utf8 p /\ ~ contains p (bs "@pretty:")) json v ->
  utf8 (v_json v).
Proof. intros Hv Hu H. eapply drawn_orderly; eauto using valid_orderly. Qed.
Theorem orderly_get json p v : orderly json -> utf8 p -> ~ contains p (bs "@pretty:") -> get json p = Ok v ->
  orderly (v_json v) /\ utf8 (v_json v).
Proof. intros Hj Hu Hp E. apply (drawn_orderly json v Hj). eapply dr_get; eauto. Qed.

Lemma drawn_impl (ok ok' : bytes -> Prop) json v : (forall p, ok p -> ok' p) -> drawn ok json v -> drawn ok' json v.
Proof. intros H. induction 1; eauto using drawn. Qed.

(** C78 *)
Theorem made_of json p v : ~ contains p (bs "@pretty:") \/ ~ In 92%N p -> get json p = Ok v ->
  Forall (fun c => (c < 128)%N \/ In c json \/ In c p) (v_json v).
Proof.
  intros Hp E. apply (drawn_bytes json (fun c => In c json \/ In c p)).
  - apply Forall_forall. auto.
  - eapply dr_get; [|exact E]. split; auto. apply Forall_forall. auto.
Qed.
Theorem drawn_ascii json v : Forall (fun c => (c < 128)%N) json ->
  drawn (fun p => Forall (fun c => (c < 128)%N) p /\ (~ contains p (bs "@pretty:") \/ ~ In 92%N p)) json v ->
  Forall (fun c => (c < 128)%N) (v_json v) /\ utf8 (v_json v).
Proof.
  intros Hj H. apply (drawn_bytes json _ v Hj) in H.
  assert (Forall (fun c => (c < 128)%N) (v_json v)) by (eapply Forall_impl; [|exact H]; intros c [Hc|Hc]; exact Hc). split; auto using utf8_ascii.
Qed.

Theorem pretty_cut : exists json p v, valid json = Ok true /\ utf8 json /\ utf8 p /\ get json p = Ok v /\ ~ utf8 (v_json v).
Proof.
  exists (bs "[1]"), (bs "@pretty:{""prefix"":""t" ++ [195; 169; 230; 151; 165]%N ++ bs """}").
  eexists. split; [vm_compute; reflexivity|]. split; [apply utf8_ascii; repeat constructor|]. split; [|split; [vm_compute; reflexivity|]].
  - apply utf8_app_ascii_l; [repeat constructor|]. apply (utf8_cons 233%N); [left; lia|].
    apply (utf8_cons 26085%N); [left; lia|]. apply utf8_ascii. repeat constructor.
  - intros H. cbn [v_json v_slice v_owned] in H. apply utf8_ascii_cons in H; [|lia].
    apply (utf8_app_inv_l [195; 169]%N) in H; [|apply (utf8_cons 233%N []); [left; lia | constructor]].
    inversion H as [|u t Hu Ht E]. destruct (utf8_enc_shape u Hu) as (h & r & E' & Hl & _). rewrite E' in E. cbn [app] in E.
    injection E as -> E. destruct r; [discriminate Hl | discriminate E].
Qed.

Theorem escaped_prefix : exists json p v, Forall (fun c => (c < 128)%N) json /\ Forall (fun c => (c < 128)%N) p /\
  get json p = Ok v /\ ~ Forall (fun c => (c < 128)%N) (v_json v).
Proof.
  exists (bs "{}"), (bs "@pretty:{""prefix"":""{\u00e9""}"). eexists.
  split; [repeat constructor|]. split; [repeat constructor|]. split; [vm_compute; reflexivity|]. cbn [v_json v_slice v_owned].
  intros H. rewrite Forall_forall in H. specialize (H 195%N). cbn [In] in H. assert (195 < 128)%N by (apply H; auto 20). lia.
Qed.
