(** Accessors and ordering on returned values. *)
From Verif Require Import M_Base M_Util M_Num M_Value M_Valid M_Get S_Json S_Get S_Api P_Base P_Valid P_Scan P_Each P_Doc P_GetDoc P_Tree P_Value P_Ord P_Good P_Total.
From Coq.Floats Require Import SpecFloat.

Lemma Wv_clone v : Wv v -> Wv (json_clone_from_ref v).
Proof.
  intros H. apply (Wv_json v); auto.
Qed.

Lemma each_args v l : Wv v -> v_each v record_args [] = Ok l -> Forall (fun kx => Wv (fst kx) /\ Wv (snd kx)) l.
Proof.
  intros Hv. rewrite v_each_spec. destruct (negb (v_exists v)); [intros E; injection E as <-; constructor|].
  set (I := fun l => Forall (fun kx => Wv (fst kx) /\ Wv (snd kx)) l).
  assert (Hr : forall A (f : A -> value * value) xs, (forall x, In x xs -> Wv (fst (f x)) /\ Wv (snd (f x))) ->
     forall st l, I st -> run (fun st x => record_args st (fst (f x)) (snd (f x))) st xs = Ok l -> I l).
  { intros A f. induction xs as [|x xs IH]; intros Hx st l' Hs; cbn [run]; [intros E; injection E as <-; auto|].
    unfold record_args at 1. cbn [bind]. apply IH; [intros; apply Hx; right; auto|].
    constructor; auto. cbn [fst snd]. apply Hx. left. auto. }
  assert (H0 : I []) by constructor.
  assert (Hs : run (fun st x => record_args st value_default x) [] [json_clone_from_ref v] = Ok l -> I l).
  { apply (Hr _ (fun x => (value_default, x))); auto. intros x [<-|[]]. cbn [fst snd]. split; [apply Wv_default | apply Wv_clone; auto]. }
  destruct (v_kind v); auto.
  - apply (Hr _ (fun x => (value_default, x))); auto. intros x Hx. cbn [fst snd]. apply in_map_iff in Hx as (y & <- & _).
    split; [apply Wv_default | apply Wv_fval].
  - apply (Hr _ (fun x => x)); auto. intros x Hx. rewrite pair_up_map in Hx.
    apply in_map_iff in Hx as (y & <- & _). cbn [fst snd]. split; apply Wv_fval.
Qed.

Lemma returned_Wv v : returned v -> Wv v.
Proof.
  induction 1 as [json v E|json path v E|u path v _ Hu E|u l k x _ Hu E Hi|u l k x _ Hu E Hi|u l x _ Hu E Hi].
  - rewrite parse_spec in E. injection E as <-. apply Wv_parse.
  - pose proof (get_out path json) as H. rewrite E in H. apply H.
  - pose proof (vget_out get u path (get_out path)) as H. unfold v_get in E. rewrite E in H. apply H.
  - pose proof (proj1 (Forall_forall _ _) (each_args _ _ Hu E) _ Hi) as H. apply H.
  - pose proof (proj1 (Forall_forall _ _) (each_args _ _ Hu E) _ Hi) as H. apply H.
  - rewrite v_array_spec in E. injection E as <-. destruct (v_kind u); try contradiction.
    apply in_map_iff in Hi as (y & <- & _). apply Wv_fval.
Qed.

Lemma acc_all v : acc_ok v -> accessors_return v.
Proof.
  intros H. destruct (acc_f64 v H) as (f & Ef), (acc_i64 v H) as (i & Ei), (acc_u64 v H) as (u & Eu).
  constructor; [apply acc_str; auto | apply acc_bool; auto | eauto | | eauto | | | | eauto | | |].
  all: unfold v_f32, v_i32, v_i16, v_i8, v_u32, v_u16, v_u8; rewrite ?Ef, ?Ei, ?Eu; cbn [bind]; eauto.
Qed.

Lemma returned_accessors v : returned v -> v_exists v = true \/ v_kind v <> KString -> accessors_return v.
Proof.
  intros H He. apply acc_all. destruct He as [He|He]; [apply (w_acc _ (returned_Wv _ H) He)|]. unfold acc_ok. tauto.
Qed.

Lemma each_returns {S} v (step : S -> value -> value -> R (S * bool)) st :
  (forall st k x, exists r, step st k x = Ok r) -> exists st', v_each v step st = Ok st'.
Proof.
  intros Hs. rewrite v_each_spec. destruct (negb (v_exists v)); eauto.
  assert (Hr : forall A (f : A -> value * value) l st, exists st', run (fun st x => step st (fst (f x)) (snd (f x))) st l = Ok st').
  { intros A f l st0. destruct (run_inv (fun _ => True) (fun st x => step st (fst (f x)) (snd (f x))) l) with (st := st0) as (s & E & _); eauto.
    intros s a _ _. destruct (Hs s (fst (f a)) (snd (f a))) as ([s' b] & ->). eauto. }
  destruct (v_kind v); try apply (Hr _ (fun x => (value_default, x))). apply (Hr _ (fun x => x)).
Qed.

Lemma array_returns v : exists l, v_array v = Ok l.
Proof. rewrite v_array_spec. eauto. Qed.

Lemma vget_returns v path : calm path -> exists w, v_get v path = Ok w.
Proof.
  intros H. pose proof (vget_out get v path (get_out path)) as Ho. unfold v_get. destruct (v_get_with get v path); eauto.
  destruct Ho as [_ Ho]. contradiction.
Qed.
Lemma get_no_hang json text : (exists v, get json text = Ok v) \/ get json text = Err EPanic.
Proof. pose proof (get_out text json) as H. destruct (get json text) as [v|e]; eauto. destruct H as [-> _]. auto. Qed.

Lemma wsfollow w : ws w -> P_ValidSpec.follow w.
Proof. intros H. rewrite <- (app_nil_r w). apply follow_ws; auto. exact I. Qed.
Lemma valid_sgood json : valid json = Ok true -> sgood json.
Proof.
  intros H. apply valid_doc in H as (w1 & c & w2 & H1 & Hc & H2 & ->). fold (doc w1 c w2).
  destruct (render_head c Hc) as (h & t & E & _ & _ & Hh).
  pose proof (lflat_render c w2 Hc (wsfollow _ H2)) as El. pose proof (ltext_good (render c ++ w2)) as Hg.
  unfold ltext in Hg. rewrite El in Hg. cbn [fst] in Hg.
  assert (Ed : forall x, dropw above_sp (render c ++ x) = h :: t ++ x).
  { intros x. rewrite E. cbn [app dropw]. unfold above_sp. replace (32 <? h)%N with true by lia. reflexivity. }
  pose proof (Ed []) as E0. rewrite !app_nil_r in E0. destruct Hg as [Hw Hs]. specialize (Hs _ _ E0).
  unfold sgood, wgood. rewrite dropw_doc by auto. rewrite E. cbn [app]. split; intros.
  - injection H as -> <-. specialize (Hw t E0). destruct (split_str t) as [[b r]|] eqn:Es; [|congruence].
    pose proof (split_str_app _ _ _ Es) as Et. rewrite Et, <- app_assoc. cbn [app].
    rewrite (split_str_stable _ _ _ (r ++ w2) Es). discriminate.
  - injection H as <- _. exact Hs.
Qed.

Lemma get_accessors json path v : get json path = Ok v -> safe path -> valid json = Ok true \/ ~ In 64%N path -> accessors_return v.
Proof.
  intros E Hs Hv. apply acc_all. pose proof (get_out path json) as H. rewrite E in H. apply H; auto.
  destruct Hv as [Hv|Hv]; auto. left. apply valid_sgood, Hv.
Qed.
Lemma vget_accessors u path v : returned u -> v_get u path = Ok v -> safe path -> accessors_return v.
Proof.
  intros Hu E Hs. apply acc_all. pose proof (vget_out get u path (get_out path)) as H. unfold v_get in E. rewrite E in H.
  apply H; auto. left. apply vtext_good, returned_Wv, Hu.
Qed.
Lemma parse_accessors json v : valid json = Ok true -> parse json = Ok v -> accessors_return v.
Proof.
  intros Hv E. rewrite parse_spec in E. injection E as <-. apply acc_all, parse_acc, valid_sgood, Hv.
Qed.

(* ---------- ordering ---------- *)

Lemma returned_fine v : returned v -> v_exists v = true \/ v_kind v <> KString -> fine v.
Proof.
  intros H He. pose proof (returned_Wv _ H) as Hw. split.
  - apply ar_str, returned_accessors; auto.
  - intros Hk. apply numish_not_nan, (w_num _ Hw Hk).
Qed.

Lemma returned_total a b : returned a -> returned b ->
  v_exists a = true \/ v_kind a <> KString -> v_exists b = true \/ v_kind b <> KString ->
  exists c, v_cmp a b = Ok c /\ v_cmp b a = Ok (CompOpp c) /\ v_eq a b = Ok (match c with Eq => true | _ => false end).
Proof.
  intros Ha Hb Ea Eb. pose proof (returned_fine _ Ha Ea) as Fa. pose proof (returned_fine _ Hb Eb) as Fb.
  exists (vcmp a b). unfold v_eq. rewrite !v_cmp_fine by auto. rewrite (vcmp_antisym a b). cbn [bind].
  auto.
Qed.
Lemma returned_refl a : returned a -> v_exists a = true \/ v_kind a <> KString -> v_cmp a a = Ok Eq.
Proof. intros Ha Ea. rewrite v_cmp_fine by (apply returned_fine; auto). rewrite vcmp_refl. reflexivity. Qed.
Lemma returned_trans a b c x y z : returned a -> returned b -> returned c ->
  v_exists a = true \/ v_kind a <> KString -> v_exists b = true \/ v_kind b <> KString ->
  v_exists c = true \/ v_kind c <> KString ->
  v_cmp a b = Ok x -> v_cmp b c = Ok y -> then_cmp x y = Some z -> v_cmp a c = Ok z.
Proof.
  intros Ha Hb Hc Ea Eb Ec. rewrite !v_cmp_fine by (apply returned_fine; auto). intros H1 H2 H3.
  injection H1 as <-. injection H2 as <-. rewrite (vcmp_trans a b c z); auto.
Qed.

(** Exactly when accessors and comparisons return. *)
Lemma none_str v : returned v -> v_exists v = false -> v_kind v = KString -> v_str v = Err EPanic.
Proof.
  intros H He Hk. pose proof (w_none _ (returned_Wv _ H) He) as Hn. unfold v_str. rewrite Hk, Hn.
  unfold v_exists in He. destruct (v_json v); [reflexivity | discriminate].
Qed.
Theorem returned_exact v : returned v -> (accessors_return v <-> v_exists v = true \/ v_kind v <> KString).
Proof.
  intros H. split; [|apply returned_accessors, H]. intros A. destruct (v_exists v) eqn:He; auto. right. intros Hk.
  destruct (ar_str _ A) as (x & E). rewrite none_str in E by auto. discriminate.
Qed.
Theorem cmp_exact a b : returned a -> returned b ->
  ((exists c, v_cmp a b = Ok c) <-> v_kind a <> KString \/ v_kind b <> KString \/ v_exists a = true /\ v_exists b = true).
Proof.
  intros Ha Hb. split.
  - intros (c & E). destruct (kind_eqb (v_kind a) KString) eqn:Ea; [|left; intros K; rewrite K in Ea; discriminate].
    destruct (kind_eqb (v_kind b) KString) eqn:Eb; [|right; left; intros K; rewrite K in Eb; discriminate].
    assert (Ka : v_kind a = KString) by (destruct (v_kind a); try discriminate; reflexivity).
    assert (Kb : v_kind b = KString) by (destruct (v_kind b); try discriminate; reflexivity).
    right. right. unfold v_cmp in E. rewrite Ka, Kb in E. change (kind_cmp KString KString) with Eq in E. cbn [kind_eqb] in E.
    destruct (v_exists a) eqn:Xa; [|rewrite (none_str a) in E by auto; discriminate].
    destruct (v_exists b) eqn:Xb; [auto|]. rewrite (none_str b) in E by auto. destruct (v_str a); discriminate.
  - intros H. destruct (kind_cmp (v_kind a) (v_kind b)) eqn:E; [|unfold v_cmp; rewrite E; eauto..].
    assert (K : v_kind a = v_kind b) by (destruct (v_kind a), (v_kind b); try discriminate; reflexivity).
    destruct (returned_total a b Ha Hb) as (c & Ec & _); [| |eauto].
    + destruct H as [H|[H|[H1 H2]]]; auto. rewrite K. auto.
    + destruct H as [H|[H|[H1 H2]]]; auto. rewrite <- K. auto.
Qed.
