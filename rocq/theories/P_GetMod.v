(** Results on valid documents when the path has modifiers. *)
From Verif Require Import P_Base P_Json P_Valid P_ValidSpec P_Str P_Utf8 P_Scan P_Each P_Doc P_Path P_LGet P_Parts P_Ext P_Total P_Value
  P_Key P_Find P_GetDoc P_GetArr P_Stream P_Closed P_GetUtf8 P_Reach P_Taken P_Tree P_PTree P_POut P_Mod P_ModDoc P_ModFlat P_ModJoin
  M_Util M_Num M_Scan M_Value M_Path M_Valid M_Get M_Pretty S_Json S_Str S_Get S_Path S_Api S_Follow S_Taken S_Mod S_Join.

(* ---------- strings and whitespace of documents ---------- *)

Fixpoint tstrings (t : tree) : list bytes :=
  match t with
  | TStr b => [b]
  | TArr es => flat_map tstrings es
  | TObj ms => flat_map (fun m => match m with (k, v) => k :: tstrings v end) ms
  | _ => []
  end.
Lemma strings_erase c : strings c = tstrings (erase c).
Proof.
  induction c as [ | | |n|b|w es IH|w ms IH] using cst_ind'; auto; cbn [strings erase tstrings].
  - induction IH as [|[a v b] es H _ IHes]; auto. cbn [flat_map map]. cbn [i_val] in H. rewrite H, IHes. reflexivity.
  - induction IH as [|[a k b c v d] es H _ IHes]; auto. cbn [flat_map map]. cbn [m_val] in H. rewrite H, IHes. reflexivity.
Qed.

Lemma Forall2_in_r {A B} (P : A -> B -> Prop) l l' : Forall2 P l l' -> forall y, In y l' -> exists x, In x l /\ P x y.
Proof.
  induction 1 as [|x y l l' H _ IH]; intros z Hz; [destruct Hz|]. destruct Hz as [<-|Hz]; [exists x; split; [left|]; auto|].
  destruct (IH z Hz) as (u & H1 & H2). exists u. split; [right|]; auto.
Qed.

Lemma Ok_inj {A} (x y : A) : Ok x = Ok y -> y = x.
Proof. congruence. Qed.

Section M.
Context (S KK : bytes -> Prop) (fl : bool).
Context (HKK : forall k, KK k -> S (key_body k)).
Definition V (c : cst) : Prop := Forall S (strings c) /\ (fl = true -> tight c = true).

Lemma V_arr w es : Forall (fun e => V (i_val e)) es -> w = [] \/ es <> [] -> V (CArr w es).
Proof using.
  intros H Hw. split.
  - cbn [strings]. apply Forall_flat_map'. eapply Forall_impl; [|exact H]. intros [a v b] [H1 _]. exact H1.
  - intros Hf. cbn [tight]. apply andb_true_iff. split.
    + destruct w; auto. destruct es; auto. destruct Hw; congruence.
    + apply forallb_forall. intros e He. rewrite Forall_forall in H. destruct (H e He) as [_ H2]. destruct e. auto.
Qed.
Lemma V_obj w ms : Forall (fun m => S (m_key m) /\ V (m_val m)) ms -> V (CObj w ms).
Proof using.
  intros H. split.
  - cbn [strings]. apply Forall_flat_map'. eapply Forall_impl; [|exact H]. intros [a k b c v d] (H1 & H2 & _). constructor; auto.
  - intros Hf. cbn [tight]. apply forallb_forall. intros m Hm. rewrite Forall_forall in H. destruct (H m Hm) as (_ & _ & H2). destruct m. auto.
Qed.
Lemma V_items w es : V (CArr w es) -> Forall (fun e => V (i_val e)) es.
Proof using.
  intros [H1 H2]. cbn [strings tight] in *. apply Forall_flat_map' in H1. rewrite Forall_forall in *. intros e He. specialize (H1 e He).
  destruct e as [a v b]. split; auto. intros Hf. specialize (H2 Hf). apply andb_true_iff in H2 as [_ H2]. rewrite forallb_forall in H2. exact (H2 _ He).
Qed.
Lemma V_membs w ms : V (CObj w ms) -> Forall (fun m => S (m_key m) /\ V (m_val m)) ms.
Proof using.
  intros [H1 H2]. cbn [strings tight] in *. apply Forall_flat_map' in H1. rewrite Forall_forall in *. intros m Hm. specialize (H1 m Hm).
  destruct m as [a k b c v d]. inversion H1; subst. split; auto. split; auto. intros Hf. specialize (H2 Hf). rewrite forallb_forall in H2. exact (H2 _ Hm).
Qed.
Lemma V_erase c c' : V c -> erase c' = erase c -> tight c' = true -> V c'.
Proof using. intros [H1 _] E Ht. split; auto. rewrite strings_erase, E, <- strings_erase. exact H1. Qed.
Lemma V_closed : closed S V.
Proof using.
  repeat split.
  - apply V_items in H. rewrite Forall_forall in H. apply H, H0.
  - apply V_items in H. rewrite Forall_forall in H. apply H, H0.
  - apply V_membs in H. rewrite Forall_forall in H. apply H, H0.
  - apply V_membs in H. rewrite Forall_forall in H. apply H, H0.
  - apply V_membs in H. rewrite Forall_forall in H. apply H, H0.
  - intros b [H _]. inversion H; auto.
Qed.
Lemma V_num n : V (CNum n).
Proof using. split; [constructor | reflexivity]. Qed.
Lemma V_mkarrw (W : bytes -> Prop) l : Forall (fun cw => V (fst cw) /\ W (snd cw)) l -> V (mkarrw l).
Proof using. intros H. apply V_arr; auto. apply Forall_map. eapply Forall_impl; [|exact H]. intros cw [H1 _]. exact H1. Qed.
Lemma V_mkobjw (W : bytes -> Prop) l : Forall (fun kv => KK (fst kv) /\ V (fst (snd kv)) /\ W (snd (snd kv))) l -> V (mkobjw l).
Proof using HKK. intros H. apply V_obj. apply Forall_map. eapply Forall_impl; [|exact H]. intros cw (H1 & H2 & _). split; [apply HKK, H1 | exact H2]. Qed.

(* ---------- what the modifiers make of a document ---------- *)

Definition dok : bytes -> Prop := dj V ws.
Lemma dok_doc w1 c w2 : ws w1 -> wf c -> V c -> ws w2 -> dok (w1 ++ render c ++ w2).
Proof using. intros. right. exists w1, c, w2. auto. Qed.
Lemma dok_render c : wf c -> V c -> dok (render c).
Proof using. intros. rewrite <- (app_nil_r (render c)). apply (dok_doc [] c []); auto; constructor. Qed.

Lemma V_reversed c : V c -> V (reversed c).
Proof using.
  intros H. destruct c as [ | | |n|b|w es|w ms]; auto; cbn [reversed].
  - apply V_items in H. apply V_arr; auto. apply Forall_rev, Forall_map. eapply Forall_impl; [|exact H]. intros [a v b]. auto.
  - apply V_membs in H. apply V_obj; auto. apply Forall_rev, Forall_map. eapply Forall_impl; [|exact H]. intros [a k b c v d]. auto.
Qed.
Lemma V_deep c : V c -> Forall V (flat_deep c).
Proof using.
  induction c as [ | | |n|b|w es IH|w ms IH] using cst_ind'; intros H; try (constructor; [exact H | constructor]).
  apply V_items in H. cbn [flat_deep]. apply Forall_flat_map'. induction IH as [|[a v b] es He _ IHes]; [constructor|].
  inversion H; subst. constructor; auto.
Qed.
Lemma V_piece c : V c -> Forall (fun e => V (i_val e)) (piece c).
Proof using.
  intros H. destruct c as [ | | |n|b|w es|w ms]; try (constructor; [exact H | constructor]).
  apply V_items in H. cbn [piece]. destruct es as [|[a v b] es]; [constructor|]. cbn [lead]. inversion H; subst. constructor; auto.
Qed.
Lemma V_hollow c : fl = true -> V c -> ~ hollow c.
Proof using. intros Hf [_ H]. specialize (H Hf). destruct c; auto. destruct es; auto. cbn in *. destruct w; auto. discriminate. Qed.

Definition allowed (name arg : bytes) : Prop :=
  (name = n_pretty -> arg = []) /\ (name = n_join -> arg = []) /\ (name = n_flatten -> fl = true).

Lemma flatten_dok json arg o : fl = true -> dok json -> mod_flatten (Datatypes.S (length json)) get json arg = Ok o -> dok o.
Proof using.
  intros Hf [->|(w1 & c & w2 & -> & H1 & Hc & HV & H2)].
  - cbn [length mod_flatten]. intros [= <-]. left. reflexivity.
  - unfold doc. destruct (is_arr c) eqn:Ea.
    + destruct c as [ | | |n|b|w es|w ms]; try discriminate.
      destruct (get_opt_ok arg s_deep) as (dv & Ed & Ha & _); [cbn [optnames In]; tauto|].
      destruct (acc_bool dv (proj2 Ha)) as ([|] & Eb).
      * rewrite (flatten_deep_doc _ _ _ Ed Eb) by auto. intros Eq; apply Ok_inj in Eq; subst o. apply dok_render; [apply wf_mkarr, flat_deep_wf, Hc|].
        apply V_arr; auto. apply Forall_map. apply V_deep in HV. exact HV.
      * rewrite (flatten_doc _ _ _ _ _ _ _ _ Ed Eb); auto.
        -- intros Eq; apply Ok_inj in Eq; subst o. apply dok_render.
           ++ constructor; [constructor|]. apply Forall_flat_map'. eapply Forall_impl; [|exact (wf_items _ _ Hc)].
              intros e [a v b _ Hv _]. apply piece_wf, Hv.
           ++ apply V_arr; auto. apply Forall_flat_map'. apply V_items in HV. eapply Forall_impl; [|exact HV]. intros e. apply V_piece.
        -- apply V_items in HV. eapply Forall_impl; [|exact HV]. intros e. apply V_hollow, Hf.
    + cbn [mod_flatten]. destruct (parse_presents w1 _ w2 H1 Hc H2) as [P1 P2]. rewrite parse_spec. cbn [bind].
      rewrite (pr_kind _ _ P1), kind_arr, Ea. cbn [negb]. intros Eq; apply Ok_inj in Eq; subst o. apply dok_doc; auto.
Qed.
Lemma join_dok json o : dok json -> mod_join get json [] = Ok o -> dok o.
Proof using.
  intros [->|(w1 & c & w2 & -> & H1 & Hc & HV & H2)].
  - intros [= <-]. left. reflexivity.
  - unfold doc. destruct (is_arr c) eqn:Ea.
    + destruct c as [ | | |n|b|w es|w ms]; try discriminate.
      destruct (join_doc get [] value_default w1 w es w2) as (out & -> & M & Ho); auto.
      intros Eq; apply Ok_inj in Eq; subst o. apply dok_render; auto. destruct M as (fs & Hf & HF). apply V_items in HV.
      assert (Hm : Forall (fun m => S (m_key m) /\ V (m_val m)) (all_members es)).
      { apply Forall_flat_map'. eapply Forall_impl; [|exact HV]. intros e He. cbv beta in He. destruct (i_val e) as [ | | |n|b|w' es'|w' ms'];
          cbn [members_of]; try constructor. eapply V_membs, He. }
      apply V_obj. rewrite Forall_forall in Hm. apply Forall_forall. intros m Hin.
      destruct (Forall2_in_r _ _ _ HF m Hin) as (f & Hfi & v & (a & l & b & E & _ & _ & <-) & ->). cbn [m_key m_val].
      split; [apply Hm; eapply firsts_in; eauto|]. apply Hm. rewrite E. apply in_or_app. right. left. reflexivity.
    + unfold mod_join. destruct (parse_presents w1 _ w2 H1 Hc H2) as [P1 P2]. rewrite parse_spec. cbn [bind].
      rewrite (pr_kind _ _ P1), kind_arr, Ea. cbn [negb]. intros Eq; apply Ok_inj in Eq; subst o. apply dok_doc; auto.
Qed.

Lemma apply_dok name json arg o : allowed name arg -> dok json -> mod_apply get name json arg = Ok o -> dok o.
Proof using.
  intros (A1 & A2 & A3) Hd. unfold mod_apply.
  destruct (beq name n_this); [intros [= <-]; exact Hd|].
  destruct (beq name n_reverse).
  { destruct Hd as [->|(w1 & c & w2 & -> & H1 & Hc & HV & H2)]; [intros [= <-]; left; reflexivity|].
    unfold doc. rewrite reverse_doc by auto. intros Eq; apply Ok_inj in Eq; subst o. apply dok_render; auto using wf_reversed, V_reversed. }
  destruct (beq name n_ugly).
  { destruct Hd as [->|(w1 & c & w2 & -> & H1 & Hc & HV & H2)]; [intros [= <-]; left; reflexivity|].
    destruct (ugly_reads (doc w1 c w2) (erase c)) as [-> _]; [exists w1, c, w2; auto|].
    intros Eq; apply Ok_inj in Eq; subst o. rewrite <- render_embed. apply wf_erase in Hc. apply dok_render; [apply wf_embed, Hc|].
    apply (V_erase c); auto; [apply erase_embed | apply swf_tight, swf_embed, Hc]. }
  destruct (beq name n_pretty) eqn:Ep.
  { apply beq_eq in Ep. rewrite (A1 Ep). cbn [mod_pretty].
    destruct Hd as [->|(w1 & c & w2 & -> & H1 & Hc & HV & H2)]; [intros [= <-]; left; reflexivity|].
    unfold pretty. destruct (pretty_out c w1 w2 popts_default) as (c' & Hc' & E & Ht & Eo); auto; [constructor | repeat (constructor; unfold ws_byte; auto)|].
    unfold doc. rewrite Eo. intros Eq; apply Ok_inj in Eq; subst o. cbn [popts_default o_prefix app]. apply (dok_doc [] c' [10%N]); auto; [constructor | |apply ws_cons_lf; constructor].
    apply (V_erase c); auto. }
  destruct (beq name n_valid).
  { unfold mod_valid. destruct (valid_total json) as ([|] & ->); cbn [bind]; intros [= <-]; auto. left. reflexivity. }
  destruct (beq name n_flatten) eqn:Ef; [apply flatten_dok; auto; apply A3, beq_eq, Ef|].
  destruct (beq name n_join) eqn:Ej; [rewrite (A2 (proj1 (beq_eq _ _) Ej)); apply join_dok; auto|].
  intros [= <-]. left. reflexivity.
Qed.

Lemma parse_good o : dok o -> good V ws (json_into_owned (lparse o)).
Proof using.
  intros [->|(w1 & c & w2 & -> & H1 & Hc & HV & H2)]; (split; [left; reflexivity|]); [left; split; reflexivity|].
  right. destruct (parse_presents w1 c w2 H1 Hc H2) as [P1 P2]. exists c, (if is_container c then w2 else []).
  split; auto. split; auto. split; [destruct (is_container c); auto; constructor|].
  apply showsw_into; [apply lparse_one|]. destruct P1 as [P1 P3 _ P4]. unfold doc. constructor; auto.
  - rewrite P2. destruct (is_container c); rewrite ?app_nil_r; auto.
  - destruct c; cbn [is_container]; auto; rewrite P4, P2; reflexivity.
  - intros ->. reflexivity.
Qed.

(** What is allowed in a path. *)
Definition tamef (t : bytes) : Prop :=
  ~ infix (64%N :: n_pretty ++ [58%N]) t /\ ~ infix (64%N :: n_join ++ [58%N]) t /\ (fl = true \/ ~ infix (64%N :: n_flatten) t).
Lemma tame_infix a b : infix a b -> tamef b -> tamef a.
Proof using.
  intros H (H1 & H2 & H3). split; [|split].
  - intros Hi. apply H1. eapply infix_trans; eauto.
  - intros Hi. apply H2. eapply infix_trans; eauto.
  - destruct H3 as [H3|H3]; auto. right. intros Hi. apply H3. eapply infix_trans; eauto.
Qed.
Lemma tame_nil : tamef [].
Proof using.
  assert (H : forall x y, ~ infix (x :: y) []) by (intros x y (a & b & E); destruct a; discriminate).
  split; [apply H|]. split; [apply H | right; apply H].
Qed.
Lemma tame_safe t : tamef t -> calm t.
Proof using. intros (H & _). apply safe_calm, safe_no_pretty, H. Qed.

Lemma mod_good t json v p' : tamef t -> is_modifier (pnext t) = true -> dok json ->
  mod_exec get json (pnext t) = Ok (v, p') -> good V ws v /\ p' = pnext t.
Proof using.
  intros Ht Hm Hd. destruct (mod_exec_parts get _ _ (pnext_shape t) Hm) as (name & arg & Hp & ->).
  pose proof (pin_pnext t) as [I1 _ _]. pose proof (tame_infix _ _ I1 Ht) as (T1 & T2 & T3). clear I1.
  assert (Ha : allowed name arg).
  { assert (Hn : forall n, name = n -> ~ infix (64%N :: n ++ [58%N]) (p_comp (pnext t)) -> arg = []).
    { intros n -> Hi. destruct Hp as [[_ ->]|E]; auto. exfalso. apply Hi. rewrite E. exists [], arg. cbn [app]. rewrite <- app_assoc. reflexivity. }
    split; [|split]; eauto. intros ->. destruct T3 as [|T3]; auto. exfalso. apply T3. destruct Hp as [[-> _]| ->].
    - exists [], []. rewrite app_nil_r. reflexivity.
    - exists [], (58%N :: arg). reflexivity. }
  intros H. apply bind_ok in H as (o & E & H). rewrite parse_spec in H. cbn [bind] in H. injection H as <- <-.
  split; auto. apply parse_good. eapply apply_dok; eauto.
Qed.
End M.

(* ---------- get ---------- *)

(** Modifiers allowed, any text: valid. *)
Lemma get_tame fl text json v : tamef fl text -> dok (fun _ => True) fl json -> get json text = Ok v -> good (V (fun _ => True) fl) ws v.
Proof.
  intros Ht Hj E.
  eapply (get_good (fun _ => True) (V (fun _ => True) fl) (tamef fl) (fun _ => True)) with (W := ws) (D := ws) (n := length text) (text := text) (j := json) (v := v);
      [| | | | | | | | | | | | | |exact (le_n _)|exact Ht|exact Hj|exact E]; auto.
  - apply V_closed.
  - intros n. apply V_num.
  - constructor.
  - apply V_mkarrw.
  - apply (V_mkobjw (fun _ => True) (fun _ => True) fl ltac:(auto) ws).
  - apply tame_nil.
  - intros t H. destruct (split_lines t) as [b u] eqn:Es. exact (tame_infix _ _ _ (split_lines_infix _ _ _ Es) H).
  - intros t H. pose proof (pin_pnext t) as [H1 H2 _]. split; intros; eapply tame_infix; eauto.
  - intros e g r He Hg. apply group_length in Hg as (_ & H1 & H2 & _). split; intros; eapply tame_infix; eauto.
  - intros a p z k q Hp _ _ Hq. split; auto. apply comps_infix in Hq. eapply tame_infix; [exact Hq|].
    eapply tame_infix; [|exact Hp]. exists [a], [z]. reflexivity.
  - intros t j v' p'. apply mod_good.
Qed.

(** The same for UTF-8. *)
Lemma get_tame8 fl text json v : tamef fl text -> utf8 text -> dok utf8 fl json -> get json text = Ok v -> good (V utf8 fl) ws v.
Proof.
  intros Ht Hu Hj E.
  eapply (get_good utf8 (V utf8 fl) (p8 (tamef fl)) utf8) with (W := ws) (D := ws) (n := length text) (text := text) (j := json) (v := v);
      [| | | | | | | | | | | | | |exact (le_n _)|split; [exact Hu|exact Ht]|exact Hj|exact E]; auto.
  - apply V_closed.
  - intros n. apply V_num.
  - constructor.
  - apply V_mkarrw.
  - apply (V_mkobjw utf8 utf8 fl utf8_key_body ws).
  - split; [constructor | apply tame_nil].
  - apply p8_lines, tame_infix.
  - apply p8_pnext, tame_infix.
  - apply p8_group, tame_infix.
  - intros a p z k q H Ha Hz. apply (p8_comps _ (tame_infix fl)) with (a := a) (z := z); auto; lia.
  - intros t j v' p' [_ H]. apply mod_good, H.
Qed.

(* ---------- in terms of valid ---------- *)

Lemma good_valid v V0 : good V0 ws v -> (v_exists v = false /\ v_json v = []) \/ valid (v_json v) = Ok true.
Proof.
  intros [_ [[H1 H2]|(c & w & Hc & _ & Hw & Hs)]].
  - left. unfold v_exists. rewrite H1. auto.
  - right. apply valid_true_iff. apply json_text_cst. exists [], c, w. rewrite (sw_json _ _ _ Hs). repeat split; auto; constructor.
Qed.

Lemma tame_tamef p : tame p -> tamef false p.
Proof. intros (H1 & H2 & H3). split; [exact H3|]. split; [exact H2 | right; exact H1]. Qed.
Lemma no_modifier_tame p : no_modifier p -> tame p.
Proof.
  intros H. assert (G : forall s, ~ contains p (64%N :: s)).
  { intros s (a & b & ->). apply H. apply in_or_app. right. left. reflexivity. }
  repeat split; apply G.
Qed.
Lemma dok_valid json : valid json = Ok true -> dok (fun _ => True) false json.
Proof.
  intros Hv. apply P_Taken.valid_doc in Hv as (w1 & c & w2 & -> & H1 & Hc & H2). apply dok_doc; auto.
  split; [apply Forall_forall; auto | discriminate].
Qed.

Lemma get_valid_tame json p : valid json = Ok true -> tame p ->
  exists v, get json p = Ok v /\ ((v_exists v = false /\ v_json v = []) \/ valid (v_json v) = Ok true).
Proof.
  intros Hv Hp. apply tame_tamef in Hp. destruct (get_total json p (tame_safe _ _ Hp)) as [v E]. exists v. split; auto.
  eapply good_valid, (get_tame false); eauto. apply dok_valid, Hv.
Qed.
Lemma get_valid_tight w1 c w2 p : ws w1 -> wf c -> ws w2 -> tight c = true ->
  ~ contains p (64%N :: n_join ++ [58%N]) -> ~ contains p (64%N :: n_pretty ++ [58%N]) ->
  exists v, get (w1 ++ render c ++ w2) p = Ok v /\ ((v_exists v = false /\ v_json v = []) \/ valid (v_json v) = Ok true).
Proof.
  intros H1 Hc H2 Ht P1 P2. assert (Hp : tamef true p) by (split; [exact P2|]; split; [exact P1 | left; reflexivity]).
  destruct (get_total (w1 ++ render c ++ w2) p (tame_safe _ _ Hp)) as [v E]. exists v. split; auto.
  eapply good_valid, (get_tame true); eauto. apply dok_doc; auto.
  split; [apply Forall_forall; auto | auto].
Qed.

(* ---------- everything taken from a document ---------- *)

Lemma good_presents V0 v : good V0 ws v -> absent v \/ exists c, wf c /\ presents v c.
Proof.
  intros [_ [[H1 H2]|(c & w & Hc & _ & Hw & [S1 S2 S3 S4 S5])]]; [left; apply empty_absent; auto|].
  right. exists c. split; auto. constructor; auto.
  - exists w. split; auto. split; auto. intros Hs. apply S5. destruct c; auto; destruct Hs.
  - rewrite S4, S2. destruct c; reflexivity.
Qed.
Lemma taken_presents json v : valid json = Ok true -> taken json v -> absent v \/ exists c, wf c /\ presents v c.
Proof.
  intros Hv. pose proof (dok_valid _ Hv) as Hd0. apply P_Taken.valid_doc in Hv as (w1 & c & w2 & E & H1 & Hc & H2).
  induction 1 as [v Ev|p v Hp Ev|u p v Hu IH Hp Ev|u l k x Hu IH Ev Hi|u l k x Hu IH Ev Hi|u l x Hu IH Ev Hi].
  - right. exists c. split; auto. rewrite E in Ev. destruct (parse_doc w1 c w2 H1 Hc H2) as (v' & E' & P1 & P2 & P3 & P4).
    unfold doc in Ev. rewrite E' in Ev. injection Ev as <-. constructor; auto.
    + exists (if is_container c then w2 else []). repeat split.
      * destruct (is_container c); auto. constructor.
      * rewrite P3. destruct (is_container c); rewrite ?app_nil_r; auto.
      * destruct c; cbn; tauto.
    + destruct c; cbn in P4, P2; auto; unfold v_str; rewrite P2; reflexivity.
  - eapply good_presents, get_tame; eauto using tame_tamef.
  - eapply good_presents, good_get_dj; [| | |exact Ev].
    + intros j r Hj Er. eapply get_tame; eauto using tame_tamef.
    + apply (w_one _ (returned_Wv _ (taken_returned _ _ Hu))).
    + destruct IH as [(_ & _ & -> & _)|(d & Hd & Hs)]; [left; reflexivity|].
      destruct (pr_json _ _ Hs) as (w & Hw & -> & _). apply (dok_doc (fun _ => True) false [] d w); auto; [constructor|].
      split; [apply Forall_forall; auto | discriminate].
  - destruct IH as [(Ha & Hk & _)|(d & Hd & Hs)].
    { rewrite v_each_spec, Ha in Ev. injection Ev as <-. destruct Hi. }
    destruct (pr_json _ _ Hs) as (w & Hw & Ej & _). pose proof (pr_kind _ _ Hs) as Hk.
    assert (Hsc : is_container d = false -> absent k).
    { intros Hco. destruct (each_scalar u (pr_exists _ _ Hs)) as (y & _ & _ & _ & Ey); [destruct d; rewrite Hk; discriminate..|].
      rewrite Ey in Ev. cbn in Ev. injection Ev as <-. destruct Hi as [Hi|[]]. injection Hi as <- _. repeat split. }
    destruct d as [ | | |n|b|w' es|w' ms]; auto.
    + destruct (each_array u w' es w Hd Hk Ej) as (vs & _ & _ & Ee). rewrite Ee in Ev.
      rewrite (visit_record (fun x => (value_default, x))) in Ev. injection Ev as <-. rewrite app_nil_r, <- in_rev in Hi.
      apply in_map_iff in Hi as (y & Ey & _). injection Ey as <- _. left. repeat split.
    + destruct (each_object u w' ms w Hd Hk Ej) as (kvs & Hf & Ee). rewrite Ee in Ev.
      rewrite (visit_record (fun x => x)) in Ev. injection Ev as <-. rewrite app_nil_r, <- in_rev, map_id in Hi.
      pose proof (wf_membs _ _ Hd) as Hms. clear Ee Hs Hd Hk Ej Hsc.
      induction Hf as [|m kv ms kvs [F1 F2] Hf IH]; [destruct Hi|]. inversion Hms; subst. destruct Hi as [->|Hi]; auto.
      right. exists (CStr (m_key m)). split; [constructor; apply memb_chars; auto | apply shows_presents; exact F1].
  - destruct IH as [(Ha & Hk & _)|(d & Hd & Hs)].
    { rewrite v_each_spec, Ha in Ev. injection Ev as <-. destruct Hi. }
    destruct (pr_json _ _ Hs) as (w & Hw & Ej & Hsw). pose proof (pr_kind _ _ Hs) as Hk.
    assert (Hsc : is_container d = false -> wf d /\ presents x d).
    { intros Hco. split; auto. destruct (each_scalar u (pr_exists _ _ Hs)) as (y & E1 & E2 & E3 & Ey); [destruct d; rewrite Hk; discriminate..|].
      rewrite Ey in Ev. cbn in Ev. injection Ev as <-. destruct Hi as [Hi|[]]. injection Hi as _ <-.
      constructor.
      - unfold v_exists. rewrite E1. exact (pr_exists _ _ Hs).
      - congruence.
      - exists w. rewrite E1. auto.
      - rewrite E1, E3. exact (pr_str _ _ Hs). }
    destruct d as [ | | |n|b|w' es|w' ms]; eauto.
    + destruct (each_array u w' es w Hd Hk Ej) as (vs & Hf & _ & Ee). rewrite Ee in Ev.
      rewrite (visit_record (fun x => (value_default, x))) in Ev. injection Ev as <-. rewrite app_nil_r, <- in_rev in Hi.
      apply in_map_iff in Hi as (y & Ey & Hi). injection Ey as _ ->. pose proof (wf_items _ _ Hd) as Hes. clear - Hf Hi Hes.
      induction Hf as [|e z es vs F Hf IH]; [destruct Hi|]. inversion Hes; subst. destruct Hi as [->|Hi]; auto.
      right. exists (i_val e). auto using wf_ival, shows_presents.
    + destruct (each_object u w' ms w Hd Hk Ej) as (kvs & Hf & Ee). rewrite Ee in Ev.
      rewrite (visit_record (fun x => x)) in Ev. injection Ev as <-. rewrite app_nil_r, <- in_rev, map_id in Hi.
      pose proof (wf_membs _ _ Hd) as Hms. clear - Hf Hi Hms.
      induction Hf as [|m kv ms kvs [F1 F2] Hf IH]; [destruct Hi|]. inversion Hms; subst. destruct Hi as [->|Hi]; auto.
      right. exists (m_val m). auto using wf_mval, shows_presents.
  - destruct IH as [(Ha & Hk & _)|(d & Hd & Hs)].
    { rewrite (array_other u) in Ev by (rewrite Hk; discriminate). injection Ev as <-. destruct Hi. }
    destruct (pr_json _ _ Hs) as (w & Hw & Ej & Hsw). pose proof (pr_kind _ _ Hs) as Hk.
    destruct d as [ | | |n|b|w' es|w' ms]; try (rewrite (array_other u) in Ev by (rewrite Hk; discriminate); injection Ev as <-; destruct Hi).
    destruct (each_array u w' es w Hd Hk Ej) as (vs & Hf & Ea & _). rewrite Ea in Ev. injection Ev as <-.
    pose proof (wf_items _ _ Hd) as Hes. clear - Hf Hi Hes.
    induction Hf as [|e z es vs F Hf IH]; [destruct Hi|]. inversion Hes; subst. destruct Hi as [->|Hi]; auto.
    right. exists (i_val e). auto using wf_ival, shows_presents.
Qed.
