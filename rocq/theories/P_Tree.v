(** Documents without whitespace: minimal text, and what [ugly] does. *)
From Verif Require Import P_Base P_Json P_Valid P_ValidSpec P_Str P_Scan P_Each P_Doc P_Ugly M_Valid M_Pretty.
From Verif Require Import S_Mod.
From Verif Require Export S_Tree.

Lemma tree_ind' (P : tree -> Prop) :
  P TNull -> P TTrue -> P TFalse -> (forall n, P (TNum n)) -> (forall b, P (TStr b)) ->
  (forall es, Forall P es -> P (TArr es)) ->
  (forall ms, Forall (fun m => P (snd m)) ms -> P (TObj ms)) ->
  forall t, P t.
Proof.
  intros H1 H2 H3 H4 H5 H6 H7.
  fix IH 1. intros [ | | |n|b|es|ms].
  - exact H1.
  - exact H2.
  - exact H3.
  - apply H4.
  - apply H5.
  - apply H6. induction es as [|e es IHes]; constructor; [apply IH | exact IHes].
  - apply H7. induction ms as [|[k v] ms IHms]; constructor; [apply IH | exact IHms].
Qed.

(** A tree as a document without whitespace. *)
Fixpoint embed (t : tree) : cst :=
  match t with
  | TNull => CNull
  | TTrue => CTrue
  | TFalse => CFalse
  | TNum n => CNum n
  | TStr b => CStr b
  | TArr es => CArr [] (map (fun e => Item [] (embed e) []) es)
  | TObj ms => CObj [] (map (fun m => match m with (k, v) => Memb [] k [] [] (embed v) [] end) ms)
  end.

Lemma map_ext_Forall {A B} (f g : A -> B) l : Forall (fun x => f x = g x) l -> map f l = map g l.
Proof. induction 1; simpl; congruence. Qed.

Lemma erase_embed t : erase (embed t) = t.
Proof.
  induction t as [ | | |n|b|es IH|ms IH] using tree_ind'; auto; cbn [embed erase]; f_equal; rewrite map_map.
  - rewrite <- (map_id es) at 2. apply map_ext_Forall. exact IH.
  - rewrite <- (map_id ms) at 2. apply map_ext_Forall. revert IH. apply Forall_impl.
    intros [k v]. simpl. congruence.
Qed.

Lemma render_embed t : render (embed t) = minimal t.
Proof.
  induction t as [ | | |n|b|es IH|ms IH] using tree_ind'; auto; cbn [embed render minimal]; cbn [app].
  - f_equal. f_equal. f_equal. rewrite map_map. apply map_ext_Forall. revert IH. apply Forall_impl.
    intros t E. cbn [render_item]. cbn [app]. rewrite app_nil_r. exact E.
  - f_equal. f_equal. f_equal. rewrite map_map. apply map_ext_Forall. revert IH. apply Forall_impl.
    intros [k v] E. cbn [render_memb snd] in *. cbn [app]. rewrite app_nil_r, E. reflexivity.
Qed.

(** Trees of well-formed documents. *)
Inductive twf : tree -> Prop :=
| twf_null : twf TNull
| twf_true : twf TTrue
| twf_false : twf TFalse
| twf_num n : number n -> twf (TNum n)
| twf_str b : chars b -> twf (TStr b)
| twf_arr es : Forall twf es -> twf (TArr es)
| twf_obj ms : Forall (fun m => chars (fst m) /\ twf (snd m)) ms -> twf (TObj ms).

Lemma wf_erase c : wf c -> twf (erase c).
Proof.
  induction c as [ | | |n|b|w es IH|w ms IH] using cst_ind'; intros H; inversion H; subst; cbn [erase]; constructor; auto.
  - match goal with H : Forall wf_item _ |- _ => rename H into Hes end.
    rewrite Forall_forall in *. intros t Ht. apply in_map_iff in Ht as ([a v b] & <- & Hin).
    specialize (Hes _ Hin). inversion Hes; subst. apply (IH _ Hin); auto.
  - match goal with H : Forall wf_memb _ |- _ => rename H into Hes end.
    rewrite Forall_forall in *. intros t Ht. apply in_map_iff in Ht as ([a k b c v d] & <- & Hin).
    specialize (Hes _ Hin). inversion Hes; subst. split; auto. apply (IH _ Hin); auto.
Qed.

(** The same without whitespace behind the opening brackets. *)
Inductive swf : cst -> Prop :=
| swf_null : swf CNull
| swf_true : swf CTrue
| swf_false : swf CFalse
| swf_num : forall n, number n -> swf (CNum n)
| swf_str : forall b, chars b -> swf (CStr b)
| swf_arr : forall w es, w = [] -> Forall swf_item es -> swf (CArr w es)
| swf_obj : forall w ms, w = [] -> Forall swf_memb ms -> swf (CObj w ms)
with swf_item : item cst -> Prop :=
| swf_item_intro : forall a v b, ws a -> swf v -> ws b -> swf_item (Item a v b)
with swf_memb : memb cst -> Prop :=
| swf_memb_intro : forall a k b c v d,
    ws a -> chars k -> ws b -> ws c -> swf v -> ws d -> swf_memb (Memb a k b c v d).

Lemma swf_wf c : swf c -> wf c.
Proof.
  induction c as [ | | |n|b|w es IH|w ms IH] using cst_ind'; intros H; inversion H; subst; constructor; auto; try constructor.
  - rewrite Forall_forall in *. intros e He. specialize (IH e He).
    match goal with H : forall x, In x es -> swf_item x |- _ => destruct (H e He) end. constructor; auto.
  - rewrite Forall_forall in *. intros e He. specialize (IH e He).
    match goal with H : forall x, In x ms -> swf_memb x |- _ => destruct (H e He) end. constructor; auto.
Qed.
Lemma swf_tight c : swf c -> tight c = true.
Proof.
  induction c as [ | | |n|b|w es IH|w ms IH] using cst_ind'; intros H; inversion H; subst; cbn [tight]; auto; try constructor.
  - cbn [andb]. apply forallb_forall. intros e He. rewrite Forall_forall in *. specialize (IH e He).
    match goal with H : forall x, In x es -> swf_item x |- _ => destruct (H e He) end. auto.
  - apply forallb_forall. intros e He. rewrite Forall_forall in *. specialize (IH e He).
    match goal with H : forall x, In x ms -> swf_memb x |- _ => destruct (H e He) end. auto.
Qed.

Lemma swf_embed t : twf t -> swf (embed t).
Proof.
  induction t as [ | | |n|b|es IH|ms IH] using tree_ind'; intros H; inversion H; subst; cbn [embed]; constructor; auto.
  - rewrite Forall_forall in *. intros c Hc. apply in_map_iff in Hc as (e & <- & Hin).
    constructor; try constructor. auto.
  - rewrite Forall_forall in *. intros c Hc. apply in_map_iff in Hc as ([k v] & <- & Hin).
    match goal with H : forall x, In x ms -> chars _ /\ _ |- _ => destruct (H _ Hin) end.
    constructor; auto; try constructor. apply (IH _ Hin). auto.
Qed.
Lemma wf_embed t : twf t -> wf (embed t).
Proof. intros H. apply swf_wf, swf_embed, H. Qed.

(* ---------- ugly ---------- *)

Lemma lugly_skip a r : Forall (fun c => (c <= 32)%N) a -> lugly (a ++ r) = lugly r.
Proof.
  induction 1 as [|c t Hc _ IH]; auto. cbn [app]. rewrite lugly_cons.
  replace (32 <? c)%N with false by lia. exact IH.
Qed.
Lemma ws_le w : ws w -> Forall (fun c => (c <= 32)%N) w.
Proof. apply Forall_impl. intros c H. unfold ws_byte in H. lia. Qed.

Lemma lugly_keep a r : Forall (fun c => (32 < c)%N /\ c <> 34%N) a -> lugly (a ++ r) = a ++ lugly r.
Proof.
  induction 1 as [|c t [H1 H2] _ IH]; auto. cbn [app]. rewrite lugly_cons.
  replace (32 <? c)%N with true by lia. replace (c =? 34)%N with false by lia. rewrite IH. reflexivity.
Qed.
Lemma lugly_keep1 c r : (32 < c)%N -> c <> 34%N -> lugly (c :: r) = c :: lugly r.
Proof. intros. apply (lugly_keep [c] r). auto. Qed.

Lemma lugly_quoted b r : chars b -> lugly (quoted b ++ r) = quoted b ++ lugly r.
Proof.
  intros H. rewrite quoted_app_cons, lugly_cons. cbn [N.ltb N.eqb Pos.eqb].
  change (32 <? 34)%N with true. cbv match. rewrite chars_split by auto.
  unfold quoted. apps. reflexivity.
Qed.

Lemma lugly_commas {A} (f g : A -> bytes) (l : list A) r :
  (forall x r, In x l -> lugly (f x ++ r) = g x ++ lugly r) ->
  lugly (commas (map f l) ++ r) = commas (map g l) ++ lugly r.
Proof.
  intros H. induction l as [|x l IH]; auto. destruct l as [|y l].
  - cbn [map commas]. apply H. left; auto.
  - cbn [map]. rewrite (commas_cons (f x)), (commas_cons (g x)) by discriminate. rewrite <- !app_assoc, H by (left; auto).
    cbn [app]. rewrite lugly_keep1 by lia. f_equal. f_equal. apply IH. intros. apply H. right; auto.
Qed.

Lemma numish_gt n : Forall numish n -> Forall (fun c => (32 < c)%N /\ c <> 34%N) n.
Proof. apply Forall_impl. intros c H. unfold numish, numch in H. lia. Qed.

Lemma lugly_render c : wf c -> forall r, lugly (render c ++ r) = minimal (erase c) ++ lugly r.
Proof.
  induction c as [ | | |n|b|w es IH|w ms IH] using cst_ind'; intros Hc r.
  - reflexivity.
  - reflexivity.
  - reflexivity.
  - inversion Hc; subst. apply lugly_keep, numish_gt, number_numish; auto.
  - inversion Hc; subst. apply lugly_quoted; auto.
  - inversion Hc as [| | | | |w' es' Hw Hes|]; subst. cbn [render erase minimal]. apps.
    rewrite lugly_keep1 by lia. f_equal. rewrite lugly_skip by (apply ws_le; auto). rewrite map_map.
    rewrite (lugly_commas _ (fun e => minimal match e with Item _ v _ => erase v end)).
    + rewrite lugly_keep1 by lia. reflexivity.
    + intros x r' Hin. rewrite Forall_forall in IH, Hes. specialize (IH _ Hin). specialize (Hes _ Hin).
      destruct Hes as [a v b Ha Hv Hb]. cbn [render_item i_val] in *. apps.
      rewrite lugly_skip by (apply ws_le; auto). rewrite IH by auto. f_equal.
      apply lugly_skip, ws_le; auto.
  - inversion Hc as [| | | | | |w' ms' Hw Hms]; subst. cbn [render erase minimal]. apps.
    rewrite lugly_keep1 by lia. f_equal. rewrite lugly_skip by (apply ws_le; auto). rewrite map_map.
    rewrite (lugly_commas _ (fun e => match (match e with Memb _ k _ _ v _ => (k, erase v) end) with (k, v) => quoted k ++ 58%N :: minimal v end)).
    + rewrite lugly_keep1 by lia. reflexivity.
    + intros x r' Hin. rewrite Forall_forall in IH, Hms. specialize (IH _ Hin). specialize (Hms _ Hin).
      destruct Hms as [a k b c v e Ha Hk Hb Hc' Hv He]. cbn [render_memb m_val] in *. apps.
      rewrite lugly_skip by (apply ws_le; auto). rewrite lugly_quoted by auto. f_equal.
      rewrite lugly_skip by (apply ws_le; auto). rewrite lugly_keep1 by lia. f_equal.
      rewrite lugly_skip by (apply ws_le; auto). rewrite IH by auto. f_equal.
      apply lugly_skip, ws_le; auto.
Qed.

Lemma lugly_ws w : ws w -> lugly w = [].
Proof. intros H. rewrite <- (app_nil_r w), lugly_skip by (apply ws_le; auto). reflexivity. Qed.

Lemma lugly_text c w1 w2 : wf c -> ws w1 -> ws w2 -> lugly (w1 ++ render c ++ w2) = minimal (erase c).
Proof.
  intros Hc H1 H2. rewrite lugly_skip by (apply ws_le; auto). rewrite lugly_render by auto.
  rewrite lugly_ws by auto. apply app_nil_r.
Qed.

Lemma lugly_minimal t r : twf t -> lugly (minimal t ++ r) = minimal t ++ lugly r.
Proof.
  intros H. rewrite <- render_embed at 1. rewrite lugly_render by (apply wf_embed; auto).
  rewrite erase_embed. reflexivity.
Qed.

Lemma valid_render c w1 w2 : wf c -> ws w1 -> ws w2 -> valid (w1 ++ render c ++ w2) = Ok true.
Proof. intros Hc H1 H2. apply valid_true_iff. exists w1, (render c), w2. repeat split; auto. apply cst_to_grammar; auto. Qed.

Lemma valid_minimal t : twf t -> valid (minimal t) = Ok true.
Proof.
  intros H. rewrite <- render_embed. rewrite <- (app_nil_r (render (embed t))). rewrite <- (app_nil_l (_ ++ [])).
  apply valid_render; try constructor. apply wf_embed; auto.
Qed.

(** Every valid document is the text of a tree. *)
Lemma valid_doc json : valid json = Ok true <-> exists w1 c w2, ws w1 /\ wf c /\ ws w2 /\ json = w1 ++ render c ++ w2.
Proof.
  rewrite valid_true_iff. unfold json_text. split.
  - intros (w1 & v & w2 & H1 & H2 & H3 & ->). apply json_value_cst in H2 as (c & Hc & <-). exists w1, c, w2. auto.
  - intros (w1 & c & w2 & H1 & H2 & H3 & ->). exists w1, (render c), w2. repeat split; auto. apply cst_to_grammar; auto.
Qed.

Lemma ugly_doc c w1 w2 : wf c -> ws w1 -> ws w2 ->
  ugly (w1 ++ render c ++ w2) = Ok (minimal (erase c)).
Proof. intros. rewrite ugly_spec, lugly_text; auto. Qed.
Lemma ugly_idem_doc c : wf c -> ugly (minimal (erase c)) = Ok (minimal (erase c)) /\ valid (minimal (erase c)) = Ok true.
Proof.
  intros H. apply wf_erase in H. split; [|apply valid_minimal; auto].
  rewrite ugly_spec. f_equal. rewrite <- (app_nil_r (minimal _)) at 1. rewrite lugly_minimal by auto.
  rewrite lugly_nil. apply app_nil_r.
Qed.

Lemma reads_valid s : valid s = Ok true <-> exists t, reads s t.
Proof.
  rewrite valid_doc. unfold reads. split.
  - intros (w1 & c & w2 & H1 & H2 & H3 & E). exists (erase c), w1, c, w2. auto.
  - intros (t & w1 & c & w2 & H1 & H2 & H3 & E & _). exists w1, c, w2. auto.
Qed.
Lemma reads_minimal t : twf t -> reads (minimal t) t.
Proof.
  intros H. exists [], (embed t), []. rewrite render_embed, erase_embed, app_nil_r.
  repeat split; auto; try constructor. apply wf_embed; auto.
Qed.
Lemma reads_twf s t : reads s t -> twf t.
Proof. intros (w1 & c & w2 & H1 & H2 & H3 & E & <-). apply wf_erase; auto. Qed.
Lemma ugly_reads s t : reads s t -> ugly s = Ok (minimal t) /\ reads (minimal t) t.
Proof.
  intros H. pose proof (reads_twf _ _ H) as Hw. destruct H as (w1 & c & w2 & H1 & H2 & H3 & -> & <-).
  split; [apply ugly_doc; auto | apply reads_minimal; auto].
Qed.
Lemma ugly_valid s : valid s = Ok true ->
  exists u, ugly s = Ok u /\ valid u = Ok true /\ ugly u = Ok u.
Proof.
  intros H. apply reads_valid in H as [t Ht]. destruct (ugly_reads _ _ Ht) as [H1 H2].
  exists (minimal t). split; auto. split; [apply reads_valid; eauto | apply (ugly_reads _ _ H2)].
Qed.
Lemma ugly_total s : exists u, ugly s = Ok u.
Proof. rewrite ugly_spec. eauto. Qed.
