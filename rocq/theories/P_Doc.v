(** The scanners on the text of a well-formed tree. *)
From Verif Require Import P_Base P_Json P_Valid P_ValidSpec P_Str P_Scan P_Each
  M_Util M_Scan M_Value.

(* ---------- strings and brackets ---------- *)

Lemma hex_not c : hex c -> (c =? 34)%N = false /\ (c =? 92)%N = false.
Proof. unfold hex. lia. Qed.

Lemma split_plain c t : (c =? 34)%N = false -> (c =? 92)%N = false ->
  split_str (c :: t) = match split_str t with Some (b, r) => Some (c :: b, r) | None => None end.
Proof. intros H1 H2. cbn [split_str]. rewrite H1, H2. reflexivity. Qed.

Lemma chars_split b r : chars b -> split_str (b ++ 34%N :: r) = Some (b, r).
Proof.
  induction 1 as [|c t [H1 [H2 H3]] _ IH|e t He _ IH|x y z w t Hx Hy Hz Hw _ IH]; cbn [app].
  - reflexivity.
  - rewrite split_plain by lia. rewrite IH. reflexivity.
  - cbn [split_str N.eqb Pos.eqb]. rewrite IH. reflexivity.
  - cbn [split_str N.eqb Pos.eqb].
    apply hex_not in Hx as [-> ->]. apply hex_not in Hy as [-> ->].
    apply hex_not in Hz as [-> ->]. apply hex_not in Hw as [-> ->].
    rewrite IH. reflexivity.
Qed.

Lemma quoted_app_cons b r : quoted b ++ r = 34%N :: b ++ 34%N :: r.
Proof. unfold quoted. apps. reflexivity. Qed.

Lemma sq_quoted d b r : chars b -> sq false d (quoted b ++ r) = sq false d r.
Proof.
  intros H. rewrite quoted_app_cons. cbn [sq N.eqb Pos.eqb negb]. rewrite sq_string, chars_split by auto.
  reflexivity.
Qed.

Definition sq_neutral (c : N) : Prop := is_open c = false /\ is_close c = false /\ c <> 34%N /\ c <> 92%N.
Lemma sq_skip d a r : Forall sq_neutral a -> sq false d (a ++ r) = sq false d r.
Proof.
  induction 1 as [|c t (H1 & H2 & H3 & H4) _ IH]; auto. cbn [app sq].
  replace (c =? 92)%N with false by lia. replace (c =? 34)%N with false by lia.
  rewrite H1, H2. exact IH.
Qed.

Lemma ws_neutral w : ws w -> Forall sq_neutral w.
Proof.
  apply Forall_impl. intros c H. unfold ws_byte in H. unfold sq_neutral, is_open, is_close. lia.
Qed.

Lemma digit_neutral ds : Forall digit ds -> Forall sq_neutral ds.
Proof.
  apply Forall_impl. intros c H. unfold digit in H. unfold sq_neutral, is_open, is_close. lia.
Qed.

Definition numish (c : N) : Prop := numch c = true.

Lemma digit_numish ds : Forall digit ds -> Forall numish ds.
Proof. apply Forall_impl. intros c H. unfold digit in H. unfold numish, numch. lia. Qed.

Lemma number_numish n : number n -> Forall numish n.
Proof.
  intros [m i f e Hm Hi Hf He]. repeat (apply Forall_app; split).
  - destruct Hm as [->| ->]; repeat constructor.
  - destruct Hi as [|d ds Hd Hds]; [repeat constructor|]. constructor.
    + unfold numish, numch. lia.
    + apply digit_numish; auto.
  - destruct Hf as [|ds [_ Hds]]; [constructor|]. constructor; [reflexivity | apply digit_numish; auto].
  - destruct He as [|e s ds He Hs [_ Hds]]; [constructor|]. constructor.
    + destruct He as [->| ->]; reflexivity.
    + apply Forall_app. split; [|apply digit_numish; auto].
      destruct Hs as [->|[->| ->]]; repeat constructor.
Qed.

Lemma numish_neutral n : Forall numish n -> Forall sq_neutral n.
Proof.
  apply Forall_impl. intros c H. unfold numish, numch in H. unfold sq_neutral, is_open, is_close. lia.
Qed.

Lemma number_head n : number n -> exists c t, n = c :: t /\ (48 <= c <= 57 \/ c = 45)%N.
Proof.
  intros [m i f e Hm Hi Hf He]. destruct Hm as [->| ->].
  - destruct Hi as [|d ds Hd Hds]; cbn [app]; do 2 eexists; (split; [reflexivity | lia]).
  - cbn [app]. do 2 eexists. split; [reflexivity | lia].
Qed.

Lemma sq_open d c t : (c = 91 \/ c = 123)%N -> sq false d (c :: t) = sq false (S d) t.
Proof. intros [->| ->]; reflexivity. Qed.

Lemma sq_commas {A} (f : A -> bytes) (l : list A) d r :
  (forall x r d, In x l -> sq false d (f x ++ r) = sq false d r) ->
  sq false d (commas (map f l) ++ r) = sq false d r.
Proof.
  intros H. induction l as [|x l IH]; auto. destruct l as [|y l].
  - cbn [map commas]. apply H. left; auto.
  - cbn [map]. rewrite commas_cons by discriminate. rewrite <- app_assoc, H by (left; auto).
    cbn [app]. change (sq false d (44%N :: ?t)) with (sq false d t).
    cbn [sq N.eqb Pos.eqb is_open is_close orb]. apply IH. intros. apply H. right; auto.
Qed.

Lemma sq_render c : wf c -> forall d r, sq false d (render c ++ r) = sq false d r.
Proof.
  induction c as [ | | |n|b|w es IH|w ms IH] using cst_ind'; intros Hc d r.
  - reflexivity.
  - reflexivity.
  - reflexivity.
  - inversion Hc; subst. apply sq_skip, numish_neutral, number_numish; auto.
  - inversion Hc; subst. apply sq_quoted; auto.
  - inversion Hc as [| | | | |w' es' Hw Hes|]; subst. cbn [render]. apps.
    rewrite sq_open by auto. rewrite sq_skip by (apply ws_neutral; auto).
    rewrite sq_commas; [reflexivity|].
    intros x r' d' Hin. rewrite Forall_forall in IH, Hes. specialize (IH _ Hin). specialize (Hes _ Hin).
    destruct Hes as [a v b Ha Hv Hb]. cbn [render_item i_val] in *. apps.
    rewrite sq_skip by (apply ws_neutral; auto). rewrite IH by auto.
    apply sq_skip, ws_neutral; auto.
  - inversion Hc as [| | | | | |w' ms' Hw Hms]; subst. cbn [render]. apps.
    rewrite sq_open by auto. rewrite sq_skip by (apply ws_neutral; auto).
    rewrite sq_commas; [reflexivity|].
    intros x r' d' Hin. rewrite Forall_forall in IH, Hms. specialize (IH _ Hin). specialize (Hms _ Hin).
    destruct Hms as [a k b c v e Ha Hk Hb Hc' Hv He]. cbn [render_memb m_val] in *. apps.
    rewrite sq_skip by (apply ws_neutral; auto). rewrite sq_quoted by auto.
    rewrite sq_skip by (apply ws_neutral; auto).
    change (sq false d' (58%N :: ?t)) with (sq false d' t).
    cbn [sq N.eqb Pos.eqb is_open is_close orb].
    rewrite sq_skip by (apply ws_neutral; auto). rewrite IH by auto.
    apply sq_skip, ws_neutral; auto.
Qed.

(** A container's text ends where its first bracket is closed. *)
Lemma sq_container c h t r : wf c -> render c = h :: t -> (h = 91 \/ h = 123)%N ->
  sq false 0 (t ++ r) = Some r.
Proof.
  intros Hc E Hh. destruct c as [ | | |n|b|w es|w ms].
  - cbn in E. inversion E; subst; lia.
  - cbn in E. inversion E; subst; lia.
  - cbn in E. inversion E; subst; lia.
  - inversion Hc; subst. cbn [render] in E. destruct (number_head n) as (c & t' & -> & Hn); auto.
    inversion E; subst. lia.
  - cbn in E. unfold quoted in E. inversion E; subst; lia.
  - cbn [render] in E. inversion E; subst h t. inversion Hc as [| | | | |w' es' Hw Hes|]; subst.
    rewrite <- !app_assoc. rewrite sq_skip by (apply ws_neutral; auto).
    rewrite sq_commas; [reflexivity|].
    intros x r' d' Hin. rewrite Forall_forall in Hes. specialize (Hes _ Hin).
    destruct Hes as [a v b Ha Hv Hb]. cbn [render_item i_val] in *. apps.
    rewrite sq_skip by (apply ws_neutral; auto). rewrite sq_render by auto.
    apply sq_skip, ws_neutral; auto.
  - cbn [render] in E. inversion E; subst h t. inversion Hc as [| | | | | |w' ms' Hw Hms]; subst.
    rewrite <- !app_assoc. rewrite sq_skip by (apply ws_neutral; auto).
    rewrite sq_commas; [reflexivity|].
    intros x r' d' Hin. rewrite Forall_forall in Hms. specialize (Hms _ Hin).
    destruct Hms as [a k b c v e Ha Hk Hb Hc' Hv He]. cbn [render_memb m_val] in *. apps.
    rewrite sq_skip by (apply ws_neutral; auto). rewrite sq_quoted by auto.
    rewrite sq_skip by (apply ws_neutral; auto).
    cbn [sq N.eqb Pos.eqb is_open is_close orb].
    rewrite sq_skip by (apply ws_neutral; auto). rewrite sq_render by auto.
    apply sq_skip, ws_neutral; auto.
Qed.

(* ---------- values ---------- *)

(** The info bits of the value of a tree. *)
Definition ginfo (c : cst) : N :=
  match c with
  | CNull => INFO_NULL
  | CTrue => INFO_TRUE
  | CFalse => INFO_FALSE
  | CNum n => match n with
              | h :: t => N.lor (num_info (sign_info h) t) INFO_NUMBER
              | [] => INFO_NUMBER
              end
  | CStr b => N.lor (esc_info b) INFO_STRING
  | CArr _ _ => INFO_ARRAY
  | CObj _ _ => INFO_OBJECT
  end.

Lemma lnum_stop_follow r : follow r -> match r with [] => True | c :: _ => num_stop c = true end.
Proof.
  destruct r as [|c t]; auto. simpl. intros H. unfold follow_byte, ws_byte in H.
  unfold num_stop, numch. lia.
Qed.

Lemma dropw_number n r : Forall numish n -> follow r -> dropw num_stop (n ++ r) = r.
Proof.
  intros Hn Hr. rewrite dropw_app.
  - apply dropw_stop, lnum_stop_follow; auto.
  - revert Hn. apply Forall_impl. intros c H. unfold num_stop. rewrite H. reflexivity.
Qed.

Lemma lflat_render c r : wf c -> follow r -> lflat (render c ++ r) = (render c, ginfo c, r).
Proof.
  intros Hc Hr. destruct c as [ | | |n|b|w es|w ms].
  - reflexivity.
  - reflexivity.
  - reflexivity.
  - inversion Hc; subst. cbn [render]. pose proof (number_numish n H0) as Hn.
    destruct (number_head n H0) as (h & t & -> & Hh). cbn [app lflat ginfo].
    replace (h =? 34)%N with false by lia. replace ((h =? 123) || (h =? 91))%N with false by lia.
    replace (((48 <=? h) && (h <=? 57)) || (h =? 45))%N with true by lia.
    inversion Hn; subst. rewrite dropw_number by auto. rewrite upto_app. reflexivity.
  - inversion Hc; subst. cbn [render]. rewrite quoted_app_cons. cbn [lflat N.eqb Pos.eqb].
    rewrite chars_split by auto. reflexivity.
  - destruct (render (CArr w es)) as [|h t] eqn:E; [discriminate|].
    assert (h = 91%N) as -> by (cbn [render] in E; congruence).
    pose proof (sq_container _ _ _ r Hc E ltac:(auto)) as Hs.
    cbn [app lflat]. cbn [N.eqb Pos.eqb orb]. rewrite Hs.
    rewrite app_comm_cons, upto_app. reflexivity.
  - destruct (render (CObj w ms)) as [|h t] eqn:E; [discriminate|].
    assert (h = 123%N) as -> by (cbn [render] in E; congruence).
    pose proof (sq_container _ _ _ r Hc E ltac:(auto)) as Hs.
    cbn [app lflat]. cbn [N.eqb Pos.eqb orb]. rewrite Hs.
    rewrite app_comm_cons, upto_app. reflexivity.
Qed.

Lemma ginfo_nz c : (ginfo c =? 0)%N = false.
Proof.
  destruct c as [ | | |n|b|w es|w ms]; try reflexivity; cbn [ginfo].
  - destruct n; auto. apply N.eqb_neq. intros E. apply N.lor_eq_0_iff in E as [_ E]. discriminate.
  - unfold esc_info. destruct (hasbsl b); reflexivity.
Qed.

(** The value of a tree, as found at index [ix]. *)
Definition tval (c : cst) (ix : option nat) : value := mkslice (render c) (ginfo c) ix.

Lemma fval_render json c r : wf c -> follow r ->
  fval json (render c ++ r) = tval c (Some (pos json (render c ++ r))).
Proof.
  intros Hc Hr. unfold fval, ltext, linfo. rewrite (lflat_render c r Hc Hr). cbn [fst snd].
  rewrite ginfo_nz. reflexivity.
Qed.
Lemma lrest_render c r : wf c -> follow r -> lrest (render c ++ r) = r.
Proof. intros Hc Hr. unfold lrest. rewrite lflat_render; auto. Qed.

Lemma render_head c : wf c -> exists h t, render c = h :: t /\ skip_sep h = false /\ end_item h = false /\ (32 < h)%N.
Proof.
  intros Hc. destruct c as [ | | |n|b|w es|w ms]; try (do 2 eexists; split; [reflexivity|]; repeat split; reflexivity).
  inversion Hc; subst. destruct (number_head n) as (h & t & -> & Hh); auto.
  exists h, t. split; auto. unfold skip_sep, end_item. lia.
Qed.

Lemma tval_exists c ix : wf c -> v_exists (tval c ix) = true.
Proof.
  intros H. destruct (render_head c H) as (h & t & E & _). unfold v_exists, tval, v_json.
  cbn [mkslice v_owned v_slice]. rewrite E. reflexivity.
Qed.

(* ---------- elements ---------- *)

Lemma items_skip a l : Forall (fun c => skip_sep c = true) a -> items (a ++ l) = items l.
Proof. induction 1 as [|c t Hc _ IH]; auto. cbn [app]. rewrite items_cons, Hc. exact IH. Qed.

Lemma ws_skip_sep w : ws w -> Forall (fun c => skip_sep c = true) w.
Proof. apply Forall_impl. intros c H. unfold ws_byte in H. unfold skip_sep. lia. Qed.

Lemma items_render c r : wf c -> follow r -> items (render c ++ r) = (render c ++ r) :: items r.
Proof.
  intros Hc Hr. destruct (render_head c Hc) as (h & t & E & H1 & H2 & _).
  assert (Hl : render c ++ r = h :: t ++ r) by (rewrite E; reflexivity).
  rewrite Hl at 1. rewrite items_cons, H1, H2. rewrite <- Hl.
  rewrite fval_render by auto. rewrite tval_exists by auto. rewrite lrest_render by auto. reflexivity.
Qed.

Lemma follow_ws w r : ws w -> follow r -> follow (w ++ r).
Proof. apply follow_ws_app. Qed.

(** What follows an element, and where the elements start. *)
Definition arr_tail (es : list (item cst)) (r : bytes) : bytes :=
  match es with [] => r | _ => 44%N :: commas (map (render_item render) es) ++ r end.
Fixpoint item_sufs (es : list (item cst)) (r : bytes) : list bytes :=
  match es with
  | [] => []
  | Item a v b :: tl => (render v ++ b ++ arr_tail tl r) :: item_sufs tl r
  end.

Lemma arr_tail_follow es r : follow r -> follow (arr_tail es r).
Proof. destruct es; simpl; auto. intros _. right; auto. Qed.

Lemma commas_tail e es r :
  commas (map (render_item render) (e :: es)) ++ r = render_item render e ++ arr_tail es r.
Proof.
  destruct es as [|e' es]; [reflexivity|]. cbn [map]. rewrite commas_cons by discriminate.
  rewrite <- app_assoc. reflexivity.
Qed.

Lemma items_commas es r : Forall wf_item es -> follow r ->
  items (commas (map (render_item render) es) ++ r) = item_sufs es r ++ items r.
Proof.
  intros Hes Hr. induction Hes as [|e es He Hes IH]; [reflexivity|].
  rewrite commas_tail. destruct He as [a v b Ha Hv Hb]. cbn [render_item item_sufs]. apps.
  rewrite items_skip by (apply ws_skip_sep; auto).
  rewrite items_render by (auto using follow_ws, arr_tail_follow).
  f_equal. rewrite items_skip by (apply ws_skip_sep; auto).
  destruct es as [|e' es]; [reflexivity|]. cbn [arr_tail]. rewrite items_cons. cbn [skip_sep].
  exact IH.
Qed.

Lemma items_arr w es r : wf (CArr w es) ->
  items (tl (render (CArr w es) ++ r)) = item_sufs es (93%N :: r).
Proof.
  intros H. inversion H as [| | | | |w' es' Hw Hes|]; subst. cbn [render]. apps. cbn [tl].
  rewrite items_skip by (apply ws_skip_sep; auto).
  rewrite items_commas by (auto; simpl; unfold follow_byte; auto).
  rewrite items_cons. cbn [skip_sep end_item]. apply app_nil_r.
Qed.

Lemma item_sufs_spec es r : Forall wf_item es -> follow r ->
  Forall2 (fun e x => exists r', x = render (i_val e) ++ r' /\ follow r') es (item_sufs es r).
Proof.
  intros Hes Hr. induction Hes as [|e es He Hes IH]; [constructor|].
  destruct He as [a v b Ha Hv Hb]. cbn [item_sufs]. constructor; auto.
  cbn [i_val]. eexists. split; [reflexivity|]. auto using follow_ws, arr_tail_follow.
Qed.

Lemma item_sufs_suf es r x : In x (item_sufs es r) -> suf x (commas (map (render_item render) es) ++ r).
Proof.
  induction es as [|[a v b] es IH]; [intros []|]. rewrite commas_tail. cbn [item_sufs render_item]. apps.
  intros [<-|H].
  - apply suf_app.
  - apply IH in H. eapply suf_trans; [exact H|].
    destruct es as [|e' es]; [destruct H as [? ?]; simpl in *|].
    + cbn [arr_tail map commas app]. rewrite !app_assoc. apply suf_app.
    + cbn [arr_tail]. rewrite !app_assoc. eapply suf_trans; [apply suf_cons | apply suf_app].
Qed.

(* ---------- members ---------- *)

Definition obj_tail (ms : list (memb cst)) (r : bytes) : bytes :=
  match ms with [] => r | _ => 44%N :: commas (map (render_memb render) ms) ++ r end.
Fixpoint memb_sufs (ms : list (memb cst)) (r : bytes) : list (bytes * bytes) :=
  match ms with
  | [] => []
  | Memb a k b c v d :: tl =>
      let V := render v ++ d ++ obj_tail tl r in
      (quoted k ++ b ++ 58%N :: c ++ V, V) :: memb_sufs tl r
  end.
Fixpoint flat_pairs {A} (l : list (A * A)) : list A :=
  match l with [] => [] | (a, b) :: t => a :: b :: flat_pairs t end.

Lemma pair_up_flat {A} (l : list (A * A)) : pair_up (flat_pairs l) = l.
Proof. induction l as [|[a b] l IH]; simpl; congruence. Qed.
Lemma flat_pairs_map {A B} (f : A -> B) l :
  map f (flat_pairs l) = flat_pairs (map (fun x => (f (fst x), f (snd x))) l).
Proof. induction l as [|[a b] l IH]; simpl; congruence. Qed.

Lemma obj_tail_follow ms r : follow r -> follow (obj_tail ms r).
Proof. destruct ms; simpl; auto. intros _. right; auto. Qed.

Lemma commas_tail_m e es r :
  commas (map (render_memb render) (e :: es)) ++ r = render_memb render e ++ obj_tail es r.
Proof.
  destruct es as [|e' es]; [reflexivity|]. cbn [map]. rewrite commas_cons by discriminate.
  rewrite <- app_assoc. reflexivity.
Qed.

(** A key is scanned like a string value; what follows it need not be a
    follow byte. *)
Lemma lflat_quoted k r : chars k -> lflat (quoted k ++ r) = (quoted k, ginfo (CStr k), r).
Proof. intros H. rewrite quoted_app_cons. cbn [lflat N.eqb Pos.eqb]. rewrite chars_split by auto. reflexivity. Qed.

Lemma fval_quoted json k r : chars k ->
  fval json (quoted k ++ r) = tval (CStr k) (Some (pos json (quoted k ++ r))).
Proof.
  intros H. unfold fval, ltext, linfo. rewrite (lflat_quoted k r H). cbn [fst snd].
  rewrite ginfo_nz. reflexivity.
Qed.

Lemma items_quoted k r : chars k -> items (quoted k ++ r) = (quoted k ++ r) :: items r.
Proof.
  intros H. rewrite quoted_app_cons at 1. rewrite items_cons. cbn [skip_sep end_item N.leb N.eqb].
  change (skip_sep 34) with false. change (end_item 34) with false. cbv match.
  rewrite <- quoted_app_cons. rewrite fval_quoted by auto.
  change (v_exists (tval (CStr k) (Some (pos (quoted k ++ r) (quoted k ++ r))))) with true. cbv match.
  unfold lrest. rewrite lflat_quoted by auto. reflexivity.
Qed.

Lemma items_commas_m ms r : Forall wf_memb ms -> follow r ->
  items (commas (map (render_memb render) ms) ++ r) = flat_pairs (memb_sufs ms r) ++ items r.
Proof.
  intros Hms Hr. induction Hms as [|e ms He Hms IH]; [reflexivity|].
  rewrite commas_tail_m. destruct He as [a k b c v d Ha Hk Hb Hc Hv Hd].
  cbn [render_memb memb_sufs flat_pairs]. apps.
  rewrite items_skip by (apply ws_skip_sep; auto).
  rewrite items_quoted by auto. f_equal.
  rewrite items_skip by (apply ws_skip_sep; auto).
  rewrite items_cons. change (skip_sep 58) with true. cbv match.
  rewrite items_skip by (apply ws_skip_sep; auto).
  rewrite items_render by (auto using follow_ws, obj_tail_follow).
  f_equal. rewrite items_skip by (apply ws_skip_sep; auto).
  destruct ms as [|e' ms]; [reflexivity|]. cbn [obj_tail]. rewrite items_cons.
  change (skip_sep 44) with true. exact IH.
Qed.

Lemma items_obj w ms r : wf (CObj w ms) ->
  items (tl (render (CObj w ms) ++ r)) = flat_pairs (memb_sufs ms (125%N :: r)).
Proof.
  intros H. inversion H as [| | | | | |w' ms' Hw Hms]; subst. cbn [render]. apps. cbn [tl].
  rewrite items_skip by (apply ws_skip_sep; auto).
  rewrite items_commas_m by (auto; simpl; unfold follow_byte; auto).
  rewrite items_cons. change (skip_sep 125) with false. change (end_item 125) with true. apply app_nil_r.
Qed.

Lemma memb_sufs_spec ms r : Forall wf_memb ms -> follow r ->
  Forall2 (fun m x => exists r1 r2, fst x = quoted (m_key m) ++ r1 /\ chars (m_key m) /\
                      snd x = render (m_val m) ++ r2 /\ wf (m_val m) /\ follow r2) ms (memb_sufs ms r).
Proof.
  intros Hms Hr. induction Hms as [|e ms He Hms IH]; [constructor|].
  destruct He as [a k b c v d Ha Hk Hb Hc Hv Hd]. cbn [memb_sufs]. constructor; auto.
  cbn [m_val m_key fst snd]. do 2 eexists. repeat split; auto. auto using follow_ws, obj_tail_follow.
Qed.
