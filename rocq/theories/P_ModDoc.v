(** The modifiers this, valid and reverse on documents. *)
From Verif Require Import P_Base P_Json P_Valid P_ValidSpec P_Str P_Glob P_Scan P_Each P_Doc P_Path P_LGet P_Parts P_Ext P_Total P_Value P_Num
  P_Key P_Find P_GetDoc P_GetArr P_Stream P_Closed P_Reach P_Taken P_Pipe P_Mod
  M_Util M_Num M_Scan M_Value M_Path M_Valid M_Get S_Json S_Get S_Path S_Api S_Follow S_Taken S_Mod M_Pretty S_PrettyArg S_Tree.

(* ---------- values that differ only in index and ownership ---------- *)

Definition veq (a b : value) : Prop := v_json a = v_json b /\ v_uesc a = v_uesc b /\ v_info a = v_info b.
Definition like (x y : R value) : Prop :=
  match x, y with Ok a, Ok b => veq a b | Err e, Err f => e = f | _, _ => False end.

Lemma veq_refl a : veq a a.
Proof. repeat split. Qed.
Lemma veq_sym a b : veq a b -> veq b a.
Proof. intros (H1 & H2 & H3). repeat split; auto. Qed.
Lemma veq_trans a b c : veq a b -> veq b c -> veq a c.
Proof. intros (H1 & H2 & H3) (G1 & G2 & G3). repeat split; congruence. Qed.
Lemma like_refl x : like x x.
Proof. destruct x; cbn; auto using veq_refl. Qed.
Lemma like_sym x y : like x y -> like y x.
Proof. destruct x, y; cbn; auto using veq_sym. Qed.
Lemma like_trans x y z : like x y -> like y z -> like x z.
Proof. destruct x, y, z; cbn; try contradiction; eauto using veq_trans; congruence. Qed.

Lemma veq_exists a b : veq a b -> v_exists a = v_exists b.
Proof. intros (H & _). unfold v_exists. rewrite H. reflexivity. Qed.
Lemma veq_kind a b : veq a b -> v_kind a = v_kind b.
Proof. intros (_ & _ & H). unfold v_kind. rewrite H. reflexivity. Qed.
Lemma veq_str a b : veq a b -> v_str a = v_str b.
Proof. intros H. pose proof (veq_kind _ _ H) as Hk. destruct H as (H1 & H2 & H3). unfold v_str. rewrite Hk, H1, H2, H3. reflexivity. Qed.
Lemma veq_shows a b c : veq a b -> shows a c -> shows b c.
Proof.
  intros H [S1 S2 S3 S4]. pose proof (veq_exists _ _ H). pose proof (veq_kind _ _ H). pose proof (veq_str _ _ H).
  destruct H as (H & _). constructor; congruence.
Qed.
Lemma veq_index ix v : veq (add_index ix v) v.
Proof. repeat split. Qed.
Lemma veq_into v : (v_slice v = [] \/ v_owned v = []) -> veq (json_into_owned v) v.
Proof. intros H. split; [apply json_into_owned_json, H|]. split; reflexivity. Qed.

Lemma get_one json p v : get json p = Ok v -> v_slice v = [] \/ v_owned v = [].
Proof. intros H. apply w_one, returned_Wv. eapply ret_get; eauto. Qed.

(** The lookup from a value is the lookup in its text. *)
Lemma v_get_like u p : (v_slice u = [] \/ v_owned u = []) -> like (v_get u p) (get (v_json u) p).
Proof.
  intros Hu. unfold v_get, v_get_with. unfold v_json. destruct (v_slice u) as [|a s] eqn:Es.
  - assert (E : match v_owned u with [] => [] | _ :: _ => v_owned u end = v_owned u) by (destruct (v_owned u); reflexivity).
    rewrite E. destruct (get (v_owned u) p) as [r|e] eqn:Er; cbn; auto.
    eapply veq_trans; [apply veq_index|]. apply veq_into. eapply get_one; eauto.
  - destruct Hu as [Hu|Hu]; [discriminate|]. rewrite Hu. destruct (get (a :: s) p) as [r|e]; cbn; auto. apply veq_index.
Qed.

Lemma lparse_one json : v_slice (lparse json) = [] \/ v_owned (lparse json) = [].
Proof. apply w_one, returned_Wv. apply (ret_parse json). apply parse_spec. Qed.
Lemma into_parse json : veq (json_into_owned (lparse json)) (lparse json).
Proof. apply veq_into, lparse_one. Qed.
Lemma into_one v : v_slice (json_into_owned v) = [] \/ v_owned (json_into_owned v) = [].
Proof. left. reflexivity. Qed.

(* ---------- documents ---------- *)

Lemma parse_presents w1 c w2 : ws w1 -> wf c -> ws w2 ->
  presents (lparse (w1 ++ render c ++ w2)) c /\
  v_json (lparse (w1 ++ render c ++ w2)) = (if is_container c then render c ++ w2 else render c).
Proof.
  intros H1 Hc H2. destruct (parse_doc w1 c w2 H1 Hc H2) as (v' & E' & P1 & P2 & P3 & P4).
  rewrite parse_spec in E'. injection E' as <-. split; auto. constructor; auto.
  - exists (if is_container c then w2 else []). repeat split.
    + destruct (is_container c); auto. constructor.
    + rewrite P3. destruct (is_container c); rewrite ?app_nil_r; auto.
    + destruct c; cbn; tauto.
  - destruct c; cbn [is_container kind_of] in P4, P2; auto; unfold v_str; rewrite P2; reflexivity.
Qed.

Lemma veq_presents a b c : veq a b -> presents a c -> presents b c.
Proof.
  intros H [S1 S2 S3 S4]. pose proof (veq_exists _ _ H). pose proof (veq_kind _ _ H). pose proof (veq_str _ _ H).
  destruct H as (H & _). rewrite H in *. constructor; try congruence. rewrite <- H in *. destruct c; congruence.
Qed.

Lemma presents_shows v c : presents v c -> v_json v = render c -> shows v c.
Proof.
  intros [S1 S2 S3 S4] H. constructor; auto. destruct c; auto; rewrite S4, H; reflexivity.
Qed.

Lemma parse_shows c : wf c -> shows (lparse (render c)) c.
Proof.
  intros Hc. destruct (parse_presents [] c [] ltac:(constructor) Hc ltac:(constructor)) as [H1 H2].
  rewrite app_nil_r in H1, H2. cbn [app] in H1, H2. apply presents_shows; auto. rewrite H2. destruct (is_container c); auto.
Qed.

(* ---------- this ---------- *)

Lemma plain_name n : forallb (fun c => negb ((c =? 46) || (c =? 124) || (c =? 58) || (c =? 92)))%N n = true -> mod_name n.
Proof.
  intros H. apply Forall_forall. intros c Hc. rewrite forallb_forall in H. specialize (H c Hc). lia.
Qed.

Lemma get_this w1 c w2 arg : ws w1 -> wf c -> ws w2 -> arg_ok arg ->
  exists v, get (w1 ++ render c ++ w2) (modifier n_this arg) = Ok v /\ presents v c /\
    v_json v = (if is_container c then render c ++ w2 else render c).
Proof.
  intros H1 Hc H2 Ha. rewrite get_modifier_end by (auto using plain_name). change (mod_apply get n_this ?j ?a) with (@Ok bytes j).
  cbn [bind]. eexists. split; [reflexivity|]. destruct (parse_presents w1 c w2 H1 Hc H2) as [P1 P2].
  pose proof (into_parse (w1 ++ render c ++ w2)) as Hv. split; [eapply veq_presents; [apply veq_sym, Hv | exact P1]|].
  rewrite (proj1 Hv). exact P2.
Qed.

Lemma pipe_this json ks : valid json = Ok true -> ks <> [] -> Forall any_comp ks -> no_modifier (dotted ks) ->
  exists v x, get json (dotted ks) = Ok v /\ get json (dotted ks ++ 124%N :: modifier n_this None) = Ok x /\ agree x v.
Proof.
  intros Hv Hn Hk Hm. destruct (get_total json (dotted ks) (safe_calm _ (safe_no_at _ Hm))) as [v E].
  rewrite get_pipe by auto. rewrite E. cbn [bind]. exists v.
  pose proof (get_one _ _ _ E) as Ho. pose proof (v_get_like v (modifier n_this None) Ho) as Hl.
  rewrite get_modifier_end in Hl by (try exact I; auto using plain_name).
  change (mod_apply get n_this ?j ?a) with (@Ok bytes j) in Hl. cbn [bind like] in Hl.
  destruct (v_get v (modifier n_this None)) as [x|e]; [|contradiction]. exists x. split; auto. split; auto.
  pose proof (veq_trans _ _ _ Hl (into_parse (v_json v))) as Hx.
  destruct (get_wf (dotted ks) json v Hm (or_intror (valid_doc _ Hv)) E) as [_ [[Hj _]|(c & Hc & Hs)]].
  - left. rewrite (veq_exists _ _ Hx). rewrite Hj. split; auto. unfold v_exists. rewrite Hj. reflexivity.
  - right. exists c. split; auto. eapply veq_shows; [apply veq_sym, Hx|]. rewrite (sh_json _ _ Hs). apply parse_shows, Hc.
Qed.

(* ---------- valid ---------- *)

Lemma get_valid_mod json arg : arg_ok arg -> exists v, get json (modifier n_valid arg) = Ok v /\
  (v_exists v = true <-> valid json = Ok true) /\
  (v_exists v = true -> exists x, get json (modifier n_this None) = Ok x /\ veq v x) /\ (v_exists v = false -> absent v).
Proof.
  intros Ha. rewrite get_modifier_end by (auto using plain_name).
  change (mod_apply get n_valid ?j ?a) with (mod_valid j). unfold mod_valid.
  destruct (valid_total json) as (b & Eb). rewrite Eb. cbn [bind]. eexists. split; [reflexivity|].
  pose proof (into_parse (if b then json else [])) as Hv. rewrite (veq_exists _ _ Hv). destruct b.
  - pose proof (valid_doc _ Eb) as (w1 & c & w2 & -> & H1 & Hc & H2). destruct (parse_presents w1 c w2 H1 Hc H2) as [P1 P2].
    unfold doc. rewrite (pr_exists _ _ P1). repeat split; auto; try discriminate. intros _.
    eexists. rewrite get_modifier_end by (try exact I; auto using plain_name).
    change (mod_apply get n_this ?j ?a) with (@Ok bytes j). cbn [bind]. split; [reflexivity | apply veq_refl].
  - split; [split; discriminate|]. split; [discriminate|]. intros _. exact parse_nil_absent.
Qed.

(* ---------- reverse ---------- *)

Lemma run_collect {A} (h : A -> R bytes) (f : A -> bytes) l : Forall (fun x => h x = Ok (f x)) l -> forall acc,
  run (fun acc x => s <- h x ;; Ok (acc ++ [s], true)) acc l = Ok (acc ++ map f l).
Proof.
  induction 1 as [|x l H _ IH]; intros acc; cbn [run map]; [rewrite app_nil_r; reflexivity|].
  rewrite H. cbn [bind]. rewrite IH, <- app_assoc. reflexivity.
Qed.

Lemma join_commas_eq l : join_commas l = commas l.
Proof. reflexivity. Qed.

Lemma run_map {S A B} (step : S -> B -> R (S * bool)) (f : A -> B) l : forall st,
  run step st (map f l) = run (fun st x => step st (f x)) st l.
Proof.
  induction l as [|x l IH]; intros st; cbn [run map]; auto. destruct (step st (f x)) as [[st' b]|]; cbn [bind]; auto.
  destruct b; auto.
Qed.
Lemma run_ext {S A} (f g : S -> A -> R (S * bool)) l : (forall st x, f st x = g st x) -> forall st, run f st l = run g st l.
Proof.
  intros H. induction l as [|x l IH]; intros st; cbn [run]; auto. rewrite H. destruct (g st x) as [[st' b]|]; cbn [bind]; auto.
  destruct b; auto.
Qed.

Definition memb_text (m : memb cst) : bytes :=
  match m with Memb _ k b c v _ => quoted k ++ b ++ 58%N :: c ++ render v end.

Lemma item_texts es : map (render_item render) (map bare_item es) = map (fun e => render (i_val e)) es.
Proof. rewrite map_map. apply map_ext. intros [a v b]. cbn [bare_item render_item i_val app]. apply app_nil_r. Qed.
Lemma memb_texts ms : map (render_memb render) (map bare_memb ms) = map memb_text ms.
Proof.
  rewrite map_map. apply map_ext. intros [a k b c v d]. cbn [bare_memb render_memb memb_text app]. rewrite app_nil_r. reflexivity.
Qed.

Lemma wf_reversed c : wf c -> wf (reversed c).
Proof.
  intros Hc. destruct c as [ | | |n|b|w es|w ms]; auto; cbn [reversed].
  - constructor; [constructor|]. apply Forall_rev, Forall_map. eapply Forall_impl; [|exact (wf_items _ _ Hc)].
    intros e [a v b Ha Hv Hb]. cbn [bare_item]. constructor; auto; constructor.
  - constructor; [constructor|]. apply Forall_rev, Forall_map. eapply Forall_impl; [|exact (wf_membs _ _ Hc)].
    intros e [a k b c v d Ha Hk Hb Hc' Hv Hd]. cbn [bare_memb]. constructor; auto; constructor.
Qed.

Lemma memb_sufs_in ms r J : Forall wf_memb ms -> follow r -> suf (commas (map (render_memb render) ms) ++ r) J ->
  Forall2 (fun m x => exists r2, fst x = memb_text m ++ r2 /\ snd x = render (m_val m) ++ r2 /\
     wf (m_val m) /\ chars (m_key m) /\ follow r2 /\ (exists u, fst x = quoted (m_key m) ++ u) /\ suf (fst x) J) ms (memb_sufs ms r).
Proof.
  intros Hms Hr HJ. induction Hms as [|e ms He Hms IH]; [constructor|].
  destruct He as [a k b c v d Ha Hk Hb Hc Hv Hd]. cbn [memb_sufs]. constructor.
  - exists (d ++ obj_tail ms r). cbn [m_val m_key fst snd memb_text]. repeat split; auto using follow_ws, obj_tail_follow.
    + apps. reflexivity.
    + eexists. reflexivity.
    + eapply suf_trans; [|exact HJ]. rewrite commas_tail_m. cbn [render_memb]. exists a. apps. reflexivity.
  - destruct ms as [|m' ms]; [constructor|]. apply IH. eapply suf_trans; [|exact HJ]. rewrite (commas_tail_m (Memb a k b c v d) (m' :: ms) r). cbn [obj_tail].
    eapply suf_trans; [|apply suf_app]. apply suf_cons.
Qed.

Lemma Forall2_map_ok {A B C} (P : A -> B -> Prop) (f : A -> C) (g : B -> C) l l' :
  Forall2 P l l' -> (forall a b, P a b -> f a = g b) -> map f l = map g l'.
Proof. intros H Hfg. induction H; cbn [map]; f_equal; auto. Qed.

Lemma item_sufs_in es r J : Forall wf_item es -> follow r -> suf (commas (map (render_item render) es) ++ r) J ->
  Forall2 (fun e x => exists r2, x = render (i_val e) ++ r2 /\ wf (i_val e) /\ follow r2 /\ suf x J) es (item_sufs es r).
Proof.
  intros Hes Hr HJ. induction Hes as [|e es He Hes IH]; [constructor|].
  destruct He as [a v b Ha Hv Hb]. cbn [item_sufs]. constructor.
  - exists (b ++ arr_tail es r). cbn [i_val]. repeat split; auto using follow_ws, arr_tail_follow.
    eapply suf_trans; [|exact HJ]. rewrite commas_tail. cbn [render_item]. exists a. rewrite <- !app_assoc. reflexivity.
  - destruct es as [|e' es]; [constructor|]. apply IH. eapply suf_trans; [|exact HJ]. rewrite (commas_tail (Item a v b) (e' :: es) r). cbn [arr_tail].
    eapply suf_trans; [|apply suf_app]. apply suf_cons.
Qed.

Lemma slice_at J a r : suf (a ++ r) J -> slice J (pos J (a ++ r)) (pos J (a ++ r) + length a) = Ok a.
Proof.
  intros [u ->]. assert (E : pos (u ++ a ++ r) (a ++ r) = length u) by (unfold pos; rewrite (app_length u); lia).
  rewrite E. apply slice_mid; reflexivity.
Qed.

Lemma Forall2_Forall_r {A B} (P : A -> B -> Prop) (Q : B -> Prop) l l' :
  Forall2 P l l' -> (forall a b, P a b -> Q b) -> Forall Q l'.
Proof. intros H HQ. induction H; constructor; eauto. Qed.

Lemma reverse_doc w1 c w2 : ws w1 -> wf c -> ws w2 -> mod_reverse (w1 ++ render c ++ w2) = Ok (render (reversed c)).
Proof.
  intros H1 Hc H2. unfold mod_reverse. rewrite parse_spec. cbn [bind].
  assert (Hf : follow w2) by (destruct H2; simpl; auto; left; auto).
  pose proof (parse_presents w1 c w2 H1 Hc H2) as [P1 P2]. pose proof (lparse_slice (w1 ++ render c ++ w2)) as Es.
  rewrite P2 in Es. set (res := lparse (w1 ++ render c ++ w2)) in *. rewrite (pr_kind _ _ P1). rewrite <- Es.
  destruct c as [ | | |n|b|w es|w ms]; try reflexivity; cbn [kind_of is_container] in *.
  - rewrite v_each_spec, (pr_exists _ _ P1), (pr_kind _ _ P1). cbn [negb kind_of]. rewrite P2.
    set (J := render (CArr w es) ++ w2). rewrite run_map.
    assert (Hi : items (tl J) = item_sufs es (93%N :: w2)) by (apply items_arr; auto). rewrite Hi.
    assert (HJ : suf (commas (map (render_item render) es) ++ 93%N :: w2) J).
    { unfold J. cbn [render]. exists (91%N :: w). cbn [app]. rewrite <- !app_assoc. reflexivity. }
    pose proof (item_sufs_in es (93%N :: w2) J (wf_items _ _ Hc) ltac:(right; right; left; reflexivity) HJ) as Hsp.
    rewrite (run_ext _ (fun acc x => s <- (vindex <- unwrap_opt (v_index (fval J x)) ;;
       slice J vindex (vindex + length (v_slice (fval J x)))) ;; Ok (acc ++ [s], true))).
    2: { intros st x. destruct (unwrap_opt (v_index (fval J x))) as [i|]; reflexivity. }
    rewrite (run_collect _ (fun x => v_slice (fval J x))).
    + cbn [bind app reversed render]. rewrite join_commas_eq. rewrite map_rev.
      rewrite item_texts. do 4 f_equal. f_equal. symmetry.
      apply (Forall2_map_ok _ _ _ _ _ Hsp). intros e x (r' & -> & He & Hr' & _). rewrite fval_render by auto. reflexivity.
    + apply (Forall2_Forall_r _ _ _ _ Hsp). intros e x (r' & -> & He & Hr' & Hs). rewrite fval_render by auto.
      cbn [tval mkslice v_index v_slice unwrap_opt bind]. apply slice_at, Hs.
  - rewrite v_each_spec, (pr_exists _ _ P1), (pr_kind _ _ P1). cbn [negb kind_of]. rewrite P2.
    set (J := render (CObj w ms) ++ w2).
    assert (Hi : items (tl J) = flat_pairs (memb_sufs ms (125%N :: w2))) by (apply items_obj; auto). rewrite Hi.
    rewrite flat_pairs_map, pair_up_flat, run_map. cbn [fst snd].
    assert (HJ : suf (commas (map (render_memb render) ms) ++ 125%N :: w2) J).
    { unfold J. cbn [render]. exists (123%N :: w). cbn [app]. rewrite <- !app_assoc. reflexivity. }
    pose proof (memb_sufs_in ms (125%N :: w2) J (wf_membs _ _ Hc) ltac:(right; right; right; reflexivity) HJ) as Hsp.
    rewrite (run_ext _ (fun acc x => s <- (kindex <- unwrap_opt (v_index (fval J (fst x))) ;; vindex <- unwrap_opt (v_index (fval J (snd x))) ;;
       slice J kindex (vindex + length (v_slice (fval J (snd x))))) ;; Ok (acc ++ [s], true))).
    2: { intros st x. destruct (unwrap_opt (v_index (fval J (fst x)))) as [i|]; [|reflexivity]. cbn [bind].
         destruct (unwrap_opt (v_index (fval J (snd x)))) as [i'|]; reflexivity. }
    set (tx := fun x : bytes * bytes => upto (fst x) (skipn (length (v_slice (fval J (snd x)))) (snd x))).
    assert (Htx : forall m x, (exists r2, fst x = memb_text m ++ r2 /\ snd x = render (m_val m) ++ r2 /\
       wf (m_val m) /\ chars (m_key m) /\ follow r2 /\ (exists u, fst x = quoted (m_key m) ++ u) /\ suf (fst x) J) -> tx x = memb_text m).
    { intros m x (r2 & E1 & E2 & Hv & Hk & Hr2 & _ & _). unfold tx. rewrite E1, E2. rewrite fval_render by auto.
      cbn [tval mkslice v_slice]. rewrite skipn_length_app. apply upto_app. }
    rewrite (run_collect _ tx).
    + cbn [bind app reversed render]. rewrite join_commas_eq. rewrite map_rev.
      rewrite memb_texts. do 4 f_equal. f_equal. symmetry.
      apply (Forall2_map_ok _ _ _ _ _ Hsp). intros m x Hx. symmetry. apply Htx, Hx.
    + apply (Forall2_Forall_r _ _ _ _ Hsp). intros m x Hx. rewrite (Htx m x Hx).
      destruct Hx as (r2 & E1 & E2 & Hv & Hk & Hr2 & (u & Eu) & Hs).
      assert (Ef : fval J (fst x) = tval (CStr (m_key m)) (Some (pos J (fst x)))) by (rewrite Eu; apply fval_quoted; auto).
      rewrite Ef, E2. rewrite fval_render by auto. cbn [tval mkslice v_index v_slice unwrap_opt bind].
      pose proof (slice_at J (memb_text m) r2) as Hsl. rewrite <- E1 in Hsl. rewrite <- Hsl by exact Hs. f_equal.
      destruct Hs as [y Ey]. unfold pos. rewrite Ey, !app_length, E1, !app_length.
      destruct m as [a k b c v d]. cbn [memb_text m_val]. rewrite !app_length. cbn [length]. rewrite app_length. lia.
Qed.

Lemma get_reverse w1 c w2 arg : ws w1 -> wf c -> ws w2 -> arg_ok arg ->
  exists v, get (w1 ++ render c ++ w2) (modifier n_reverse arg) = Ok v /\ shows v (reversed c).
Proof.
  intros H1 Hc H2 Ha. rewrite get_modifier_end by (auto using plain_name).
  change (mod_apply get n_reverse ?j ?a) with (mod_reverse j). rewrite reverse_doc by auto.
  cbn [bind]. eexists. split; [reflexivity|]. eapply veq_shows; [apply veq_sym, into_parse|]. apply parse_shows, wf_reversed, Hc.
Qed.

Lemma get_reverse_twice w1 c w2 : ws w1 -> wf c -> ws w2 ->
  exists v, get (w1 ++ render c ++ w2) (modifier n_reverse None ++ 124%N :: modifier n_reverse None) = Ok v /\
    shows v (reversed (reversed c)).
Proof.
  intros H1 Hc H2. rewrite (get_modifier _ n_reverse None (124%N :: modifier n_reverse None)) by (try exact I; try reflexivity; auto using plain_name).
  change (mod_apply get n_reverse ?j ?a) with (mod_reverse j). rewrite reverse_doc by auto. cbn [bind].
  pose proof (v_get_like (json_into_owned (lparse (render (reversed c)))) (modifier n_reverse None) (into_one _)) as Hl.
  pose proof (wf_reversed c Hc) as Hr.
  rewrite (proj1 (into_parse _)), (sh_json _ _ (parse_shows _ Hr)) in Hl.
  destruct (get_reverse [] (reversed c) [] None ltac:(constructor) Hr ltac:(constructor) I) as (x & Ex & Sx).
  rewrite app_nil_r in Ex. cbn [app] in Ex. rewrite Ex in Hl.
  destruct (v_get _ _) as [y|e]; [|contradiction]. cbn [like] in Hl. exists y. split; auto. eapply veq_shows; [apply veq_sym, Hl | exact Sx].
Qed.

Lemma reversed_twice c : reversed (reversed c) =
  match c with CArr _ es => CArr [] (map bare_item es) | CObj _ ms => CObj [] (map bare_memb ms) | _ => c end.
Proof.
  destruct c as [ | | |n|b|w es|w ms]; auto; cbn [reversed]; rewrite map_rev, rev_involutive, map_map; f_equal; apply map_ext.
  - intros [? ? ?]. reflexivity.
  - intros [? ? ? ? ? ?]. reflexivity.
Qed.

Lemma veq_absent a b : veq a b -> absent a -> absent b.
Proof.
  intros H. unfold absent. rewrite (veq_exists _ _ H), (veq_kind _ _ H), (veq_str _ _ H), (proj1 H). auto.
Qed.

Lemma pipe_unknown json ks name arg : ks <> [] -> Forall any_comp ks -> no_modifier (dotted ks) ->
  mod_name name -> arg_ok arg -> ~ In name known ->
  exists v, get json (dotted ks ++ 124%N :: modifier name arg) = Ok v /\ absent v.
Proof.
  intros Hn Hk Hm H1 H2 H3. destruct (get_total json (dotted ks) (safe_calm _ (safe_no_at _ Hm))) as [v E].
  rewrite get_pipe by auto. rewrite E. cbn [bind].
  pose proof (v_get_like v (modifier name arg) (get_one _ _ _ E)) as Hl.
  destruct (unknown_absent (v_json v) name arg H1 H2 H3) as (y & Ey & Hy). rewrite Ey in Hl.
  destruct (v_get v (modifier name arg)) as [x|e]; [|contradiction]. exists x. split; auto.
  eapply veq_absent; [apply veq_sym, Hl | exact Hy].
Qed.

(* ---------- ugly and pretty ---------- *)

Lemma get_mod_out json name arg out : mod_name name -> arg_ok arg -> mod_apply get name json (arg_text arg) = Ok out ->
  exists v x, get json (modifier name arg) = Ok v /\ parse out = Ok x /\ veq v x.
Proof.
  intros Hn Ha E. rewrite get_modifier_end by auto. rewrite E. cbn [bind]. eexists. exists (lparse out).
  split; [reflexivity|]. split; [apply parse_spec | apply into_parse].
Qed.

Lemma mod_pretty_arg json arg o : arg <> [] -> pretty_arg arg o -> mod_pretty get json arg = pretty_options json o.
Proof.
  intros Hn [(v1 & E1 & F1) (v2 & E2 & F2) (v3 & E3 & F3) (v4 & E4 & F4)]. unfold mod_pretty. destruct arg as [|h t]; [congruence|].
  assert (G1 : get (h :: t) s_indent = Ok v1) by exact E1. assert (G2 : get (h :: t) s_prefix = Ok v2) by exact E2.
  assert (G3 : get (h :: t) s_sortKeys = Ok v3) by exact E3. assert (G4 : get (h :: t) s_width = Ok v4) by exact E4.
  rewrite G1. cbn [bind]. rewrite G2. cbn [bind]. rewrite G3. cbn [bind]. rewrite G4. cbn [bind].
  assert (G : forall A (v : value) (f : value -> R A) d x, (if v_exists v then f v = Ok x else x = d) -> (if v_exists v then f v else Ok d) = Ok x).
  { intros A v f d x H. destruct (v_exists v); congruence. }
  rewrite (G _ _ v_str (o_indent popts_default) _ F1). cbn [bind]. rewrite (G _ _ v_str (o_prefix popts_default) _ F2). cbn [bind].
  rewrite (G _ _ v_bool (o_sort popts_default) _ F3). cbn [bind]. rewrite (G _ _ v_u32 (o_width popts_default) _ F4). cbn [bind]. destruct o; reflexivity.
Qed.

Lemma parse_reads s t : reads s t -> exists x, parse s = Ok x /\ reads (v_json x) t.
Proof.
  intros (w1 & c & w2 & H1 & Hc & H2 & -> & E). exists (lparse (w1 ++ render c ++ w2)). split; [apply parse_spec|].
  destruct (parse_presents w1 c w2 H1 Hc H2) as [_ P2]. rewrite P2. destruct (is_container c).
  - exists [], c, w2. repeat split; auto; constructor.
  - exists [], c, []. rewrite app_nil_r. repeat split; auto; constructor.
Qed.
