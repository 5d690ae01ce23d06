(** Lookups of one component in a valid document. *)
From Verif Require Import P_Base P_Json P_Valid P_Str P_Glob P_Scan P_Each P_Doc P_Path P_LGet P_Parts P_Ext P_Value P_Num
  P_Key P_Find M_Util M_Num M_Scan M_Value M_Path M_Get S_Json S_Str S_Get S_Path S_Query.

Definition doc (w1 : bytes) (c : cst) (w2 : bytes) : bytes := w1 ++ render c ++ w2.

Lemma dropw_doc w1 c w2 : ws w1 -> wf c -> dropw above_sp (doc w1 c w2) = render c ++ w2.
Proof.
  intros Hw Hc. unfold doc. destruct (render_head c Hc) as (h & t & E & _ & _ & Hh). rewrite E. cbn [app].
  apply dropw_sp; auto.
Qed.
Lemma suf_doc w1 c w2 : suf (render c ++ w2) (doc w1 c w2).
Proof. exists w1. reflexivity. Qed.

Lemma lstart_obj g w1 w ms w2 p : ws w1 -> wf (CObj w ms) ->
  lstart g (doc w1 (CObj w ms) w2) p =
  lobj (S (S (length (p_extra p)))) g (doc w1 (CObj w ms) w2) (render (CObj w ms) ++ w2) p.
Proof. intros H1 H2. unfold lstart. rewrite dropw_doc by auto. reflexivity. Qed.
Lemma lstart_arr g w1 w es w2 p : ws w1 -> wf (CArr w es) ->
  lstart g (doc w1 (CArr w es) w2) p =
  larr g (doc w1 (CArr w es) w2) false (render (CArr w es) ++ w2) p.
Proof. intros H1 H2. unfold lstart. rewrite dropw_doc by auto. reflexivity. Qed.
Lemma lstart_scalar g w1 c w2 p : ws w1 -> wf c -> is_container c = false ->
  lstart g (doc w1 c w2) p = Ok (value_default, p).
Proof.
  intros H1 H2 H3. unfold lstart. rewrite dropw_doc by auto. destruct (render_colon_head c H2) as (h & t & E & _ & Hc).
  rewrite E. cbn [app]. rewrite H3 in Hc. unfold container in Hc. apply orb_false_iff in Hc as [-> ->]. reflexivity.
Qed.

Definition cp (k : bytes) : path := mkPath k (fst (kflags k)) (snd (kflags k)) 0 0 [].

(** A single component on an object. *)
Lemma get_member w1 w ms w2 k : ws w1 -> wf (CObj w ms) -> component k ->
  match find (fun m => kmatch (cp k) (m_key m)) ms with
  | Some m => exists ix, get (doc w1 (CObj w ms) w2) k = Ok (tval (m_val m) ix) /\ wf (m_val m)
  | None => get (doc w1 (CObj w ms) w2) k = Ok value_default
  end.
Proof.
  intros H1 H2 Hk. pose proof (get_simple (doc w1 (CObj w ms) w2) k [] Hk (or_introl eq_refl)) as E.
  rewrite app_nil_r in E. rewrite E, pnext_end by auto. fold (cp k). rewrite lstart_obj by auto.
  pose proof (lobj_find (S (length (p_extra (cp k)))) get (doc w1 (CObj w ms) w2) w ms w2 (cp k) H2 ltac:(discriminate) (suf_doc _ _ _)) as H.
  destruct (find _ ms) as [m|].
  - destruct H as (ix & -> & Hw). cbn [bind]. exists ix. auto.
  - rewrite H. reflexivity.
Qed.

Lemma find_first {A} (f : A -> bool) a x b : f x = true -> Forall (fun y => f y = false) a -> find f (a ++ x :: b) = Some x.
Proof. intros Hx Ha. induction Ha as [|y a Hy _ IH]; cbn [app find]; [rewrite Hx | rewrite Hy]; auto. Qed.
Lemma find_none_all {A} (f : A -> bool) l : Forall (fun y => f y = false) l -> find f l = None.
Proof. induction 1 as [|y a Hy _ IH]; cbn [find]; auto. rewrite Hy. auto. Qed.
Lemma not_true b : b <> true -> b = false.
Proof. destruct b; congruence. Qed.

Lemma memb_chars m : wf_memb m -> chars (m_key m).
Proof. destruct 1; auto. Qed.

(** The name of a member as the crate decodes it. *)
Lemma unescape_sdec m : wf_memb m -> unescape (quoted (m_key m)) = Ok (sdec (m_key m)).
Proof. intros H. apply sdec_chars, memb_chars; auto. Qed.

Lemma wf_membs w ms : wf (CObj w ms) -> Forall wf_memb ms.
Proof. inversion 1; auto. Qed.
Lemma wf_items w es : wf (CArr w es) -> Forall wf_item es.
Proof. inversion 1; auto. Qed.
Lemma wf_ival e : wf_item e -> wf (i_val e).
Proof. destruct 1; auto. Qed.
Lemma wf_mval e : wf_memb e -> wf (m_val e).
Proof. destruct 1; auto. Qed.

Lemma get_glob w1 w ms w2 k (P : bytes -> Prop) : ws w1 -> wf (CObj w ms) -> component k ->
  (forall m, In m ms -> (P (sdec (m_key m)) <-> globm k (sdec (m_key m)))) ->
  gets_first (w1 ++ render (CObj w ms) ++ w2) k P ms.
Proof.
  intros H1 H2 Hk HP. pose proof (get_member w1 w ms w2 k H1 H2 Hk) as H. pose proof (wf_membs _ _ H2) as Hms.
  assert (Hm : forall m, In m ms -> wf_memb m) by (apply Forall_forall; auto).
  assert (Hf : forall m, In m ms -> (forall n', named m n' -> ~ P n') -> kmatch (cp k) (m_key m) = false).
  { intros m Hi Hn. apply not_true. intros E. apply kmatch_glob in E; [|apply Hk].
    apply (Hn (sdec (m_key m))); [apply unescape_sdec; auto | apply HP; auto]. }
  split.
  - intros a m b n E En Pn Ha.
    assert (Hi : In m ms) by (rewrite E; apply in_elt).
    unfold named in En. rewrite unescape_sdec in En by auto. injection En as <-.
    assert (Ef : find (fun m => kmatch (cp k) (m_key m)) ms = Some m).
    { rewrite E. apply find_first.
      + apply kmatch_glob; [apply Hk | apply HP; auto].
      + apply Forall_forall. intros y Hy. apply Hf; [rewrite E; apply in_or_app; auto|].
        apply (proj1 (Forall_forall _ _) Ha); auto. }
    rewrite Ef in H. destruct H as (ix & Hg & Hw). exists (tval (m_val m) ix). split; [exact Hg | apply tval_shows; auto].
  - intros Ha. rewrite find_none_all in H; [eauto|].
    apply Forall_forall. intros y Hy. apply Hf; auto. apply (proj1 (Forall_forall _ _) Ha); auto.
Qed.

(* ---------- arrays ---------- *)

Lemma elems_tval json w es r : wf (CArr w es) ->
  Forall2 (fun e x => exists ix, x = tval (i_val e) ix) es (elems json false (render (CArr w es) ++ r)).
Proof.
  intros H. rewrite elems_arr by auto. pose proof (item_sufs_spec es (93%N :: r) (wf_items _ _ H) ltac:(right; auto)) as Hs.
  pose proof (wf_items _ _ H) as Hes. clear H.
  induction Hs as [|e x es l (r' & -> & Hf) Hs IH]; [constructor|]. inversion Hes; subst. cbn [map]. constructor; auto.
  exists (Some (pos json (render (i_val e) ++ r'))). apply fval_render; auto. apply wf_ival; auto.
Qed.

Lemma F2_length {A B} (P : A -> B -> Prop) l1 l2 : Forall2 P l1 l2 -> length l1 = length l2.
Proof. induction 1; cbn [length]; auto. Qed.
Lemma Forall2_nth_some {A B} (P : A -> B -> Prop) l1 l2 n a d : Forall2 P l1 l2 -> nth_error l1 n = Some a -> P a (nth n l2 d).
Proof.
  intros H. revert n. induction H as [|x y l1 l2 Hxy H IH]; intros [|n] E; cbn in *; try discriminate; [congruence | auto].
Qed.
Lemma Forall2_nth_none {A B} (P : A -> B -> Prop) l1 l2 n d : Forall2 P l1 l2 -> length l1 <= n -> nth n l2 d = d.
Proof. intros H Hn. apply nth_overflow. apply F2_length in H. lia. Qed.

Lemma get_arr_comp w1 w es w2 k : ws w1 -> wf (CArr w es) -> component k ->
  get (doc w1 (CArr w es) w2) k =
    Ok (if (0 <=? comp_index k)%Z
        then nth (Z.to_nat (comp_index k)) (elems (doc w1 (CArr w es) w2) false (render (CArr w es) ++ w2)) value_default
        else value_default).
Proof.
  intros H1 H2 Hk. pose proof (get_simple (doc w1 (CArr w es) w2) k [] Hk (or_introl eq_refl)) as E.
  rewrite app_nil_r in E. rewrite E, pnext_end by auto. fold (cp k). rewrite lstart_arr by auto. unfold larr.
  cbn [cp p_comp]. destruct k as [|c k]; [reflexivity|].
  replace (c =? 35)%N with false; [reflexivity|]. destruct Hk as [_ (_ & Hk & _)]. lia.
Qed.

Lemma digits_component k : Forall digit k -> component k.
Proof.
  intros H. split.
  - induction H as [|c t Hc _ IH]; constructor; auto. unfold digit in Hc. unfold comp_byte. lia.
  - destruct H as [|c t Hc]; cbn; auto. unfold digit in Hc. lia.
Qed.

Lemma comp_index_digits k n : digits1 k -> digits_val k = Z.of_nat n ->
  comp_index k = if (Z.of_nat n <? 2 ^ 63)%Z then Z.of_nat n else (-1)%Z.
Proof.
  intros Hk En. unfold comp_index. destruct (Z.ltb_spec (Z.of_nat n) (2 ^ 63)).
  - rewrite (parse_i64_literal k (Z.of_nat n)); [reflexivity| |lia]. rewrite <- En. constructor; auto.
  - destruct (digits_head k Hk) as (c & t & E & Hc). unfold parse_i64. rewrite E. unfold digit in Hc.
    replace (c =? cMINUS)%N with false by (change cMINUS with 45%N; lia).
    replace (c =? cPLUS)%N with false by (change cPLUS with 43%N; lia). rewrite <- E, dec_digits_val, En by auto.
    unfold in_range. replace (Z.of_nat n <=? i64_max)%Z with false by (unfold i64_max; lia). rewrite andb_false_r. reflexivity.
Qed.

Lemma get_index w1 w es w2 k n : ws w1 -> wf (CArr w es) -> digits1 k -> digits_val k = Z.of_nat n ->
  (forall e, nth_error es n = Some e -> (Z.of_nat n < 2 ^ 63)%Z ->
     exists v, get (w1 ++ render (CArr w es) ++ w2) k = Ok v /\ shows v (i_val e)) /\
  (length es <= n -> exists v, get (w1 ++ render (CArr w es) ++ w2) k = Ok v /\ v_exists v = false).
Proof.
  intros H1 H2 Hk En. pose proof (get_arr_comp w1 w es w2 k H1 H2 (digits_component k (proj2 Hk))) as E.
  rewrite (comp_index_digits k n Hk En) in E. fold (doc w1 (CArr w es) w2). rewrite E. clear E.
  pose proof (elems_tval (doc w1 (CArr w es) w2) w es w2 H2) as HF. split.
  - intros e He Hn. replace (Z.of_nat n <? 2 ^ 63)%Z with true by lia. replace (0 <=? Z.of_nat n)%Z with true by lia.
    rewrite Nat2Z.id. eexists. split; [reflexivity|].
    destruct (Forall2_nth_some _ _ _ _ _ value_default HF He) as (ix & ->). apply tval_shows.
    apply wf_ival. apply (proj1 (Forall_forall _ _) (wf_items _ _ H2)). eapply nth_error_In; eauto.
  - intros Hn. eexists. split; [reflexivity|]. destruct (Z.of_nat n <? 2 ^ 63)%Z; [|reflexivity].
    replace (0 <=? Z.of_nat n)%Z with true by lia. rewrite Nat2Z.id.
    rewrite (Forall2_nth_none _ _ _ _ value_default HF Hn). reflexivity.
Qed.

(** A component that is not an integer selects nothing in an array. *)
Lemma get_no_index w1 w es w2 k : ws w1 -> wf (CArr w es) -> component k ->
  ~ digits1 k -> hd 0%N k <> 43%N -> hd 0%N k <> 45%N ->
  exists v, get (w1 ++ render (CArr w es) ++ w2) k = Ok v /\ v_exists v = false.
Proof.
  intros H1 H2 Hk Hd Hp Hm. fold (doc w1 (CArr w es) w2). rewrite (get_arr_comp w1 w es w2 k H1 H2 Hk).
  assert (E : comp_index k = (-1)%Z).
  { unfold comp_index, parse_i64. destruct k as [|c t]; auto. cbn [hd] in *.
    replace (c =? cMINUS)%N with false by (change cMINUS with 45%N; lia).
    replace (c =? cPLUS)%N with false by (change cPLUS with 43%N; lia).
    destruct (dec_digits (c :: t)) as [z|] eqn:E; auto. exfalso. apply Hd. split; [discriminate|].
    unfold dec_digits in E. clear -E. revert E. generalize 0%Z. generalize (c :: t) as b. clear c t.
    induction b as [|c t IH]; intros a E; constructor.
    - cbn [dec_acc] in E. destruct (is_digit c) eqn:Ec; [|discriminate]. apply is_digit_spec; auto.
    - cbn [dec_acc] in E. destruct (is_digit c) eqn:Ec; [|discriminate]. eapply IH; eauto. }
  rewrite E. cbn [Z.leb Z.compare]. eexists. split; reflexivity.
Qed.

(* ---------- names and patterns ---------- *)

Lemma get_name w1 w ms w2 k : ws w1 -> wf (CObj w ms) -> plain_key k ->
  gets_first (w1 ++ render (CObj w ms) ++ w2) k (eq k) ms.
Proof.
  intros H1 H2 Hk. apply get_glob; auto using plain_comp. intros m _.
  assert (Hs : special k = false).
  { destruct Hk as [Hk _]. clear -Hk. induction Hk as [|c t [Hc Hw] _ IH]; auto. cbn [special existsb].
    unfold comp_byte in Hc. unfold wild_byte in Hw. fold (special t). rewrite IH. lia. }
  rewrite globm_plain by auto. split; auto.
Qed.

Lemma get_pattern_bytes w1 w ms w2 k : ws w1 -> wf (CObj w ms) -> component k -> no_escaped_qm k ->
  gets_first (w1 ++ render (CObj w ms) ++ w2) k (glob byte_char k) ms.
Proof.
  intros H1 H2 Hk Hq. apply get_glob; auto. intros m _. symmetry. apply globm_byte; auto.
Qed.

Lemma get_pattern_exact w1 w ms w2 k : ws w1 -> wf (CObj w ms) -> component k ->
  gets_first (w1 ++ render (CObj w ms) ++ w2) k (glob byte_char (bare_qm k)) ms.
Proof.
  intros H1 H2 Hk. apply get_glob; auto. intros m _. symmetry. apply globm_bare; auto.
Qed.

Lemma get_pattern w1 w ms w2 k : ws w1 -> wf (CObj w ms) -> component k ->
  (forall m n, In m ms -> named m n -> (no_escaped_qm k /\ ascii n) \/ (~ In 0x3F%N k /\ utf8 k /\ utf8 n)) ->
  gets_first (w1 ++ render (CObj w ms) ++ w2) k (glob utf8_char k) ms.
Proof.
  intros H1 H2 Hk Hq. apply get_glob; auto. intros m Hm.
  assert (Hw : wf_memb m) by (apply (proj1 (Forall_forall _ _) (wf_membs _ _ H2)); auto).
  destruct (pmatch_glob_doc k (sdec (m_key m)) (Hq m _ Hm (unescape_sdec m Hw))) as (b & E & Hb).
  destruct (pmatch_spec k (sdec (m_key m))) as (b' & E' & Hb'). rewrite E in E'. injection E' as <-. tauto.
Qed.

(** Escaped names. *)
Lemma path_escape_body k : comp_body (path_escape k).
Proof.
  induction k as [|c t IH]; cbn [path_escape]; [constructor|]. destruct (special_byte c) eqn:E; [apply cb_esc; auto|]. apply cb_char; auto.
  unfold special_byte in E. cbn [existsb] in E. unfold comp_byte. lia.
Qed.
Lemma path_escape_comp k : component (path_escape k).
Proof.
  split; [apply path_escape_body|]. destruct k as [|c t]; [exact I|]. cbn [path_escape].
  destruct (special_byte c) eqn:E; cbn [comp_head]; [lia|]. unfold special_byte in E. cbn [existsb] in E. lia.
Qed.
Lemma globm_escape k : ~ In 63%N k -> forall s, globm (path_escape k) s <-> k = s.
Proof.
  induction k as [|c t IH]; intros Hq s; cbn [path_escape].
  - rewrite globm_nil. split; auto.
  - assert (Hc : c <> 63%N) by (intros ->; apply Hq; left; auto).
    assert (Ht : ~ In 63%N t) by (intros H; apply Hq; right; auto).
    destruct (special_byte c) eqn:E.
    + split.
      * intros H. inversion H; subst; try lia; try congruence. f_equal. apply IH; auto.
      * intros <-. apply gm_esc; auto. apply IH; auto.
    + unfold special_byte in E. cbn [existsb] in E. split.
      * intros H. inversion H; subst; try lia; try congruence. f_equal. apply IH; auto.
      * intros <-. apply gm_lit; try lia. apply IH; auto.
Qed.
Lemma globm_escape_all k : forall s, globm (path_escape k) s <-> Forall2 (fun a b => a = 63%N \/ a = b) k s.
Proof.
  induction k as [|c t IH]; intros s; cbn [path_escape].
  - rewrite globm_nil. split; [intros ->; constructor | intros H; inversion H; auto].
  - destruct (special_byte c) eqn:E.
    + split.
      * intros H. inversion H; subst; try lia; try congruence; (constructor; [auto | apply IH; auto]).
      * intros H. inversion H as [|a b l1 l2 [->| ->] H2]; subst; [apply gm_esc_any | apply gm_esc]; apply IH; auto.
    + unfold special_byte in E. cbn [existsb] in E. split.
      * intros H. inversion H; subst; try lia; try congruence. constructor; [auto | apply IH; auto].
      * intros H. inversion H as [|a b l1 l2 [->| ->] H2]; subst; [lia|]. apply gm_lit; try lia. apply IH; auto.
Qed.
Lemma get_escaped_exact w1 w ms w2 k : ws w1 -> wf (CObj w ms) ->
  gets_first (w1 ++ render (CObj w ms) ++ w2) (path_escape k) (Forall2 (fun a b => a = 63%N \/ a = b) k) ms.
Proof.
  intros H1 H2. apply get_glob; auto using path_escape_comp. intros m _. symmetry. apply globm_escape_all; auto.
Qed.
Lemma get_escaped w1 w ms w2 k : ws w1 -> wf (CObj w ms) -> ~ In 63%N k ->
  gets_first (w1 ++ render (CObj w ms) ++ w2) (path_escape k) (eq k) ms.
Proof.
  intros H1 H2 Hk. apply get_glob; auto using path_escape_comp. intros m _. symmetry. apply globm_escape; auto.
Qed.
