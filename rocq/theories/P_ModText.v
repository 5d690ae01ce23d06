(** The exact text of flatten and join, and when it is JSON. *)
From Verif Require Import P_Base P_Json P_Valid P_ValidSpec P_Str P_Glob P_Scan P_Each P_Doc P_Path P_LGet P_Parts P_Ext P_Total P_Value P_Num
  P_Key P_Find P_GetDoc P_GetArr P_Stream P_Closed P_Reach P_Taken P_Pipe P_Mod P_ModDoc P_ModFlat P_ModJoin
  M_Util M_Num M_Scan M_Value M_Path M_Valid M_Get S_Json S_Get S_Path S_Api S_Follow S_Taken S_Query S_Mod S_Join S_ModText.

(* ---------- the texts ---------- *)

Lemma flatten_text g arg dv fuel w1 w es w2 : g arg s_deep = Ok dv -> v_bool dv = Ok false ->
  ws w1 -> wf (CArr w es) -> ws w2 ->
  mod_flatten (S fuel) g (w1 ++ render (CArr w es) ++ w2) arg = Ok (91%N :: commas (flat_texts es) ++ [93%N]).
Proof.
  intros Hg Hb H1 Hc H2.
  cbn [mod_flatten]. rewrite parse_spec. cbn [bind].
  destruct (parse_presents w1 _ w2 H1 Hc H2) as [P1 P2]. set (res := lparse (w1 ++ render (CArr w es) ++ w2)) in *.
  rewrite (pr_kind _ _ P1). change (negb (kind_eqb (kind_of (CArr w es)) KArray)) with false. cbv iota. rewrite Hg. cbn [bind]. rewrite Hb. cbn [bind].
  cbn [is_container] in P2. destruct (each_array' res w es w2 Hc (pr_kind _ _ P1) P2) as (vs & Hvs & Ev). rewrite Ev.
  set (ts := map (fun e => match i_val e with CArr _ _ => inside (i_val e) | _ => render (i_val e) end) es).
  destruct (visit_pieces (fun v => if kind_eqb (v_kind v) KArray then unwrap (v_json v)
                   else Ok (v_slice v)) 91%N vs ts) with (L := @nil bytes) (n := 0) as (n' & E).
  - clear - Hvs. unfold ts. induction Hvs as [|e x es vs [He Hs] H IHv]; cbn [map]; constructor; auto.
    rewrite (sh_kind _ _ He), kind_arr, (sh_json _ _ He), Hs.
    destruct (i_val e) as [ | | |n|b|w' es'|w' ms']; try reflexivity.
    cbn [is_arr inside]. cbn [render]. rewrite app_assoc. rewrite unwrap_caps by (try reflexivity; left; reflexivity). reflexivity.
  - split; auto.
  - cbn [commas app] in E. rewrite (visit_ext _ (fun '(out, n) x => raw <- (if kind_eqb (v_kind x) KArray then
                       unwrap (v_json x)
                   else Ok (v_slice x)) ;;
           match raw with
           | [] => Ok ((out, n), true)
           | _ => Ok (((if 0 <? n then out ++ [cCOMMA] else out) ++ raw, n + 1), true)
           end)) by (intros [out n] x; reflexivity).
    rewrite E. reflexivity.
Qed.

Lemma visit_join (o : N) es vs : Forall2 (fun e x => shows x (i_val e) /\ v_slice x = render (i_val e)) es vs ->
  forall L n, (n = 0 <-> L = []) ->
  exists n', visit (fun '(out, n) v => if negb (kind_eqb (v_kind v) KObject) then Ok ((out, n), true)
         else
           let out := if 0 <? n then out ++ [cCOMMA] else out in
           u <- unwrap (v_slice v) ;;
           Ok ((out ++ u, n + 1), true)) (o :: commas L, n) vs =
    Ok (o :: commas (L ++ join_texts es), n').
Proof.
  induction 1 as [|e x es vs [Hx Hs] H IH]; intros L n Hn.
  - exists n. cbn [join_texts flat_map]. rewrite app_nil_r. reflexivity.
  - cbn [visit join_texts flat_map]. fold (join_texts es). rewrite (sh_kind _ _ Hx), kind_obj.
    destruct (i_val e) as [ | | |m|b|w es'|w ms] eqn:Ee; cbn [is_obj negb app]; try (apply IH; auto; fail).
    cbv zeta. rewrite Hs. cbn [render inside]. rewrite app_assoc. rewrite unwrap_caps by (try reflexivity; right; reflexivity). cbn [bind].
    set (t := w ++ commas (map (render_memb render) ms)).
    destruct (IH (L ++ [t]) (n + 1)) as (n' & E).
    { split; [lia|]. intros Z. apply app_eq_nil in Z as [_ Z]. discriminate. }
    exists n'. rewrite <- app_assoc in E. cbn [app] in E. rewrite <- E. f_equal. f_equal.
    destruct L as [|l L].
    + replace n with 0 by (symmetry; apply Hn; reflexivity). reflexivity.
    + replace (0 <? n) with true by (destruct n; [exfalso; assert (l :: L = []) by (apply Hn; reflexivity); discriminate | reflexivity]).
      rewrite (commas_app (l :: L)) by discriminate. cbn [app commas]. rewrite <- app_assoc. reflexivity.
Qed.
Lemma join_text g arg dv w1 w es w2 : g arg s_preserve = Ok dv -> v_bool dv = Ok true ->
  ws w1 -> wf (CArr w es) -> ws w2 ->
  mod_join g (w1 ++ render (CArr w es) ++ w2) arg = Ok (123%N :: commas (join_texts es) ++ [125%N]).
Proof.
  intros Hg Hb H1 Hc H2. unfold mod_join. rewrite parse_spec. cbn [bind].
  destruct (parse_presents w1 _ w2 H1 Hc H2) as [P1 P2]. set (res := lparse (w1 ++ render (CArr w es) ++ w2)) in *.
  rewrite (pr_kind _ _ P1). change (negb (kind_eqb (kind_of (CArr w es)) KArray)) with false. cbv iota.
  rewrite Hg. cbn [bind]. rewrite Hb. cbn [bind].
  cbn [is_container] in P2. destruct (each_array' res w es w2 Hc (pr_kind _ _ P1) P2) as (vs & Hvs & Ev). rewrite Ev.
  destruct (visit_join 123%N es vs Hvs [] 0) as (n' & E); [tauto|]. change (123%N :: commas []) with [123%N] in E. rewrite app_nil_l in E.
  rewrite (visit_ext _ (fun '(out, n) v => if negb (kind_eqb (v_kind v) KObject) then Ok ((out, n), true)
         else
           let out := if 0 <? n then out ++ [cCOMMA] else out in
           u <- unwrap (v_slice v) ;;
           Ok ((out ++ u, n + 1), true))) by (intros [out n] x; reflexivity).
  rewrite E. reflexivity.
Qed.

(* ---------- validity ---------- *)

(** A piece: whitespace, or items. *)
Definition ipiece (p : bytes) : Prop := ws p \/ exists es, es <> [] /\ Forall wf_item es /\ p = commas (map (render_item render) es).
Definition mpiece (p : bytes) : Prop := ws p \/ exists ms, ms <> [] /\ Forall wf_memb ms /\ p = commas (map (render_memb render) ms).

Lemma lany_none fuel w c r : ws w -> c = 44%N \/ c = 93%N \/ c = 125%N -> lany fuel (w ++ c :: r) = None.
Proof.
  intros Hw Hc. destruct fuel; auto. cbn [lany]. rewrite lws_ws_then by (auto; unfold ws_byte; lia).
  destruct Hc as [->|[->| ->]]; reflexivity.
Qed.
Lemma larr_none fuel w c r : ws w -> c = 44%N \/ c = 93%N -> P_Valid.larr fuel (w ++ c :: r) = None.
Proof. intros Hw Hc. destruct fuel; auto. cbn [P_Valid.larr]. rewrite lany_none; auto. intuition. Qed.
Lemma lobj_none fuel w c r : ws w -> c = 44%N \/ c = 125%N -> P_Valid.lobj fuel (lws (w ++ c :: r)) = None.
Proof.
  intros Hw Hc. destruct fuel; auto. rewrite lws_ws_then by (auto; unfold ws_byte; lia). cbn [P_Valid.lobj].
  destruct Hc as [->| ->]; reflexivity.
Qed.

Lemma larr_run : forall es, Forall wf_item es -> es <> [] -> forall fuel r, 2 * length (commas (map (render_item render) es)) + 2 <= fuel ->
  exists f, fuel <= f + length (commas (map (render_item render) es)) /\
    P_Valid.larr fuel (commas (map (render_item render) es) ++ 44%N :: r) = P_Valid.larr f r.
Proof.
  intros es H. induction H as [|e es He Hes IH]; intros Hne fuel r Hf; [congruence|]. clear Hne.
  assert (Hl : length (commas (map (render_item render) (e :: es))) = length (render_item render e) + length (arr_tail es [])).
  { rewrite <- app_length, <- commas_tail, app_nil_r. reflexivity. }
  rewrite commas_tail, Hl in *. destruct He as [a v b Ha Hv Hb]. cbn [render_item] in *. rewrite !app_length in *. apps.
  destruct fuel as [|fuel]; [lia|]. cbn [P_Valid.larr].
  assert (Hft : follow (b ++ arr_tail es (44%N :: r))) by (apply follow_ws_app; auto; destruct es; right; cbn; auto).
  rewrite (proj1 lany_complete (render v) (cst_to_grammar v Hv)) by (auto; lia).
  assert (Hvl : 0 < length (render v)) by (pose proof (render_nonempty v Hv); destruct (render v); [congruence | cbn; lia]).
  destruct es as [|e2 es].
  - cbn [arr_tail]. rewrite lws_ws_then by (auto; unfold ws_byte; lia). exists fuel. split; [cbn [length]; lia | reflexivity].
  - cbn [arr_tail]. rewrite lws_ws_then by (auto; unfold ws_byte; lia). cbn [N.eqb Pos.eqb].
    cbn [arr_tail length] in Hf. rewrite app_nil_r in Hf.
    destruct (IH ltac:(discriminate) fuel r ltac:(lia)) as (f & H1 & H2). exists f.
    split; [cbn [arr_tail length]; rewrite app_nil_r; lia | exact H2].
Qed.
Lemma larr_blank : forall ps, Forall ipiece ps -> Exists ws ps -> forall fuel r, 2 * length (commas ps) + 2 <= fuel ->
  P_Valid.larr fuel (commas ps ++ 93%N :: r) = None.
Proof.
  intros ps H. induction H as [|p ps Hp Hps IH]; intros Hex fuel r Hf; [inversion Hex|].
  assert (Hcase : ws p \/ ~ ws p /\ Exists ws ps).
  { inversion Hex as [? ? Hw|? ? Hw]; subst; auto. destruct Hp as [Hp|(es & H1 & H2 & ->)]; auto. right. split; auto.
    intros Hw'. destruct es as [|[a v b] es]; [congruence|]. inversion H2 as [|? ? He _]; subst. inversion He as [? ? ? Ha Hv Hb]; subst.
    assert (Hv' : ws (render v)).
    { destruct es; cbn [map commas render_item] in Hw'.
      - apply Forall_app in Hw' as [_ Hw']. apply Forall_app in Hw' as [Hw' _]. exact Hw'.
      - rewrite <- !app_assoc in Hw'. apply Forall_app in Hw' as [_ Hw']. apply Forall_app in Hw' as [Hw' _]. exact Hw'. }
    destruct (json_value_head _ (cst_to_grammar v Hv)) as (c & t & E & Hc & _). rewrite E in Hv'. inversion Hv'; auto. }
  destruct Hcase as [Hw|[Hnw Hex']].
  - destruct ps as [|q ps]; [apply larr_none; auto|]. rewrite commas_cons by discriminate. apps. apply larr_none; auto.
  - destruct Hp as [Hp|(es & H1 & H2 & ->)]; [contradiction|]. destruct ps as [|q ps]; [inversion Hex'|].
    rewrite commas_cons in * by discriminate. rewrite app_length in Hf. cbn [length] in Hf. apps.
    destruct (larr_run es H2 H1 fuel (commas (q :: ps) ++ 93%N :: r) ltac:(lia)) as (f & Hf' & ->). apply IH; auto. lia.
Qed.

Lemma lobj_run : forall ms, Forall wf_memb ms -> ms <> [] -> forall fuel r, 2 * length (commas (map (render_memb render) ms)) + 2 <= fuel ->
  exists f, fuel <= f + length (commas (map (render_memb render) ms)) /\
    P_Valid.lobj fuel (lws (commas (map (render_memb render) ms) ++ 44%N :: r)) = P_Valid.lobj f (lws r).
Proof.
  intros ms H. induction H as [|m ms Hm Hms IH]; intros Hne fuel r Hf; [congruence|]. clear Hne.
  assert (Hl : length (commas (map (render_memb render) (m :: ms))) = length (render_memb render m) + length (obj_tail ms [])).
  { rewrite <- app_length, <- commas_tail_m, app_nil_r. reflexivity. }
  rewrite commas_tail_m, Hl in *. destruct Hm as [a k b c v d Ha Hk Hb Hc Hv Hd]. cbn [render_memb] in *. rewrite ?app_length in *.
  rewrite <- ?app_assoc. cbn [length app] in *. rewrite ?app_length in *. rewrite quoted_app. apps.
  rewrite lws_ws_then by (auto; unfold ws_byte; lia).
  destruct fuel as [|fuel]; [lia|]. cbn [P_Valid.lobj N.eqb Pos.eqb]. rewrite lstr_complete by auto.
  rewrite lws_ws_then by (auto; unfold ws_byte; lia). cbn [N.eqb Pos.eqb].
  assert (Hft : follow (d ++ obj_tail ms (44%N :: r))) by (apply follow_ws_app; auto; destruct ms; right; cbn; auto).
  rewrite (proj1 lany_complete (render v) (cst_to_grammar v Hv)) by (auto; lia).
  assert (Hvl : 0 < length (render v)) by (pose proof (render_nonempty v Hv); destruct (render v); [congruence | cbn; lia]).
  destruct ms as [|m2 ms].
  - cbn [obj_tail]. rewrite lws_ws_then by (auto; unfold ws_byte; lia). exists fuel. split; [cbn [length]; lia | reflexivity].
  - cbn [obj_tail]. rewrite lws_ws_then by (auto; unfold ws_byte; lia). cbn [N.eqb Pos.eqb].
    cbn [obj_tail length] in Hf. rewrite app_nil_r in Hf.
    destruct (IH ltac:(discriminate) fuel r ltac:(lia)) as (f & H1 & H2). exists f.
    split; [cbn [obj_tail length]; rewrite app_nil_r; lia | exact H2].
Qed.
Lemma lobj_blank : forall ps, Forall mpiece ps -> Exists ws ps -> forall fuel r, 2 * length (commas ps) + 2 <= fuel ->
  P_Valid.lobj fuel (lws (commas ps ++ 125%N :: r)) = None.
Proof.
  intros ps H. induction H as [|p ps Hp Hps IH]; intros Hex fuel r Hf; [inversion Hex|].
  assert (Hcase : ws p \/ ~ ws p /\ Exists ws ps).
  { inversion Hex as [? ? Hw|? ? Hw]; subst; auto. destruct Hp as [Hp|(ms & H1 & H2 & ->)]; auto. right. split; auto.
    intros Hw'. destruct ms as [|[a k b c v d] ms]; [congruence|].
    assert (Hq : In 34%N (commas (map (render_memb render) (Memb a k b c v d :: ms)))).
    { rewrite <- (app_nil_r (commas _)), commas_tail_m. cbn [render_memb]. apply in_or_app. left. apply in_or_app. right. left. reflexivity. }
    apply (proj1 (Forall_forall _ _) Hw') in Hq. unfold ws_byte in Hq. lia. }
  destruct Hcase as [Hw|[Hnw Hex']].
  - destruct ps as [|q ps]; [apply lobj_none; auto|]. rewrite commas_cons by discriminate. apps. apply lobj_none; auto.
  - destruct Hp as [Hp|(ms & H1 & H2 & ->)]; [contradiction|]. destruct ps as [|q ps]; [inversion Hex'|].
    rewrite commas_cons in * by discriminate. rewrite app_length in Hf. cbn [length] in Hf. apps.
    destruct (lobj_run ms H2 H1 fuel (commas (q :: ps) ++ 125%N :: r) ltac:(lia)) as (f & Hf' & ->). apply IH; auto. lia.
Qed.

Lemma ws_dec (p : bytes) : ws p \/ ~ ws p.
Proof.
  unfold ws. destruct (Forall_Exists_dec (fun c => ws_byte c) (fun c => ltac:(unfold ws_byte; destruct (N.eq_dec c 32), (N.eq_dec c 9), (N.eq_dec c 10), (N.eq_dec c 13); (left; tauto) || (right; tauto))) p) as [H|H]; auto.
  right. intros H'. apply Exists_exists in H as (x & Hx & Hn). apply Hn. apply (proj1 (Forall_forall _ _) H' x Hx).
Qed.
Lemma ws_some (ps : list bytes) : Forall (fun p => ~ ws p) ps \/ Exists ws ps.
Proof.
  induction ps as [|p ps IH]; [left; constructor|]. destruct (ws_dec p); [right; left; auto|].
  destruct IH; [left; constructor; auto | right; right; auto].
Qed.

(** The whole array: valid if no piece is blank or there is one piece. *)
Lemma valid_pieces ps : Forall ipiece ps ->
  (valid (91%N :: commas ps ++ [93%N]) = Ok true <-> (Forall (fun p => ~ ws p) ps \/ length ps = 1)).
Proof.
  intros Hps. split.
  - intros Hv. pose proof (ws_some ps) as Hd.
    destruct Hd as [Hd|Hd]; auto. right. destruct ps as [|p [|q ps]]; [inversion Hd | reflexivity|]. exfalso.
    rewrite valid_eq in Hv. assert (E : lvalid (91%N :: commas (p :: q :: ps) ++ [93%N]) = false); [|congruence].
    unfold lvalid. set (F := S (2 * length (91%N :: commas (p :: q :: ps) ++ [93%N]))).
    assert (El : lany (S F) (91%N :: commas (p :: q :: ps) ++ [93%N]) = None); [|rewrite El; reflexivity].
    cbn [lany]. rewrite (lws_stop 91%N) by (unfold ws_byte; lia). cbn [N.eqb Pos.eqb].
    assert (HF : 2 * length (commas (p :: q :: ps)) + 2 <= F) by (unfold F; cbn [length]; rewrite app_length; cbn [length]; lia).
    pose proof (larr_blank (p :: q :: ps) Hps Hd F [] HF) as Hn.
    destruct (lws_split (commas (p :: q :: ps) ++ [93%N])) as (w & Hw & Ew).
    destruct (lws (commas (p :: q :: ps) ++ [93%N])) as [|x t] eqn:Ex; auto.
    assert (Hx : x <> 93%N).
    { intros ->. rewrite commas_cons in Ex, Ew by discriminate. revert Ex. apps.
      inversion Hps as [|? ? [Hp|(es & H1 & H2 & ->)] _]; subst.
      - rewrite lws_ws_then by (auto; unfold ws_byte; lia). intros [=].
      - destruct es as [|e es]; [congruence|]. rewrite commas_tail. inversion H2 as [|? ? He _]; subst.
        destruct He as [a v b Ha Hv' Hb]. cbn [render_item]. apps.
        destruct (json_value_head _ (cst_to_grammar v Hv')) as (c & t' & E & Hc & Hc2 & _). rewrite E. cbn [app].
        rewrite lws_ws_then by auto. intros [= Hh]. congruence. }
    apply N.eqb_neq in Hx. rewrite Hx. rewrite <- Hn. rewrite Ew at 1.
    destruct F; [reflexivity|]. cbn [P_Valid.larr]. destruct F; [reflexivity|]. cbn [lany]. rewrite (lws_app w) by auto. reflexivity.
  - intros H. apply valid_true_iff. exists [], (91%N :: commas ps ++ [93%N]), []. split; [constructor|]. split; [|split; [constructor | rewrite app_nil_r; reflexivity]].
    destruct H as [H|H].
    + assert (exists es, Forall wf_item es /\ commas ps = commas (map (render_item render) es)) as (es & He & ->).
      { clear -Hps H. induction Hps as [|p ps Hp Hps IH]; [exists []; split; [constructor | reflexivity]|].
        inversion H as [|? ? Hn H']; subst. destruct (IH H') as (es & He & E). destruct Hp as [Hp|(es1 & H1 & H2 & ->)]; [contradiction|].
        exists (es1 ++ es). split; [apply Forall_app; auto|]. rewrite map_app. destruct ps as [|q ps].
        - destruct es as [|e es]; [rewrite app_nil_r; reflexivity|]. exfalso. symmetry in E. apply commas_ne in E; auto; [|discriminate].
          apply Forall_forall. intros t Ht. apply in_map_iff in Ht as (x & <- & Hx). apply render_item_ne. apply (proj1 (Forall_forall _ _) He); auto.
        - rewrite commas_cons by discriminate. assert (Hes : es <> []).
          { intros ->. assert (length (commas (q :: ps)) = 0) by (rewrite E; reflexivity).
            inversion Hps as [|? ? Hq _]; subst. inversion H' as [|? ? Hnq _]; subst.
            destruct ps; cbn [commas] in H0; [|rewrite app_length in H0; cbn [length] in H0; lia].
            destruct q; [apply Hnq; constructor | discriminate]. }
          rewrite commas_app; [f_equal; f_equal; exact E| |]; intros Z; apply map_eq_nil in Z; auto. }
      pose proof (cst_to_grammar (CArr [] es) ltac:(constructor; [constructor | auto])) as G. exact G.
    + destruct ps as [|p [|q ps]]; try discriminate. inversion Hps as [|? ? [Hp|(es & H1 & H2 & ->)] _]; subst.
      * apply (jv_empty_array p); auto.
      * pose proof (cst_to_grammar (CArr [] es) ltac:(constructor; [constructor | auto])) as G. exact G.
Qed.

(** The whole object. *)
Lemma valid_mpieces ps : Forall mpiece ps ->
  (valid (123%N :: commas ps ++ [125%N]) = Ok true <-> (Forall (fun p => ~ ws p) ps \/ length ps = 1)).
Proof.
  intros Hps. split.
  - intros Hv. pose proof (ws_some ps) as Hd.
    destruct Hd as [Hd|Hd]; auto. right. destruct ps as [|p [|q ps]]; [inversion Hd | reflexivity|]. exfalso.
    rewrite valid_eq in Hv. assert (E : lvalid (123%N :: commas (p :: q :: ps) ++ [125%N]) = false); [|congruence].
    unfold lvalid. set (F := S (2 * length (123%N :: commas (p :: q :: ps) ++ [125%N]))).
    assert (El : lany (S F) (123%N :: commas (p :: q :: ps) ++ [125%N]) = None); [|rewrite El; reflexivity].
    cbn [lany]. rewrite (lws_stop 123%N) by (unfold ws_byte; lia). cbn [N.eqb Pos.eqb].
    assert (HF : 2 * length (commas (p :: q :: ps)) + 2 <= F) by (unfold F; cbn [length]; rewrite app_length; cbn [length]; lia).
    pose proof (lobj_blank (p :: q :: ps) Hps Hd F [] HF) as Hn.
    destruct (lws (commas (p :: q :: ps) ++ [125%N])) as [|x t] eqn:Ex; auto.
    assert (Hx : x <> 125%N).
    { intros ->. rewrite commas_cons in Ex by discriminate. revert Ex. apps.
      inversion Hps as [|? ? [Hp|(ms & H1 & H2 & ->)] _]; subst.
      - rewrite lws_ws_then by (auto; unfold ws_byte; lia). intros [=].
      - destruct ms as [|m ms]; [congruence|]. rewrite commas_tail_m. inversion H2 as [|? ? Hm _]; subst.
        destruct Hm as [a k b c v d Ha Hk Hb Hc Hv' Hd']. cbn [render_memb]. rewrite <- ?app_assoc. rewrite quoted_app.
        rewrite lws_ws_then by (auto; unfold ws_byte; lia). intros [=]. }
    apply N.eqb_neq in Hx. rewrite Hx. rewrite <- Hn. reflexivity.
  - intros H. apply valid_true_iff. exists [], (123%N :: commas ps ++ [125%N]), []. split; [constructor|]. split; [|split; [constructor | rewrite app_nil_r; reflexivity]].
    destruct H as [H|H].
    + assert (exists ms, Forall wf_memb ms /\ commas ps = commas (map (render_memb render) ms)) as (ms & He & ->).
      { clear -Hps H. induction Hps as [|p ps Hp Hps IH]; [exists []; split; [constructor | reflexivity]|].
        inversion H as [|? ? Hn H']; subst. destruct (IH H') as (ms & He & E). destruct Hp as [Hp|(ms1 & H1 & H2 & ->)]; [contradiction|].
        exists (ms1 ++ ms). split; [apply Forall_app; auto|]. rewrite map_app. destruct ps as [|q ps].
        - destruct ms as [|e ms]; [rewrite app_nil_r; reflexivity|]. exfalso. symmetry in E. rewrite <- (app_nil_r (commas _)), commas_tail_m in E.
          destruct e; cbn [render_memb] in E. apply app_eq_nil in E as [E _]. apply app_eq_nil in E as [_ E]. discriminate.
        - rewrite commas_cons by discriminate. assert (Hes : ms <> []).
          { intros ->. assert (length (commas (q :: ps)) = 0) by (rewrite E; reflexivity).
            inversion Hps as [|? ? Hq _]; subst. inversion H' as [|? ? Hnq _]; subst.
            destruct ps; cbn [commas] in H0; [|rewrite app_length in H0; cbn [length] in H0; lia].
            destruct q; [apply Hnq; constructor | discriminate]. }
          rewrite commas_app; [f_equal; f_equal; exact E| |]; intros Z; apply map_eq_nil in Z; auto. }
      pose proof (cst_to_grammar (CObj [] ms) ltac:(constructor; [constructor | auto])) as G. exact G.
    + destruct ps as [|p [|q ps]]; try discriminate. inversion Hps as [|? ? [Hp|(ms & H1 & H2 & ->)] _]; subst.
      * apply (jv_empty_object p); auto.
      * pose proof (cst_to_grammar (CObj [] ms) ltac:(constructor; [constructor | auto])) as G. exact G.
Qed.

(* ---------- the pieces of documents ---------- *)

Definition ftext (c : cst) : text := match c with CArr _ _ => inside c | _ => render c end.
Lemma flat_texts_eq es : flat_texts es = filter nonempty (map (fun e => ftext (i_val e)) es).
Proof. reflexivity. Qed.

Lemma ftext_piece c : wf c -> ipiece (ftext c) /\ (ws (ftext c) -> nonempty (ftext c) = true -> hollow_array c).
Proof.
  intros Hc. assert (Hd : match c with CArr _ _ => False | _ => True end -> ftext c = render c).
  { destruct c; try contradiction; reflexivity. }
  assert (Hn : match c with CArr _ _ => False | _ => True end -> ipiece (render c) /\ ~ ws (render c)).
  { intros _. split.
    - right. exists [Item [] c []]. split; [discriminate|]. split; [repeat constructor; auto|].
      cbn [map commas render_item]. rewrite app_nil_r. reflexivity.
    - intros Hw. destruct (json_value_head _ (cst_to_grammar c Hc)) as (x & t & E & Hx & _). rewrite E in Hw. inversion Hw; auto. }
  destruct c as [ | | |n|b|w es|w ms]; try (rewrite Hd by exact I; destruct (Hn I) as [H1 H2]; split; [exact H1 | intros Hw; contradiction]).
  clear Hd Hn. cbn [ftext inside]. inversion Hc as [| | | | |w' es' Hw Hes|]; subst. destruct es as [|e es].
  - cbn [map commas]. rewrite app_nil_r. split; [left; exact Hw|]. intros _ Hne. exists w. split; auto. intros ->. discriminate.
  - rewrite lead_text by discriminate. assert (Hl : Forall wf_item (lead w (e :: es))) by exact (piece_wf _ Hc). split.
    + right. exists (lead w (e :: es)). split; [destruct e; discriminate|]. split; auto.
    + intros Hw' _. exfalso. destruct e as [a v b]. cbn [lead] in *. inversion Hl as [|? ? He _]; subst. inversion He as [? ? ? Ha Hv Hb]; subst.
      rewrite <- (app_nil_r (commas _)), commas_tail in Hw'. cbn [render_item] in Hw'. apply Forall_app in Hw' as [Hw' _].
      apply Forall_app in Hw' as [_ Hw']. apply Forall_app in Hw' as [Hw' _].
      destruct (json_value_head _ (cst_to_grammar v Hv)) as (x & t & E & Hx & _). rewrite E in Hw'. inversion Hw'; auto.
Qed.
Lemma ftext_empty c : wf c -> (nonempty (ftext c) = false <-> c = CArr [] []).
Proof.
  intros Hc. split; [|intros ->; reflexivity]. intros He.
  assert (He' : ftext c = []) by (destruct (ftext c); auto; discriminate). clear He.
  destruct c as [ | | |n|b|w es|w ms]; try (exfalso; apply (render_nonempty _ Hc); exact He').
  cbn [ftext inside] in He'. apply app_eq_nil in He' as [-> He']. destruct es as [|e es]; auto. exfalso.
  rewrite <- (app_nil_r (commas _)), commas_tail in He'. apply app_eq_nil in He' as [He' _].
  inversion Hc as [| | | | |w' es' Hw Hes|]; subst. inversion Hes as [|? ? Hi _]; subst. apply (render_item_ne _ Hi He').
Qed.

Lemma filter_one {A B} (f : A -> B) (p : B -> bool) (l : list A) : length (filter p (map f l)) = 1 ->
  exists a x b, l = a ++ x :: b /\ Forall (fun y => p (f y) = false) (a ++ b).
Proof.
  induction l as [|x l IH]; cbn [map filter]; [discriminate|]. destruct (p (f x)) eqn:E.
  - cbn [length]. intros H. exists [], x, l. split; auto. cbn [app]. assert (Z : filter p (map f l) = []) by (destruct (filter p (map f l)); auto; discriminate).
    clear -Z. induction l as [|y l IH]; constructor; cbn [map filter] in Z; destruct (p (f y)) eqn:E; auto; discriminate.
  - intros H. destruct (IH H) as (a & y & b & -> & Hab). exists (x :: a), y, b. split; auto. cbn [app]. constructor; auto.
Qed.
Lemma filter_one_le {A B} (f : A -> B) (p : B -> bool) a x b : Forall (fun y => p (f y) = false) (a ++ b) ->
  filter p (map f (a ++ x :: b)) = if p (f x) then [f x] else [].
Proof.
  intros H. assert (Hz : forall l, Forall (fun y => p (f y) = false) l -> filter p (map f l) = []).
  { induction 1 as [|y l Hy _ IH]; cbn [map filter]; auto. rewrite Hy. exact IH. }
  apply Forall_app in H as [Ha Hb]. rewrite map_app, filter_app, (Hz a Ha). cbn [map filter app]. rewrite (Hz b Hb). destruct (p (f x)); reflexivity.
Qed.

Lemma flat_valid w es : wf (CArr w es) ->
  (valid (91%N :: commas (flat_texts es) ++ [93%N]) = Ok true <->
   Forall (fun e => ~ hollow_array (i_val e)) es \/
   exists a e b, es = a ++ e :: b /\ Forall (fun x => i_val x = CArr [] []) (a ++ b)).
Proof.
  intros Hc. assert (Hes : Forall (fun e => wf (i_val e)) es).
  { pose proof (wf_items _ _ Hc) as H. eapply Forall_impl; [|exact H]. intros e He. destruct He; auto. }
  rewrite flat_texts_eq. rewrite valid_pieces.
  2:{ apply Forall_forall. intros t Ht. apply filter_In in Ht as [Ht _]. apply in_map_iff in Ht as (e & <- & He).
      apply ftext_piece. apply (proj1 (Forall_forall _ _) Hes e He). }
  assert (Hrest : forall l, Forall (fun e => wf (i_val e)) l ->
     (Forall (fun e => nonempty (ftext (i_val e)) = false) l <-> Forall (fun x => i_val x = CArr [] []) l)).
  { intros l Hl. rewrite !Forall_forall in *. split; intros H x Hx; apply (ftext_empty _ (Hl x Hx)), H, Hx. }
  split; (intros [H|H]; [|]).
  - left. apply Forall_forall. intros e He (w' & Hw' & E). rewrite Forall_forall in H. apply (H (ftext (i_val e))).
    + apply filter_In. split; [apply in_map_iff; exists e; auto|]. rewrite E. cbn [ftext inside map commas]. rewrite app_nil_r. destruct w'; [congruence | reflexivity].
    + rewrite E. assert (Hw : wf (i_val e)) by exact (proj1 (Forall_forall _ _) Hes e He). rewrite E in Hw. inversion Hw; subst. cbn [ftext inside map commas]. rewrite app_nil_r. assumption.
  - right. apply (filter_one (fun e => ftext (i_val e))) in H as (a & e & b & E & H). exists a, e, b. split; auto.
    apply Hrest; auto. rewrite E in Hes. apply Forall_app in Hes as [H1 H2]. inversion H2; subst. apply Forall_app; auto.
  - left. apply Forall_forall. intros t Ht Hw. apply filter_In in Ht as [Ht Hn]. apply in_map_iff in Ht as (e & <- & He).
    rewrite Forall_forall in H. apply (H e He). apply ftext_piece; auto. apply (proj1 (Forall_forall _ _) Hes e He).
  - destruct H as (a & e & b & E & H). subst es. assert (Hab : Forall (fun e => wf (i_val e)) (a ++ b)).
    { apply Forall_app in Hes as [H1 H2]. inversion H2; subst. apply Forall_app; auto. }
    apply (Hrest _ Hab) in H. rewrite (filter_one_le (fun e => ftext (i_val e)) nonempty a e b H).
    destruct (nonempty (ftext (i_val e))); [right; reflexivity | left; constructor].
Qed.

Lemma mtext_piece w ms : wf (CObj w ms) -> mpiece (inside (CObj w ms)) /\ (ws (inside (CObj w ms)) <-> ms = []).
Proof.
  intros Hc. cbn [inside]. inversion Hc as [| | | | | |w' ms' Hw Hms]; subst. destruct ms as [|m ms].
  - cbn [map commas]. rewrite app_nil_r. split; [left; exact Hw | tauto].
  - rewrite leadm_text by discriminate. assert (Hl : Forall wf_memb (leadm w (m :: ms))) by exact (piecem_wf _ Hc). split.
    + right. exists (leadm w (m :: ms)). split; [destruct m; discriminate|]. split; auto.
    + split; [|discriminate]. intros Hw'. exfalso. destruct m as [a k b c v d]. cbn [leadm] in *.
      assert (Hq : In 34%N (commas (map (render_memb render) (Memb (w ++ a) k b c v d :: ms)))).
      { rewrite <- (app_nil_r (commas _)), commas_tail_m. cbn [render_memb]. apply in_or_app. left. apply in_or_app. right. left. reflexivity. }
      apply (proj1 (Forall_forall _ _) Hw') in Hq. unfold ws_byte in Hq. lia.
Qed.

Lemma join_valid w es : wf (CArr w es) ->
  (valid (123%N :: commas (join_texts es) ++ [125%N]) = Ok true <->
   Forall (fun e => ~ empty_object (i_val e)) es \/
   exists a e b, es = a ++ e :: b /\ Forall (fun x => is_obj (i_val x) = false) (a ++ b)).
Proof.
  intros Hc. assert (Hes : Forall (fun e => wf (i_val e)) es).
  { pose proof (wf_items _ _ Hc) as H. eapply Forall_impl; [|exact H]. intros e He. destruct He; auto. }
  assert (Hin : forall t, In t (join_texts es) <-> exists e w ms, In e es /\ i_val e = CObj w ms /\ t = inside (CObj w ms)).
  { intros t. unfold join_texts. rewrite in_flat_map. split.
    - intros (e & He & Ht). destruct (i_val e) as [ | | |n|b|w' es'|w' ms] eqn:E; try contradiction. destruct Ht as [<-|[]]. exists e, w', ms. auto.
    - intros (e & w' & ms & He & E & ->). exists e. rewrite E. split; auto. left. reflexivity. }
  rewrite valid_mpieces.
  2:{ apply Forall_forall. intros t Ht. apply Hin in Ht as (e & w' & ms & He & E & ->).
      apply mtext_piece. rewrite <- E. apply (proj1 (Forall_forall _ _) Hes e He). }
  assert (Hz : forall l, Forall (fun x => is_obj (i_val x) = false) l <-> join_texts l = []).
  { induction l as [|x l IH]; [split; [reflexivity | constructor]|]. cbn [join_texts flat_map]. fold (join_texts l). split.
    - intros H. inversion H as [|? ? H1 H2]; subst. destruct (i_val x); try discriminate; apply IH; auto.
    - intros H. apply app_eq_nil in H as [H1 H2]. constructor; [|apply IH; auto]. destruct (i_val x); try reflexivity. discriminate. }
  split; (intros [H|H]; [|]).
  - left. apply Forall_forall. intros e He (w' & E). rewrite Forall_forall in H. apply (H (inside (CObj w' []))).
    + apply Hin. exists e, w', []. auto.
    + apply mtext_piece; auto. rewrite <- E. apply (proj1 (Forall_forall _ _) Hes e He).
  - right. clear -H Hz. induction es as [|x es IH]; [discriminate|]. cbn [join_texts flat_map] in H. fold (join_texts es) in H.
    destruct (is_obj (i_val x)) eqn:E.
    + exists [], x, es. split; auto. cbn [app]. apply Hz. destruct (i_val x); try discriminate. cbn [app length] in H. destruct (join_texts es); auto. discriminate.
    + destruct IH as (a & e & b & -> & Hab); [destruct (i_val x); try exact H; discriminate|].
      exists (x :: a), e, b. split; auto. cbn [app]. constructor; auto.
  - left. apply Forall_forall. intros t Ht Hw. apply Hin in Ht as (e & w' & ms & He & E & ->).
    rewrite Forall_forall in H. apply (H e He). exists w'. rewrite E. f_equal. apply (mtext_piece w' ms); auto. rewrite <- E. apply (proj1 (Forall_forall _ _) Hes e He).
  - destruct H as (a & e & b & E & H). subst es. apply Forall_app in H as [H1 H2]. apply Hz in H1, H2.
    assert (Ej : join_texts (a ++ e :: b) = join_texts [e]).
    { unfold join_texts in *. rewrite flat_map_app, H1. cbn [flat_map app]. rewrite H2. reflexivity. }
    rewrite Ej. destruct e as [a' v b']. destruct v; try (left; apply Forall_nil). right. reflexivity.
Qed.

(* ---------- through get ---------- *)

Lemma get_flatten_text w1 w es w2 arg dv : ws w1 -> wf (CArr w es) -> ws w2 -> arg_ok arg ->
  get (arg_text arg) s_deep = Ok dv -> v_bool dv = Ok false ->
  exists v, get (w1 ++ render (CArr w es) ++ w2) (modifier n_flatten arg) = Ok v /\
    v_kind v = KArray /\ v_json v = 91%N :: commas (flat_texts es) ++ [93%N].
Proof.
  intros H1 Hc H2 Ha Hg Hb. rewrite get_modifier_end by (auto using plain_name).
  change (mod_apply get n_flatten ?j ?a) with (mod_flatten (S (length j)) get j a).
  rewrite (flatten_text _ _ _ _ _ _ _ _ Hg Hb) by auto. cbn [bind]. eexists. split; [reflexivity|].
  pose proof (into_parse (91%N :: commas (flat_texts es) ++ [93%N])) as (E1 & _ & E3).
  split; [unfold v_kind in *; rewrite E3; reflexivity | rewrite E1; reflexivity].
Qed.
Lemma get_join_text w1 w es w2 arg dv : ws w1 -> wf (CArr w es) -> ws w2 -> arg_ok arg ->
  get (arg_text arg) s_preserve = Ok dv -> v_bool dv = Ok true ->
  exists v, get (w1 ++ render (CArr w es) ++ w2) (modifier n_join arg) = Ok v /\
    v_kind v = KObject /\ v_json v = 123%N :: commas (join_texts es) ++ [125%N].
Proof.
  intros H1 Hc H2 Ha Hg Hb. rewrite get_modifier_end by (auto using plain_name).
  change (mod_apply get n_join ?j ?a) with (mod_join get j a).
  rewrite (join_text _ _ _ _ _ _ _ Hg Hb) by auto. cbn [bind]. eexists. split; [reflexivity|].
  pose proof (into_parse (123%N :: commas (join_texts es) ++ [125%N])) as (E1 & _ & E3).
  split; [unfold v_kind in *; rewrite E3; reflexivity | rewrite E1; reflexivity].
Qed.
