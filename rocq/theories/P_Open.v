(** Lookups in documents that are damaged behind the value found. *)
From Verif Require Import P_Base P_Json P_Valid P_ValidSpec P_Str P_Glob P_Scan P_Each P_Doc P_Path P_LGet P_Parts P_Ext P_Value P_Num P_Key P_Find
  P_GetDoc P_GetArr P_Pipe P_Stream P_Follow P_Eval M_Util M_Num M_Scan M_Value M_Path M_Get S_Json S_Str S_Get S_Path S_Query S_Follow S_Mod S_Eval S_Open.

Section Skip.
Context (lsub : bytes -> R ldescent) (json : bytes) (p : path).
Notation loop l := (lloop lsub json l p).
Lemma skip_membs ms X : Forall wf_memb ms -> Forall (fun m => kmatch p (m_key m) = false) ms ->
  loop (concat (map (fun m => render_memb render m ++ [44%N]) ms) ++ X) = loop X.
Proof.
  intros Hw. induction Hw as [|m ms Hm Hms IH]; intros Hn; [reflexivity|]. inversion Hn as [|? ? Hk Hn']; subst.
  cbn [map concat]. destruct Hm as [a k b c v d Ha Hkc Hb Hcc Hv Hd]. cbn [render_memb m_key] in *. apps.
  rewrite lloop_memb by (auto; apply follow_ws; auto; right; auto). rewrite Hk. cbv zeta.
  rewrite lloop_skips by (apply ws_plain_skip; auto). rewrite lloop_skip by discriminate. auto.
Qed.
(** The member whose value is looked into. *)
Lemma open_memb a k b c h t v p' : ws a -> chars k -> ws b -> ws c -> kmatch p k = true -> (p_sep p =? 46)%N = true ->
  container h = true -> lsub (h :: t) = Ok (LReturn v p') ->
  loop (a ++ quoted k ++ b ++ 58%N :: c ++ h :: t) = Ok (v, p').
Proof.
  intros Ha Hk Hb Hc Hm Hs Hh E. rewrite lloop_skips by (apply ws_plain_skip; auto).
  rewrite quoted_app_cons, lloop_str, chars_split by auto.
  rewrite colon_gap by (auto; unfold container in Hh; unfold colon_stop; lia).
  rewrite Hm, Hs, Hh, E. reflexivity.
Qed.
End Skip.

Lemma arr_open_commas w es a e r :
  arr_open w es a ++ render e ++ r = 91%N :: w ++ commas (map (render_item render) (es ++ [Item a e []])) ++ r.
Proof.
  unfold arr_open. apps. do 2 f_equal. induction es as [|x es IH].
  - cbn [map concat app commas render_item]. rewrite app_nil_r. apps. reflexivity.
  - cbn [map concat app]. apps. rewrite IH.
    rewrite commas_cons; [apps; reflexivity|]. intros E. apply map_eq_nil in E. apply app_eq_nil in E. destruct E as [_ E]. discriminate E.
Qed.
Lemma elems_open json w es r : ws w -> Forall wf_item es -> follow r ->
  exists xs ys, elems json false (91%N :: w ++ commas (map (render_item render) es) ++ r) = xs ++ ys /\
    Forall2 (fun e x => exists i, x = tval (i_val e) i) es xs.
Proof.
  intros Hw Hes Hr. unfold elems, fe_items. cbn [tl].
  rewrite items_skip by (apply ws_skip_sep; auto). rewrite items_commas by auto. rewrite map_app.
  do 2 eexists. split; [reflexivity|]. pose proof (item_sufs_spec es r Hes Hr) as HF.
  clear Hr. induction HF as [|e x es' xs (r' & -> & Hr') HF IH]; [constructor|]. inversion Hes; subst. cbn [map]. constructor; auto.
  rewrite fval_render by (auto; apply wf_ival; auto). eauto.
Qed.

Section Ev.
Context (mt : text -> text -> bool) (ix : text -> option nat) (hd : text -> cst -> bool) (all : list step).
Hypothesis Hmean : meaning mt ix hd all.
Notation okst := (okst all).
Notation oks := (oks all).
Notation texts ss := (map step_text ss).
Notation eval := (eval mt ix hd).
Notation G := (G mt ix hd all).

Lemma get_ok_all ss : oks ss -> ss <> [] -> get_ok mt ix hd ss.
Proof using Hmean.
  intros H1 H2 c Hc. pose proof (get_eval mt ix hd all Hmean (length ss) ss c [] [] (le_n _) H1 H2 ltac:(constructor) Hc) as H.
  cbn [app] in H. rewrite app_nil_r in H. exact H.
Qed.
Lemma larr_index json l k ss : component k -> 
  larr get json false l (path1 k (texts ss)) =
      Ok (if (0 <=? comp_index k)%Z then nth (Z.to_nat (comp_index k)) (elems json false l) value_default
          else value_default, path1 k (texts ss)).
Proof using.
  intros Hk. unfold larr. destruct (path_comp [] k (texts ss)) as [-> _]. cbv zeta.
  destruct k as [|x k]; [reflexivity|]. destruct Hk as [_ (_ & Hh & _)]. replace (x =? 35)%N with false by lia. reflexivity.
Qed.
Lemma find_r_app f xs ys v : v_exists v = true -> find_r f xs = Ok v -> find_r f (xs ++ ys) = Ok v.
Proof using.
  intros Hv. induction xs as [|x xs IH]; cbn [find_r app]; [intros [= <-]; discriminate|].
  destruct (f x) as [[|]|]; cbn [bind]; auto.
Qed.

Lemma leads_out ss0 t v : leads mt ix hd ss0 t v -> forall s ss, ss0 = s :: ss -> okst s -> oks ss ->
  forall r json f, follow r -> suf (t ++ r) json -> length ss < f ->
  exists h t', t = h :: t' /\ container h = true /\
  exists x p, (if (h =? 123)%N then lobj f get json (t ++ r) (path1 (step_text s) (texts ss))
               else larr get json false (t ++ r) (path1 (step_text s) (texts ss))) = Ok (x, p) /\
    G (S (length ss)) (Some v) x p.
Proof using Hmean.
  induction 1 as [ss0 c v Hc He|s0 ss0 w ms a k b c t v Hw Hms Ha Hk Hb Hcc Hn Hh Hl IH
    |k ss0 w es a e v Hw Hes Ha Hwe Hi Hres|q ss0 w es a e v Hw Hes Ha Hwe Hno Hyes Hres];
    intros s ss E Hs Hss r json f Hr Hsuf Hf.
  - subst ss0. assert (Hx : is_container c = true) by (destruct c; auto; discriminate).
    destruct (render_colon_head c Hc) as (h & t' & Er & _ & Hco). rewrite Hx in Hco. exists h, t'. split; auto. split; auto.
    destruct c as [ | | |nn|bb|w es|w ms]; try discriminate.
    + destruct (larr_eval mt ix hd all Hmean json w es r s ss Hc Hs Hss (get_ok_all ss Hss)) as (x & p & E & Ho).
      rewrite He in Ho. cbn [out] in Ho. replace (h =? 123)%N with false by (cbn [render] in Er; injection Er as <- _; reflexivity). eauto.
    + destruct (lobj_eval mt ix hd all Hmean ss s w ms r json f Hs Hss Hc Hsuf Hf (fun ss' _ H1 H2 => get_ok_all ss' H1 H2)) as (x & p & E & Ho).
      rewrite He in Ho. cbn [out] in Ho. replace (h =? 123)%N with true by (cbn [render] in Er; injection Er as <- _; reflexivity). eauto.
  - injection E as -> ->. exists 123%N, (w ++ concat (map (fun m => render_memb render m ++ [44%N]) ms) ++ a ++ quoted k ++ b ++ (58%N :: c) ++ t).
    assert (Et : (obj_open w ms a k b c ++ t) = 123%N :: w ++ concat (map (fun m => render_memb render m ++ [44%N]) ms) ++ a ++ quoted k ++ b ++ (58%N :: c) ++ t)
      by (unfold obj_open; apps; reflexivity).
    split; auto. split; auto. change (123 =? 123)%N with true. cbv match. rewrite Et in *.
    destruct f as [|f]; [lia|]. rewrite <- app_comm_cons in *.
    rewrite lobj_eq by (apply suf_length in Hsuf; cbn [length] in Hsuf; lia).
    revert Hsuf. apps. intros Hsuf. rewrite lloop_skips by (apply ws_plain_skip; auto).
    assert (Hm : forall m, wf_memb m -> kmatch (path1 (step_text s) (texts ss)) (m_key m) = hits mt s (name_of m)).
    { intros m Hwm. destruct (texts ss); apply (hits_match mt ix hd all Hmean); auto. }
    rewrite skip_membs; auto.
    2:{ apply Forall_forall. intros m Him. rewrite Hm by (apply (proj1 (Forall_forall _ _) Hms); auto). apply (proj1 (Forall_forall _ _) Hn); auto. }
    assert (Hkm : kmatch (path1 (step_text s) (texts ss)) k = true).
    { change k with (m_key (Memb a k b c CNull [])). rewrite Hm; auto. constructor; auto; constructor. }
    assert (Hsuf' : suf (t ++ r) json).
    { apply suf_tail in Hsuf. do 5 apply suf_app_r in Hsuf. apply suf_tail in Hsuf. exact (suf_app_r _ _ _ Hsuf). }
    destruct ss as [|s2 ss].
    + inversion Hl as [? ? ? Hwc He| | |]; subst. cbn in He. injection He as ->.
      rewrite lloop_memb by auto. cbv zeta. rewrite Hkm. change (p_sep (path1 (step_text s) (texts []))) with 0%N. cbn [N.eqb andb].
      rewrite fval_render by auto. do 2 eexists. split; [reflexivity|].
      exact (G_rest mt ix hd all 1 v _ s [] Hwc (oks_nil all) ltac:(cbn; lia)).
    + destruct (oks_cons all _ _ Hss) as [Hs2 Hss'].
      destruct (IH s2 ss eq_refl Hs2 Hss' r json f Hr Hsuf' ltac:(cbn [length] in Hf; lia)) as (h & t' & -> & Hco & x & p & Ex & Hg).
      rewrite <- app_comm_cons in *. exists x, p. split; [|apply (G_weak mt ix hd all (S (length ss))); [cbn [length]; lia | exact Hg]].
      apply open_memb; auto. unfold lsub_of. cbv zeta.
      change (p_extra (path1 (step_text s) (texts (s2 :: ss)))) with (dotted (texts (s2 :: ss))).
      cbn [map]. rewrite pnext_path1 by (apply step_any; apply Hs2).
      assert (Hmod : is_modifier (path1 (step_text s2) (texts ss)) || is_multipath (path1 (step_text s2) (texts ss)) = false).
      { assert (Hm1 : forall sp x, is_modifier (cpath (step_text s2) sp x) || is_multipath (cpath (step_text s2) sp x) = false).
        { intros sp y. destruct (any_not_mod (step_text s2) sp y ltac:(apply step_any; apply Hs2)) as [-> ->]. reflexivity. }
        destruct (texts ss); apply Hm1. }
      rewrite Hmod, Ex. cbn [bind]. destruct Hg as [-> _]. reflexivity.
  - injection E as <- ->. exists 91%N, (w ++ concat (map (fun e => render_item render e ++ [44%N]) es) ++ a ++ render e).
    split; [unfold arr_open; apps; reflexivity|]. split; auto. change (91 =? 123)%N with false. cbv match.
    rewrite <- app_assoc, arr_open_commas. destruct Hs as [Hk Hki]. cbn [step_text]. rewrite larr_index by auto.
    do 2 eexists. split; [reflexivity|]. apply (proj1 (mn_index _ _ _ _ Hmean k _ Hki)) in Hi. apply index_key_iff in Hi. rewrite Hi.
    replace (0 <=? Z.of_nat (length es))%Z with true by lia. rewrite Nat2Z.id.
    assert (Hwi : Forall wf_item (es ++ [Item a e []])) by (apply Forall_app; split; auto; constructor; [constructor; auto; constructor | constructor]).
    destruct (elems_open json w (es ++ [Item a e []]) r Hw Hwi Hr) as (xs & ys & -> & HF).
    assert (Hlen : length (es ++ [Item a e []]) = length xs) by (clear -HF; induction HF; cbn [length]; auto).
    rewrite app_nth1 by (rewrite <- Hlen, app_length; cbn [length]; lia).
    destruct (Forall2_nth_some _ _ _ (length es) (Item a e []) value_default HF) as (i & ->).
    { rewrite nth_error_app2, Nat.sub_diag by lia. reflexivity. }
    cbn [i_val]. unfold result in Hres. rewrite <- Hres. apply (G_rest mt ix hd all (S (length ss)) e i (Name k) ss); auto.
  - injection E as <- ->. exists 91%N, (w ++ concat (map (fun e => render_item render e ++ [44%N]) es) ++ a ++ render e).
    split; [unfold arr_open; apps; reflexivity|]. split; auto. change (91 =? 123)%N with false. cbv match.
    rewrite <- app_assoc, arr_open_commas. cbn [step_text].
    assert (Hwi : Forall wf_item (es ++ [Item a e []])) by (apply Forall_app; split; auto; constructor; [constructor; auto; constructor | constructor]).
    destruct (elems_open json w (es ++ [Item a e []]) r Hw Hwi Hr) as (xs & ys & Exs & HF).
    destruct (qparts q) as [[lh op] rh] eqn:Ep. set (l := 91%N :: _) in *.
    assert (E : larr get json false l (path1 (qcomp q false) (texts ss)) =
      (v <- find_r (fun v => elem_matches get v lh op rh) (elems json false l) ;; Ok (v, path1 (qcomp q false) (texts ss)))).
    { destruct ss; cbn [map path1]; rewrite larr_one, Ep; reflexivity. }
    rewrite E, Exs. pose proof (find_elems mt ix hd all Hmean q false _ _ lh op rh Hs Ep Hwi HF) as Hf'.
    assert (Efind : find (hd q) (map i_val (es ++ [Item a e []])) = Some e).
    { clear -Hno Hyes. induction Hno as [|x es Hx Hno IH]; cbn [app map find i_val]; [rewrite Hyes; reflexivity|]. rewrite Hx. exact IH. }
    rewrite Efind in Hf'. destruct Hf' as (i & Ef & _). rewrite (find_r_app _ xs ys _ (tval_exists e i Hwe) Ef). cbn [bind].
    do 2 eexists. split; [reflexivity|]. unfold result in Hres. rewrite <- Hres.
    apply (G_rest mt ix hd all (S (length ss)) e i (Query q false) ss); auto.
Qed.

Lemma get_leads ss t v w1 r : leads mt ix hd ss t v -> ss <> [] -> oks ss -> ws w1 -> delimited r -> gets (w1 ++ t ++ r) (dotted (texts ss)) v.
Proof using Hmean.
  intros Hl Hne Hss Hw Hr. destruct ss as [|s ss]; [congruence|]. destruct (oks_cons all _ _ Hss) as [Hs Hss'].
  apply (finish mt ix hd all (w1 ++ t ++ r) s ss (Some (Some v)) Hss (fun ss' _ H1 H2 => get_ok_all ss' H1 H2)).
  set (f := S (S (length (p_extra (path1 (step_text s) (texts ss)))))).
  assert (Hf : length ss < f).
  { assert (Hd' : forall cs, length cs <= S (length (dotted cs))).
    { clear. induction cs as [|k2 ks IH]; [cbn; lia|]. destruct ks as [|k3 ks]; [cbn; lia|].
      rewrite dotted_cons by discriminate. rewrite app_length. cbn [length] in *. lia. }
    specialize (Hd' (texts ss)). rewrite map_length in Hd'. unfold f. destruct ss as [|s2 ss]; [cbn; lia|].
    change (p_extra (path1 (step_text s) (texts (s2 :: ss)))) with (dotted (texts (s2 :: ss))). lia. }
  destruct (leads_out _ t v Hl s ss eq_refl Hs Hss' r (w1 ++ t ++ r) f Hr (suf_app _ _) Hf) as (h & t' & Et & Hco & x & p & E & Hg).
  exists x, p. split; [|exact Hg]. unfold lstart.
  assert (Ed : dropw above_sp (w1 ++ t ++ r) = h :: t' ++ r).
  { rewrite dropw_app; [|revert Hw; apply Forall_impl; intros y Hy; unfold ws_byte in Hy; unfold above_sp; lia].
    rewrite Et. cbn [app dropw]. unfold above_sp. unfold container in Hco. replace (32 <? h)%N with true by lia. reflexivity. }
  rewrite Ed. assert (E2 : h :: t' ++ r = t ++ r) by (rewrite Et; reflexivity). rewrite E2. fold f.
  destruct (h =? 123)%N eqn:E1; auto. unfold container in Hco. rewrite E1 in Hco. cbn [orb] in Hco. rewrite Hco. exact E.
Qed.
End Ev.

Theorem get_damaged mt ix hd ss t v w1 r : meaning mt ix hd ss -> steps_ok ss -> ss <> [] -> ws w1 ->
  leads mt ix hd ss t v -> delimited r -> gets (w1 ++ t ++ r) (dotted (map step_text ss)) v.
Proof.
  intros Hm [Hok Hap] Hne Hw Hl Hr. apply (get_leads mt ix hd ss Hm ss t v w1 r Hl Hne); auto. split; auto.
  apply Forall_forall. intros s Hs. split; auto. apply (proj1 (Forall_forall _ _) Hok); auto.
Qed.
