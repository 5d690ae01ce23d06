(** Whole paths follow the rules of S_Run. *)
From Coq Require Import String List.
From Verif Require Import P_Base P_Json P_Valid P_Str P_Scan P_Each P_Doc P_Path P_LGet P_Ext P_Value P_Num P_Key P_Pipe P_Tree P_POut P_PTree P_Layout
  P_Mod P_ModDoc P_ModFlat P_ModJoin P_ModText P_ModPretty P_Multi P_MultiDoc P_Compose P_Mixed P_Lines P_Eval P_Closed P_GetDoc P_GetArr P_Again P_Then
  M_Util M_Num M_Scan M_Value M_Path M_Valid M_Get M_Pretty
  S_Json S_Str S_Get S_Path S_Query S_Follow S_Mod S_ModText S_Join S_Tree S_Layout S_Multi S_Compose S_Same S_Taken S_Api S_Eval S_Then S_Run.
Import ListNotations.
Open Scope list_scope.

(** The value has the text [r].  (What else can be asked of it follows from the text:
    P_Again.) *)
Definition has_text (v : value) (r : bytes) : Prop := v_json v = r.

Lemma ht_veq a b r : veq a b -> has_text b r -> has_text a r.
Proof. intros H <-. apply H. Qed.
Lemma ht_shows v c : shows v c -> has_text v (render c).
Proof. intros [H1 H2 H3 H4]. exact H2. Qed.
Lemma ht_parse w1 c w2 : ws w1 -> wf c -> ws w2 -> has_text (lparse (w1 ++ render c ++ w2)) (own c w2).
Proof. intros H1 Hc H2. apply (parse_presents w1 c w2 H1 Hc H2). Qed.
Lemma ht_nil v : v_exists v = false -> has_text v [].
Proof. intros H. unfold has_text, v_exists in *. destruct (v_json v); congruence. Qed.
Lemma ht_exists v r : has_text v r -> v_exists v = nonempty r.
Proof. intros <-. unfold v_exists. destruct (v_json v); reflexivity. Qed.

(* ---------- merging gives one result ---------- *)

Lemma same_sym a b : same_name a b -> same_name b a.
Proof. intros (n & H1 & H2). exists n. auto. Qed.
Lemma firsts_unique ms fs : firsts ms fs -> forall fs', firsts ms fs' -> fs = fs'.
Proof.
  induction 1 as [|ms fs m H IH Hn|ms fs m H IH Hn]; intros fs' H'.
  - inversion H' as [|ms0 ? ? ? ? E|ms0 ? ? ? ? E]; auto; destruct ms0; discriminate.
  - inversion H' as [E|ms0 fs0 m0 H0 Hn0 E|ms0 fs0 m0 H0 Hn0 E]; subst; [destruct ms; discriminate|..];
      apply app_inj_tail in E as [-> ->].
    + f_equal. auto.
    + exfalso. apply Exists_exists in Hn0 as (x & Hx & Hs). exact (proj1 (Forall_forall _ _) Hn x Hx Hs).
  - inversion H' as [E|ms0 fs0 m0 H0 Hn0 E|ms0 fs0 m0 H0 Hn0 E]; subst; [destruct ms; discriminate|..];
      apply app_inj_tail in E as [-> ->]; auto.
    exfalso. apply Exists_exists in Hn as (x & Hx & Hs). exact (proj1 (Forall_forall _ _) Hn0 x Hx Hs).
Qed.
Lemma last_unique ms m v v' : last_value ms m v -> last_value ms m v' -> v = v'.
Proof.
  intros (a & l & b & -> & H1 & H2 & <-) (a' & l' & b' & E & H1' & H2' & <-). f_equal.
  assert (G : forall a a', a ++ l :: b = a' ++ l' :: b' -> l = l'); [|eapply G; eauto].
  clear E. induction a0 as [|x a0 IH]; intros [|x' a1] E; cbn [app] in E; injection E as E1 E2; subst; auto.
  - exfalso. apply (proj1 (Forall_forall _ _) H2 l'); auto. apply in_or_app. right. left. reflexivity.
  - exfalso. apply (proj1 (Forall_forall _ _) H2' l); auto. apply in_or_app. right. left. reflexivity.
  - eauto.
Qed.
Lemma merged_unique ms o o' : merged ms o -> merged ms o' -> o = o'.
Proof.
  intros (fs & H & F) (fs' & H' & F'). rewrite <- (firsts_unique _ _ H _ H') in F'. clear H H'. revert o' F'.
  induction F as [|m x fs o (v & Hv & ->) F IH]; intros o' F'; inversion F' as [|? ? ? ? (v' & Hv' & ->)]; subst; auto.
  f_equal; auto. f_equal. eapply last_unique; eauto.
Qed.

(* ---------- modifiers ---------- *)

Lemma not_arr c : (forall w es, c <> CArr w es) -> is_arr c = false.
Proof. destruct c as [ | | | | |w es| ]; auto. intros H. destruct (H w es eq_refl). Qed.
Lemma one_line_head es : exists r, one_line (TArr es) = 91%N :: r.
Proof. cbn [one_line]. eexists. reflexivity. Qed.
Lemma page_head wd ind sk t : bracketed t = true -> exists h r, page wd [] ind sk t = h :: r /\ (h = 91 \/ h = 123)%N.
Proof.
  destruct t as [ | | | | |[|e es]|[|m ms]]; try discriminate; intros _; unfold page; cbn [app layout]; try (do 2 eexists; split; [reflexivity | auto]; fail).
  destruct (fits _ _ _).
  - destruct (one_line_head (e :: es)) as (r & ->). do 2 eexists. split; [reflexivity | auto].
  - do 2 eexists. split; [reflexivity | auto].
Qed.
Lemma parse_nil_text v : veq v (lparse []) -> has_text v [].
Proof. intros H. apply ht_nil. rewrite (veq_exists _ _ H). reflexivity. Qed.

Lemma modifies_get name arg s r : mod_name name -> arg_ok arg -> modifies name arg s r ->
  exists v, get s (modifier name arg) = Ok v /\ has_text v r.
Proof.
  intros Hn Ha H.
  destruct H as [arg w1 c w2 H1 Hc H2|arg w1 c w2 H1 Hc H2|arg w1 c w2 H1 Hc H2|w1 w es w2 H1 Hc H2|w1 w es w2 H1 Hc H2
    |arg w1 c w2 H1 Hc H2 Hx|w1 w es w2 ms H1 Hc H2 Hm|w1 w es w2 H1 Hc H2|arg w1 c w2 H1 Hc H2 Hx|arg s t Hr|s t Hr Hh|name|name arg s Hx].
  - destruct (get_this w1 c w2 arg H1 Hc H2 Ha) as (v & E & P & J). exists v. split; [exact E|]. exact J.
  - destruct (get_valid_mod (w1 ++ render c ++ w2) arg Ha) as (v & E & I1 & I2 & _). exists v. split; [exact E|].
    assert (Hv : v_exists v = true) by (apply I1, P_Tree.valid_doc; eauto 10).
    destruct (I2 Hv) as (x & Ex & Hq). destruct (get_this w1 c w2 None H1 Hc H2 I) as (x' & E' & P & J).
    assert (x = x') by congruence. subst x'. apply (ht_veq v x); auto.
  - destruct (get_reverse w1 c w2 arg H1 Hc H2 Ha) as (v & E & Sh). exists v. split; [exact E|]. apply ht_shows; auto.
  - destruct (get_flatten_text w1 w es w2 None value_default H1 Hc H2 I) as (v & E & K & J); [vm_compute; reflexivity | reflexivity|].
    exists v. split; [exact E|]. exact J.
  - assert (Hg : exists d, get (arg_text (Some (bs "{""deep"":true}"))) s_deep = Ok d /\ v_bool d = Ok true) by (eexists; split; [vm_compute; reflexivity | vm_compute; reflexivity]).
    destruct Hg as (d & Hd & Hb). destruct (get_flatten_deep w1 w es w2 _ d H1 Hc H2 Ha Hd Hb) as (v & E & Sh). exists v. split; [exact E|].
    apply ht_shows; auto.
  - rewrite get_modifier_end by (auto using plain_name). change (mod_apply get (bs "flatten") ?j ?a) with (mod_flatten (S (length j)) get j a).
    cbn [mod_flatten]. destruct (parse_presents w1 _ w2 H1 Hc H2) as [P1 P2]. rewrite parse_spec. cbn [bind].
    rewrite (pr_kind _ _ P1), kind_arr, (not_arr c Hx). cbn [negb bind]. eexists. split; [reflexivity|].
    apply (ht_veq _ _ _ (into_parse _)), ht_parse; auto.
  - rewrite get_modifier_end by (auto using plain_name). change (mod_apply get (bs "join") ?j ?a) with (mod_join get j a).
    assert (Hg : get (arg_text None) s_preserve = Ok value_default) by (vm_compute; reflexivity).
    destruct (join_doc get (arg_text None) value_default w1 w es w2 Hg eq_refl H1 Hc H2) as (out & E & M & W).
    rewrite E. cbn [bind]. eexists. split; [reflexivity|]. rewrite (merged_unique _ _ _ Hm M).
    apply (ht_veq _ _ _ (into_parse _)). apply ht_shows. apply parse_shows, W.
  - assert (Hg : exists d, get (arg_text (Some (bs "{""preserve"":true}"))) s_preserve = Ok d /\ v_bool d = Ok true) by (eexists; split; [vm_compute; reflexivity | vm_compute; reflexivity]).
    destruct Hg as (d & Hd & Hb). destruct (get_join_text w1 w es w2 _ d H1 Hc H2 Ha Hd Hb) as (v & E & K & J). exists v. split; [exact E|].
    exact J.
  - rewrite get_modifier_end by (auto using plain_name). change (mod_apply get (bs "join") ?j ?a) with (mod_join get j a).
    unfold mod_join. destruct (parse_presents w1 _ w2 H1 Hc H2) as [P1 P2]. rewrite parse_spec. cbn [bind].
    rewrite (pr_kind _ _ P1), kind_arr, (not_arr c Hx). cbn [negb bind]. eexists. split; [reflexivity|].
    apply (ht_veq _ _ _ (into_parse _)), ht_parse; auto.
  - destruct Hr as (w1 & c & w2 & H1 & Hc & H2 & -> & <-).
    rewrite get_modifier_end by (auto using plain_name). change (mod_apply get (bs "ugly") ?j ?a) with (ugly j).
    rewrite ugly_doc by auto. cbn [bind]. eexists. split; [reflexivity|]. apply (ht_veq _ _ _ (into_parse _)). rewrite <- render_embed.
    apply ht_shows, parse_shows, wf_embed, wf_erase, Hc.
  - rewrite get_modifier_end by (auto using plain_name). change (mod_apply get (bs "pretty") ?j (arg_text None)) with (pretty j).
    unfold pretty. rewrite (pretty_layout s t popts_default Hr Hh). cbn [bind]. eexists. split; [reflexivity|].
    apply (ht_veq _ _ _ (into_parse _)). change (page (o_width popts_default) (o_prefix popts_default) (o_indent popts_default) (o_sort popts_default) t)
      with (page 80 [] (bs "  ") false t). destruct (bracketed t) eqn:Eb.
    + destruct (page_head 80 (bs "  ") false t Eb) as (h & q & -> & [-> | ->]); reflexivity.
    + destruct Hr as (w1 & c & w2 & H1 & Hc & H2 & -> & <-).
      assert (Hp : page 80 [] (bs "  ") false (erase c) = render c ++ [10%N] /\ minimal (erase c) = render c /\ own c [10%N] = render c)
        by (destruct c; try discriminate; unfold page; cbn [app layout minimal erase render]; auto).
      destruct Hp as (-> & -> & Ho). rewrite <- Ho at 2. apply (ht_parse [] c [10%N]); auto; [constructor|].
      constructor; [unfold ws_byte; lia | constructor].
  - assert (Hnil : exists v, get [] (modifier name None) = Ok v /\ veq v (lparse [])).
    { rewrite get_modifier_end by (auto using plain_name). cbn [arg_text].
      assert (E : mod_apply get name [] [] = Ok []).
      { unfold mod_apply. repeat match goal with |- (if beq name ?k then _ else _) = _ => destruct (beq name k); [vm_compute; reflexivity|] end. reflexivity. }
      rewrite E. cbn [bind]. eexists. split; [reflexivity | apply into_parse]. }
    destruct Hnil as (v & E & Hv). exists v. split; auto. apply parse_nil_text, Hv.
  - rewrite get_modifier_end by auto. rewrite mod_apply_unknown by exact Hx. cbn [bind]. eexists. split; [reflexivity|].
    apply parse_nil_text, into_parse.
Qed.

(* ---------- whole paths ---------- *)

Lemma steps_any ss : steps_ok ss -> Forall any_comp (map step_text ss).
Proof. intros [H _]. induction H; cbn [map]; constructor; auto. apply step_any; auto. Qed.
Lemma map_ne {A B} (f : A -> B) l : l <> [] -> map f l <> [].
Proof. destruct l; [congruence | discriminate]. Qed.
Lemma multi_array_stage es : Forall entry_ok es -> stage (multi_array es).
Proof. intros H. apply st_array, entries_balanced, H. Qed.
Lemma multi_object_stage es : Forall entry_ok es -> stage (multi_object es).
Proof. intros H. apply st_object, entries_balanced, H. Qed.

Lemma then_get s a b r1 r2 : (forall j, get j (a ++ b) = (v <- get j a ;; v_get v (tl b))) ->
  (exists v, get s a = Ok v /\ has_text v r1) -> (exists v, get r1 (tl b) = Ok v /\ has_text v r2) ->
  exists v, get s (a ++ b) = Ok v /\ has_text v r2.
Proof.
  intros H (v & E & T) (v2 & E2 & T2). rewrite H, E. cbn [bind]. pose proof (v_get_like v (tl b) (get_one _ _ _ E)) as L.
  rewrite T, E2 in L. destruct (v_get v (tl b)) as [x|e]; [|contradiction]. exists x. split; auto. apply (ht_veq x v2); auto.
Qed.

Scheme runs_ind2 := Induction for runs Sort Prop with run_all_ind2 := Induction for run_all Sort Prop.

Lemma runs_whole p s r : runs p s r -> whole p.
Proof.
  induction 1 as [mt ix hd ss w1 c w2 Hm Hok Hne H1 Hc H2|ss Hok Hne|name arg s r Hn Ha Hm|es s rs He Hne Hr|es s rs ks He Hne Hr Hk
    |a b s r1 r2 Ha IHa Hb IHb|a b s r1 r2 Hs Ha IHa Hb IHb|ks b s r1 r2 Hne Hk Hst Ha IHa Hb IHb|mt ix hd after nothing ss tail w1 c w2 Hm Hok Hne Ht H1 Hc H2 Ha IHa Hn IHn|nothing ss tail Hok Hne Ht Hn IHn].
  - apply wh_pieces; auto using pieces_any, steps_any, map_ne.
  - apply wh_pieces; auto using pieces_any, steps_any, map_ne.
  - apply whole_piece. right. apply st_modifier; auto.
  - apply whole_piece. right. apply multi_array_stage, He.
  - apply whole_piece. right. apply multi_object_stage, He.
  - apply whole_pipe; auto.
  - apply whole_dot; auto.
  - apply whole_dot; auto.
  - apply whole_dot; auto. apply wh_pieces; auto using pieces_any, steps_any, map_ne.
  - apply whole_dot; auto. apply wh_pieces; auto using pieces_any, steps_any, map_ne.
Qed.

Lemma filter_shown vs rs : Forall2 has_text vs rs -> map v_json (filter v_exists vs) = filter nonempty rs.
Proof.
  induction 1 as [|v r vs rs H HF IH]; auto. cbn [filter]. rewrite (ht_exists _ _ H). destruct (nonempty r); cbn [map]; rewrite ?IH; auto.
  rewrite H. reflexivity.
Qed.
Lemma filter_pairs ks : forall vs rs, Forall2 has_text vs rs ->
  map (fun kv => json_string (fst kv) ++ 58%N :: v_json (snd kv)) (filter (fun kv => v_exists (snd kv)) (combine ks vs)) =
  map (fun kr => json_string (fst kr) ++ 58%N :: snd kr) (filter (fun kr => nonempty (snd kr)) (combine ks rs)).
Proof.
  induction ks as [|k ks IH]; intros vs rs H; auto. destruct H as [|v r vs rs H HF]; auto. cbn [combine filter fst snd].
  rewrite (ht_exists _ _ H). destruct (nonempty r); cbn [map fst snd]; rewrite (IH vs rs HF); auto. rewrite H. reflexivity.
Qed.

Lemma wf_mval m : wf_memb m -> wf (m_val m).
Proof. destruct 1; auto. Qed.
Lemma scan_wf hit fin below : (forall c d, wf c -> below c = Some (Some d) -> wf d) ->
  forall c d, wf c -> scan hit fin below c = Found (Some d) -> wf d.
Proof.
  intros Hb c. unfold scan. induction c as [| | |n|b|w es IH|w ms IH] using cst_ind'; intros d Hc E; try discriminate.
  - rewrite scan_arr in E. apply wf_items in Hc. induction es as [|e es IHes]; [discriminate|]. cbn [selems] in E.
    inversion IH as [|? ? I1 I2]; inversion Hc as [|? ? W1 W2]; subst. destruct e as [wb v wa]. apply wf_ival in W1. cbn [i_val] in *.
    destruct (scan_with hit fin below Some None v) as [r| |] eqn:Ev; try discriminate.
    + injection E as ->. eauto.
    + auto.
  - rewrite scan_obj in E. apply wf_membs in Hc. induction ms as [|m ms IHms]; [discriminate|]. cbn [smembers] in E.
    inversion IH as [|? ? I1 I2]; inversion Hc as [|? ? W1 W2]; subst. destruct m as [wa k wb wc v wd]. apply wf_mval in W1. cbn [m_val] in *.
    destruct (hit _); [|auto]. destruct fin; [congruence|].
    assert (E' : is_container v = true -> match below v with Some r => Found r | None =>
       match scan_with hit false below Some None v with Go => smembers hit false below Some None ms | e => e end end = Found (Some d))
      by (intros Hv; destruct v; try discriminate; exact E).
    destruct (is_container v) eqn:Ec; [|destruct v; discriminate]. specialize (E' eq_refl).
    destruct (below v) as [r|] eqn:Eb; [injection E' as ->; eauto|].
    destruct (scan_with hit false below Some None v) as [r| |] eqn:Ev; try discriminate; [injection E' as ->; eauto | auto].
Qed.
Lemma wf_collect f l : (forall c d, wf c -> f c = Some d -> wf d) -> Forall wf l -> Forall wf (collect f l).
Proof.
  intros Hf. induction 1 as [|c l Hc Hl IH]; [constructor|]. unfold collect. cbn [flat_map]. apply Forall_app. split; [|exact IH].
  destruct (f c) eqn:E; [|constructor]. constructor; eauto.
Qed.
Lemma flat_some o d : flat o = Some d -> o = Some (Some d).
Proof. destruct o; [cbn; congruence | discriminate]. Qed.
Lemma eval_wf mt ix hd ss : forall c d, wf c -> eval mt ix hd ss c = Some (Some d) -> wf d.
Proof.
  induction ss as [|s rest IH]; intros c d Hc E; cbn [eval] in E; [congruence|].
  assert (IHf : forall c d, wf c -> flat (eval mt ix hd rest c) = Some d -> wf d) by (intros ? ? ? X; apply flat_some in X; eauto).
  destruct c as [| | |n|b|w es|w ms]; try discriminate.
  - apply wf_items in Hc. assert (Hes : Forall wf (map i_val es)) by (apply Forall_map; eapply Forall_impl; [|exact Hc]; apply wf_ival).
    destruct s as [k| |q all].
    + destruct (ix k) as [n|]; [|discriminate]. destruct (nth_error es n) as [e|] eqn:En; [|discriminate].
      apply nth_error_In in En. assert (W : wf (i_val e)) by (apply wf_ival; exact (proj1 (Forall_forall _ _) Hc e En)). apply (IHf (i_val e)); congruence.
    + destruct rest.
      * assert (d = CNum (decimal (length es))) as -> by congruence. rewrite <- decimal_eq. constructor. apply dec_of_nat_spec.
      * match type of E with Some (Some ?x) = _ => assert (d = x) as -> by congruence end. apply wf_mkarr, wf_collect; auto.
    + destruct all.
      * match type of E with Some (Some ?x) = _ => assert (d = x) as -> by congruence end. apply wf_mkarr, wf_collect; auto.
        apply Forall_forall. intros x Hx. apply filter_In in Hx. exact (proj1 (Forall_forall _ _) Hes x (proj1 Hx)).
      * destruct (find (hd q) (map i_val es)) as [e|] eqn:Ef; [|discriminate]. apply find_some in Ef.
        apply (IHf e); [exact (proj1 (Forall_forall _ _) Hes e (proj1 Ef)) | congruence].
  - destruct (scan _ _ _ _) as [r| |] eqn:Es; try discriminate. injection E as ->. eapply scan_wf; [exact IH | exact Hc | exact Es].
Qed.
Lemma result_wf mt ix hd ss c d : wf c -> result mt ix hd ss c = Some d -> wf d.
Proof. intros Hc E. apply flat_some in E. eapply eval_wf; eauto. Qed.
Lemma f2_snd s (es : list (option text * text)) : forall vs, Forall2 (fun p v => get s p = Ok v) (map snd es) vs -> Forall2 (fun e v => get s (snd e) = Ok v) es vs.
Proof. induction es; intros vs H; inversion H; subst; constructor; auto. Qed.

Lemma entry_keys_unique es : forall ks ks', Forall2 entry_key es ks -> Forall2 entry_key es ks' -> ks = ks'.
Proof.
  induction es; intros ks ks' H H'; inversion H; inversion H'; subst; auto. f_equal; auto. eapply entry_key_unique; eauto.
Qed.

Theorem runs_get p s r : runs p s r -> exists v, get s p = Ok v /\ has_text v r.
Proof.
  intros H. induction H as [mt ix hd ss w1 c w2 Hm Hok Hne H1 Hc H2|ss Hok Hne|name arg s r Hn Ha Hm|es s rs He Hne Hr IH|es s rs ks He Hne Hr IH Hk
    |a b s r1 r2 Ha IHa Hb IHb|a b s r1 r2 Hs Ha IHa Hb IHb|ks b s r1 r2 Hne Hk Hst Ha IHa Hb IHb
    |mt ix hd after nothing ss tail w1 c w2 Hm Hok Hne Ht H1 Hc H2 Ha IHa Hn IHn|nothing ss tail Hok Hne Ht Hn IHn|s|p ps s r rs H IH Hr IHr]
    using runs_ind2 with (P0 := fun ps s rs _ => exists vs, Forall2 (fun p v => get s p = Ok v) ps vs /\ Forall2 has_text vs rs).
  - pose proof (get_result mt ix hd ss c w1 w2 Hm Hok Hne H1 Hc) as A. unfold answers in A.
    destruct (result mt ix hd ss c) as [d|] eqn:Er; destruct A as (v & E & Hv); exists v; split; auto; cbn [shown].
    + apply ht_shows; auto.
    + apply ht_nil, Hv.
  - destruct (get_nothing ss ss) as (v & E & Hv); auto. { destruct Hok as [Hok Hap]. split; auto. apply Forall_forall. intros s Hs. split; auto. exact (proj1 (Forall_forall _ _) Hok s Hs). } exists v. split; auto. apply ht_nil, Hv.
  - apply modifies_get; auto.
  - destruct IH as (vs & G & T). destruct (multi_array_result s es vs He Hne) as (v & E & _ & K & J & _).
    { apply f2_snd, G. }
    exists v. split; auto. rewrite (filter_shown vs rs T) in J. exact J.
  - destruct IH as (vs & G & T). destruct (multi_object_result s es vs He Hne) as (v & ks' & E & _ & K & Hk' & J & _).
    { apply f2_snd, G. }
    assert (ks' = ks) by (eapply entry_keys_unique; eauto). subst ks'. exists v. split; auto.
    rewrite (filter_pairs ks vs rs T) in J. exact J.
  - apply (then_get s a (124%N :: b) r1 r2); auto. intros j. apply get_whole. eapply runs_whole; eauto.
  - apply (then_get s a (46%N :: b) r1 r2); auto. intros j. apply get_stage; auto.
  - apply (then_get s (dotted ks) (46%N :: b) r1 r2); auto. intros j. apply get_dot_stage; auto.
  - destruct Ht as (m & ps & Hst & Hps & ->). rewrite <- (dotted_app (map step_text ss) (m :: ps)) by (auto using map_ne; discriminate).
    apply get_result_then; auto.
  - destruct Ht as (m & ps & Hst & Hps & ->). rewrite <- (dotted_app (map step_text ss) (m :: ps)) by (auto using map_ne; discriminate).
    apply get_nowhere_then; auto.
  - exists []. split; constructor.
  - destruct IH as (v & E & T). destruct IHr as (vs & G & Ts). exists (v :: vs). split; constructor; auto.
Qed.

(** The same for JSON lines. *)
Theorem lines_get p s r : run_lines p s r -> exists v, get s p = Ok v /\ has_text v r.
Proof.
  intros [ls q r' Hls Hs Hp H]. destruct (runs_get _ _ _ H) as (v & E & T).
  assert (Hw : wf (array_of (map i_val ls))).
  { apply wf_mkarr, Forall_map. eapply Forall_impl; [|exact Hls]. apply wf_ival. }
  pose proof (lines_same ls [] [] (map (fun c => Item [] c []) (map i_val ls)) [] q Hls Hs ltac:(constructor) Hw ltac:(constructor)) as L.
  assert (Hi : map i_val (map (fun c => Item [] c []) (map i_val ls)) = map i_val ls) by (rewrite map_map; apply map_id).
  specialize (L Hi Hp). change (CArr [] (map (fun c => Item [] c []) (map i_val ls))) with (array_of (map i_val ls)) in L.
  cbn [app] in L. rewrite app_nil_r, E in L. change (bs ".." ++ q) with (46%N :: 46%N :: q).
  destruct (get (lines_text ls) (46%N :: 46%N :: q)) as [x|e]; [|contradiction]. exists x. split; auto.
  destruct L as [L1 L2 L3 L4]. unfold has_text in *. congruence.
Qed.

(** A value with the text [r] answers as the value that [parse] makes of [r]. *)
Lemma ht_final json p r : (exists v, get json p = Ok v /\ has_text v r) ->
  exists v x, get json p = Ok v /\ parse r = Ok x /\ v_json v = r /\ (r <> [] -> same_answers v x).
Proof.
  intros (v & E & T). exists v, (lparse r). split; auto. split; [apply parse_spec|]. split; [exact T|]. intros Hr.
  destruct (parse_again v) as (x & Ex & Hx); [eapply ret_get; eauto | unfold v_exists; rewrite T; destruct r; [congruence | reflexivity]|].
  rewrite T, parse_spec in Ex. injection Ex as <-. exact Hx.
Qed.
Lemma runs_unique p s r r' : runs p s r -> runs p s r' -> r = r'.
Proof.
  intros H H'. destruct (runs_get _ _ _ H) as (v & E & T), (runs_get _ _ _ H') as (v' & E' & T').
  assert (v = v') as <- by congruence. rewrite <- T. exact T'.
Qed.
