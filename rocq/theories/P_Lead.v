(** Blanks in front of a text, and JSON lines, whatever the text is. *)
From Verif Require Import P_Base P_Json P_Valid P_ValidSpec P_Str P_Glob P_Scan P_Each P_Doc P_Path P_LGet P_Parts P_Ext P_Total P_Value P_Num
  P_Key P_Find P_GetDoc P_GetArr P_Stream P_Closed P_Reach P_Taken P_Pipe P_Mod P_ModDoc P_Ugly P_Pretty P_Sim P_Lines
  M_Util M_Num M_Scan M_Value M_Path M_Valid M_Get S_Json S_Get S_Path S_Api S_Follow S_Taken S_Mod M_Pretty S_Same S_Lead.

(* ---------- the pretty printer does not depend on the fuel ---------- *)

Section Fuel.
Variables (width : Z) (prefix : bytes) (sort_keys : bool).
Let any := lpany width prefix sort_keys.
Let obj := lpobj width prefix sort_keys.
Let loop := lploop width prefix sort_keys.

Lemma lp_fuel : forall f1 f2,
  (forall buf l pretty indent tabs nl max depth, 4 * length l <= f1 -> 4 * length l <= f2 -> 1 <= f1 -> 1 <= f2 ->
    any f1 buf l pretty indent tabs nl max depth = any f2 buf l pretty indent tabs nl max depth) /\
  (forall buf l open close (pretty : bool) indent tabs nl max depth, l <> [] ->
    4 * length l <= f1 + (if pretty then 1 else 2) -> 4 * length l <= f2 + (if pretty then 1 else 2) ->
    obj f1 buf l open close pretty indent tabs nl max depth = obj f2 buf l open close pretty indent tabs nl max depth) /\
  (forall buf l open close pretty indent tabs nl max depth ps n, 4 * length l + 1 <= f1 -> 4 * length l + 1 <= f2 ->
    loop f1 buf l open close pretty indent tabs nl max depth ps n = loop f2 buf l open close pretty indent tabs nl max depth ps n).
Proof.
  subst any obj loop. induction f1 as [|f1 IH]; intros f2.
  { split; [intros; lia|]. split; [|intros; lia]. intros buf l open close pretty indent tabs nl max depth Hne H1 _.
    destruct l; [congruence|]. cbn [length] in H1. destruct pretty; lia. }
  destruct f2 as [|f2].
  { split; [intros; lia|]. split; [|intros; lia]. intros buf l open close pretty indent tabs nl max depth Hne _ H1.
    destruct l; [congruence|]. cbn [length] in H1. destruct pretty; lia. }
  destruct (IH f2) as (IHa & IHo & IHl). split; [|split].
  - intros buf l pretty indent tabs nl max depth H1 H2 _ _. rewrite !lpany_S. cbv zeta.
    pose proof (suf_length _ _ (suf_dropw starts_value l)) as Hd. destruct (dropw starts_value l) as [|c t] eqn:El; auto.
    destruct (c =? 34)%N; auto. destruct (_ || _); auto. cbn [length] in Hd.
    assert (Hn : c :: t <> []) by discriminate.
    destruct (c =? 123)%N; [apply IHo; auto; cbn [length]; destruct pretty; lia|].
    destruct (c =? 91)%N; [apply IHo; auto; cbn [length]; destruct pretty; lia|]. reflexivity.
  - intros buf l open close pretty indent tabs nl max depth Hne H1 H2. rewrite !lpobj_S.
    destruct (depth =? MAX_DEPTH); auto. cbv zeta.
    assert (Hl : S (length (tl l)) = length l) by (destruct l; [congruence | reflexivity]).
    rewrite (IHl (buf ++ [open]) (tl l) open close pretty indent tabs nl max depth [] 0) by (destruct pretty; lia).
    destruct (0 <? width)%Z; auto. destruct pretty; cbn [andb].
    + destruct ((open =? 91)%N && (max =? -1)%Z); auto. destruct (3 <? _)%Z; auto.
      rewrite (IHo buf l 91%N 93%N false [] 0%Z 0%Z) by (auto; lia). reflexivity.
    + reflexivity.
  - intros buf l open close pretty indent tabs nl max depth ps n H1 H2. rewrite !lploop_S. destruct l as [|c t]; auto. cbn [length] in *.
    destruct (c <=? 32)%N; [apply IHl; lia|]. destruct (c =? close)%N; auto.
    destruct ((open =? 91)%N || (c =? 34)%N); [|apply IHl; lia]. cbv zeta.
    destruct (lstart_item prefix pretty indent tabs nl (lcomma width open n buf)) as [b2 nl2].
    destruct (lkey pretty open t (c :: t) b2) as [b3 l3] eqn:E3.
    assert (H6 : length l3 <= S (length t) /\ ((open =? 123)%N = true -> length l3 <= length t) /\ ((open =? 123)%N = false -> l3 = c :: t)).
    { unfold lkey in E3. destruct (open =? 123)%N; injection E3 as <- <-; cbn [length]; pose proof (lpstr_short t); repeat split; try lia; congruence. }
    destruct H6 as (H6 & H7 & H8). rewrite (IHa b3 l3) by (cbn [length] in *; lia).
    destruct (lpany width prefix sort_keys f2 b3 l3 pretty indent (tabs + 1) nl2 max depth) as [[[b4 l4] nl4] ok4] eqn:E4.
    pose proof (proj1 (lp_progress width prefix sort_keys f2) _ _ _ _ _ _ _ _ _ _ _ _ E4) as (_ & H4 & H5).
    unfold stops in H5. destruct (negb (max =? -1)%Z && negb ok4); auto.
    assert (length l4 <= length t).
    { destruct (open =? 123)%N; [specialize (H7 eq_refl); lia|]. specialize (H8 eq_refl). subst l3. specialize (H5 eq_refl ltac:(discriminate)).
      cbn [length] in H5. lia. }
    apply IHl; lia.
Qed.
End Fuel.

(* ---------- blanks ---------- *)

Lemma blanks_cons c w : blanks (c :: w) -> (c <= 32)%N /\ blanks w.
Proof. intros H. inversion H; subst. split; auto. Qed.
Lemma blanks_app_dropw w s : blanks w -> dropw above_sp (w ++ s) = dropw above_sp s.
Proof.
  induction w as [|c w IH]; intros H; auto. apply blanks_cons in H as [Hc H]. cbn [app dropw]. unfold above_sp at 1.
  replace (32 <? c)%N with false by lia. apply IH, H.
Qed.
Lemma blanks_items w s : blanks w -> items (w ++ s) = items s.
Proof.
  intros H. apply items_skip. eapply Forall_impl; [|exact H]. intros c Hc. cbv beta in Hc. unfold skip_sep.
  destruct (N.leb_spec c 32); [reflexivity | lia].
Qed.
Lemma blanks_ugly w s : blanks w -> lugly (w ++ s) = lugly s.
Proof.
  induction w as [|c w IH]; intros H; auto. apply blanks_cons in H as [Hc H]. cbn [app]. rewrite lugly_cons.
  replace (32 <? c)%N with false by lia. apply IH, H.
Qed.
Lemma blanks_starts w s : blanks w -> dropw starts_value (w ++ s) = dropw starts_value s.
Proof.
  induction w as [|c w IH]; intros H; auto. apply blanks_cons in H as [Hc H]. cbn [app dropw].
  replace (starts_value c) with false; [apply IH, H|].
  symmetry. unfold starts_value. lia.
Qed.
Lemma blanks_pretty w s o : blanks w -> pretty_options (w ++ s) o = pretty_options s o.
Proof.
  intros H. rewrite !pretty_options_spec. unfold lpretty. rewrite (proj1 (lp_fuel (o_width o) (o_prefix o) (o_sort o) (8 + 4 * length s) (8 + 4 * length (w ++ s))))
    by (rewrite ?app_length; lia).
  set (f := 8 + 4 * length (w ++ s)). assert (Hf : exists g, f = S g) by (unfold f; cbn [plus]; eauto). destruct Hf as (g & ->).
  rewrite !lpany_S. cbv zeta. rewrite blanks_starts by auto. reflexivity.
Qed.
Lemma blanks_parse w s : blanks w -> nix (lparse (w ++ s)) = nix (lparse s).
Proof.
  intros H. unfold lparse. rewrite blanks_app_dropw by auto. cbv zeta. destruct (dropw above_sp s) as [|c t]; auto.
  destruct (c =? 123)%N; auto. destruct (c =? 91)%N; auto. apply fval_nix.
Qed.

Lemma ws_blanks w : ws w -> blanks w.
Proof. intros H. eapply Forall_impl; [|exact H]. intros c Hc. cbv beta in Hc |- *. unfold ws_byte in Hc. lia. Qed.
Lemma ws_valid w s : ws w -> valid (w ++ s) = valid s.
Proof.
  intros H. destruct (valid_total (w ++ s)) as (b1 & E1). destruct (valid_total s) as (b2 & E2). rewrite E1, E2. f_equal.
  assert (G : valid (w ++ s) = Ok true <-> valid s = Ok true).
  { clear -H. induction H as [|c w Hc H IH]; [reflexivity|]. rewrite <- IH. clear IH. cbn [app]. set (t := w ++ s). clearbody t. split; intros Hv.
    - destruct (P_Taken.valid_doc _ Hv) as (w1 & d & w2 & E & H1 & Hd & H2). unfold doc in E.
      destruct w1 as [|x w1].
      + exfalso. destruct (render_head d Hd) as (h & u & Eh & _ & _ & Hh). cbn [app] in E. rewrite Eh in E. injection E as -> _.
        pose proof (ws_blanks [h] (Forall_cons _ Hc (Forall_nil _))) as Hb. apply blanks_cons in Hb. lia.
      + cbn [app] in E. injection E as -> ->. inversion H1; subst. apply doc_valid; auto.
    - destruct (P_Taken.valid_doc _ Hv) as (w1 & d & w2 & -> & H1 & Hd & H2). unfold doc.
      change (c :: w1 ++ render d ++ w2) with ((c :: w1) ++ render d ++ w2). apply doc_valid; auto. constructor; auto. }
  destruct b1, b2; auto; [apply G in E1; congruence | apply G in E2; congruence].
Qed.
Lemma blanks_valid w s : blanks w -> valid s = Ok false -> valid (w ++ s) = Ok false.
Proof.
  intros H Hs. destruct (valid_total (w ++ s)) as ([|] & E); auto. exfalso. revert Hs E. revert H.
  induction w as [|c w IH]; intros H Hs E; [cbn [app] in E; congruence|]. apply blanks_cons in H as [Hc H]. apply (IH H Hs).
  destruct (P_Taken.valid_doc _ E) as (w1 & d & w2 & E' & H1 & Hd & H2). unfold doc in E'. cbn [app] in E'. destruct w1 as [|x w1].
  - exfalso. destruct (render_head d Hd) as (h & u & Eh & _ & _ & Hh). cbn [app] in E'. rewrite Eh in E'. injection E' as -> _. lia.
  - cbn [app] in E'. injection E' as -> ->. inversion H1; subst. apply doc_valid; auto.
Qed.

(* ---------- two texts that look alike ---------- *)

Section Alike.
Variables (d1 d2 : bytes).
Hypothesis Hlines : map nix (elems d1 true d1) = map nix (elems d2 true d2).
Hypothesis Hstart : forall p, er2 (lstart get d1 p) = er2 (lstart get d2 p).
Hypothesis Hparse : nix (lparse d1) = nix (lparse d2).
Hypothesis Hugly : lugly d1 = lugly d2.
Hypothesis Hpretty : forall o, pretty_options d1 o = pretty_options d2 o.
Hypothesis Hvalid : valid d1 = valid d2.

Lemma reverse_alike : mod_reverse d1 = mod_reverse d2.
Proof using Hparse.
  pose proof (veq_kind _ _ (nix_veq _ _ Hparse)) as Hk. unfold mod_reverse. rewrite !parse_spec. cbn [bind].
  rewrite !v_each_spec, (nix_exists _ _ Hparse), (nix_json _ _ Hparse), (nix_slice _ _ Hparse), Hk.
  destruct (v_kind (lparse d2)) eqn:Ek; auto.
Qed.

Lemma mod_apply_alike name arg :
  er (out <- mod_apply get name d1 arg ;; Ok (lparse out)) = er (out <- mod_apply get name d2 arg ;; Ok (lparse out)).
Proof using Hparse Hugly Hpretty Hvalid.
  pose proof (veq_kind _ _ (nix_veq _ _ Hparse)) as Hk. unfold mod_apply.
  destruct (beq name n_this). { apply er_ok, Hparse. }
  destruct (beq name n_reverse). { rewrite reverse_alike. reflexivity. }
  destruct (beq name n_ugly). { rewrite !ugly_spec, Hugly. reflexivity. }
  destruct (beq name n_pretty).
  { f_equal. apply bind_ext; auto. unfold mod_pretty. destruct arg as [|h u]; [apply Hpretty|].
    repeat (apply bind_ext; auto; intros ? _). }
  destruct (beq name n_valid).
  { unfold mod_valid. rewrite Hvalid. destruct (valid d2) as [[|]|e]; cbn [bind]; auto. apply er_ok, Hparse. }
  destruct (beq name n_flatten).
  { destruct (kind_eqb (v_kind (lparse d1)) KArray) eqn:Ek.
    - rewrite (mod_flatten_same get arg _ (S (length d2)) _ d2); auto. destruct (v_kind (lparse d1)); try discriminate; reflexivity.
    - cbn [mod_flatten]. rewrite !parse_spec. cbn [bind]. rewrite <- Hk, Ek. apply er_ok, Hparse. }
  destruct (beq name n_join); [|reflexivity].
  unfold mod_join. rewrite !parse_spec. cbn [bind]. rewrite <- Hk.
  destruct (negb (kind_eqb (v_kind (lparse d1)) KArray)) eqn:Ek; [apply er_ok, Hparse|].
  rewrite !v_each_spec, <- Hk, <- (nix_exists _ _ Hparse), <- (nix_json _ _ Hparse).
  destruct (get arg s_preserve) as [pv|e]; cbn [bind]; auto. destruct (v_bool pv) as [pr|e]; cbn [bind]; auto.
  destruct (v_kind (lparse d1)); try discriminate. destruct pr; reflexivity.
Qed.

Lemma mod_exec_alike p : er2 (mod_exec get d1 p) = er2 (mod_exec get d2 p).
Proof using Hparse Hugly Hpretty Hvalid.
  unfold mod_exec. match goal with |- context [' _ <- ?m ;; _] => destruct m as [[name arg]|e] end; cbn [bind]; auto.
  pose proof (mod_apply_alike name arg) as H.
  destruct (mod_apply get name d1 arg) as [o1|e1], (mod_apply get name d2 arg) as [o2|e2]; cbn [bind er] in H |- *; try discriminate.
  - rewrite !parse_spec. cbn [bind]. apply er2_ok, nix_into. congruence.
  - cbn [er2 bind]. congruence.
Qed.

Lemma get_alike p : er (get d1 p) = er (get d2 p).
Proof using All.
  induction p as [p IH] using (induction_ltof1 _ (@length N)). unfold ltof in IH.
  rewrite !get_spec. destruct (split_lines p) as [lines text] eqn:Es.
  assert (Ht : length text <= length p).
  { unfold split_lines in Es. destruct p as [|a [|b t]]; try (injection Es as _ <-; auto; fail).
    destruct ((a =? cDOT) && (b =? cDOT))%N; injection Es as _ <-; cbn [length]; lia. }
  assert (H : er2 (lget_first get d1 lines (pnext text)) = er2 (lget_first get d2 lines (pnext text))).
  { unfold lget_first. destruct lines; [apply larr_nix, Hlines|].
    destruct (is_modifier (pnext text)); [apply mod_exec_alike|].
    destruct (is_multipath (pnext text)); [|apply Hstart].
    rewrite (multi_exec_nix d1 d2 (length p) IH); auto.
    destruct (ps_prefix _ _ (pnext_shape text)) as (t & E). apply (f_equal (@length N)) in E. rewrite app_length in E. lia. }
  destruct (er2_cases _ _ H) as [(x & y & q & -> & -> & E)|(e & -> & ->)]; cbn [bind]; auto.
  destruct (negb (p_more q)); [apply er_ok, E|]. apply v_get_nix, E.
Qed.
End Alike.

Lemma blanks_start w s p : blanks w -> er2 (lstart get (w ++ s) p) = er2 (lstart get s p).
Proof.
  intros H. unfold lstart. rewrite blanks_app_dropw by auto. cbv zeta. pose proof (suf_length _ _ (suf_dropw above_sp s)) as Hl.
  destruct (dropw above_sp s) as [|c t] eqn:E; auto. destruct (c =? 123)%N. { apply lobj_nix; rewrite ?app_length; lia. }
  destruct (c =? 91)%N; auto. apply larr_nix, elems_nix.
Qed.
Lemma blanks_get w s p : blanks w -> ws w \/ valid s = Ok false -> er (get (w ++ s) p) = er (get s p).
Proof.
  intros H Hv. apply get_alike.
  - unfold elems, fe_items. rewrite blanks_items by auto. rewrite !map_map. apply map_ext. intros x. apply fval_nix.
  - intros q. apply blanks_start, H.
  - apply blanks_parse, H.
  - apply blanks_ugly, H.
  - intros o. apply blanks_pretty, H.
  - destruct Hv as [Hv|Hv]; [apply ws_valid, Hv|]. rewrite Hv. apply blanks_valid; auto.
Qed.

(* ---------- where values begin ---------- *)

Definition sh (n : nat) (v : value) : value := setix v (option_map (fun i => n + i) (v_index v)).
Lemma nix_sh n v : nix (sh n v) = nix v.
Proof. reflexivity. Qed.
Lemma sh_default n : sh n value_default = value_default.
Proof. reflexivity. Qed.

Lemma fval_sh w s x : suf x s -> fval (w ++ s) x = sh (length w) (fval s x).
Proof.
  intros H. unfold fval. destruct (linfo x =? 0)%N; auto. unfold sh, setix, mkslice. cbn [v_slice v_owned v_uesc v_info v_index option_map].
  do 2 f_equal. unfold pos. rewrite app_length. apply suf_length in H. lia.
Qed.

Lemma larr_sh g n d1 d2 b1 b2 l1 l2 p : elems d1 b1 l1 = map (sh n) (elems d2 b2 l2) ->
  larr g d1 b1 l1 p = ('(v, q) <- larr g d2 b2 l2 p ;; Ok (sh n v, q)).
Proof.
  intros H. unfold larr. cbv zeta. rewrite H. set (xs := elems d2 b2 l2). clearbody xs. clear H.
  assert (Hn : map nix (map (sh n) xs) = map nix xs) by (rewrite map_map; apply map_ext; intros x; apply nix_sh).
  assert (Hat : Ok (if (0 <=? comp_index (p_comp p))%Z then nth (Z.to_nat (comp_index (p_comp p))) (map (sh n) xs) value_default else value_default, p) =
    ('(v, q) <- Ok (if (0 <=? comp_index (p_comp p))%Z then nth (Z.to_nat (comp_index (p_comp p))) xs value_default else value_default, p) ;; Ok (sh n v, q))).
  { cbn [bind]. destruct (0 <=? comp_index (p_comp p))%Z; auto. rewrite <- (sh_default n) at 1. rewrite map_nth. reflexivity. }
  destruct (p_comp p) as [|c t]; auto. destruct (c =? 35)%N; auto.
  destruct t as [|d t].
  - destruct (p_sep p =? 46)%N.
    + destruct (next_group p) as [[gr rest]|e]; cbn [bind]; auto.
      rewrite (push_all_nix _ (map (sh n) xs) xs); auto.
      * destruct (push_all _ xs _) as [st|e]; reflexivity.
      * intros a b Hab. destruct (er_cases _ _ (v_get_nix g a b gr Hab)) as [(x & y & -> & -> & E)|(e & -> & ->)]; cbn [bind ro option_map]; auto.
        rewrite E. reflexivity.
    + rewrite map_length. reflexivity.
  - destruct (last (d :: t) 0 =? 35)%N.
    + destruct (query_parts (c :: d :: t)) as [[[lh op] rh]|e]; cbn [bind]; auto.
      destruct (next_group p) as [[gr rest]|e]; cbn [bind]; auto.
      rewrite (push_all_nix _ (map (sh n) xs) xs); auto.
      * destruct (push_all _ xs _) as [st|e]; reflexivity.
      * intros a b Hab. rewrite (elem_matches_nix g a b lh op rh Hab).
        destruct (elem_matches g b lh op rh) as [[]|e]; cbn [bind]; auto.
        destruct (p_sep p =? 46)%N; [|cbn [ro bind option_map]; rewrite Hab; reflexivity].
        destruct (er_cases _ _ (v_get_nix g a b gr Hab)) as [(x & y & -> & -> & E)|(e & -> & ->)]; cbn [bind ro option_map]; auto.
        rewrite E. reflexivity.
    + destruct (query_parts (c :: d :: t)) as [[[lh op] rh]|e]; cbn [bind]; auto.
      assert (Hf : find_r (fun v => elem_matches g v lh op rh) (map (sh n) xs) =
        (v <- find_r (fun v => elem_matches g v lh op rh) xs ;; Ok (sh n v))).
      { clear. induction xs as [|x xs IH]; auto. cbn [map find_r]. rewrite (elem_matches_nix g (sh n x) x) by apply nix_sh.
        destruct (elem_matches g x lh op rh) as [[|]|e]; cbn [bind]; auto. }
      rewrite Hf. destruct (find_r _ xs) as [v|e]; reflexivity.
Qed.

Definition dsh (n : nat) (m : R ldescent) : R ldescent :=
  d <- m ;; Ok (match d with LReturn v p => LReturn (sh n v) p | _ => d end).

Lemma lobj_loop_sh n w s s1 s2 p : n = length w -> (forall r, suf r s -> s1 r = dsh n (s2 r)) ->
  forall fuel l, suf l s -> lobj_loop fuel s1 (w ++ s) l p = ('(v, q) <- lobj_loop fuel s2 s l p ;; Ok (sh n v, q)).
Proof.
  intros -> H. induction fuel as [|fuel IH]; intros l Hs; auto. cbn [lobj_loop].
  destruct l as [|c t]; auto. pose proof (suf_tail _ _ _ Hs) as Ht. destruct (c =? 125)%N; auto. destruct (negb (c =? 34)%N); [apply IH, Ht|].
  destruct (split_str t) as [[b r0]|] eqn:Es; auto. apply split_rest in Es as [Hr0 _].
  assert (Hr : suf (dropw colon_stop r0) s) by (eapply suf_trans; [apply suf_dropw|]; eapply suf_trans; [exact Hr0 | exact Ht]).
  cbv zeta. destruct (dropw colon_stop r0) as [|c' t'] eqn:Er; auto.
  destruct (lrest_suf (c' :: t')) as [Hlr _].
  assert (Hflat : (if kmatch p b && v_exists (fval (w ++ s) (c' :: t')) then Ok (fval (w ++ s) (c' :: t'), p) else lobj_loop fuel s1 (w ++ s) (lrest (c' :: t')) p) =
    ('(v, q) <- (if kmatch p b && v_exists (fval s (c' :: t')) then Ok (fval s (c' :: t'), p) else lobj_loop fuel s2 s (lrest (c' :: t')) p) ;; Ok (sh (length w) v, q))).
  { rewrite fval_sh by auto. change (v_exists (sh (length w) (fval s (c' :: t')))) with (v_exists (fval s (c' :: t'))).
    destruct (kmatch p b && v_exists (fval s (c' :: t'))); [reflexivity|]. apply IH. eapply suf_trans; eauto. }
  destruct (kmatch p b && (p_sep p =? 46)%N && container c'); auto.
  rewrite (H (c' :: t') Hr). destruct (s2 (c' :: t')) as [[v q| |]|e]; cbn [dsh bind]; auto.
Qed.

Lemma lobj_sh g w s : forall fuel l p, suf l s ->
  lobj fuel g (w ++ s) l p = ('(v, q) <- lobj fuel g s l p ;; Ok (sh (length w) v, q)).
Proof.
  induction fuel as [|fuel IH]; intros l p Hs; auto. cbn [lobj]. destruct l as [|c t]; auto.
  destruct (negb (c =? 123)%N); auto. pose proof (suf_length _ _ Hs) as Hl. cbn [length] in Hl.
  rewrite (lobj_loop_fuel _ (w ++ s) _ (S (length (w ++ s))) (S (length t))) by (rewrite ?app_length; lia).
  rewrite (lobj_loop_fuel _ s _ (S (length s)) (S (length t))) by lia.
  apply lobj_loop_sh; auto; [|eapply suf_tail; exact Hs]. intros r Hr. cbv zeta.
  destruct (is_modifier (pnext (p_extra p)) || is_multipath (pnext (p_extra p))); auto.
  set (q := pnext (p_extra p)).
  assert (Hx : match r with [] => Err EPanic | c :: _ => if (c =? 123)%N then lobj fuel g (w ++ s) r q else larr g (w ++ s) false r q end =
    ('(v, q) <- match r with [] => Err EPanic | c :: _ => if (c =? 123)%N then lobj fuel g s r q else larr g s false r q end ;; Ok (sh (length w) v, q))).
  { destruct r as [|c' t']; auto. destruct (c' =? 123)%N; [apply IH, Hr|]. apply larr_sh. unfold elems. rewrite map_map. apply map_ext_in.
    intros x Hx. apply fval_sh. unfold fe_items in Hx. cbn [tl] in Hx. apply items_suf in Hx as (Hx & _). eapply suf_trans; [exact Hx|]. eapply suf_tail; exact Hr. }
  rewrite Hx. destruct (match r with [] => Err EPanic | c :: _ => if (c =? 123)%N then lobj fuel g s r q else larr g s false r q end) as [[v q']|e]; cbn [bind dsh]; auto.
  change (v_exists (sh (length w) v)) with (v_exists v). destruct (v_exists v); reflexivity.
Qed.

Lemma v_get_sh g n a p : v_get_with g (sh n a) p = (r <- v_get_with g a p ;; Ok (sh n r)).
Proof.
  unfold v_get_with. change (v_slice (sh n a)) with (v_slice a). change (v_owned (sh n a)) with (v_owned a).
  destruct (match v_slice a with [] => r <- g (v_owned a) p ;; Ok (json_into_owned r) | _ :: _ => g (v_slice a) p end) as [r|e]; cbn [bind]; auto.
  f_equal. unfold add_index, sh, setix. cbn [v_slice v_owned v_uesc v_info v_index]. f_equal.
  destruct (v_index a) as [i|], (v_index r) as [j|]; cbn [option_map]; auto. f_equal. lia.
Qed.

(** The rest of a lookup, once its first part is moved. *)
Lemma get_rest_sh n (m1 m2 : R (value * path)) : m1 = ('(v, q) <- m2 ;; Ok (sh n v, q)) ->
  ('(res, p) <- m1 ;; if negb (p_more p) then Ok res else v_get res (p_extra p)) =
  (r <- ('(res, p) <- m2 ;; if negb (p_more p) then Ok res else v_get res (p_extra p)) ;; Ok (sh n r)).
Proof.
  intros ->. destruct m2 as [[v q]|e]; cbn [bind]; auto. destruct (negb (p_more q)); auto. apply v_get_sh.
Qed.

Lemma plain_first p t : plain_path p -> split_lines p = (false, t) -> is_modifier (pnext t) = false /\ is_multipath (pnext t) = false.
Proof.
  intros H E. assert (t = p) as ->.
  { unfold split_lines in E. destruct p as [|a [|b u]]; try congruence. destruct ((a =? cDOT) && (b =? cDOT))%N; congruence. }
  apply array_path_plain. unfold array_path. destruct p as [|c u]; auto. destruct H as (H1 & H2 & H3). repeat split; auto.
  intros ->. destruct u as [|d u]; [discriminate|]. cbn [hd]. intros ->. discriminate.
Qed.

Lemma get_sh w s p : blanks w -> plain_path p -> get (w ++ s) p = (v <- get s p ;; Ok (sh (length w) v)).
Proof.
  intros Hw Hp. rewrite !get_spec. destruct (split_lines p) as [lines text] eqn:Es. apply get_rest_sh. unfold lget_first. destruct lines.
  - apply larr_sh. unfold elems, fe_items. rewrite blanks_items by auto. rewrite map_map. apply map_ext_in. intros x Hx. apply fval_sh.
    apply items_suf in Hx. tauto.
  - destruct (plain_first p text Hp Es) as [-> ->]. unfold lstart. rewrite blanks_app_dropw by auto. cbv zeta.
    pose proof (suf_dropw above_sp s) as Hs. destruct (dropw above_sp s) as [|c t] eqn:E; auto.
    destruct (c =? 123)%N; [apply lobj_sh, Hs|]. destruct (c =? 91)%N; auto.
    apply larr_sh. unfold elems, fe_items. cbn [tl]. rewrite map_map. apply map_ext_in. intros x Hx. apply fval_sh.
    apply items_suf in Hx as (Hx & _). eapply suf_trans; [exact Hx|]. eapply suf_tail; exact Hs.
Qed.

Lemma lines_sh s p : array_path p -> get (91%N :: s) p = (v <- get s (46%N :: 46%N :: p) ;; Ok (sh 1 v)).
Proof.
  intros Hp. destruct (array_path_plain p Hp) as (E1 & E2 & E3). rewrite !get_spec, E1.
  change (split_lines (46%N :: 46%N :: p)) with (true, p). cbv iota beta. apply get_rest_sh. unfold lget_first. rewrite E2, E3.
  unfold lstart. cbn [dropw]. change (above_sp 91) with true. cbv iota zeta. change (91 =? 123)%N with false. change (91 =? 91)%N with true. cbv iota.
  apply larr_sh. unfold elems, fe_items. cbn [tl]. rewrite map_map. apply map_ext_in. intros x Hx. apply (fval_sh [91%N]). apply items_suf in Hx. tauto.
Qed.

(* ---------- the statements ---------- *)

Lemma sh_moved n x y : x = (v <- y ;; Ok (sh n v)) -> moved n x y.
Proof. intros ->. destruct y as [v|e]; cbn; auto. split; [|reflexivity]. apply nix_same, nix_sh. Qed.

Theorem lead_get w s p : blanks w -> plain_path p -> moved (length w) (get (w ++ s) p) (get s p).
Proof. intros. apply sh_moved, get_sh; auto. Qed.
Theorem lead_lines s p : array_path p -> moved 1 (get (91%N :: s) p) (get s (46%N :: 46%N :: p)).
Proof. intros. apply sh_moved, lines_sh; auto. Qed.
Theorem lead_any w s p : blanks w -> ws w \/ valid s = Ok false -> same_outcome (get (w ++ s) p) (get s p).
Proof. intros. apply er_outcome, blanks_get; auto. Qed.
Theorem lead_parse w s : blanks w -> moved (length w) (parse (w ++ s)) (parse s).
Proof.
  intros H. apply sh_moved. rewrite !parse_spec. cbn [bind]. f_equal. unfold lparse. rewrite blanks_app_dropw by auto. cbv zeta.
  pose proof (suf_dropw above_sp s) as Hs. destruct (dropw above_sp s) as [|c t] eqn:E; auto.
  assert (Hx : forall k, mkslice (c :: t) k (Some (pos (w ++ s) (c :: t))) = sh (length w) (mkslice (c :: t) k (Some (pos s (c :: t))))).
  { intros k. unfold sh, setix, mkslice. cbn [v_slice v_owned v_uesc v_info v_index option_map]. do 2 f_equal. unfold pos. rewrite app_length.
    apply suf_length in Hs. lia. }
  destruct (c =? 123)%N; auto. destruct (c =? 91)%N; auto. apply fval_sh, Hs.
Qed.

(** Looking up in the parsed value. *)
Theorem lead_parse_get w s p : blanks w -> begins_container s -> ws w \/ valid s = Ok false ->
  exists u, parse (w ++ s) = Ok u /\ same_outcome (v_get u p) (get (w ++ s) p).
Proof.
  intros Hw (c & r & -> & Hc) Hv. exists (lparse (w ++ c :: r)). split; [apply parse_spec|]. apply er_outcome.
  rewrite blanks_get by auto. pose proof (blanks_parse w (c :: r) Hw) as Hp. unfold v_get. rewrite (v_get_nix _ _ _ _ Hp).
  unfold lparse. assert (E : dropw above_sp (c :: r) = c :: r) by (cbn [dropw]; destruct Hc as [-> | ->]; reflexivity). rewrite E. cbv zeta.
  assert (Ex : exists i k, (if (c =? 123)%N then mkslice (c :: r) (N.lor INFO_OBJECT INFO_FOG) (Some (pos (c :: r) (c :: r))) else
    if (c =? 91)%N then mkslice (c :: r) (N.lor INFO_ARRAY INFO_FOG) (Some (pos (c :: r) (c :: r))) else fval (c :: r) (c :: r)) = mkslice (c :: r) i k).
  { destruct Hc as [-> | ->]; cbn [N.eqb Pos.eqb]; eauto. }
  destruct Ex as (i & k & ->). unfold v_get_with. cbn [v_slice mkslice].
  destruct (get (c :: r) p) as [v|e]; reflexivity.
Qed.
