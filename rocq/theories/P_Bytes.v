(** The bytes of a result come from the document, from the path or are ASCII. *)
From Verif Require Import P_Base P_Json P_Valid P_ValidSpec P_Str P_Glob P_Scan P_Each P_Doc P_Path P_LGet P_Parts P_Ext P_Total P_Value P_Num
  P_Key P_Find P_GetDoc P_GetArr P_Stream P_Closed P_Utf8 P_GetUtf8 P_Head P_Good P_Pretty P_Ugly P_Keep P_KeepMod P_Orderly M_Util M_Num M_Scan M_Value M_Path M_Get M_Pretty
  S_Json S_Get S_Path S_Str.

Section Bytes.
Context (P : N -> Prop) (HA : forall c, (c < 128)%N -> P c).
Notation I := (Forall P).

Lemma by_tail c t : c <> 34%N -> I (c :: t) -> I t.
Proof. intros _ H. inversion H; auto. Qed.
Lemma by_suf a b : suf a b -> I b -> I a.
Proof. intros [x ->] H. apply Forall_app in H. apply H. Qed.
Lemma by_infix a b : infix a b -> I b -> I a.
Proof. intros (x & y & ->) H. apply Forall_app in H as [_ H]. apply Forall_app in H. apply H. Qed.
Lemma by_ascii l : Forall (fun c => (c < 128)%N) l -> I l.
Proof. apply Forall_impl. exact HA. Qed.
Lemma by_flat l : I l -> I (ltext l) /\ I (lrest l).
Proof.
  intros H. split; [|apply (by_suf _ l); auto; apply lrest_suf].
  destruct (ltext l) as [|a t] eqn:E; [constructor|]. rewrite <- E. rewrite (ltext_app l) in H by congruence. apply Forall_app in H. apply H.
Qed.
Lemma by_commas l : Forall I l -> I (commas l).
Proof.
  induction 1 as [|x l Hx Hl IH]; [constructor|]. destruct l as [|y l]; [exact Hx|].
  change (commas (x :: y :: l)) with (x ++ 44%N :: commas (y :: l)). apply Forall_app. split; auto. constructor; auto. apply HA. lia.
Qed.
Lemma by_caps a z l : (a < 128)%N -> (z < 128)%N -> I l -> I (a :: l ++ [z]).
Proof. intros Ha Hz H. constructor; auto. apply Forall_app. split; auto. Qed.
Lemma by_arr l : Forall I l -> I (91%N :: commas l ++ [93%N]).
Proof. intros H. apply by_caps; try lia. apply by_commas, H. Qed.
Lemma by_brace l : Forall I l -> I (123%N :: commas l ++ [125%N]).
Proof. intros H. apply by_caps; try lia. apply by_commas, H. Qed.
Lemma by_pair k v : I k -> I v -> I (k ++ 58%N :: v).
Proof. intros H1 H2. apply Forall_app. split; auto. constructor; auto. apply HA. lia. Qed.
Lemma by_name k : I k -> I (json_string k).
Proof.
  intros H. rewrite json_string_quoted. apply by_caps; try lia. unfold key_body. induction H as [|c k Hc Hk IH]; [constructor|].
  cbn [flat_map]. apply Forall_app. split; auto. destruct (N.lt_ge_cases c 128) as [Hl|Hh].
  - apply by_ascii, escape_byte_low, Hl.
  - rewrite escape_byte_high by auto. auto.
Qed.
Lemma by_obj l : Forall (fun kv => I (fst kv) /\ I (snd kv)) l ->
  I (123%N :: commas (map (fun kv : bytes * bytes => json_string (fst kv) ++ 58%N :: snd kv) l) ++ [125%N]).
Proof.
  intros H. apply by_brace. apply Forall_map. eapply Forall_impl; [|exact H]. intros kv [H1 H2]. apply by_pair; auto using by_name.
Qed.
Lemma by_count n : I (dec_of_nat n).
Proof. apply by_ascii. eapply Forall_impl; [|apply dec_of_nat_digits]. intros c Hc. unfold digit in Hc. lia. Qed.
Lemma by_inner l c q e : I l -> (c = 91 \/ c = 123)%N -> ltext l = c :: q ++ [e] -> I q.
Proof. intros H _ E. apply by_flat in H as [H _]. rewrite E in H. inversion H as [|? ? _ H']; subst. apply Forall_app in H'. apply H'. Qed.
Lemma by_sep g : Forall (fun c => skip_sep c = true) g -> I g.
Proof. intros H. apply by_ascii. eapply Forall_impl; [|exact H]. intros c Hc. unfold skip_sep in Hc. cbv beta. lia. Qed.
Lemma by_span x g y : I x -> ltext x <> [] -> ltext y <> [] -> lrest x = g ++ y -> Forall (fun c => skip_sep c = true) g -> I (ltext x ++ g ++ ltext y).
Proof.
  intros Hx _ _ E Hg. apply by_flat in Hx as [H1 H2]. rewrite E in H2. apply Forall_app in H2 as [_ H2].
  apply Forall_app. split; auto. apply Forall_app. split; [apply by_sep, Hg | apply by_flat, H2].
Qed.
Lemma by_ugly l : I l -> I (lugly l).
Proof.
  induction l as [l IH] using (induction_ltof1 _ (@length N)). unfold ltof in IH. destruct l as [|c t]; [intros _; constructor|].
  intros H. inversion H as [|? ? Hc Ht]; subst. rewrite lugly_cons. destruct (32 <? c)%N; [|apply IH; auto; cbn [length]; lia].
  destruct (c =? 34)%N; [|constructor; auto; apply IH; auto; cbn [length]; lia].
  destruct (split_str t) as [[b r]|] eqn:E; [|constructor; auto; apply HA; lia]. apply split_str_app in E. rewrite E in Ht. apply Forall_app in Ht as [H1 H2].
  inversion H2 as [|? ? H3 H4]; subst. constructor; auto. apply Forall_app. split; auto. constructor; auto. apply IH; [|assumption].
  cbn [length]. rewrite app_length. cbn [length]. lia.
Qed.

(* ---------- the pretty printer, with any options ---------- *)

Section Pretty.
Context (width : Z) (prefix : bytes) (sort : bool) (Hpre : I prefix).

Lemma by_repeat n w : I w -> I (repeat_bytes n w).
Proof. intros H. induction n as [|n IH]; cbn [repeat_bytes]; [constructor | apply Forall_app; auto]. Qed.
Lemma by_tabs buf indent tabs : I buf -> I indent -> I (extend_tabs buf prefix indent tabs).
Proof. intros H1 H2. unfold extend_tabs. apply Forall_app. split; auto. apply Forall_app. split; auto using by_repeat. Qed.
Lemma by_app a b : I a -> I b -> I (a ++ b).
Proof. intros. apply Forall_app. auto. Qed.
Lemma by_firstn n l : I l -> I (firstn n l).
Proof. intros H. rewrite <- (firstn_skipn n l) in H. apply Forall_app in H. apply H. Qed.
Lemma by_skipn n l : I l -> I (skipn n l).
Proof. intros H. rewrite <- (firstn_skipn n l) in H. apply Forall_app in H. apply H. Qed.
Lemma by_removelast l : I l -> I (removelast l).
Proof. intros H. destruct l as [|a l]; [constructor|]. rewrite (app_removelast_last 0%N (l := a :: l)) in H by discriminate. apply Forall_app in H. apply H. Qed.
Lemma by_lnl l : I l -> I (lnl l).
Proof. intros H. unfold lnl. destruct (_ =? _)%N; apply by_app; auto using by_removelast; apply by_ascii; repeat constructor; lia. Qed.
Lemma by_sort buf ps : I buf -> I (lsort_pairs buf ps).
Proof.
  intros H. unfold lsort_pairs. destruct ps as [|p ps]; auto. apply by_app; [apply by_firstn, H|].
  induction (ksort (p :: ps)) as [|x l IH]; [constructor|]. cbn [ljoin]. apply by_app; [apply by_firstn, by_skipn, H|]. apply by_app; auto.
  destruct l; [constructor|]. apply by_ascii. repeat constructor; lia.
Qed.
Lemma by_lpstr t : I (34%N :: t) -> I (fst (lpstr t)) /\ I (snd (lpstr t)).
Proof.
  intros H. inversion H as [|? ? H1 H2]; subst. unfold lpstr. destruct (split_str t) as [[b r]|] eqn:E; cbn [fst snd]; [|split; auto].
  apply split_str_app in E. rewrite E in H2. apply Forall_app in H2 as [H2 H3]. inversion H3; subst. split; auto.
  constructor; auto. apply by_app; auto.
Qed.
Lemma by_dropw f l : I l -> I (dropw f l).
Proof. intros H. apply (by_suf _ l); auto. apply suf_dropw. Qed.
Lemma by_upto l r : I l -> I (upto l r).
Proof. apply by_firstn. Qed.

Definition finep (r : bytes * bytes * Z * bool) : Prop := I (fst (fst (fst r))) /\ I (snd (fst (fst r))).

Lemma by_lclose pretty open indent tabs nl n ps buf : I indent -> I buf ->
  I (fst (lclose prefix sort pretty open indent tabs nl n ps buf)).
Proof.
  intros Hi Hb. unfold lclose. destruct pretty; auto. cbv zeta.
  assert (H1 : I (if (open =? 123)%N && sort then lsort_pairs buf ps else buf)) by (destruct (_ && _); auto using by_sort).
  destruct (0 <? n); cbn [fst].
  - assert (H2 : forall x, I x -> I (if (last x 0 =? 32)%N then x else x ++ [10%N])).
    { intros x Hx. destruct (last x 0 =? 32)%N; auto. apply by_app; auto. apply by_ascii. repeat constructor; lia. }
    match goal with |- I (if _ then ?x else _) => destruct (last x 0 =? open)%N end; auto using by_tabs.
  - match goal with |- I (if _ then ?x else _) => destruct (last x 0 =? open)%N end; auto using by_tabs.
Qed.

Lemma lp_by : forall fuel,
  (forall buf l pretty indent tabs nl max depth, I indent -> I buf -> I l ->
     finep (lpany width prefix sort fuel buf l pretty indent tabs nl max depth)) /\
  (forall buf l open close pretty indent tabs nl max depth, I indent -> I buf -> I l ->
     (open = 91 /\ close = 93 \/ open = 123 /\ close = 125)%N ->
     finep (lpobj width prefix sort fuel buf l open close pretty indent tabs nl max depth)) /\
  (forall buf l open close pretty indent tabs nl max depth ps n, I indent -> I buf -> I l ->
     (open = 91 /\ close = 93 \/ open = 123 /\ close = 125)%N ->
     finep (lploop width prefix sort fuel buf l open close pretty indent tabs nl max depth ps n)).
Proof.
  induction fuel as [|fuel (IH1 & IH2 & IH3)].
  { repeat split; cbn; auto. }
  split; [|split].
  - intros buf l pretty indent tabs nl max depth Hi Hb Hl. rewrite lpany_S. cbv zeta.
    pose proof (by_dropw starts_value l Hl) as Hd.
    destruct (dropw starts_value l) as [|c t]; [split; cbn; auto|]. inversion Hd as [|? ? Hc Ht]; subst.
    destruct (N.eqb_spec c 34) as [->|Hq].
    { apply by_lpstr in Hd as [H1 H2]. split; cbn [fst snd]; auto using by_app. }
    destruct (((48 <=? c) && (c <=? 57)) || (c =? 45))%N eqn:En.
    { split; cbn [fst snd]; [|apply by_dropw, Ht]. apply by_app; auto. constructor; auto. apply by_upto, Ht. }
    destruct (N.eqb_spec c 123) as [->|H1]; [apply IH2; auto|].
    destruct (N.eqb_spec c 91) as [->|H2]; [apply IH2; auto|].
    destruct (N.eqb_spec c 116) as [->|H3]; [|destruct (N.eqb_spec c 102) as [->|H4]]; split; cbn [fst snd];
      try (apply by_skipn, Hd); apply by_app; auto; apply by_ascii; repeat constructor; lia.
  - intros buf l open close pretty indent tabs nl max depth Hi Hb Hl Ho. rewrite lpobj_S.
    destruct (depth =? MAX_DEPTH).
    { split; cbn [fst snd]; [|constructor]. apply by_app; auto using by_ugly. }
    cbv zeta.
    assert (Hf : finep (lploop width prefix sort fuel (buf ++ [open]) (tl l) open close pretty indent tabs nl max depth [] 0)).
    { apply IH3; auto.
      - apply by_app; auto. constructor; auto. apply HA. lia.
      - destruct l; auto. inversion Hl; auto. }
    destruct (0 <? width)%Z; auto.
    destruct (pretty && (open =? 91)%N && (max =? -1)%Z) eqn:E1.
    { destruct (3 <? _)%Z; auto.
      pose proof (IH2 buf l 91%N 93%N false [] 0%Z 0%Z (width - (Z.of_nat (length buf) - nl))%Z depth ltac:(constructor) Hb Hl ltac:(auto)) as Hs.
      destruct (lpobj _ _ _ _ _ _ _ _ _ _ _ _ _) as [[[b1 l1] z] ok]. destruct (ok && _); auto. }
    destruct (negb (max =? -1)%Z && (open =? 123)%N); auto. split; cbn [fst snd]; auto.
  - intros buf l open close pretty indent tabs nl max depth ps n Hi Hb Hl Ho. rewrite lploop_S.
    destruct l as [|c t]; [split; cbn [fst snd]; auto|]. inversion Hl as [|? ? Hc Ht]; subst.
    destruct (c <=? 32)%N eqn:E1; [apply IH3; auto|].
    destruct (c =? close)%N eqn:E2.
    { pose proof (by_lclose pretty open indent tabs nl n ps buf Hi Hb) as H. destruct (lclose _ _ _ _ _ _ _ _ _ _) as [buf' nl'].
      cbn [fst] in H. split; cbn [fst snd]; auto. apply by_app; auto. constructor; auto. apply HA. lia. }
    destruct ((open =? 91)%N || (c =? 34)%N) eqn:E3; [|apply IH3; auto].
    cbv zeta.
    assert (H1 : I (lcomma width open n buf)).
    { unfold lcomma. destruct (0 <? n); auto. destruct (_ && _); apply by_app; auto; apply by_ascii; repeat constructor; lia. }
    assert (H2 : I (fst (lstart_item prefix pretty indent tabs nl (lcomma width open n buf)))).
    { unfold lstart_item. destruct pretty; cbn [fst]; auto. apply by_tabs; auto using by_lnl. }
    destruct (lstart_item _ _ _ _ _ _) as [buf2 nl2]. cbn [fst] in H2.
    assert (H3 : I (fst (lkey pretty open t (c :: t) buf2)) /\ I (snd (lkey pretty open t (c :: t) buf2))).
    { unfold lkey. destruct (open =? 123)%N eqn:Eo; cbn [fst snd]; auto. assert (c = 34%N) by lia. subst c.
      apply by_lpstr in Hl as [S1 S2]. split; auto. apply by_app; auto. apply by_app; auto.
      apply by_ascii. destruct pretty; repeat constructor; lia. }
    destruct (lkey _ _ _ _ _) as [buf3 l3]. cbn [fst snd] in H3. destruct H3 as [H3 H3'].
    pose proof (IH1 buf3 l3 pretty indent (tabs + 1)%Z nl2 max depth Hi H3 H3') as [H4 H4'].
    destruct (lpany _ _ _ _ _ _ _ _ _ _ _ _) as [[[buf4 l4] nl4] ok]. cbn [fst snd] in *.
    destruct (negb (max =? -1)%Z && negb ok); [split; auto|]. apply IH3; auto.
Qed.
End Pretty.

Lemma by_pretty json o : I (o_prefix o) -> I (o_indent o) -> I json -> I (lpretty json o).
Proof.
  intros Hp Hi H. unfold lpretty.
  pose proof (proj1 (lp_by (o_width o) (o_prefix o) (o_sort o) Hp (8 + 4 * length json))
    (o_prefix o) json true (o_indent o) 0%Z 0%Z (-1)%Z 0 Hi Hp H) as [Hb _].
  destruct (lpany _ _ _ _ _ _ _ _ _ _ _ _) as [[[buf l] z] ok].
  cbn [fst snd] in Hb. destruct buf; [constructor|]. apply by_app; auto. apply by_ascii. repeat constructor; lia.
Qed.

Lemma opt_str_by j x s : suf x j -> ~ In 92%N j -> I j -> v_exists (fval j x) = true -> v_str (fval j x) = Ok s -> I s.
Proof.
  intros Hx Hn Hj He. pose proof (proj1 (by_flat x (by_suf _ _ Hx Hj))) as Ht.
  unfold v_str, fval, v_exists, v_kind in *. destruct (linfo x =? 0)%N eqn:Ei; [discriminate|].
  rewrite mkslice_json in *. cbn [mkslice v_info v_uesc] in *.
  destruct x as [|c u]; [discriminate|].
  destruct (N.eqb_spec c 34) as [->|Hc].
  - unfold linfo, ltext, lflat in *. cbn [N.eqb Pos.eqb] in *.
    destruct (split_str u) as [[b r]|] eqn:Es; cbn [fst snd] in *; [|discriminate].
    assert (Hb : ~ In 92%N b).
    { intros Hi. apply Hn. destruct Hx as (a & ->). apply in_or_app. right. right. apply split_str_app in Es. rewrite Es.
      apply in_or_app. left. exact Hi. }
    assert (Hh : hasbsl b = false) by (destruct (hasbsl b) eqn:E; auto; exfalso; apply Hb, hasbsl_in, E).
    unfold esc_info. rewrite Hh. change (N.lor 0 INFO_STRING) with INFO_STRING.
    change (kindmap (N.land INFO_STRING 255)) with KString. change (has INFO_STRING INFO_ESC) with false. cbv match.
    unfold strip_quotes. cbn [length]. rewrite app_length. cbn [length]. rewrite usub_ok by lia. cbn [bind].
    change (34%N :: b ++ [34%N]) with ([34%N] ++ b ++ [34%N]). rewrite (slice_mid [34%N] b [34%N]); [|auto|cbn [length]; lia].
    intros E. injection E as <-. inversion Ht as [|? ? _ Ht']; subst. apply Forall_app in Ht'. apply Ht'.
  - pose proof (kind_not_string (c :: u) Hc) as Hk.
    destruct (kindmap (N.land (linfo (c :: u)) 255)); try congruence; intros E; injection E as <-; auto;
      apply by_ascii; repeat constructor; lia.
Qed.

Lemma mod_pretty_by json arg o : I json -> I arg -> (arg = [] \/ ~ In 92%N arg) -> mod_pretty get json arg = Ok o -> I o.
Proof.
  intros H Ha Hn. unfold mod_pretty.
  assert (Hi : I (o_indent popts_default)) by (apply by_ascii; repeat constructor; lia).
  assert (Hp : I (o_prefix popts_default)) by constructor.
  destruct arg as [|a t].
  { unfold pretty. rewrite pretty_options_spec. intros [= <-]. apply by_pretty; auto. }
  destruct Hn as [Hn|Hn]; [discriminate|]. set (arg := a :: t) in *.
  assert (Hs : forall name d v x, In name optnames -> get arg name = Ok v -> I d -> (if v_exists v then v_str v else Ok d) = Ok x -> I x).
  { intros name d v x Hin E Hd. destruct (get_opt_ok arg name Hin) as (v' & E' & _ & Hf). rewrite E' in E. injection E as <-.
    destruct (v_exists v') eqn:Ex; [|intros [= <-]; auto]. destruct Hf as [->|(y & Hy & ->)]; [discriminate|]. eapply opt_str_by; eauto. }
  intros E. apply bind_ok in E as (v1 & E1 & E). apply bind_ok in E as (v2 & E2 & E). apply bind_ok in E as (v3 & E3 & E). apply bind_ok in E as (v4 & E4 & E).
  apply bind_ok in E as (x1 & F1 & E). apply bind_ok in E as (x2 & F2 & E). apply bind_ok in E as (x3 & F3 & E). apply bind_ok in E as (x4 & F4 & E).
  rewrite pretty_options_spec in E. injection E as <-. apply by_pretty; cbn [o_prefix o_indent]; auto.
  - exact (Hs s_prefix _ v2 x2 ltac:(cbn [optnames In]; tauto) E2 Hp F2).
  - exact (Hs s_indent _ v1 x1 ltac:(cbn [optnames In]; tauto) E1 Hi F1).
Qed.

(* ---------- get ---------- *)

Definition pathok (t : bytes) : Prop := I t /\ (plain_path t \/ ~ In 92%N t).
Lemma pathok_infix a b : infix a b -> pathok b -> pathok a.
Proof.
  intros H [H1 H2]. split; [eapply by_infix; eauto|]. destruct H2 as [H2|H2]; [left; eapply plain_infix; eauto|]. right. intros Hi. apply H2.
  destruct H as (x & y & ->). apply in_or_app. right. apply in_or_app. left. exact Hi.
Qed.

Lemma keyname_by b : I b -> I (keyname b).
Proof.
  intros Hb. pose proof (keyname_eq b) as E. unfold key_for_path in E. apply bind_ok in E as (k & Ek & E).
  injection E as E. rewrite <- E. destruct (is_simple_name k); [|apply by_ascii; repeat constructor; lia].
  unfold name_of_last in Ek. revert Ek. generalize (length b). intros n. induction n as [|n IH]; cbn [name_of_last_loop]; [intros [= <-]; auto|].
  intros F. apply bind_ok in F as (c & _ & F). destruct (_ || _)%N; [|auto]. apply bind_ok in F as ([|] & _ & F); auto.
  unfold slice_from, slice in F. destruct (_ && _); [|discriminate]. injection F as <-. apply by_firstn, by_skipn, Hb.
Qed.

Lemma comps_by p k q : I p -> In (k, q) (comps p) -> I k.
Proof.
  assert (Hpair : forall s co l, I s -> I (fst (lpair s co l))).
  { intros s co l Hs. unfold lpair. destruct co as [c|]; cbn [fst]; [apply by_upto, Hs | apply keyname_by, by_upto, Hs]. }
  assert (H : forall fuel l s co, I s -> suf l s -> In (k, q) (lcomps fuel l s co) -> I k).
  { induction fuel as [|fuel IH]; intros l s co Hs Hl; cbn [lcomps]; [intros []|].
    destruct l as [|b t]; [intros [E|[]]; specialize (Hpair s co [] Hs); rewrite E in Hpair; auto|].
    pose proof (suf_tail _ _ _ Hl) as Ht.
    destruct (b =? 92)%N. { destruct t as [|c1 t']; [intros []|]. apply IH; auto. eapply suf_tail; eauto. }
    destruct (_ || _)%N. { apply IH; auto. eapply suf_trans; [apply sq_end_suf | exact Ht]. }
    destruct (b =? 44)%N. { intros [E|H]; [specialize (Hpair s co (b :: t) Hs); rewrite E in Hpair; auto|]. eapply IH; [| |exact H]; [eapply by_suf; eauto | apply suf_refl]. }
    destruct (b =? 58)%N; apply IH; auto. }
  intros Hp. apply H; auto using suf_refl.
Qed.

Lemma exec_by t json v p' : pathok t -> is_modifier (pnext t) = true -> I json ->
  mod_exec get json (pnext t) = Ok (v, p') -> kept I v /\ p' = pnext t.
Proof.
  intros Ht Hm H. destruct (mod_exec_parts get _ _ (pnext_shape t) Hm) as (name & arg & Hp & ->).
  intros E. apply bind_ok in E as (o & E & Ev). rewrite parse_spec in Ev. cbn [bind] in Ev. injection Ev as <- <-. split; auto.
  apply kept_into. apply kept_parse; eauto using by_tail, by_flat.
  revert E. apply (apply_kept I (Forall_nil P) by_tail by_flat by_arr by_commas by_brace by_pair by_inner by_span by_ugly); auto.
  intros o' Hn. pose proof (pin_pnext t) as [I1 _ _]. pose proof (pathok_infix _ _ I1 Ht) as [B1 B2].
  assert (Ha : I arg /\ (arg = [] \/ ~ In 92%N arg)).
  { destruct Hp as [[_ ->]|Ec]; [split; auto|]. rewrite Ec in *. split.
    - eapply by_infix; [|exact B1]. exists (64%N :: name ++ [58%N]), []. rewrite app_nil_r. cbn [app]. rewrite <- app_assoc. reflexivity.
    - right. destruct B2 as [B2|B2]; [|intros Hi; apply B2; right; apply in_or_app; right; right; exact Hi].
      exfalso. apply B2. rewrite Hn. exists [], arg. cbn [app]. rewrite <- app_assoc. reflexivity. }
  apply mod_pretty_by; tauto.
Qed.

Theorem get_bytes json text v : I json -> pathok text -> get json text = Ok v -> kept I v.
Proof.
  intros Hj Hp Hg.
  eapply (get_kept I pathok I (Forall_nil P) by_tail by_flat by_count by_arr by_obj)
    with (n := length text) (text := text) (j := json); eauto.
  - split; [constructor | right; intros []].
  - intros t Ht. eapply pathok_infix; [|exact Ht]. destruct (split_lines t) as [b u] eqn:Es. exact (split_lines_infix _ _ _ Es).
  - intros t Ht. pose proof (pin_pnext t) as [I1 I2 _]. split; [eapply pathok_infix; eauto|]. intros Hm. eapply pathok_infix; [|exact Ht]. apply I2; auto.
  - intros e g r He Hgr. apply group_length in Hgr as (_ & I1 & I2 & _). split; [eapply pathok_infix; eauto|]. intros Hm. eapply pathok_infix; [|exact He]. auto.
  - intros a p z k q H Ha Hz Hin. assert (Hpp : pathok p) by (eapply pathok_infix; [|exact H]; exists [a], [z]; reflexivity). split.
    + exact (comps_by p k q (proj1 Hpp) Hin).
    + eapply pathok_infix; [|exact Hpp]. exact (comps_infix _ _ Hin).
  - intros t j v' p'. apply exec_by.
Qed.
End Bytes.
