(** How the model reads the first piece of any path. *)
From Verif Require Import P_Base P_Json P_Valid P_Str P_Glob P_Scan P_Each P_Doc P_Path P_LGet P_Parts P_Ext P_Total P_Value P_Key
  P_Pipe P_Bad P_Utf8 P_Head P_Entry M_Util M_Num M_Scan M_Value M_Path M_Valid M_Get
  S_Json S_Str S_Get S_Path S_Query S_Mod S_Multi S_Compose S_Eval S_Then S_Bad S_Head S_Entry S_Means.

(* ---------- the piece ---------- *)

Definition next_is (p k : bytes) (o : option (N * bytes)) : Prop :=
  p_comp (pnext p) = k /\ match o with None => p_sep (pnext p) = 0%N | Some (s, r) => p_sep (pnext p) = s /\ p_extra (pnext p) = r end.

Lemma lpn_body k : comp_body k -> forall l e p, exists e' p', lpn false (k ++ l) e p = lpn false l e' p'.
Proof.
  induction 1 as [|c t (H1 & H2 & H3) _ IH|c t _ IH]; intros l e p; [exists e, p; reflexivity| |].
  - cbn [app lpn andb]. replace (c =? 92)%N with false by lia.
    assert (is_sep c = false) as ->. { destruct (is_sep c) eqn:E; auto. apply is_sep_iff in E. unfold separator in E. lia. }
    destruct ((c =? 42) || (c =? 63))%N; apply IH.
  - cbn [app lpn N.eqb Pos.eqb]. apply IH.
Qed.
Lemma pnext_backslash k : comp_body k -> comp_head (k ++ [92%N]) ->
  exists pat, pnext (k ++ [92%N]) = mkPath (k ++ [92%N]) true pat 0 0 [].
Proof.
  intros Hb Hh. assert (Hs : pnext (k ++ [92%N]) = lscan false (k ++ [92%N])).
  { destruct (k ++ [92%N]) as [|c t] eqn:E; [destruct k; discriminate|]. apply pnext_scan; apply Hh. }
  rewrite Hs. unfold lscan. destruct (lpn_body k Hb [92%N] false false) as (e & q & ->). exists q. reflexivity.
Qed.
Lemma pnext_unclosed t : unclosed t -> ends_query t -> pnext (35%N :: 40%N :: t) = mkPath (35%N :: 40%N :: t) false false 0 0 [].
Proof.
  intros Hu He. rewrite pnext_lquery. unfold lquery. rewrite (proj2 (sq_none t) Hu). unfold lqpath. rewrite upto_nil.
  assert (query_end (35%N :: 40%N :: t) = true) as ->; [|reflexivity].
  apply query_end_iff. destruct He as (a & [->| ->]); exists (35%N :: 40%N :: a); auto.
Qed.
Lemma qcomp_ends q (all : bool) : ends_query (q ++ 41%N :: if all then [35%N] else []).
Proof. exists q. destruct all; auto. Qed.

Lemma head_next_none p n a : head p n a None -> next_is p p None.
Proof.
  intros H. pose proof (head_scanned _ _ _ _ H) as Hs.
  destruct (scanned_pnext _ _ _ _ Hs) as (comp & esc & pat & marg & extra & sep & E & Hc & Hr & _). cbn in Hr. subst sep.
  unfold next_is. rewrite E. cbn [p_comp p_sep]. split; auto.
  inversion Hs; subst; destruct Hc as [(-> & Em & Ea)|(-> & Em)]; auto.
  - exfalso. match goal with X : exists _ _, lpn _ _ _ _ = _ |- _ => destruct X as (e & q & El) end.
    pose proof (pnext_eq (64%N :: n)) as Ep. unfold path_next in Ep. cbn [length Nat.ltb Nat.leb] in Ep.
    change (idx (64%N :: n) 0) with (@Ok N 64%N) in Ep. cbn [bind] in Ep. change (64 =? cAT)%N with true in Ep. cbv match in Ep.
    rewrite path_next_scan_spec in Ep. injection Ep as Ep. rewrite <- Ep in E. unfold lscan in E. rewrite El in E. cbn [N.eqb marg_pos] in E. congruence.
  - subst a. exfalso. match goal with X : exists _ _ _, lpn _ _ _ _ = _ |- _ => destruct X as (e & q & x & El) end.
    set (p := 64%N :: n ++ [58%N]) in *.
    pose proof (pnext_eq p) as Ep. unfold path_next in Ep. cbn [length Nat.ltb Nat.leb p] in Ep.
    change (idx (64%N :: n ++ [58%N]) 0) with (@Ok N 64%N) in Ep. cbn [bind] in Ep. change (64 =? cAT)%N with true in Ep. cbv match in Ep.
    rewrite path_next_scan_spec in Ep. injection Ep as Ep. fold p in Ep. rewrite <- Ep in E. unfold lscan in E. rewrite El in E. cbn [N.eqb] in E.
    injection E as E _ _ _. apply (f_equal (@length N)) in E. unfold p in E. cbn [length] in E. rewrite app_length in E. cbn [length] in E. lia.
Qed.
Lemma tail_inj (a b : bytes) x y r : a ++ x :: r = b ++ y :: r -> a = b /\ x = y.
Proof.
  intros E. change (a ++ [x] ++ r = b ++ [y] ++ r) in E. rewrite !app_assoc in E. apply app_inv_tail in E. apply app_inj_tail in E. exact E.
Qed.
Lemma sep_shape p s r : p_sep (pnext p) = s -> p_extra (pnext p) = r -> is_sep s = true -> p = p_comp (pnext p) ++ s :: r.
Proof. intros <- <- Hs. destruct (ps_sep _ _ (pnext_shape p)) as [E|[_ E]]; [rewrite E in Hs; discriminate | exact E]. Qed.

Lemma multi_next k r o q : multi_start o -> multi (k ++ r) o q r ->
  pnext (k ++ r) = mkPath k false false (fst (after r)) 0 (snd (after r)).
Proof.
  intros Ho H. destruct (multi_shape _ _ _ _ H) as (comp & E & Hn & Hh & Hsq & _). apply app_inv_tail in E. subst comp.
  apply (pnext_group o); auto.
Qed.
Lemma after_cut r : cut r -> fst (after r) = 0%N.
Proof.
  intros H. unfold after. destruct r as [|s u]; [reflexivity|]. destruct (is_sep s) eqn:E; [|reflexivity].
  exfalso. apply (H s u eq_refl). apply is_sep_iff, E.
Qed.
Lemma after_sep s r : separator s -> after (s :: r) = (s, r).
Proof. intros H. unfold after. rewrite (proj2 (is_sep_iff s) H). reflexivity. Qed.

Theorem first_next p k o : first p k o -> next_is p k o.
Proof.
  intros [k0 Hk|k0 s r Hk Hs|k0 Hb Hh|q all Hu|b Hb|p0 n a Hh|k0 s r n a Hs Hh|k0 r o0 q Ho Hm Hc|k0 s r o0 q Ho Hs Hm].
  - unfold next_is. rewrite pnext_any_end by auto. split; reflexivity.
  - unfold next_is. rewrite pnext_any_sep by (auto; apply is_sep_iff, Hs). repeat split.
  - unfold next_is. destruct (pnext_backslash k0 Hb Hh) as (pat & ->). split; reflexivity.
  - unfold next_is, qcomp. rewrite pnext_unclosed by (auto using qcomp_ends). split; reflexivity.
  - unfold next_is. rewrite (pnext_malformed b Hb). split; reflexivity.
  - eapply head_next_none; eauto.
  - pose proof (head_scanned _ _ _ _ Hh) as Hsc.
    destruct (scanned_pnext _ _ _ _ Hsc) as (comp & esc & pat & marg & extra & sep & E & _ & (-> & Hsep) & _).
    pose proof (sep_shape (k0 ++ s :: r) sep r) as Hsh. rewrite E in Hsh. cbn [p_sep p_extra p_comp] in Hsh.
    specialize (Hsh eq_refl eq_refl Hsep). apply tail_inj in Hsh as [-> ->].
    unfold next_is. rewrite E. repeat split.
  - unfold next_is. rewrite (multi_next k0 r o0 q Ho Hm). cbn [p_comp p_sep]. rewrite after_cut by auto. auto.
  - unfold next_is. rewrite (multi_next k0 (s :: r) o0 q Ho Hm), after_sep by auto. repeat split.
Qed.
Lemma first_sep p k s r : first p k (Some (s, r)) -> separator s /\ p = k ++ s :: r.
Proof. intros H. inversion H; subst; auto. Qed.
Lemma first_prefix p k o : first p k o -> exists t, p = k ++ t.
Proof. intros H. destruct (first_next p k o H) as [<- _]. apply (ps_prefix _ _ (pnext_shape p)). Qed.
Lemma first_unique p k o k' o' : first p k o -> first p k' o' -> k = k' /\ o = o'.
Proof.
  intros H H'. destruct (first_next _ _ _ H) as [E1 E2], (first_next _ _ _ H') as [F1 F2].
  split; [congruence|]. destruct o as [[s r]|], o' as [[s' r']|]; auto.
  - destruct E2, F2. congruence.
  - destruct (first_sep _ _ _ _ H) as [Hs _]. destruct E2 as [E2 _]. rewrite F2 in E2. subst s. destruct Hs; discriminate.
  - destruct (first_sep _ _ _ _ H') as [Hs _]. destruct F2 as [F2 _]. rewrite E2 in F2. subst s'. destruct Hs; discriminate.
Qed.

(* ---------- what stands behind the piece has no influence on it ---------- *)

Lemma group_no_sep g : mod_group g -> forall g' s r, mod_group g' -> separator s -> g <> g' ++ s :: r.
Proof.
  intros Hg g' s r Hg' Hs E. pose proof (lrest_group g [] Hg) as E1. rewrite app_nil_r, E, lrest_group in E1 by auto. discriminate.
Qed.
Lemma head_word_sep n s r k : separator s -> 64%N :: n ++ s :: r = k ++ s :: r -> k = 64%N :: n.
Proof. intros _ E. change ((64%N :: n) ++ s :: r = k ++ s :: r) in E. apply app_inv_tail in E. auto. Qed.
Lemma head_local k s r n a : separator s -> head (k ++ s :: r) n a (Some r) ->
  head k n a None /\ forall r', head (k ++ s :: r') n a (Some r').
Proof.
  intros Hs H. inversion H as [|n0 s0 r0 Hn Hs0 E| |n0 a0 s0 r0 Hn Ha Hs0 E|n0 g s0 r0 Hn Hg Hs0 E|]; subst.
  - change ((64%N :: n) ++ s0 :: r = k ++ s :: r) in E. apply tail_inj in E as [<- <-]. split.
    + apply hd_end. left. exact Hn.
    + intros r'. cbn [app]. apply hd_sep; auto.
  - assert (E' : (64%N :: n ++ 58%N :: a) ++ s0 :: r = k ++ s :: r) by (rewrite <- E; cbn [app]; rewrite <- app_assoc; reflexivity).
    apply tail_inj in E' as [<- <-]. split.
    + apply hd_plain; auto.
    + intros r'. cbn [app]. rewrite <- app_assoc. cbn [app]. apply hd_plain_sep; auto.
  - assert (E' : (64%N :: n ++ 58%N :: a) ++ s0 :: r = k ++ s :: r) by (rewrite <- E; cbn [app]; rewrite <- app_assoc; reflexivity).
    apply tail_inj in E' as [<- <-]. split.
    + destruct a as [|c t]; [inversion Hg|]. apply hd_group; auto; [eapply (group_opening (c :: t) [] c t); auto; apply app_nil_r|].
      intros g' s r' Hg' Hs'. apply group_no_sep; auto.
    + intros r'. cbn [app]. rewrite <- app_assoc. cbn [app]. apply hd_group_sep; auto.
Qed.
Lemma multi_local k r o q : multi (k ++ r) o q r -> exists q', multi k o q' [] /\ (q' = q) /\ (r <> [] -> forall r', multi (k ++ r') o q r').
Proof.
  intros H. exists q. inversion H as [o' q' r0 Hq E|o' q' c r0 Hq Hc Hn E|o' q' Hu E|o' t Hu Hn E]; subst.
  - change (o :: q' ++ closing o :: r = k ++ r) with ((o :: q') ++ closing o :: r = k ++ r) in E.
    replace ((o :: q') ++ closing o :: r) with (((o :: q') ++ [closing o]) ++ r) in E by (rewrite <- app_assoc; reflexivity).
    apply app_inv_tail in E. subst k. cbn [app]. split; [apply (mu_closed o q' []); auto|]. split; auto. intros _ r'.
    rewrite <- app_assoc. cbn [app]. apply mu_closed; auto.
  - replace (o :: q' ++ c :: r) with ((o :: q' ++ [c]) ++ r) in E by (cbn [app]; rewrite <- app_assoc; reflexivity).
    apply app_inv_tail in E. subst k. split; [apply (mu_wrong o q' c []); auto|]. split; auto. intros _ r'.
    cbn [app]. rewrite <- app_assoc. cbn [app]. apply mu_wrong; auto.
  - rewrite app_nil_r in E. subst k. split; [apply mu_open; auto|]. split; auto. congruence.
  - rewrite app_nil_r in E. subst k. split; [apply mu_open_wrong; auto|]. split; auto. congruence.
Qed.
Lemma multi_first_end k o q : multi_start o -> multi k o q [] -> first k k None.
Proof. intros Ho H. pose proof (fi_multi k [] o q Ho) as F. rewrite app_nil_r in F. apply F; auto. intros s u E. discriminate. Qed.

Theorem first_alone p k o : first p k o -> first k k None.
Proof.
  intros [k0 Hk|k0 s r Hk Hs|k0 Hb Hh|q all Hu|b Hb|p0 n a Hh|k0 s r n a Hs Hh|k0 r o0 q Ho Hm Hc|k0 s r o0 q Ho Hs Hm].
  - apply fi_last; auto.
  - apply fi_last; auto.
  - apply fi_backslash; auto.
  - apply fi_unclosed; auto.
  - apply fi_last. left. split; [apply cb_nil | exact I].
  - eapply fi_modifier; eauto.
  - destruct (head_local _ _ _ _ _ Hs Hh) as [H _]. eapply fi_modifier; eauto.
  - destruct (multi_local _ _ _ _ Hm) as (q' & H & _). eapply multi_first_end; eauto.
  - destruct (multi_local _ _ _ _ Hm) as (q' & H & _). eapply multi_first_end; eauto.
Qed.
Theorem first_local p k s r : first p k (Some (s, r)) -> forall r', first (k ++ s :: r') k (Some (s, r')).
Proof.
  intros H r'. inversion H as [|k0 s0 r0 Hk Hs E1 E2 E3| | | | |k0 s0 r0 n a Hs Hh E1 E2 E3| |k0 s0 r0 o0 q Ho Hs Hm E1 E2 E3]; subst.
  - apply fi_sep; auto.
  - destruct (head_local _ _ _ _ _ Hs Hh) as [_ H']. eapply fi_modifier_sep; eauto.
  - destruct (multi_local _ _ _ _ Hm) as (q' & _ & _ & H'). eapply fi_multi_sep; eauto. apply H'. discriminate.
Qed.

(* ---------- every path has a first piece ---------- *)

Lemma comp_cases : forall n t, length t < n -> comp_body t \/ (exists k, comp_body k /\ t = k ++ [92%N]) \/
  (exists k s r, comp_body k /\ separator s /\ t = k ++ s :: r).
Proof.
  induction n as [|n IH]; intros t Hn; [lia|]. destruct t as [|c t]; [left; apply cb_nil|]. cbn [length] in Hn.
  destruct (N.eq_dec c 92) as [->|H1].
  - destruct t as [|x t]; [right; left; exists []; split; [apply cb_nil | reflexivity]|]. cbn [length] in Hn.
    destruct (IH t ltac:(lia)) as [H|[(k & H & ->)|(k & s & r & H & Hs & ->)]].
    + left. apply cb_esc; auto.
    + right. left. exists (92%N :: x :: k). split; [apply cb_esc; auto | reflexivity].
    + right. right. exists (92%N :: x :: k), s, r. split; [apply cb_esc; auto|]. auto.
  - assert (D : separator c \/ ~ separator c) by (unfold separator; lia). destruct D as [D|D].
    { right. right. exists [], c, t. split; [apply cb_nil|]. auto. }
    assert (Hc : comp_byte c) by (unfold comp_byte; unfold separator in D; lia).
    destruct (IH t ltac:(lia)) as [H|[(k & H & ->)|(k & s & r & H & Hs & ->)]].
    + left. apply cb_char; auto.
    + right. left. exists (c :: k). split; [apply cb_char; auto | reflexivity].
    + right. right. exists (c :: k), s, r. split; [apply cb_char; auto|]. auto.
Qed.

Theorem first_total p : exists k o, first p k o.
Proof.
  destruct p as [|c t]; [exists [], None; apply fi_last; left; split; [apply cb_nil | exact I]|].
  destruct (N.eq_dec c 64) as [->|H1].
  { destruct (head_total t) as (n & a & [r|] & H); [|do 2 eexists; eapply fi_modifier; eauto].
    assert (E : exists k s, separator s /\ 64%N :: t = k ++ s :: r).
    { inversion H as [|n0 s0 r0 Hn Hs0 E| |n0 a0 s0 r0 Hn Ha Hs0 E|n0 g s0 r0 Hn Hg Hs0 E|]; subst.
      - exists (64%N :: n), s0. auto.
      - exists (64%N :: n ++ 58%N :: a), s0. split; auto. cbn [app]. rewrite <- app_assoc. reflexivity.
      - exists (64%N :: n ++ 58%N :: a), s0. split; auto. cbn [app]. rewrite <- app_assoc. reflexivity. }
    destruct E as (k & s & Hs & E). rewrite E in *. do 2 eexists. eapply fi_modifier_sep; eauto. }
  assert (D : multi_start c \/ ~ multi_start c) by (unfold multi_start; lia). destruct D as [D|D].
  { destruct (multi_total c t) as (b & r & H). destruct (multi_shape _ _ _ _ H) as (comp & E & _). rewrite E in *.
    destruct r as [|s u]; [do 2 eexists; eapply fi_multi; eauto; intros s u X; discriminate|].
    assert (D2 : separator s \/ ~ separator s) by (unfold separator; lia). destruct D2 as [D2|D2].
    - do 2 eexists. eapply fi_multi_sep; eauto.
    - do 2 eexists. eapply fi_multi; eauto. intros s' u' X. injection X as <- <-. auto. }
  destruct (N.eq_dec c 35) as [->|H2].
  { destruct (hash_cases t) as [H|[(k & r & Hk & Hr & E)|(u & -> & Hu & He)]].
    - do 2 eexists. apply fi_malformed, H.
    - rewrite E. assert (Ha : any_comp k) by (right; exact Hk). destruct Hr as [->|(s & u & -> & Hs)].
      + rewrite app_nil_r. do 2 eexists. apply fi_last, Ha.
      + do 2 eexists. apply fi_sep; auto.
    - destruct He as (a & [->| ->]).
      + exists (qcomp a false), None. apply (fi_unclosed a false Hu).
      + exists (qcomp a true), None. apply (fi_unclosed a true Hu). }
  unfold multi_start in D.
  destruct (comp_cases (S (length (c :: t))) (c :: t) ltac:(lia)) as [H|[(k & H & E)|(k & s & r & H & Hs & E)]].
  - do 2 eexists. apply fi_last. left. split; auto. cbn [comp_head]. lia.
  - rewrite E. do 2 eexists. apply fi_backslash; auto. rewrite <- E. cbn [comp_head]. lia.
  - rewrite E. do 2 eexists. apply fi_sep; auto. left. split; auto. destruct k as [|x k]; [exact I|]. injection E as <- _. cbn [comp_head]. lia.
Qed.

(* ---------- groups ---------- *)

Theorem grouped_total : forall p, exists g r, grouped p g r.
Proof.
  intros p. assert (G : forall n p, length p < n -> exists g r, grouped p g r); [|apply (G (S (length p)) p); lia].
  clear p. induction n as [|n IH]; intros p Hn; [lia|]. destruct (first_total p) as (k & [[s r]|] & H); [|do 2 eexists; apply gr_last; eauto].
  destruct (first_sep _ _ _ _ H) as [Hs E]. destruct Hs as [->| ->]; [|do 2 eexists; eapply gr_pipe; eauto].
  destruct (IH r) as (g & u & Hg); [|do 2 eexists; eapply gr_dot; eauto].
  rewrite E, app_length in Hn. cbn [length] in Hn. lia.
Qed.
Theorem grouped_group p g r : grouped p g r -> exists rp, group p = (g, rp) /\
  match r with None => p_more rp = false | Some u => p_sep rp = 124%N /\ p_extra rp = u end.
Proof.
  induction 1 as [p k H|p k r H|p k b g r H Hg (rp & IH & Hr)]; rewrite group_eq; cbv zeta; destruct (first_next _ _ _ H) as [E1 E2].
  - rewrite E2, E1. cbn [N.eqb]. eexists. split; [reflexivity|]. unfold p_more. cbn [no_comp p_sep]. rewrite E2. reflexivity.
  - destruct E2 as [E2 E3]. rewrite E2, E1. cbn [N.eqb Pos.eqb]. eexists. split; [reflexivity|]. cbn [no_comp p_sep p_extra]. auto.
  - destruct E2 as [E2 E3]. rewrite E2, E1, E3. cbn [N.eqb Pos.eqb]. rewrite IH. eauto.
Qed.
Lemma grouped_unique p g r g' r' : grouped p g r -> grouped p g' r' -> g = g' /\ r = r'.
Proof.
  intros H H'. destruct (grouped_group _ _ _ H) as (rp & E & Hr), (grouped_group _ _ _ H') as (rp' & E' & Hr').
  rewrite E in E'. injection E' as -> ->. split; auto. destruct r, r'; auto.
  - destruct Hr, Hr'; congruence.
  - destruct Hr as [Hr _]. unfold p_more in Hr'. rewrite Hr in Hr'. discriminate.
  - destruct Hr' as [Hr' _]. unfold p_more in Hr. rewrite Hr' in Hr. discriminate.
Qed.
Theorem grouped_again p g r : grouped p g r -> grouped g g None.
Proof.
  induction 1 as [p k H|p k r H|p k b g r H Hg IH].
  - apply gr_last. eapply first_alone; eauto.
  - apply gr_last. eapply first_alone; eauto.
  - eapply gr_dot; [|exact IH]. eapply first_local; eauto.
Qed.
Lemma first_head p k o c t : first p k o -> p = c :: t -> c = 64%N \/ multi_start c -> exists t', k = c :: t'.
Proof.
  intros H E Hc. assert (Hm : forall b, malformed b -> b <> c :: t).
  { intros b Hb Eb. assert (b = 35%N :: tl b) as X by (destruct Hb; reflexivity). rewrite Eb in X. injection X as X. subst c.
    destruct Hc as [|[|]]; discriminate. }
  assert (Hk : k <> []).
  { inversion H as [k0 Hk|k0 s r Hk Hs|k0 Hb Hh|q all Hu|b Hb|p0 n a Hh|k0 s r n a Hs Hh|k0 r o0 q Ho Hmu Hcu|k0 s r o0 q Ho Hs Hmu]; subst.
    - congruence.
    - destruct k; [|discriminate]. cbn [app] in *. injection H0 as -> _. destruct Hs as [->| ->]; destruct Hc as [|[|]]; discriminate.
    - destruct k0; discriminate.
    - discriminate.
    - exfalso. exact (Hm _ Hb eq_refl).
    - congruence.
    - destruct k; [|discriminate]. cbn [app] in *. injection H0 as -> _. destruct Hs as [->| ->]; destruct Hc as [|[|]]; discriminate.
    - destruct (multi_shape _ _ _ _ Hmu) as (comp & E & Hn & _). rewrite E in H0. apply app_inv_tail in E. congruence.
    - destruct (multi_shape _ _ _ _ Hmu) as (comp & E & Hn & _). apply app_inv_tail in E. congruence. }
  destruct (first_prefix _ _ _ H) as (u & E2). destruct k as [|x k]; [congruence|]. exists k. rewrite E in E2. injection E2 as -> _. reflexivity.
Qed.
Lemma grouped_head p g r : grouped p g r -> stage_start p -> stage_start g.
Proof.
  intros H (c & t & E & Hc). destruct H as [p k H|p k r H|p k b g r H Hg]; destruct (first_head _ _ _ _ _ H E Hc) as (t' & ->);
    cbn [app]; do 2 eexists; (split; [reflexivity | auto]).
Qed.
Lemma grouped_prefix p g r : grouped p g r -> exists t, p = g ++ t.
Proof.
  induction 1 as [p k H|p k r H|p k b g r H Hg (t & IH)].
  - eapply first_prefix; eauto.
  - eapply first_prefix; eauto.
  - destruct (first_sep _ _ _ _ H) as [_ E]. exists t. rewrite E, IH, <- app_assoc. reflexivity.
Qed.
Lemma grouped_rest p g u : grouped p g (Some u) -> p = g ++ 124%N :: u.
Proof.
  intros H. remember (Some u) as o eqn:Eo. revert Eo. induction H as [p k H|p k r H|p k b g r H Hg IH]; intros Eo.
  - discriminate.
  - injection Eo as ->. eapply first_sep; eauto.
  - destruct (first_sep _ _ _ _ H) as [_ E]. rewrite E, (IH Eo), <- app_assoc. reflexivity.
Qed.

(* ---------- components ---------- *)

Lemma step_comp k s : comp_step k s -> k = step_text s.
Proof. destruct 1; reflexivity. Qed.
Lemma step_head k s c t : comp_step k s -> k = c :: t -> c <> 64%N /\ ~ multi_start c.
Proof.
  intros H E. destruct H as [k H| |q all]; unfold multi_start.
  - subst k. cbn [comp_head] in H. lia.
  - injection E as <- _. lia.
  - injection E as <- _. lia.
Qed.

Lemma head_start p n a r : head p n a r -> stage_start p.
Proof. intros H. exists 64%N, (tl p). split; auto. destruct H; reflexivity. Qed.
Lemma multi_begin p o q r : multi_start o -> multi p o q r -> stage_start p.
Proof. intros Ho H. exists o, (tl p). split; auto. destruct H; reflexivity. Qed.

Theorem spelled_total : forall p, ~ stage_start p -> (forall b, p <> 46%N :: 46%N :: b) ->
  (forall a b, p <> a ++ 46%N :: 46%N :: 46%N :: b) -> exists ss t, spelled p ss t.
Proof.
  intros p. assert (G : forall n p, length p < n -> ~ stage_start p -> (forall b, p <> 46%N :: 46%N :: b) ->
      (forall a b, p <> a ++ 46%N :: 46%N :: 46%N :: b) -> exists ss t, spelled p ss t);
    [|apply (G (S (length p)) p); lia].
  clear p. induction n as [|n IH]; intros p Hn Hp Hd2 Hd; [lia|]. destruct (first_total p) as (k & o & H).
  assert (Hs : exists s, comp_step k s).
  { inversion H as [k0 Hk|k0 s r Hk Hs|k0 Hb Hh|q all Hu|b Hb|p0 nm a Hh|k0 s r nm a Hs Hh|k0 r o0 q Ho Hmu Hcu|k0 s r o0 q Ho Hs Hmu]; subst.
    1, 2: destruct Hk as [[_ Hk]|[->|(q & all & _ & ->)]]; [exists (Name k); apply cs_name; auto | exists Hash; apply cs_hash | exists (Query q all); apply cs_query].
    - eexists. apply cs_name; auto.
    - eexists. apply cs_query.
    - eexists. apply (cs_name []). exact I.
    - exfalso. apply Hp. eapply head_start; eauto.
    - exfalso. apply Hp. eapply head_start; eauto.
    - exfalso. apply Hp. eapply multi_begin; eauto.
    - exfalso. apply Hp. eapply multi_begin; eauto. }
  destruct Hs as (s & Hs). destruct o as [[c b]|]; [|do 2 eexists; eapply sp_last; eauto].
  destruct (first_sep _ _ _ _ H) as [Hc E]. destruct Hc as [->| ->]; [|do 2 eexists; eapply sp_pipe; eauto].
  assert (D : stage_start b \/ ~ stage_start b).
  { destruct b as [|c t]; [right; intros (c & t & X & _); discriminate|].
    assert (D : (c = 64%N \/ multi_start c) \/ ~ (c = 64%N \/ multi_start c)) by (unfold multi_start; lia). destruct D as [D|D].
    - left. exists c, t. auto.
    - right. intros (c' & t' & X & Y). injection X as <- <-. auto. }
  destruct D as [D|D]; [do 2 eexists; eapply sp_into; eauto|].
  destruct (IH b) as (ss & t & Hb); auto.
  - rewrite E, app_length in Hn. cbn [length] in Hn. lia.
  - intros y X. apply (Hd k y). rewrite E, X. reflexivity.
  - intros x y X. apply (Hd (k ++ 46%N :: x) y). rewrite E, X, <- app_assoc. reflexivity.
  - do 2 eexists. eapply sp_dot; eauto. intros -> X. destruct b as [|c b]; [discriminate|]. injection X as ->. apply (Hd2 b). exact E.
Qed.

(** The group of components. *)
Definition tail_group (t t' : tail) (r : option bytes) : Prop :=
  match t with
  | Done => t' = Done /\ r = None
  | Pipe b => t' = Done /\ r = Some b
  | Into b => exists g, grouped b g r /\ t' = Into g
  end.
Lemma spelled_first p ss t : spelled p ss t -> exists k o s ss', first p k o /\ comp_step k s /\ ss = s :: ss'.
Proof. intros H. destruct H; eauto 10. Qed.
Theorem spelled_grouped p ss t : spelled p ss t -> exists g r t', grouped p g r /\ spelled g ss t' /\ tail_group t t' r /\
  exists u, p = g ++ u.
Proof.
  intros H. assert (G : exists g r t', grouped p g r /\ spelled g ss t' /\ tail_group t t' r).
  { induction H as [p k s H Hs|p k s b H Hs|p k s b H Hs Hb|p k s b ss t H Hs Hd Hb IH].
    - exists k, None, Done. split; [apply gr_last; auto|]. split; [|split; reflexivity]. eapply sp_last; eauto. eapply first_alone; eauto.
    - exists k, (Some b), Done. split; [apply gr_pipe; auto|]. split; [|split; reflexivity]. eapply sp_last; eauto. eapply first_alone; eauto.
    - destruct (grouped_total b) as (g & r & Hg). exists (k ++ 46%N :: g), r, (Into g). split; [eapply gr_dot; eauto|].
      split; [|exists g; auto]. eapply sp_into; eauto; [eapply first_local; eauto | eapply grouped_head; eauto].
    - destruct IH as (g & r & t' & Hg & Hsp & Ht). exists (k ++ 46%N :: g), r, t'. split; [eapply gr_dot; eauto|]. split; auto.
      apply (sp_dot _ k s g ss t'); auto; [eapply first_local; eauto|]. intros Hk X. apply Hd; auto. destruct (grouped_prefix _ _ _ Hg) as (u & ->).
      destruct g; [discriminate | exact X]. }
  destruct G as (g & r & t' & G1 & G2 & G3). exists g, r, t'. split; auto. split; auto. split; auto. eapply grouped_prefix; eauto.
Qed.

(** What the model knows of a component. *)
Lemma comp_kinds p k o s : first p k o -> comp_step k s ->
  (any_comp k /\ exists c x, pnext p = cpath k c x) \/
  (exists pat, pnext p = mkPath k true pat 0 0 [] /\ comp_head k) \/
  (exists q all, k = qcomp q all /\ unclosed (q ++ 41%N :: if all : bool then [35%N] else []) /\ pnext p = mkPath k false false 0 0 []) \/
  (k = [] /\ pnext p = path_default).
Proof.
  intros H Hs. pose proof (step_head k s) as Hh.
  inversion H as [k0 Hk|k0 c r Hk Hc|k0 Hb Hhd|q all Hu|b Hb|p0 nm a Hd|k0 c r nm a Hc Hd|k0 r o0 q Ho Hmu Hcu|k0 c r o0 q Ho Hc Hmu]; subst.
  - left. split; auto. exists 0%N, []. apply pnext_any_end; auto.
  - left. split; auto. exists c, r. apply pnext_any_sep; auto. apply is_sep_iff, Hc.
  - right. left. destruct (pnext_backslash k0 Hb Hhd) as (pat & E). eauto.
  - right. right. left. exists q, all. split; auto. split; auto. unfold qcomp. apply pnext_unclosed; auto using qcomp_ends.
  - right. right. right. split; auto. apply pnext_malformed, Hb.
  - exfalso. destruct (head_start _ _ _ _ Hd) as (c & t & -> & Hc). destruct (Hh c t Hs eq_refl) as [H1 H2]. tauto.
  - exfalso. destruct (head_start _ _ _ _ Hd) as (x & t & E & Hx). destruct (first_head _ _ _ _ _ H E Hx) as (t' & ->). destruct (Hh x t' Hs eq_refl) as [H1 H2]. tauto.
  - exfalso. destruct (multi_begin _ _ _ _ Ho Hmu) as (x & t & E & Hx). destruct (first_head _ _ _ _ _ H E Hx) as (t' & ->). destruct (Hh x t' Hs eq_refl) as [H1 H2]. tauto.
  - exfalso. destruct (multi_begin _ _ _ _ Ho Hmu) as (x & t & E & Hx). destruct (first_head _ _ _ _ _ H E Hx) as (t' & ->). destruct (Hh x t' Hs eq_refl) as [H1 H2]. tauto.
Qed.
Lemma comp_not_mod p k o s : first p k o -> comp_step k s -> is_modifier (pnext p) || is_multipath (pnext p) = false.
Proof.
  intros H Hs. destruct (first_next _ _ _ H) as [E _]. unfold is_modifier, is_multipath. rewrite E.
  destruct k as [|c t]; [reflexivity|]. destruct (step_head _ _ _ _ Hs eq_refl) as [H1 H2]. unfold multi_start in H2.
  change (nth_error (c :: t) 0) with (Some c). cbv match. change cAT with 64%N. change cLBRK with 91%N. change cLBRC with 123%N. lia.
Qed.
Lemma stage_is_mod b : stage_start b -> is_modifier (pnext b) || is_multipath (pnext b) = true.
Proof.
  intros (c & t & -> & Hc). destruct (first_total (c :: t)) as (k & o & H). destruct (first_next _ _ _ H) as [E _].
  destruct (first_head _ _ _ _ _ H eq_refl Hc) as (t' & ->). unfold is_modifier, is_multipath. rewrite E.
  change (nth_error (c :: t') 0) with (Some c). cbv match. change cAT with 64%N. change cLBRK with 91%N. change cLBRC with 123%N.
  unfold multi_start in Hc. lia.
Qed.
Lemma kmatch_name p k o b : first p k o -> comp_head k -> kmatch (pnext p) b = true <-> globm k (sdec b).
Proof.
  intros H Hh. destruct (comp_kinds p k o (Name k) H (cs_name k Hh)) as [(Ha & c & x & ->)|[(pat & -> & _)|[(q & all & -> & _ & ->)|(-> & ->)]]].
  - assert (Hc : component k).
    { destruct Ha as [Ha|[->|(q & all & _ & ->)]]; auto; cbn in Hh; exfalso; lia. }
    unfold cpath. rewrite cflags_comp by auto. apply kmatch_glob, Hc.
  - unfold kmatch. cbn [p_pat p_esc p_comp]. rewrite orb_true_r. unfold pm. destruct (pmatch_spec k (sdec b)) as (r & -> & Hr). exact Hr.
  - exfalso. cbn in Hh. lia.
  - unfold kmatch. cbn [path_default p_pat p_esc p_comp orb]. rewrite globm_plain by reflexivity. apply beq_eq.
Qed.
Lemma flags_other p k o s : first p k o -> comp_step k s -> (forall n, s <> Name n) -> p_pat (pnext p) || p_esc (pnext p) = false.
Proof.
  intros H Hs Hn. destruct (comp_kinds p k o s H Hs) as [(Ha & c & x & ->)|[(pat & -> & Hh)|[(q & all & -> & _ & ->)|(-> & ->)]]]; try reflexivity.
  - destruct Hs as [k Hk| |q al]; [destruct (Hn k eq_refl)| |]; reflexivity.
  - exfalso. destruct Hs as [k Hk| |q al]; [apply (Hn k eq_refl)| |]; cbn in Hh; lia.
Qed.

(** The query of a component can stand by itself. *)
Lemma qcomp_inj q all q' all' : qcomp q all = qcomp q' all' -> q = q' /\ all = all'.
Proof.
  unfold qcomp. intros E. injection E as E. destruct all, all'.
  - change (q ++ [41; 35]%N = q' ++ [41; 35]%N) in E. apply app_inv_tail in E. auto.
  - exfalso. change (q ++ [41%N] ++ [35%N] = q' ++ [41%N]) in E. rewrite app_assoc in E. apply app_inj_tail in E as [_ E]. discriminate.
  - exfalso. change (q ++ [41%N] = q' ++ [41%N] ++ [35%N]) in E. rewrite app_assoc in E. apply app_inj_tail in E as [_ E]. discriminate.
  - apply app_inv_tail in E. auto.
Qed.
Lemma query_alone p q all o : first p (qcomp q all) o -> pnext (qcomp q false) = cpath (qcomp q false) 0 [].
Proof.
  intros H. destruct (comp_kinds p _ o (Query q all) H (cs_query q all)) as [(Ha & c & x & _)|[(pat & _ & Hh)|[(q' & al & E & Hu & _)|(E & _)]]].
  - destruct Ha as [[_ Ha]|[E|(q' & al & Hb & E)]].
    + exfalso. cbn in Ha. lia.
    + discriminate.
    + apply qcomp_inj in E as [<- <-]. rewrite (pnext_any_end (qcomp q false)); [reflexivity|]. right. right. eauto.
  - exfalso. cbn in Hh. lia.
  - apply qcomp_inj in E as [<- <-]. unfold qcomp. apply pnext_unclosed; [|apply (qcomp_ends q false)].
    intros x c r Hx Hc E. apply (Hu x c (r ++ if all then [35%N] else []) Hx Hc). destruct all; [|rewrite app_nil_r; exact E].
    change (q ++ [41; 35]%N) with (q ++ [41%N] ++ [35%N]). rewrite app_assoc, E, <- app_assoc. reflexivity.
  - discriminate.
Qed.
