(** Where a path of names and indexes leads in a text that need not be JSON. *)
From Coq Require Import Arith Lia List NArith ZArith Bool Wf_nat.
From Verif Require Import P_Base P_Json P_Valid P_Str P_Glob P_Scan P_Each P_Doc P_Path P_LGet P_Parts P_Ext P_Value P_Num P_Key P_Head P_Find
  P_GetDoc P_GetArr P_Pipe P_Follow P_Decode P_Bad P_Rough M_Util M_Num M_Scan M_Value M_Path M_Get S_Json S_Str S_Decode S_Path S_Get S_Query S_Filter S_Follow S_Api S_Rough S_Look.
Import ListNotations.
Open Scope list_scope.

Scheme into_mut := Minimality for into Sort Prop
  with among_mut := Minimality for among Sort Prop.
Combined Scheme into_among from into_mut, among_mut.

(* ---------- names ---------- *)

Lemma hasbsl_in b : hasbsl b = true <-> In 92%N b.
Proof.
  unfold hasbsl. rewrite existsb_exists. split.
  - intros (x & H & E). apply N.eqb_eq in E. subst. exact H.
  - intros H. exists 92%N. split; [exact H|reflexivity].
Qed.
Lemma name_of_sdec b n : name_of b n <-> n = sdec b.
Proof.
  unfold name_of, sdec. destruct (hasbsl b) eqn:E.
  - apply hasbsl_in in E. split.
    + intros [(_ & H)|(H & _)]; [symmetry; apply decodes_un, H|contradiction].
    + intros ->. left. split; [exact E|]. destruct (decodes_total b) as (t & H). rewrite (decodes_un b t H). exact H.
  - assert (N : ~ In 92%N b) by (intros H; apply hasbsl_in in H; congruence). split.
    + intros [(H & _)|(_ & H)]; [contradiction|exact H].
    + intros ->. right. auto.
Qed.
Lemma kmatch_wants k s x b : component k -> kmatch (cpath k s x) b = true <-> wants k b.
Proof.
  intros Hk. unfold cpath. rewrite (cflags_comp k Hk), kmatch_glob by apply Hk. rewrite globm_bare. unfold wants. split.
  - intros H. exists (sdec b). split; [apply name_of_sdec; reflexivity|exact H].
  - intros (n & Hn & H). apply name_of_sdec in Hn. subst n. exact H.
Qed.
Lemma kmatch_path1 k ks b : component k -> kmatch (path1 k ks) b = true <-> wants k b.
Proof. intros Hk. destruct ks; apply kmatch_wants, Hk. Qed.

Lemma gap_ok c : colon_stop c = false <-> gap_byte c.
Proof. unfold colon_stop, gap_byte. rewrite negb_false_iff, orb_true_iff, N.leb_le, N.eqb_eq. tauto. Qed.
Lemma gap_stop c : ~ gap_byte c -> colon_stop c = true.
Proof. intros H. destruct (colon_stop c) eqn:E; auto. apply gap_ok in E. contradiction. Qed.

Lemma container_opens c r : container c = true <-> opens (c :: r).
Proof.
  unfold container, opens. rewrite orb_true_iff, !N.eqb_eq. split.
  - intros H. exists c, r. auto.
  - intros (c' & r' & [= <- <-] & H). exact H.
Qed.

Lemma member_split n s b m v : member n s b m v -> exists s', s = 34%N :: s' /\ exists r0, split_str s' = Some (b, r0) /\ dropw colon_stop r0 = v.
Proof.
  intros H. destruct H as [b g v Hb Hg Hv]. eexists. split; [apply quoted_app_cons|]. eexists. split; [apply quotable_split, Hb|].
  apply P_Rough.dropw_app.
  - eapply Forall_impl; [|exact Hg]. intros c Hc. apply gap_ok, Hc.
  - intros d r' E. apply gap_stop, (Hv d r' E).
Qed.
Lemma member_suf d n s b m v json : member n s b m v -> suf s json -> n = d + pos json s -> suf v json /\ m = d + pos json v /\ length v < length s.
Proof.
  intros H Hs Hn. destruct H as [b g v Hb Hg Hv]. rewrite app_assoc in Hs, Hn. split; [eapply suf_app_r; eauto|].
  pose proof (pos_app _ _ _ Hs) as Hp. split; [lia|]. rewrite app_assoc, app_length, app_length. unfold quoted. cbn [length]. lia.
Qed.
Lemma split_member n t b r0 : split_str t = Some (b, r0) -> exists m, member n (34%N :: t) b m (dropw colon_stop r0).
Proof.
  intros E. destruct (split_quotable _ t _ _ (Nat.lt_succ_diag_r _) E) as (Hq & ->).
  destruct (P_Rough.dropw_split colon_stop r0) as (g & Eg & Hg & Hv). eexists. rewrite Eg at 1.
  rewrite <- quoted_app_cons. apply member_at; [exact Hq| |].
  - eapply Forall_impl; [|exact Hg]. intros c Hc. apply gap_ok, Hc.
  - intros c r Ec Hc. apply gap_ok in Hc. rewrite (Hv c r Ec) in Hc. discriminate.
Qed.
Lemma split_none t : split_str t = None -> forall b r', quotable b -> 34%N :: t <> quoted b ++ r'.
Proof. intros E b r' Hb Ec. rewrite quoted_app_cons in Ec. injection Ec as ->. rewrite (quotable_split _ _ Hb) in E. discriminate. Qed.
Lemma none_split t : (forall b r', quotable b -> 34%N :: t <> quoted b ++ r') -> split_str t = None.
Proof.
  intros H. destruct (split_str t) as [(b, r)|] eqn:E; auto. exfalso.
  destruct (split_quotable _ t _ _ (Nat.lt_succ_diag_r _) E) as (Hq & ->). apply (H b r Hq). rewrite quoted_app_cons. reflexivity.
Qed.

(* ---------- what the search returns ---------- *)

Definition okc (k : bytes) : Prop := component k /\ k <> [].
(** Positions count from [d]. *)
Definition is_at (d : nat) (v : value) (p : piece) : Prop := let '(m, t, k) := p in d <= m /\ is_piece v (m - d, t, k).
Lemma at_fval d json l p : suf l json -> is_piece (fval (repeat 0%N d ++ json) l) p -> is_at d (fval json l) p.
Proof.
  intros Hs. destruct p as ((m, t), k). unfold fval. destruct (linfo l =? 0)%N.
  - intros (_ & _ & _ & H). discriminate.
  - intros (H1 & H2 & H3 & H4). cbn [mkslice v_index] in H3. injection H3 as <-.
    assert (E : pos (repeat 0%N d ++ json) l = d + pos json l).
    { apply suf_length in Hs. unfold pos. rewrite app_length, repeat_length. lia. }
    rewrite E in *. split; [lia|]. replace (d + pos json l - d) with (pos json l) by lia. repeat split; auto.
Qed.
Lemma suf_pre d l json : suf l json -> suf l (repeat 0%N d ++ json).
Proof. intros H. eapply suf_trans; [exact H|apply suf_app]. Qed.
Lemma pos_pre d l json : suf l json -> pos (repeat 0%N d ++ json) l = d + pos json l.
Proof. intros Hs. apply suf_length in Hs. unfold pos. rewrite app_length, repeat_length. lia. Qed.

Definition is_found (d : nat) (o : option (piece * list bytes)) (v : value) (p : path) (ks0 : list bytes) : Prop :=
  match o with
  | Some (pc, ks) => is_at d v pc /\ v_owned v = [] /\ left_of p ks /\ (exists a, a <> [] /\ ks0 = a ++ ks)
  | None => v = value_default /\ exists ks a, left_of p ks /\ ks0 = a ++ ks
  end.

Lemma okc_any k : okc k -> any_comp k.
Proof. intros [H _]. left. exact H. Qed.
Lemma path1_comp k ks : p_comp (path1 k ks) = k.
Proof. destruct ks; reflexivity. Qed.

Lemma larr_path1 json r k ks : okc k ->
  larr get json false (91%N :: r) (path1 k ks) =
  Ok (if (0 <=? comp_index k)%Z then nth (Z.to_nat (comp_index k)) (map (fval json) (items r)) value_default else value_default, path1 k ks).
Proof.
  intros [[_ Hh] Hn]. unfold larr, elems, fe_items. rewrite path1_comp. cbn [tl]. destruct k as [|c k]; [congruence|].
  destruct Hh as (_ & Hh & _). replace (c =? 35)%N with false by lia. reflexivity.
Qed.

Lemma fval_owned json l : v_owned (fval json l) = [].
Proof. unfold fval. destruct (linfo l =? 0)%N; reflexivity. Qed.

Lemma comp_index_none k : (forall i, ~ index_key k i) -> (0 <=? comp_index k)%Z = false.
Proof.
  intros H. destruct (Z.leb_spec 0 (comp_index k)); auto. exfalso. apply (H (Z.to_nat (comp_index k))). apply index_key_iff. lia.
Qed.

Lemma F2_nth_some {A B} (P : A -> B -> Prop) l1 l2 n b d : Forall2 P l1 l2 -> nth_error l2 n = Some b -> P (nth n l1 d) b /\ In (nth n l1 d) l1.
Proof.
  intros H. revert n. induction H as [|x y l1 l2 Hxy _ IH]; intros n E; [destruct n; discriminate|].
  destruct n as [|n]; cbn in E |- *; [injection E as <-; auto|]. destruct (IH n E). auto.
Qed.
Lemma F2_nth_none {A B} (P : A -> B -> Prop) l1 l2 n d : Forall2 P l1 l2 -> nth_error l2 n = None -> nth n l1 d = d.
Proof.
  intros H. revert n. induction H as [|x y l1 l2 Hxy _ IH]; intros n E; [destruct n; reflexivity|].
  destruct n as [|n]; cbn in E |- *; [discriminate|]. apply IH, E.
Qed.

Lemma tokens_open t kd r : token t kd r -> exists c t', t = c :: t' /\ forall s, container c = true <-> opens (t ++ s).
Proof.
  intros H. destruct (token_head t kd r H) as (c & t' & -> & _). exists c, t'. split; auto. intros s. apply container_opens.
Qed.
Lemma opens_app t r : t <> [] -> opens (t ++ r) <-> opens t.
Proof. destruct t as [|c t]; [congruence|]. intros _. cbn [app]. rewrite <- !container_opens. tauto. Qed.

Definition step_in (f : nat) (json s : bytes) (q : path) : R (value * path) :=
  match s with
  | c :: _ => if (c =? 123)%N then lobj f get json s q else larr get json false s q
  | [] => Err EPanic
  end.

Lemma found_sub d k ks o v p : is_found d o v p ks -> is_found d o v p (k :: ks).
Proof.
  destruct o as [(pc, ks')|]; cbn [is_found].
  - intros (H1 & H2 & H3 & a & Ha & ->). repeat (split; auto). exists (k :: a). split; [discriminate|reflexivity].
  - intros (H1 & ks' & a & H3 & ->). split; auto. exists ks', (k :: a). auto.
Qed.

Lemma not_mod_path1 k ks : okc k -> is_modifier (path1 k ks) || is_multipath (path1 k ks) = false.
Proof.
  intros Hk. assert (H : forall s x, is_modifier (cpath k s x) || is_multipath (cpath k s x) = false).
  { intros s x. destruct (any_not_mod k s x (okc_any _ Hk)) as [-> ->]. reflexivity. }
  destruct ks; apply H.
Qed.

Lemma bool_false (b : bool) : b <> true -> b = false.
Proof. destruct b; congruence. Qed.

Definition P_into (n : nat) (s : bytes) (ks : list bytes) (o : option (piece * list bytes)) : Prop :=
  forall d k ks' json f, ks = k :: ks' -> Forall okc ks -> suf s json -> n = d + pos json s -> length ks <= f ->
  exists v p, step_in f json s (path1 k ks') = Ok (v, p) /\ is_found d o v p ks.
Definition P_among (n : nat) (s : bytes) (ks : list bytes) (o : option (piece * list bytes)) : Prop :=
  forall d k ks' json f, ks = k :: ks' -> Forall okc ks -> suf s json -> n = d + pos json s -> length ks <= S f ->
  exists v p, lloop (lsub_of f get json (path1 k ks')) json s (path1 k ks') = Ok (v, p) /\ is_found d o v p ks.

Lemma lsub_enter d f json k k1 ks m v o : Forall okc (k :: k1 :: ks) -> suf v json -> m = d + pos json v -> length (k1 :: ks) <= f ->
  P_into m v (k1 :: ks) o ->
  exists x p, is_found d o x p (k1 :: ks) /\
  lsub_of f get json (path1 k (k1 :: ks)) v = Ok (if v_exists x then LReturn x p else LNone).
Proof.
  intros Hks Hs Hm Hf IH. inversion Hks as [|? ? Hk Hks']; subst. inversion Hks' as [|? ? Hk1 _]; subst.
  destruct (IH d k1 ks json f eq_refl Hks' Hs eq_refl Hf) as (x & p & E & Hx). exists x, p. split; [exact Hx|].
  unfold lsub_of. cbv zeta. change (p_extra (path1 k (k1 :: ks))) with (dotted (k1 :: ks)).
  rewrite pnext_path1 by (apply okc_any; exact Hk1). rewrite not_mod_path1 by exact Hk1. unfold step_in in E. rewrite E. reflexivity.
Qed.

Lemma none_found d p ks k : left_of p ks -> is_found d None value_default p (k :: ks).
Proof. intros H. split; auto. exists ks, [k]. auto. Qed.

Lemma fval_at d json t kd r : suf (t ++ r) json -> token t kd r -> is_at d (fval json (t ++ r)) (d + pos json (t ++ r), t, kd).
Proof.
  intros Hs Ht. split; [lia|]. replace (d + pos json (t ++ r) - d) with (pos json (t ++ r)) by lia. apply fval_piece; auto.
Qed.
Lemma items_suf : forall N l x, length l < N -> In x (items l) -> suf x l.
Proof.
  induction N as [|N IH]; intros l x HN Hx; [lia|]. destruct l as [|c r]; [contradiction|]. rewrite items_cons in Hx.
  destruct (skip_sep c); [eapply suf_trans; [apply (IH r x)|apply suf_cons]; auto; cbn in HN; lia|].
  destruct (end_item c); [contradiction|]. destruct (lrest_suf (c :: r)) as [Hl1 Hl2]. specialize (Hl2 ltac:(discriminate)).
  assert (T : In x (items (lrest (c :: r))) -> suf x (c :: r)).
  { intros Hx'. eapply suf_trans; [apply (IH (lrest (c :: r)) x)|]; auto; cbn in HN, Hl2; lia. }
  destruct (v_exists (fval (c :: r) (c :: r))); cbn [In] in Hx; auto. destruct Hx as [<-|Hx]; auto using suf_refl.
Qed.
Lemma pieces_at d json n r ps : pieces n r ps -> suf r json -> n = d + pos json r -> Forall2 (is_at d) (map (fval json) (items r)) ps.
Proof.
  intros Hps Hs Hn. pose proof (pieces_items (repeat 0%N d ++ json) n r ps Hps (suf_pre d _ _ Hs) ltac:(rewrite pos_pre; auto)) as HF.
  assert (HI : forall x, In x (items r) -> suf x json).
  { intros x Hx. eapply suf_trans; [eapply items_suf; eauto|exact Hs]. }
  clear - HF HI. revert ps HF. induction (items r) as [|x l IH]; intros ps HF; inversion HF; subst; constructor.
  - apply at_fval; auto. apply HI. left; auto.
  - apply IH; auto. intros z Hz. apply HI. right; auto.
Qed.

Lemma search : (forall n s ks o, into n s ks o -> P_into n s ks o) /\ (forall n s ks o, among n s ks o -> P_among n s ks o).
Proof.
  apply into_among; unfold P_into, P_among.
  - intros n r ks o _ IH d k ks' json f -> Hks Hs Hn Hf. cbn [step_in N.eqb Pos.eqb]. destruct f as [|f]; [cbn in Hf; lia|].
    pose proof (suf_length _ _ Hs) as Hl. cbn [length] in Hl. rewrite lobj_eq by lia.
    apply IH; auto; [eapply suf_tail; eauto|]. rewrite <- (pos_S _ _ _ Hs). lia.
  - intros n r k0 i ks ps Hi Hps d k ks' json f [= <- <-] Hks Hs Hn Hf. cbn [step_in N.eqb Pos.eqb].
    inversion Hks as [|? ? Hk _]; subst. rewrite larr_path1 by exact Hk. apply index_key_iff in Hi. rewrite Hi.
    replace (0 <=? Z.of_nat i)%Z with true by lia. rewrite Nat2Z.id. do 2 eexists. split; [reflexivity|].
    pose proof (suf_tail _ _ _ Hs) as Hs'. pose proof (pos_S _ _ _ Hs) as HS.
    assert (HF : Forall2 (is_at d) (map (fval json) (items r)) ps).
    { apply pieces_at with (S (d + pos json (91%N :: r))); auto; lia. }
    destruct (nth_error ps i) as [pc|] eqn:E; cbn [option_map].
    + destruct (F2_nth_some _ _ _ _ _ value_default HF E) as (H1 & H2). cbn [is_found]. split; [exact H1|]. split.
      { apply in_map_iff in H2 as (l & <- & _). apply fval_owned. }
      split; [apply left_path1|]. exists [k0]. split; [discriminate|reflexivity].
    + rewrite (F2_nth_none _ _ _ _ value_default HF E). apply none_found, left_path1.
  - intros n r k0 ks Hi d k ks' json f [= <- <-] Hks Hs Hn Hf. cbn [step_in N.eqb Pos.eqb].
    inversion Hks as [|? ? Hk _]; subst. rewrite larr_path1 by exact Hk. rewrite (comp_index_none _ Hi). do 2 eexists. split; [reflexivity|].
    apply none_found, left_path1.
  - intros n ks d k ks' json f -> Hks Hs Hn Hf. rewrite lloop_nil. do 2 eexists. split; [reflexivity|]. apply none_found, left_path1.
  - intros n r ks d k ks' json f -> Hks Hs Hn Hf. rewrite lloop_brace. do 2 eexists. split; [reflexivity|]. apply none_found, left_path1.
  - intros n c r ks o H1 H2 _ IH d k ks' json f -> Hks Hs Hn Hf. rewrite lloop_skip by auto. apply IH; auto; [eapply suf_tail; eauto|].
    rewrite <- (pos_S _ _ _ Hs). lia.
  - intros n r ks H d k ks' json f -> Hks Hs Hn Hf. rewrite lloop_str. rewrite (none_split _ H). do 2 eexists. split; [reflexivity|].
    apply none_found, left_path1.
  - intros n s b m t kd r k0 ks0 o Hm Hno Ht _ IH d k ks json f [= <- <-] Hks Hs Hn Hf.
    inversion Hks as [|? ? Hk _]; subst n. destruct (member_suf d _ _ _ _ _ json Hm Hs eq_refl) as (Hv & -> & _).
    destruct (member_split _ _ _ _ _ Hm) as (s' & -> & r0 & Es & Ed). rewrite lloop_str, Es, Ed.
    destruct (token_head t kd r Ht) as (c & t' & Et & _). rewrite Et in *. cbn [app] in *.
    replace (kmatch (path1 k0 ks0) b) with false by (symmetry; apply bool_false; rewrite kmatch_path1 by apply Hk; exact Hno).
    cbn [andb]. cbv zeta. pose proof (lrest_token _ _ _ Ht) as L. cbn [app] in L. rewrite L. apply IH; auto.
    + change (c :: t' ++ r) with ((c :: t') ++ r) in Hv. eapply suf_app_r; eauto.
    + change (c :: t' ++ r) with ((c :: t') ++ r) in *. rewrite <- (pos_app _ _ _ Hv). lia.
  - intros n s b m t kd r k0 ks0 Hm Ha Ht Hor d k ks json f [= <- <-] Hks Hs Hn Hf.
    inversion Hks as [|? ? Hk _]; subst n. destruct (member_suf d _ _ _ _ _ json Hm Hs eq_refl) as (Hv & -> & _).
    destruct (member_split _ _ _ _ _ Hm) as (s' & -> & r0 & Es & Ed). rewrite lloop_str, Es, Ed.
    pose proof (fval_at d json _ kd r Hv Ht) as Hp. assert (Hex : v_exists (fval json (t ++ r)) = true) by apply Hp.
    destruct (tokens_open t kd r Ht) as (c & t' & Et & Hop). rewrite Et in *. cbn [app] in *.
    replace (kmatch (path1 k0 ks0) b) with true by (symmetry; apply kmatch_path1; [apply Hk|exact Ha]).
    rewrite Hex. cbn [andb]. cbv zeta.
    assert (E : ((p_sep (path1 k0 ks0) =? 46)%N && container c) = false).
    { destruct Hor as [->|Hor]; [reflexivity|]. destruct (container c) eqn:Ec; [|apply andb_false_r]. exfalso. apply Hor. apply container_opens. exact Ec. }
    rewrite E. do 2 eexists. split; [reflexivity|]. cbn [is_found]. split; [exact Hp|]. split; [apply fval_owned|]. split; [apply left_path1|].
    exists [k0]. split; [discriminate|reflexivity].
  - intros n s b m v k0 ks0 x Hm Ha Hne Hop _ IH d k ks json f [= <- <-] Hks Hs Hn Hf.
    inversion Hks as [|? ? Hk Hks']; subst n. destruct (member_suf d _ _ _ _ _ json Hm Hs eq_refl) as (Hv & -> & _).
    destruct (member_split _ _ _ _ _ Hm) as (s' & -> & r0 & Es & Ed). rewrite lloop_str, Es, Ed.
    destruct ks0 as [|k1 ks0]; [congruence|].
    destruct (lsub_enter d f json k0 k1 ks0 _ v (Some x) Hks Hv eq_refl ltac:(cbn [length] in *; lia) IH) as (y & p & Hy & E).
    destruct Hop as (c & t' & -> & Hc).
    replace (kmatch (path1 k0 (k1 :: ks0)) b) with true by (symmetry; apply kmatch_path1; [apply Hk|exact Ha]).
    replace (container c) with true by (symmetry; apply (container_opens c t'); exists c, t'; auto).
    change (p_sep (path1 k0 (k1 :: ks0)) =? 46)%N with true. cbn [andb]. cbv zeta. rewrite E. cbn [bind].
    destruct x as (((mm, tt), kk), rest). assert (Ex : v_exists y = true) by (destruct Hy as ((_ & _ & _ & _ & Hy) & _); exact Hy). rewrite Ex.
    do 2 eexists. split; [reflexivity|]. apply found_sub, Hy.
  - intros n s b m v k0 ks0 o Hm Ha Hne Hop _ IH _ IH2 d k ks json f [= <- <-] Hks Hs Hn Hf.
    inversion Hks as [|? ? Hk Hks']; subst n. destruct (member_suf d _ _ _ _ _ json Hm Hs eq_refl) as (Hv & -> & _).
    destruct (member_split _ _ _ _ _ Hm) as (s' & -> & r0 & Es & Ed). rewrite lloop_str, Es, Ed.
    destruct ks0 as [|k1 ks0]; [congruence|].
    destruct (lsub_enter d f json k0 k1 ks0 _ v None Hks Hv eq_refl ltac:(cbn [length] in *; lia) IH) as (y & p & Hy & E).
    destruct Hop as (c & t' & -> & Hc).
    replace (kmatch (path1 k0 (k1 :: ks0)) b) with true by (symmetry; apply kmatch_path1; [apply Hk|exact Ha]).
    replace (container c) with true by (symmetry; apply (container_opens c t'); exists c, t'; auto).
    change (p_sep (path1 k0 (k1 :: ks0)) =? 46)%N with true. cbn [andb]. cbv zeta. rewrite E. cbn [bind].
    destruct Hy as (-> & _). change (v_exists value_default) with false. cbv match. apply IH2; auto.
  - intros n s b m v k0 ks0 Hm Hor Hno d k ks json f [= <- <-] Hks Hs Hn Hf.
    inversion Hks as [|? ? Hk Hks']; subst n. destruct (member_suf d _ _ _ _ _ json Hm Hs eq_refl) as (Hv & -> & _).
    destruct (member_split _ _ _ _ _ Hm) as (s' & -> & r0 & Es & Ed). rewrite lloop_str, Es, Ed.
    exists value_default, (path1 k0 ks0). split; [|apply none_found, left_path1].
    destruct v as [|c t']; [reflexivity|]. destruct (no_token json (c :: t') Hv Hno) as (N1 & N2). rewrite N1, N2, andb_false_r. cbv zeta. rewrite lloop_nil.
    destruct (kmatch (path1 k0 ks0) b && (p_sep (path1 k0 ks0) =? 46)%N && container c) eqn:E; [|reflexivity].
    exfalso. apply Hor. apply andb_prop in E as [E E3]. apply andb_prop in E as [E1 E2]. split; [apply (kmatch_path1 k0 ks0 b); [apply Hk|exact E1]|].
    split; [intros ->; discriminate|]. apply (container_opens c t'). exact E3.
Qed.

(* ---------- the search comes to an end ---------- *)

Lemma wants_dec k b : component k -> wants k b \/ ~ wants k b.
Proof.
  intros Hk. destruct (kmatch (cpath k 0 []) b) eqn:E; [left|right].
  - apply (kmatch_wants k 0 [] b Hk), E.
  - intros H. apply (kmatch_wants k 0 [] b Hk) in H. congruence.
Qed.
Lemma opens_dec v : opens v \/ ~ opens v.
Proof.
  destruct v as [|c r]; [right; intros (c & r & E & _); discriminate|].
  destruct (container c) eqn:E; [left|right]; rewrite <- (container_opens c r); congruence.
Qed.
Lemma token_dec v : (exists t kd r, v = t ++ r /\ token t kd r) \/ no_piece v.
Proof.
  pose proof (flat_token v) as P. destruct (lflat v) as ((t, i), r) eqn:E. destruct P as [(-> & _ & H & _)|(-> & ->)].
  - left. eauto.
  - right. intros t k r Ht El. destruct (token_flat t k r Ht) as (i' & E' & _). destruct (token_head t k r Ht) as (c' & t' & -> & _).
    rewrite <- El, E in E'. discriminate.
Qed.

Definition shrinks (ks : list bytes) (o : option (piece * list bytes)) : Prop :=
  match o with Some (_, ks') => length ks' < length ks /\ (Forall okc ks -> Forall okc ks') | None => True end.

Lemma index_dec k : (exists i, index_key k i) \/ forall i, ~ index_key k i.
Proof.
  destruct (Z.leb_spec 0 (comp_index k)).
  - left. exists (Z.to_nat (comp_index k)). apply index_key_iff. lia.
  - right. intros i Hi. apply index_key_iff in Hi. lia.
Qed.

Lemma search_total : forall ks, Forall okc ks -> ks <> [] ->
  (forall n s, exists o, among n s ks o /\ shrinks ks o) /\ (forall n v, opens v -> exists o, into n v ks o /\ shrinks ks o).
Proof.
  induction ks as [|k ks IHk]; intros Hks Hne; [congruence|]. inversion Hks as [|? ? Hk Hks']; subst.
  assert (A : forall N s n, length s < N -> exists o, among n s (k :: ks) o /\ shrinks (k :: ks) o).
  { induction N as [|N IH]; intros s n HN; [lia|]. destruct s as [|c s']; [exists None; split; [constructor|exact I]|].
    destruct (N.eq_dec c 125) as [->|Hc1]; [exists None; split; [constructor|exact I]|].
    destruct (N.eq_dec c 34) as [->|Hc2].
    2:{ destruct (IH s' (S n)) as (o & Ho & Hsh); [cbn in HN; lia|]. exists o. split; [apply am_skip; auto|exact Hsh]. }
    destruct (split_str s') as [(b, r0)|] eqn:Es; [|exists None; split; [apply am_open_name, split_none, Es|exact I]].
    destruct (split_member n s' b r0 Es) as (m & Hm). set (v := dropw colon_stop r0) in *. clearbody v.
    assert (Hlv : length v < length (34%N :: s')).
    { destruct (member_suf n n _ _ _ _ (34%N :: s') Hm) as (_ & _ & H); [apply suf_refl|rewrite pos_refl; lia|exact H]. }
    destruct (wants_dec k b (proj1 Hk)) as [Ha|Ha].
    - destruct ks as [|k1 ks].
      + destruct (token_dec v) as [(t & kd & r & -> & Ht)|Hno].
        * eexists. split; [eapply am_found; eauto|]. cbn. split; [lia|intros _; constructor].
        * exists None. split; [eapply am_no_value; eauto; intros (_ & H & _); congruence|exact I].
      + destruct (IHk Hks' ltac:(discriminate)) as (_ & IHi). destruct (opens_dec v) as [Hop|Hop].
        * destruct (IHi m v Hop) as (o & Ho & Hsh). destruct o as [(pc, rest)|].
          -- exists (Some (pc, rest)). split; [eapply am_enter; eauto; discriminate|]. destruct Hsh as (H1 & H2). split; [cbn in *; lia|]. intros _. auto.
          -- destruct (IH v m) as (o & Ho' & Hsh'); [lia|]. exists o. split; [eapply am_back; eauto; discriminate|exact Hsh'].
        * destruct (token_dec v) as [(t & kd & r & -> & Ht)|Hno].
          -- eexists. split; [eapply am_found; eauto|].
             ++ right. destruct (token_head t kd r Ht) as (c & t' & Et & _). rewrite <- (opens_app t r) by (rewrite Et; discriminate). exact Hop.
             ++ split; [cbn; lia|]. intros _. exact Hks'.
          -- exists None. split; [eapply am_no_value; eauto; tauto|exact I].
    - destruct (token_dec v) as [(t & kd & r & -> & Ht)|Hno].
      + destruct (IH r (m + length t)) as (o & Ho & Hsh); [rewrite app_length in Hlv; lia|]. exists o. split; [eapply am_other; eauto|exact Hsh].
      + exists None. split; [eapply am_no_value; eauto; tauto|exact I]. }
  split; [intros n s; apply (A (S (length s)) s n); lia|].
  intros n v (c & r & -> & [->| ->]).
  - destruct (A (S (length r)) r (S n)) as (o & Ho & Hsh); [lia|]. exists o. split; [apply in_object, Ho|exact Hsh].
  - destruct (index_dec k) as [(i & Hi)|Hi].
    + destruct (pieces_total (S n) r) as (ps & Hps). eexists. split; [eapply in_array; eauto|].
      destruct (nth_error ps i); cbn; auto.
    + exists None. split; [apply in_array_name, Hi|exact I].
Qed.

Lemma split_blanks (s : bytes) : exists w s', s = w ++ s' /\ Forall (fun c => (c <= 0x20)%N) w /\ forall c r, s' = c :: r -> (0x20 < c)%N.
Proof.
  destruct (P_Rough.dropw_split above_sp s) as (w & E & F & G). exists w, (dropw above_sp s). split; [exact E|]. split.
  - eapply Forall_impl; [|exact F]. intros c. unfold above_sp. lia.
  - intros c r Ec. specialize (G c r Ec). unfold above_sp in G. lia.
Qed.

Theorem look_total : forall ks n s, Forall okc ks -> ks <> [] -> exists o, look n s ks o.
Proof.
  intros ks. induction ks as [ks IH] using (induction_ltof1 _ (@length bytes)). unfold ltof in IH. intros n s Hks Hne.
  destruct (split_blanks s) as (w & s' & -> & Hw & Hs'). destruct (opens_dec s') as [Hop|Hop].
  - destruct (search_total ks Hks Hne) as (_ & T). destruct (T (n + length w) s' Hop) as (o & Ho & Hsh).
    destruct o as [(((m, t), kd), [|k' ks'])|].
    + eexists. eapply lk_found; eauto.
    + destruct Hsh as (Hl & Hok). destruct (IH (k' :: ks') Hl m t (Hok Hks) ltac:(discriminate)) as (o & Ho'). exists o. eapply lk_on; eauto.
    + eexists. eapply lk_nowhere; eauto.
  - exists None. apply lk_scalar; auto.
Qed.

(* ---------- get ---------- *)

Lemma get_comps json c cs : Forall okc (c :: cs) ->
  get json (dotted (c :: cs)) =
    ('(res, p) <- lstart get json (path1 c cs) ;; if negb (p_more p) then Ok res else v_get res (p_extra p)).
Proof.
  intros H. inversion H as [|? ? Hk Hks]; subst. rewrite get_spec.
  assert (El : split_lines (dotted (c :: cs)) = (false, dotted (c :: cs))).
  { destruct cs as [|c1 cs]; [apply any_split_end, okc_any, Hk|]. rewrite dotted_cons by discriminate.
    apply any_split; [apply okc_any, Hk | apply (proj2 Hk)]. }
  rewrite El. rewrite pnext_path1 by (apply okc_any, Hk). unfold lget_first.
  pose proof (not_mod_path1 c cs Hk) as Hm. apply orb_false_iff in Hm as [-> ->]. reflexivity.
Qed.

Lemma get_nothing : forall cs, Forall okc cs -> cs <> [] -> exists v, get [] (dotted cs) = Ok v /\ v_exists v = false.
Proof.
  induction cs as [|c cs IH]; intros H Hne; [congruence|]. rewrite (get_comps [] c cs H). unfold lstart. cbn [dropw bind].
  inversion H as [|? ? Hk Hks]; subst. destruct cs as [|c1 cs].
  - cbn [path1 p_more cpath p_sep N.eqb negb]. eauto.
  - change (negb (p_more (path1 c (c1 :: cs)))) with false. cbv match. change (p_extra (path1 c (c1 :: cs))) with (dotted (c1 :: cs)).
    unfold v_get, v_get_with. cbn [value_default v_slice v_owned v_index]. destruct (IH Hks ltac:(discriminate)) as (v & -> & Hv).
    cbn [bind]. eexists. split; [reflexivity|]. apply not_exists_owned; auto.
Qed.

Lemma dotted_len (cs : list bytes) : length cs <= S (length (dotted cs)).
Proof.
  induction cs as [|k2 ks IH]; [cbn; lia|]. destruct ks as [|k3 ks]; [cbn; lia|].
  rewrite dotted_cons by discriminate. rewrite app_length. cbn [length] in *. lia.
Qed.

Lemma rest_nothing p ks : Forall okc ks -> left_of p ks ->
  exists v, (if negb (p_more p) then Ok value_default else v_get value_default (p_extra p)) = Ok v /\ v_exists v = false.
Proof.
  intros Hks Hleft. destruct ks as [|d0 ds].
  - cbn [left_of] in Hleft. rewrite Hleft. eexists. split; reflexivity.
  - destruct Hleft as [Hm He]. rewrite Hm, He. cbn [negb]. unfold v_get, v_get_with. cbn [value_default v_slice v_owned v_index].
    destruct (get_nothing _ Hks ltac:(discriminate)) as (v & -> & Hv). cbn [bind]. eexists. split; [reflexivity|].
    apply not_exists_owned; auto.
Qed.

(** Where the search starts. *)
Lemma search_at n w s k ks o : Forall okc (k :: ks) -> Forall (fun c => (c <= 0x20)%N) w -> into (n + length w) s (k :: ks) o ->
  exists v p, lstart get (w ++ s) (path1 k ks) = Ok (v, p) /\ is_found n o v p (k :: ks).
Proof.
  intros Hks Hw H. assert (Hop : opens s).
  { destruct H; [exists 123%N|exists 91%N|exists 91%N]; eexists; split; auto. }
  destruct Hop as (c & r & -> & Hc). unfold lstart.
  rewrite (P_Rough.dropw_ws w (c :: r)) by (auto; intros c' r' [= <- <-]; destruct Hc; subst; reflexivity).
  assert (Hp : n + length w = n + pos (w ++ c :: r) (c :: r)).
  { unfold pos. rewrite app_length. cbn [length]. lia. }
  pose proof (proj1 search _ _ _ _ H n k ks (w ++ c :: r) (S (S (length (p_extra (path1 k ks))))) eq_refl Hks (suf_app _ _) Hp) as S0.
  assert (Hl : length (k :: ks) <= S (S (length (p_extra (path1 k ks))))).
  { destruct ks as [|k1 ks]; [cbn; lia|]. change (p_extra (path1 k (k1 :: ks))) with (dotted (k1 :: ks)).
    pose proof (dotted_len (k1 :: ks)). cbn [length] in *. lia. }
  specialize (S0 Hl). unfold step_in in S0. destruct Hc as [->| ->]; exact S0.
Qed.

Definition looked (n : nat) (o : option piece) (v : value) : Prop :=
  match o with Some p => is_at n v p /\ v_owned v = [] | None => v_exists v = false end.

Lemma rest_okc a (ks : list bytes) : Forall okc (a ++ ks) -> Forall okc ks.
Proof. intros H. apply Forall_app in H. apply H. Qed.

Theorem look_get_at : forall n s ks o, look n s ks o -> Forall okc ks -> ks <> [] -> exists v, get s (dotted ks) = Ok v /\ looked n o v.
Proof.
  induction 1 as [n w s ks p Hw Hi|n w s ks m t kd k' ks' o Hw Hi Hl IH|n w s ks Hw Hi|n w s ks Hw Hs Hop]; intros Hks Hne;
    (destruct ks as [|k ks]; [congruence|]); rewrite get_comps by exact Hks.
  - destruct (search_at n w s k ks _ Hks Hw Hi) as (v & p' & -> & H1 & H2 & H3 & _). cbn [bind left_of] in *. rewrite H3.
    eexists. split; [reflexivity|]. split; auto.
  - destruct (search_at n w s k ks _ Hks Hw Hi) as (v & p' & -> & (H0 & H1) & H2 & (H3 & H4) & a & Ha & Ea). cbn [bind]. rewrite H3, H4. cbn [negb].
    rewrite Ea in Hks. destruct (IH (rest_okc _ _ Hks) ltac:(discriminate)) as (x & Ex & Hx).
    destruct H1 as (J1 & J2 & J3 & J4). unfold v_get, v_get_with. unfold v_json in J1. rewrite H2 in J1.
    unfold v_exists, v_json in J4. rewrite H2, J1 in J4. rewrite J1. destruct t as [|c t]; [discriminate|]. rewrite Ex. cbn [bind]. rewrite J3.
    eexists. split; [reflexivity|]. destruct o as [((m', t'), kd')|]; [|exact Hx].
    destruct Hx as ((K0 & K1 & K2 & K3 & K4) & K5). split; [|exact K5]. split; [lia|]. repeat split; auto.
    cbn [add_index v_index]. rewrite K3. f_equal. lia.
  - destruct (search_at n w s k ks _ Hks Hw Hi) as (v & p' & -> & -> & rest & a & H3 & Ea). cbn [bind]. rewrite Ea in Hks.
    destruct (rest_nothing p' rest (rest_okc _ _ Hks) H3) as (x & -> & Hx). eexists. split; [reflexivity|exact Hx].
  - assert (El : lstart get (w ++ s) (path1 k ks) = Ok (value_default, path1 k ks)).
    { unfold lstart. rewrite (P_Rough.dropw_ws w s) by auto. destruct s as [|c r]; auto. destruct (container c) eqn:Ec.
      - exfalso. apply Hop. apply (container_opens c r), Ec.
      - unfold container in Ec. apply orb_false_iff in Ec as [-> ->]. reflexivity. }
    rewrite El. cbn [bind]. inversion Hks as [|? ? _ Hks']; subst.
    destruct (rest_nothing (path1 k ks) ks Hks' (left_path1 k ks)) as (x & -> & Hx). eexists. split; [reflexivity|exact Hx].
Qed.

(** There is one outcome. *)
Theorem look_unique n s ks o o' : Forall okc ks -> ks <> [] -> look n s ks o -> look n s ks o' -> o = o'.
Proof.
  intros Hks Hne H H'. destruct (look_get_at n s ks o H Hks Hne) as (v & E & Hv). destruct (look_get_at n s ks o' H' Hks Hne) as (v' & E' & Hv').
  rewrite E in E'. injection E' as <-.
  destruct o as [((m, t), k)|], o' as [((m', t'), k')|]; cbn [looked] in *; auto.
  - destruct Hv as ((H1 & H2 & H3 & H4 & _) & _), Hv' as ((H1' & H2' & H3' & H4' & _) & _). rewrite H4 in H4'. injection H4' as E'.
    repeat f_equal; try congruence. lia.
  - destruct Hv as ((_ & _ & _ & _ & H1) & _). congruence.
  - destruct Hv' as ((_ & _ & _ & _ & H1) & _). congruence.
Qed.

Theorem look_one s ks : Forall component ks -> Forall (fun k => k <> []) ks -> ks <> [] ->
  exists o, look 0 s ks o /\ (forall o', look 0 s ks o' -> o' = o).
Proof.
  intros H1 H2 Hne. assert (Hks : Forall okc ks).
  { clear Hne. induction H1; inversion H2; subst; constructor; auto. split; auto. }
  destruct (look_total ks 0 s Hks Hne) as (o & Ho). exists o. split; [exact Ho|]. intros o' Ho'. eapply look_unique; eauto.
Qed.
Theorem look_get s ks o : Forall component ks -> Forall (fun k => k <> []) ks -> ks <> [] -> look 0 s ks o ->
  exists v, get s (dotted ks) = Ok v /\ match o with Some p => is_piece v p | None => v_exists v = false end.
Proof.
  intros H1 H2 Hne H. assert (Hks : Forall okc ks).
  { clear Hne H. induction H1; inversion H2; subst; constructor; auto. split; auto. }
  destruct (look_get_at 0 s ks o H Hks Hne) as (v & E & Hv). exists v. split; [exact E|].
  destruct o as [((m, t), k)|]; [|exact Hv]. destruct Hv as ((_ & Hv) & _). rewrite Nat.sub_0_r in Hv. exact Hv.
Qed.

(* ---------- the hash and queries ---------- *)

Definition slice_at (v : value) (p : piece) : Prop := is_piece v p /\ v_owned v = [].

Lemma lstart_open w r p : Forall (fun c => (c <= 0x20)%N) w -> lstart get (w ++ 91%N :: r) p = larr get (w ++ 91%N :: r) false (91%N :: r) p.
Proof.
  intros Hw. unfold lstart. rewrite (P_Rough.dropw_ws w (91%N :: r)); [reflexivity|exact Hw|]. intros c t [= <- _]. reflexivity.
Qed.
Lemma elems_pieces w r (ps : list piece) : pieces (S (length w)) r ps -> Forall2 slice_at (elems (w ++ 91%N :: r) false (91%N :: r)) ps.
Proof.
  intros H. unfold elems, fe_items. cbn [tl]. assert (Hs : suf (91%N :: r) (w ++ 91%N :: r)) by apply suf_app.
  assert (HF : Forall2 is_piece (map (fval (w ++ 91%N :: r)) (items r)) ps).
  { eapply pieces_items; [exact H|eapply suf_tail; eauto|]. unfold pos. rewrite app_length. cbn [length]. lia. }
  revert HF. generalize ps. induction (items r) as [|x l IH]; intros qs HF; inversion HF; subst; constructor.
  - split; [auto|apply fval_owned].
  - apply IH; auto.
Qed.

Theorem look_count w r (ps : list piece) : Forall (fun c => (c <= 0x20)%N) w -> pieces (S (length w)) r ps ->
  exists v, get (w ++ 91%N :: r) [35%N] = Ok v /\ shows v (CNum (v_json v)) /\ int_literal (v_json v) (Z.of_nat (length ps)) /\ number (v_json v).
Proof.
  intros Hw H. apply elems_pieces in H. apply F2_length in H.
  rewrite (get_any_end _ [35%N]) by (right; left; reflexivity). rewrite lstart_open by auto.
  unfold larr. cbn [cpath p_comp N.eqb Pos.eqb p_sep bind p_more negb]. rewrite H.
  change (p_more (cpath [35%N] 0 [])) with false. cbn [negb].
  destruct (dec_of_nat_spec (length ps)) as [Hl Hn]. eexists. split; [reflexivity|].
  assert (Hj : v_json (mkowned (dec_of_nat (length ps)) INFO_NUMBER None) = dec_of_nat (length ps)).
  { unfold v_json. cbn [mkowned v_owned v_slice]. destruct (dec_of_nat (length ps)); reflexivity. }
  rewrite Hj. split; auto. destruct (number_head _ Hn) as (h & t & E & _). split.
  - unfold v_exists. rewrite Hj, E. reflexivity.
  - exact Hj.
  - reflexivity.
  - unfold v_str. change (v_kind (mkowned (dec_of_nat (length ps)) INFO_NUMBER None)) with KNumber. cbv match. rewrite Hj. reflexivity.
Qed.

Lemma v_get_slice g v p q : slice_at v p -> v_get_with g v q = (r <- g (piece_text p) q ;; Ok (add_index (v_index v) r)).
Proof.
  destruct p as ((m, t), k). intros ((H1 & _ & _ & H4) & H5). unfold v_get_with, piece_text. cbn [fst snd].
  unfold v_exists, v_json in *. rewrite H5 in *. rewrite H1 in *. destruct t; [discriminate|reflexivity].
Qed.

Lemma pieces_results {A} (F : value -> R A) (G : piece -> option nat -> A) xs ps : Forall2 slice_at xs ps ->
  (forall x p, In p ps -> slice_at x p -> In x xs -> F x = Ok (G p (v_index x))) ->
  exists ixs, length ixs = length ps /\ Forall2 (fun x y => F x = Ok y) xs (map (fun ei => G (fst ei) (snd ei)) (combine ps ixs)).
Proof.
  intros HF. induction HF as [|x p xs ps Hx HF IH]; intros HG.
  - exists []. split; auto. constructor.
  - destruct IH as (ixs & Hl & IH); [intros; apply HG; auto; right; auto|]. exists (v_index x :: ixs). split; [cbn [length]; auto|].
    cbn [combine map fst snd]. constructor; auto. apply HG; auto; left; auto.
Qed.

Theorem look_each w r (ps : list piece) ks (res : text -> value) : Forall (fun c => (c <= 0x20)%N) w -> pieces (S (length w)) r ps ->
  Forall any_comp ks -> ks <> [] -> (forall p, In p ps -> get (piece_text p) (dotted ks) = Ok (res (piece_text p))) ->
  exists v, get (w ++ 91%N :: r) (35%N :: 46%N :: dotted ks) = Ok v /\ v_exists v = true /\ v_kind v = KArray /\
    v_json v = 91%N :: commas (map v_json (filter v_exists (map (fun p => res (piece_text p)) ps))) ++ [93%N].
Proof.
  intros Hw H Hks Hn Hres. apply elems_pieces in H.
  rewrite (get_any_sep _ [35%N] 46%N (dotted ks)) by (try (right; left; reflexivity); try discriminate; reflexivity).
  rewrite lstart_open by auto. unfold larr. cbn [cpath p_comp N.eqb Pos.eqb p_sep].
  rewrite next_group_spec. cbn [cpath p_sep N.eqb Pos.eqb p_extra].
  destruct (group_dotted ks Hks Hn) as (rr & -> & Hr). cbn [bind].
  destruct (pieces_results (fun v => x <- v_get_with get v (dotted ks) ;; Ok (Some x))
    (fun p ix => Some (add_index ix (res (piece_text p)))) _ _ H) as (ixs & Hlen & HF).
  { intros x p Hp Hx _. rewrite (v_get_slice get x p _ Hx). rewrite Hres by auto. reflexivity. }
  rewrite (push_all_opt _ _ _ _ HF). cbn [bind]. unfold p_more. rewrite Hr. cbn [N.eqb negb].
  rewrite push_list0.
  match goal with |- context [91%N :: commas ?X ++ _] => assert (E : X = map v_json (filter v_exists (map (fun p => res (piece_text p)) ps))) end.
  { clear -Hlen. revert ixs Hlen. induction ps as [|e es IH]; intros [|ix ixs] Hlen; cbn [length] in Hlen; try lia; auto.
    cbn [combine map flat_map app filter fst snd].
    change (v_exists (add_index ix (res (piece_text e)))) with (v_exists (res (piece_text e))).
    destruct (v_exists (res (piece_text e))); cbn [map]; rewrite IH by lia; reflexivity. }
  rewrite E. destruct (mkowned_list (map v_json (filter v_exists (map (fun p => res (piece_text p)) ps)))) as (v & -> & Hv). eauto.
Qed.

(* A piece alone in brackets is that piece. *)
Lemma token_again t k r r' : token t k r -> (forall d l, r' = d :: l -> ~ num_byte d) ->
  exists i, lflat (t ++ r) = (t, i, r) /\ lflat (t ++ r') = (t, i, r') /\ i <> 0%N /\ token t k r'.
Proof.
  intros H Hr'. assert (H' : token t k r') by (destruct H; constructor; auto).
  destruct (token_flat t k r H) as (i & E & _ & Hi). destruct (token_flat t k r' H') as (i' & E' & _).
  exists i. split; [exact E|]. split; [|auto]. rewrite E'. f_equal. f_equal. destruct H as [b r Hb|c b r Hc Hb Hr|t r Ht|t r Ht|t r Ht|q c r Hq Hc|q c r Hq Hc].
  - rewrite quoted_app_cons in E, E'. cbn [app lflat N.eqb Pos.eqb] in E, E'. rewrite quotable_split in E, E' by auto. congruence.
  - cbn [app lflat] in E, E'.
    replace (c =? 34)%N with false in E, E' by (destruct Hc; lia). replace (c =? 123)%N with false in E, E' by (destruct Hc; lia).
    replace (c =? 91)%N with false in E, E' by (destruct Hc; lia).
    replace (((48 <=? c) && (c <=? 57)) || (c =? 45))%N with true in E, E' by (destruct Hc; lia). cbn [orb] in E, E'.
    assert (D : forall s, (forall d l, s = d :: l -> ~ num_byte d) -> dropw num_stop (b ++ s) = s).
    { intros s Hs. apply P_Rough.dropw_app.
      - eapply Forall_impl; [|exact Hb]. intros d Hd. unfold num_stop. rewrite (proj2 (numch_ok d) Hd). reflexivity.
      - intros d l El. unfold num_stop. destruct (numch d) eqn:En; auto. exfalso. apply (Hs d l El), numch_ok, En. }
    rewrite (D r Hr), upto_app in E. rewrite (D r' Hr'), upto_app in E'. congruence.
  - cbn -[llit] in E, E'. pose proof (llit_app 4 INFO_TRUE (116%N :: t) r ltac:(cbn; lia)) as L1. pose proof (llit_app 4 INFO_TRUE (116%N :: t) r' ltac:(cbn; lia)) as L2.
    cbn [app] in L1, L2. congruence.
  - cbn -[llit] in E, E'. pose proof (llit_app 5 INFO_FALSE (102%N :: t) r ltac:(cbn; lia)) as L1. pose proof (llit_app 5 INFO_FALSE (102%N :: t) r' ltac:(cbn; lia)) as L2.
    cbn [app] in L1, L2. congruence.
  - cbn -[llit] in E, E'. pose proof (llit_app 4 INFO_NULL (110%N :: t) r ltac:(cbn; lia)) as L1. pose proof (llit_app 4 INFO_NULL (110%N :: t) r' ltac:(cbn; lia)) as L2.
    cbn [app] in L1, L2. congruence.
  - cbn [app lflat N.eqb Pos.eqb orb] in E, E'. rewrite <- app_assoc in E, E'. cbn [app] in E, E'. rewrite sq_close in E, E' by auto. congruence.
  - cbn [app lflat N.eqb Pos.eqb orb] in E, E'. rewrite <- app_assoc in E, E'. cbn [app] in E, E'. rewrite sq_close in E, E' by auto. congruence.
Qed.

Lemma elem_setix g v ix lh op rh : elem_matches g (setix v ix) lh op rh = elem_matches g v lh op rh.
Proof.
  unfold elem_matches. destruct lh as [|l lh]; [exact (query_matches_ix v ix op rh)|].
  unfold v_get_with. cbn [setix v_slice v_owned v_index].
  destruct (match v_slice v with [] => _ | _ => _ end) as [x|e]; cbn [bind]; auto.
  change (add_index ix x) with (setix (add_index (v_index v) x) (v_index (add_index ix x))). apply query_matches_ix.
Qed.

Definition holds_at (v : value) (q : bytes) : R bool := let '(lh, op, rh) := qparts q in elem_matches get v lh op rh.

Lemma fval_token json t k r i : token t k r -> lflat (t ++ r) = (t, i, r) -> i <> 0%N -> fval json (t ++ r) = mkslice t i (Some (pos json (t ++ r))).
Proof.
  intros Ht E Hi. unfold fval, linfo, ltext. rewrite E. cbn [fst snd]. replace (i =? 0)%N with false by (symmetry; apply N.eqb_neq; exact Hi). reflexivity.
Qed.

Lemma items_single t k : token t k [93%N] -> items (t ++ [93%N]) = [t ++ [93%N]].
Proof.
  intros H. destruct (token_head t k _ H) as (c & t' & Et & E1 & E2). pose proof (lrest_token _ _ _ H) as L.
  assert (Hx : v_exists (fval (t ++ [93%N]) (t ++ [93%N])) = true) by (apply (fval_piece (t ++ [93%N]) t k [93%N] (suf_refl _) H)).
  rewrite Et in *. cbn [app] in *. rewrite items_cons, E1, E2, Hx, L. reflexivity.
Qed.

Lemma picks_token q json t k r b : balanced q -> token t k r -> (picks q t b <-> holds_at (fval json (t ++ r)) q = Ok b).
Proof.
  intros Hq Ht. destruct (token_again t k r [93%N] Ht) as (i & E1 & E2 & Hi & Ht').
  { intros d l [= <- _] [H|H]; [lia|]. cbn in H. intuition discriminate. }
  rewrite (fval_token json t k r i Ht E1 Hi). unfold picks.
  assert (E : get (91%N :: t ++ [93%N]) (qcomp q false) =
     (m <- holds_at (mkslice t i None) q ;; if m : bool then Ok (mkslice t i (Some 1)) else Ok value_default)).
  { rewrite get_any_end by (right; right; eauto). change (91%N :: t ++ [93%N]) with ([] ++ 91%N :: t ++ [93%N]).
    rewrite lstart_open by constructor. cbn [app]. rewrite larr_one. unfold holds_at. destruct (qparts q) as [[lh op] rh]. cbn [bind].
    unfold elems, fe_items. cbn [tl]. rewrite (items_single t k Ht'). cbn [map find_r].
    rewrite (fval_token _ t k [93%N] i Ht' E2 Hi).
    assert (Ep : pos (91%N :: t ++ [93%N]) (t ++ [93%N]) = 1) by (unfold pos; cbn [length]; lia). rewrite Ep.
    change (mkslice t i (Some 1)) with (setix (mkslice t i None) (Some 1)). rewrite elem_setix.
    destruct (elem_matches get (mkslice t i None) lh op rh) as [m|e]; [|reflexivity]. cbn [bind].
    destruct m; cbn [bind]; reflexivity. }
  change (0x5B%N :: t ++ [0x5D%N]) with (91%N :: t ++ [93%N]). rewrite E.
  assert (E' : holds_at (mkslice t i (Some (pos json (t ++ r)))) q = holds_at (mkslice t i None) q).
  { unfold holds_at. destruct (qparts q) as [[lh op] rh]. apply (elem_setix get (mkslice t i None)). }
  rewrite E'. destruct (token_head t k r Ht) as (c & t' & -> & _). destruct (holds_at (mkslice (c :: t') i None) q) as [m|e]; cbn [bind].
  - split.
    + intros (v & Hv & Hb). destruct m; injection Hv as <-; rewrite <- Hb; reflexivity.
    + intros [= ->]. destruct b; eexists; split; reflexivity.
  - split; [intros (v & Hv & _); discriminate | discriminate].
Qed.

(** Each element of the text, and what the query says about it. *)
Lemma elems_hold w r (ps : list piece) q : balanced q -> pieces (S (length w)) r ps ->
  Forall2 (fun v p => slice_at v p /\ forall b, picks q (piece_text p) b -> holds_at v q = Ok b) (elems (w ++ 91%N :: r) false (91%N :: r)) ps.
Proof.
  intros Hq H. unfold elems, fe_items. cbn [tl]. set (json := w ++ 91%N :: r).
  assert (G : forall n l qs, pieces n l qs -> suf l json -> n = pos json l ->
    Forall2 (fun v p => slice_at v p /\ forall b, picks q (piece_text p) b -> holds_at v q = Ok b) (map (fval json) (items l)) qs).
  { clear H. intros n l qs H. induction H as [n|n c l Hc|n c l qs Hc H IH|n t k l qs Ht H IH|n s H1 H2]; intros Hs ->.
    - constructor.
    - rewrite items_cons. replace (skip_sep c) with false by (unfold skip_sep; destruct Hc; subst; reflexivity).
      rewrite (proj2 (end_item_ok c) Hc). constructor.
    - rewrite items_cons, (proj2 (skip_sep_ok c) Hc). apply IH; [eapply suf_tail; eauto|]. rewrite <- (pos_S _ _ _ Hs). lia.
    - destruct (token_head t k l Ht) as (c & t' & Et & E1 & E2). pose proof (fval_piece json _ k l Hs Ht) as P.
      pose proof (lrest_token _ _ _ Ht) as L. pose proof (fun b => proj1 (picks_token q json t k l b Hq Ht)) as Hp.
      assert (El : items (t ++ l) = (t ++ l) :: items l).
      { assert (Hx : v_exists (fval json (t ++ l)) = true) by apply P. rewrite Et in *. cbn [app] in *.
        rewrite items_cons, E1, E2. rewrite <- (fval_exists json), Hx, L. reflexivity. }
      rewrite El. cbn [map]. constructor.
      + split; [split; [exact P|apply fval_owned]|]. exact Hp.
      + apply IH; [eapply suf_app_r; eauto|]. rewrite <- (pos_app _ _ _ Hs). reflexivity.
    - destruct s as [|c l]; [constructor|]. rewrite items_cons.
      destruct (skip_sep c) eqn:E1; [exfalso; eapply H2; [reflexivity|apply skip_sep_ok, E1]|].
      destruct (end_item c); [constructor|]. destruct (no_token json (c :: l) Hs H1) as (N1 & N2).
      rewrite <- (fval_exists json), N1, N2. constructor. }
  apply (G _ _ _ H).
  - eapply suf_tail. apply suf_app.
  - unfold json, pos. rewrite app_length. cbn [length]. lia.
Qed.

Theorem look_first w r (ps : list piece) q : Forall (fun c => (c <= 0x20)%N) w -> pieces (S (length w)) r ps -> balanced q ->
  (forall a p b, ps = a ++ p :: b -> Forall (fun x => picks q (piece_text x) false) a -> picks q (piece_text p) true ->
     exists v, get (w ++ 91%N :: r) (qcomp q false) = Ok v /\ is_piece v p) /\
  (Forall (fun x => picks q (piece_text x) false) ps ->
     exists v, get (w ++ 91%N :: r) (qcomp q false) = Ok v /\ v_exists v = false).
Proof.
  intros Hw H Hq. apply (elems_hold w r ps q Hq) in H.
  rewrite get_any_end by (right; right; eauto). rewrite lstart_open by auto. rewrite larr_one.
  unfold holds_at in H. destruct (qparts q) as [[lh op] rh]. cbn [bind].
  set (xs := elems _ _ _) in *. clearbody xs. split.
  - intros a p b -> Ha Hp.
    assert (exists v, find_r (fun v => elem_matches get v lh op rh) xs = Ok v /\ is_piece v p) as (v & -> & Hv).
    { revert xs H. induction Ha as [|x a Hx Ha IH]; intros xs H; cbn [app] in *; inversion H as [|v y l l' (HS & HH) HF']; subst; cbn [find_r].
      - rewrite (HH true Hp). cbn [bind]. exists v. split; [reflexivity|apply HS].
      - rewrite (HH false Hx). cbn [bind]. apply IH; auto. }
    cbn [bind]. change (p_more (cpath (qcomp q false) 0 [])) with false. cbn [negb]. eauto.
  - intros Ha.
    assert (find_r (fun v => elem_matches get v lh op rh) xs = Ok value_default) as ->.
    { revert xs H. induction Ha as [|x a Hx Ha IH]; intros xs H; inversion H as [|v y l l' (HS & HH) HF']; subst; cbn [find_r]; auto.
      rewrite (HH false Hx). cbn [bind]. apply IH; auto. }
    eexists. split; reflexivity.
Qed.

Lemma hold_results {A} q (F : value -> R A) (G : piece -> option nat -> A) (xs : list value) (ps : list piece) :
  Forall2 (fun v p => slice_at v p /\ forall b, picks q (piece_text p) b -> holds_at v q = Ok b) xs ps ->
  (forall x p, In p ps -> slice_at x p -> (forall b, picks q (piece_text p) b -> holds_at x q = Ok b) -> F x = Ok (G p (v_index x))) ->
  exists ixs, length ixs = length ps /\ Forall2 (fun x y => F x = Ok y) xs (map (fun ei => G (fst ei) (snd ei)) (combine ps ixs)).
Proof.
  intros HF. induction HF as [|x p xs ps [Hx1 Hx2] HF IH]; intros HG.
  - exists []. split; auto. constructor.
  - destruct IH as (ixs & Hl & IH); [intros; apply HG; auto; right; auto|]. exists (v_index x :: ixs). split; [cbn [length]; auto|].
    cbn [combine map fst snd]. constructor; auto. apply HG; auto; left; auto.
Qed.

Lemma slice_json v m t k : slice_at v (m, t, k) -> v = setix v (v_index v) /\ v_slice v = t.
Proof. intros ((H1 & _) & H2). split; [destruct v; reflexivity|]. unfold v_json in H1. rewrite H2 in H1. exact H1. Qed.

Theorem look_all w r (ps : list piece) q (sel : text -> bool) : Forall (fun c => (c <= 0x20)%N) w -> pieces (S (length w)) r ps -> balanced q ->
  (forall p, In p ps -> picks q (piece_text p) (sel (piece_text p))) ->
  exists v, get (w ++ 91%N :: r) (qcomp q true) = Ok v /\ v_exists v = true /\ v_kind v = KArray /\
    v_json v = 91%N :: commas (filter sel (map piece_text ps)) ++ [93%N].
Proof.
  intros Hw H Hq Hsel. apply (elems_hold w r ps q Hq) in H.
  rewrite get_any_end by (right; right; eauto). rewrite lstart_open by auto. rewrite larr_all.
  assert (HF : exists ys, Forall2 (fun x y => (let '(lh, op, rh) := qparts q in m <- elem_matches get x lh op rh ;; (if m : bool then Ok (Some x) else Ok None)) = Ok y)
     (elems (w ++ 91%N :: r) false (91%N :: r)) ys /\
     map v_json (filter v_exists (flat_map (fun o => match o with Some y => [y] | None => [] end) ys)) = filter sel (map piece_text ps)).
  { clear - H Hsel. unfold holds_at in H. destruct (qparts q) as [[lh op] rh]. set (xs := elems _ _ _) in *. clearbody xs.
    induction H as [|x p xs ps (HS & HH) HF IH]; [exists []; split; [constructor|reflexivity]|].
    destruct IH as (ys & HY & EY); [intros; apply Hsel; right; auto|]. specialize (HH _ (Hsel p (or_introl eq_refl))).
    exists ((if sel (piece_text p) then Some x else None) :: ys). split.
    - constructor; auto. rewrite HH. cbn [bind]. destruct (sel (piece_text p)); reflexivity.
    - cbn [flat_map map filter]. destruct (sel (piece_text p)); cbn [app filter]; [|exact EY].
      destruct p as ((m, t), k). destruct HS as ((J1 & _ & _ & J4) & _). rewrite J4. cbn [map]. rewrite J1. f_equal. exact EY. }
  destruct HF as (ys & HY & EY).
  destruct (qparts q) as [[lh op] rh]. cbn [bind]. rewrite next_group_spec. cbn [cpath p_sep N.eqb bind].
  rewrite (push_all_opt _ _ _ _ HY). cbn [bind p_more p_sep N.eqb negb].
  rewrite push_list0, EY. eexists. split; [reflexivity|]. auto.
Qed.

Theorem look_all_each w r (ps : list piece) q (sel : text -> bool) ks (res : text -> value) : Forall (fun c => (c <= 0x20)%N) w -> pieces (S (length w)) r ps ->
  balanced q -> Forall any_comp ks -> ks <> [] ->
  (forall p, In p ps -> picks q (piece_text p) (sel (piece_text p))) ->
  (forall p, In p ps -> sel (piece_text p) = true -> get (piece_text p) (dotted ks) = Ok (res (piece_text p))) ->
  exists v, get (w ++ 91%N :: r) (qcomp q true ++ 46%N :: dotted ks) = Ok v /\ v_exists v = true /\ v_kind v = KArray /\
    v_json v = 91%N :: commas (map v_json (filter v_exists (map res (filter sel (map piece_text ps))))) ++ [93%N].
Proof.
  intros Hw H Hq Hks Hn Hsel Hres. apply (elems_hold w r ps q Hq) in H.
  rewrite get_any_sep by (try (right; right; eauto); try discriminate; reflexivity). rewrite lstart_open by auto. rewrite larr_all.
  assert (HF : exists ys, Forall2 (fun x y => (let '(lh, op, rh) := qparts q in
        m <- elem_matches get x lh op rh ;; (if m : bool then z <- v_get_with get x (dotted ks) ;; Ok (Some z) else Ok None)) = Ok y)
     (elems (w ++ 91%N :: r) false (91%N :: r)) ys /\
     map v_json (filter v_exists (flat_map (fun o => match o with Some y => [y] | None => [] end) ys)) =
     map v_json (filter v_exists (map res (filter sel (map piece_text ps))))).
  { clear - H Hsel Hres. unfold holds_at in H. destruct (qparts q) as [[lh op] rh]. set (xs := elems _ _ _) in *. clearbody xs.
    induction H as [|x p xs ps (HS & HH) HF IH]; [exists []; split; [constructor|reflexivity]|].
    destruct IH as (ys & HY & EY); [intros; apply Hsel; right; auto|intros; apply Hres; auto; right; auto|]. specialize (HH _ (Hsel p (or_introl eq_refl))).
    exists ((if sel (piece_text p) then Some (add_index (v_index x) (res (piece_text p))) else None) :: ys). split.
    - constructor; auto. rewrite HH. cbn [bind]. destruct (sel (piece_text p)) eqn:Es; [|reflexivity].
      rewrite (v_get_slice get x p _ HS), (Hres p (or_introl eq_refl) Es). reflexivity.
    - cbn [flat_map map filter]. destruct (sel (piece_text p)); cbn [app filter map]; [|exact EY].
      change (v_exists (add_index (v_index x) (res (piece_text p)))) with (v_exists (res (piece_text p))).
      destruct (v_exists (res (piece_text p))); cbn [map]; rewrite EY; reflexivity. }
  destruct HF as (ys & HY & EY).
  destruct (qparts q) as [[lh op] rh]. cbn [bind]. rewrite next_group_spec. cbn [cpath p_sep N.eqb Pos.eqb p_extra].
  destruct (group_dotted ks Hks Hn) as (rr & -> & Hr). cbn [bind].
  rewrite (push_all_opt _ _ _ _ HY). cbn [bind]. unfold p_more. rewrite Hr. cbn [N.eqb negb].
  rewrite push_list0, EY. eexists. split; [reflexivity|]. auto.
Qed.
