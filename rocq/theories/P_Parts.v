(** Groups, query parts and multipath components; all total, all parts of the
    path they are taken from. *)
From Verif Require Import P_Base P_Valid P_Str P_Scan P_Each P_Path
  M_Util M_Num M_Scan M_Value M_Path M_Get.

(* ---------- contiguous parts ---------- *)

Definition infix (a b : bytes) : Prop := exists x y, b = x ++ a ++ y.

Lemma infix_refl a : infix a a.
Proof. exists [], []. rewrite app_nil_r. reflexivity. Qed.
Lemma infix_nil a : infix [] a.
Proof. exists [], a. reflexivity. Qed.
Lemma infix_trans a b c : infix a b -> infix b c -> infix a c.
Proof.
  intros (x & y & ->) (x' & y' & ->). exists (x' ++ x), (y ++ y'). rewrite <- !app_assoc. reflexivity.
Qed.
Lemma infix_suf a b : suf a b -> infix a b.
Proof. intros [x ->]. exists x, []. rewrite app_nil_r. reflexivity. Qed.
Lemma infix_prefix a b t : b = a ++ t -> infix a b.
Proof. intros ->. exists [], t. reflexivity. Qed.
Lemma infix_length a b : infix a b -> length a <= length b.
Proof. intros (x & y & ->). rewrite !app_length. lia. Qed.
Lemma infix_in a b c : infix a b -> In c a -> In c b.
Proof. intros (x & y & ->) H. apply in_or_app. right. apply in_or_app. auto. Qed.
Lemma infix_upto l r : infix (upto l r) l.
Proof. unfold upto. exists [], (skipn (length l - length r) l). simpl. symmetry. apply firstn_skipn. Qed.
Lemma infix_slice l s e r : slice l s e = Ok r -> infix r l.
Proof.
  intros H. apply slice_inv in H as (H1 & H2 & _ & H4).
  exists (firstn s l), (skipn e l). rewrite <- H4. symmetry. apply firstn_skipn.
Qed.
Lemma infix_cons c a b : infix a b -> infix a (c :: b).
Proof. intros (x & y & ->). exists (c :: x), y. reflexivity. Qed.

Lemma suf_trim_start b : suf (trim_start b) b.
Proof.
  induction b as [|c t IH]; cbn [trim_start]; [apply suf_refl|].
  destruct (c <=? 32)%N; [|apply suf_refl]. eapply suf_trans; [exact IH | apply suf_cons].
Qed.
Lemma trim_end_prefix b : exists t, b = trim_end b ++ t.
Proof.
  induction b as [|c t [u IH]]; cbn [trim_end]; [exists []; reflexivity|].
  destruct (trim_end t) as [|x y] eqn:E.
  - destruct (c <=? 32)%N; [exists (c :: t); reflexivity | exists t; reflexivity].
  - exists u. rewrite IH at 1. reflexivity.
Qed.
Lemma infix_trim b : infix (trim b) b.
Proof.
  unfold trim. destruct (trim_end_prefix (trim_start b)) as [t Ht].
  eapply infix_trans; [eapply infix_prefix; exact Ht | apply infix_suf, suf_trim_start].
Qed.

(* ---------- shape consequences ---------- *)

Lemma shape_extra_short extra p : path_shape extra p -> p_more p = true -> length (p_extra p) < length extra.
Proof.
  intros [[H|[_ H]] _ _ _ _] Hm; unfold p_more in Hm.
  - rewrite H in Hm. discriminate.
  - rewrite H, app_length. simpl. lia.
Qed.
Lemma shape_comp_infix extra p : path_shape extra p -> infix (p_comp p) extra.
Proof. intros [_ [t H] _ _ _]. eapply infix_prefix; eauto. Qed.
Lemma shape_extra_infix extra p : path_shape extra p -> infix (p_extra p) extra.
Proof. intros [_ _ _ H _]. apply infix_suf; auto. Qed.
Lemma sep_dot_more p : (p_sep p =? 46)%N = true -> p_more p = true.
Proof. unfold p_more. destruct (N.eqb_spec (p_sep p) 46) as [->|]; auto; discriminate. Qed.

(* ---------- next_group ---------- *)

Definition no_comp (p : path) : path :=
  mkPath [] (p_esc p) (p_pat p) (p_sep p) (p_marg p) (p_extra p).

Fixpoint lgroup (fuel : nat) (e : bytes) : bytes * path :=
  let q := pnext e in
  match fuel with
  | O => (p_comp q, no_comp q)
  | S fuel =>
      if (p_sep q =? 46)%N then
        let '(g, r) := lgroup fuel (p_extra q) in (p_comp q ++ 46%N :: g, r)
      else (p_comp q, no_comp q)
  end.

Lemma lgroup_length fuel e : length e <= fuel -> (p_sep (snd (lgroup fuel e)) =? 46)%N = false.
Proof.
  revert e. induction fuel as [|fuel IH]; intros e He; cbn [lgroup].
  - cbn [snd no_comp p_sep]. destruct (p_sep (pnext e) =? 46)%N eqn:E; auto.
    pose proof (shape_extra_short _ _ (pnext_shape e) (sep_dot_more _ E)). lia.
  - destruct (p_sep (pnext e) =? 46)%N eqn:E.
    + pose proof (shape_extra_short _ _ (pnext_shape e) (sep_dot_more _ E)).
      specialize (IH (p_extra (pnext e)) ltac:(lia)).
      destruct (lgroup fuel (p_extra (pnext e))) as [g r]. exact IH.
    + exact E.
Qed.

(** The group is a prefix of what it is read from, followed by the separator and
    the rest. *)
Lemma lgroup_shape fuel e : forall g r, lgroup fuel e = (g, r) ->
  p_comp r = [] /\
  ((p_sep r = 0%N /\ exists t, e = g ++ t) \/ (is_sep (p_sep r) = true /\ e = g ++ p_sep r :: p_extra r)) /\
  suf (p_extra r) e.
Proof.
  revert e. induction fuel as [|fuel IH]; intros e g r; cbn [lgroup].
  - intros [= <- <-]. destruct (pnext_shape e) as [H1 H2 _ H4 _]. cbn [no_comp p_comp p_sep p_extra].
    split; auto. split; auto. destruct H1 as [H1|H1]; auto.
  - destruct (p_sep (pnext e) =? 46)%N eqn:E.
    + destruct (lgroup fuel (p_extra (pnext e))) as [g' r'] eqn:E'. intros [= <- <-].
      apply IH in E' as (H1 & H2 & H3). apply N.eqb_eq in E.
      destruct (pnext_shape e) as [[S1|[_ S1]] S2 _ S4 _]; [rewrite S1 in E; discriminate|].
      split; auto. split; [|eapply suf_trans; eauto].
      rewrite E in S1.
      destruct H2 as [[H2 [t H]]|[H2 H]]; [left | right]; split; auto.
      * exists t. rewrite <- app_assoc. cbn [app]. rewrite <- H. exact S1.
      * rewrite <- app_assoc. cbn [app]. rewrite <- H. exact S1.
    + intros [= <- <-]. destruct (pnext_shape e) as [H1 H2 _ H4 _]. cbn [no_comp p_comp p_sep p_extra].
      split; auto. split; auto. destruct H1 as [H1|H1]; auto.
Qed.

Lemma lgroup_fuel : forall n m e, length e <= n -> length e <= m -> lgroup n e = lgroup m e.
Proof.
  assert (H0 : forall n e, e = [] -> lgroup n e = lgroup 0 e).
  { intros [|n] e ->; reflexivity. }
  induction n as [|n IH]; intros [|m] e Hn Hm; auto.
  - destruct e; [|simpl in Hn; lia]. symmetry. apply H0. reflexivity.
  - destruct e; [|simpl in Hm; lia]. apply H0. reflexivity.
  - cbn [lgroup]. destruct (p_sep (pnext e) =? 46)%N eqn:E; auto.
    pose proof (shape_extra_short _ _ (pnext_shape e) (sep_dot_more _ E)).
    rewrite (IH m) by lia. reflexivity.
Qed.

(** The group read from [e]. *)
Definition group (e : bytes) : bytes * path := lgroup (length e) e.

Lemma group_eq e : group e =
  let q := pnext e in
  if (p_sep q =? 46)%N then
    let '(g, r) := group (p_extra q) in (p_comp q ++ 46%N :: g, r)
  else (p_comp q, no_comp q).
Proof.
  unfold group. rewrite (lgroup_fuel (length e) (S (length e)) e) by lia. cbn [lgroup].
  destruct (p_sep (pnext e) =? 46)%N eqn:E; auto.
  pose proof (shape_extra_short _ _ (pnext_shape e) (sep_dot_more _ E)).
  rewrite (lgroup_fuel (length e) (length (p_extra (pnext e)))) by lia. reflexivity.
Qed.

Lemma next_group_loop_spec : forall fuel q len,
  ((p_sep q =? 46)%N = true -> length (p_extra q) + 1 < fuel) -> 0 < fuel ->
  exists q', next_group_loop fuel q len =
    Ok (q', if (p_sep q =? 46)%N then len + 1 + length (fst (group (p_extra q))) else len) /\
  no_comp q' = (if (p_sep q =? 46)%N then snd (group (p_extra q)) else no_comp q).
Proof.
  induction fuel as [|fuel IH]; intros q len Hd Hf; [lia|]. cbn [next_group_loop].
  destruct (p_sep q =? 46)%N; [|eauto]. specialize (Hd eq_refl).
  rewrite pnext_eq, group_eq. cbn [bind]. cbv zeta.
  set (p := pnext (p_extra q)).
  destruct (IH p (len + 1 + length (p_comp p))) as (q' & H1 & H2); [|lia|].
  { intros E. pose proof (shape_extra_short _ _ (pnext_shape (p_extra q)) (sep_dot_more _ E)) as Hlt.
    fold p in Hlt. lia. }
  exists q'. rewrite H1, H2.
  destruct (p_sep p =? 46)%N; cbn [fst snd]; auto.
  destruct (group (p_extra p)) as [g r]. cbn [fst snd]. split; auto.
  f_equal. f_equal. rewrite app_length. cbn [length]. lia.
Qed.

Lemma next_group_spec p : next_group p =
  Ok (if (p_sep p =? 46)%N then group (p_extra p) else ([], p)).
Proof.
  unfold next_group. destruct (p_sep p =? 46)%N; cbn [negb]; auto.
  unfold p_next. rewrite pnext_eq. cbn [bind]. set (q := pnext (p_extra p)).
  destruct (next_group_loop_spec (S (length (p_extra p))) q (length (p_comp q))) as (q' & -> & Hq); [|lia|].
  { intros E. pose proof (shape_extra_short _ _ (pnext_shape (p_extra p)) (sep_dot_more _ E)) as Hlt.
    fold q in Hlt. lia. }
  cbn [bind]. fold (no_comp q').
  destruct (group (p_extra p)) as [g r] eqn:Eg.
  assert (Hlen : (if (p_sep q =? 46)%N then length (p_comp q) + 1 + length (fst (group (p_extra q)))
                  else length (p_comp q)) = length g /\ no_comp q' = r).
  { rewrite group_eq in Eg. cbv zeta in Eg. fold q in Eg. rewrite Hq. destruct (p_sep q =? 46)%N.
    - destruct (group (p_extra q)) as [g' r']. injection Eg as <- <-. cbn [fst snd]. split; auto.
      rewrite app_length. simpl. lia.
    - injection Eg as <- <-. auto. }
  destruct Hlen as [-> ->].
  pose proof (lgroup_shape _ _ _ _ Eg) as (_ & Hg & _).
  assert (Hpre : exists t, p_extra p = g ++ t).
  { destruct Hg as [[_ H]|[_ H]]; eauto. }
  destruct Hpre as [t Ht]. rewrite slice_ok by (rewrite ?Ht, ?app_length; lia).
  cbn [bind]. rewrite Nat.sub_0_r. cbn [skipn]. rewrite Ht, firstn_length_app. reflexivity.
Qed.

Lemma group_shape e g r : group e = (g, r) ->
  p_comp r = [] /\
  ((p_sep r = 0%N /\ exists t, e = g ++ t) \/ (is_sep (p_sep r) = true /\ e = g ++ p_sep r :: p_extra r)) /\
  suf (p_extra r) e.
Proof. apply lgroup_shape. Qed.

Lemma group_length e g r : group e = (g, r) ->
  length g <= length e /\ infix g e /\ infix (p_extra r) e /\
  (p_more r = true -> length (p_extra r) < length e).
Proof.
  intros H. apply group_shape in H as (_ & H & H3). repeat split; auto using infix_suf.
  - destruct H as [[_ [t ->]]|[_ ->]]; rewrite app_length; lia.
  - destruct H as [[_ [t ->]]|[_ ->]]; eapply infix_prefix; eauto.
  - intros Hm. unfold p_more in Hm. destruct H as [[H _]|[_ ->]].
    + rewrite H in Hm. discriminate.
    + rewrite app_length. simpl. lia.
Qed.

(* ---------- query_parts ---------- *)

(** The operator: the suffixes at its start and after its end. *)
Fixpoint lfind (l : bytes) (d : Z) : option (bytes * bytes) :=
  match l with
  | [] => None
  | c :: t =>
      if (c =? 92)%N then match t with [] => None | _ :: t' => lfind t' d end
      else if (c =? 40)%N then lfind t (d + 1)
      else if (c =? 41)%N then lfind t (d - 1)
      else if (0 <? d)%Z then lfind t d
      else if (c =? 37)%N then Some (l, t)
      else if (c =? 33)%N then
        match t with
        | c1 :: t' => if ((c1 =? 61) || (c1 =? 37))%N then Some (l, t') else Some (l, t)
        | [] => Some (l, t)
        end
      else if ((c =? 61) || (c =? 60) || (c =? 62))%N then
        match t with
        | c1 :: t' => if (c1 =? 61)%N then Some (l, t') else Some (l, t)
        | [] => Some (l, t)
        end
      else lfind t d
  end.

Lemma find_op_spec q : forall fuel l d, suf l q -> length l < fuel ->
  find_op fuel q (pos q l) d =
    Ok (match lfind l d with Some (s, e) => Some (pos q s, pos q e) | None => None end).
Proof.
  induction fuel as [|fuel IH]; intros l d Hl Hf; [lia|]. cbn [find_op].
  destruct l as [|c t]; [rewrite pos_ltb_nil; reflexivity|].
  rewrite (pos_ltb _ _ _ Hl), (idx_pos _ _ _ Hl). cbn [bind lfind].
  pose proof (suf_tail _ _ _ Hl) as Ht. pose proof (pos_S _ _ _ Hl) as HS. rewrite HS. simpl in Hf.
  destruct (c =? 92)%N.
  { destruct t as [|c1 t'].
    - rewrite pos_eqb_nil. reflexivity.
    - rewrite (pos_eqb _ _ _ Ht). pose proof (pos_S _ _ _ Ht).
      replace (pos q (c :: c1 :: t') + 2) with (pos q t') by lia.
      apply IH; [eapply suf_tail; eauto | simpl in Hf; lia]. }
  destruct (c =? 40)%N; [apply IH; auto; lia|].
  destruct (c =? 41)%N; [apply IH; auto; lia|].
  destruct (0 <? d)%Z; [apply IH; auto; lia|].
  destruct (c =? 37)%N; [reflexivity|].
  destruct (c =? 33)%N.
  { destruct t as [|c1 t'].
    - rewrite pos_ltb_nil. reflexivity.
    - rewrite (pos_ltb _ _ _ Ht), (idx_pos _ _ _ Ht). cbn [bind]. pose proof (pos_S _ _ _ Ht).
      replace (pos q (c :: c1 :: t') + 2) with (pos q t') by lia.
      destruct ((c1 =? 61) || (c1 =? 37))%N; reflexivity. }
  destruct ((c =? 61) || (c =? 60) || (c =? 62))%N.
  { destruct t as [|c1 t'].
    - rewrite pos_ltb_nil. reflexivity.
    - rewrite (pos_ltb _ _ _ Ht), (idx_pos _ _ _ Ht). cbn [bind]. pose proof (pos_S _ _ _ Ht).
      replace (pos q (c :: c1 :: t') + 2) with (pos q t') by lia.
      destruct (c1 =? 61)%N; reflexivity. }
  apply IH; auto; lia.
Qed.

Lemma lfind_suf : forall l d s e, lfind l d = Some (s, e) -> suf s l /\ suf e s.
Proof.
  intros l. induction l as [l IH] using (induction_ltof1 _ (@length N)). unfold ltof in IH.
  intros d s e. destruct l as [|c t]; cbn [lfind]; [discriminate|].
  assert (Hl : forall t' d, length t' <= length t -> suf t' t -> lfind t' d = Some (s, e) -> suf s (c :: t) /\ suf e s).
  { intros t' d' Hle Hs H. apply IH in H as [H1 H2]; [|simpl; lia]. split; auto.
    eapply suf_trans; [exact H1|]. eapply suf_trans; [exact Hs | apply suf_cons]. }
  assert (Hf : forall a, suf a t -> Some (c :: t, a) = Some (s, e) -> suf s (c :: t) /\ suf e s).
  { intros a Ha [= <- <-]. split; [apply suf_refl|]. eapply suf_trans; [exact Ha | apply suf_cons]. }
  destruct (c =? 92)%N.
  { destruct t as [|c1 t']; [discriminate|]. apply Hl; [simpl; lia | apply suf_cons]. }
  destruct (c =? 40)%N; [apply Hl; auto using suf_refl|].
  destruct (c =? 41)%N; [apply Hl; auto using suf_refl|].
  destruct (0 <? d)%Z; [apply Hl; auto using suf_refl|].
  destruct (c =? 37)%N; [apply Hf, suf_refl|].
  destruct (c =? 33)%N.
  { destruct t as [|c1 t']; [apply Hf, suf_refl|].
    destruct (_ || _)%N; apply Hf; auto using suf_refl, suf_cons. }
  destruct (_ || _)%N; [|apply Hl; auto using suf_refl].
  destruct t as [|c1 t']; [apply Hf, suf_refl|].
  destruct (c1 =? 61)%N; apply Hf; auto using suf_refl, suf_cons.
Qed.

Definition norm_op (op : bytes) : bytes := if beq op [61; 61]%N then [61]%N else op.

(** The three parts of the text between the parentheses. *)
Definition qparts (t : bytes) : bytes * bytes * bytes :=
  let q := trim t in
  match lfind q 0 with
  | None => (q, [], [])
  | Some (s, e) => (trim (upto q s), norm_op (trim (upto s e)), trim e)
  end.

Definition qbind (t : bytes) : R (bytes * bytes * bytes) :=
  let query := trim t in
  r <- find_op (S (length query)) query 0 0%Z ;;
  match r with
  | None => Ok (query, [], [])
  | Some (s, e) =>
      lh <- slice query 0 s ;;
      op <- slice query s e ;;
      rh <- slice_from query e ;;
      let op := trim op in
      let op := if beq op [61; 61]%N then [61]%N else op in
      Ok (trim lh, op, trim rh)
  end.

Lemma qbind_spec t : qbind t = Ok (qparts t).
Proof.
  unfold qbind, qparts. cbv zeta. set (q := trim t).
  pose proof (find_op_spec q (S (length q)) q 0 (suf_refl _) ltac:(lia)) as H.
  rewrite pos_refl in H. rewrite H. cbn [bind].
  destruct (lfind q 0) as [(s, e)|] eqn:E; auto.
  apply lfind_suf in E as [Hs He].
  pose proof (slice_upto q s q Hs (suf_refl _)) as H1. rewrite pos_refl in H1. rewrite H1. cbn [bind].
  rewrite (slice_upto s e q He Hs). cbn [bind].
  rewrite slice_from_pos by (eapply suf_trans; eauto). reflexivity.
Qed.

Lemma idx_last l c : idx (l ++ [c]) (length (l ++ [c]) - 1) = Ok c.
Proof.
  rewrite app_length. cbn [length]. replace (length l + 1 - 1) with (length l) by lia.
  unfold idx. rewrite nth_error_app2 by lia. rewrite Nat.sub_diag. reflexivity.
Qed.

Lemma slice_mid a b c n m : n = length a -> m = length a + length b -> slice (a ++ b ++ c) n m = Ok b.
Proof.
  intros -> ->. rewrite slice_ok; [|lia|rewrite !app_length; lia].
  rewrite skipn_length_app. replace (length a + length b - length a) with (length b) by lia.
  rewrite firstn_length_app. reflexivity.
Qed.

(** [#(t)] *)
Lemma query_parts_one t : query_parts (35 :: 40 :: t ++ [41])%N = Ok (qparts t).
Proof.
  unfold query_parts. set (comp := (35 :: 40 :: t ++ [41])%N).
  assert (Hlen : length comp = length t + 3) by (unfold comp; cbn [length]; rewrite app_length; simpl; lia).
  replace (length comp <? 2) with false by (symmetry; apply Nat.ltb_ge; lia).
  change (idx comp 0) with (@Ok N 35%N). change (idx comp 1) with (@Ok N 40%N). cbn [bind].
  change (negb (35 =? 35)%N || negb (40 =? 40)%N) with false. cbv match.
  rewrite usub_ok by lia. cbn [bind].
  assert (Hz : idx comp (length comp - 1) = Ok 41%N) by (apply (idx_last (35 :: 40 :: t)%N)).
  rewrite Hz. cbn [bind]. change (41 =? 35)%N with false. change (negb (41 =? 41)%N) with false. cbv match.
  assert (Hs : slice comp 2 (length comp - 1) = Ok t).
  { apply (slice_mid [35; 40]%N t [41]%N); [reflexivity | rewrite Hlen; simpl; lia]. }
  rewrite Hs. cbn [bind]. apply (qbind_spec t).
Qed.

(** [#(t)#] *)
Lemma query_parts_all t : query_parts (35 :: 40 :: t ++ [41; 35])%N = Ok (qparts t).
Proof.
  unfold query_parts. set (comp := (35 :: 40 :: t ++ [41; 35])%N).
  assert (Hlen : length comp = length t + 4) by (unfold comp; cbn [length]; rewrite app_length; simpl; lia).
  replace (length comp <? 2) with false by (symmetry; apply Nat.ltb_ge; lia).
  change (idx comp 0) with (@Ok N 35%N). change (idx comp 1) with (@Ok N 40%N). cbn [bind].
  change (negb (35 =? 35)%N || negb (40 =? 40)%N) with false. cbv match.
  rewrite usub_ok by lia. cbn [bind].
  assert (Hz : idx comp (length comp - 1) = Ok 35%N).
  { unfold comp. change (35 :: 40 :: t ++ [41; 35])%N with ((35 :: 40 :: t) ++ [41] ++ [35])%N. rewrite app_assoc. apply idx_last. }
  rewrite Hz. cbn [bind]. change (35 =? 35)%N with true. cbv match.
  rewrite usub_ok by lia. cbn [bind].
  assert (Hy : idx comp (length comp - 2) = Ok 41%N).
  { rewrite Hlen. unfold comp, idx. change (35 :: 40 :: t ++ [41; 35])%N with ((35 :: 40 :: t) ++ [41; 35])%N.
    rewrite nth_error_app2 by (simpl; lia). cbn [length].
    replace (length t + 4 - 2 - S (S (length t))) with 0 by lia. reflexivity. }
  rewrite Hy. cbn [bind]. change (negb (41 =? 41)%N) with false. cbv match.
  assert (Hs : slice comp 2 (length comp - 2) = Ok t).
  { apply (slice_mid [35; 40]%N t [41; 35]%N); [reflexivity | rewrite Hlen; simpl; lia]. }
  rewrite Hs. cbn [bind]. apply (qbind_spec t).
Qed.

(** Any component gives parts that are parts of it. *)
Lemma qparts_infix t lh op rh : qparts t = (lh, op, rh) -> infix lh t /\ infix rh t.
Proof.
  unfold qparts. cbv zeta. pose proof (infix_trim t) as Ht.
  destruct (lfind (trim t) 0) as [(s, e)|] eqn:E.
  - intros [= <- _ <-]. apply lfind_suf in E as [Hs He]. split.
    + eapply infix_trans; [apply infix_trim|]. eapply infix_trans; [apply infix_upto | exact Ht].
    + eapply infix_trans; [apply infix_trim|]. eapply infix_trans; [|exact Ht].
      eapply infix_trans; [apply infix_suf; exact He | apply infix_suf; exact Hs].
  - intros [= <- _ <-]. split; auto using infix_nil.
Qed.

(** The left-hand side stands before the right-hand side. *)
Lemma qparts_order t lh op rh : qparts t = (lh, op, rh) -> exists x y z, t = x ++ lh ++ y ++ rh ++ z.
Proof.
  unfold qparts. cbv zeta. pose proof (infix_trim t) as (x & z & Ht).
  destruct (lfind (trim t) 0) as [(s, e)|] eqn:E.
  - intros [= <- _ <-]. apply lfind_suf in E as [Hs He]. apply upto_suf in Hs, He.
    destruct (infix_trim (upto (trim t) s)) as (x1 & z1 & E1), (infix_trim e) as (x2 & z2 & E2).
    exists (x ++ x1), (z1 ++ upto s e ++ x2), (z2 ++ z). etransitivity; [exact Ht|]. rewrite <- !app_assoc.
    f_equal. rewrite Hs at 1. rewrite E1 at 1. rewrite <- !app_assoc. do 3 f_equal. rewrite He at 1. rewrite <- !app_assoc. f_equal.
    rewrite E2 at 1. rewrite <- !app_assoc. reflexivity.
  - intros [= <- _ <-]. exists x, [], z. exact Ht.
Qed.

Lemma app_last_case {A} (l : list A) : l = [] \/ exists a b, l = a ++ [b].
Proof. destruct l as [|x l] using rev_ind; eauto. Qed.

Lemma query_parts_ok comp : exists lh op rh, query_parts comp = Ok (lh, op, rh) /\
  infix lh comp /\ infix rh comp /\ (lh = [] \/ length lh < length comp /\ exists x y z, comp = (35 :: 40 :: x ++ lh ++ y ++ rh ++ z)%N).
Proof.
  assert (Hbad : exists lh op rh : bytes, Ok ([], [], []) = Ok (lh, op, rh) /\
    infix lh comp /\ infix rh comp /\ (lh = [] \/ length lh < length comp /\ exists x y z, comp = (35 :: 40 :: x ++ lh ++ y ++ rh ++ z)%N)).
  { exists [], [], []. auto using infix_nil. }
  assert (Hgood : forall t, infix t comp -> length t < length comp -> (exists u, comp = 35 :: 40 :: t ++ u)%N ->
    exists lh op rh, Ok (qparts t) = Ok (lh, op, rh) /\
    infix lh comp /\ infix rh comp /\ (lh = [] \/ length lh < length comp /\ exists x y z, comp = (35 :: 40 :: x ++ lh ++ y ++ rh ++ z)%N)).
  { intros t Ht Hl (u & Eu). destruct (qparts t) as [[lh op] rh] eqn:E. pose proof (qparts_order _ _ _ _ E) as (x & y & z & Et). apply qparts_infix in E as [H1 H2].
    exists lh, op, rh. split; auto. pose proof (infix_length _ _ H1).
    split; [eapply infix_trans; eauto|]. split; [eapply infix_trans; eauto|]. right. split; [lia|].
    exists x, y, (z ++ u). rewrite Eu, Et, <- !app_assoc. reflexivity. }
  destruct comp as [|a [|b u]]; [exact Hbad | exact Hbad |].
  set (comp := a :: b :: u) in *.
  unfold query_parts. change (length comp <? 2) with false. cbv match.
  change (idx comp 0) with (@Ok N a). change (idx comp 1) with (@Ok N b). cbn [bind].
  destruct (negb (a =? 35)%N || negb (b =? 40)%N) eqn:Eab; [exact Hbad|].
  apply orb_false_iff in Eab as [Ea Eb]. apply negb_false_iff, N.eqb_eq in Ea, Eb. subst a b.
  destruct (app_last_case u) as [->|(v & z & ->)].
  { exact Hbad. }
  destruct (N.eqb_spec z 35) as [->|Hz35].
  - destruct (app_last_case v) as [->|(w & y & ->)].
    { exact Hbad. }
    destruct (N.eqb_spec y 41) as [->|Hy].
    + pose proof (query_parts_all w) as H.
      assert (Ec : comp = (35 :: 40 :: w ++ [41; 35])%N) by (unfold comp; rewrite <- app_assoc; reflexivity).
      rewrite <- Ec in H. unfold query_parts in H. change (length comp <? 2) with false in H. cbv match in H.
      change (idx comp 0) with (@Ok N 35%N) in H. change (idx comp 1) with (@Ok N 40%N) in H. cbn [bind] in H.
      change (negb (35 =? 35)%N || negb (40 =? 40)%N) with false in H. cbv match in H. rewrite H.
      apply Hgood.
      * exists [35; 40]%N, [41; 35]%N. exact Ec.
      * rewrite Ec. cbn [length]. rewrite app_length. lia.
      * exists [41; 35]%N. exact Ec.
    + rewrite usub_ok by (unfold comp; simpl; lia). cbn [bind].
      assert (Hi : idx comp (length comp - 1) = Ok 35%N) by (apply (idx_last (35 :: 40 :: w ++ [y])%N)).
      rewrite Hi. cbn [bind]. change (35 =? 35)%N with true. cbv match.
      rewrite usub_ok by (unfold comp; simpl; lia). cbn [bind].
      assert (Hi2 : idx comp (length comp - 2) = Ok y).
      { unfold comp, idx. cbn [length]. rewrite !app_length. cbn [length].
        replace (S (S (length w + 1 + 1)) - 2) with (S (S (length w))) by lia. cbn [nth_error].
        rewrite <- app_assoc. rewrite nth_error_app2 by lia. rewrite Nat.sub_diag. reflexivity. }
      rewrite Hi2. cbn [bind]. replace (negb (y =? 41)%N) with true by lia. exact Hbad.
  - destruct (N.eqb_spec z 41) as [->|Hz].
    + pose proof (query_parts_one v) as H. fold comp in H.
      unfold query_parts in H. change (length comp <? 2) with false in H. cbv match in H.
      change (idx comp 0) with (@Ok N 35%N) in H. change (idx comp 1) with (@Ok N 40%N) in H. cbn [bind] in H.
      change (negb (35 =? 35)%N || negb (40 =? 40)%N) with false in H. cbv match in H. rewrite H.
      apply Hgood.
      * exists [35; 40]%N, [41]%N. reflexivity.
      * unfold comp. cbn [length]. rewrite app_length. lia.
      * exists [41]%N. reflexivity.
    + rewrite usub_ok by (unfold comp; simpl; lia). cbn [bind].
      assert (Hi : idx comp (length comp - 1) = Ok z) by (apply (idx_last (35 :: 40 :: v)%N)).
      rewrite Hi. cbn [bind]. replace (z =? 35)%N with false by lia.
      replace (negb (z =? 41)%N) with true by lia. exact Hbad.
Qed.

Definition qp (comp : bytes) : bytes * bytes * bytes :=
  match query_parts comp with Ok r => r | Err _ => ([], [], []) end.
Lemma qp_eq comp : query_parts comp = Ok (qp comp).
Proof. unfold qp. destruct (query_parts_ok comp) as (a & b & c & -> & _). reflexivity. Qed.

(* ---------- each_comp ---------- *)

(** The pair of one component: [s] its start, [co] its last colon, [l] its end. *)
Definition keyname (b : bytes) : bytes :=
  match key_for_path b with Ok k => k | Err _ => [] end.

Lemma name_of_last_loop_ok : forall n p, n <= length p -> exists r, name_of_last_loop n p = Ok r.
Proof.
  induction n as [|n IH]; intros p Hn; cbn [name_of_last_loop]; eauto.
  destruct (idx_ok p n) as [c ->]; [lia|]. cbn [bind].
  destruct (_ || _)%N; [|apply IH; lia].
  destruct (0 <? n).
  - destruct (idx_ok p (n - 1)) as [b ->]; [lia|]. cbn [bind].
    destruct (b =? 92)%N; [apply IH; lia|]. rewrite slice_from_ok by lia. eauto.
  - cbn [bind]. rewrite slice_from_ok by lia. eauto.
Qed.

Lemma keyname_eq b : key_for_path b = Ok (keyname b).
Proof.
  unfold keyname, key_for_path, name_of_last.
  destruct (name_of_last_loop_ok (length b) b (le_n _)) as [r ->]. reflexivity.
Qed.

Definition lpair (s : bytes) (co : option bytes) (l : bytes) : bytes * bytes :=
  match co with
  | Some c => (upto s c, upto (tl c) l)
  | None => (keyname (upto s l), upto s l)
  end.

(** Where the scan of a multipath goes on after a bracket. *)
Definition sq_end (t : bytes) : bytes := match sq false 0 t with Some r => r | None => [] end.

Fixpoint lcomps (fuel : nat) (l s : bytes) (co : option bytes) : list (bytes * bytes) :=
  match fuel with
  | O => []
  | S fuel =>
      match l with
      | [] => [lpair s co l]
      | b :: t =>
          if (b =? 92)%N then match t with [] => [] | _ :: t' => lcomps fuel t' s co end
          else if ((b =? 40) || (b =? 91) || (b =? 123))%N then lcomps fuel (sq_end t) s co
          else if (b =? 44)%N then lpair s co l :: lcomps fuel t t None
          else if (b =? 58)%N then lcomps fuel t s (Some l)
          else lcomps fuel t s co
      end
  end.

Definition co_ok (s : bytes) (co : option bytes) (l : bytes) : Prop :=
  suf l s /\ match co with Some c => suf c s /\ c <> [] /\ suf l (tl c) | None => True end.

Lemma comp_pair_spec p s co l : suf s p -> co_ok s co l ->
  comp_pair p (pos p s) (pos p l) (option_map (pos p) co) = Ok (lpair s co l).
Proof.
  intros Hs [Hl Hc]. unfold comp_pair, lpair. destruct co as [c|]; cbn [option_map].
  - destruct Hc as (H1 & H2 & H3). rewrite (slice_upto s c p H1 Hs). cbn [bind].
    destruct c as [|x c]; [congruence|]. cbn [tl] in *.
    pose proof (suf_trans _ _ _ H1 Hs) as Hcp. rewrite (pos_S _ _ _ Hcp).
    rewrite (slice_upto c l p H3 (suf_tail _ _ _ Hcp)). reflexivity.
  - rewrite (slice_upto s l p Hl Hs). cbn [bind]. rewrite keyname_eq. reflexivity.
Qed.

Lemma sq_end_suf t : suf (sq_end t) t.
Proof.
  unfold sq_end. destruct (sq false 0 t) as [r|] eqn:E; [|apply suf_nil].
  apply sq_rest in E. tauto.
Qed.

Lemma co_ok_suf s co l l' : suf l' l -> co_ok s co l -> co_ok s co l'.
Proof.
  intros H [H1 H2]. split; [eapply suf_trans; eauto|]. destruct co; auto.
  destruct H2 as (A & B & C). repeat split; auto. eapply suf_trans; eauto.
Qed.

Lemma each_comp_loop_spec p : forall fuel l s co, suf s p -> co_ok s co l -> length l < fuel ->
  each_comp_loop fuel p (pos p l) (pos p s) (option_map (pos p) co) = Ok (lcomps fuel l s co).
Proof.
  induction fuel as [|fuel IH]; intros l s co Hs Hco Hf; [lia|]. cbn [each_comp_loop lcomps].
  pose proof (suf_trans _ _ _ (proj1 Hco) Hs) as Hl.
  destruct l as [|b t].
  { rewrite pos_eqb_nil. rewrite comp_pair_spec; auto. }
  rewrite (pos_eqb _ _ _ Hl), (idx_pos _ _ _ Hl). cbn [bind].
  pose proof (suf_tail _ _ _ Hl) as Ht. pose proof (pos_S _ _ _ Hl) as HS. rewrite HS. simpl in Hf.
  destruct (b =? 92)%N.
  { destruct t as [|c1 t'].
    - rewrite pos_eqb_nil. reflexivity.
    - rewrite (pos_eqb _ _ _ Ht). pose proof (pos_S _ _ _ Ht).
      replace (pos p (b :: c1 :: t') + 2) with (pos p t') by lia.
      apply IH; auto; [|simpl in Hf; lia]. eapply co_ok_suf; [|exact Hco]. exists [b; c1]. reflexivity. }
  destruct ((b =? 40) || (b =? 91) || (b =? 123))%N.
  { rewrite (scan_squash_spec _ _ _ Hl).
    pose proof (suf_length _ _ (sq_end_suf t)) as Hle.
    assert (E : forall m, m = @Ok (bytes * nat) (match sq false 0 t with Some r => upto (b :: t) r | None => [] end, pos p (sq_end t)) ->
      ('(_, next_i) <- m ;; each_comp_loop fuel p next_i (pos p s) (option_map (pos p) co)) = Ok (lcomps fuel (sq_end t) s co)).
    { intros m ->. cbn [bind]. apply IH; auto; [|lia].
      eapply co_ok_suf; [|exact Hco]. eapply suf_trans; [apply sq_end_suf | apply suf_cons]. }
    apply E. unfold sq_end. destruct (sq false 0 t); rewrite ?pos_nil; reflexivity. }
  destruct (b =? 44)%N.
  { rewrite comp_pair_spec; auto. cbn [bind].
    pose proof (IH t t None Ht ltac:(split; auto using suf_refl) ltac:(lia)) as H. cbn [option_map] in H.
    rewrite H. reflexivity. }
  destruct (b =? 58)%N.
  { apply (IH t s (Some (b :: t))); auto; [|lia]. destruct Hco as [H1 H2]. split; [eapply suf_tail; eauto|].
    repeat split; auto; [discriminate | apply suf_refl]. }
  apply IH; auto; [|lia]. eapply co_ok_suf; [|exact Hco]. apply suf_cons.
Qed.

(** The components between the brackets. *)
Definition comps (p : bytes) : list (bytes * bytes) := lcomps (S (length p)) p p None.

Lemma each_comp_spec a p z : each_comp (a :: p ++ [z]) = Ok (comps p).
Proof.
  unfold each_comp. assert (Hlen : length (a :: p ++ [z]) = length p + 2).
  { cbn [length]. rewrite app_length. simpl. lia. }
  rewrite usub_ok by lia. cbn [bind].
  assert (Hs : slice (a :: p ++ [z]) 1 (length (a :: p ++ [z]) - 1) = Ok p).
  { apply (slice_mid [a] p [z]); [reflexivity | rewrite Hlen; simpl; lia]. }
  rewrite Hs. cbn [bind].
  pose proof (each_comp_loop_spec p (S (length p)) p p None (suf_refl _)) as H.
  rewrite pos_refl in H. apply H; auto. split; auto using suf_refl.
Qed.

Lemma lcomps_infix p : forall fuel l s co, suf s p -> co_ok s co l ->
  forall kp, In kp (lcomps fuel l s co) -> infix (snd kp) p.
Proof.
  assert (Hpair : forall s co l, suf s p -> co_ok s co l -> infix (snd (lpair s co l)) p).
  { intros s co l Hs [Hl Hc]. unfold lpair. destruct co as [c|]; cbn [snd].
    - destruct Hc as (H1 & H2 & H3). eapply infix_trans; [apply infix_upto|].
      destruct c as [|x c]; [congruence|]. cbn [tl]. apply infix_suf.
      eapply suf_tail. eapply suf_trans; eauto.
    - eapply infix_trans; [apply infix_upto | apply infix_suf; auto]. }
  induction fuel as [|fuel IH]; intros l s co Hs Hco kp; cbn [lcomps]; [intros []|].
  destruct l as [|b t]; [intros [<-|[]]; auto|].
  pose proof (suf_trans _ _ _ (proj1 Hco) Hs) as Hl. pose proof (suf_tail _ _ _ Hl) as Ht.
  destruct (b =? 92)%N.
  { destruct t as [|c1 t']; [intros []|]. apply IH; auto. eapply co_ok_suf; [|exact Hco]. exists [b; c1]. reflexivity. }
  destruct (_ || _)%N.
  { apply IH; auto. eapply co_ok_suf; [|exact Hco]. eapply suf_trans; [apply sq_end_suf | apply suf_cons]. }
  destruct (b =? 44)%N.
  { intros [<-|H]; auto. eapply IH; [| |exact H]; auto. split; auto using suf_refl. }
  destruct (b =? 58)%N.
  { apply IH; auto. destruct Hco as [H1 H2]. split; [eapply suf_tail; eauto|].
    repeat split; auto; [discriminate | apply suf_refl]. }
  apply IH; auto. eapply co_ok_suf; [|exact Hco]. apply suf_cons.
Qed.

Lemma comps_infix p kp : In kp (comps p) -> infix (snd kp) p.
Proof. apply lcomps_infix; auto using suf_refl. split; auto using suf_refl. Qed.
