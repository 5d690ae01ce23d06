(** [ugly] and the string scan of the pretty printer as functions of the suffix. *)
From Verif Require Import P_Base P_Valid P_Str P_Scan P_Each M_Pretty.

(* ---------- backslash parity ---------- *)

(** [split_str] with the escape state made explicit. *)
Fixpoint sps (e : bool) (l : bytes) : option (bytes * bytes) :=
  match l with
  | [] => None
  | c :: t =>
      if e then match sps false t with Some (b, r) => Some (c :: b, r) | None => None end
      else if (c =? 34)%N then Some ([], t)
      else match sps (c =? 92)%N t with Some (b, r) => Some (c :: b, r) | None => None end
  end.

Lemma sps_split l : sps false l = split_str l.
Proof.
  induction l as [l IH] using (induction_ltof1 _ (@length N)). unfold ltof in IH.
  destruct l as [|c t]; auto. cbn [sps split_str].
  destruct (c =? 34)%N; auto. destruct (c =? 92)%N.
  - destruct t as [|d t']; auto. cbn [sps]. rewrite IH by (simpl; lia).
    destruct (split_str t') as [(b, r)|]; auto.
  - rewrite IH by (simpl; lia). reflexivity.
Qed.

(** Number of backslashes at the front of a reversed text; escape state after a
    text. *)
Fixpoint lead (u : bytes) : nat :=
  match u with c :: t => if (c =? 92)%N then S (lead t) else 0 | [] => 0 end.
Definition est (u : bytes) : bool := Nat.odd (lead (rev u)).

Lemma est_nil : est [] = false.
Proof. reflexivity. Qed.
Lemma est_snoc u c : est (u ++ [c]) = negb (est u) && (c =? 92)%N.
Proof.
  unfold est. rewrite rev_app_distr. cbn [rev app lead]. destruct (c =? 92)%N.
  - rewrite Nat.odd_succ, <- Nat.negb_odd, andb_true_r. reflexivity.
  - rewrite andb_false_r. reflexivity.
Qed.

Lemma idx_mid a c t : idx (a ++ c :: t) (length a) = Ok c.
Proof. unfold idx. rewrite nth_error_app2 by lia. rewrite Nat.sub_diag. reflexivity. Qed.

Lemma lead_le u : lead u <= length u.
Proof. induction u as [|c t IH]; simpl; auto. destruct (c =? 92)%N; lia. Qed.

Lemma back_over_spec a : forall u rest fuel, length u < fuel ->
  back_over fuel (a ++ 34%N :: u ++ rest) (length a + length u) =
    Ok (length a + length u - lead (rev u)).
Proof.
  induction u as [|c u IH] using rev_ind; intros rest fuel Hf; (destruct fuel as [|fuel]; [lia|]); cbn [back_over].
  - rewrite Nat.add_0_r, idx_mid. cbn [bind rev lead]. change (negb (34 =? 92)%N) with true. cbv match.
    f_equal. cbn [length]. lia.
  - rewrite <- app_assoc. rewrite app_length in *. cbn [length app] in *.
    assert (Hi : idx (a ++ 34%N :: u ++ c :: rest) (length a + (length u + 1)) = Ok c).
    { replace (a ++ 34%N :: u ++ c :: rest) with ((a ++ 34%N :: u) ++ c :: rest) by (rewrite <- app_assoc; reflexivity).
      replace (length a + (length u + 1)) with (length (a ++ 34%N :: u)) by (rewrite app_length; simpl; lia).
      apply idx_mid. }
    rewrite Hi. cbn [bind]. rewrite rev_app_distr. cbn [rev app lead].
    destruct (c =? 92)%N; cbn [negb].
    + rewrite usub_ok by lia. cbn [bind].
      replace (length a + (length u + 1) - 1) with (length a + length u) by lia.
      rewrite IH by lia. f_equal. pose proof (lead_le (rev u)). rewrite rev_length in *. lia.
    + f_equal. lia.
Qed.

Lemma count_back_spec a : forall u rest fuel sc, length u < fuel ->
  count_back fuel (a ++ 34%N :: u ++ rest) (length a) (length a + length u) sc = Ok (sc + lead (rev u)).
Proof.
  induction u as [|c u IH] using rev_ind; intros rest fuel sc Hf; (destruct fuel as [|fuel]; [lia|]); cbn [count_back].
  - cbn [length rev lead]. rewrite !Nat.add_0_r. rewrite Nat.ltb_irrefl. reflexivity.
  - rewrite <- app_assoc. rewrite app_length in *. cbn [length app] in *.
    replace (length a <? length a + (length u + 1)) with true by (symmetry; apply Nat.ltb_lt; lia).
    assert (Hi : idx (a ++ 34%N :: u ++ c :: rest) (length a + (length u + 1)) = Ok c).
    { replace (a ++ 34%N :: u ++ c :: rest) with ((a ++ 34%N :: u) ++ c :: rest) by (rewrite <- app_assoc; reflexivity).
      replace (length a + (length u + 1)) with (length (a ++ 34%N :: u)) by (rewrite app_length; simpl; lia).
      apply idx_mid. }
    rewrite Hi. cbn [bind]. rewrite rev_app_distr. cbn [rev app lead].
    destruct (c =? 92)%N.
    + rewrite usub_ok by lia. cbn [bind].
      replace (length a + (length u + 1) - 1) with (length a + length u) by lia.
      rewrite IH by lia. f_equal. lia.
    + f_equal. lia.
Qed.

Lemma mod2_odd n : (n mod 2 =? 1) = Nat.odd n.
Proof.
  pose proof (Nat.bit0_odd n) as H. rewrite Nat.bit0_eqb in H. exact H.
Qed.

Lemma pos_mid a u (l : bytes) : pos (a ++ 34%N :: u ++ l) l = length a + 1 + length u.
Proof. unfold pos. rewrite app_length. cbn [length]. rewrite app_length. lia. Qed.

(* ---------- ugly ---------- *)

Lemma ugly_string_spec a : forall l u fuel dst, length l < fuel ->
  let src := a ++ 34%N :: u ++ l in
  ugly_string fuel src (pos src l) dst =
    Ok (match sps (est u) l with
        | Some (b, r) => (pos src (34%N :: r), dst ++ b ++ [34%N])
        | None => (length src, dst ++ l)
        end).
Proof.
  induction l as [|c t IH]; intros u fuel dst Hf src; (destruct fuel as [|fuel]; [simpl in Hf; lia|]); cbn [ugly_string].
  - rewrite pos_ltb_nil. cbn [sps]. rewrite pos_nil, app_nil_r. reflexivity.
  - assert (Hl : suf (c :: t) src) by (unfold src; exists (a ++ 34%N :: u); rewrite <- app_assoc; reflexivity).
    rewrite (pos_ltb _ _ _ Hl), (idx_pos _ _ _ Hl). cbn [bind]. simpl in Hf.
    rewrite (pos_S _ _ _ Hl).
    assert (Esrc : src = a ++ 34%N :: (u ++ [c]) ++ t) by (unfold src; rewrite <- app_assoc; reflexivity).
    assert (Hrec : forall e, est (u ++ [c]) = e ->
      ugly_string fuel src (pos src t) (dst ++ [c]) =
      Ok (match sps e t with
          | Some (b, r) => (pos src (34%N :: r), dst ++ (c :: b) ++ [34%N])
          | None => (length src, dst ++ c :: t) end)).
    { intros e <-. rewrite Esrc. rewrite IH by lia. rewrite <- Esrc.
      destruct (sps (est (u ++ [c])) t) as [(b, r)|]; rewrite <- !app_assoc; reflexivity. }
    rewrite est_snoc in Hrec.
    assert (Hfin : match (match sps (if est u then false else (c =? 92)%N) t with Some (b, r) => Some (c :: b, r) | None => None end) with
                   | Some (b, r) => (pos src (34%N :: r), dst ++ b ++ [34%N])
                   | None => (length src, dst ++ c :: t) end =
            match sps (negb (est u) && (c =? 92)%N) t with
            | Some (b, r) => (pos src (34%N :: r), dst ++ (c :: b) ++ [34%N])
            | None => (length src, dst ++ c :: t) end).
    { destruct (est u); cbn [negb andb].
      - destruct (sps false t) as [(b, r)|]; reflexivity.
      - destruct (sps (c =? 92)%N t) as [(b, r)|]; reflexivity. }
    destruct (N.eqb_spec c 34) as [->|Hc].
    + assert (Hp : pos src (34%N :: t) = length a + 1 + length u) by apply pos_mid.
      rewrite Hp. rewrite usub_ok by lia. cbn [bind].
      replace (length a + 1 + length u - 1) with (length a + length u) by lia.
      unfold src at 2. rewrite back_over_spec by (unfold src; rewrite app_length; cbn [length]; rewrite app_length; lia).
      cbn [bind]. pose proof (lead_le (rev u)) as Hle. rewrite rev_length in Hle.
      rewrite usub_ok by lia. cbn [bind].
      replace (length a + 1 + length u - (length a + length u - lead (rev u))) with (S (lead (rev u))) by lia.
      assert (Hd : negb (S (lead (rev u)) mod 2 =? 0) = negb (est u)).
      { unfold est. pose proof (mod2_odd (S (lead (rev u)))) as H1.
        rewrite Nat.odd_succ, <- Nat.negb_odd in H1. rewrite <- H1.
        pose proof (Nat.mod_upper_bound (S (lead (rev u))) 2 ltac:(lia)).
        destruct (Nat.eqb_spec (S (lead (rev u)) mod 2) 0); destruct (Nat.eqb_spec (S (lead (rev u)) mod 2) 1); simpl; auto; lia. }
      rewrite Hd. cbn [sps]. destruct (est u) eqn:Ee; cbn [negb].
      * rewrite (Hrec false eq_refl). destruct (sps false t) as [(b, r)|]; reflexivity.
      * change (34 =? 34)%N with true. cbv match. rewrite <- Hp. cbn [app]. reflexivity.
    + rewrite (Hrec _ eq_refl). f_equal. rewrite <- Hfin. cbn [sps].
      replace (c =? 34)%N with false by lia. destruct (est u); reflexivity.
Qed.

Fixpoint luglyf (fuel : nat) (l : bytes) : bytes :=
  match fuel with
  | O => []
  | S fuel =>
      match l with
      | [] => []
      | c :: t =>
          if (32 <? c)%N then
            if (c =? 34)%N then
              match split_str t with
              | Some (b, r) => 34%N :: b ++ 34%N :: luglyf fuel r
              | None => 34%N :: t
              end
            else c :: luglyf fuel t
          else luglyf fuel t
      end
  end.
Definition lugly (l : bytes) : bytes := luglyf (S (length l)) l.

Lemma luglyf_fuel : forall n m l, length l < n -> length l < m -> luglyf n l = luglyf m l.
Proof.
  induction n as [|n IH]; intros [|m] l Hn Hm; try lia. destruct l as [|c t]; auto.
  cbn [luglyf]. simpl in Hn, Hm.
  destruct (split_str t) as [(b, r)|] eqn:E.
  - apply split_rest in E as [_ E]. rewrite (IH m r), (IH m t) by lia. reflexivity.
  - rewrite (IH m t) by lia. reflexivity.
Qed.

Lemma lugly_nil : lugly [] = [].
Proof. reflexivity. Qed.
Lemma lugly_cons c t : lugly (c :: t) =
  if (32 <? c)%N then
    if (c =? 34)%N then
      match split_str t with Some (b, r) => 34%N :: b ++ 34%N :: lugly r | None => 34%N :: t end
    else c :: lugly t
  else lugly t.
Proof.
  unfold lugly. cbn [luglyf]. rewrite (luglyf_fuel (length (c :: t)) (S (length t)) t) by (simpl; lia).
  destruct (split_str t) as [(b, r)|] eqn:E; auto.
  apply split_rest in E as [_ E]. rewrite (luglyf_fuel (length (c :: t)) (S (length r)) r) by (simpl; lia).
  reflexivity.
Qed.

Lemma ugly_loop_spec src : forall fuel l dst, suf l src -> length l < fuel ->
  ugly_loop fuel src (pos src l) dst = Ok (dst ++ lugly l).
Proof.
  induction fuel as [|fuel IH]; intros l dst Hl Hf; [lia|]. cbn [ugly_loop].
  destruct l as [|c t]; [rewrite pos_ltb_nil, lugly_nil, app_nil_r; reflexivity|].
  rewrite (pos_ltb _ _ _ Hl), (idx_pos _ _ _ Hl). cbn [bind]. rewrite lugly_cons.
  rewrite (pos_S _ _ _ Hl). pose proof (suf_tail _ _ _ Hl) as Ht. simpl in Hf.
  destruct (32 <? c)%N; [|apply IH; auto; lia].
  destruct (N.eqb_spec c 34) as [->|].
  - destruct Hl as [a Ha].
    pose proof (ugly_string_spec a t [] (S (length src)) (dst ++ [34%N]) ltac:(apply suf_length in Ht; lia)) as H.
    cbv zeta in H. cbn [app] in H. rewrite <- Ha in H. rewrite H. cbn [bind]. rewrite est_nil, sps_split.
    destruct (split_str t) as [(b, r)|] eqn:E.
    + pose proof (split_str_app _ _ _ E) as Et.
      assert (Hr : suf (34%N :: r) src).
      { eapply suf_trans; [|exact Ht]. rewrite Et. apply suf_app. }
      rewrite (pos_S _ _ _ Hr). apply split_rest in E as [_ El].
      rewrite IH; [|eapply suf_tail; eauto | lia].
      rewrite <- !app_assoc. reflexivity.
    + destruct fuel as [|fuel]; [lia|]. cbn [ugly_loop].
      replace (length src + 1 <? length src) with false by (symmetry; apply Nat.ltb_ge; lia).
      rewrite <- app_assoc. reflexivity.
  - rewrite IH by (auto; lia). rewrite <- app_assoc. reflexivity.
Qed.

Lemma ugly_spec src : ugly src = Ok (lugly src).
Proof.
  unfold ugly. pose proof (ugly_loop_spec src (S (length src)) src [] (suf_refl _) ltac:(lia)) as H.
  rewrite pos_refl in H. exact H.
Qed.

(* ---------- the strings of the pretty printer ---------- *)

(** The text and the remainder of the string starting at a suffix. *)
Definition lpstr (t : bytes) : bytes * bytes :=
  match split_str t with Some (b, r) => (34%N :: b ++ [34%N], r) | None => (34%N :: t, []) end.

Lemma pretty_string_loop_spec a : forall l u fuel, length l < fuel ->
  let src := a ++ 34%N :: u ++ l in
  pretty_string_loop fuel src (length a) (pos src l) =
    Ok (match sps (est u) l with Some (_, r) => pos src r | None => length src end).
Proof.
  induction l as [|c t IH]; intros u fuel Hf src; (destruct fuel as [|fuel]; [simpl in Hf; lia|]); cbn [pretty_string_loop].
  - rewrite pos_ltb_nil. cbn [sps]. rewrite pos_nil. reflexivity.
  - assert (Hl : suf (c :: t) src) by (unfold src; exists (a ++ 34%N :: u); rewrite <- app_assoc; reflexivity).
    rewrite (pos_ltb _ _ _ Hl), (idx_pos _ _ _ Hl). cbn [bind]. simpl in Hf.
    rewrite (pos_S _ _ _ Hl).
    assert (Esrc : src = a ++ 34%N :: (u ++ [c]) ++ t) by (unfold src; rewrite <- app_assoc; reflexivity).
    assert (Hrec : forall e, est (u ++ [c]) = e ->
      pretty_string_loop fuel src (length a) (pos src t) =
      Ok (match sps e t with Some (_, r) => pos src r | None => length src end)).
    { intros e <-. rewrite Esrc. rewrite IH by lia. reflexivity. }
    rewrite est_snoc in Hrec.
    assert (Hfin : match (match sps (if est u then false else (c =? 92)%N) t with Some (b, r) => Some (c :: b, r) | None => None end) with
                   | Some (_, r) => pos src r | None => length src end =
            match sps (negb (est u) && (c =? 92)%N) t with Some (_, r) => pos src r | None => length src end).
    { destruct (est u); cbn [negb andb].
      - destruct (sps false t) as [(b, r)|]; reflexivity.
      - destruct (sps (c =? 92)%N t) as [(b, r)|]; reflexivity. }
    destruct (N.eqb_spec c 34) as [->|Hc].
    + assert (Hp : pos src (34%N :: t) = length a + 1 + length u) by apply pos_mid.
      rewrite Hp. rewrite usub_ok by lia. cbn [bind].
      replace (length a + 1 + length u - 1) with (length a + length u) by lia.
      unfold src at 2. rewrite count_back_spec by (unfold src; rewrite app_length; cbn [length]; rewrite app_length; lia).
      cbn [bind]. rewrite mod2_odd. cbn [Nat.add]. fold (est u). cbn [sps].
      destruct (est u) eqn:Ee; cbn [negb].
      * rewrite (Hrec false eq_refl). destruct (sps false t) as [(b, r)|]; reflexivity.
      * reflexivity.
    + rewrite (Hrec _ eq_refl). f_equal. rewrite <- Hfin. cbn [sps].
      replace (c =? 34)%N with false by lia. destruct (est u); reflexivity.
Qed.

Lemma extend_pretty_string_spec buf json t nl : suf (34%N :: t) json ->
  extend_pretty_string buf json (pos json (34%N :: t)) nl =
    Ok (buf ++ fst (lpstr t), pos json (snd (lpstr t)), nl, true).
Proof.
  intros Hl. unfold extend_pretty_string. rewrite (pos_S _ _ _ Hl).
  pose proof Hl as [a Ha].
  pose proof (pretty_string_loop_spec a t [] (S (length json)) ltac:(apply suf_tail, suf_length in Hl; lia)) as H.
  cbv zeta in H. cbn [app] in H. rewrite <- Ha in H.
  assert (Hpa : pos json (34%N :: t) = length a).
  { unfold pos. rewrite Ha, app_length. lia. }
  rewrite Hpa. rewrite H. cbn [bind]. rewrite <- Hpa. rewrite est_nil, sps_split. unfold lpstr.
  destruct (split_str t) as [(b, r)|] eqn:E; cbn [fst snd].
  - apply split_str_app in E. subst t.
    assert (Hsl : slice json (pos json (34%N :: b ++ 34%N :: r)) (pos json r) = Ok (34%N :: b ++ [34%N])).
    { assert (Eq : 34%N :: b ++ 34%N :: r = (34%N :: b ++ [34%N]) ++ r) by (cbn [app]; rewrite <- app_assoc; reflexivity).
      rewrite Eq. apply slice_pos. rewrite <- Eq. exact Hl. }
    rewrite Hsl. reflexivity.
  - rewrite pos_nil. rewrite <- (pos_nil json).
    assert (Hsl : slice json (pos json (34%N :: t)) (pos json []) = Ok (34%N :: t)).
    { pose proof (slice_pos (34%N :: t) [] json) as Hs. rewrite app_nil_r in Hs. auto. }
    rewrite Hsl. reflexivity.
Qed.

Definition pnum_stop (c : N) : bool :=
  ((c <=? 32) || (c =? 44) || (c =? 58) || (c =? 93) || (c =? 125))%N.

Lemma pretty_number_loop_spec json : forall fuel l, suf l json -> length l < fuel ->
  pretty_number_loop fuel json (pos json l) = Ok (pos json (dropw pnum_stop l)).
Proof.
  induction fuel as [|fuel IH]; intros l Hl Hf; [lia|]. cbn [pretty_number_loop].
  destruct l as [|c t]; [rewrite pos_ltb_nil; reflexivity|].
  rewrite (pos_ltb _ _ _ Hl), (idx_pos _ _ _ Hl). cbn [bind dropw]. fold (pnum_stop c).
  destruct (pnum_stop c); auto. rewrite (pos_S _ _ _ Hl). simpl in Hf.
  apply IH; [eapply suf_tail; eauto | lia].
Qed.

Lemma extend_pretty_number_spec buf json c t nl : suf (c :: t) json ->
  extend_pretty_number buf json (pos json (c :: t)) nl =
    Ok (buf ++ c :: upto t (dropw pnum_stop t), pos json (dropw pnum_stop t), nl, true).
Proof.
  intros Hl. unfold extend_pretty_number. rewrite (pos_S _ _ _ Hl).
  pose proof (suf_tail _ _ _ Hl) as Ht.
  rewrite pretty_number_loop_spec by (auto; apply suf_length in Ht; lia). cbn [bind].
  pose proof (upto_suf _ _ (suf_dropw pnum_stop t)) as Eu.
  assert (Hsl : slice json (pos json (c :: t)) (pos json (dropw pnum_stop t)) = Ok (c :: upto t (dropw pnum_stop t))).
  { rewrite Eu at 1. rewrite app_comm_cons. apply slice_pos. cbn [app]. rewrite <- Eu. exact Hl. }
  rewrite Hsl. reflexivity.
Qed.
