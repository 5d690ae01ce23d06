(** The scanners of M_Scan as functions of the suffix they start at. *)
From Verif Require Import P_Base P_Valid P_Str M_Util M_Scan.

(* ---------- positions of suffixes ---------- *)

Definition suf (l json : bytes) : Prop := exists a, json = a ++ l.
Definition pos (json l : bytes) : nat := length json - length l.

Lemma suf_refl l : suf l l.
Proof. exists []. reflexivity. Qed.
Lemma suf_nil l : suf [] l.
Proof. exists l. rewrite app_nil_r. reflexivity. Qed.
Lemma suf_cons c t : suf t (c :: t).
Proof. exists [c]. reflexivity. Qed.
Lemma suf_app a b : suf b (a ++ b).
Proof. exists a. reflexivity. Qed.
Lemma suf_trans a b c : suf a b -> suf b c -> suf a c.
Proof. intros [x ->] [y ->]. exists (y ++ x). rewrite app_assoc. reflexivity. Qed.
Lemma suf_tail c t json : suf (c :: t) json -> suf t json.
Proof. apply suf_trans, suf_cons. Qed.
Lemma suf_app_r a b json : suf (a ++ b) json -> suf b json.
Proof. apply suf_trans, suf_app. Qed.
Lemma suf_length l json : suf l json -> length l <= length json.
Proof. intros [a ->]. rewrite app_length. lia. Qed.
Lemma suf_dropw stop l : suf (dropw stop l) l.
Proof. destruct (dropw_split stop l) as (a & E & _). exists a. exact E. Qed.
Lemma suf_skipn i l : suf (skipn i l) l.
Proof. exists (firstn i l). rewrite firstn_skipn. reflexivity. Qed.

Lemma pos_nil json : pos json [] = length json.
Proof. unfold pos. simpl. lia. Qed.
Lemma pos_refl json : pos json json = 0.
Proof. unfold pos. lia. Qed.
Lemma pos_le json l : pos json l <= length json.
Proof. unfold pos. lia. Qed.
Lemma skipn_pos l json : suf l json -> skipn (pos json l) json = l.
Proof.
  intros [a ->]. unfold pos. rewrite app_length, Nat.add_sub. apply skipn_length_app.
Qed.
Lemma pos_skipn i json : i <= length json -> pos json (skipn i json) = i.
Proof. intros H. unfold pos. rewrite skipn_length. lia. Qed.
Lemma pos_S c t json : suf (c :: t) json -> pos json (c :: t) + 1 = pos json t.
Proof. intros H. apply suf_length in H. unfold pos. simpl in *. lia. Qed.
Lemma pos_app a t json : suf (a ++ t) json -> pos json (a ++ t) + length a = pos json t.
Proof. intros H. apply suf_length in H. unfold pos. rewrite app_length in *. lia. Qed.
Lemma idx_pos c t json : suf (c :: t) json -> idx json (pos json (c :: t)) = Ok c.
Proof. intros H. eapply idx_skipn, skipn_pos, H. Qed.
Lemma idx_unchecked_pos c t json : suf (c :: t) json -> idx_unchecked json (pos json (c :: t)) = Ok c.
Proof. intros H. eapply idx_unchecked_skipn, skipn_pos, H. Qed.
Lemma pos_ltb c t json : suf (c :: t) json -> (pos json (c :: t) <? length json) = true.
Proof. intros H. eapply ltb_skipn, skipn_pos, H. Qed.
Lemma pos_ltb_nil json : (pos json [] <? length json) = false.
Proof. rewrite pos_nil. apply Nat.ltb_irrefl. Qed.
Lemma pos_eqb c t json : suf (c :: t) json -> (pos json (c :: t) =? length json) = false.
Proof. intros H. eapply eqb_skipn, skipn_pos, H. Qed.
Lemma pos_eqb_nil json : (pos json [] =? length json) = true.
Proof. rewrite pos_nil. apply Nat.eqb_refl. Qed.
Lemma slice_pos a t json : suf (a ++ t) json -> slice json (pos json (a ++ t)) (pos json t) = Ok a.
Proof.
  intros H. pose proof (suf_length _ _ H) as Hl. rewrite app_length in Hl.
  rewrite slice_ok; [|unfold pos; rewrite app_length; lia | apply pos_le].
  rewrite (skipn_pos _ _ H). f_equal.
  replace (pos json t - pos json (a ++ t)) with (length a) by (unfold pos; rewrite app_length; lia).
  apply firstn_length_app.
Qed.
Lemma slice_from_pos l json : suf l json -> slice_from json (pos json l) = Ok l.
Proof. intros H. rewrite slice_from_ok by apply pos_le. rewrite skipn_pos; auto. Qed.

(** The text between a suffix and a later one. *)
Definition upto (l r : bytes) : bytes := firstn (length l - length r) l.
Lemma upto_app a b : upto (a ++ b) b = a.
Proof. unfold upto. rewrite app_length, Nat.add_sub. apply firstn_length_app. Qed.
Lemma upto_suf r l : suf r l -> l = upto l r ++ r.
Proof. intros [a ->]. rewrite upto_app. reflexivity. Qed.
Lemma slice_upto l r json : suf r l -> suf l json -> slice json (pos json l) (pos json r) = Ok (upto l r).
Proof.
  intros Hr Hl. destruct Hr as [a ->]. rewrite upto_app. apply slice_pos; auto.
Qed.

(* ---------- tok ---------- *)

Definition cls_stop (bit : N) (c : N) : bool := has (chtable c) bit.

Lemma tok_for_spec bit json : forall n l, suf l json -> n <= length l ->
  tok_for n bit json (pos json l) =
    Ok (match dropw (cls_stop bit) (firstn n l) with
        | [] => TNext (pos json (skipn n l))
        | c :: t => TFound c (pos json (c :: t ++ skipn n l))
        end).
Proof.
  induction n as [|n IH]; intros l Hl Hn; cbn [tok_for].
  - reflexivity.
  - destruct l as [|c t]; [simpl in Hn; lia|].
    rewrite (idx_unchecked_pos _ _ _ Hl). cbn [bind firstn skipn dropw].
    fold (cls_stop bit c). destruct (cls_stop bit c).
    + rewrite firstn_skipn. reflexivity.
    + rewrite (pos_S _ _ _ Hl). apply IH; [eapply suf_tail; eauto | simpl in Hn; lia].
Qed.

Definition tokr (json l : bytes) : option (N * nat) :=
  match l with [] => None | c :: _ => Some (c, pos json l) end.

Lemma tok_by1_spec bit json : forall fuel l, suf l json -> length l < fuel ->
  tok_by1 fuel bit json (pos json l) = Ok (tokr json (dropw (cls_stop bit) l)).
Proof.
  induction fuel as [|fuel IH]; intros l Hl Hf; [lia|]. cbn [tok_by1].
  destruct l as [|c t].
  - rewrite pos_ltb_nil. reflexivity.
  - rewrite (pos_ltb _ _ _ Hl), (idx_pos _ _ _ Hl). cbn [bind dropw].
    fold (cls_stop bit c). destruct (cls_stop bit c); [reflexivity|].
    rewrite (pos_S _ _ _ Hl). apply IH; [eapply suf_tail; eauto | simpl in Hf; lia].
Qed.

Lemma dropw_firstn stop n l :
  match dropw stop (firstn n l) with
  | [] => dropw stop l = dropw stop (skipn n l)
  | c :: t => dropw stop l = c :: t ++ skipn n l
  end.
Proof.
  revert l; induction n as [|n IH]; intros [|c t]; simpl; auto.
  destruct (stop c); [rewrite firstn_skipn; auto | apply IH].
Qed.

Lemma tok_by8_spec bit json : forall fuel l, suf l json -> length l < fuel ->
  tok_by8 fuel bit json (pos json l) = Ok (tokr json (dropw (cls_stop bit) l)).
Proof.
  induction fuel as [|fuel IH]; intros l Hl Hf; [lia|]. cbn [tok_by8].
  destruct (pos json l + 8 <? length json) eqn:E8.
  - assert (Hn : 8 < length l).
    { apply Nat.ltb_lt in E8. unfold pos in E8. lia. }
    rewrite tok_for_spec by (auto; lia).
    pose proof (dropw_firstn (cls_stop bit) 8 l) as Hd.
    destruct (dropw (cls_stop bit) (firstn 8 l)) as [|c t]; cbn [bind].
    + rewrite Hd. apply IH.
      * eapply suf_trans; [apply suf_skipn | exact Hl].
      * rewrite skipn_length. lia.
    + rewrite Hd. reflexivity.
  - apply tok_by1_spec; auto. apply suf_length in Hl. lia.
Qed.

Lemma tok_spec bit json l : suf l json ->
  tok bit json (pos json l) = Ok (tokr json (dropw (cls_stop bit) l)).
Proof. intros H. apply tok_by8_spec; auto. apply suf_length in H. lia. Qed.

(* ---------- scan_string ---------- *)

(** What stands before the closing quote, and what follows it. *)
Fixpoint split_str (l : bytes) : option (bytes * bytes) :=
  match l with
  | [] => None
  | c :: t =>
      if (c =? 34)%N then Some ([], t)
      else if (c =? 92)%N then
        match t with
        | [] => None
        | e :: t' =>
            match split_str t' with Some (b, r) => Some (c :: e :: b, r) | None => None end
        end
      else match split_str t with Some (b, r) => Some (c :: b, r) | None => None end
  end.

Definition hasbsl (b : bytes) : bool := existsb (fun c => (c =? 92)%N) b.
Definition esc_info (b : bytes) : N := if hasbsl b then INFO_ESC else 0%N.

Lemma split_str_app l b r : split_str l = Some (b, r) -> l = b ++ 34%N :: r.
Proof.
  revert b r. induction l as [l IH] using (induction_ltof1 _ (@length N)). unfold ltof in IH.
  intros b r. destruct l as [|c t]; simpl; try discriminate.
  destruct (N.eqb_spec c 34) as [->|].
  - intros [= <- <-]. reflexivity.
  - destruct (N.eqb_spec c 92) as [->|].
    + destruct t as [|e t']; try discriminate.
      destruct (split_str t') as [(b', r')|] eqn:E; try discriminate.
      intros [= <- <-]. apply IH in E; [|simpl; lia]. subst. reflexivity.
    + destruct (split_str t) as [(b', r')|] eqn:E; try discriminate.
      intros [= <- <-]. apply IH in E; [|simpl; lia]. subst. reflexivity.
Qed.

Lemma strtok_stop c : cls_stop CHSTRTOK c = ((c =? 34) || (c =? 92))%N.
Proof.
  unfold cls_stop, chtable. cls; subst; try reflexivity; try lia.
Qed.

(** Skipping to the next stop byte does not change the split. *)
Lemma split_str_dropw l : exists a, l = a ++ dropw (cls_stop CHSTRTOK) l /\ hasbsl a = false /\
  split_str l = match split_str (dropw (cls_stop CHSTRTOK) l) with
                | Some (b, r) => Some (a ++ b, r)
                | None => None
                end.
Proof.
  induction l as [|c t (a & Ea & Hb & Hs)].
  - exists []. auto.
  - cbn [dropw]. destruct (cls_stop CHSTRTOK c) eqn:E.
    + exists []. repeat split; auto. destruct (split_str (c :: t)) as [(b, r)|]; auto.
    + rewrite strtok_stop in E. apply orb_false_iff in E as [E1 E2].
      exists (c :: a). cbn [app split_str hasbsl existsb]. rewrite E1, E2. repeat split.
      * rewrite <- Ea. reflexivity.
      * exact Hb.
      * rewrite Hs. destruct (split_str (dropw _ t)) as [(b, r)|]; reflexivity.
Qed.

Lemma scan_string_loop_spec json s : forall fuel l info,
  suf l s -> suf s json -> length l < fuel -> info = 0%N \/ info = INFO_ESC ->
  scan_string_loop fuel json (pos json s) (pos json l) info =
    Ok (match split_str l with
        | Some (b, r) => (upto s r, N.lor info (esc_info b), pos json r)
        | None => ([], 0%N, length json)
        end).
Proof.
  induction fuel as [|fuel IH]; intros l info Hl Hs Hf Hi; [lia|]. cbn [scan_string_loop].
  pose proof (suf_trans _ _ _ Hl Hs) as Hlj.
  rewrite (tok_spec _ _ _ Hlj). cbn [bind].
  destruct (split_str_dropw l) as (a & Ea & Hb & ->).
  pose proof (suf_dropw (cls_stop CHSTRTOK) l) as Hd.
  pose proof (dropw_length (cls_stop CHSTRTOK) l) as Hdl.
  destruct (dropw (cls_stop CHSTRTOK) l) as [|c t] eqn:Ed; [reflexivity|].
  apply dropw_head in Ed. rewrite strtok_stop in Ed.
  pose proof (suf_trans _ _ _ Hd Hlj) as Hcj. pose proof (suf_trans _ _ _ Hd Hl) as Hcs.
  cbn [tokr split_str]. destruct (N.eqb_spec c 34) as [->|Hc].
  - rewrite (pos_S _ _ _ Hcj), slice_upto; auto; [|eapply suf_tail; eauto]. cbn [bind].
    rewrite app_nil_r. unfold esc_info. rewrite Hb.
    rewrite N.lor_0_r. reflexivity.
  - destruct (N.eqb_spec c 92) as [->|]; [|apply orb_true_iff in Ed as [?|?]; lia].
    rewrite (pos_S _ _ _ Hcj).
    destruct t as [|e t'].
    + rewrite pos_eqb_nil. reflexivity.
    + pose proof (suf_tail _ _ _ Hcj) as Hej. pose proof (suf_tail _ _ _ Hcs) as Hes.
      rewrite (pos_eqb _ _ _ Hej), (pos_S _ _ _ Hej).
      simpl in Hdl.
      rewrite IH; auto; try lia; [|eapply suf_tail; eauto | right; destruct Hi as [->| ->]; reflexivity].
      destruct (split_str t') as [(b, r)|]; auto.
      unfold esc_info, hasbsl. rewrite existsb_app. fold (hasbsl a). rewrite Hb. cbn [existsb orb N.eqb Pos.eqb].
      destruct Hi as [->| ->]; destruct (existsb _ b); reflexivity.
Qed.

Lemma scan_string_spec json t : suf (34%N :: t) json ->
  scan_string json (pos json (34%N :: t)) =
    Ok (match split_str t with
        | Some (b, r) => (34%N :: b ++ [34%N], esc_info b, pos json r)
        | None => ([], 0%N, length json)
        end).
Proof.
  intros H. unfold scan_string. rewrite (pos_S _ _ _ H), scan_string_loop_spec; auto.
  - f_equal. destruct (split_str t) as [(b, r)|] eqn:E; auto.
    apply split_str_app in E. subst t. rewrite N.lor_0_l. f_equal. f_equal.
    change (34%N :: b ++ 34%N :: r) with ((34%N :: b) ++ [34%N] ++ r).
    rewrite app_assoc, upto_app. reflexivity.
  - apply suf_cons.
  - apply suf_length in H. simpl in H. lia.
Qed.

(* ---------- scan_squash ---------- *)

Definition is_open (c : N) : bool := ((c =? 123) || (c =? 91) || (c =? 40))%N.
Definition is_close (c : N) : bool := ((c =? 125) || (c =? 93) || (c =? 41))%N.

(** What follows the bracket closing [d + 1] open ones; [q]: inside a string. *)
Fixpoint sq (q : bool) (d : nat) (l : bytes) : option bytes :=
  match l with
  | [] => None
  | c :: t =>
      if (c =? 92)%N then match t with [] => None | _ :: t' => sq q d t' end
      else if (c =? 34)%N then sq (negb q) d t
      else if q then sq q d t
      else if is_open c then sq q (S d) t
      else if is_close c then match d with O => Some t | S d' => sq q d' t end
      else sq q d t
  end.

Lemma sq_suf q d l r : sq q d l = Some r -> exists a, a <> [] /\ l = a ++ r.
Proof.
  revert q d r. induction l as [l IH] using (induction_ltof1 _ (@length N)). unfold ltof in IH.
  intros q d r. destruct l as [|c t]; simpl; try discriminate.
  assert (Hc : forall q d, sq q d t = Some r -> exists a, a <> [] /\ c :: t = a ++ r).
  { intros q' d' H. apply IH in H; [|simpl; lia]. destruct H as (a & _ & ->). exists (c :: a).
    split; [discriminate | reflexivity]. }
  destruct (c =? 92)%N.
  - destruct t as [|e t']; try discriminate. intros H. apply IH in H; [|simpl; lia].
    destruct H as (a & _ & ->). exists (c :: e :: a). split; [discriminate | reflexivity].
  - destruct (c =? 34)%N; [apply Hc|]. destruct q; [apply Hc|].
    destruct (is_open c); [apply Hc|]. destruct (is_close c); [|apply Hc].
    destruct d; [|apply Hc]. intros [= <-]. exists [c]. split; [discriminate | reflexivity].
Qed.

Lemma squash_stop c : cls_stop CHSQUASH c = (is_open c || is_close c || (c =? 34) || (c =? 92))%N.
Proof. unfold cls_stop, chtable, is_open, is_close. cls; subst; try reflexivity; try lia. Qed.

Lemma chtable_open c : has (chtable c) CHOPEN = is_open c.
Proof. unfold chtable, is_open. cls; subst; try reflexivity; try lia. Qed.
Lemma chtable_close c : has (chtable c) CHCLOSE = is_close c.
Proof. unfold chtable, is_close. cls; subst; try reflexivity; try lia. Qed.

Lemma sq_dropw d l : sq false d (dropw (cls_stop CHSQUASH) l) = sq false d l.
Proof.
  induction l as [|c t IH]; auto. cbn [dropw]. destruct (cls_stop CHSQUASH c) eqn:E; auto.
  rewrite squash_stop in E. apply orb_false_iff in E as [E H1]. apply orb_false_iff in E as [E H2].
  apply orb_false_iff in E as [H3 H4].
  rewrite IH. cbn [sq]. rewrite H1, H2, H3, H4. reflexivity.
Qed.

Lemma sq_string d l : sq true d l =
  match split_str l with Some (_, r) => sq false d r | None => None end.
Proof.
  induction l as [l IH] using (induction_ltof1 _ (@length N)). unfold ltof in IH.
  destruct l as [|c t]; [reflexivity|]. cbn [sq split_str].
  destruct (N.eqb_spec c 92) as [->|].
  - cbn [N.eqb Pos.eqb]. destruct t as [|e t']; auto. rewrite IH by (simpl; lia).
    destruct (split_str t') as [(b, r)|]; auto.
  - destruct (c =? 34)%N; auto. rewrite IH by (simpl; lia).
    destruct (split_str t) as [(b, r)|]; auto.
Qed.

Lemma scan_squash_loop_spec json s : forall fuel l d,
  suf l s -> suf s json -> length l < fuel ->
  scan_squash_loop fuel json (pos json s) (pos json l) (Z.of_nat (S d)) =
    Ok (match sq false d l with
        | Some r => (upto s r, pos json r)
        | None => ([], length json)
        end).
Proof.
  induction fuel as [|fuel IH]; intros l d Hl Hs Hf; [lia|]. cbn [scan_squash_loop].
  pose proof (suf_trans _ _ _ Hl Hs) as Hlj.
  rewrite (tok_spec _ _ _ Hlj). cbn [bind]. rewrite <- sq_dropw.
  pose proof (suf_dropw (cls_stop CHSQUASH) l) as Hd.
  pose proof (dropw_length (cls_stop CHSQUASH) l) as Hdl.
  destruct (dropw (cls_stop CHSQUASH) l) as [|c t] eqn:Ed; [reflexivity|].
  apply dropw_head in Ed. rewrite squash_stop in Ed. simpl in Hdl.
  pose proof (suf_trans _ _ _ Hd Hlj) as Hcj. pose proof (suf_trans _ _ _ Hd Hl) as Hcs.
  pose proof (suf_tail _ _ _ Hcj) as Htj. pose proof (suf_tail _ _ _ Hcs) as Hts.
  cbn [tokr sq]. rewrite chtable_open, chtable_close.
  destruct (N.eqb_spec c 34) as [->|H34].
  - rewrite (scan_string_spec _ _ Hcj). cbn [bind N.eqb Pos.eqb negb].
    rewrite sq_string. destruct (split_str t) as [(b, r)|] eqn:Es.
    + apply split_str_app in Es. apply IH; auto.
      * subst t. eapply suf_trans; [|exact Hts]. change (b ++ 34%N :: r) with (b ++ [34%N] ++ r).
        rewrite app_assoc. apply suf_app.
      * subst t. rewrite app_length in Hdl. simpl in Hdl. lia.
    + pose proof (IH [] d (suf_nil _) Hs) as H0. rewrite pos_nil in H0. apply H0. simpl. lia.
  - destruct (is_open c) eqn:Eo.
    { destruct (N.eqb_spec c 92) as [->|]; [discriminate|]. rewrite (pos_S _ _ _ Hcj).
      replace (Z.of_nat (S d) + 1)%Z with (Z.of_nat (S (S d))) by lia.
      apply IH; auto; lia. }
    destruct (is_close c) eqn:Ec.
    { destruct (N.eqb_spec c 92) as [->|]; [discriminate|]. rewrite (pos_S _ _ _ Hcj).
      destruct d as [|d].
      - cbn [Z.of_nat Pos.of_succ_nat Z.sub Z.add Z.opp Z.pos_sub Z.eqb].
        rewrite slice_upto; auto.
      - replace (Z.of_nat (S (S d)) - 1)%Z with (Z.of_nat (S d)) by lia.
        replace (Z.of_nat (S d) =? 0)%Z with false by lia.
        apply IH; auto; lia. }
    destruct (N.eqb_spec c 92) as [->|]; [|exfalso; rewrite ?Eo, ?Ec in Ed; cbn [orb] in Ed; lia].
    rewrite (pos_S _ _ _ Hcj). destruct t as [|e t'].
    + rewrite pos_eqb_nil. reflexivity.
    + rewrite (pos_eqb _ _ _ Htj), (pos_S _ _ _ Htj).
      apply IH; auto; [eapply suf_tail; eauto | simpl in *; lia].
Qed.

Lemma scan_squash_spec json c t : suf (c :: t) json ->
  scan_squash json (pos json (c :: t)) =
    Ok (match sq false 0 t with
        | Some r => (upto (c :: t) r, pos json r)
        | None => ([], length json)
        end).
Proof.
  intros H. unfold scan_squash. rewrite (pos_S _ _ _ H). change 1%Z with (Z.of_nat 1).
  apply scan_squash_loop_spec; auto.
  - apply suf_cons.
  - apply suf_length in H. simpl in H. lia.
Qed.

(* ---------- scan_number ---------- *)

Definition numch (c : N) : bool :=
  ((c =? 46) || (c =? 101) || (c =? 69) || ((48 <=? c) && (c <=? 57)) || (c =? 45) || (c =? 43))%N.
Definition num_stop (c : N) : bool := negb (numch c).

(** The info bits gathered over the bytes of a number after the first. *)
Fixpoint num_info (info : N) (l : bytes) : N :=
  match l with
  | [] => info
  | c :: t =>
      num_info (if (c =? 46)%N then N.lor info INFO_DOT
                else if ((c =? 101) || (c =? 69))%N then N.lor info INFO_E else info) t
  end.

Lemma scan_number_loop_spec json : forall fuel l info,
  suf l json -> length l < fuel ->
  scan_number_loop fuel json (pos json l) info =
    Ok (pos json (dropw num_stop l), num_info info (upto l (dropw num_stop l))).
Proof.
  induction fuel as [|fuel IH]; intros l info Hl Hf; [lia|]. cbn [scan_number_loop].
  destruct l as [|c t].
  - rewrite pos_ltb_nil. reflexivity.
  - rewrite (pos_ltb _ _ _ Hl), (idx_pos _ _ _ Hl). cbn [bind dropw].
    rewrite (pos_S _ _ _ Hl).
    assert (Hu : upto (c :: t) (dropw num_stop t) = c :: upto t (dropw num_stop t)).
    { pose proof (upto_suf _ _ (suf_dropw num_stop t)) as H. rewrite H at 1.
      change (c :: upto t (dropw num_stop t) ++ dropw num_stop t)
        with ((c :: upto t (dropw num_stop t)) ++ dropw num_stop t). apply upto_app. }
    assert (Ht : suf t json) by (eapply suf_tail; eauto). simpl in Hf.
    unfold num_stop at 1 3, numch.
    destruct (N.eqb_spec c 46) as [->|H1].
    { cbn [orb negb]. rewrite IH by (auto; lia). rewrite Hu. reflexivity. }
    destruct (N.eqb_spec c 101) as [->|H2].
    { cbn [orb negb]. rewrite IH by (auto; lia). rewrite Hu. reflexivity. }
    destruct (N.eqb_spec c 69) as [->|H3].
    { cbn [orb negb]. rewrite IH by (auto; lia). rewrite Hu. reflexivity. }
    cbn [orb].
    assert (E : (((c <? 48) || (57 <? c)) && negb (c =? 45) && negb (c =? 43)
                 = negb ((48 <=? c) && (c <=? 57) || (c =? 45) || (c =? 43)))%N).
    { cls; lia. }
    rewrite E. destruct (negb ((48 <=? c)%N && (c <=? 57)%N || (c =? 45)%N || (c =? 43)%N)) eqn:En.
    + replace (upto (c :: t) (c :: t)) with (@nil N); [reflexivity|].
      unfold upto. rewrite Nat.sub_diag. reflexivity.
    + rewrite IH by (auto; lia). rewrite Hu. cbn [num_info].
      replace (c =? 46)%N with false by lia. replace ((c =? 101) || (c =? 69))%N with false by lia.
      reflexivity.
Qed.

Definition sign_info (c : N) : N := if (c =? 45)%N then INFO_SIGN else 0%N.

Lemma upto_cons_dropw stop c t :
  upto (c :: t) (dropw stop t) = c :: upto t (dropw stop t).
Proof.
  pose proof (upto_suf _ _ (suf_dropw stop t)) as H. rewrite H at 1.
  change (c :: upto t (dropw stop t) ++ dropw stop t)
    with ((c :: upto t (dropw stop t)) ++ dropw stop t). apply upto_app.
Qed.

Lemma scan_number_spec json c t : suf (c :: t) json ->
  scan_number json (pos json (c :: t)) =
    Ok (c :: upto t (dropw num_stop t), num_info (sign_info c) (upto t (dropw num_stop t)),
        pos json (dropw num_stop t)).
Proof.
  intros H. unfold scan_number. rewrite (idx_pos _ _ _ H). cbn [bind].
  rewrite (pos_S _ _ _ H). fold (sign_info c).
  rewrite scan_number_loop_spec; [|eapply suf_tail; eauto | apply suf_length in H; simpl in H; lia].
  cbn [bind].
  rewrite slice_upto; auto.
  - cbn [bind]. rewrite upto_cons_dropw. reflexivity.
  - eapply suf_trans; [apply suf_dropw | apply suf_cons].
Qed.
