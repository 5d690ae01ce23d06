(** [valid] accepts exactly the JSON texts, and never fails. *)
From Verif Require Import P_Base P_Json M_Valid.

(* ---------- list-level recogniser ---------- *)

(** Drop bytes up to the first stop byte. *)
Fixpoint dropw (stop : N -> bool) (l : bytes) : bytes :=
  match l with
  | [] => []
  | c :: t => if stop c then l else dropw stop t
  end.

Lemma dropw_split stop l : exists a, l = a ++ dropw stop l /\ Forall (fun c => stop c = false) a.
Proof.
  induction l as [|c t (a & Ha & Hf)]; simpl.
  - exists []. auto.
  - destruct (stop c) eqn:E.
    + exists []. auto.
    + exists (c :: a). simpl. rewrite <- Ha. auto.
Qed.

Lemma dropw_app stop a b : Forall (fun c => stop c = false) a -> dropw stop (a ++ b) = dropw stop b.
Proof. induction 1 as [|c t Hc _ IH]; simpl; auto. rewrite Hc. auto. Qed.

Lemma dropw_stop stop l : match l with [] => True | c :: _ => stop c = true end -> dropw stop l = l.
Proof. destruct l; simpl; auto. intros ->. auto. Qed.

Lemma dropw_head stop l c t : dropw stop l = c :: t -> stop c = true.
Proof.
  induction l as [|d l IH]; simpl; try discriminate.
  destruct (stop d) eqn:E; auto. intros [= -> ->]. auto.
Qed.

Lemma dropw_length stop l : length (dropw stop l) <= length l.
Proof. induction l; simpl; auto. destruct (stop a); simpl; lia. Qed.

Lemma dropw_idem stop l : dropw stop (dropw stop l) = dropw stop l.
Proof.
  apply dropw_stop. destruct (dropw stop l) eqn:E; auto. eapply dropw_head; eauto.
Qed.

(** The index of a suffix. *)
Definition at_suffix (json : bytes) (i : nat) (rest : bytes) (j : nat) : Prop :=
  i <= j /\ j <= length json /\ skipn j json = rest.

Lemma at_suffix_refl json i : i <= length json -> at_suffix json i (skipn i json) i.
Proof. unfold at_suffix; auto. Qed.

Lemma scan_while_spec stop json : forall fuel i,
  i <= length json -> length json - i < fuel ->
  exists j, scan_while fuel stop json i = Ok j /\
            at_suffix json i (dropw stop (skipn i json)) j.
Proof.
  induction fuel as [|fuel IH]; intros i Hi Hf; [lia|].
  cbn [scan_while].
  destruct (skipn_case json i) as [(c & t & E & Hlt)|(E & Hge)].
  - rewrite (ltb_skipn _ _ _ _ E), (idx_skipn _ _ _ _ E). cbn [bind]. rewrite E. simpl.
    destruct (stop c) eqn:Es.
    + exists i. split; auto. rewrite <- E. apply at_suffix_refl; auto.
    + destruct (IH (i + 1)) as (j & Hj & H1 & H2 & H3); try lia.
      exists j. split; auto. unfold at_suffix. rewrite (skipn_cons_1 _ _ _ _ E) in H3.
      repeat split; auto; lia.
  - rewrite (ltb_skipn_nil _ _ E). exists i. split; auto. rewrite E. simpl. rewrite <- E.
    apply at_suffix_refl; auto.
Qed.

Lemma scan_block_spec stop : forall block i rest,
  match scan_block stop block i with
  | inl j => i <= j < i + length block /\ skipn (j - i) (block ++ rest) = dropw stop (block ++ rest)
  | inr j => j = i + length block /\ dropw stop (block ++ rest) = dropw stop rest
  end.
Proof.
  induction block as [|c t IH]; intros i rest; simpl.
  - split; auto; lia.
  - destruct (stop c) eqn:E.
    + split; [lia|]. rewrite Nat.sub_diag. reflexivity.
    + specialize (IH (i + 1) rest). destruct (scan_block stop t (i + 1)) as [j|j].
      * destruct IH as [H1 H2]. split; [lia|].
        replace (j - i) with (S (j - (i + 1))) by lia. exact H2.
      * destruct IH as [H1 H2]. split; auto. lia.
Qed.

Lemma scan_blocked_spec n stop json i :
  i <= length json ->
  exists j, scan_blocked n stop json i = Ok j /\
            at_suffix json i (dropw stop (skipn i json)) j.
Proof.
  intros Hi. unfold scan_blocked.
  destruct (i + n <? length json) eqn:E.
  - apply Nat.ltb_lt in E. rewrite slice_ok by lia. cbn [bind].
    replace (i + n - i) with n by lia.
    pose proof (scan_block_spec stop (firstn n (skipn i json)) i (skipn n (skipn i json))) as H.
    rewrite firstn_skipn in H.
    assert (Hlen : length (firstn n (skipn i json)) = n)
      by (rewrite firstn_length, skipn_length; lia).
    rewrite Hlen in H.
    destruct (scan_block stop (firstn n (skipn i json)) i) as [j|j].
    + destruct H as [H1 H2]. exists j. split; auto. unfold at_suffix.
      rewrite skipn_skipn in H2. replace (j - i + i) with j in H2 by lia.
      repeat split; auto; lia.
    + destruct H as [-> H2].
      destruct (scan_while_spec stop json (S (length json)) (i + n)) as (j & Hj & H3 & H4 & H5);
        try lia.
      exists j. split; auto. unfold at_suffix. rewrite H2, skipn_skipn, (Nat.add_comm n i).
      repeat split; auto; lia.
  - apply scan_while_spec; auto. lia.
Qed.

Definition nspace (c : N) : bool := negb (isspace c).
Definition lws (l : bytes) : bytes := dropw nspace l.

Lemma strip_ws_spec json i : i <= length json ->
  exists j, strip_ws json i = Ok j /\ at_suffix json i (lws (skipn i json)) j.
Proof. intros. apply scan_blocked_spec; auto. Qed.

Definition hex4 (a b c d : N) : bool := ishexdigit a && ishexdigit b && ishexdigit c && ishexdigit d.

(** The rest after the closing quote. *)
Fixpoint lstr (l : bytes) : option bytes :=
  match l with
  | [] => None
  | c :: t =>
      if (c <? 32)%N then None
      else if (c =? 34)%N then Some t
      else if (c =? 92)%N then
        match t with
        | [] => None
        | e :: t1 =>
            if is_short_escape e then lstr t1
            else if (e =? 117)%N then
              match t1 with
              | a :: b :: c :: d :: t2 => if hex4 a b c d then lstr t2 else None
              | _ => None
              end
            else None
        end
      else lstr t
  end.

Lemma isstring_false c : isstring c = false -> (c <? 32)%N = false /\ (c =? 34)%N = false /\ (c =? 92)%N = false.
Proof.
  unfold isstring, vtable, VSPACE, VSTRING.
  destruct (((c =? 9) || (c =? 10) || (c =? 13) || (c =? 32))%N); 
  destruct (((c <=? 31) || (c =? 34) || (c =? 92))%N) eqn:E; cbn; try discriminate; intros _; lia.
Qed.

Lemma isstring_true c : isstring c = true -> (c <? 32)%N = true \/ (c = 34)%N \/ (c = 92)%N.
Proof.
  unfold isstring, vtable, VSPACE, VSTRING.
  destruct (((c =? 9) || (c =? 10) || (c =? 13) || (c =? 32))%N); 
  destruct (((c <=? 31) || (c =? 34) || (c =? 92))%N) eqn:E; cbn; try discriminate; intros _; lia.
Qed.

Lemma lstr_dropw l : lstr (dropw isstring l) = lstr l.
Proof.
  induction l as [|c t IH]; simpl; auto.
  destruct (isstring c) eqn:E; auto.
  apply isstring_false in E as (-> & -> & ->). auto.
Qed.

(** Result of a recogniser: success with a rest, or failure. *)
Definition vres (json : bytes) (i : nat) (r : option bytes) (m : R (bool * nat)) : Prop :=
  match r with
  | Some rest => exists j, m = Ok (true, j) /\ i < j /\ j <= length json /\ skipn j json = rest
  | None => exists j, m = Ok (false, j)
  end.

Lemma vres_weaken json i i' r m : i' <= i -> vres json i r m -> vres json i' r m.
Proof.
  unfold vres. destruct r; auto. intros H (j & H1 & H2 & H3 & H4). exists j. repeat split; auto; lia.
Qed.

Lemma valid_hex_spec json i e t :
  skipn i json = e :: t ->
  match t with
  | a :: b :: c :: d :: t2 =>
      if hex4 a b c d then valid_hex 4 json i = Ok (true, i + 4)
      else exists j, valid_hex 4 json i = Ok (false, j)
  | _ => exists j, valid_hex 4 json i = Ok (false, j)
  end.
Proof.
  intros E0. pose proof (skipn_cons_lt _ _ _ _ E0) as Hlt.
  pose proof (skipn_cons_1 _ _ _ _ E0) as E1. cbn [valid_hex].
  destruct t as [|a t]; [rewrite eqb_skipn_nil by (auto; lia); eauto|].
  rewrite (eqb_skipn _ _ _ _ E1), (idx_skipn _ _ _ _ E1). cbn [bind].
  pose proof (skipn_cons_lt _ _ _ _ E1) as Hlt1. apply skipn_cons_1 in E1 as E2.
  destruct t as [|b t].
  { destruct (ishexdigit a); cbn [negb]; eauto. rewrite eqb_skipn_nil by (auto; lia); eauto. }
  rewrite (eqb_skipn _ _ _ _ E2), (idx_skipn _ _ _ _ E2). cbn [bind].
  pose proof (skipn_cons_lt _ _ _ _ E2) as Hlt2. apply skipn_cons_1 in E2 as E3.
  destruct t as [|c t].
  { destruct (ishexdigit a), (ishexdigit b); cbn [negb]; eauto.
    rewrite eqb_skipn_nil by (auto; lia); eauto. }
  rewrite (eqb_skipn _ _ _ _ E3), (idx_skipn _ _ _ _ E3). cbn [bind].
  pose proof (skipn_cons_lt _ _ _ _ E3) as Hlt3. apply skipn_cons_1 in E3 as E4.
  destruct t as [|d t].
  { destruct (ishexdigit a), (ishexdigit b), (ishexdigit c); cbn [negb]; eauto.
    rewrite eqb_skipn_nil by (auto; lia); eauto. }
  rewrite (eqb_skipn _ _ _ _ E4), (idx_skipn _ _ _ _ E4). cbn [bind].
  unfold hex4.
  destruct (ishexdigit a), (ishexdigit b), (ishexdigit c), (ishexdigit d); cbn [negb andb]; eauto.
  do 2 f_equal. lia.
Qed.

Lemma valid_string_loop_spec json : forall fuel i,
  i <= length json -> length json - i < fuel ->
  vres json i (lstr (skipn i json)) (valid_string_loop fuel json i).
Proof.
  induction fuel as [|fuel IH]; intros i Hi Hf; [lia|].
  cbn [valid_string_loop].
  destruct (scan_blocked_spec 32 isstring json i Hi) as (j & -> & H1 & H2 & H3).
  cbn [bind]. rewrite <- lstr_dropw, <- H3.
  destruct (skipn_case json j) as [(c & t & E & Hlt)|(E & Hge)].
  2:{ rewrite (ltb_skipn_nil _ _ E), E. simpl. eauto. }
  rewrite (ltb_skipn _ _ _ _ E), (idx_skipn _ _ _ _ E), E. cbn [negb bind lstr].
  rewrite E in H3. symmetry in H3. apply dropw_head in H3.
  apply isstring_true in H3.
  destruct (c <? 32)%N eqn:Ec. { simpl. eauto. }
  destruct H3 as [H3|H3]; [congruence|].
  destruct (c =? 34)%N eqn:Eq.
  { simpl. exists (j + 1). repeat split; auto; try lia. eapply skipn_cons_1; eauto. }
  assert (c = 92)%N as -> by lia. rewrite N.eqb_refl.
  pose proof (skipn_cons_1 _ _ _ _ E) as E1.
  destruct t as [|e t1].
  { rewrite eqb_skipn_nil by (auto; lia). simpl. eauto. }
  rewrite (eqb_skipn _ _ _ _ E1), (idx_skipn _ _ _ _ E1). cbn [bind].
  pose proof (skipn_cons_lt _ _ _ _ E1) as Hlt1. apply skipn_cons_1 in E1 as E2.
  destruct (is_short_escape e).
  { rewrite <- E2. eapply vres_weaken; [|apply IH]; lia. }
  destruct (e =? 117)%N. 2:{ simpl; eauto. }
  pose proof (valid_hex_spec _ _ _ _ E1) as Hx.
  destruct t1 as [|x1 t1]; [destruct Hx as (k & ->); simpl; eauto|].
  destruct t1 as [|x2 t1]; [destruct Hx as (k & ->); simpl; eauto|].
  destruct t1 as [|x3 t1]; [destruct Hx as (k & ->); simpl; eauto|].
  destruct t1 as [|x4 t1]; [destruct Hx as (k & ->); simpl; eauto|].
  destruct (hex4 x1 x2 x3 x4); [|destruct Hx as (k & ->); simpl; eauto].
  rewrite Hx. cbn [bind].
  change (x1 :: x2 :: x3 :: x4 :: t1) with ([x1; x2; x3; x4] ++ t1) in E2.
  pose proof (skipn_add _ _ _ _ E2) as E3. cbn [length] in E3.
  replace (j + 1 + 4 + 1) with (j + 1 + 1 + 4) by lia. rewrite <- E3.
  assert (j + 1 + 1 + 4 <= length json).
  { pose proof (skipn_length (j + 1 + 1) json) as Hl. rewrite E2, app_length in Hl.
    cbn [length] in Hl. lia. }
  eapply vres_weaken; [|apply IH]; lia.
Qed.

Lemma valid_string_spec json i t :
  skipn i json = 34%N :: t -> vres json i (lstr t) (valid_string json i).
Proof.
  intros E. unfold valid_string. pose proof (skipn_cons_lt _ _ _ _ E).
  rewrite <- (skipn_cons_1 _ _ _ _ E).
  eapply vres_weaken; [|apply valid_string_loop_spec]; lia.
Qed.

(* ---------- numbers ---------- *)

Definition ndigit (c : N) : bool := negb (vdigit c).
Definition ldigits (l : bytes) : bytes := dropw ndigit l.

Definition lexp (l : bytes) : option bytes :=
  match l with
  | c :: t =>
      if ((c =? 101) || (c =? 69))%N then
        let t := match t with s :: t' => if ((s =? 43) || (s =? 45))%N then t' else t | [] => t end in
        match t with
        | d :: t' => if vdigit d then Some (ldigits t') else None
        | [] => None
        end
      else Some l
  | [] => Some l
  end.

Definition lfrac (l : bytes) : option bytes :=
  match l with
  | c :: t =>
      if (c =? 46)%N then
        match t with
        | d :: t' => if vdigit d then lexp (ldigits t') else None
        | [] => None
        end
      else lexp l
  | [] => lexp l
  end.

Definition lint (l : bytes) : option bytes :=
  match l with
  | c :: t => if (c =? 48)%N then lfrac t else lfrac (ldigits l)
  | [] => None
  end.

Definition lnum (l : bytes) : option bytes :=
  match l with
  | c :: t =>
      if (c =? 45)%N then
        match t with
        | d :: _ => if vdigit d then lint t else None
        | [] => None
        end
      else lint l
  | [] => None
  end.

(** Success possibly without progress. *)
Definition vres0 (json : bytes) (i : nat) (r : option bytes) (m : R (bool * nat)) : Prop :=
  match r with
  | Some rest => exists j, m = Ok (true, j) /\ i <= j /\ j <= length json /\ skipn j json = rest
  | None => exists j, m = Ok (false, j)
  end.
Lemma vres0_weaken json i i' r m : i' <= i -> vres0 json i r m -> vres0 json i' r m.
Proof.
  unfold vres0. destruct r; auto. intros H (j & H1 & H2 & H3 & H4). exists j. repeat split; auto; lia.
Qed.
Lemma vres0_vres json i i' r m : i' < i -> vres0 json i r m -> vres json i' r m.
Proof.
  unfold vres, vres0. destruct r; auto. intros H (j & H1 & H2 & H3 & H4).
  exists j. repeat split; auto; lia.
Qed.

Lemma skip_digits_spec json i : i <= length json ->
  exists j, skip_digits json i = Ok j /\ at_suffix json i (ldigits (skipn i json)) j.
Proof. intros. apply scan_while_spec; lia. Qed.

Lemma nodigit d : ((d <? 48) || (57 <? d))%N = negb (vdigit d).
Proof. unfold vdigit. lia. Qed.

Lemma valid_number_exp_spec json i : i <= length json ->
  vres0 json i (lexp (skipn i json)) (valid_number_exp json i).
Proof.
  intros Hi. unfold valid_number_exp.
  destruct (skipn_case json i) as [(c & t & E & Hlt)|(E & Hge)].
  2:{ rewrite eqb_skipn_nil, E by auto. simpl. exists i. auto. }
  rewrite (eqb_skipn _ _ _ _ E), (idx_skipn _ _ _ _ E), E. cbn [bind lexp].
  destruct ((c =? 101) || (c =? 69))%N.
  2:{ simpl. exists i. auto. }
  pose proof (skipn_cons_1 _ _ _ _ E) as E1.
  destruct t as [|s t].
  { rewrite eqb_skipn_nil by (auto; lia). simpl. eauto. }
  rewrite (eqb_skipn _ _ _ _ E1), (idx_skipn _ _ _ _ E1). cbn [bind].
  pose proof (skipn_cons_lt _ _ _ _ E1) as Hlt1.
  assert (G : forall k l, skipn k json = l -> i < k -> k <= length json ->
     vres0 json i match l with d :: t' => if vdigit d then Some (ldigits t') else None | [] => None end
      (if k =? length json then Ok (false, k) else
         c <- idx json k ;;
         if ((c <? 48) || (57 <? c))%N then Ok (false, k)
         else i0 <- skip_digits json (k + 1) ;; Ok (true, i0))).
  { intros k l Hk Hik Hkl. destruct l as [|d l].
    - rewrite eqb_skipn_nil by auto. simpl; eauto.
    - rewrite (eqb_skipn _ _ _ _ Hk), (idx_skipn _ _ _ _ Hk). cbn [bind]. rewrite nodigit.
      destruct (vdigit d); cbn [negb]; [|simpl; eauto].
      destruct (skip_digits_spec json (k + 1)) as (j & -> & J1 & J2 & J3).
      { apply skipn_cons_lt in Hk. lia. }
      cbn [bind]. simpl. exists j. rewrite (skipn_cons_1 _ _ _ _ Hk) in J3.
      repeat split; auto; lia. }
  destruct ((s =? 43) || (s =? 45))%N.
  - apply G; try lia. eapply skipn_cons_1; eauto.
  - apply (G (i + 1) (s :: t)); auto; lia.
Qed.

Lemma valid_number_frac_spec json i : i <= length json ->
  vres0 json i (lfrac (skipn i json)) (valid_number_frac json i).
Proof.
  intros Hi. unfold valid_number_frac.
  destruct (skipn_case json i) as [(c & t & E & Hlt)|(E & Hge)].
  2:{ rewrite eqb_skipn_nil, E by auto. simpl. exists i. auto. }
  rewrite (eqb_skipn _ _ _ _ E), (idx_skipn _ _ _ _ E), E. cbn [bind lfrac].
  destruct (c =? 46)%N.
  2:{ rewrite <- E. apply valid_number_exp_spec; auto. }
  pose proof (skipn_cons_1 _ _ _ _ E) as E1.
  destruct t as [|d t].
  { rewrite eqb_skipn_nil by (auto; lia). simpl. eauto. }
  rewrite (eqb_skipn _ _ _ _ E1), (idx_skipn _ _ _ _ E1). cbn [bind].
  pose proof (skipn_cons_lt _ _ _ _ E1) as Hlt1. rewrite nodigit.
  destruct (vdigit d); cbn [negb]; [|simpl; eauto].
  destruct (skip_digits_spec json (i + 1 + 1)) as (j & -> & J1 & J2 & J3); [lia|].
  cbn [bind]. rewrite (skipn_cons_1 _ _ _ _ E1) in J3. rewrite <- J3.
  eapply vres0_weaken; [|apply valid_number_exp_spec]; lia.
Qed.

Lemma valid_number_int_spec json i : i <= length json ->
  vres0 json i (lint (skipn i json)) (valid_number_int json i).
Proof.
  intros Hi. unfold valid_number_int.
  destruct (skipn_case json i) as [(c & t & E & Hlt)|(E & Hge)].
  2:{ rewrite eqb_skipn_nil, E by auto. simpl. eauto. }
  rewrite (eqb_skipn _ _ _ _ E), (idx_skipn _ _ _ _ E), E. cbn [bind lint].
  destruct (c =? 48)%N.
  - rewrite <- (skipn_cons_1 _ _ _ _ E). eapply vres0_weaken; [|apply valid_number_frac_spec]; lia.
  - destruct (skip_digits_spec json i) as (j & -> & J1 & J2 & J3); auto.
    cbn [bind]. rewrite E in J3. rewrite <- J3.
    eapply vres0_weaken; [|apply valid_number_frac_spec]; lia.
Qed.

(** The first byte is a minus or a digit, so there is progress. *)
Lemma lexp_suffix l r : lexp l = Some r -> exists a, l = a ++ r.
Proof.
  unfold lexp. destruct l as [|c t]. { intros [= <-]. exists []; auto. }
  destruct ((c =? 101) || (c =? 69))%N. 2:{ intros [= <-]. exists []; auto. }
  assert (G : forall l, match l with d :: t' => if vdigit d then Some (ldigits t') else None | [] => None end = Some r
     -> exists a, l = a ++ r).
  { intros [|d l]; try discriminate. destruct (vdigit d); try discriminate. intros [= <-].
    destruct (dropw_split ndigit l) as (a & Ha & _). exists (d :: a). simpl. unfold ldigits. congruence. }
  destruct t as [|s t]. { discriminate. }
  destruct ((s =? 43) || (s =? 45))%N; intros H; [apply G in H as (a & ->)|apply (G (s :: t)) in H as (a & ->)].
  - exists (c :: s :: a). auto.
  - exists (c :: a). auto.
Qed.
Lemma lfrac_suffix l r : lfrac l = Some r -> exists a, l = a ++ r.
Proof.
  unfold lfrac. destruct l as [|c t]. { intros [= <-]. exists []; auto. }
  destruct (c =? 46)%N. 2:{ apply lexp_suffix. }
  destruct t as [|d t]; try discriminate. destruct (vdigit d); try discriminate.
  intros H. apply lexp_suffix in H as (a & Ha).
  destruct (dropw_split ndigit t) as (b & Hb & _). unfold ldigits in Ha.
  exists (c :: d :: b ++ a). simpl. rewrite <- app_assoc. congruence.
Qed.

Lemma valid_number_spec json i c t :
  skipn i json = c :: t -> ((c =? 45)%N || vdigit c) = true ->
  vres json i (lnum (skipn i json)) (valid_number json i).
Proof.
  intros E Hc. unfold valid_number. rewrite (idx_skipn _ _ _ _ E), E. cbn [bind lnum].
  pose proof (skipn_cons_lt _ _ _ _ E) as Hlt.
  destruct (c =? 45)%N eqn:Em.
  - pose proof (skipn_cons_1 _ _ _ _ E) as E1.
    destruct t as [|d t].
    { rewrite eqb_skipn_nil by (auto; lia). simpl; eauto. }
    rewrite (eqb_skipn _ _ _ _ E1), (idx_skipn _ _ _ _ E1). cbn [bind]. rewrite nodigit.
    destruct (vdigit d); cbn [negb]; [|simpl; eauto].
    rewrite <- E1. eapply vres0_vres; [|apply valid_number_int_spec]; lia.
  - simpl in Hc. rewrite <- E.
    pose proof (valid_number_int_spec json i) as H. rewrite E in *.
    assert (Hp : forall r, lint (c :: t) = Some r -> length r < length (c :: t)).
    { intros r. unfold lint. destruct (c =? 48)%N.
      - intros Hr. apply lfrac_suffix in Hr as (a & ->). simpl. rewrite app_length. lia.
      - unfold ldigits. cbn [dropw]. unfold ndigit at 1. rewrite Hc. cbn [negb].
        intros Hr. apply lfrac_suffix in Hr as (a & Ha).
        pose proof (dropw_length ndigit t) as Hl. rewrite Ha, app_length in Hl. simpl. lia. }
    unfold vres, vres0 in *. destruct (lint (c :: t)) as [r|]; [|apply H; lia].
    destruct H as (j & H1 & H2 & H3 & H4); [lia|]. exists j. repeat split; auto.
    specialize (Hp r eq_refl). rewrite <- E, <- H4, !skipn_length in Hp. lia.
Qed.

(* ---------- literals ---------- *)

Fixpoint strip_prefix (p l : bytes) : option bytes :=
  match p, l with
  | [], _ => Some l
  | x :: p, y :: l => if (x =? y)%N then strip_prefix p l else None
  | _ :: _, [] => None
  end.

Lemma strip_prefix_some p l r : strip_prefix p l = Some r <-> l = p ++ r.
Proof.
  revert l; induction p as [|x p IH]; intros l; simpl.
  - split; congruence.
  - destruct l as [|y l]; [split; discriminate|].
    destruct (N.eqb_spec x y) as [->|Hn]; [rewrite IH; split; congruence | split; congruence].
Qed.

Lemma valid_lit_spec lit json i c t :
  lit <> [] -> skipn i json = c :: t ->
  vres json i (strip_prefix lit (skipn i json)) (valid_lit lit json i).
Proof.
  intros Hl E. unfold valid_lit. pose proof (skipn_cons_lt _ _ _ _ E) as Hlt.
  destruct (strip_prefix lit (skipn i json)) as [r|] eqn:Es.
  - apply strip_prefix_some in Es. simpl.
    pose proof (skipn_length i json) as HL. rewrite Es, app_length in HL.
    replace (i + length lit <=? length json) with true by (symmetry; apply Nat.leb_le; lia).
    rewrite (slice_skipn _ _ _ _ Es Hl). cbn [bind]. rewrite beq_refl.
    exists (i + length lit). repeat split; try lia.
    + destruct lit; [congruence | simpl; lia].
    + eapply skipn_add; eauto.
  - simpl. destruct (i + length lit <=? length json) eqn:El; [|eauto].
    apply Nat.leb_le in El. rewrite slice_ok by lia. cbn [bind].
    replace (i + length lit - i) with (length lit) by lia.
    destruct (beq (firstn (length lit) (skipn i json)) lit) eqn:Eb; [|eauto].
    apply beq_eq in Eb. exfalso.
    assert (strip_prefix lit (skipn i json) = Some (skipn (length lit) (skipn i json))).
    { apply strip_prefix_some. rewrite <- (firstn_skipn (length lit) (skipn i json)) at 1. rewrite Eb. reflexivity. }
    congruence.
Qed.

(* ---------- values ---------- *)

Fixpoint lany (fuel : nat) (l : bytes) : option bytes :=
  match fuel with
  | O => None
  | S fuel =>
      match lws l with
      | [] => None
      | c :: t =>
          if (c =? 123)%N then
            match lws t with
            | [] => None
            | d :: t' => if (d =? 125)%N then Some t' else lobj fuel (d :: t')
            end
          else if (c =? 91)%N then
            match lws t with
            | [] => None
            | d :: t' => if (d =? 93)%N then Some t' else larr fuel (d :: t')
            end
          else if (c =? 34)%N then lstr t
          else if (c =? 116)%N then strip_prefix lit_true (c :: t)
          else if (c =? 102)%N then strip_prefix lit_false (c :: t)
          else if (c =? 110)%N then strip_prefix lit_null (c :: t)
          else if ((c =? 45)%N || vdigit c) then lnum (c :: t)
          else None
      end
  end
with lobj (fuel : nat) (l : bytes) : option bytes :=
  match fuel with
  | O => None
  | S fuel =>
      match l with
      | [] => None
      | c :: t =>
          if (c =? 34)%N then
            match lstr t with
            | None => None
            | Some t =>
                match lws t with
                | [] => None
                | c :: t =>
                    if (c =? 58)%N then
                      match lany fuel t with
                      | None => None
                      | Some t =>
                          match lws t with
                          | [] => None
                          | c :: t =>
                              if (c =? 125)%N then Some t
                              else if (c =? 44)%N then lobj fuel (lws t) else None
                          end
                      end
                    else None
                end
            end
          else None
      end
  end
with larr (fuel : nat) (l : bytes) : option bytes :=
  match fuel with
  | O => None
  | S fuel =>
      match lany fuel l with
      | None => None
      | Some t =>
          match lws t with
          | [] => None
          | c :: t =>
              if (c =? 93)%N then Some t
              else if (c =? 44)%N then larr fuel t else None
          end
      end
  end.

Lemma vany_spec json : forall fuel,
  (forall i, i <= length json -> 2 * (length json - i) + 1 < fuel ->
     vres json i (lany fuel (skipn i json)) (valid_any fuel json i)) /\
  (forall i, i < length json -> 2 * (length json - i) + 1 <= fuel ->
     vres json i (lobj fuel (skipn i json)) (valid_object_loop fuel json i)) /\
  (forall i, i <= length json -> 2 * (length json - i) + 2 < fuel ->
     vres json i (larr fuel (skipn i json)) (valid_array_loop fuel json i)).
Proof.
  induction fuel as [|fuel (IHany & IHobj & IHarr)].
  { repeat split; intros; lia. }
  split; [|split].
  - intros i Hi Hf. cbn [valid_any lany].
    destruct (scan_while_spec nspace json (S (length json)) i) as (j & Hj & J1 & J2 & J3); try lia.
    change (fun c => negb (isspace c)) with nspace. rewrite Hj. cbn [bind].
    change (dropw nspace (skipn i json)) with (lws (skipn i json)) in J3. rewrite <- J3.
    eapply vres_weaken; [exact J1|].
    destruct (skipn_case json j) as [(c & t & E & Hlt)|(E & Hge)].
    2:{ rewrite (ltb_skipn_nil _ _ E), E. simpl. eauto. }
    rewrite (ltb_skipn _ _ _ _ E), (idx_skipn _ _ _ _ E), E. cbn [negb bind].
    pose proof (skipn_cons_1 _ _ _ _ E) as E1.
    destruct (c =? 123)%N.
    { destruct (strip_ws_spec json (j + 1)) as (k & -> & K1 & K2 & K3); [lia|].
      cbn [bind]. rewrite E1 in K3. rewrite <- K3.
      destruct (skipn_case json k) as [(d & t' & Ek & Hltk)|(Ek & Hgek)].
      2:{ rewrite eqb_skipn_nil, Ek by auto. simpl. eauto. }
      rewrite (eqb_skipn _ _ _ _ Ek), (idx_skipn _ _ _ _ Ek), Ek. cbn [bind].
      destruct (d =? 125)%N.
      - simpl. exists (k + 1). repeat split; auto; try lia. eapply skipn_cons_1; eauto.
      - rewrite <- Ek. eapply vres_weaken; [|apply IHobj]; lia. }
    destruct (c =? 91)%N.
    { destruct (strip_ws_spec json (j + 1)) as (k & -> & K1 & K2 & K3); [lia|].
      cbn [bind]. rewrite E1 in K3. rewrite <- K3.
      destruct (skipn_case json k) as [(d & t' & Ek & Hltk)|(Ek & Hgek)].
      2:{ rewrite eqb_skipn_nil, Ek by auto. simpl. eauto. }
      rewrite (eqb_skipn _ _ _ _ Ek), (idx_skipn _ _ _ _ Ek), Ek. cbn [bind].
      destruct (d =? 93)%N.
      - simpl. exists (k + 1). repeat split; auto; try lia. eapply skipn_cons_1; eauto.
      - rewrite <- Ek. eapply vres_weaken; [|apply IHarr]; lia. }
    destruct (c =? 34)%N eqn:Eq.
    { assert (c = 34)%N as -> by lia. apply valid_string_spec; auto. }
    destruct (c =? 116)%N. { rewrite <- E. eapply valid_lit_spec; eauto. discriminate. }
    destruct (c =? 102)%N. { rewrite <- E. eapply valid_lit_spec; eauto. discriminate. }
    destruct (c =? 110)%N. { rewrite <- E. eapply valid_lit_spec; eauto. discriminate. }
    destruct ((c =? 45)%N || vdigit c) eqn:En; [|simpl; eauto].
    rewrite <- E. eapply valid_number_spec; eauto.
  - intros i Hi Hf. cbn [valid_object_loop lobj].
    destruct (skipn_case json i) as [(c & t & E & Hlt)|(E & Hge)]; [|lia].
    rewrite (idx_skipn _ _ _ _ E), E. cbn [bind].
    destruct (c =? 34)%N eqn:Eq; cbn [negb]; [|simpl; eauto].
    assert (c = 34)%N as -> by lia.
    pose proof (valid_string_spec _ _ _ E) as Hs. destruct (lstr t) as [t1|]; simpl in Hs.
    2:{ destruct Hs as (j & ->). simpl; eauto. }
    destruct Hs as (j & -> & J1 & J2 & J3). cbn [bind negb].
    destruct (strip_ws_spec json j) as (k & -> & K1 & K2 & K3); [lia|].
    cbn [bind]. rewrite J3 in K3. rewrite <- K3.
    destruct (skipn_case json k) as [(d & t' & Ek & Hltk)|(Ek & Hgek)].
    2:{ rewrite eqb_skipn_nil, Ek by auto. simpl. eauto. }
    rewrite (eqb_skipn _ _ _ _ Ek), (idx_skipn _ _ _ _ Ek), Ek. cbn [bind].
    destruct (d =? 58)%N; cbn [negb]; [|simpl; eauto].
    pose proof (IHany (k + 1) ltac:(lia) ltac:(lia)) as Ha.
    rewrite (skipn_cons_1 _ _ _ _ Ek) in Ha.
    destruct (lany fuel t') as [t2|]; simpl in Ha.
    2:{ destruct Ha as (m & ->). simpl; eauto. }
    destruct Ha as (m & -> & M1 & M2 & M3). cbn [bind negb].
    destruct (strip_ws_spec json m) as (n & -> & N1 & N2 & N3); [lia|].
    cbn [bind]. rewrite M3 in N3. rewrite <- N3.
    destruct (skipn_case json n) as [(e & t3 & En & Hltn)|(En & Hgen)].
    2:{ rewrite eqb_skipn_nil, En by auto. simpl. eauto. }
    rewrite (eqb_skipn _ _ _ _ En), (idx_skipn _ _ _ _ En), En. cbn [bind].
    destruct (e =? 125)%N.
    { simpl. exists (n + 1). repeat split; auto; try lia. eapply skipn_cons_1; eauto. }
    destruct (e =? 44)%N; cbn [negb]; [|simpl; eauto].
    destruct (strip_ws_spec json (n + 1)) as (o & -> & O1 & O2 & O3); [lia|].
    cbn [bind]. rewrite (skipn_cons_1 _ _ _ _ En) in O3. rewrite <- O3.
    destruct (skipn_case json o) as [(f & t4 & Eo & Hlto)|(Eo & Hgeo)].
    2:{ rewrite eqb_skipn_nil, Eo by auto. destruct fuel; simpl; eauto. }
    rewrite (eqb_skipn _ _ _ _ Eo). eapply vres_weaken; [|apply IHobj]; lia.
  - intros i Hi Hf. cbn [valid_array_loop larr].
    pose proof (IHany i ltac:(lia) ltac:(lia)) as Ha.
    destruct (lany fuel (skipn i json)) as [t2|]; simpl in Ha.
    2:{ destruct Ha as (m & ->). simpl; eauto. }
    destruct Ha as (m & -> & M1 & M2 & M3). cbn [bind negb].
    destruct (strip_ws_spec json m) as (n & -> & N1 & N2 & N3); [lia|].
    cbn [bind]. rewrite M3 in N3. rewrite <- N3.
    destruct (skipn_case json n) as [(e & t3 & En & Hltn)|(En & Hgen)].
    2:{ rewrite eqb_skipn_nil, En by auto. simpl. eauto. }
    rewrite (eqb_skipn _ _ _ _ En), (idx_skipn _ _ _ _ En), En. cbn [bind].
    destruct (e =? 93)%N.
    { simpl. exists (n + 1). repeat split; auto; try lia. eapply skipn_cons_1; eauto. }
    destruct (e =? 44)%N; cbn [negb]; [|simpl; eauto].
    rewrite <- (skipn_cons_1 _ _ _ _ En). eapply vres_weaken; [|apply IHarr]; lia.
Qed.
