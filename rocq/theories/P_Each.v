(** Values read off a suffix, and the iteration over elements and members. *)
From Verif Require Import P_Base P_Valid P_Str P_Scan M_Util M_Scan M_Value.

Definition unesc (t : bytes) : bytes := match unescape t with Ok u => u | Err _ => [] end.
Lemma unesc_eq t : unescape t = Ok (unesc t).
Proof. unfold unesc. destruct (unescape_total t) as [u ->]. reflexivity. Qed.
Lemma unesc_quoted b : unesc (34%N :: b ++ [34%N]) = un b.
Proof. unfold unesc. pose proof (unescape_quoted b) as H. unfold S_Json.quoted in H. rewrite H. reflexivity. Qed.

Definition esc_of (t : bytes) (info : N) : bytes :=
  if has info (N.lor INFO_STRING INFO_ESC) then unesc t else [].
Definition mkslice (t : bytes) (info : N) (ix : option nat) : value :=
  mkValue t [] (esc_of t info) info ix.
Definition mkowned (t : bytes) (info : N) (ix : option nat) : value :=
  mkValue [] t (esc_of t info) info ix.

Lemma json_from_slice_eq t ix info : json_from_slice t ix info = Ok (mkslice t info ix).
Proof.
  unfold json_from_slice, json_unescape_string, mkslice, esc_of. cbn [v_info].
  destruct (has info _); auto. cbn [v_json v_owned v_slice].
  unfold v_json. cbn [v_owned v_slice]. rewrite unesc_eq. reflexivity.
Qed.
Lemma json_from_owned_eq t ix info : json_from_owned t ix info = Ok (mkowned t info ix).
Proof.
  unfold json_from_owned, json_unescape_string, mkowned, esc_of. cbn [v_info].
  destruct (has info _); auto.
  unfold v_json. cbn [v_owned v_slice]. destruct t; rewrite unesc_eq; reflexivity.
Qed.
Lemma mkslice_json t info ix : v_json (mkslice t info ix) = t.
Proof. reflexivity. Qed.
Lemma mkowned_json t info ix : v_json (mkowned t info ix) = t.
Proof. destruct t; reflexivity. Qed.

(* ---------- proc_value ---------- *)

Definition llit (n : nat) (k : N) (l : bytes) : bytes * N * bytes :=
  if length l <? n then ([], 0%N, []) else (firstn n l, k, skipn n l).

(** The text, info bits and remainder of the value starting at a suffix; info 0
    for the default value. *)
Definition lflat (l : bytes) : bytes * N * bytes :=
  match l with
  | [] => ([], 0%N, [])
  | c :: t =>
      if (c =? 34)%N then
        match split_str t with
        | Some (b, r) => (34%N :: b ++ [34%N], N.lor (esc_info b) INFO_STRING, r)
        | None => ([], INFO_STRING, [])
        end
      else if ((c =? 123) || (c =? 91))%N then
        let k := if (c =? 123)%N then INFO_OBJECT else INFO_ARRAY in
        match sq false 0 t with
        | Some r => (upto l r, k, r)
        | None => ([], k, [])
        end
      else if (((48 <=? c) && (c <=? 57)) || (c =? 45))%N then
        let r := dropw num_stop t in
        (c :: upto t r, N.lor (num_info (sign_info c) (upto t r)) INFO_NUMBER, r)
      else if (c =? 116)%N then llit 4 INFO_TRUE l
      else if (c =? 102)%N then llit 5 INFO_FALSE l
      else if (c =? 110)%N then llit 4 INFO_NULL l
      else ([], 0%N, [])
  end.
Definition ltext (l : bytes) : bytes := fst (fst (lflat l)).
Definition linfo (l : bytes) : N := snd (fst (lflat l)).
Definition lrest (l : bytes) : bytes := snd (lflat l).

Lemma llit_suf n k l : 0 < n -> suf (snd (llit n k l)) l /\ (l <> [] -> length (snd (llit n k l)) < length l).
Proof.
  intros Hn. unfold llit. destruct (Nat.ltb_spec (length l) n); cbn [snd].
  - split; [apply suf_nil|]. destruct l; [congruence | simpl; lia].
  - split; [apply suf_skipn|]. intros Hl. rewrite skipn_length. destruct l; [congruence | cbn [length] in *; lia].
Qed.

Lemma sq_rest d t r : sq false d t = Some r -> suf r t /\ length r < length t.
Proof.
  intros H. apply sq_suf in H as (a & Ha & ->). split; [apply suf_app|].
  rewrite app_length. destruct a; [congruence | simpl; lia].
Qed.
Lemma split_rest t b r : split_str t = Some (b, r) -> suf r t /\ length r < length t.
Proof.
  intros H. apply split_str_app in H. subst t. split.
  - change (b ++ 34%N :: r) with (b ++ [34%N] ++ r). rewrite app_assoc. apply suf_app.
  - rewrite app_length. simpl. lia.
Qed.

Lemma lrest_suf l : suf (lrest l) l /\ (l <> [] -> length (lrest l) < length l).
Proof.
  unfold lrest, lflat. destruct l as [|c t]; [split; [apply suf_nil | congruence]|].
  assert (Hnil : suf [] (c :: t) /\ (c :: t <> [] -> @length N [] < length (c :: t))).
  { split; [apply suf_nil | simpl; lia]. }
  destruct (c =? 34)%N.
  { destruct (split_str t) as [(b, r)|] eqn:E; cbn [snd]; auto.
    apply split_rest in E as [H1 H2]. split; [eapply suf_trans; [eauto | apply suf_cons] | simpl; lia]. }
  destruct ((c =? 123) || (c =? 91))%N.
  { destruct (sq false 0 t) as [r|] eqn:E; cbn [snd]; auto.
    apply sq_rest in E as [H1 H2]. split; [eapply suf_trans; [eauto | apply suf_cons] | simpl; lia]. }
  destruct (_ || _)%N.
  { cbn [snd]. split; [eapply suf_trans; [apply suf_dropw | apply suf_cons] |].
    pose proof (dropw_length num_stop t). simpl. lia. }
  destruct (c =? 116)%N; [apply llit_suf; lia|].
  destruct (c =? 102)%N; [apply llit_suf; lia|].
  destruct (c =? 110)%N; [apply llit_suf; lia|]. auto.
Qed.

(** The value at suffix [l] of [json]. *)
Definition fval (json l : bytes) : value :=
  if (linfo l =? 0)%N then value_default else mkslice (ltext l) (linfo l) (Some (pos json l)).

Definition after_path (l : bytes) (p : path) : path :=
  match l with
  | c :: _ =>
      if ((c =? 34) || (c =? 123) || (c =? 91) || ((48 <=? c) && (c <=? 57)) || (c =? 45)
          || (c =? 116) || (c =? 102) || (c =? 110))%N then p else path_default
  | [] => path_default
  end.

Lemma literal_spec json l n k (p : path) (is_match : bool) : suf l json -> 0 < n -> l <> [] -> k <> 0%N ->
  (if length json <=? pos json l + (n - 1) then Ok (value_default, length json, p)
   else
     let i := pos json l + n in
     if is_match : bool then
       t <- slice json (pos json l) i ;;
       v <- json_from_slice t (Some (pos json l)) k ;;
       Ok (v, i, p)
     else Ok (value_default, i, p))
  = Ok (if is_match then
          if (snd (fst (llit n k l)) =? 0)%N then value_default
          else mkslice (fst (fst (llit n k l))) (snd (fst (llit n k l))) (Some (pos json l))
        else value_default, pos json (snd (llit n k l)), p).
Proof.
  intros Hl Hn Hne Hk. pose proof (suf_length _ _ Hl) as Hle. unfold llit.
  destruct (Nat.ltb_spec (length l) n) as [H|H].
  - replace (length json <=? pos json l + (n - 1)) with true; cbn [fst snd].
    + rewrite pos_nil. destruct is_match; reflexivity.
    + symmetry. apply Nat.leb_le. unfold pos. lia.
  - replace (length json <=? pos json l + (n - 1)) with false; cbn [fst snd].
    2: { symmetry. apply Nat.leb_gt. unfold pos. lia. }
    assert (E : pos json l + n = pos json (skipn n l)).
    { unfold pos. rewrite skipn_length. lia. }
    cbv zeta. rewrite E. replace (k =? 0)%N with false by (symmetry; apply N.eqb_neq; auto).
    destruct is_match; auto.
    rewrite slice_upto by (auto using suf_skipn). cbn [bind]. rewrite json_from_slice_eq. cbn [bind].
    assert (Hu : upto l (skipn n l) = firstn n l).
    { unfold upto. rewrite skipn_length. f_equal. lia. }
    rewrite Hu. reflexivity.
Qed.

(** [proc_value] when no nested lookup happens. *)
Lemma proc_value_flat sub json c t p is_match : suf (c :: t) json ->
  (is_match = false \/ (p_sep p =? 46)%N = false \/ (c <> 123 /\ c <> 91)%N) ->
  proc_value sub json (pos json (c :: t)) p is_match =
    Ok (if is_match then fval json (c :: t) else value_default,
        pos json (lrest (c :: t)), after_path (c :: t) p).
Proof.
  intros H Hcase. unfold proc_value. rewrite (idx_pos _ _ _ H). cbn [bind].
  unfold fval, ltext, linfo, lrest, lflat, after_path.
  destruct (N.eqb_spec c 34) as [->|H34].
  { rewrite (scan_string_spec _ _ H). cbn [bind orb].
    destruct (split_str t) as [(b, r)|] eqn:E; cbn [bind fst snd]; rewrite ?json_from_slice_eq; cbn [bind].
    - replace (N.lor (esc_info b) INFO_STRING =? 0)%N with false
        by (unfold esc_info; destruct (hasbsl b); reflexivity).
      destruct is_match; reflexivity.
    - rewrite pos_nil. destruct is_match; reflexivity. }
  destruct ((c =? 123) || (c =? 91))%N eqn:Eo.
  { rewrite (scan_squash_spec _ _ _ H). cbn [orb]. rewrite Eo.
    assert (Hd : (if is_match then (if (p_sep p =? 46)%N then sub json (pos json (c :: t)) p else Ok DSquash)
                  else Ok DSquash) = Ok DSquash).
    { destruct is_match; auto. destruct Hcase as [?|[-> | ?]]; auto; [discriminate|].
      exfalso. lia. }
    cbn [orb].
    replace ((if (c =? 123)%N then INFO_OBJECT else INFO_ARRAY) =? 0)%N with false
      by (destruct (c =? 123)%N; reflexivity).
    destruct is_match.
    - rewrite Hd. cbn [bind].
      destruct (sq false 0 t) as [r|] eqn:E; cbn [bind fst snd]; rewrite ?json_from_slice_eq; cbn [bind];
        destruct (c =? 123)%N; cbn [orb]; rewrite ?pos_nil; reflexivity.
    - destruct (sq false 0 t) as [r|] eqn:E; cbn [bind fst snd]; rewrite ?pos_nil; reflexivity. }
  cbn [orb]. rewrite Eo. cbn [orb].
  destruct (((48 <=? c) && (c <=? 57)) || (c =? 45))%N eqn:En.
  { rewrite (scan_number_spec _ _ _ H). cbn [bind fst snd]. rewrite ?json_from_slice_eq. cbn [bind orb].
    assert (Hz : forall i, (N.lor i INFO_NUMBER =? 0)%N = false).
    { intros i. apply N.eqb_neq. intros E. apply N.lor_eq_0_iff in E as [_ E]. discriminate. }
    rewrite Hz. destruct is_match; reflexivity. }
  cbn [orb].
  destruct (N.eqb_spec c 116) as [->|H1].
  { rewrite literal_spec by (auto; try discriminate; lia). cbn [orb]. reflexivity. }
  destruct (N.eqb_spec c 102) as [->|H2].
  { rewrite literal_spec by (auto; try discriminate; lia). cbn [orb]. reflexivity. }
  destruct (N.eqb_spec c 110) as [->|H3].
  { rewrite literal_spec by (auto; try discriminate; lia). cbn [orb]. reflexivity. }
  cbn [orb fst snd]. rewrite pos_nil. destruct is_match; reflexivity.
Qed.

Lemma proc_flat_spec json c t : suf (c :: t) json ->
  proc_flat json (pos json (c :: t)) = Ok (fval json (c :: t), pos json (lrest (c :: t)), path_default).
Proof.
  intros H. unfold proc_flat. rewrite proc_value_flat by auto. f_equal. f_equal.
  unfold after_path. destruct (_ || _)%N; reflexivity.
Qed.

(* ---------- items ---------- *)

Definition skip_sep (c : N) : bool := ((c <=? 32) || (c =? 44) || (c =? 58))%N.
Definition end_item (c : N) : bool := ((c =? 125) || (c =? 93))%N.

Fixpoint litems (fuel : nat) (l : bytes) : list bytes :=
  match fuel with
  | O => []
  | S fuel =>
      match l with
      | [] => []
      | c :: t =>
          if skip_sep c then litems fuel t
          else if end_item c then []
          else if v_exists (fval l l) then l :: litems fuel (lrest l) else litems fuel (lrest l)
      end
  end.

Lemma litems_fuel : forall n m l, length l < n -> length l < m -> litems n l = litems m l.
Proof.
  induction n as [|n IH]; intros [|m] l Hn Hm; try lia. destruct l as [|c t]; auto.
  cbn [litems]. simpl in Hn, Hm.
  assert (Hr : length (lrest (c :: t)) < length (c :: t)) by (apply lrest_suf; discriminate).
  simpl in Hr.
  rewrite (IH m t) by lia. rewrite (IH m (lrest (c :: t))) by lia. reflexivity.
Qed.

(** The suffixes at which the iteration finds a value. *)
Definition items (l : bytes) : list bytes := litems (S (length l)) l.

Lemma items_nil : items [] = [].
Proof. reflexivity. Qed.
Lemma items_cons c t : items (c :: t) =
  if skip_sep c then items t
  else if end_item c then []
  else if v_exists (fval (c :: t) (c :: t)) then (c :: t) :: items (lrest (c :: t))
  else items (lrest (c :: t)).
Proof.
  assert (Hr : length (lrest (c :: t)) < length (c :: t)) by (apply lrest_suf; discriminate).
  unfold items at 1. cbn [litems].
  rewrite (litems_fuel (length (c :: t)) (S (length t)) t) by (simpl; lia).
  rewrite (litems_fuel (length (c :: t)) (S (length (lrest (c :: t)))) (lrest (c :: t))) by (cbn [length] in *; lia).
  reflexivity.
Qed.

Lemma fval_exists json l : v_exists (fval json l) = v_exists (fval l l).
Proof. unfold fval. destruct (linfo l =? 0)%N; reflexivity. Qed.

Lemma items_suf l x : In x (items l) -> suf x l /\ x <> [] /\ v_exists (fval x x) = true.
Proof.
  revert x. induction l as [l IH] using (induction_ltof1 _ (@length N)). unfold ltof in IH.
  intros x. destruct l as [|c t]; [intros []|]. rewrite items_cons.
  assert (Ht : In x (items t) -> suf x (c :: t) /\ x <> [] /\ v_exists (fval x x) = true).
  { intros H. apply IH in H as (H1 & H2); [|simpl; lia]. split; auto.
    eapply suf_trans; [eauto | apply suf_cons]. }
  assert (Hr : In x (items (lrest (c :: t))) -> suf x (c :: t) /\ x <> [] /\ v_exists (fval x x) = true).
  { destruct (lrest_suf (c :: t)) as [Hs Hlt].
    intros H. apply IH in H as (H1 & H2); [|apply Hlt; discriminate]. split; auto.
    eapply suf_trans; eauto. }
  destruct (skip_sep c); auto. destruct (end_item c); [intros []|].
  destruct (v_exists (fval (c :: t) (c :: t))) eqn:E; auto.
  intros [<-|H]; auto. split; [apply suf_refl|]. split; [discriminate | auto].
Qed.

(* ---------- for_each ---------- *)

(** Fold with early stop. *)
Fixpoint run {S A} (step : S -> A -> R (S * bool)) (st : S) (l : list A) : R S :=
  match l with
  | [] => Ok st
  | a :: t => '(st, go_on) <- step st a ;; if go_on : bool then run step st t else Ok st
  end.

Fixpoint pair_up {A} (l : list A) : list (A * A) :=
  match l with
  | a :: b :: t => (a, b) :: pair_up t
  | _ => []
  end.

Definition rsnd {A B} (m : R (A * B)) : R B := x <- m ;; Ok (snd x).

Lemma for_each_arr_loop {S} json k (step : S -> value -> value -> R (S * bool)) :
  kind_eqb k KObject = false ->
  forall fuel l index tmp st, suf l json -> length l < fuel ->
  rsnd (for_each_loop fuel json (pos json l) k step index tmp st) =
    run (fun st v => step st value_default v) st (map (fval json) (items l)).
Proof.
  intros Hk. induction fuel as [|fuel IH]; intros l index tmp st Hl Hf; [lia|].
  cbn [for_each_loop]. destruct l as [|c t].
  - rewrite pos_ltb_nil. reflexivity.
  - rewrite (pos_ltb _ _ _ Hl), (idx_pos _ _ _ Hl). cbn [bind]. rewrite items_cons.
    fold (skip_sep c). fold (end_item c). simpl in Hf.
    assert (Ht : suf t json) by (eapply suf_tail; eauto).
    destruct (skip_sep c).
    { rewrite (pos_S _ _ _ Hl). apply IH; auto; lia. }
    destruct (end_item c); [reflexivity|].
    destruct (lrest_suf (c :: t)) as [Hrs Hrl]. specialize (Hrl ltac:(discriminate)). simpl in Hrl.
    pose proof (suf_trans _ _ _ Hrs Hl) as Hrj.
    rewrite (proc_flat_spec _ _ _ Hl). cbn [bind]. rewrite (fval_exists json).
    destruct (v_exists (fval (c :: t) (c :: t))).
    + rewrite Hk. cbn [map run].
      destruct (step st value_default (fval json (c :: t))) as [(st', go)|e]; [|reflexivity].
      cbn [bind]. destruct go; [|reflexivity]. apply IH; auto; lia.
    + apply IH; auto; lia.
Qed.

Lemma for_each_obj_loop {S} json (step : S -> value -> value -> R (S * bool)) :
  forall fuel l index tmp st, suf l json -> length l < fuel ->
  rsnd (for_each_loop fuel json (pos json l) KObject step index tmp st) =
    run (fun st kv => step st (fst kv) (snd kv)) st
      (pair_up (if index mod 2 =? 0 then map (fval json) (items l)
                else tmp :: map (fval json) (items l))).
Proof.
  induction fuel as [|fuel IH]; intros l index tmp st Hl Hf; [lia|].
  cbn [for_each_loop]. destruct l as [|c t].
  - rewrite pos_ltb_nil. destruct (index mod 2 =? 0); reflexivity.
  - rewrite (pos_ltb _ _ _ Hl), (idx_pos _ _ _ Hl). cbn [bind]. rewrite items_cons.
    fold (skip_sep c). fold (end_item c). simpl in Hf.
    assert (Ht : suf t json) by (eapply suf_tail; eauto).
    destruct (skip_sep c).
    { rewrite (pos_S _ _ _ Hl). apply IH; auto; lia. }
    destruct (end_item c); [destruct (index mod 2 =? 0); reflexivity|].
    destruct (lrest_suf (c :: t)) as [Hrs Hrl]. specialize (Hrl ltac:(discriminate)). simpl in Hrl.
    pose proof (suf_trans _ _ _ Hrs Hl) as Hrj.
    rewrite (proc_flat_spec _ _ _ Hl). cbn [bind]. rewrite (fval_exists json).
    destruct (v_exists (fval (c :: t) (c :: t))); [|apply IH; auto; lia].
    change (kind_eqb KObject KObject) with true. cbv match.
    assert (Hpar : ((index + 1) mod 2 =? 0) = negb (index mod 2 =? 0)).
    { rewrite Nat.add_1_r. clear. pose proof (Nat.div_mod index 2 ltac:(lia)) as H1.
      pose proof (Nat.div_mod (Datatypes.S index) 2 ltac:(lia)) as H2.
      pose proof (Nat.mod_upper_bound index 2 ltac:(lia)).
      pose proof (Nat.mod_upper_bound (Datatypes.S index) 2 ltac:(lia)).
      destruct (Nat.eqb_spec (Datatypes.S index mod 2) 0); destruct (Nat.eqb_spec (index mod 2) 0);
        simpl; auto; lia. }
    destruct (index mod 2 =? 0) eqn:Ei.
    + rewrite IH by (auto; lia). rewrite Hpar. reflexivity.
    + cbn [map pair_up run fst snd].
      destruct (step st tmp (fval json (c :: t))) as [(st', go)|e]; [|reflexivity].
      cbn [bind]. destruct go; [|reflexivity].
      rewrite IH by (auto; lia). rewrite Hpar. reflexivity.
Qed.

Lemma kind_eqb_eq a b : kind_eqb a b = true <-> a = b.
Proof. destruct a, b; vm_compute; split; congruence. Qed.

(** The elements visited by [for_each] at the start of [l]. *)
Definition fe_items (lines : bool) (l : bytes) : list bytes := if lines then items l else items (tl l).

Lemma for_each_arr {S} json l lines k (step : S -> value -> value -> R (S * bool)) st :
  suf l json -> kind_eqb k KObject = false ->
  rsnd (for_each json (pos json l) lines k step st) =
    run (fun st v => step st value_default v) st (map (fval json) (fe_items lines l)).
Proof.
  intros Hl Hk. unfold for_each, fe_items. destruct l as [|c t].
  - rewrite pos_eqb_nil. destruct lines; reflexivity.
  - rewrite (pos_eqb _ _ _ Hl). pose proof (suf_length _ _ Hl) as Hle. simpl in Hle.
    destruct lines; cbn [tl].
    + apply for_each_arr_loop; auto. simpl. lia.
    + rewrite (pos_S _ _ _ Hl). apply for_each_arr_loop; auto; try lia; eapply suf_tail; eauto.
Qed.

Lemma for_each_obj {S} json l lines (step : S -> value -> value -> R (S * bool)) st :
  suf l json ->
  rsnd (for_each json (pos json l) lines KObject step st) =
    run (fun st kv => step st (fst kv) (snd kv)) st (pair_up (map (fval json) (fe_items lines l))).
Proof.
  intros Hl. unfold for_each, fe_items. destruct l as [|c t].
  - rewrite pos_eqb_nil. destruct lines; reflexivity.
  - rewrite (pos_eqb _ _ _ Hl). pose proof (suf_length _ _ Hl) as Hle. simpl in Hle.
    destruct lines; cbn [tl].
    + rewrite for_each_obj_loop; auto. simpl. lia.
    + rewrite (pos_S _ _ _ Hl). rewrite for_each_obj_loop; auto; try lia; eapply suf_tail; eauto.
Qed.

Lemma rsnd_ok {A B} (m : R (A * B)) b : rsnd m = Ok b -> exists a, m = Ok (a, b).
Proof. destruct m as [(a, b')|e]; simpl; intros H; inversion H; subst. eauto. Qed.
Lemma rsnd_err {A B} (m : R (A * B)) e : rsnd m = Err e -> m = Err e.
Proof. destruct m as [(a, b')|e']; simpl; intros H; inversion H; subst. auto. Qed.

(** A fold whose callback never stops or fails. *)
Lemma run_fold {S A} (step : S -> A -> R (S * bool)) (f : S -> A -> S) l :
  (forall st a, In a l -> step st a = Ok (f st a, true)) ->
  forall st, run step st l = Ok (fold_left f l st).
Proof.
  induction l as [|a l IH]; intros H st; auto. cbn [run fold_left].
  rewrite H by (left; auto). cbn [bind]. apply IH. intros. apply H. right; auto.
Qed.

(* ---------- each, array, parse ---------- *)

Lemma v_each_spec {S} v (step : S -> value -> value -> R (S * bool)) st :
  v_each v step st =
    if negb (v_exists v) then Ok st
    else match v_kind v with
         | KObject => run (fun st kv => step st (fst kv) (snd kv)) st
                        (pair_up (map (fval (v_json v)) (items (tl (v_json v)))))
         | KArray => run (fun st x => step st value_default x) st
                       (map (fval (v_json v)) (items (tl (v_json v))))
         | _ => run (fun st x => step st value_default x) st [json_clone_from_ref v]
         end.
Proof.
  unfold v_each. destruct (v_exists v); cbn [negb]; auto.
  assert (Hp : forall k, kind_eqb k KObject = false ->
    ('(_, st) <- for_each (v_json v) 0 false k step st;; Ok st) =
    run (fun st x => step st value_default x) st (map (fval (v_json v)) (items (tl (v_json v))))).
  { intros k Hk. rewrite <- (for_each_arr (v_json v) (v_json v) false k) by (auto using suf_refl).
    rewrite pos_refl. unfold rsnd. destruct (for_each _ _ _ _ _ _) as [(a, b)|e]; reflexivity. }
  destruct (v_kind v) eqn:Ek; cbn [negb andb kind_eqb kind_cmp kind_disc N.compare Pos.compare Pos.compare_cont];
    try (cbn [run]; destruct (step st value_default (json_clone_from_ref v)) as [(a, [])|e]; reflexivity).
  - apply Hp. reflexivity.
  - rewrite <- (for_each_obj (v_json v) (v_json v) false) by (auto using suf_refl).
    rewrite pos_refl. unfold rsnd. destruct (for_each _ _ _ _ _ _) as [(a, b)|e]; reflexivity.
Qed.

Lemma fold_app {A} (l acc : list A) : fold_left (fun arr x => arr ++ [x]) l acc = acc ++ l.
Proof.
  revert acc; induction l as [|a l IH]; intros acc; simpl; [rewrite app_nil_r; auto|].
  rewrite IH, <- app_assoc. reflexivity.
Qed.

Lemma v_array_spec v : v_array v =
  Ok (match v_kind v with KArray => map (fval (v_json v)) (items (tl (v_json v))) | _ => [] end).
Proof.
  unfold v_array. destruct (v_kind v) eqn:Ek;
    cbn [kind_eqb kind_cmp kind_disc N.compare Pos.compare Pos.compare_cont]; auto.
  rewrite v_each_spec, Ek.
  destruct (v_exists v) eqn:E; cbn [negb].
  - rewrite (run_fold _ (fun arr x => arr ++ [x])) by auto. rewrite fold_app. reflexivity.
  - unfold v_exists in E. destruct (v_json v); [reflexivity | discriminate].
Qed.

Definition above_sp (c : N) : bool := (32 <? c)%N.
Definition lparse (json : bytes) : value :=
  let l := dropw above_sp json in
  match l with
  | [] => value_default
  | c :: _ =>
      if (c =? 123)%N then mkslice l (N.lor INFO_OBJECT INFO_FOG) (Some (pos json l))
      else if (c =? 91)%N then mkslice l (N.lor INFO_ARRAY INFO_FOG) (Some (pos json l))
      else fval json l
  end.

Lemma parse_loop_spec json : forall fuel l, suf l json -> length l < fuel ->
  dropw above_sp l = dropw above_sp json ->
  parse_loop fuel json (pos json l) = Ok (lparse json).
Proof.
  induction fuel as [|fuel IH]; intros l Hl Hf Hd; [lia|]. cbn [parse_loop].
  destruct l as [|c t].
  - rewrite pos_ltb_nil. unfold lparse. rewrite <- Hd. reflexivity.
  - rewrite (pos_ltb _ _ _ Hl), (idx_pos _ _ _ Hl). cbn [bind].
    cbn [dropw] in Hd. unfold above_sp at 1 in Hd.
    destruct (N.leb_spec c 32) as [Hc|Hc].
    + replace (32 <? c)%N with false in Hd by lia.
      rewrite (pos_S _ _ _ Hl). simpl in Hf. apply IH; auto; [eapply suf_tail; eauto | lia].
    + replace (32 <? c)%N with true in Hd by lia. unfold lparse. rewrite <- Hd.
      rewrite (slice_from_pos _ _ Hl). cbn [bind].
      destruct (c =? 123)%N eqn:E1; [rewrite json_from_slice_eq; reflexivity|].
      destruct (c =? 91)%N eqn:E2; [rewrite json_from_slice_eq; reflexivity|].
      destruct (_ || _)%N eqn:Es.
      * rewrite (proc_flat_spec _ _ _ Hl). reflexivity.
      * unfold fval, linfo, lflat. rewrite E1, E2.
        repeat (apply orb_false_iff in Es as [Es ?]).
        replace (c =? 34)%N with false by lia. replace (c =? 116)%N with false by lia.
        replace (c =? 102)%N with false by lia. replace (c =? 110)%N with false by lia.
        replace (((48 <=? c) && (c <=? 57)) || (c =? 45))%N with false by lia. reflexivity.
Qed.

Lemma parse_spec json : parse json = Ok (lparse json).
Proof.
  unfold parse. pose proof (parse_loop_spec json (S (length json)) json (suf_refl _)) as H.
  rewrite pos_refl in H. apply H; auto.
Qed.
