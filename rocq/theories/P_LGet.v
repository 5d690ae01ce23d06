(** The lookup functions as functions of the suffix they start at.  The model's
    index results, which no caller uses, are dropped. *)
From Verif Require Import P_Base P_Valid P_Str P_Glob P_Scan P_Each P_Path
  M_Util M_Num M_Scan M_Value M_Path M_Get.

Definition drop2 (m : R (value * nat * path)) : R (value * path) := '(v, _, p) <- m ;; Ok (v, p).

Definition elems (json : bytes) (lines : bool) (l : bytes) : list value :=
  map (fval json) (fe_items lines l).

Definition comp_index (comp : bytes) : Z :=
  match parse_i64 comp with Some n => n | None => (-1)%Z end.

(** First element satisfying a fallible test. *)
Fixpoint find_r (f : value -> R bool) (l : list value) : R value :=
  match l with
  | [] => Ok value_default
  | v :: t => m <- f v ;; if m : bool then Ok v else find_r f t
  end.

(** Fallible map keeping what exists. *)
Fixpoint push_all (f : value -> R (option value)) (l : list value) (st : bytes * nat) : R (bytes * nat) :=
  match l with
  | [] => Ok st
  | v :: t => o <- f v ;; push_all f t (match o with Some x => push_elem st x | None => st end)
  end.

Definition larr (getrec : getter) (json : bytes) (lines : bool) (l : bytes) (p : path) : R (value * path) :=
  let xs := elems json lines l in
  let at_index := Ok (if (0 <=? comp_index (p_comp p))%Z
                      then nth (Z.to_nat (comp_index (p_comp p))) xs value_default
                      else value_default, p) in
  match p_comp p with
  | [] => at_index
  | c :: t =>
      if (c =? 35)%N then
        match t with
        | [] =>
            if (p_sep p =? 46)%N then
              '(subpath, rest) <- next_group p ;;
              st <- push_all (fun v => x <- v_get_with getrec v subpath ;; Ok (Some x)) xs ([91%N], 0) ;;
              Ok (mkowned (fst st ++ [93%N]) INFO_ARRAY None, rest)
            else Ok (mkowned (dec_of_nat (length xs)) INFO_NUMBER None, p)
        | _ =>
            if (last t 0 =? 35)%N then
              '(lh, op, rh) <- query_parts (p_comp p) ;;
              '(group, rest) <- next_group p ;;
              st <- push_all (fun v =>
                      m <- elem_matches getrec v lh op rh ;;
                      if m : bool then
                        if (p_sep p =? 46)%N then x <- v_get_with getrec v group ;; Ok (Some x)
                        else Ok (Some v)
                      else Ok None) xs ([91%N], 0) ;;
              Ok (mkowned (fst st ++ [93%N]) INFO_ARRAY None, rest)
            else
              '(lh, op, rh) <- query_parts (p_comp p) ;;
              v <- find_r (fun v => elem_matches getrec v lh op rh) xs ;;
              Ok (v, p)
        end
      else at_index
  end.

Lemma run_count {A} (l : list A) n :
  run (fun n (_ : A) => Ok (n + 1, true)) n l = Ok (n + length l).
Proof.
  revert n; induction l as [|a l IH]; intros n; cbn [run length bind]; [f_equal; lia|].
  rewrite IH. f_equal. lia.
Qed.

Lemma run_ext {S A} (f g : S -> A -> R (S * bool)) l : (forall st a, f st a = g st a) ->
  forall st, run f st l = run g st l.
Proof.
  intros H. induction l as [|a l IH]; intros st; auto. cbn [run]. rewrite H.
  destruct (g st a) as [(st', [])|e]; cbn [bind]; auto.
Qed.

Lemma run_index (ci : Z) i0 (l : list value) (k : Z) :
  (forall v, In v l -> v_exists v = true) -> (0 <= k)%Z ->
  exists a b c,
  run (fun '(index, res, next_i) v =>
        if (index =? ci)%Z then Ok ((index, v, i0), false)
        else Ok (((index + 1)%Z, res, next_i), true)) (k, value_default, 0) l = Ok (a, b, c) /\
  b = (if (k <=? ci)%Z then nth (Z.to_nat (ci - k)) l value_default else value_default) /\
  (v_exists b = true -> c = i0).
Proof.
  intros Hex. revert k. induction l as [|v l IH]; intros k Hk; cbn [run].
  - do 3 eexists. split; [reflexivity|]. split.
    + destruct (k <=? ci)%Z; auto. destruct (Z.to_nat _); reflexivity.
    + discriminate.
  - destruct (Z.eqb_spec k ci) as [->|Hn]; cbn [bind].
    + do 3 eexists. split; [reflexivity|]. split; auto.
      rewrite Z.leb_refl, Z.sub_diag. reflexivity.
    + destruct (IH ltac:(intros; apply Hex; right; auto) (k + 1)%Z ltac:(lia)) as (a & b & c & E & Hb & Hc).
      exists a, b, c. split; [exact E|]. split; auto. rewrite Hb.
      destruct (Z.leb_spec k ci) as [Hle|Hgt].
      * replace (k + 1 <=? ci)%Z with true by lia.
        replace (Z.to_nat (ci - k)) with (S (Z.to_nat (ci - (k + 1)))) by lia. reflexivity.
      * replace (k + 1 <=? ci)%Z with false by lia. reflexivity.
Qed.

Lemma run_find f l : run (fun res v => m <- f v ;; if m : bool then Ok (v, false) else Ok (res, true))
    value_default l = find_r f l.
Proof.
  induction l as [|v l IH]; auto. cbn [run find_r]. destruct (f v) as [[]|]; cbn [bind]; auto.
Qed.

Lemma run_push f (step : bytes * nat -> value -> R (bytes * nat * bool)) l st :
  (forall st v, step st v = (o <- f v ;; Ok (match o with Some x => push_elem st x | None => st end, true))) ->
  run step st l = push_all f l st.
Proof.
  intros H. revert st. induction l as [|v l IH]; intros st; auto. cbn [run push_all]. rewrite H.
  destruct (f v) as [o|]; cbn [bind]; auto.
Qed.

(** Binding the result of [for_each] and ignoring the index. *)
Lemma bind_for_each {S} json l lines step (st : S) (K : nat -> S -> R (value * nat * path))
    (F : S -> R (value * path)) :
  suf l json -> (forall i s, drop2 (K i s) = F s) ->
  drop2 ('(i, s) <- for_each json (pos json l) lines KArray step st ;; K i s) =
    (s <- run (fun st v => step st value_default v) st (elems json lines l) ;; F s).
Proof.
  intros Hl HK. unfold elems. rewrite <- (for_each_arr json l lines KArray step st Hl eq_refl).
  unfold rsnd. destruct (for_each _ _ _ _ _ _) as [[i s]|e]; cbn [bind snd]; auto.
Qed.

Lemma elems_exist json lines l v : In v (elems json lines l) -> v_exists v = true.
Proof.
  unfold elems. rewrite in_map_iff. intros (x & <- & Hx). rewrite fval_exists.
  unfold fe_items in Hx. destruct lines; apply items_suf in Hx; tauto.
Qed.

Lemma child_at_index_spec json l lines p : suf l json ->
  drop2 (get_arr_child_at_index json (pos json l) lines p) =
    Ok (if (0 <=? comp_index (p_comp p))%Z
        then nth (Z.to_nat (comp_index (p_comp p))) (elems json lines l) value_default
        else value_default, p).
Proof.
  intros Hl. unfold get_arr_child_at_index. fold (comp_index (p_comp p)).
  rewrite (bind_for_each json l lines _ _ _
    (fun '(_, res, next_i) => Ok (if v_exists res then res else value_default, p))); auto.
  - destruct (run_index (comp_index (p_comp p)) (pos json l) (elems json lines l) 0
      ltac:(apply elems_exist) ltac:(lia)) as (a & b & c & E & Hb & _).
    rewrite Z.sub_0_r in Hb. match goal with |- bind ?m _ = _ => replace m with (Ok (a, b, c)) end.
    2: { rewrite <- E. apply run_ext. intros [[x y] z] v. reflexivity. }
    cbn [bind]. f_equal. f_equal. rewrite <- Hb.
    destruct (v_exists b) eqn:Eb; auto. subst b.
    destruct (0 <=? comp_index (p_comp p))%Z; auto.
    destruct (nth_in_or_default (Z.to_nat (comp_index (p_comp p))) (elems json lines l) value_default) as [Hin|Hd]; auto.
    apply elems_exist in Hin. congruence.
  - intros i [[a b] c]. destruct (v_exists b); reflexivity.
Qed.

Lemma larr_spec getrec json lines l p : suf l json ->
  drop2 (get_arr getrec json (pos json l) lines p) = larr getrec json lines l p.
Proof.
  intros Hl. unfold get_arr, larr. destruct (p_comp p) as [|c t] eqn:Ec.
  { rewrite <- Ec. apply child_at_index_spec; auto. }
  destruct (c =? 35)%N; [|rewrite <- Ec; apply child_at_index_spec; auto].
  destruct t as [|d t'].
  - destruct (p_sep p =? 46)%N.
    + unfold get_arr_children_with_subpath.
      destruct (next_group p) as [[group rest]|e]; cbn [bind]; auto.
      rewrite (bind_for_each json l lines _ _ _
        (fun s => Ok (mkowned (fst s ++ [93%N]) INFO_ARRAY None, rest))); auto.
      * rewrite (run_push (fun v => x <- v_get_with getrec v group ;; Ok (Some x))); auto.
        intros [o n] v. destruct (v_get_with getrec v group); reflexivity.
    + unfold get_arr_count.
      rewrite (bind_for_each json l lines _ _ _ (fun n => Ok (mkowned (dec_of_nat n) INFO_NUMBER None, p))); auto.
      * rewrite run_count. reflexivity.
  - destruct (last (d :: t') 0 =? 35)%N.
    + unfold get_arr_children_with_query_subpath. rewrite Ec.
      destruct (query_parts (c :: d :: t')) as [[[lh op] rh]|e]; cbn [bind]; auto.
      destruct (next_group p) as [[group rest]|e]; cbn [bind]; auto.
      rewrite (bind_for_each json l lines _ _ _
        (fun s => Ok (mkowned (fst s ++ [93%N]) INFO_ARRAY None, rest))); auto.
      * rewrite (run_push (fun v =>
                      m <- elem_matches getrec v lh op rh ;;
                      if m : bool then
                        if (p_sep p =? 46)%N then x <- v_get_with getrec v group ;; Ok (Some x)
                        else Ok (Some v)
                      else Ok None)); auto.
        intros [o n] v. destruct (elem_matches getrec v lh op rh) as [[]|]; cbn [bind]; auto.
        destruct (p_sep p =? 46)%N; cbn [bind]; auto. destruct (v_get_with getrec v group); reflexivity.
    + unfold get_arr_child_with_query. rewrite Ec.
      destruct (query_parts (c :: d :: t')) as [[[lh op] rh]|e]; cbn [bind]; auto.
      rewrite (bind_for_each json l lines _ _ _ (fun v => Ok (if v_exists v then v else value_default, p))); auto.
      * rewrite <- (run_find (fun v => elem_matches getrec v lh op rh)).
        assert (H : forall xs, (forall v, In v xs -> v_exists v = true) -> forall v0, v_exists v0 = true \/ v0 = value_default ->
          match run (fun res v => m <- elem_matches getrec v lh op rh ;; if m : bool then Ok (v, false) else Ok (res, true)) v0 xs with
          | Ok v => v_exists v = true \/ v = value_default | Err _ => True end).
        { induction xs as [|x xs IH]; intros Hx v0 Hv0; cbn [run]; auto.
          destruct (elem_matches getrec x lh op rh) as [[]|]; cbn [bind]; auto.
          - left. apply Hx. left; auto.
          - apply IH; auto. intros. apply Hx. right; auto. }
        specialize (H (elems json lines l) ltac:(apply elems_exist) value_default ltac:(auto)).
        destruct (run _ value_default (elems json lines l)) as [v|e]; cbn [bind]; auto.
        destruct H as [-> | ->]; auto.
      * intros i v. destruct (v_exists v); reflexivity.
Qed.

(* ---------- objects ---------- *)

Definition pm (p s : bytes) : bool := match pmatch p s with Ok b => b | Err _ => false end.
Lemma pm_eq p s : pmatch p s = Ok (pm p s).
Proof. unfold pm. destruct (pmatch_spec p s) as (b & -> & _). reflexivity. Qed.

(** The decoded text of a string body as the code computes it. *)
Definition sdec (b : bytes) : bytes := if hasbsl b then un b else b.
Definition kmatch (p : path) (b : bytes) : bool :=
  if p_pat p || p_esc p then pm (p_comp p) (sdec b) else beq (sdec b) (p_comp p).

Lemma strip_quotes_quoted b : strip_quotes (34%N :: b ++ [34%N]) = Ok b.
Proof.
  unfold strip_quotes. cbn [length]. rewrite app_length. cbn [length].
  rewrite usub_ok by lia. cbn [bind].
  replace (S (length b + 1) - 1) with (1 + length b) by lia.
  destruct b as [|x b].
  - reflexivity.
  - apply (slice_skipn _ 1 (x :: b) [34%N]); [reflexivity | discriminate].
Qed.

Lemma has_esc_info b : has (esc_info b) INFO_ESC = hasbsl b.
Proof. unfold esc_info. destruct (hasbsl b); reflexivity. Qed.

Lemma key_match_spec b p : key_match (34%N :: b ++ [34%N]) (esc_info b) p = Ok (kmatch p b).
Proof.
  unfold key_match, kmatch, sdec. rewrite has_esc_info.
  assert (E : (if hasbsl b then unescape (34%N :: b ++ [34%N]) else strip_quotes (34%N :: b ++ [34%N]))
              = Ok (if hasbsl b then un b else b)).
  { destruct (hasbsl b); [apply unescape_quoted | apply strip_quotes_quoted]. }
  rewrite E. cbn [bind]. destruct (p_pat p || p_esc p); auto. apply pm_eq.
Qed.

Definition colon_stop (c : N) : bool := negb ((c <=? 32) || (c =? 58))%N.

Lemma skip_colon_spec json : forall fuel l, suf l json -> length l < fuel ->
  skip_colon fuel json (pos json l) = Ok (pos json (dropw colon_stop l)).
Proof.
  induction fuel as [|fuel IH]; intros l Hl Hf; [lia|]. cbn [skip_colon]. destruct l as [|c t].
  - rewrite pos_ltb_nil. reflexivity.
  - rewrite (pos_ltb _ _ _ Hl), (idx_pos _ _ _ Hl). cbn [bind dropw]. unfold colon_stop at 1.
    destruct ((c <=? 32) || (c =? 58))%N; cbn [negb]; auto.
    rewrite (pos_S _ _ _ Hl). simpl in Hf. apply IH; [eapply suf_tail; eauto | lia].
Qed.

Inductive ldescent :=
| LReturn (v : value) (p : path)
| LSquash
| LNone.

Definition container (c : N) : bool := ((c =? 123) || (c =? 91))%N.

Fixpoint lobj_loop (fuel : nat) (lsub : bytes -> R ldescent) (json l : bytes) (p : path) : R (value * path) :=
  match fuel with
  | O => Err EFuel
  | S fuel =>
      match l with
      | [] => Ok (value_default, p)
      | c :: t =>
          if (c =? 125)%N then Ok (value_default, p)
          else if negb (c =? 34)%N then lobj_loop fuel lsub json t p
          else
            match split_str t with
            | None => Ok (value_default, p)
            | Some (b, r0) =>
                let r := dropw colon_stop r0 in
                match r with
                | [] => Ok (value_default, p)
                | c' :: _ =>
                    let flat := if kmatch p b && v_exists (fval json r) then Ok (fval json r, p)
                                else lobj_loop fuel lsub json (lrest r) p in
                    if kmatch p b && (p_sep p =? 46)%N && container c' then
                      d <- lsub r ;;
                      match d with
                      | LReturn v p' => Ok (v, p')
                      | LSquash => flat
                      | LNone => lobj_loop fuel lsub json r p
                      end
                    else flat
                end
            end
      end
  end.

(** How the nested lookup of the model and of this file correspond. *)
Definition sub_rel (sub : bytes -> nat -> path -> R descent) (lsub : bytes -> R ldescent)
    (json : bytes) (p : path) : Prop :=
  forall c t, suf (c :: t) json -> container c = true ->
  match lsub (c :: t) with
  | Ok (LReturn v p') => v_exists v = true /\ exists i, sub json (pos json (c :: t)) p = Ok (DReturn (v, i, p'))
  | Ok LSquash => sub json (pos json (c :: t)) p = Ok DSquash
  | Ok LNone => sub json (pos json (c :: t)) p = Ok DNone
  | Err e => sub json (pos json (c :: t)) p = Err e
  end.

Lemma fval_exists_path json c t p : v_exists (fval json (c :: t)) = true -> after_path (c :: t) p = p.
Proof.
  unfold fval, linfo, ltext, lflat, after_path.
  destruct (c =? 34)%N; auto. destruct (N.eqb_spec c 123) as [->|]; auto. destruct (N.eqb_spec c 91) as [->|]; auto.
  cbn [orb]. destruct (((48 <=? c) && (c <=? 57)) || (c =? 45))%N eqn:E1.
  { intros _. reflexivity. }
  cbn [orb].
  destruct (c =? 116)%N; auto. destruct (c =? 102)%N; auto. destruct (c =? 110)%N; auto. discriminate.
Qed.

Lemma lobj_loop_spec sub lsub json p : sub_rel sub lsub json p ->
  forall fuel l, suf l json -> length l < fuel ->
  drop2 (get_obj_loop fuel sub json (pos json l) p) = lobj_loop fuel lsub json l p.
Proof.
  intros Hsub. induction fuel as [|fuel IH]; intros l Hl Hf; [lia|].
  cbn [get_obj_loop lobj_loop]. destruct l as [|c t].
  { rewrite pos_ltb_nil. reflexivity. }
  rewrite (pos_ltb _ _ _ Hl), (idx_pos _ _ _ Hl). cbn [bind].
  pose proof (suf_tail _ _ _ Hl) as Ht. simpl in Hf.
  destruct (c =? 125)%N; [reflexivity|].
  destruct (N.eqb_spec c 34) as [->|]; cbn [negb].
  2: { rewrite (pos_S _ _ _ Hl). apply IH; auto; lia. }
  rewrite (scan_string_spec _ _ Hl).
  destruct (split_str t) as [(b, r0)|] eqn:Es; cbn [bind].
  2: { pose proof (skip_colon_spec json (S (length json)) [] (suf_nil _) ltac:(simpl; lia)) as H.
       rewrite pos_nil in H. rewrite H. cbn [dropw bind]. rewrite pos_eqb_nil; reflexivity. }
  apply split_rest in Es as [Hr0 Hr0l].
  pose proof (suf_trans _ _ _ Hr0 Ht) as Hr0j.
  rewrite skip_colon_spec; auto; [|apply suf_length in Hr0j; lia]. cbn [bind].
  pose proof (suf_trans _ _ _ (suf_dropw colon_stop r0) Hr0j) as Hrj.
  pose proof (dropw_length colon_stop r0) as Hrl.
  destruct (dropw colon_stop r0) as [|c' t'] eqn:Er.
  { rewrite pos_eqb_nil. reflexivity. }
  rewrite (pos_eqb _ _ _ Hrj), key_match_spec. cbn [bind].
  destruct (lrest_suf (c' :: t')) as [Hls Hll]. specialize (Hll ltac:(discriminate)).
  pose proof (suf_trans _ _ _ Hls Hrj) as Hlj.
  assert (Hflat : forall m, proc_value sub json (pos json (c' :: t')) p m =
      Ok (if m : bool then fval json (c' :: t') else value_default, pos json (lrest (c' :: t')), after_path (c' :: t') p) ->
    drop2 ('(res, i, next_path) <- proc_value sub json (pos json (c' :: t')) p m ;;
           if v_exists res then Ok (res, i, next_path) else get_obj_loop fuel sub json i p) =
    (if m && v_exists (fval json (c' :: t')) then Ok (fval json (c' :: t'), p)
     else lobj_loop fuel lsub json (lrest (c' :: t')) p)).
  { intros m ->. cbn [bind]. destruct m; cbn [andb].
    - destruct (v_exists (fval json (c' :: t'))) eqn:Ee.
      + rewrite (fval_exists_path _ _ _ _ Ee). reflexivity.
      + apply IH; auto; lia.
    - cbn [v_exists v_json value_default v_owned v_slice]. apply IH; auto; lia. }
  destruct (kmatch p b && (p_sep p =? 46)%N && container c') eqn:Ed.
  2: { apply Hflat. apply proc_value_flat; auto. destruct (kmatch p b); auto. cbn [andb] in Ed.
       destruct (p_sep p =? 46)%N; auto. cbn [andb] in Ed. right. right. unfold container in Ed. lia. }
  apply andb_true_iff in Ed as [Ed Hc]. apply andb_true_iff in Ed as [Hm Hd].
  specialize (Hsub c' t' Hrj Hc). rewrite Hm in *. cbn [andb].
  (* unfold proc_value on a container with a match *)
  assert (Hpv : proc_value sub json (pos json (c' :: t')) p true =
    (d <- sub json (pos json (c' :: t')) p ;;
     match d with
     | DReturn r => Ok r
     | DSquash => proc_value (fun _ _ _ => Ok DSquash) json (pos json (c' :: t')) p true
     | DNone => Ok (value_default, pos json (c' :: t'), p)
     end)).
  { unfold proc_value. rewrite (idx_pos _ _ _ Hrj). cbn [bind].
    unfold container in Hc. replace (c' =? 34)%N with false by lia. rewrite Hc, Hd.
    destruct (sub json (pos json (c' :: t')) p) as [[r| |]|e]; reflexivity. }
  destruct (lsub (c' :: t')) as [[v p'| |]|e]; cbn [bind].
  - destruct Hsub as (Hv & i & Hi). rewrite Hpv, Hi. cbn [bind]. rewrite Hv. reflexivity.
  - change (v_exists (fval json (c' :: t'))) with (true && v_exists (fval json (c' :: t'))).
    rewrite <- (Hflat true).
    + rewrite Hpv, Hsub. cbn [bind]. reflexivity.
    + rewrite Hpv, Hsub. cbn [bind].
      (* the constant nested lookup behaves as a flat value *)
      unfold proc_value. rewrite (idx_pos _ _ _ Hrj). cbn [bind].
      pose proof (proc_value_flat sub json c' t' (mkPath (p_comp p) (p_esc p) (p_pat p) 0 (p_marg p) (p_extra p)) true Hrj
        ltac:(right; left; reflexivity)) as Hp0.
      unfold proc_value in Hp0. rewrite (idx_pos _ _ _ Hrj) in Hp0. cbn [bind p_sep N.eqb] in Hp0.
      unfold container in Hc. replace (c' =? 34)%N with false in * by lia. rewrite Hc in *.
      destruct (p_sep p =? 46)%N; cbn [bind] in *;
        (destruct (scan_squash json (pos json (c' :: t'))) as [[val ni]|e]; cbn [bind] in *; [|discriminate];
         rewrite json_from_slice_eq in *; cbn [bind] in *; inversion Hp0; subst;
         f_equal; f_equal; unfold after_path;
         apply orb_true_iff in Hc; destruct Hc as [Hc|Hc]; rewrite Hc; rewrite ?orb_true_r; cbn [orb];
         rewrite ?orb_true_r; reflexivity).
  - rewrite Hpv, Hsub. cbn [bind]. cbn [v_exists v_json value_default v_owned v_slice].
    apply IH; auto. lia.
  - rewrite Hpv, Hsub. reflexivity.
Qed.

Fixpoint lobj (fuel : nat) (getrec : getter) (json l : bytes) (p : path) : R (value * path) :=
  match fuel with
  | O => Err EFuel
  | S fuel =>
      match l with
      | [] => Ok (value_default, p)
      | c :: t =>
          if negb (c =? 123)%N then Ok (value_default, p)
          else
            lobj_loop (S (length json))
              (fun r =>
                 let q := pnext (p_extra p) in
                 if is_modifier q || is_multipath q then Ok LSquash
                 else
                   '(v, p') <- (match r with
                                | c :: _ => if (c =? 123)%N then lobj fuel getrec json r q
                                            else larr getrec json false r q
                                | [] => Err EPanic
                                end) ;;
                   Ok (if v_exists v then LReturn v p' else LNone))
              json t p
      end
  end.

Lemma lobj_spec getrec json : forall fuel l p, suf l json ->
  drop2 (get_obj fuel getrec json (pos json l) p) = lobj fuel getrec json l p.
Proof.
  induction fuel as [|fuel IH]; intros l p Hl; [reflexivity|].
  cbn [get_obj lobj]. destruct l as [|c t].
  { rewrite pos_eqb_nil. reflexivity. }
  rewrite (pos_eqb _ _ _ Hl), (idx_pos _ _ _ Hl). cbn [bind].
  destruct (negb (c =? 123)%N); [reflexivity|].
  pose proof (suf_tail _ _ _ Hl) as Ht.
  rewrite (pos_S _ _ _ Hl). apply lobj_loop_spec; auto; [|apply suf_length in Ht; lia].
  intros c' t' Hr Hc. unfold p_next. rewrite pnext_eq. cbn [bind].
  destruct (is_modifier (pnext (p_extra p)) || is_multipath (pnext (p_extra p))); [reflexivity|].
  rewrite (idx_pos _ _ _ Hr). cbn [bind].
  destruct (c' =? 123)%N eqn:E.
  - rewrite <- IH by auto. destruct (get_obj fuel getrec json (pos json (c' :: t')) (pnext (p_extra p))) as [[[v i] p']|e];
      cbn [drop2 bind]; auto. destruct (v_exists v) eqn:Ev; eauto.
  - rewrite <- larr_spec by auto. destruct (get_arr getrec json (pos json (c' :: t')) false (pnext (p_extra p))) as [[[v i] p']|e];
      cbn [drop2 bind]; auto. destruct (v_exists v) eqn:Ev; eauto.
Qed.

(* ---------- get ---------- *)

Definition lstart (getrec : getter) (json : bytes) (p : path) : R (value * path) :=
  let l := dropw above_sp json in
  match l with
  | [] => Ok (value_default, p)
  | c :: _ =>
      if (c =? 123)%N then lobj (S (S (length (p_extra p)))) getrec json l p
      else if (c =? 91)%N then larr getrec json false l p
      else Ok (value_default, p)
  end.

Lemma get_start_spec getrec json p : forall fuel l, suf l json -> length l < fuel ->
  dropw above_sp l = dropw above_sp json ->
  get_start fuel getrec json (pos json l) p = lstart getrec json p.
Proof.
  induction fuel as [|fuel IH]; intros l Hl Hf Hd; [lia|]. cbn [get_start]. unfold lstart.
  destruct l as [|c t].
  - rewrite pos_eqb_nil. rewrite <- Hd. reflexivity.
  - rewrite (pos_eqb _ _ _ Hl), (idx_pos _ _ _ Hl). cbn [bind].
    cbn [dropw] in Hd. unfold above_sp at 1 in Hd.
    destruct (N.leb_spec c 32) as [Hc|Hc].
    + replace (32 <? c)%N with false in Hd by lia. rewrite (pos_S _ _ _ Hl). simpl in Hf.
      rewrite IH; auto; [eapply suf_tail; eauto | lia].
    + replace (32 <? c)%N with true in Hd by lia. rewrite <- Hd.
      destruct (c =? 123)%N.
      { rewrite <- lobj_spec by auto. unfold drop2. destruct (get_obj _ _ _ _ _) as [[[v i] q]|e]; reflexivity. }
      destruct (c =? 91)%N; auto.
      rewrite <- larr_spec by auto. unfold drop2. destruct (get_arr _ _ _ _ _) as [[[v i] q]|e]; reflexivity.
Qed.

Definition lget_first (getrec : getter) (json : bytes) (lines : bool) (p : path) : R (value * path) :=
  if lines then larr getrec json true json p
  else if is_modifier p then mod_exec getrec json p
  else if is_multipath p then multi_exec getrec json p
  else lstart getrec json p.

Lemma get_body_spec getrec json text :
  get_body getrec json text =
    let '(lines, text) := split_lines text in
    '(res, p) <- lget_first getrec json lines (pnext text) ;;
    if negb (p_more p) then Ok res else v_get_with getrec res (p_extra p).
Proof.
  unfold get_body. destruct (split_lines text) as [lines text'].
  unfold path_new. rewrite pnext_eq. cbn [bind]. unfold lget_first.
  destruct lines.
  - pose proof (larr_spec getrec json true json (pnext text') (suf_refl _)) as H. rewrite pos_refl in H.
    rewrite <- H. unfold drop2. destruct (get_arr _ _ _ _ _) as [[[v i] q]|e]; reflexivity.
  - destruct (is_modifier (pnext text')); auto. destruct (is_multipath (pnext text')); auto.
    pose proof (get_start_spec getrec json (pnext text') (S (length json)) json (suf_refl _) ltac:(lia) eq_refl) as H.
    rewrite pos_refl in H. rewrite H. reflexivity.
Qed.
