(** Path splitting as functions of the suffix; [path_next] is total. *)
From Verif Require Import P_Base P_Valid P_Str P_Scan P_Each M_Util M_Scan M_Value M_Path.

(** The main loop of [path_next]: remainder, separator, flags, colon suffix. *)
Fixpoint lpn (modi : bool) (l : bytes) (esc pat : bool) : bytes * N * bool * bool * option bytes :=
  match l with
  | [] => ([], 0%N, esc, pat, None)
  | c :: t =>
      if (c =? 92)%N then
        match t with [] => ([], 0%N, true, pat, None) | _ :: t' => lpn modi t' true pat end
      else if modi && (c =? 58)%N then
        match t with
        | [] => ([], 0%N, esc, pat, Some l)
        | c' :: _ =>
            let r := if ((c' =? 123) || (c' =? 91) || (c' =? 34))%N then lrest t else dropw is_sep t in
            match r with
            | [] => ([], 0%N, esc, pat, Some l)
            | d :: r' => if is_sep d then (r', d, esc, pat, Some l) else (r, 0%N, esc, pat, Some l)
            end
        end
      else if ((c =? 42) || (c =? 63))%N then lpn modi t esc true
      else if is_sep c then (t, c, esc, pat, None)
      else lpn modi t esc pat
  end.

Lemma skip_to_sep_spec extra : forall fuel l, suf l extra -> length l < fuel ->
  skip_to_sep fuel extra (pos extra l) =
    Ok (match dropw is_sep l with [] => (length extra, 0%N) | d :: r => (pos extra r, d) end).
Proof.
  induction fuel as [|fuel IH]; intros l Hl Hf; [lia|]. cbn [skip_to_sep]. destruct l as [|c t].
  - rewrite pos_ltb_nil. rewrite pos_nil. reflexivity.
  - rewrite (pos_ltb _ _ _ Hl), (idx_pos _ _ _ Hl). cbn [bind dropw]. rewrite (pos_S _ _ _ Hl).
    destruct (is_sep c); auto. simpl in Hf. apply IH; [eapply suf_tail; eauto | lia].
Qed.

Definition marg_pos (extra : bytes) (m : nat) (o : option bytes) : nat :=
  match o with Some s => pos extra s | None => m end.

Lemma path_next_loop_spec extra modi : forall fuel l esc pat m, suf l extra -> length l < fuel ->
  path_next_loop fuel extra modi (pos extra l) esc pat m =
    let '(r, sep, esc', pat', o) := lpn modi l esc pat in
    Ok (pos extra r, sep, esc', pat', marg_pos extra m o).
Proof.
  induction fuel as [|fuel IH]; intros l esc pat m Hl Hf; [lia|]. cbn [path_next_loop].
  destruct l as [|c t].
  - rewrite pos_ltb_nil. reflexivity.
  - rewrite (pos_ltb _ _ _ Hl), (idx_pos _ _ _ Hl). cbn [bind lpn]. rewrite (pos_S _ _ _ Hl).
    pose proof (suf_tail _ _ _ Hl) as Ht. simpl in Hf.
    destruct (c =? 92)%N.
    { destruct t as [|e t'].
      - rewrite pos_eqb_nil. reflexivity.
      - rewrite (pos_eqb _ _ _ Ht), (pos_S _ _ _ Ht). simpl in Hf.
        apply IH; [eapply suf_tail; eauto | lia]. }
    destruct (modi && (c =? 58)%N).
    { destruct t as [|c' t'].
      - rewrite pos_eqb_nil. reflexivity.
      - rewrite (pos_eqb _ _ _ Ht), (idx_pos _ _ _ Ht). cbn [bind].
        destruct ((c' =? 123) || (c' =? 91) || (c' =? 34))%N.
        + rewrite (proc_flat_spec _ _ _ Ht). cbn [bind].
          destruct (lrest_suf (c' :: t')) as [Hr _]. pose proof (suf_trans _ _ _ Hr Ht) as Hrj.
          destruct (lrest (c' :: t')) as [|d r'] eqn:Er.
          * rewrite pos_ltb_nil. reflexivity.
          * rewrite (pos_ltb _ _ _ Hrj), (idx_pos _ _ _ Hrj). cbn [bind].
            destruct (is_sep d); [rewrite (pos_S _ _ _ Hrj) |]; reflexivity.
        + rewrite skip_to_sep_spec; auto; [|apply suf_length in Ht; lia]. cbn [bind].
          destruct (dropw is_sep (c' :: t')) as [|d r'] eqn:Ed.
          * cbn [bind]. rewrite <- (pos_nil extra). reflexivity.
          * apply dropw_head in Ed. rewrite Ed. reflexivity. }
    destruct ((c =? 42) || (c =? 63))%N; [apply IH; auto; lia|].
    destruct (is_sep c); [reflexivity|]. apply IH; auto; lia.
Qed.

(** What a separator found by the scan is preceded by. *)
Lemma lpn_shape modi l : forall esc pat r sep e p o, lpn modi l esc pat = (r, sep, e, p, o) ->
  suf r l /\ (sep = 0%N \/ (is_sep sep = true /\ exists a, l = a ++ sep :: r))
  /\ match o with
     | None => True
     | Some s => exists a b, l = a ++ s /\ s = 58%N :: b /\ (sep = 0%N \/ exists m, b = m ++ sep :: r)
     end.
Proof.
  induction l as [l IH] using (induction_ltof1 _ (@length N)). unfold ltof in IH.
  intros esc pat r sep e p o. destruct l as [|c t]; cbn [lpn].
  { intros [= <- <- <- <- <-]. repeat split; auto using suf_nil. }
  assert (Hlift : forall t', suf t' t -> forall esc pat, lpn modi t' esc pat = (r, sep, e, p, o) ->
    suf r (c :: t) /\ (sep = 0%N \/ (is_sep sep = true /\ exists a, c :: t = a ++ sep :: r))
    /\ match o with
       | None => True
       | Some s => exists a b, c :: t = a ++ s /\ s = 58%N :: b /\ (sep = 0%N \/ exists m, b = m ++ sep :: r)
       end).
  { intros t' [x ->] esc' pat' H. apply IH in H as (H1 & H2 & H3); [|simpl; rewrite app_length; lia].
    split; [|split].
    - eapply suf_trans; [exact H1|]. exists (c :: x). reflexivity.
    - destruct H2 as [|[H2 [a ->]]]; auto. right. split; auto. exists (c :: x ++ a). cbn. rewrite app_assoc. reflexivity.
    - destruct o as [s|]; auto. destruct H3 as (a & b & -> & Hs & Hb). exists (c :: x ++ a), b.
      split; auto. cbn. rewrite app_assoc. reflexivity. }
  destruct (c =? 92)%N.
  { destruct t as [|e' t'].
    - intros [= <- <- <- <- <-]. repeat split; auto using suf_nil.
    - apply Hlift, suf_cons. }
  destruct (modi && (c =? 58)%N) eqn:Em.
  { apply andb_true_iff in Em as [_ Ec]. apply N.eqb_eq in Ec. subst c.
    destruct t as [|c' t'].
    - intros [= <- <- <- <- <-]. repeat split; auto using suf_nil. exists [], []. auto.
    - set (r0 := if _ : bool then lrest (c' :: t') else dropw is_sep (c' :: t')).
      assert (Hr0 : suf r0 (c' :: t')) by (unfold r0; destruct (_ || _)%N; [apply lrest_suf | apply suf_dropw]).
      destruct Hr0 as [a Ha]. destruct r0 as [|d r'].
      + intros [= <- <- <- <- <-]. repeat split; auto using suf_nil. exists [], (c' :: t'). auto.
      + destruct (is_sep d) eqn:Ed; intros [= <- <- <- <- <-].
        * split; [|split].
          -- rewrite Ha. exists (58%N :: a ++ [d]). cbn. rewrite <- app_assoc. reflexivity.
          -- right. split; auto. exists (58%N :: a). rewrite Ha. reflexivity.
          -- exists [], (c' :: t'). repeat split. right. exists a. exact Ha.
        * split; [|split]; auto.
          -- rewrite Ha. exists (58%N :: a). reflexivity.
          -- exists [], (c' :: t'). auto. }
  destruct ((c =? 42) || (c =? 63))%N; [apply Hlift, suf_refl|].
  destruct (is_sep c) eqn:Es; [|apply Hlift, suf_refl].
  intros [= <- <- <- <- <-]. split; [apply suf_cons|]. split; auto. right. split; auto. exists []. reflexivity.
Qed.

Lemma lpn_marg l : forall esc pat r sep e p s, lpn false l esc pat <> (r, sep, e, p, Some s).
Proof.
  induction l as [l IH] using (induction_ltof1 _ (@length N)). unfold ltof in IH.
  intros esc pat r sep e p s. destruct l as [|c t]; cbn [lpn andb]; try discriminate.
  destruct (c =? 92)%N; [destruct t as [|x t']; try discriminate; apply IH; simpl; lia|].
  destruct ((c =? 42) || (c =? 63))%N; [apply IH; simpl; lia|].
  destruct (is_sep c); try discriminate. apply IH; simpl; lia.
Qed.

(** The path found by the scan. *)
Definition lscan (modi : bool) (extra : bytes) : path :=
  let '(r, sep, esc, pat, o) := lpn modi extra false false in
  mkPath (if (sep =? 0)%N then extra else upto extra (sep :: r)) esc pat sep (marg_pos extra 0 o) r.

Lemma is_sep_nz s : is_sep s = true -> (s =? 0)%N = false.
Proof. unfold is_sep. lia. Qed.

Lemma path_next_scan_spec extra modi : path_next_scan extra modi = Ok (lscan modi extra).
Proof.
  unfold path_next_scan, lscan.
  pose proof (path_next_loop_spec extra modi (S (length extra)) extra false false 0 (suf_refl _) ltac:(lia)) as H.
  rewrite pos_refl in H. rewrite H. clear H.
  destruct (lpn modi extra false false) as [[[[r sep] esc] pat] o] eqn:E. cbn [bind].
  apply lpn_shape in E as (Hr & Hs & _).
  rewrite (slice_from_pos _ _ Hr).
  destruct Hs as [->|[Hs [a Ha]]].
  - reflexivity.
  - rewrite (is_sep_nz _ Hs). pose proof (pos_S sep r extra) as HS. rewrite Ha in HS.
    specialize (HS (suf_app _ _)). rewrite <- Ha in HS.
    rewrite usub_ok by lia. cbn [bind]. replace (pos extra r - 1) with (pos extra (sep :: r)) by lia.
    rewrite <- (pos_refl extra) at 1. rewrite slice_upto; auto using suf_refl.
    rewrite Ha. apply suf_app.
Qed.

(** Shape of a path read from [extra]. *)
Record path_shape (extra : bytes) (p : path) : Prop := {
  ps_sep : p_sep p = 0%N \/ (is_sep (p_sep p) = true /\ extra = p_comp p ++ p_sep p :: p_extra p);
  ps_prefix : exists t, extra = p_comp p ++ t;
  ps_head : p_comp p = [] \/ hd 0%N (p_comp p) = hd 0%N extra;
  ps_extra : suf (p_extra p) extra;
  ps_marg : p_marg p = 0 \/ exists a m, p_comp p = 64%N :: a ++ 58%N :: m /\ p_marg p = S (length a);
}.

Lemma head_prefix {A} (d : A) a b l : l = a ++ b -> a = [] \/ hd d a = hd d l.
Proof. intros ->. destruct a; auto. Qed.

Lemma shape_default extra : path_shape extra path_default.
Proof.
  constructor; cbn; auto using suf_nil. exists extra. reflexivity.
Qed.

Lemma lscan_shape modi extra : (modi = true -> exists t, extra = 64%N :: t) ->
  path_shape extra (lscan modi extra).
Proof.
  intros Hm. unfold lscan. destruct (lpn modi extra false false) as [[[[r sep] esc] pat] o] eqn:E.
  pose proof (lpn_shape _ _ _ _ _ _ _ _ _ E) as (Hr & Hs & Ho).
  assert (Hc : exists t, extra = (if (sep =? 0)%N then extra else upto extra (sep :: r)) ++ t).
  { destruct Hs as [->|[Hs [a Ha]]].
    - exists []. rewrite app_nil_r. reflexivity.
    - rewrite (is_sep_nz _ Hs). exists (sep :: r). apply upto_suf. rewrite Ha. apply suf_app. }
  constructor; cbn [p_sep p_comp p_extra p_marg].
  - destruct Hs as [->|[Hs [a Ha]]]; auto. right. split; auto.
    rewrite (is_sep_nz _ Hs). apply upto_suf. rewrite Ha. apply suf_app.
  - exact Hc.
  - destruct Hc as [t Ht]. eapply head_prefix; eauto.
  - exact Hr.
  - destruct o as [s|]; [|left; reflexivity]. right.
    destruct Ho as (a & b & Ea & Es & Hb).
    assert (modi = true) as ->.
    { destruct modi; auto. exfalso. eapply lpn_marg; eauto. }
    destruct (Hm eq_refl) as [t Et]. cbn [marg_pos].
    assert (Hp : pos extra s = length a).
    { unfold pos. rewrite Ea, app_length. lia. }
    assert (Ha : a <> []).
    { intros ->. simpl in Ea. rewrite Es in Ea. congruence. }
    assert (Hcomp : exists m, (if (sep =? 0)%N then extra else upto extra (sep :: r)) = a ++ 58%N :: m).
    { destruct Hb as [->|[m Em]].
      - exists b. simpl. rewrite Ea, Es. reflexivity.
      - destruct Hs as [->|[Hs _]]; [exists b; simpl; rewrite Ea, Es; reflexivity|].
        rewrite (is_sep_nz _ Hs). exists m. rewrite Ea, Es, Em.
        change (a ++ 58%N :: m ++ sep :: r) with (a ++ (58%N :: m) ++ (sep :: r)).
        rewrite app_assoc, upto_app. reflexivity. }
    destruct Hcomp as [m Hcm]. rewrite Hcm, Hp. destruct a as [|x a]; [congruence|].
    rewrite Ea in Et. cbn in Et. injection Et as -> _. exists a, m. split; reflexivity.
Qed.

Lemma path_next_multipath_ok c t : exists p, path_next_multipath (c :: t) = Ok p /\
  path_shape (c :: t) p /\ hd 0%N (p_comp p) = c.
Proof.
  unfold path_next_multipath.
  pose proof (scan_squash_spec (c :: t) c t (suf_refl _)) as H. rewrite pos_refl in H. rewrite H. clear H.
  cbn [bind].
  set (extra := c :: t).
  assert (Hr : exists r, suf r t /\
    (match sq false 0 t with Some r => (upto extra r, pos extra r) | None => ([], length extra) end)
      = (match sq false 0 t with Some r => upto extra r | None => [] end, pos extra r)).
  { destruct (sq false 0 t) as [r|] eqn:E.
    - exists r. split; auto. apply sq_rest in E. tauto.
    - exists []. split; [apply suf_nil | rewrite pos_nil; reflexivity]. }
  destruct Hr as (r & Hr & ->). cbn [bind].
  assert (Hre : suf r extra) by (eapply suf_trans; [exact Hr | apply suf_cons]).
  assert (Hu : exists u, upto extra r = c :: u).
  { destruct Hr as [a Ha]. exists a. unfold extra. rewrite Ha, app_comm_cons, upto_app. reflexivity. }
  destruct Hu as [u Hu].
  pose proof (slice_upto extra r extra Hre (suf_refl _)) as Hsl. rewrite pos_refl in Hsl.
  assert (Hcase : forall ex sep m, suf ex extra ->
    (sep = 0%N \/ is_sep sep = true /\ r = sep :: ex) ->
    m = Ok ex ->
    exists p, ('comp <- slice extra 0 (pos extra r);; ex <- m;; Ok (mkPath comp false false sep 0 ex)) = Ok p
      /\ path_shape extra p /\ hd 0%N (p_comp p) = c).
  { intros ex sep m He Hs ->. rewrite Hsl. cbn [bind]. eexists. split; [reflexivity|].
    pose proof (upto_suf _ _ Hre) as Eu.
    split.
    - constructor; cbn [p_sep p_comp p_extra p_marg]; auto.
      + destruct Hs as [->|[Hs ->]]; auto.
      + exists r. exact Eu.
      + eapply head_prefix; eauto.
    - cbn [p_comp]. rewrite Hu. reflexivity. }
  destruct r as [|d r'].
  - rewrite pos_eqb_nil. cbn [bind]. apply (Hcase []); auto using suf_nil.
    rewrite <- (pos_nil extra). apply slice_from_pos, suf_nil.
  - rewrite (pos_eqb _ _ _ Hre), (idx_pos _ _ _ Hre). cbn [bind].
    destruct (is_sep d) eqn:Ed.
    + apply (Hcase r'); auto; [eapply suf_tail; eauto|].
      rewrite (pos_S _ _ _ Hre). apply slice_from_pos. eapply suf_tail; eauto.
    + apply (Hcase []); auto using suf_nil.
      rewrite <- (pos_nil extra). apply slice_from_pos, suf_nil.
Qed.

Lemma idx_ok l i : i < length l -> exists c, idx l i = Ok c.
Proof.
  intros H. unfold idx. destruct (nth_error l i) eqn:E; eauto.
  apply nth_error_None in E. lia.
Qed.

(** The remainder after the parentheses of a query, with its separator. *)
Lemma path_next_query_ok c d t : exists p, path_next_query (c :: d :: t) = Ok p /\ path_shape (c :: d :: t) p.
Proof.
  unfold path_next_query. set (extra := c :: d :: t). change (idx extra 1) with (@Ok N d). cbn [bind].
  destruct (negb (d =? 40)%N); [eexists; split; [reflexivity | apply shape_default]|].
  pose proof (scan_squash_spec extra d t (suf_cons _ _)) as H.
  replace (pos extra (d :: t)) with 1 in H by (unfold pos, extra; cbn [length]; lia).
  rewrite H. clear H.
  assert (Hr : exists r, suf r t /\
    (match sq false 0 t with Some r => (upto (d :: t) r, pos extra r) | None => ([], length extra) end)
      = (match sq false 0 t with Some r => upto (d :: t) r | None => [] end, pos extra r)).
  { destruct (sq false 0 t) as [r|] eqn:E.
    - exists r. split; auto. apply sq_rest in E. tauto.
    - exists []. split; [apply suf_nil | rewrite pos_nil; reflexivity]. }
  destruct Hr as (r & Hr & ->). cbn [bind].
  (* the separator case split *)
  assert (Hsep : exists o,
    ((if pos extra r <? length extra then
        c <- idx extra (pos extra r) ;;
        if (c =? cHASH)%N then
          if pos extra r + 1 <? length extra then
            c <- idx extra (pos extra r + 1) ;;
            if is_sep c then Ok (Some (pos extra r + 1, c)) else Ok None
          else Ok (Some (pos extra r + 1, 0%N))
        else if is_sep c then Ok (Some (pos extra r, c))
        else Ok None
      else Ok (Some (pos extra r, 0%N))) = Ok o) /\
    match o with
    | None => True
    | Some (i, sep) => exists r', suf r' t /\ i = pos extra r' /\
        ((sep = 0%N /\ r' = []) \/ (is_sep sep = true /\ exists x, r' = sep :: x))
    end).
  { assert (Hre : suf r extra) by (eapply suf_trans; [exact Hr|]; exists [c; d]; reflexivity).
    destruct r as [|x r'].
    - rewrite pos_ltb_nil. eexists. split; [reflexivity|]. exists []. auto using suf_nil.
    - rewrite (pos_ltb _ _ _ Hre), (idx_pos _ _ _ Hre). cbn [bind].
      pose proof (suf_tail _ _ _ Hre) as Hr'. pose proof (suf_tail _ _ _ Hr) as Hr't.
      destruct (x =? 35)%N.
      + rewrite (pos_S _ _ _ Hre). destruct r' as [|y r''].
        * rewrite pos_ltb_nil. eexists. split; [reflexivity|]. exists []. auto using suf_nil.
        * rewrite (pos_ltb _ _ _ Hr'), (idx_pos _ _ _ Hr'). cbn [bind].
          destruct (is_sep y) eqn:Ey; eexists; (split; [reflexivity|]); [|exact I].
          exists (y :: r''). split; [exact Hr't|]. split; [reflexivity|]. right. split; auto. eauto.
      + destruct (is_sep x) eqn:Ex; eexists; (split; [reflexivity|]); [|exact I].
        exists (x :: r'). split; [exact Hr|]. split; [reflexivity|]. right. split; auto. eauto. }
  destruct Hsep as (o & -> & Ho). cbn [bind]. destruct o as [[i sep]|].
  2: { eexists. split; [reflexivity | apply shape_default]. }
  destruct Ho as (r' & Hr' & -> & Hs).
  assert (Hre : suf r' extra) by (eapply suf_trans; [exact Hr'|]; exists [c; d]; reflexivity).
  set (ex := match Hs with _ => match r' with [] => [] | _ :: x => x end end).
  assert (Hex : (if (sep =? 0)%N then slice_from extra (pos extra r') else slice_from extra (pos extra r' + 1))
                = Ok ex /\ suf ex extra /\ (sep = 0%N \/ (is_sep sep = true /\ r' = sep :: ex))).
  { unfold ex. destruct Hs as [[-> ->]|[Hs [x ->]]].
    - cbn [N.eqb]. rewrite slice_from_pos by apply suf_nil. auto using suf_nil.
    - rewrite (is_sep_nz _ Hs). rewrite (pos_S _ _ _ Hre).
      rewrite slice_from_pos by (eapply suf_tail; eauto). repeat split; auto. eapply suf_tail; eauto. }
  destruct Hex as (Hex & Hexs & Hex'). rewrite Hex. cbn [bind].
  pose proof (slice_upto extra r' extra Hre (suf_refl _)) as Hsl. rewrite pos_refl in Hsl. rewrite Hsl. cbn [bind].
  pose proof (upto_suf _ _ Hre) as Eu. set (comp := upto extra r') in *.
  assert (Hlen : 2 <= length comp).
  { assert (length extra = length comp + length r') by (rewrite Eu at 1; apply app_length).
    apply suf_length in Hr'. unfold extra in H. simpl in H. lia. }
  assert (Hp : path_shape extra (mkPath comp false false sep 0 ex)).
  { constructor; cbn [p_sep p_comp p_extra p_marg]; auto.
    - destruct Hex' as [->|[Hx Hx']]; auto. right. split; auto. rewrite <- Hx'. exact Eu.
    - exists r'. exact Eu.
    - eapply head_prefix; eauto. }
  rewrite usub_ok by lia. cbn [bind]. destruct (idx_ok comp (length comp - 1)) as [z ->]; [lia|]. cbn [bind].
  destruct (z =? 35)%N.
  - rewrite usub_ok by lia. cbn [bind]. destruct (idx_ok comp (length comp - 2)) as [y ->]; [lia|]. cbn [bind].
    destruct (negb (y =? 41)%N); eexists; (split; [reflexivity|]); auto using shape_default.
  - destruct (negb (z =? 41)%N); eexists; (split; [reflexivity|]); auto using shape_default.
Qed.

Lemma path_next_ok extra : exists p, path_next extra = Ok p /\ path_shape extra p.
Proof.
  unfold path_next. destruct extra as [|c t].
  - cbn [length Nat.ltb Nat.leb]. rewrite path_next_scan_spec. eexists. split; [reflexivity|].
    apply lscan_shape. discriminate.
  - change (0 <? length (c :: t)) with true. change (idx (c :: t) 0) with (@Ok N c). cbn [bind].
    destruct (N.eqb_spec c 64) as [->|].
    { rewrite path_next_scan_spec. eexists. split; [reflexivity|]. apply lscan_shape. eauto. }
    destruct (c =? 35)%N.
    { assert (Hsimple : forall b : bool, exists p,
         (if b then path_next_scan (c :: t) false else path_next_scan (c :: t) false) = Ok p /\ path_shape (c :: t) p).
      { intros b. rewrite path_next_scan_spec. exists (lscan false (c :: t)).
        split; [destruct b; reflexivity|]. apply lscan_shape. discriminate. }
      destruct t as [|d t].
      - cbn [length Nat.eqb bind]. apply (Hsimple true).
      - cbn [length Nat.eqb]. change (idx (c :: d :: t) 1) with (@Ok N d). cbn [bind].
        destruct (is_sep d); [apply (Hsimple true) | apply path_next_query_ok]. }
    destruct ((c =? 123) || (c =? 91))%N.
    { destruct (path_next_multipath_ok c t) as (p & H1 & H2 & _). eauto. }
    rewrite path_next_scan_spec. eexists. split; [reflexivity|]. apply lscan_shape. discriminate.
Qed.

Definition pnext (extra : bytes) : path :=
  match path_next extra with Ok p => p | Err _ => path_default end.
Lemma pnext_eq extra : path_next extra = Ok (pnext extra).
Proof. unfold pnext. destruct (path_next_ok extra) as (p & -> & _). reflexivity. Qed.
Lemma pnext_shape extra : path_shape extra (pnext extra).
Proof. unfold pnext. destruct (path_next_ok extra) as (p & -> & H). exact H. Qed.
