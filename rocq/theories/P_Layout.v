(** The layout of the pretty printer's output. *)
From Verif Require Import P_Base P_Json P_Valid P_ValidSpec P_Str P_Scan P_Each P_Doc P_Parts P_Ugly P_Pretty P_Tree P_PTree P_POut S_Layout M_Pretty M_Valid.

Lemma spaced_snoc l x : spaced (l ++ [x]) = spaced l ++ (if 0 <? length l then [44; 32]%N else []) ++ x.
Proof.
  induction l as [|y l IH]; [reflexivity|]. destruct l as [|z l].
  - cbn [app spaced length Nat.ltb Nat.leb]. reflexivity.
  - change ((y :: z :: l) ++ [x]) with (y :: ((z :: l) ++ [x])).
    change (spaced (y :: (z :: l) ++ [x])) with (y ++ [44; 32]%N ++ spaced ((z :: l) ++ [x])). rewrite IH.
    change (spaced (y :: z :: l)) with (y ++ [44; 32]%N ++ spaced (z :: l)).
    cbn [length Nat.ltb Nat.leb]. rewrite <- !app_assoc. reflexivity.
Qed.

Lemma repeat_concat n b : repeat_bytes n b = concat (repeat b n).
Proof. induction n as [|n IH]; [reflexivity|]. cbn [repeat_bytes repeat concat]. rewrite IH. reflexivity. Qed.

Section lay.
Variables (width : Z) (prefix : bytes) (sort_keys : bool).
Notation PT := (pt width prefix sort_keys).
Notation TCS := (tcs width prefix sort_keys).
Notation TOCS := (tocs width prefix sort_keys).

(* ---------- one line ---------- *)

Definition flat_ok (t : tree) : Prop :=
  forall tabs nl max depth buf cr, (max <> -1)%Z -> (0 < width)%Z -> depth + height t < 500 ->
  (objectless t = true -> PT t false [] tabs nl max depth buf cr = (buf ++ one_line t, nl, true, false)) /\
  (objectless t = false -> exists b nl' ended, PT t false [] tabs nl max depth buf cr = (b, nl', false, ended)).

Lemma aloop_flat base tabs max depth cr nl h : (max <> -1)%Z -> (0 < width)%Z -> depth + h < 500 ->
  forall es done buf, Forall flat_ok es -> Forall (fun e => height e <= h) es ->
  buf = base ++ 91%N :: spaced done ->
  (forallb objectless es = true ->
    aloop width prefix sort_keys false [] tabs max depth cr (TCS es) (length done) buf nl =
    (base ++ 91%N :: spaced (done ++ map one_line es) ++ [93%N], nl, true, false)) /\
  (forallb objectless es = false -> exists b nl' ended,
    aloop width prefix sort_keys false [] tabs max depth cr (TCS es) (length done) buf nl = (b, nl', false, ended)).
Proof.
  intros Hm Hw Hd. induction es as [|e es IH]; intros done buf Ho Hh Hb.
  - split; [|discriminate]. intros _. cbn [tcs map aloop lclose]. subst buf. rewrite app_nil_r. apps. reflexivity.
  - inversion Ho as [|? ? Hoe Ho']; subst. inversion Hh as [|? ? Hhe Hh']; subst.
    cbn [tcs map aloop forallb]. fold (TCS es). cbn [lstart_item].
    destruct (Hoe (tabs + 1)%Z nl max depth (lcomma width 91 (length done) (base ++ 91%N :: spaced done)) (atail (TCS es) cr) Hm Hw ltac:(lia)) as [H1 H2].
    destruct (objectless e).
    + rewrite (H1 eq_refl). unfold stops. rewrite andb_false_r. cbn [andb].
      replace (length done + 1) with (length (done ++ [one_line e])) by (rewrite app_length; reflexivity).
      destruct (IH (done ++ [one_line e]) (lcomma width 91 (length done) (base ++ 91%N :: spaced done) ++ one_line e) Ho' Hh') as [I1 I2].
      { rewrite spaced_snoc. unfold lcomma. destruct (0 <? length done).
        - replace (width =? -1)%Z with false by lia. change (91 =? 91)%N with true. cbn [negb andb]. apps. reflexivity.
        - apps. reflexivity. }
      split; auto. intros E. rewrite (I1 E). rewrite <- app_assoc. reflexivity.
    + destruct (H2 eq_refl) as (b & nl' & ended & ->). cbn [andb]. split; [discriminate|]. intros _.
      unfold stops. replace (max =? -1)%Z with false by lia. cbn [negb andb]. eauto.
Qed.

Lemma arr_heights es : Forall (fun e => height e <= fold_right (fun e n => Nat.max (height e) n) 0 es) es.
Proof. induction es as [|e es IH]; constructor; cbn [fold_right]; [lia|]. revert IH. apply Forall_impl. lia. Qed.
Lemma obj_heights (ms : list (text * tree)) :
  Forall (fun e => height (snd e) <= fold_right (fun m n => Nat.max (match m with (_, v) => height v end) n) 0 ms) ms.
Proof. induction ms as [|[k e] es IH]; constructor; cbn [fold_right snd]; [lia|]. revert IH. apply Forall_impl. lia. Qed.
Lemma deep_eqb depth h : depth + S h < 500 -> (depth + 1 =? MAX_DEPTH) = false.
Proof. intros. apply Nat.eqb_neq. unfold MAX_DEPTH. lia. Qed.

Lemma pt_flat t : flat_ok t.
Proof.
  induction t as [ | | |n|b|es IH|ms IH] using tree_ind'; intros tabs nl max depth buf cr Hm Hw Hh;
    try (split; [reflexivity | discriminate]).
  - cbn [height] in Hh. cbn [pt]. unfold parr. fold (TCS es). rewrite (deep_eqb _ _ Hh).
    replace (max =? -1)%Z with false by lia. cbn [andb].
    destruct (aloop_flat buf tabs max (depth + 1) cr nl (fold_right (fun e n => Nat.max (height e) n) 0 es) Hm Hw ltac:(lia) es [] (buf ++ [91%N]) IH (arr_heights es) eq_refl) as [H1 H2].
    cbn [length app] in H1, H2. destruct (0 <? width)%Z; (split; [exact H1 | exact H2]).
  - cbn [height] in Hh. split; [discriminate|]. intros _. cbn [pt]. unfold pobj. rewrite (deep_eqb _ _ Hh).
    replace (0 <? width)%Z with true by lia. replace (max =? -1)%Z with false by lia. cbn [negb andb]. eauto.
Qed.

(* ---------- many lines ---------- *)

Variable indent : bytes.
Notation LAY := (layout width prefix indent sort_keys).
Notation MAR := (margin prefix indent).
Notation LINE := (line prefix indent).

Lemma extend_margin buf n : extend_tabs buf prefix indent (Z.of_nat n) = buf ++ MAR n.
Proof. unfold extend_tabs, margin. rewrite Nat2Z.id, repeat_concat. reflexivity. Qed.

Lemma lay_nowidth t n c c' : (width <= 0)%Z -> LAY t n c = LAY t n c'.
Proof.
  intros H. destruct t as [ | | | | |[|e es]|]; try reflexivity.
  cbn [layout]. unfold fits. replace (0 <? width)%Z with false by lia. rewrite !andb_false_r. reflexivity.
Qed.

(** A text that does not end in a space. *)
Definition closed (s : bytes) : Prop := s <> [] /\ (last s 0 =? 32)%N = false.
Lemma closed_app a b : closed b -> closed (a ++ b).
Proof.
  intros [H1 H2]. split; [destruct a; auto; discriminate|].
  destruct (app_last_case b) as [->|(b' & x & ->)]; [congruence|]. rewrite app_assoc, last_last. rewrite last_last in H2. exact H2.
Qed.
Lemma closed_end a x : (x =? 32)%N = false -> closed (a ++ [x]).
Proof. intros H. split; [destruct a; discriminate|]. rewrite last_last. exact H. Qed.

Lemma digits_closed d : digits1 d -> closed d.
Proof.
  intros [H1 H2]. split; auto. destruct (app_last_case d) as [->|(d' & x & ->)]; [congruence|].
  rewrite last_last. apply Forall_app in H2 as [_ H2]. inversion H2; subst. unfold digit in *. lia.
Qed.

Lemma closed_min_num n : number n -> closed n.
Proof.
  intros H. destruct H as [s i f e Hs Hi Hf He].
  assert (Hi' : closed i).
  { destruct Hi as [|d ds Hd Hds]; [split; [discriminate | reflexivity]|].
    change (d :: ds) with ([d] ++ ds). destruct ds as [|d2 ds]; [split; [discriminate|cbn [app last]; lia]|].
    apply closed_app. apply digits_closed. split; [discriminate | exact Hds]. }
  destruct He as [|c sg d Hc Hsg Hd].
  - rewrite app_nil_r. destruct Hf as [|d Hd].
    + rewrite app_nil_r. apply closed_app; auto.
    + do 2 apply closed_app. change (46%N :: d) with ([46%N] ++ d). apply closed_app. apply digits_closed; auto.
  - do 3 apply closed_app. change (c :: sg ++ d) with ([c] ++ sg ++ d). do 2 apply closed_app. apply digits_closed; auto.
Qed.

(** Trees whose numbers end in something else than a space. *)
Inductive lwf : tree -> Prop :=
| lwf_null : lwf TNull
| lwf_true : lwf TTrue
| lwf_false : lwf TFalse
| lwf_num n : closed n -> lwf (TNum n)
| lwf_str b : lwf (TStr b)
| lwf_arr es : Forall lwf es -> lwf (TArr es)
| lwf_obj ms : Forall (fun m => lwf (snd m)) ms -> lwf (TObj ms).
Lemma twf_lwf t : twf t -> lwf t.
Proof.
  induction t as [ | | |n|b|es IH|ms IH] using tree_ind'; intros H; inversion H; subst; constructor; auto using closed_min_num.
  - rewrite Forall_forall in *. auto.
  - rewrite Forall_forall in *. intros m Hm. apply (IH m Hm). apply (proj2 (H1 m Hm)).
Qed.

Lemma line_closed n x : closed x -> closed (LINE n x).
Proof. intros H. unfold line. rewrite app_comm_cons. apply closed_app; auto. Qed.

Lemma lay_closed t n c : lwf t -> closed (LAY t n c).
Proof.
  intros H. destruct H as [ | | |x Hx|b|[|e es] Hes|[|m ms] Hms]; try (split; [discriminate | reflexivity]).
  - exact Hx.
  - cbn [layout minimal]. unfold quoted. change (34%N :: b ++ [34%N]) with ((34%N :: b) ++ [34%N]). apply closed_end. reflexivity.
  - cbn [layout]. destruct (fits _ _ _).
    + cbn [one_line]. rewrite app_comm_cons. apply closed_end. reflexivity.
    + apply (closed_app (91%N :: _)). apply line_closed. split; [discriminate | reflexivity].
  - apply (closed_app (123%N :: _)). apply line_closed. split; [discriminate | reflexivity].
Qed.

Definition lay_ok (t : tree) : Prop :=
  forall n nl depth buf cr, depth + height t < 500 ->
  exists nl' ok, PT t true indent (Z.of_nat n) nl (-1)%Z depth buf cr =
    (buf ++ LAY t n (Z.of_nat (length buf) - nl), nl', ok, false).

Lemma commas_last_closed l : l <> [] -> Forall closed l -> closed (commas l).
Proof.
  intros Hne H. destruct (app_last_case l) as [->|(l' & x & ->)]; [congruence|].
  rewrite commas_snoc. do 2 apply closed_app. apply Forall_app in H as [_ H]. inversion H; auto.
Qed.

Lemma close_many open n base done nl ps : (open =? 10)%N = false -> closed (commas done) -> done <> [] ->
  lclose prefix false true open indent (Z.of_nat n) nl (length done) ps (base ++ commas done) =
  (base ++ commas done ++ 10%N :: MAR n, Z.of_nat (length (base ++ commas done))).
Proof.
  intros Ho Hc Hne. unfold lclose. rewrite andb_false_r.
  replace (0 <? length done) with true by (destruct done; [congruence | reflexivity]).
  destruct (closed_app base _ Hc) as [_ ->]. rewrite last_last.
  replace (10 =? open)%N with false by lia. rewrite extend_margin. apps. reflexivity.
Qed.

(** The elements after the first one. *)
Lemma aloop_lay base n depth cr h : depth + h < 500 ->
  forall es done nl, Forall lay_ok es -> Forall lwf es -> Forall (fun e => height e <= h) es ->
  done <> [] -> Forall closed done ->
  exists nl',
    aloop width prefix sort_keys true indent (Z.of_nat n) (-1)%Z depth cr (TCS es) (length done) ((base ++ [91%N]) ++ commas done) nl =
    ((base ++ [91%N]) ++ commas (done ++ map (fun e => LINE (S n) (LAY e (S n) (Z.of_nat (length (MAR (S n)))))) es) ++ LINE n [93%N], nl', true, false).
Proof.
  intros Hd. induction es as [|e es IH]; intros done nl Ho Ht Hh Hne Hc.
  - cbn [tcs map aloop]. rewrite app_nil_r.
    assert (Hcl : lclose prefix sort_keys true 91 indent (Z.of_nat n) nl (length done) [] ((base ++ [91%N]) ++ commas done) =
       lclose prefix false true 91 indent (Z.of_nat n) nl (length done) [] ((base ++ [91%N]) ++ commas done)) by reflexivity.
    rewrite Hcl, close_many; auto using commas_last_closed. eexists. unfold line. apps. reflexivity.
  - inversion Ho as [|? ? Hoe Ho']; subst. inversion Hh as [|? ? Hhe Hh']; subst. inversion Ht as [|? ? Hte Ht']; subst.
    cbn [tcs map aloop]. fold (TCS es). cbn [lstart_item].
    rewrite lnl_comma by (destruct done; [congruence | discriminate]).
    replace (Z.of_nat n + 1)%Z with (Z.of_nat (S n)) by lia. rewrite extend_margin.
    set (nl2 := Z.of_nat (length (lcomma width 91 (length done) ((base ++ [91%N]) ++ commas done)))).
    set (buf2 := (((base ++ [91%N]) ++ commas done) ++ cm (length done) ++ [10%N]) ++ MAR (S n)).
    destruct (Hoe (S n) nl2 depth buf2 (atail (TCS es) cr) ltac:(lia)) as (nl4 & ok4 & ->).
    change (stops (-1)%Z ok4) with false. cbv beta iota.
    assert (Ecol : LAY e (S n) (Z.of_nat (length buf2) - nl2) = LAY e (S n) (Z.of_nat (length (MAR (S n))))).
    { destruct (Z.leb_spec width 0); [apply lay_nowidth; auto|]. f_equal. unfold nl2, buf2, lcomma.
      replace (0 <? length done) with true by (destruct done; [congruence | reflexivity]).
      replace (width =? -1)%Z with false by lia. change (91 =? 91)%N with true. cbn [negb andb].
      unfold cm. replace (0 <? length done) with true by (destruct done; [congruence | reflexivity]).
      rewrite !app_length. cbn [length]. lia. }
    rewrite Ecol. set (x := LINE (S n) (LAY e (S n) (Z.of_nat (length (MAR (S n)))))).
    assert (Eb : buf2 ++ LAY e (S n) (Z.of_nat (length (MAR (S n)))) = (base ++ [91%N]) ++ commas (done ++ [x])).
    { rewrite commas_snoc. unfold buf2, x, line. apps. reflexivity. }
    rewrite Eb. replace (length done + 1) with (length (done ++ [x])) by (rewrite app_length; reflexivity).
    destruct (IH (done ++ [x]) nl4 Ho' Ht' Hh') as (nl' & ->).
    + destruct done; discriminate.
    + apply Forall_app. split; auto. constructor; [|constructor]. apply line_closed, lay_closed; auto.
    + exists nl'. rewrite <- (app_assoc done). reflexivity.
Qed.

Lemma parr_lay e es n nl depth buf cr : Forall lay_ok (e :: es) -> Forall lwf (e :: es) -> depth + height (TArr (e :: es)) < 500 ->
  exists nl', aloop width prefix sort_keys true indent (Z.of_nat n) (-1)%Z (depth + 1) cr (TCS (e :: es)) 0 (buf ++ [91%N]) nl =
    (buf ++ 91%N :: commas (LINE (S n) (LAY e (S n) (Z.of_nat (length (MAR (S n))) + 1)) ::
       map (fun e => LINE (S n) (LAY e (S n) (Z.of_nat (length (MAR (S n)))))) es) ++ LINE n [93%N], nl', true, false).
Proof.
  intros Ho Ht Hh. pose proof (arr_heights (e :: es)) as Hhs. cbn [height] in Hh.
  set (h := fold_right _ 0 (e :: es)) in *.
  inversion Ho as [|? ? Hoe Ho']; subst. inversion Hhs as [|? ? Hhe Hh']; subst. inversion Ht as [|? ? Hte Ht']; subst.
  cbn [tcs map aloop]. fold (TCS es). cbn [lstart_item].
  rewrite lnl_comma by (intros _; rewrite last_last; reflexivity).
  replace (Z.of_nat n + 1)%Z with (Z.of_nat (S n)) by lia. rewrite extend_margin.
  set (buf2 := ((buf ++ [91%N]) ++ cm 0 ++ [10%N]) ++ MAR (S n)).
  destruct (Hoe (S n) (Z.of_nat (length (lcomma width 91 0 (buf ++ [91%N])))) (depth + 1) buf2 (atail (TCS es) cr) ltac:(lia)) as (nl4 & ok4 & ->).
  change (stops (-1)%Z ok4) with false. cbv beta iota.
  replace (Z.of_nat (length buf2) - Z.of_nat (length (lcomma width 91 0 (buf ++ [91%N]))))%Z with (Z.of_nat (length (MAR (S n))) + 1)%Z.
  2:{ unfold buf2, lcomma, cm. cbn [Nat.ltb Nat.leb]. rewrite !app_length. cbn [length]. lia. }
  set (x := LINE (S n) (LAY e (S n) (Z.of_nat (length (MAR (S n))) + 1))).
  assert (Eb : buf2 ++ LAY e (S n) (Z.of_nat (length (MAR (S n))) + 1) = (buf ++ [91%N]) ++ commas [x]).
  { unfold buf2, x, line, cm. cbn [Nat.ltb Nat.leb commas]. apps. reflexivity. }
  rewrite Eb. change (0 + 1) with (length [x]).
  destruct (aloop_lay buf n (depth + 1) cr h ltac:(lia) es [x] nl4 Ho' Ht' Hh') as (nl' & ->).
  - discriminate.
  - constructor; [|constructor]. apply line_closed, lay_closed; auto.
  - exists nl'. apps. reflexivity.
Qed.

(* ---------- members ---------- *)

(** A recorded member: its name and its line. *)
Definition krl (buf : bytes) (p : kpair) (m : bytes * bytes) : Prop :=
  kp_key p = fst m /\ kp_vs p <= kp_ve p /\ kp_ve p <= length buf /\
  10%N :: seg buf (kp_vs p) (kp_ve p) = snd m.
Lemma krl_ext_all buf x ps ms : Forall2 (krl buf) ps ms -> Forall2 (krl (buf ++ x)) ps ms.
Proof.
  induction 1 as [|p m ps ms (H1 & H2 & H3 & H4) _ IH]; constructor; auto. repeat split; auto; [rewrite app_length; lia|]. rewrite seg_ext by auto. exact H4.
Qed.
Lemma krl_vs buf ps ms : Forall2 (krl buf) ps ms -> Forall (fun q => kp_vs q <= length buf) ps.
Proof. induction 1 as [|p m ps ms (_ & A1 & A2 & _) _ IH]; constructor; auto. lia. Qed.
Lemma kinsert_krl buf p m ps ms : krl buf p m -> Forall (fun q => kp_vs p < kp_vs q) ps ->
  Forall2 (krl buf) ps ms -> Forall2 (krl buf) (kinsert p ps) (insert_member m ms).
Proof.
  intros Hm Hlt H. induction H as [|q x ps ms Hq Ht IH]; cbn [kinsert insert_member]; auto.
  inversion Hlt; subst.
  assert (E : kle p q = le_text (fst m) (fst x)).
  { destruct Hm as (Em & _), Hq as (Eq & _). unfold kle. rewrite Em, Eq, le_text_bcmp.
    destruct (bcmp (fst m) (fst x)); auto. apply Nat.leb_le. lia. }
  rewrite E. destruct (le_text _ _); auto.
Qed.
Lemma ksort_krl buf ps ms : incr ps -> Forall2 (krl buf) ps ms -> Forall2 (krl buf) (ksort ps) (sort_members ms).
Proof.
  intros Hi H. induction H as [|p m ps ms Hm Ht IH]; cbn [ksort sort_members fold_right]; auto.
  destruct Hi as [H1 H2]. apply kinsert_krl; auto. apply ksort_in; auto.
Qed.
Lemma ljoin_krl buf ps ms : Forall2 (krl buf) ps ms -> ps <> [] -> 10%N :: ljoin buf ps = commas (map snd ms).
Proof.
  intros H. induction H as [|p m ps ms (_ & _ & _ & Hm) Ht IH]; intros Hne; [congruence|].
  cbn [ljoin map]. destruct Ht as [|p' m' ps ms Hm' Ht].
  - cbn [ljoin app map commas]. rewrite app_nil_r. exact Hm.
  - specialize (IH ltac:(discriminate)). cbn [map] in *. rewrite commas_cons by discriminate.
    rewrite <- IH, <- Hm. apps. reflexivity.
Qed.
Lemma insert_closed (P : bytes -> Prop) x (l : list (bytes * bytes)) : P (snd x) -> Forall P (map snd l) -> Forall P (map snd (insert_member x l)).
Proof.
  intros Hx. induction l as [|y l IH]; intros H; cbn [insert_member map]; [auto|]. inversion H; subst.
  destruct (le_text _ _); cbn [map]; auto.
Qed.
Lemma sort_closed (P : bytes -> Prop) (l : list (bytes * bytes)) : Forall P (map snd l) -> Forall P (map snd (sort_members l)).
Proof. induction l as [|x l IH]; intros H; cbn [sort_members fold_right map]; auto. inversion H; subst. apply insert_closed; auto. Qed.
Lemma insert_length {A} x (l : list (bytes * A)) : length (insert_member x l) = S (length l).
Proof. induction l as [|y l IH]; cbn [insert_member length]; auto. destruct (le_text _ _); cbn [length]; auto. Qed.
Lemma sort_length {A} (l : list (bytes * A)) : length (sort_members l) = length l.
Proof. induction l as [|x l IH]; cbn [sort_members fold_right length]; auto. rewrite insert_length. f_equal. exact IH. Qed.

Definition mline (n : nat) (m : bytes * tree) : bytes * bytes :=
  match m with (k, v) =>
    let head := quoted k ++ [58; 32]%N in
    (k, LINE (S n) (head ++ LAY v (S n) (Z.of_nat (length (MAR (S n) ++ head)) + 1))) end.

Lemma oloop_lay base n depth cr h : depth + h < 500 ->
  forall ms done ps nl buf, Forall (fun m => lay_ok (snd m)) ms -> Forall (fun m => lwf (snd m)) ms -> Forall (fun m => height (snd m) <= h) ms ->
  buf = (base ++ [123%N]) ++ commas (map snd done) -> Forall closed (map snd done) -> ms <> [] \/ done <> [] ->
  (if sort_keys then Forall2 (krl buf) ps done /\ incr ps /\
     (forall p t, ps = p :: t -> firstn (kp_vs p) buf = base ++ [123; 10]%N) else ps = []) ->
  exists nl',
    oloop width prefix sort_keys true indent (Z.of_nat n) (-1)%Z depth cr (TOCS ms) ps (length done) buf nl =
    ((base ++ [123%N]) ++ commas (map snd (if sort_keys then sort_members (done ++ map (mline n) ms) else done ++ map (mline n) ms)) ++ LINE n [125%N], nl', false, false).
Proof.
  intros Hd. induction ms as [|[k e] ms IH]; intros done ps nl buf Ho Ht Hh Hb Hc Hne Hps.
  - destruct Hne as [|Hne]; [congruence|]. cbn [tocs map oloop]. rewrite app_nil_r.
    set (done2 := if sort_keys then sort_members done else done).
    assert (Hcl : lclose prefix sort_keys true 123 indent (Z.of_nat n) nl (length done) ps buf =
       lclose prefix false true 123 indent (Z.of_nat n) nl (length (map snd done2)) [] ((base ++ [123%N]) ++ commas (map snd done2))).
    { unfold done2. destruct sort_keys; [|rewrite map_length, Hb; reflexivity]. rewrite map_length, sort_length.
      destruct Hps as (H1 & H2 & H3). unfold lclose. change (123 =? 123)%N with true. cbn [andb].
      replace (lsort_pairs buf ps) with ((base ++ [123%N]) ++ commas (map snd (sort_members done))); [reflexivity|].
      pose proof (ksort_krl _ _ _ H2 H1) as Hs.
      destruct H1 as [|p m ps ms Hm Ht']; [congruence|]. unfold lsort_pairs. rewrite (H3 _ _ eq_refl).
      rewrite <- (ljoin_krl buf _ _ Hs); [apps; reflexivity|].
      cbn [ksort]. destruct (ksort ps); cbn [kinsert]; try discriminate. destruct (kle _ _); discriminate. }
    assert (Hne2 : map snd done2 <> []).
    { intros E. apply (f_equal (@length _)) in E. unfold done2 in E. destruct sort_keys; rewrite map_length, ?sort_length in E; destruct done; try congruence; discriminate. }
    assert (Hc2 : Forall closed (map snd done2)) by (unfold done2; destruct sort_keys; auto using sort_closed).
    rewrite Hcl, close_many; auto using commas_last_closed. eexists. unfold line. apps. reflexivity.
  - inversion Ho as [|? ? Hoe Ho']; subst. inversion Hh as [|? ? Hhe Hh']; subst. inversion Ht as [|? ? Hte Ht']; subst. cbn [snd] in *.
    set (buf := (base ++ [123%N]) ++ commas (map snd done)) in *.
    cbn [tocs map oloop]. fold (TOCS ms). cbn [lstart_item].
    rewrite lnl_comma.
    2:{ destruct done; [|discriminate]. intros _. unfold buf. cbn [map commas]. rewrite app_nil_r, last_last. reflexivity. }
    replace (Z.of_nat n + 1)%Z with (Z.of_nat (S n)) by lia. rewrite extend_margin.
    set (nl2 := Z.of_nat (length (lcomma width 123 (length done) buf))).
    set (buf3 := ((buf ++ cm (length done) ++ [10%N]) ++ MAR (S n)) ++ quoted k ++ [58%N] ++ [32%N]).
    destruct (Hoe (S n) nl2 depth buf3 (otail (TOCS ms) cr) ltac:(lia)) as (nl4 & ok4 & ->).
    change (stops (-1)%Z ok4) with false. cbv beta iota.
    assert (Ecol : (Z.of_nat (length buf3) - nl2)%Z = (Z.of_nat (length (MAR (S n) ++ quoted k ++ [58; 32]%N)) + 1)%Z).
    { unfold buf3, nl2, lcomma, cm. change (123 =? 91)%N with false. rewrite andb_false_r.
      destruct (0 <? length done); rewrite !app_length; cbn [length]; lia. }
    rewrite Ecol. set (lay := LAY e (S n) (Z.of_nat (length (MAR (S n) ++ quoted k ++ [58; 32]%N)) + 1)).
    assert (Eml : mline n (k, e) = (k, LINE (S n) ((quoted k ++ [58; 32]%N) ++ lay))) by reflexivity.
    set (x := mline n (k, e)) in *.
    assert (Eb4 : buf3 ++ lay = buf ++ (cm (length done) ++ [10%N]) ++ MAR (S n) ++ (quoted k ++ [58; 32]%N) ++ lay).
    { unfold buf3. apps. reflexivity. }
    assert (Eb : buf3 ++ lay = (base ++ [123%N]) ++ commas (map snd (done ++ [x]))).
    { rewrite Eb4. rewrite map_app. cbn [map]. rewrite commas_snoc, map_length, Eml. unfold buf, line. cbn [snd]. apps. reflexivity. }
    replace (length done + 1) with (length (done ++ [x])) by (rewrite app_length; reflexivity).
    match goal with |- context [oloop _ _ _ _ _ _ _ _ _ _ ?ps' _ ?b ?nl4] =>
      destruct (IH (done ++ [x]) ps' nl4 b Ho' Ht' Hh' Eb) as (nl' & ->) end.
    + rewrite map_app. apply Forall_app. split; auto. constructor; [|constructor]. rewrite Eml. cbn [snd].
      apply line_closed, closed_app. apply lay_closed; auto.
    + right. destruct done; discriminate.
    + cbn [andb]. destruct sort_keys; auto. destruct Hps as (P1 & P2 & P3).
      assert (Hvs : length (buf ++ cm (length done) ++ [10%N]) <= length (buf3 ++ lay)) by (rewrite Eb4, !app_length; lia).
      split; [|split].
      * apply Forall2_app.
        -- rewrite Eb4. apply krl_ext_all; auto.
        -- constructor; [|constructor]. unfold krl, kp_key, kp_vs, kp_ve. rewrite Eml. cbn [fst snd].
           repeat split; auto. rewrite Eb4 at 1 2. rewrite app_assoc, seg_tail. reflexivity.
      * apply incr_snoc; auto. unfold kp_vs at 2. cbn [fst snd].
        pose proof (krl_vs _ _ _ P1) as HF. revert HF. apply Forall_impl. intros q Hq. rewrite !app_length. cbn [length]. lia.
      * intros p t Ept. destruct ps as [|p0 ps0].
        -- cbn [app] in Ept. injection Ept as <- <-. unfold kp_vs. cbn [fst snd].
           rewrite Eb4, (app_assoc buf (cm (length done) ++ [10%N])), firstn_length_app. inversion P1. subst done. unfold buf, cm. cbn [map commas length Nat.ltb Nat.leb]. apps. reflexivity.
        -- cbn [app] in Ept. injection Ept as <- <-. specialize (P3 _ _ eq_refl). rewrite <- P3, Eb4.
           inversion P1 as [|? ? ? ? (_ & A1 & A2 & _) _]; subst.
           rewrite firstn_app. replace (kp_vs p0 - length buf) with 0 by lia. rewrite firstn_O, app_nil_r. reflexivity.
    + exists nl'. rewrite <- (app_assoc done). reflexivity.
Qed.

Lemma pt_lay t : lwf t -> lay_ok t.
Proof.
  induction t as [ | | |x|b|es IH|ms IH] using tree_ind'; intros Hw n nl depth buf cr Hh;
    try (do 2 eexists; reflexivity).
  - inversion Hw as [| | | | |? Hes|]; subst.
    assert (Hoes : Forall lay_ok es) by (rewrite Forall_forall in *; auto).
    cbn [pt]. unfold parr. fold (TCS es). cbn [height] in Hh. rewrite (deep_eqb _ _ Hh).
    destruct es as [|e es].
    { assert (E : forall pretty ind tabs max nl, aloop width prefix sort_keys pretty ind tabs max (depth + 1) cr (TCS []) 0 (buf ++ [91%N]) nl = (buf ++ [91; 93]%N, nl, true, false)).
      { intros. cbn [tcs map aloop]. unfold lclose. cbn [Nat.ltb Nat.leb]. change (91 =? 123)%N with false. cbn [andb]. rewrite last_last; change (91 =? 91)%N with true; cbv beta iota.
        destruct pretty; apps; reflexivity. }
      rewrite !E. cbn [layout].
      destruct (0 <? width)%Z; [|eauto]. change (true && (-1 =? -1)%Z) with true. cbv beta iota.
      destruct (3 <? _)%Z; [|eauto]. cbn [andb]. destruct (_ <=? _)%Z; eauto. }
    destruct (parr_lay e es n nl depth buf cr Hoes Hes Hh) as (nl' & ->).
    set (big := 91%N :: commas _ ++ _).
    assert (El : LAY (TArr (e :: es)) n (Z.of_nat (length buf) - nl) =
       if fits width (TArr (e :: es)) (Z.of_nat (length buf) - nl) then one_line (TArr (e :: es)) else big) by reflexivity.
    rewrite El. unfold fits.
    destruct (Z.ltb_spec 0 width) as [Hw0|]; [|rewrite andb_false_r; eauto].
    change (true && (-1 =? -1)%Z) with true. cbv beta iota. rewrite andb_true_r.
    set (max1 := (width - (Z.of_nat (length buf) - nl))%Z).
    destruct (Z.ltb_spec 3 max1) as [Hm|Hm].
    2:{ replace (_ <=? width)%Z with false by (unfold max1 in Hm; lia). rewrite andb_false_r. eauto. }
    pose proof (arr_heights (e :: es)) as Hhs.
    destruct (aloop_flat buf 0 max1 (depth + 1) cr 0 (fold_right (fun e n => Nat.max (height e) n) 0 (e :: es)) ltac:(lia) Hw0 ltac:(lia) (e :: es) [] (buf ++ [91%N])
       (proj2 (Forall_forall _ _) (fun t _ => pt_flat t)) Hhs eq_refl) as [H1 H2].
    cbn [length] in H1, H2. cbn [objectless]. destruct (forallb objectless (e :: es)).
    + rewrite (H1 eq_refl). cbn [andb app].
      change (91%N :: spaced (map one_line (e :: es)) ++ [93%N]) with (one_line (TArr (e :: es))).
      set (ol := one_line (TArr (e :: es))).
      replace (Z.of_nat (length (buf ++ ol)) - Z.of_nat (length buf) <=? max1)%Z
        with (Z.of_nat (length buf) - nl + Z.max 4 (Z.of_nat (length ol)) <=? width)%Z.
      2:{ rewrite app_length. unfold max1 in *. lia. }
      destruct (_ <=? width)%Z; eauto.
    + destruct (H2 eq_refl) as (b & nl1 & ended & ->). cbn [andb]. eauto.
  - inversion Hw as [| | | | | |? Hms]; subst.
    assert (Ht : Forall (fun m => lwf (snd m)) ms) by exact Hms.
    assert (Homs : Forall (fun m => lay_ok (snd m)) ms) by (rewrite Forall_forall in *; auto).
    cbn [pt]. unfold pobj. fold (TOCS ms). cbn [height] in Hh. rewrite (deep_eqb _ _ Hh).
    change (negb (-1 =? -1)%Z) with false. rewrite andb_false_r.
    destruct ms as [|m ms].
    { cbn [tocs map oloop]. unfold lclose. cbn [Nat.ltb Nat.leb lsort_pairs]. change (123 =? 123)%N with true. cbn [andb].
      destruct sort_keys; rewrite last_last; change (123 =? 123)%N with true; cbv beta iota; do 2 eexists; rewrite <- app_assoc; reflexivity. }
    destruct (oloop_lay buf n (depth + 1) cr (fold_right (fun m n => Nat.max (match m with (_, v) => height v end) n) 0 (m :: ms)) ltac:(lia) (m :: ms) [] [] nl (buf ++ [123%N]) Homs Ht (obj_heights _)) as (nl' & E).
    + cbn [map commas]. rewrite app_nil_r. reflexivity.
    + constructor.
    + left. discriminate.
    + destruct sort_keys; auto. split; [constructor|]. split; [exact I | discriminate].
    + cbn [length app] in E. rewrite E. do 2 eexists. rewrite <- app_assoc. reflexivity.
Qed.
End lay.

Theorem pretty_layout s t o : reads s t -> height t < 500 ->
  pretty_options s o = Ok (page (o_width o) (o_prefix o) (o_indent o) (o_sort o) t).
Proof.
  intros (w1 & c & w2 & H1 & Hc & H2 & -> & <-) Hh. rewrite pretty_doc by auto. f_equal. unfold tpretty, page.
  destruct (pt_lay (o_width o) (o_prefix o) (o_sort o) (o_indent o) (erase c) (twf_lwf _ (wf_erase _ Hc)) 0 0%Z 0 (o_prefix o) [] Hh) as (nl' & ok & E).
  change (Z.of_nat 0) with 0%Z in E. rewrite Z.sub_0_r in E. rewrite E.
  pose proof (lay_closed (o_width o) (o_prefix o) (o_sort o) (o_indent o) (erase c) 0 (Z.of_nat (length (o_prefix o))) (twf_lwf _ (wf_erase _ Hc))) as [Hne _].
  destruct (o_prefix o ++ layout _ _ _ _ _ _ _) eqn:Ea.
  - apply app_eq_nil in Ea as [_ Ea]. destruct (Hne Ea).
  - rewrite <- Ea, <- app_assoc. reflexivity.
Qed.
