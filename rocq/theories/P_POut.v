(** What the pretty printer writes is a rendering of the same tree. *)
From Verif Require Import P_Base P_Json P_Valid P_ValidSpec P_Str P_Scan P_Each P_Doc P_Parts P_Ugly P_Pretty P_Tree P_PTree M_Pretty M_Valid S_Mod.

Definition cm (n : nat) : bytes := if 0 <? n then [44%N] else [].

Lemma commas_snoc l x : commas (l ++ [x]) = commas l ++ cm (length l) ++ x.
Proof.
  induction l as [|y l IH]; [reflexivity|]. destruct l as [|z l].
  - cbn [app commas length]. cbn [cm Nat.ltb Nat.leb]. apps. reflexivity.
  - rewrite <- app_comm_cons. rewrite commas_cons by (cbn [app]; discriminate). rewrite IH.
    rewrite (commas_cons y (z :: l)) by discriminate. unfold cm.
    cbn [length Nat.ltb Nat.leb]. apps. reflexivity.
Qed.

Lemma ws_cons_lf w : ws w -> ws (10%N :: w).
Proof. intros. constructor; auto. unfold ws_byte; auto. Qed.
Lemma ws_repeat n w : ws w -> ws (repeat_bytes n w).
Proof. intros H. induction n; simpl; [constructor | apply ws_app; auto]. Qed.

Lemma until_cons {A} (f : A -> A * bool) x r : until f (x :: r) =
  let '(x', e) := f x in if e then (x' :: r, true) else let '(r', e') := until f r in (x' :: r', e').
Proof. reflexivity. Qed.

Section out.
Variables (width : Z) (prefix : bytes) (sort_keys : bool).
Hypothesis Hprefix : ws prefix.

Lemma lnl_comma open n buf : (n = 0 -> (last buf 0 =? 32)%N = false) ->
  lnl (lcomma width open n buf) = buf ++ cm n ++ [10%N].
Proof.
  intros H. unfold lnl, lcomma, cm. destruct (Nat.ltb_spec 0 n).
  - destruct (negb (width =? -1)%Z && (open =? 91)%N).
    + replace (buf ++ [44; 32]%N) with ((buf ++ [44%N]) ++ [32%N]) by (rewrite <- app_assoc; reflexivity).
      rewrite last_last, removelast_last. change (32 =? 32)%N with true. cbv beta iota. rewrite <- app_assoc. reflexivity.
    + rewrite last_last. change (44 =? 32)%N with false. cbv beta iota. rewrite <- app_assoc. reflexivity.
  - rewrite H by lia. reflexivity.
Qed.

Lemma start_item_out open n pretty indent tabs nl buf b nl' : ws indent ->
  (n = 0 -> (last buf 0 =? 32)%N = false) ->
  lstart_item prefix pretty indent tabs nl (lcomma width open n buf) = (b, nl') ->
  exists pre, ws pre /\ b = buf ++ cm n ++ pre /\
    (pretty = true -> exists pre', ws pre' /\ pre = 10%N :: pre').
Proof.
  intros Hi H. unfold lstart_item. destruct pretty; intros [= <- <-].
  - rewrite lnl_comma by auto. unfold extend_tabs.
    assert (Hp : ws (prefix ++ repeat_bytes (Z.to_nat (tabs + 1)) indent)) by (apply ws_app; auto using ws_repeat).
    exists (10%N :: prefix ++ repeat_bytes (Z.to_nat (tabs + 1)) indent).
    split; [apply ws_cons_lf; auto|]. split; [apps; reflexivity|]. intros _. eauto.
  - unfold lcomma, cm. destruct (0 <? n).
    + destruct (_ && _); [exists [32%N] | exists []]; (split; [repeat constructor; unfold ws_byte; auto|]); split; auto; discriminate.
    + exists []. split; [constructor|]. split; [rewrite !app_nil_r; auto|]. discriminate.
Qed.

(** The output at a closing bracket, after sorting. *)
Lemma lclose_out pretty open indent tabs nl n ps buf b nl' : ws indent ->
  lclose prefix sort_keys pretty open indent tabs nl n ps buf = (b, nl') ->
  (n = 0 -> last buf 0%N = open /\ ps = []) ->
  exists x, ws x /\ b = (if pretty && (open =? 123)%N && sort_keys then lsort_pairs buf ps else buf) ++ x /\ (n = 0 -> x = []).
Proof.
  intros Hi. unfold lclose. destruct pretty; [|intros [= <- <-] _; exists []; split; [constructor|]; split; [rewrite app_nil_r; auto | auto]].
  cbn [andb]. set (b1 := if (open =? 123)%N && sort_keys then lsort_pairs buf ps else buf).
  assert (Ht : ws (prefix ++ repeat_bytes (Z.to_nat tabs) indent)) by (apply ws_app; auto using ws_repeat).
  destruct (Nat.ltb_spec 0 n).
  - intros [= <- <-] _. destruct (last b1 0 =? 32)%N.
    + destruct (last b1 0 =? open)%N.
      * exists []. split; [constructor|]. split; [rewrite app_nil_r; auto | lia].
      * unfold extend_tabs. eexists. split; [exact Ht|]. split; [reflexivity | lia].
    + destruct (last (b1 ++ [10%N]) 0 =? open)%N.
      * exists [10%N]. split; [apply ws_cons_lf; constructor|]. split; [reflexivity | lia].
      * unfold extend_tabs. exists (10%N :: prefix ++ repeat_bytes (Z.to_nat tabs) indent).
        split; [apply ws_cons_lf; auto|]. split; [apps; reflexivity | lia].
  - intros [= <- <-] H0. destruct (H0 ltac:(lia)) as [Hlast ->].
    assert (Eb : b1 = buf) by (unfold b1; destruct (_ && _); reflexivity). rewrite Eb.
    rewrite Hlast, N.eqb_refl. exists []. split; [constructor|]. split; [rewrite app_nil_r; auto | auto].
Qed.

(** What sorting makes of a tree. *)
Definition st (depth : nat) (t : tree) : tree := if sort_keys then fst (sorted_within (499 - depth) t) else t.
Definition sts (depth : nat) (es : list tree) : list tree :=
  if sort_keys then fst (until (sorted_within (499 - depth)) es) else es.
Definition smem (depth : nat) (m : bytes * tree) : (bytes * tree) * bool :=
  match m with (k, v) => let '(v', e) := sorted_within (499 - depth) v in ((k, v'), e) end.
Definition stm (depth : nat) (ms : list (bytes * tree)) : list (bytes * tree) :=
  if sort_keys then fst (until (smem depth) ms) else ms.

Definition out_ok (t : tree) : Prop :=
  forall pretty indent tabs nl max depth buf cr b nl' ok ended,
    ws indent -> (pretty = true \/ (max <> -1 /\ 0 < width)%Z) -> depth < 500 ->
    pt width prefix sort_keys t pretty indent tabs nl max depth buf cr = (b, nl', ok, ended) ->
    stops max ok = false ->
    ended = snd (sorted_within (499 - depth) t) /\
    exists c, b = buf ++ render c ++ (if ended then cr else []) /\ swf c /\ erase c = st depth t.

Definition ivals (es : list (item cst)) : list tree := map (fun e => match e with Item _ v _ => erase v end) es.

Definition tcs (es : list tree) : list (clos * bytes) := map (fun e => (pt width prefix sort_keys e, minimal e)) es.

Lemma atail_text es cr : twf (TArr es) -> forall done, done <> [] ->
  exists rest, commas (map (render_item render) done) ++ atail (tcs es) cr =
     commas (map (render_item render) (done ++ rest)) ++ 93%N :: cr /\ Forall swf_item rest /\ ivals rest = es.
Proof.
  intros Hw done Hd. exists (map (fun e => Item [] (embed e) []) es).
  inversion Hw as [| | | | |? Hes|]; subst.
  split; [|split].
  - destruct es as [|e es]; [cbn [tcs map]; rewrite app_nil_r; reflexivity|].
    unfold atail. cbn [tcs map]. rewrite map_app.
    assert (E : forall l, l <> [] -> commas (map (render_item render) done ++ l) = commas (map (render_item render) done) ++ 44%N :: commas l).
    { clear - Hd. intros l Hl. destruct done as [|x done]; [congruence|]. clear Hd. revert x. induction done as [|y done IH]; intros x.
      - cbn [map app]. apply commas_cons; auto.
      - cbn [map] in *. rewrite <- app_comm_cons. rewrite commas_cons by (cbn [app]; discriminate).
        rewrite IH. rewrite (commas_cons _ (_ :: _)) by discriminate. apps. reflexivity. }
    rewrite E by discriminate. rewrite <- app_assoc. cbn [app]. f_equal. f_equal. f_equal. f_equal.
    cbn [map snd]. f_equal.
    + cbn [render_item app]. rewrite app_nil_r. symmetry. apply render_embed.
    + rewrite !map_map. apply map_ext. intros t. cbn [snd render_item app]. rewrite app_nil_r. symmetry. apply render_embed.
  - apply Forall_map. revert Hes. apply Forall_impl. intros t Ht. constructor; try constructor. apply swf_embed; auto.
  - unfold ivals. rewrite map_map. rewrite <- (map_id es) at 2. apply map_ext. apply erase_embed.
Qed.

Lemma last_base_open (base : bytes) c : last (base ++ [c]) 0%N = c.
Proof. apply last_last. Qed.

Lemma aloop_out base pretty indent tabs max depth cr : ws indent -> (pretty = true \/ (max <> -1 /\ 0 < width)%Z) -> depth < 500 ->
  forall es done n buf nl b nl' ok ended,
  twf (TArr es) -> Forall out_ok es ->
  buf = base ++ 91%N :: commas (map (render_item render) done) -> n = length done -> Forall swf_item done ->
  aloop width prefix sort_keys pretty indent tabs max depth cr (tcs es) n buf nl = (b, nl', ok, ended) ->
  stops max ok = false ->
  ended = snd (until (sorted_within (499 - depth)) es) /\
  exists c, b = base ++ render c ++ (if ended then cr else []) /\ swf c /\ erase c = TArr (ivals done ++ sts depth es).
Proof.
  intros Hi Hp Hdep. induction es as [|e es IH]; intros done n buf nl b nl' ok ended Htw Ho Hbuf Hn Hd.
  - cbn [tcs map aloop]. destruct (lclose _ _ _ _ _ _ _ _ _ _) as [b1 nl1] eqn:Ec.
    intros [= <- <- <- <-] _. split; [reflexivity|].
    destruct (lclose_out _ _ _ _ _ _ _ _ _ _ Hi Ec) as (x & Hx & Eb & Hx0).
    { intros E0. split; auto. subst n. destruct done; [|discriminate]. subst buf. cbn [map commas]. apply last_last. }
    change (91 =? 123)%N with false in Eb. rewrite andb_false_r in Eb. cbn [andb] in Eb. subst b1.
    assert (Es : sts depth [] = []) by (unfold sts; destruct sort_keys; reflexivity). rewrite Es.
    destruct (app_last_case done) as [->|(done' & [p v q] & ->)].
    + rewrite Hx0 by auto. exists (CArr [] []). subst buf. cbn [map commas render ivals app]. apps. split; auto.
      split; [repeat constructor | reflexivity].
    + exists (CArr [] (done' ++ [Item p v (q ++ x)])). subst buf. apply Forall_app in Hd as [Hd1 Hd2].
      inversion Hd2 as [|? ? Hpq _]; subst. inversion Hpq; subst.
      split; [|split].
      * cbn [render app]. rewrite !map_app. cbn [map]. rewrite !commas_snoc. cbn [render_item]. apps. reflexivity.
      * constructor; [constructor|]. apply Forall_app. split; auto. constructor; [|constructor]. constructor; auto. apply ws_app; auto.
      * cbn [erase]. unfold ivals. rewrite !map_app. cbn [map]. rewrite app_nil_r. reflexivity.
  - inversion Ho as [|? ? Hoe Ho']; subst. inversion Htw as [| | | | |? Hes|]; subst. inversion Hes as [|? ? Hte Hes']; subst.
    set (buf := base ++ 91%N :: commas (map (render_item render) done)).
    cbn [tcs map aloop]. fold (tcs es).
    destruct (lstart_item _ _ _ _ _ _) as [buf2 nl2] eqn:Es.
    assert (Hl0 : length done = 0 -> (last buf 0 =? 32)%N = false).
    { intros E. destruct done; [|discriminate]. unfold buf. cbn [map commas]. rewrite last_last. reflexivity. }
    destruct (start_item_out _ _ _ _ _ _ _ _ _ Hi Hl0 Es) as (pre & Hpre & Ebuf2 & _).
    destruct (pt width prefix sort_keys e pretty indent (tabs + 1)%Z nl2 max depth buf2 (atail (tcs es) cr)) as [[[b4 nl4] ok4] ended4] eqn:Ee.
    destruct (stops max ok4) eqn:Est.
    { intros [= <- <- <- <-] H. unfold stops in *. apply andb_prop in Est as [Est _]. rewrite Est in H. discriminate. }
    pose proof (Hoe _ _ _ _ _ _ _ _ _ _ _ _ Hi Hp Hdep Ee Est) as (Hend & c & Eb & Hc & Ec).
    assert (Hext : commas (map (render_item render) (done ++ [Item pre c []])) =
      commas (map (render_item render) done) ++ cm (length done) ++ pre ++ render c).
    { rewrite map_app. cbn [map]. rewrite commas_snoc, map_length. cbn [render_item]. rewrite app_nil_r. reflexivity. }
    assert (Ests : sts depth (e :: es) = st depth e :: (if ended4 then es else sts depth es)).
    { unfold sts, st. destruct sort_keys; [|destruct ended4; reflexivity]. rewrite Hend.
      rewrite until_cons. destruct (sorted_within (499 - depth) e) as [e' []]; [reflexivity|]. cbn [fst snd].
      destruct (until _ es) as [r' x]. reflexivity. }
    rewrite until_cons. rewrite Ests.
    destruct ended4.
    + destruct (sorted_within (499 - depth) e) as [e' e'']. cbn [snd] in Hend. subst e''.
      intros [= <- <- <- <-] _. split; [reflexivity|].
      destruct (atail_text es cr ltac:(constructor; auto) (done ++ [Item pre c []]) ltac:(destruct done; discriminate)) as (rest & Er & Hr & Ev).
      exists (CArr [] ((done ++ [Item pre c []]) ++ rest)). split; [|split].
      * subst b4 buf2. unfold buf. cbn [render app]. rewrite <- !app_assoc. cbn [app]. f_equal. f_equal.
        rewrite Hext in Er. rewrite <- !app_assoc in Er. rewrite Er. reflexivity.
      * constructor; [constructor|]. apply Forall_app. split; auto. apply Forall_app. split; auto.
        repeat (constructor; auto).
      * cbn [erase]. fold (ivals ((done ++ [Item pre c []]) ++ rest)). unfold ivals in *. rewrite !map_app. rewrite Ev. cbn [map]. rewrite Ec, <- app_assoc. reflexivity.
    + destruct (sorted_within (499 - depth) e) as [e' e'']. cbn [snd] in Hend. subst e''.
      intros H Hst. rewrite app_nil_r in Eb.
      apply IH with (done := done ++ [Item pre c []]) in H; auto.
      * unfold ivals in H. rewrite map_app in H. cbn [map] in H. rewrite Ec in H.
        destruct H as (H1 & c' & X1 & X2 & X3). split.
        -- rewrite H1. destruct (until _ es). reflexivity.
        -- exists c'. split; auto. split; auto. rewrite X3, <- app_assoc. reflexivity.
      * constructor; auto.
      * subst b4 buf2. unfold buf. rewrite Hext. apps. reflexivity.
      * rewrite app_length. reflexivity.
      * apply Forall_app. split; auto. repeat (constructor; auto).
Qed.

(* ---------- members and sorting ---------- *)

Definition mvals (ms : list (memb cst)) : list (bytes * tree) :=
  map (fun m => match m with Memb _ k _ _ v _ => (k, erase v) end) ms.
Definition tocs (ms : list (bytes * tree)) : list (bytes * clos * bytes) :=
  map (fun m => match m with (k, v) => (k, pt width prefix sort_keys v, minimal v) end) ms.

Fixpoint minsert (x : memb cst) (l : list (memb cst)) : list (memb cst) :=
  match l with
  | [] => [x]
  | y :: t => if le_text (m_key x) (m_key y) then x :: l else y :: minsert x t
  end.
Definition msort (l : list (memb cst)) : list (memb cst) := fold_right minsert [] l.

Lemma minsert_mvals x l : mvals (minsert x l) = insert_member (match x with Memb _ k _ _ v _ => (k, erase v) end) (mvals l).
Proof.
  destruct x as [a k b c v d]. induction l as [|[a' k' b' c' v' d'] l IH]; [reflexivity|]. cbn [minsert mvals map insert_member m_key fst].
  destruct (le_text k k'); [reflexivity|]. cbn [map]. f_equal. exact IH.
Qed.
Lemma msort_mvals l : mvals (msort l) = sort_members (mvals l).
Proof. induction l as [|x l IH]; [reflexivity|]. cbn [msort fold_right]. rewrite minsert_mvals. cbn [mvals map sort_members fold_right]. f_equal. exact IH. Qed.
Lemma minsert_wf (P : memb cst -> Prop) x l : P x -> Forall P l -> Forall P (minsert x l).
Proof. intros Hx H. induction H; cbn [minsert]; auto. destruct (le_text _ _); auto. Qed.
Lemma msort_wf (P : memb cst -> Prop) l : Forall P l -> Forall P (msort l).
Proof. induction 1; cbn [msort fold_right]; auto using minsert_wf. Qed.
Lemma minsert_nil x l : minsert x l <> [].
Proof. destruct l; cbn [minsert]; try discriminate. destruct (le_text _ _); discriminate. Qed.

Lemma le_text_bcmp a b : le_text a b = match bcmp a b with Gt => false | _ => true end.
Proof.
  revert b; induction a as [|x a IH]; intros [|y b]; auto. cbn [le_text bcmp].
  destruct (N.eqb_spec x y) as [->|H]; [rewrite N.compare_refl; apply IH|].
  destruct (N.compare_spec x y); [congruence | |]; [replace (x <? y)%N with true by lia | replace (x <? y)%N with false by lia]; reflexivity.
Qed.

(** A recorded member and its text in the output. *)
Definition sorel (buf : bytes) (p : kpair) (m : memb cst) : Prop :=
  kp_key p = m_key m /\ kp_vs p <= kp_ve p /\ kp_ve p <= length buf /\
  10%N :: seg buf (kp_vs p) (kp_ve p) = render_memb render m.

Lemma seg_ext buf x vs ve : vs <= ve -> ve <= length buf -> seg (buf ++ x) vs ve = seg buf vs ve.
Proof.
  intros H1 H2. unfold seg. rewrite skipn_app. rewrite firstn_app.
  rewrite skipn_length. replace (ve - vs - (length buf - vs)) with 0 by lia. cbn [firstn]. apply app_nil_r.
Qed.
Lemma seg_tail a x : seg (a ++ x) (length a) (length (a ++ x)) = x.
Proof. unfold seg. rewrite skipn_length_app, app_length. replace (length a + length x - length a) with (length x) by lia. apply firstn_all. Qed.
Lemma sorel_ext buf x p m : sorel buf p m -> sorel (buf ++ x) p m.
Proof.
  intros (H1 & H2 & H3 & H4). repeat split; auto; [rewrite app_length; lia|]. rewrite seg_ext by auto. exact H4.
Qed.

Lemma sorel_ext_all buf x ps ms : Forall2 (sorel buf) ps ms -> Forall2 (sorel (buf ++ x)) ps ms.
Proof. induction 1; constructor; auto using sorel_ext. Qed.
Lemma sorel_vs buf ps ms : Forall2 (sorel buf) ps ms -> Forall (fun q => kp_vs q <= length buf) ps.
Proof. induction 1 as [|p m ps ms (_ & A1 & A2 & _) _ IH]; constructor; auto. lia. Qed.

(** Later members start later. *)
Fixpoint incr (ps : list kpair) : Prop :=
  match ps with [] => True | p :: t => Forall (fun q => kp_vs p < kp_vs q) t /\ incr t end.
Lemma incr_snoc ps p : incr ps -> Forall (fun q => kp_vs q < kp_vs p) ps -> incr (ps ++ [p]).
Proof.
  induction ps as [|q ps IH]; intros H1 H2; cbn [app incr]; [split; constructor|].
  destruct H1 as [H1 H1']. inversion H2; subst. split; auto. apply Forall_app. auto.
Qed.

Lemma kinsert_sorel buf p m ps ms : sorel buf p m -> Forall (fun q => kp_vs p < kp_vs q) ps ->
  Forall2 (sorel buf) ps ms -> Forall2 (sorel buf) (kinsert p ps) (minsert m ms).
Proof.
  intros Hm Hlt H. induction H as [|q x ps ms Hq Ht IH]; cbn [kinsert minsert]; auto.
  inversion Hlt; subst.
  assert (E : kle p q = le_text (m_key m) (m_key x)).
  { destruct Hm as (Em & _), Hq as (Eq & _). unfold kle. rewrite Em, Eq, le_text_bcmp.
    destruct (bcmp (m_key m) (m_key x)); auto. apply Nat.leb_le. lia. }
  rewrite E. destruct (le_text _ _); auto.
Qed.
Lemma ksort_sorel buf ps ms : incr ps -> Forall2 (sorel buf) ps ms -> Forall2 (sorel buf) (ksort ps) (msort ms).
Proof.
  intros Hi H. induction H as [|p m ps ms Hm Ht IH]; cbn [ksort msort fold_right]; auto.
  destruct Hi as [H1 H2]. apply kinsert_sorel; auto. apply ksort_in; auto.
Qed.

Lemma ljoin_text buf ps ms : Forall2 (sorel buf) ps ms -> ps <> [] ->
  10%N :: ljoin buf ps = commas (map (render_memb render) ms).
Proof.
  intros H. induction H as [|p m ps ms (_ & _ & _ & Hm) Ht IH]; intros Hne; [congruence|].
  cbn [ljoin map]. destruct Ht as [|p' m' ps ms Hm' Ht].
  - cbn [ljoin app map commas]. rewrite app_nil_r. exact Hm.
  - specialize (IH ltac:(discriminate)). cbn [map] in *. rewrite commas_cons by discriminate.
    rewrite <- IH, <- Hm. apps. reflexivity.
Qed.

Lemma otail_text ms cr : twf (TObj ms) -> forall done, done <> [] ->
  exists rest, commas (map (render_memb render) done) ++ otail (tocs ms) cr =
     commas (map (render_memb render) (done ++ rest)) ++ 125%N :: cr /\ Forall swf_memb rest /\ mvals rest = ms.
Proof.
  intros Hw done Hd. exists (map (fun m => match m with (k, v) => Memb [] k [] [] (embed v) [] end) ms).
  inversion Hw as [| | | | | |? Hms]; subst.
  split; [|split].
  - destruct ms as [|e ms]; [cbn [tocs map]; rewrite app_nil_r; reflexivity|].
    assert (Et : map (fun x : bytes * clos * bytes => quoted (fst (fst x)) ++ 58%N :: snd x) (tocs (e :: ms)) =
                 map (render_memb render) (map (fun m => match m with (k, v) => Memb [] k [] [] (embed v) [] end) (e :: ms))).
    { unfold tocs. rewrite !map_map. apply map_ext. intros [k v]. cbn [fst snd render_memb app]. rewrite app_nil_r, render_embed. reflexivity. }
    unfold otail. rewrite Et. destruct (tocs (e :: ms)) eqn:E0; [discriminate|]. rewrite map_app.
    assert (E : forall l, l <> [] -> commas (map (render_memb render) done ++ l) = commas (map (render_memb render) done) ++ 44%N :: commas l).
    { clear - Hd. intros l Hl. destruct done as [|x done]; [congruence|]. clear Hd. revert x. induction done as [|y done IH]; intros x.
      - cbn [map app]. apply commas_cons; auto.
      - cbn [map] in *. rewrite <- app_comm_cons. rewrite commas_cons by (cbn [app]; discriminate).
        rewrite IH. rewrite (commas_cons _ (_ :: _)) by discriminate. apps. reflexivity. }
    rewrite E by discriminate. rewrite <- app_assoc. reflexivity.
  - apply Forall_map. revert Hms. apply Forall_impl. intros [k v] [Hk Hv]. constructor; auto; try constructor. apply swf_embed; auto.
  - unfold mvals. rewrite map_map. rewrite <- (map_id ms) at 2. apply map_ext. intros [k v]. rewrite erase_embed. reflexivity.
Qed.

Lemma oloop_out base indent tabs max depth cr : ws indent -> depth < 500 ->
  forall ms done ps n buf nl b nl' ok ended,
  twf (TObj ms) -> Forall (fun m => out_ok (snd m)) ms ->
  buf = base ++ 123%N :: commas (map (render_memb render) done) -> n = length done -> Forall swf_memb done ->
  (if sort_keys then Forall2 (sorel buf) ps done /\ incr ps /\
     (forall p t, ps = p :: t -> firstn (kp_vs p) buf = base ++ [123; 10]%N) else ps = []) ->
  oloop width prefix sort_keys true indent tabs max depth cr (tocs ms) ps n buf nl = (b, nl', ok, ended) ->
  stops max ok = false ->
  ended = snd (until (smem depth) ms) /\
  exists c, b = base ++ render c ++ (if ended then cr else []) /\ swf c /\
     erase c = TObj ((if sort_keys && negb ended then sort_members else fun x => x) (mvals done ++ stm depth ms)).
Proof.
  intros Hi Hdep. induction ms as [|[k e] ms IH]; intros done ps n buf nl b nl' ok ended Htw Ho Hbuf Hn Hd Hps.
  - cbn [tocs map oloop]. destruct (lclose _ _ _ _ _ _ _ _ _ _) as [b1 nl1] eqn:Ec.
    intros [= <- <- <- <-] _. split; [reflexivity|]. rewrite andb_true_r.
    destruct (lclose_out _ _ _ _ _ _ _ _ _ _ Hi Ec) as (x & Hx & Eb & Hx0).
    { intros E0. subst n. destruct done; [|discriminate]. subst buf. cbn [map commas]. split; [apply last_last|].
      destruct sort_keys; auto. destruct Hps as [Hps _]. inversion Hps. reflexivity. }
    change (123 =? 123)%N with true in Eb. cbn [andb] in Eb.
    assert (Hfin : exists done2, (if sort_keys then lsort_pairs buf ps else buf) = base ++ 123%N :: commas (map (render_memb render) done2)
       /\ Forall swf_memb done2 /\ mvals done2 = (if sort_keys then sort_members else fun x => x) (mvals done) /\ (done2 = [] -> done = [])).
    { destruct sort_keys.
      - destruct Hps as (H1 & H2 & H3). exists (msort done). split; [|split; [|split]].
        + destruct H1 as [|p m ps ms Hm Ht]; [cbn [lsort_pairs msort fold_right]; exact Hbuf|].
          unfold lsort_pairs. rewrite (H3 _ _ eq_refl).
          pose proof (ksort_sorel buf (p :: ps) (m :: ms) H2 ltac:(auto)) as Hs.
          rewrite <- (ljoin_text buf _ _ Hs); [apps; reflexivity|].
          cbn [ksort]. destruct (ksort ps); cbn [kinsert]; try discriminate. destruct (kle _ _); discriminate.
        + apply msort_wf; auto.
        + apply msort_mvals.
        + destruct done; auto. cbn [msort fold_right]. intros E. apply minsert_nil in E. destruct E.
      - exists done. auto. }
    destruct Hfin as (done2 & E2 & Hd2 & Ev2 & Hnil). rewrite E2 in Eb. subst b1.
    assert (Estm : stm depth [] = []) by (unfold stm; destruct sort_keys; reflexivity). rewrite Estm, app_nil_r. rewrite <- Ev2. clear Ev2 E2.
    destruct (app_last_case done2) as [->|(done' & [p1 p2 p3 p4 v q] & ->)].
    + rewrite Hx0 by (rewrite Hn, Hnil; auto). exists (CObj [] []). cbn [map commas render app]. apps. split; auto.
      split; [repeat constructor | reflexivity].
    + exists (CObj [] (done' ++ [Memb p1 p2 p3 p4 v (q ++ x)])). apply Forall_app in Hd2 as [Hd1 Hd2].
      inversion Hd2 as [|? ? Hpq _]; subst. inversion Hpq; subst.
      split; [|split].
      * cbn [render app]. rewrite !map_app. cbn [map]. rewrite !commas_snoc. cbn [render_memb]. apps. reflexivity.
      * constructor; [constructor|]. apply Forall_app. split; auto. constructor; [|constructor]. constructor; auto. apply ws_app; auto.
      * cbn [erase]. unfold mvals. rewrite !map_app. cbn [map]. reflexivity.
  - inversion Ho as [|? ? Hoe Ho']; subst. inversion Htw as [| | | | | |? Hms]; subst. inversion Hms as [|? ? [Hk Hte] Hms']; subst. cbn [fst snd] in *.
    set (buf := base ++ 123%N :: commas (map (render_memb render) done)) in *.
    cbn [tocs map oloop]. fold (tocs ms).
    destruct (lstart_item _ _ _ _ _ _) as [buf2 nl2] eqn:Es.
    assert (Hl0 : length done = 0 -> (last buf 0 =? 32)%N = false).
    { intros E. destruct done; [|discriminate]. unfold buf. cbn [map commas]. rewrite last_last. reflexivity. }
    destruct (start_item_out _ _ _ _ _ _ _ _ _ Hi Hl0 Es) as (pre & Hpre & Ebuf2 & Hpre').
    destruct (Hpre' eq_refl) as (pre' & Hwp & ->). clear Hpre'.
    rewrite (lnl_comma _ _ _ Hl0).
    destruct (pt width prefix sort_keys e true indent (tabs + 1)%Z nl2 max depth _ (otail (tocs ms) cr)) as [[[b4 nl4] ok4] ended4] eqn:Ee.
    destruct (stops max ok4) eqn:Est.
    { intros [= <- <- <- <-] H. unfold stops in *. apply andb_prop in Est as [Est _]. rewrite Est in H. discriminate. }
    pose proof (Hoe _ _ _ _ _ _ _ _ _ _ _ _ Hi (or_introl eq_refl) Hdep Ee Est) as (Hend & c & Eb & Hc & Ec).
    assert (Hext : commas (map (render_memb render) (done ++ [Memb (10%N :: pre') k [] [32%N] c []])) =
      commas (map (render_memb render) done) ++ cm (length done) ++ (10%N :: pre') ++ quoted k ++ [58; 32]%N ++ render c).
    { rewrite map_app. cbn [map]. rewrite commas_snoc, map_length. cbn [render_memb]. rewrite app_nil_r. reflexivity. }
    assert (Hwm : swf_memb (Memb (10%N :: pre') k [] [32%N] c [])).
    { constructor; auto; try constructor; [|constructor]. unfold ws_byte; auto. }
    assert (Estm : stm depth ((k, e) :: ms) = (k, st depth e) :: (if ended4 then ms else stm depth ms)).
    { unfold stm, st. destruct sort_keys; [|destruct ended4; reflexivity]. rewrite Hend.
      rewrite until_cons. unfold smem at 1. destruct (sorted_within (499 - depth) e) as [e' []]; [reflexivity|]. cbn [fst snd].
      destruct (until _ ms) as [r' x]. reflexivity. }
    rewrite until_cons. rewrite Estm. unfold smem at 1.
    destruct ended4.
    + destruct (sorted_within (499 - depth) e) as [e' e'']. cbn [snd] in Hend. subst e''.
      intros [= <- <- <- <-] _. split; [reflexivity|]. rewrite andb_false_r.
      destruct (otail_text ms cr ltac:(constructor; auto) (done ++ [Memb (10%N :: pre') k [] [32%N] c []]) ltac:(destruct done; discriminate)) as (rest & Er & Hr & Ev).
      exists (CObj [] ((done ++ [Memb (10%N :: pre') k [] [32%N] c []]) ++ rest)). split; [|split].
      * subst b4 buf2. unfold buf. cbn [render app]. rewrite <- !app_assoc. cbn [app]. f_equal. f_equal.
        rewrite Hext in Er. rewrite <- !app_assoc in Er. cbn [app] in Er. apps. rewrite Er. reflexivity.
      * constructor; [constructor|]. apply Forall_app. split; auto. apply Forall_app. split; auto.
      * cbn [erase]. fold (mvals ((done ++ [Memb (10%N :: pre') k [] [32%N] c []]) ++ rest)). unfold mvals in *. rewrite !map_app. rewrite Ev. cbn [map]. rewrite Ec, <- app_assoc. reflexivity.
    + destruct (sorted_within (499 - depth) e) as [e' e'']. cbn [snd] in Hend. subst e''.
      intros H Hst. rewrite app_nil_r in Eb.
      assert (Eb4 : b4 = buf ++ (cm (length done) ++ [10%N]) ++ pre' ++ quoted k ++ [58; 32]%N ++ render c).
      { subst b4 buf2. apps. reflexivity. }
      apply IH with (done := done ++ [Memb (10%N :: pre') k [] [32%N] c []]) in H; auto.
      * unfold mvals in H. rewrite map_app in H. cbn [map] in H. rewrite Ec in H.
        destruct H as (H1 & c' & X1 & X2 & X3). split.
        -- rewrite H1. destruct (until _ ms). reflexivity.
        -- exists c'. split; auto. split; auto. rewrite X3. unfold mvals. rewrite <- app_assoc. reflexivity.
      * constructor; auto.
      * rewrite Eb4. unfold buf. rewrite Hext. apps. reflexivity.
      * rewrite app_length. reflexivity.
      * apply Forall_app. split; auto.
      * cbn [andb]. destruct sort_keys; auto. destruct Hps as (P1 & P2 & P3).
        assert (Hvs : length (buf ++ cm (length done) ++ [10%N]) <= length b4) by (rewrite Eb4, !app_length; lia).
        split; [|split].
        -- apply Forall2_app.
           ++ rewrite Eb4. apply sorel_ext_all; auto.
           ++ constructor; [|constructor]. unfold sorel, kp_key, kp_vs, kp_ve. cbn [fst snd m_key].
              repeat split; auto. rewrite Eb4 at 1 2. rewrite app_assoc, seg_tail. cbn [render_memb]. apps. rewrite app_nil_r. reflexivity.
        -- apply incr_snoc; auto. unfold kp_vs at 2. cbn [fst snd].
           pose proof (sorel_vs _ _ _ P1) as HF. revert HF. apply Forall_impl. intros q Hq. rewrite !app_length. simpl. lia.
        -- intros p t Ept. destruct ps as [|p0 ps0].
           ++ cbn [app] in Ept. injection Ept as <- <-. unfold kp_vs. cbn [fst snd].
              rewrite Eb4, (app_assoc buf (cm (length done) ++ [10%N])), firstn_length_app. inversion P1. subst done. unfold buf, cm. cbn [map commas length Nat.ltb Nat.leb]. apps. reflexivity.
           ++ cbn [app] in Ept. injection Ept as <- <-. specialize (P3 _ _ eq_refl). rewrite <- P3, Eb4.
              inversion P1 as [|? ? ? ? (_ & A1 & A2 & _) _]; subst.
              rewrite firstn_app. replace (kp_vs p0 - length buf) with 0 by lia. rewrite firstn_O, app_nil_r. reflexivity.
Qed.

Lemma st_scalar depth t : (match t with TArr _ | TObj _ => False | _ => True end) ->
  sorted_within (499 - depth) t = (t, false) /\ st depth t = t.
Proof. intros H. unfold st. destruct t; try destruct H; destruct (499 - depth), sort_keys; auto. Qed.

Lemma pt_out t : twf t -> out_ok t.
Proof.
  induction t as [ | | |n|b|es IH|ms IH] using tree_ind'; intros Hw pretty indent tabs nl max depth buf cr b0 nl' ok ended Hi Hp Hdep E Hst;
    try (match goal with |- context [st depth ?t] => destruct (st_scalar depth t ltac:(exact I)) as [-> ->] end; injection E as <- <- <- <-; split; [reflexivity|]; inversion Hw; subst;
         rewrite ?app_nil_r).
  - exists CNull. split; [rewrite app_nil_r; reflexivity|]. split; [constructor | reflexivity].
  - exists CTrue. split; [rewrite app_nil_r; reflexivity|]. split; [constructor | reflexivity].
  - exists CFalse. split; [rewrite app_nil_r; reflexivity|]. split; [constructor | reflexivity].
  - exists (CNum n). split; [rewrite app_nil_r; reflexivity|]. split; [constructor; auto | reflexivity].
  - exists (CStr b). split; [rewrite app_nil_r; reflexivity|]. split; [constructor; auto | reflexivity].
  - assert (Hoes : Forall out_ok es).
    { inversion Hw as [| | | | |? Hes|]; subst. rewrite Forall_forall in *. auto. }
    cbn [pt] in E. unfold parr in E. fold (tcs es) in E.
    destruct (Nat.eqb_spec (depth + 1) MAX_DEPTH) as [Hmax|Hmax]; unfold MAX_DEPTH in Hmax.
    { unfold st. replace (499 - depth) with 0 by lia. cbn [sorted_within fst snd].
      injection E as <- <- <- <-. split; [reflexivity|]. exists (embed (TArr es)).
      rewrite render_embed, erase_embed. split; auto. split; [|destruct sort_keys; auto]. apply swf_embed; auto. }
    assert (Hfull : forall pretty indent tabs nl max b nl' ok ended, ws indent -> (pretty = true \/ (max <> -1 /\ 0 < width)%Z) ->
      aloop width prefix sort_keys pretty indent tabs max (depth + 1) cr (tcs es) 0 (buf ++ [91%N]) nl = (b, nl', ok, ended) ->
      stops max ok = false ->
      ended = snd (sorted_within (499 - depth) (TArr es)) /\
      exists c, b = buf ++ render c ++ (if ended then cr else []) /\ swf c /\ erase c = st depth (TArr es)).
    { intros pretty' indent' tabs' nl1 max' b1 nl2 ok1 ended1 Hi' Hp' E' Hst'.
      pose proof (aloop_out buf pretty' indent' tabs' max' (depth + 1) cr Hi' Hp' ltac:(lia) es [] 0 (buf ++ [91%N]) nl1 b1 nl2 ok1 ended1 Hw Hoes) as H.
      specialize (H eq_refl eq_refl ltac:(constructor) E' Hst'). cbn [ivals map app] in H.
      unfold st. unfold sts in H. replace (499 - depth) with (S (499 - (depth + 1))) by lia. cbn [sorted_within].
      destruct (until (sorted_within (499 - (depth + 1))) es) as [es' x]. cbn [fst snd] in *.
      destruct sort_keys; exact H. }
    destruct (0 <? width)%Z eqn:Ew; [|eapply Hfull; eauto].
    destruct (pretty && (max =? -1)%Z) eqn:Epm; [|eapply Hfull; eauto].
    destruct (Z.ltb_spec 3 (width - (Z.of_nat (length buf) - nl))) as [Hm|]; [|eapply Hfull; eauto].
    set (max1 := (width - (Z.of_nat (length buf) - nl))%Z) in *.
    destruct (aloop width prefix sort_keys false [] 0 max1 (depth + 1) cr (tcs es) 0 (buf ++ [91%N]) 0) as [[[b1 nl1] ok1] ended1] eqn:E1.
    destruct (ok1 && _) eqn:Eok; [|eapply Hfull; eauto].
    injection E as <- <- <- <-. apply andb_prop in Eok as [-> _].
    eapply Hfull; [| |exact E1|]; [constructor | right; lia |]. unfold stops. rewrite andb_false_r. reflexivity.
  - assert (Homs : Forall (fun m => out_ok (snd m)) ms).
    { inversion Hw as [| | | | | |? Hes]; subst. rewrite Forall_forall in *. intros m Hin. apply IH; auto. apply Hes; auto. }
    cbn [pt] in E. unfold pobj in E. fold (tocs ms) in E.
    destruct (Nat.eqb_spec (depth + 1) MAX_DEPTH) as [Hmax|Hmax]; unfold MAX_DEPTH in Hmax.
    { unfold st. replace (499 - depth) with 0 by lia. cbn [sorted_within fst snd].
      injection E as <- <- <- <-. split; [reflexivity|]. exists (embed (TObj ms)).
      rewrite render_embed, erase_embed. split; auto. split; [|destruct sort_keys; auto]. apply swf_embed; auto. }
    destruct ((0 <? width)%Z && negb (max =? -1)%Z) eqn:Ea.
    { injection E as <- <- <- <-. unfold stops in Hst. apply andb_prop in Ea as [_ Ea]. rewrite Ea in Hst. discriminate. }
    assert (pretty = true) as -> by (destruct Hp as [|Hp]; auto; lia).
    pose proof (oloop_out buf indent tabs max (depth + 1) cr Hi ltac:(lia) ms [] [] 0 (buf ++ [123%N]) nl b0 nl' ok ended Hw Homs) as H.
    specialize (H eq_refl eq_refl ltac:(constructor)).
    assert (Hps : if sort_keys then Forall2 (sorel (buf ++ [123%N])) [] [] /\ incr [] /\
      (forall p t, [] = p :: t -> firstn (kp_vs p) (buf ++ [123%N]) = buf ++ [123%N; 10%N]) else @nil kpair = []).
    { destruct sort_keys; auto. repeat split; auto. discriminate. }
    specialize (H Hps E Hst). cbn [mvals map app] in H.
    unfold st. unfold stm in H. replace (499 - depth) with (S (499 - (depth + 1))) by lia. cbn [sorted_within].
    fold (smem (depth + 1)). destruct (until (smem (depth + 1)) ms) as [ms' x]. cbn [fst snd] in *.
    destruct H as (-> & c & X1 & X2 & X3). split; auto. exists c. split; auto. split; auto. rewrite X3.
    destruct sort_keys; auto. destruct x; reflexivity.
Qed.

End out.

(* ---------- below the nesting limit ---------- *)

Lemma until_none {A} (f : A -> A * bool) (g : A -> A) l : (forall x, In x l -> f x = (g x, false)) ->
  until f l = (map g l, false).
Proof.
  induction l as [|x l IH]; intros H; [reflexivity|]. rewrite until_cons, H by (left; auto).
  rewrite IH by (intros; apply H; right; auto). reflexivity.
Qed.
Lemma sorted_below t : forall n, height t <= n -> sorted_within n t = (sorted t, false).
Proof.
  induction t as [ | | |x|b|es IH|ms IH] using tree_ind'; intros n H; try (destruct n; reflexivity); cbn [height] in H.
  - destruct n as [|n]; [lia|]. cbn [sorted_within sorted]. rewrite (until_none _ sorted); auto.
    intros e He. rewrite Forall_forall in IH. apply IH; auto. apply le_S_n in H. etransitivity; [|exact H].
    clear - He. induction es as [|y es IH]; [destruct He|]. cbn [fold_right]. destruct He as [->|He]; [lia|]. specialize (IH He). lia.
  - destruct n as [|n]; [lia|]. cbn [sorted_within sorted].
    rewrite (until_none _ (fun m => match m with (k, v) => (k, sorted v) end)); auto.
    intros [k e] He. rewrite Forall_forall in IH. specialize (IH _ He n). cbn [snd] in IH. rewrite IH; auto. apply le_S_n in H. etransitivity; [|exact H].
    clear - He. induction ms as [|[k' y] es IH]; [destruct He|]. cbn [fold_right snd]. destruct He as [[= -> ->]|He]; [lia|]. specialize (IH He). cbn [snd] in *. lia.
Qed.

Lemma render_nonempty c : wf c -> render c <> [].
Proof. intros H. destruct (render_head c H) as (h & t & -> & _). discriminate. Qed.

Lemma pretty_out_any c w1 w2 o : wf c -> ws w1 -> ws w2 -> ws (o_prefix o) -> ws (o_indent o) ->
  exists c', wf c' /\ erase c' = (if o_sort o then fst (sorted_within 499 (erase c)) else erase c) /\ tight c' = true /\
    pretty_options (w1 ++ render c ++ w2) o = Ok (o_prefix o ++ render c' ++ [10%N]).
Proof.
  intros Hc H1 H2 Hp Hi. rewrite pretty_doc by auto. unfold tpretty.
  destruct (pt (o_width o) (o_prefix o) (o_sort o) (erase c) true (o_indent o) 0%Z 0%Z (-1)%Z 0 (o_prefix o) []) as [[[b nl'] ok] ended] eqn:E.
  pose proof (pt_out (o_width o) (o_prefix o) (o_sort o) Hp _ (wf_erase _ Hc) _ _ _ _ _ _ _ _ _ _ _ _ Hi (or_introl eq_refl) (Nat.lt_0_succ 499) E eq_refl) as (_ & c' & Eb & Hw & He).
  assert (E0 : (if ended then [] else []) = @nil N) by (destruct ended; reflexivity). rewrite E0, app_nil_r in Eb. clear E0. subst b.
  exists c'. split; [apply swf_wf, Hw|]. split; auto. split; [apply swf_tight, Hw|]. apply swf_wf in Hw.
  destruct (o_prefix o ++ render c') as [|x y] eqn:Ey.
  - apply app_eq_nil in Ey as [_ Ey]. apply render_nonempty in Ey; auto. destruct Ey.
  - rewrite <- Ey, <- app_assoc. reflexivity.
Qed.

Lemma pretty_out c w1 w2 o : wf c -> ws w1 -> ws w2 -> ws (o_prefix o) -> ws (o_indent o) ->
  (o_sort o = false \/ height (erase c) < 500) ->
  exists c', wf c' /\ erase c' = (if o_sort o then sorted (erase c) else erase c) /\ tight c' = true /\
    pretty_options (w1 ++ render c ++ w2) o = Ok (o_prefix o ++ render c' ++ [10%N]).
Proof.
  intros Hc H1 H2 Hp Hi Hor. destruct (pretty_out_any c w1 w2 o Hc H1 H2 Hp Hi) as (c' & A & B & C & D).
  exists c'. split; auto. split; auto. rewrite B. destruct (o_sort o); auto.
  destruct Hor as [|Hor]; [discriminate|]. rewrite sorted_below by lia. reflexivity.
Qed.

Lemma pretty_reads_any s t o : reads s t -> ws (o_prefix o) -> ws (o_indent o) ->
  exists out, pretty_options s o = Ok out /\ reads out (if o_sort o then fst (sorted_within 499 t) else t).
Proof.
  intros (w1 & c & w2 & H1 & H2 & H3 & -> & <-) Hp Hi.
  destruct (pretty_out_any c w1 w2 o H2 H1 H3 Hp Hi) as (c' & Hc & Ec & _ & Eo).
  eexists. split; [exact Eo|]. exists (o_prefix o), c', [10%N]. rewrite <- Ec.
  repeat split; auto. apply ws_cons_lf. constructor.
Qed.
Lemma pretty_reads s t o : reads s t -> ws (o_prefix o) -> ws (o_indent o) ->
  (o_sort o = false \/ height t < 500) ->
  exists out, pretty_options s o = Ok out /\ reads out (if o_sort o then sorted t else t).
Proof.
  intros H Hp Hi Hor. destruct (pretty_reads_any s t o H Hp Hi) as (out & E & Hr). exists out. split; auto.
  destruct (o_sort o); auto. destruct Hor as [|Hor]; [discriminate|]. rewrite sorted_below in Hr by lia. exact Hr.
Qed.
Lemma pretty_same s s' t o : reads s t -> reads s' t -> pretty_options s o = pretty_options s' o.
Proof.
  intros (w1 & c & w2 & H1 & H2 & H3 & -> & <-) (w1' & c' & w2' & H1' & H2' & H3' & -> & E).
  rewrite !pretty_doc by auto. rewrite E. reflexivity.
Qed.
Lemma pretty_ugly s o : valid s = Ok true ->
  exists u, ugly s = Ok u /\ pretty_options u o = pretty_options s o.
Proof.
  intros H. apply reads_valid in H as [t Ht]. destruct (ugly_reads _ _ Ht) as [H1 H2].
  exists (minimal t). split; auto. eapply pretty_same; eauto.
Qed.
Lemma pretty_keeps s o : valid s = Ok true -> ws (o_prefix o) -> ws (o_indent o) -> o_sort o = false ->
  exists out, pretty_options s o = Ok out /\ valid out = Ok true /\ ugly out = ugly s /\ pretty_options out o = Ok out.
Proof.
  intros H Hp Hi Hs. apply reads_valid in H as [t Ht].
  destruct (pretty_reads s t o Ht Hp Hi (or_introl Hs)) as (out & E & Hr). rewrite Hs in Hr.
  exists out. split; auto. split; [apply reads_valid; eauto|]. split.
  - destruct (ugly_reads _ _ Hr) as [-> _]. destruct (ugly_reads _ _ Ht) as [-> _]. reflexivity.
  - rewrite <- E. eapply pretty_same; eauto.
Qed.

(* ---------- sorting ---------- *)
From Coq Require Import Permutation Sorted.

Lemma le_text_total a b : le_text a b = false -> le_text b a = true.
Proof. rewrite !le_text_bcmp, (bcmp_antisym a b). destruct (bcmp a b); simpl; auto; discriminate. Qed.
Lemma le_text_trans a b c : le_text a b = true -> le_text b c = true -> le_text a c = true.
Proof.
  rewrite !le_text_bcmp. intros H1 H2.
  destruct (bcmp a b) eqn:E1; try discriminate.
  - apply bcmp_eq in E1. subst. exact H2.
  - destruct (bcmp b c) eqn:E2; try discriminate.
    + apply bcmp_eq in E2. subst. rewrite E1. reflexivity.
    + rewrite (bcmp_lt_trans _ _ _ E1 E2). reflexivity.
Qed.
Lemma le_text_antisym a b : le_text a b = true -> le_text b a = true -> a = b.
Proof.
  rewrite !le_text_bcmp, (bcmp_antisym a b). destruct (bcmp a b) eqn:E; simpl; try discriminate; intros.
  apply bcmp_eq; auto.
Qed.

Definition le_member {A} (x y : bytes * A) : Prop := le_text (fst x) (fst y) = true.

Lemma insert_perm {A} (x : bytes * A) l : Permutation (x :: l) (insert_member x l).
Proof.
  induction l as [|y l IH]; cbn [insert_member]; auto. destruct (le_text _ _); auto.
  eapply perm_trans; [apply perm_swap|]. constructor. exact IH.
Qed.
Lemma sort_perm {A} (l : list (bytes * A)) : Permutation l (sort_members l).
Proof.
  induction l as [|x l IH]; cbn [sort_members fold_right]; auto.
  eapply perm_trans; [|apply insert_perm]. constructor. exact IH.
Qed.
Lemma insert_sorted {A} (x : bytes * A) l : StronglySorted le_member l -> StronglySorted le_member (insert_member x l).
Proof.
  induction 1 as [|y l Hl IH Hy]; cbn [insert_member]; [repeat constructor|].
  destruct (le_text (fst x) (fst y)) eqn:E.
  - constructor; [constructor; auto|]. constructor; [exact E|]. revert Hy. apply Forall_impl.
    intros z Hz. eapply le_text_trans; eauto.
  - constructor; auto. eapply Permutation_Forall; [apply insert_perm|].
    constructor; auto. apply le_text_total; auto.
Qed.
Lemma sort_sorted {A} (l : list (bytes * A)) : StronglySorted le_member (sort_members l).
Proof. induction l; cbn [sort_members fold_right]; [constructor | apply insert_sorted; auto]. Qed.

Definition named {A} (k : bytes) (m : bytes * A) : bool := le_text k (fst m) && le_text (fst m) k.
Lemma named_spec {A} k (m : bytes * A) : named k m = true <-> fst m = k.
Proof.
  unfold named. rewrite andb_true_iff. split.
  - intros [H1 H2]. apply le_text_antisym; auto.
  - intros <-. rewrite le_text_bcmp. replace (bcmp (fst m) (fst m)) with Eq; auto. symmetry. apply bcmp_eq. auto.
Qed.
Lemma insert_stable {A} k (x : bytes * A) l :
  filter (named k) (insert_member x l) = filter (named k) (x :: l).
Proof.
  induction l as [|y l IH]; auto. cbn [insert_member]. destruct (le_text (fst x) (fst y)) eqn:E; auto.
  cbn [filter] in *. rewrite IH.
  destruct (named k x) eqn:Ex, (named k y) eqn:Ey; auto.
  apply named_spec in Ex, Ey. rewrite Ex, Ey in E.
  assert (H : named k (k, tt) = true) by (apply named_spec; reflexivity).
  unfold named in H. cbn [fst] in H. rewrite E in H. discriminate.
Qed.
Lemma sort_stable {A} k (l : list (bytes * A)) : filter (named k) (sort_members l) = filter (named k) l.
Proof.
  induction l as [|x l IH]; auto. cbn [sort_members fold_right]. rewrite insert_stable. cbn [filter].
  fold (sort_members l). rewrite IH. reflexivity.
Qed.

Lemma le_text_app a b : le_text a b = true <-> a = b \/ (exists p y t, a = p /\ b = p ++ y :: t) \/
  (exists p x y s t, a = p ++ x :: s /\ b = p ++ y :: t /\ (x < y)%N).
Proof.
  split.
  - revert b. induction a as [|x a IH]; intros [|y b] H; cbn [le_text] in H; auto; try discriminate.
    + right; left. exists [], y, b. auto.
    + destruct (N.eqb_spec x y) as [->|Hne].
      * apply IH in H as [->|[(p & z & t & -> & ->)|(p & u & v & s & t & -> & -> & Hlt)]]; auto.
        -- right; left. exists (y :: p), z, t. auto.
        -- right; right. exists (y :: p), u, v, s, t. auto.
      * right; right. exists [], x, y, a, b. repeat split; auto. lia.
  - intros [->|[(p & y & t & -> & ->)|(p & x & y & s & t & -> & -> & Hlt)]].
    + induction b as [|x b IH]; cbn [le_text]; auto. rewrite N.eqb_refl. auto.
    + induction p as [|x p IH]; cbn [app le_text]; auto. rewrite N.eqb_refl. auto.
    + induction p as [|z p IH]; cbn [app le_text].
      * replace (x =? y)%N with false by lia. lia.
      * rewrite N.eqb_refl. auto.
Qed.

Lemma pretty_sorts s t o : reads s t -> ws (o_prefix o) -> ws (o_indent o) -> o_sort o = true -> height t < 500 ->
  exists out, pretty_options s o = Ok out /\ reads out (sorted t).
Proof.
  intros H Hp Hi Hs Hh. destruct (pretty_reads s t o H Hp Hi (or_intror Hh)) as (out & E & Hr). rewrite Hs in Hr. eauto.
Qed.
Lemma until_rel {A} (f : A -> A * bool) (P : A -> A -> Prop) l : (forall x, P x x) ->
  (forall x, In x l -> P x (fst (f x))) -> Forall2 P l (fst (until f l)).
Proof.
  intros Hr. assert (Hd : forall l, Forall2 P l l) by (intros l'; induction l'; constructor; auto).
  induction l as [|x l IH]; intros H; [constructor|]. rewrite until_cons.
  pose proof (H x (or_introl eq_refl)) as Hx. destruct (f x) as [x' []]; cbn [fst] in Hx.
  - constructor; auto.
  - specialize (IH (fun y Hy => H y (or_intror Hy))). destruct (until f l). constructor; auto.
Qed.
Lemma sorted_within_reordered t : forall n, reordered t (fst (sorted_within n t)).
Proof.
  induction t as [ | | |x|b|es IH|ms IH] using tree_ind'; intros [|n]; try apply re_same; cbn [sorted_within]; rewrite Forall_forall in IH.
  - pose proof (until_rel (sorted_within n) reordered es re_same (fun e He => IH e He n)) as H.
    destruct (until _ es) as [es' e]. apply re_arr. exact H.
  - match goal with |- context [until ?f ms] =>
      pose proof (until_rel f (fun m m' => fst m = fst m' /\ reordered (snd m) (snd m')) ms) as H end.
    destruct (until _ ms) as [ms' e]. apply re_obj with ms'.
    + apply H; [intros; split; [reflexivity | apply re_same]|]. intros [k v] Hin. specialize (IH _ Hin n). cbn [snd fst] in *.
      destruct (sorted_within n v). auto.
    + destruct e; [apply Permutation_refl | apply sort_perm].
Qed.
Lemma pretty_keeps_members s t o : reads s t -> ws (o_prefix o) -> ws (o_indent o) ->
  exists out t', pretty_options s o = Ok out /\ reads out t' /\ reordered t t'.
Proof.
  intros H Hp Hi. destruct (pretty_reads_any s t o H Hp Hi) as (out & E & Hr). do 2 eexists. split; [exact E|]. split; [exact Hr|].
  destruct (o_sort o); [apply sorted_within_reordered | apply re_same].
Qed.
Lemma pretty_sorts_any s t o : reads s t -> ws (o_prefix o) -> ws (o_indent o) -> o_sort o = true ->
  exists out, pretty_options s o = Ok out /\ reads out (fst (sorted_within 499 t)).
Proof.
  intros H Hp Hi Hs. destruct (pretty_reads_any s t o H Hp Hi) as (out & E & Hr). rewrite Hs in Hr. eauto.
Qed.
Lemma pretty_total s o : exists out, pretty_options s o = Ok out.
Proof. rewrite pretty_options_spec. eauto. Qed.
Lemma sort_members_facts {A} (l : list (bytes * A)) :
  Permutation l (sort_members l) /\
  StronglySorted (fun x y => le_text (fst x) (fst y) = true) (sort_members l) /\
  forall (p : bytes * A -> bool) k, (forall m, p m = true <-> fst m = k) -> filter p (sort_members l) = filter p l.
Proof.
  split; [apply sort_perm|]. split; [apply sort_sorted|]. intros p k Hp.
  assert (E : forall m, p m = named k m).
  { intros m. specialize (Hp m). pose proof (named_spec k m). destruct (p m), (named k m); intuition congruence. }
  rewrite !(filter_ext _ _ E). apply sort_stable.
Qed.
Lemma pretty_reads_unsorted s t o : reads s t -> ws (o_prefix o) -> ws (o_indent o) -> o_sort o = false ->
  exists out, pretty_options s o = Ok out /\ reads out t.
Proof.
  intros H Hp Hi Hs. destruct (pretty_reads s t o H Hp Hi (or_introl Hs)) as (out & E & Hr). rewrite Hs in Hr. eauto.
Qed.
Lemma pretty_keeps_min s o : valid s = Ok true -> ws (o_prefix o) -> ws (o_indent o) -> o_sort o = false ->
  exists out, pretty_options s o = Ok out /\ valid out = Ok true /\ ugly out = ugly s.
Proof. intros H Hp Hi Hs. destruct (pretty_keeps s o H Hp Hi Hs) as (out & ? & ? & ? & ?). eauto. Qed.
Lemma pretty_idem s o : valid s = Ok true -> ws (o_prefix o) -> ws (o_indent o) -> o_sort o = false ->
  exists out, pretty_options s o = Ok out /\ pretty_options out o = Ok out.
Proof. intros H Hp Hi Hs. destruct (pretty_keeps s o H Hp Hi Hs) as (out & ? & ? & ? & ?). eauto. Qed.

(* ---------- at the nesting limit ---------- *)

Definition nested (n : nat) : tree := Nat.iter n (fun t => TArr [t]) TNull.
Lemma nested_twf n : twf (nested n).
Proof. induction n as [|n IH]; [constructor|]. change (nested (S n)) with (TArr [nested n]). constructor. constructor; auto. Qed.
Definition deep_doc : tree := TObj [([98%N], nested 499); ([97%N], TNull)].
Lemma deep_unsorted : exists s t o out,
  reads s t /\ ws (o_prefix o) /\ ws (o_indent o) /\ o_sort o = true /\ pretty_options s o = Ok out /\ ~ reads out (sorted t).
Proof.
  assert (Hw : twf deep_doc).
  { apply twf_obj. constructor; [|constructor; [|constructor]]; cbn [fst snd].
    - split; [|apply nested_twf]. apply chars_plain; [|constructor]. repeat split; discriminate.
    - split; [|apply twf_null]. apply chars_plain; [|constructor]. repeat split; discriminate. }
  pose proof (reads_minimal deep_doc Hw) as Hr.
  destruct (pretty_sorts_any (minimal deep_doc) deep_doc (mkOpts 80 [] [] true) Hr ltac:(constructor) ltac:(constructor) eq_refl) as (out & E & Ho).
  exists (minimal deep_doc), deep_doc, (mkOpts 80 [] [] true), out.
  split; [exact Hr|]. split; [constructor|]. split; [constructor|]. split; [reflexivity|]. split; [exact E|]. intros Hs.
  assert (Heq : Ok (minimal (fst (sorted_within 499 deep_doc))) = Ok (minimal (sorted deep_doc))).
  { rewrite <- (proj1 (ugly_reads out _ Ho)). exact (proj1 (ugly_reads out _ Hs)). }
  apply (f_equal (fun r => match r with Ok b => nth 2 b 0%N | Err _ => 0%N end)) in Heq. vm_compute in Heq. discriminate.
Qed.
