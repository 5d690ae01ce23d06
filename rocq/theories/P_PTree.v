(** The pretty printer as a function of the tree: it does not see the
    whitespace of its input. *)
From Verif Require Import P_Base P_Json P_Valid P_ValidSpec P_Str P_Scan P_Each P_Doc P_Parts P_Ugly P_Pretty P_Tree M_Pretty.

(** Output, line start, ok flag, and whether the input was used up by the
    fallback at the nesting limit. *)
Definition pres : Type := bytes * Z * bool * bool.
(** A printed value: pretty, indent, tabs, line start, limit, depth, output so
    far, minimal text of what follows. *)
Definition clos : Type := bool -> bytes -> Z -> Z -> Z -> nat -> bytes -> bytes -> pres.

Section ptree.
Variables (width : Z) (prefix : bytes) (sort_keys : bool).

Definition atail (cs : list (clos * bytes)) (cr : bytes) : bytes :=
  match cs with [] => 93%N :: cr | _ => 44%N :: commas (map snd cs) ++ 93%N :: cr end.

Fixpoint aloop (pretty : bool) (indent : bytes) (tabs max : Z) (depth : nat) (cr : bytes)
    (cs : list (clos * bytes)) (n : nat) (buf : bytes) (nl : Z) : pres :=
  match cs with
  | [] =>
      let '(buf, nl) := lclose prefix sort_keys pretty 91 indent tabs nl n [] buf in
      (buf ++ [93%N], nl, true, false)
  | (f, _) :: cs' =>
      let '(buf2, nl2) := lstart_item prefix pretty indent tabs nl (lcomma width 91 n buf) in
      let '(buf4, nl4, ok, ended) := f pretty indent (tabs + 1)%Z nl2 max depth buf2 (atail cs' cr) in
      if stops max ok then (buf4, nl4, false, ended)
      else if ended then (buf4, nl4, true, true)
      else aloop pretty indent tabs max depth cr cs' (n + 1) buf4 nl4
  end.

Definition parr (cs : list (clos * bytes)) (txt : bytes) : clos :=
  fun pretty indent tabs nl max depth buf cr =>
    let depth := depth + 1 in
    if depth =? MAX_DEPTH then (buf ++ txt ++ cr, nl, true, true)
    else
      let full := aloop pretty indent tabs max depth cr cs 0 (buf ++ [91%N]) nl in
      if (0 <? width)%Z then
        if pretty && (max =? -1)%Z then
          let max1 := (width - (Z.of_nat (length buf) - nl))%Z in
          if (3 <? max1)%Z then
            let '(buf1, _, ok, ended) := aloop false [] 0 max1 depth cr cs 0 (buf ++ [91%N]) 0 in
            if ok && (Z.of_nat (length buf1) - Z.of_nat (length buf) <=? max1)%Z
            then (buf1, nl, true, ended) else full
          else full
        else full
      else full.

Definition otail (cs : list (bytes * clos * bytes)) (cr : bytes) : bytes :=
  match cs with
  | [] => 125%N :: cr
  | _ => 44%N :: commas (map (fun x => quoted (fst (fst x)) ++ 58%N :: snd x) cs) ++ 125%N :: cr
  end.

Fixpoint oloop (pretty : bool) (indent : bytes) (tabs max : Z) (depth : nat) (cr : bytes)
    (cs : list (bytes * clos * bytes)) (ps : list kpair) (n : nat) (buf : bytes) (nl : Z) : pres :=
  match cs with
  | [] =>
      let '(buf, nl) := lclose prefix sort_keys pretty 123 indent tabs nl n ps buf in
      (buf ++ [125%N], nl, false, false)
  | (k, f, _) :: cs' =>
      let buf1 := lcomma width 123 n buf in
      let '(buf2, nl2) := lstart_item prefix pretty indent tabs nl buf1 in
      let buf3 := buf2 ++ quoted k ++ [58%N] ++ (if pretty then [32%N] else []) in
      let '(buf4, nl4, ok, ended) := f pretty indent (tabs + 1)%Z nl2 max depth buf3 (otail cs' cr) in
      if stops max ok then (buf4, nl4, false, ended)
      else if ended then (buf4, nl4, false, true)
      else oloop pretty indent tabs max depth cr cs'
             (if pretty && sort_keys then ps ++ [(k, length (lnl buf1), length buf4)] else ps)
             (n + 1) buf4 nl4
  end.

Definition pobj (cs : list (bytes * clos * bytes)) (txt : bytes) : clos :=
  fun pretty indent tabs nl max depth buf cr =>
    let depth := depth + 1 in
    if depth =? MAX_DEPTH then (buf ++ txt ++ cr, nl, true, true)
    else if (0 <? width)%Z && negb (max =? -1)%Z then (buf, nl, false, false)
    else oloop pretty indent tabs max depth cr cs [] 0 (buf ++ [123%N]) nl.

Fixpoint pt (t : tree) : clos :=
  match t with
  | TNull => fun _ _ _ nl _ _ buf _ => (buf ++ t_null, nl, true, false)
  | TTrue => fun _ _ _ nl _ _ buf _ => (buf ++ t_true, nl, true, false)
  | TFalse => fun _ _ _ nl _ _ buf _ => (buf ++ t_false, nl, true, false)
  | TNum n => fun _ _ _ nl _ _ buf _ => (buf ++ n, nl, true, false)
  | TStr b => fun _ _ _ nl _ _ buf _ => (buf ++ quoted b, nl, true, false)
  | TArr es => parr (map (fun e => (pt e, minimal e)) es) (minimal t)
  | TObj ms => pobj (map (fun m => match m with (k, v) => (k, pt v, minimal v) end) ms) (minimal t)
  end.

(* ---------- the list functions compute it ---------- *)

Definition psim (max : Z) (r : bytes) (x : bytes * bytes * Z * bool) (y : pres) : Prop :=
  let '(b, nl, ok, ended) := y in
  exists r', x = (b, r', nl, ok) /\ (stops max ok = true \/ r' = if ended then [] else r).

Definition nostart (c : N) : Prop := starts_value c = false.
Lemma ws_nostart w : ws w -> Forall nostart w.
Proof. apply Forall_impl. intros c H. unfold ws_byte in H. unfold nostart, starts_value. lia. Qed.

Lemma dropw_start junk c r : wf c -> Forall nostart junk -> dropw starts_value (junk ++ render c ++ r) = render c ++ r.
Proof.
  intros Hc Hj. rewrite dropw_app by exact Hj. apply dropw_stop.
  destruct c as [ | | |n|b|w es|w ms]; try reflexivity.
  inversion Hc; subst. destruct (number_head n) as (h & t & -> & Hh); auto. cbn [render app].
  unfold starts_value. lia.
Qed.

Lemma pnum_number n r : Forall numish n -> follow r -> dropw pnum_stop (n ++ r) = r.
Proof.
  intros Hn Hr. rewrite dropw_app.
  - apply dropw_stop. destruct r as [|c t]; auto. simpl in Hr. unfold follow_byte, ws_byte in Hr. unfold pnum_stop. lia.
  - revert Hn. apply Forall_impl. intros c H. unfold numish, numch in H. unfold pnum_stop. lia.
Qed.

(** Bytes the loop passes over. *)
Definition oskip (open close c : N) : Prop :=
  (c <= 32)%N \/ (c <> close /\ open <> 91%N /\ c <> 34%N).
Lemma lploop_skip open close pretty indent tabs nl max depth ps n w : Forall (oskip open close) w ->
  forall fuel buf l, length w <= fuel ->
  lploop width prefix sort_keys fuel buf (w ++ l) open close pretty indent tabs nl max depth ps n =
  lploop width prefix sort_keys (fuel - length w) buf l open close pretty indent tabs nl max depth ps n.
Proof.
  induction 1 as [|c w Hc _ IH]; intros fuel buf l Hf.
  - cbn [length app]. rewrite Nat.sub_0_r. reflexivity.
  - cbn [length] in Hf. destruct fuel as [|fuel]; [lia|]. cbn [app lploop].
    replace (S fuel - length (c :: w)) with (fuel - length w) by (cbn [length]; lia).
    destruct (N.leb_spec c 32); [apply IH; lia|].
    destruct Hc as [Hc|(H1 & H2 & H3)]; [lia|].
    replace (c =? close)%N with false by lia. replace ((open =? 91) || (c =? 34))%N with false by lia.
    apply IH; lia.
Qed.
Lemma ws_oskip open close w : ws w -> Forall (oskip open close) w.
Proof. apply Forall_impl. intros c H. left. unfold ws_byte in H. lia. Qed.

Definition sim_at (c : cst) : Prop :=
  forall fuel junk r buf pretty indent tabs nl max depth,
    follow r -> Forall nostart junk -> 4 * length (junk ++ render c ++ r) <= fuel ->
    psim max r (lpany width prefix sort_keys fuel buf (junk ++ render c ++ r) pretty indent tabs nl max depth)
      (pt (erase c) pretty indent tabs nl max depth buf (lugly r)).

Definition acs (es : list (item cst)) : list (clos * bytes) :=
  map (fun e => (pt e, minimal e)) (map (fun e => match e with Item _ v _ => erase v end) es).
Lemma acs_cons a v b es : acs (Item a v b :: es) = (pt (erase v), minimal (erase v)) :: acs es.
Proof. reflexivity. Qed.

Lemma lugly_arr_tail es r : Forall wf_item es -> lugly (arr_tail es (93%N :: r)) = atail (acs es) (lugly r).
Proof.
  intros H. unfold arr_tail, atail. destruct es as [|e es].
  - cbn [acs map]. apply lugly_keep1; lia.
  - assert (E : commas (map snd (acs (e :: es))) = commas (map (fun e => minimal match e with Item _ v _ => erase v end) (e :: es))).
    { unfold acs. rewrite !map_map. reflexivity. }
    destruct (acs (e :: es)) as [|x y] eqn:Ea; [discriminate|]. rewrite E.
    rewrite lugly_keep1 by lia. f_equal.
    rewrite (lugly_commas _ (fun e => minimal match e with Item _ v _ => erase v end)).
    + rewrite lugly_keep1 by lia. reflexivity.
    + intros x' r' Hin. rewrite Forall_forall in H. destruct (H _ Hin) as [a v b Ha Hv Hb].
      cbn [render_item]. apps. rewrite lugly_skip by (apply ws_le; auto). rewrite lugly_render by auto.
      f_equal. apply lugly_skip, ws_le; auto.
Qed.

(** One element of an array. *)
Lemma aloop_item a v b es r pretty indent tabs nl max depth n junk buf fuel :
  wf_item (Item a v b) -> Forall wf_item es -> sim_at v ->
  (forall n buf nl fuel, 0 < n ->
     4 * length (b ++ arr_tail es (93%N :: r)) + 1 <= fuel ->
     psim max r (lploop width prefix sort_keys fuel buf (b ++ arr_tail es (93%N :: r)) 91 93 pretty indent tabs nl max depth [] n)
      (aloop pretty indent tabs max depth (lugly r) (acs es) n buf nl)) ->
  Forall nostart junk ->
  (exists h t, junk ++ render v ++ b ++ arr_tail es (93%N :: r) = h :: t /\ (32 < h)%N /\ h <> 93%N) ->
  4 * length (junk ++ render v ++ b ++ arr_tail es (93%N :: r)) + 1 <= fuel ->
  psim max r (lploop width prefix sort_keys fuel buf (junk ++ render v ++ b ++ arr_tail es (93%N :: r)) 91 93 pretty indent tabs nl max depth [] n)
    (aloop pretty indent tabs max depth (lugly r) (acs (Item a v b :: es)) n buf nl).
Proof.
  intros Hw Hes Hv Hloop Hj (h & t & El & Hh1 & Hh2) Hf. inversion Hw as [a' v' b' Ha Hwv Hb]; subst.
  destruct fuel as [|fuel]; [lia|].
  assert (Hsim : forall nl2 buf2, psim max (b ++ arr_tail es (93%N :: r))
     (lpany width prefix sort_keys fuel buf2 (junk ++ render v ++ b ++ arr_tail es (93%N :: r)) pretty indent (tabs + 1)%Z nl2 max depth)
     (pt (erase v) pretty indent (tabs + 1)%Z nl2 max depth buf2 (lugly (b ++ arr_tail es (93%N :: r))))).
  { intros. apply Hv; auto; [|lia]. apply follow_ws; auto. apply arr_tail_follow. simpl. unfold follow_byte; auto. }
  rewrite lugly_skip in Hsim by (apply ws_le; auto). rewrite lugly_arr_tail in Hsim by auto.
  rewrite El. rewrite lploop_S. replace (h <=? 32)%N with false by lia. replace (h =? 93)%N with false by lia.
  change (91 =? 91)%N with true. cbn [orb]. rewrite acs_cons. cbn [aloop].
  destruct (lstart_item prefix pretty indent tabs nl (lcomma width 91 n buf)) as [buf2 nl2].
  unfold lkey. change (91 =? 123)%N with false. cbv beta iota. rewrite <- El. specialize (Hsim nl2 buf2).
  unfold psim in Hsim at 1.
  destruct (pt (erase v) pretty indent (tabs + 1)%Z nl2 max depth buf2 (atail (acs es) (lugly r))) as [[[b4 nl4] ok4] ended4].
  destruct Hsim as (r4 & -> & Hr4). fold (stops max ok4).
  destruct (stops max ok4) eqn:Est.
  { exists r4. split; auto. left. unfold stops in *. rewrite andb_true_r. apply andb_prop in Est. tauto. }
  destruct Hr4 as [Hr4|Hr4]; [discriminate|].
  rewrite andb_false_r. cbn [andb].
  destruct ended4; subst r4.
  - destruct fuel as [|fuel]; [rewrite El in Hf; cbn [length] in Hf; lia|]. cbn [lpany lpobj lploop].
    eexists. split; [reflexivity|]. auto.
  - rewrite app_length in Hf. apply Hloop; [lia|].
    assert (0 < length (render v)).
    { destruct (render_head v Hwv) as (h' & t' & -> & _). simpl. lia. }
    rewrite (app_length (render v)) in Hf. lia.
Qed.

Lemma aloop_tail es r pretty indent tabs max depth :
  Forall wf_item es -> Forall (fun e => sim_at (i_val e)) es ->
  forall b n buf nl fuel, ws b -> 0 < n ->
  4 * length (b ++ arr_tail es (93%N :: r)) + 1 <= fuel ->
  psim max r (lploop width prefix sort_keys fuel buf (b ++ arr_tail es (93%N :: r)) 91 93 pretty indent tabs nl max depth [] n)
    (aloop pretty indent tabs max depth (lugly r) (acs es) n buf nl).
Proof.
  induction es as [|[a v b'] es IH]; intros Hes Hs b n buf nl fuel Hb Hn Hf.
  - rewrite app_length in Hf. rewrite lploop_skip by (auto using ws_oskip; lia).
    cbn [arr_tail length] in *. remember (fuel - length b) as f eqn:Ef. destruct f as [|f]; [lia|].
    cbn [lpany lpobj lploop acs map aloop]. change (93 <=? 32)%N with false. change (93 =? 93)%N with true. cbv beta iota.
    destruct (lclose _ _ _ _ _ _ _ _ _ _) as [b1 nl1]. eexists. split; [reflexivity|]. right; reflexivity.
  - rewrite app_length in Hf. rewrite lploop_skip by (auto using ws_oskip; lia).
    inversion Hes as [|? ? Hw Hes']; subst. inversion Hs as [|? ? Hsv Hs']; subst.
    inversion Hw as [? ? ? Ha Hv Hb']; subst. cbn [i_val] in Hsv.
    assert (E : arr_tail (Item a v b' :: es) (93%N :: r) = (44%N :: a) ++ render v ++ b' ++ arr_tail es (93%N :: r)).
    { cbn [arr_tail]. rewrite commas_tail. cbn [render_item]. apps. reflexivity. }
    rewrite E in *. apply aloop_item; auto.
    + constructor; [reflexivity | apply ws_nostart; auto].
    + do 2 eexists. split; [reflexivity|]. lia.
    + lia.
Qed.

Lemma aloop_start w es r pretty indent tabs nl max depth fuel buf :
  ws w -> Forall wf_item es -> Forall (fun e => sim_at (i_val e)) es ->
  4 * length (w ++ commas (map (render_item render) es) ++ 93%N :: r) + 1 <= fuel ->
  psim max r (lploop width prefix sort_keys fuel buf (w ++ commas (map (render_item render) es) ++ 93%N :: r) 91 93 pretty indent tabs nl max depth [] 0)
    (aloop pretty indent tabs max depth (lugly r) (acs es) 0 buf nl).
Proof.
  intros Hw Hes Hs Hf. rewrite app_length in Hf. rewrite lploop_skip by (auto using ws_oskip; lia).
  destruct es as [|[a v b] es].
  - cbn [map commas app length] in *. remember (fuel - length w) as f eqn:Ef. destruct f as [|f]; [lia|].
    cbn [lpany lpobj lploop acs map aloop]. change (93 <=? 32)%N with false. change (93 =? 93)%N with true. cbv beta iota.
    destruct (lclose _ _ _ _ _ _ _ _ _ _) as [b1 nl1]. eexists. split; [reflexivity|]. right; reflexivity.
  - inversion Hes as [|? ? Hwi Hes']; subst. inversion Hs as [|? ? Hsv Hs']; subst.
    inversion Hwi as [? ? ? Ha Hv Hb]; subst. cbn [i_val] in Hsv.
    rewrite commas_tail in *. cbn [render_item] in *. rewrite <- !app_assoc in *.
    rewrite app_length in Hf. rewrite lploop_skip by (auto using ws_oskip; lia).
    apply (aloop_item a v b es r pretty indent tabs nl max depth 0 []); auto.
    + intros. apply aloop_tail; auto.
    + destruct (render_head v Hv) as (h & t & E & _ & He & Hh). cbn [app]. rewrite E.
      do 2 eexists. split; [reflexivity|]. split; auto. intros ->. discriminate.
    + cbn [app]. lia.
Qed.

(* ---------- objects ---------- *)

Definition ocs (ms : list (memb cst)) : list (bytes * clos * bytes) :=
  map (fun m => match m with (k, v) => (k, pt v, minimal v) end)
    (map (fun m => match m with Memb _ k _ _ v _ => (k, erase v) end) ms).
Lemma ocs_cons a k b c v d ms : ocs (Memb a k b c v d :: ms) = (k, pt (erase v), minimal (erase v)) :: ocs ms.
Proof. reflexivity. Qed.

Definition mmin (m : memb cst) : bytes := match m with Memb _ k _ _ v _ => quoted k ++ 58%N :: minimal (erase v) end.

Lemma lugly_obj_tail ms r : Forall wf_memb ms -> lugly (obj_tail ms (125%N :: r)) = otail (ocs ms) (lugly r).
Proof.
  intros H. unfold obj_tail, otail. destruct ms as [|e es].
  - cbn [ocs map]. apply lugly_keep1; lia.
  - assert (E : commas (map (fun x => quoted (fst (fst x)) ++ 58%N :: snd x) (ocs (e :: es))) = commas (map mmin (e :: es))).
    { unfold ocs. rewrite !map_map. f_equal. apply map_ext. intros [a k b c v d]. reflexivity. }
    destruct (ocs (e :: es)) as [|x y] eqn:Ea; [discriminate|]. rewrite E.
    rewrite lugly_keep1 by lia. f_equal.
    rewrite (lugly_commas _ mmin).
    + rewrite lugly_keep1 by lia. reflexivity.
    + intros x' r' Hin. rewrite Forall_forall in H. destruct (H _ Hin) as [a k b c v d Ha Hk Hb Hc Hv Hd].
      cbn [render_memb mmin]. apps. rewrite lugly_skip by (apply ws_le; auto). rewrite lugly_quoted by auto. f_equal.
      rewrite lugly_skip by (apply ws_le; auto). rewrite lugly_keep1 by lia. f_equal.
      rewrite lugly_skip by (apply ws_le; auto). rewrite lugly_render by auto.
      f_equal. apply lugly_skip, ws_le; auto.
Qed.

Lemma lpstr_chars k r : chars k -> lpstr (k ++ 34%N :: r) = (quoted k, r) /\ lname (k ++ 34%N :: r) = k.
Proof. intros H. unfold lpstr, lname. rewrite chars_split by auto. auto. Qed.

Lemma oloop_members ms r pretty indent tabs max depth :
  Forall wf_memb ms -> Forall (fun e => sim_at (m_val e)) ms ->
  forall w n buf nl fuel ps, Forall (oskip 123 125) w ->
  4 * length (w ++ commas (map (render_memb render) ms) ++ 125%N :: r) + 1 <= fuel ->
  psim max r (lploop width prefix sort_keys fuel buf (w ++ commas (map (render_memb render) ms) ++ 125%N :: r) 123 125 pretty indent tabs nl max depth ps n)
    (oloop pretty indent tabs max depth (lugly r) (ocs ms) ps n buf nl).
Proof.
  induction ms as [|[a k b c v d] ms IH]; intros Hms Hs w n buf nl fuel ps Hw Hf.
  - rewrite app_length in Hf. rewrite lploop_skip by (auto using ws_oskip; lia).
    cbn [map commas app length] in *. remember (fuel - length w) as f eqn:Ef. destruct f as [|f]; [lia|].
    cbn [lpany lpobj lploop ocs map oloop]. change (125 <=? 32)%N with false. change (125 =? 125)%N with true. cbv beta iota.
    destruct (lclose _ _ _ _ _ _ _ _ _ _) as [b1 nl1]. eexists. split; [reflexivity|]. right; reflexivity.
  - inversion Hms as [|? ? Hwm Hms']; subst. inversion Hs as [|? ? Hsv Hs']; subst.
    inversion Hwm as [? ? ? ? ? ? Ha Hk Hb Hc Hv Hd]; subst. cbn [m_val] in Hsv.
    rewrite commas_tail_m in *. cbn [render_memb] in *. rewrite <- !app_assoc in *.
    rewrite app_length in Hf. rewrite lploop_skip by (auto; lia).
    rewrite app_length in Hf. rewrite lploop_skip by (auto using ws_oskip; lia).
    rewrite quoted_app_cons in *. rewrite <- !app_comm_cons in *. rewrite <- !app_assoc in *. cbn [length] in Hf.
    set (V := b ++ 58%N :: c ++ render v ++ d ++ obj_tail ms (125%N :: r)) in *.
    destruct (lpstr_chars k V Hk) as [Hps Hnm].
    remember (fuel - length w - length a) as f eqn:Ef. destruct f as [|f]; [lia|].
    assert (Hsim : forall nl2 buf2, psim max (d ++ obj_tail ms (125%N :: r))
       (lpany width prefix sort_keys f buf2 V pretty indent (tabs + 1)%Z nl2 max depth)
       (pt (erase v) pretty indent (tabs + 1)%Z nl2 max depth buf2 (lugly (d ++ obj_tail ms (125%N :: r))))).
    { intros. unfold V. replace (b ++ 58%N :: c ++ render v ++ d ++ obj_tail ms (125%N :: r))
        with ((b ++ 58%N :: c) ++ render v ++ d ++ obj_tail ms (125%N :: r)) by (rewrite <- app_assoc; reflexivity).
      apply Hsv.
      - apply follow_ws; auto. apply obj_tail_follow. simpl. unfold follow_byte; auto.
      - apply Forall_app. split; [apply ws_nostart; auto|]. constructor; [reflexivity | apply ws_nostart; auto].
      - replace ((b ++ 58%N :: c) ++ render v ++ d ++ obj_tail ms (125%N :: r)) with V by (unfold V; rewrite <- app_assoc; reflexivity).
        rewrite app_length in Hf. cbn [length] in Hf. lia. }
    rewrite lugly_skip in Hsim by (apply ws_le; auto). rewrite lugly_obj_tail in Hsim by auto.
    rewrite lploop_S. change (34 <=? 32)%N with false. change (34 =? 125)%N with false.
    change ((123 =? 91) || (34 =? 34))%N with true. cbv beta iota. rewrite ocs_cons. cbn [oloop].
    destruct (lstart_item prefix pretty indent tabs nl (lcomma width 123 n buf)) as [buf2 nl2].
    unfold lkey. change (123 =? 123)%N with true. cbv beta iota. rewrite Hps, Hnm. cbn [fst snd].
    specialize (Hsim nl2 (buf2 ++ quoted k ++ [58%N] ++ (if pretty then [32%N] else []))).
    unfold psim in Hsim at 1.
    destruct (pt (erase v) pretty indent (tabs + 1)%Z nl2 max depth _ (otail (ocs ms) (lugly r))) as [[[b4 nl4] ok4] ended4].
    destruct Hsim as (r4 & -> & Hr4). fold (stops max ok4).
    destruct (stops max ok4) eqn:Est.
    { exists r4. split; auto. left. unfold stops in *. rewrite andb_true_r. apply andb_prop in Est. tauto. }
    destruct Hr4 as [Hr4|Hr4]; [discriminate|].
    rewrite andb_true_r.
    destruct ended4; subst r4.
    + destruct f as [|f]; [rewrite app_length in Hf; cbn [length] in Hf; lia|]. cbn [lpany lpobj lploop].
      eexists. split; [reflexivity|]. right; auto.
    + assert (HV : length (d ++ obj_tail ms (125%N :: r)) < length V).
      { unfold V. rewrite !app_length. cbn [length]. rewrite !app_length. lia. }
      rewrite app_length in Hf. cbn [length] in Hf.
      destruct ms as [|m0 ms0].
      * apply (IH Hms' Hs' d); [apply ws_oskip; auto|]. cbn [map commas app obj_tail] in *. lia.
      * replace (d ++ obj_tail (m0 :: ms0) (125%N :: r)) with ((d ++ [44%N]) ++ commas (map (render_memb render) (m0 :: ms0)) ++ 125%N :: r) in *
          by (rewrite <- app_assoc; reflexivity).
        apply (IH Hms' Hs' (d ++ [44%N])); [|lia].
        apply Forall_app. split; [apply ws_oskip; auto|]. constructor; auto. right. lia.
Qed.

(* ---------- the whole value ---------- *)

Lemma pt_sim c : wf c -> sim_at c.
Proof.
  induction c as [ | | |n|b|w es IH|w ms IH] using cst_ind'; intros Hc fuel junk r buf pretty indent tabs nl max depth Hr Hj Hf;
    (destruct fuel as [|fuel];
      [exfalso; rewrite !app_length in Hf; destruct (render_head _ Hc) as (h & t & E & _); rewrite E in Hf; cbn [length] in Hf; lia|]);
    rewrite lpany_S; rewrite (dropw_start junk _ r Hc Hj).
  - exists r. split; auto.
  - exists r. split; auto.
  - exists r. split; auto.
  - inversion Hc; subst. pose proof (number_numish n H0) as Hn. destruct (number_head n H0) as (h & t & -> & Hh).
    cbn [render app]. inversion Hn; subst. rewrite pnum_number by auto.
    replace (h =? 34)%N with false by lia. replace (((48 <=? h) && (h <=? 57)) || (h =? 45))%N with true by lia.
    rewrite upto_app. exists r. split; auto.
  - inversion Hc; subst. cbn [render]. rewrite quoted_app_cons. change (34 =? 34)%N with true. cbv beta iota.
    destruct (lpstr_chars b r H0) as [-> _]. exists r. split; auto.
  - inversion Hc as [| | | | |w' es' Hw Hes|]; subst.
    assert (Hsim : Forall (fun e => sim_at (i_val e)) es).
    { rewrite Forall_forall in *. intros e He. specialize (Hes _ He). inversion Hes; subst. apply (IH _ He). auto. }
    rewrite app_length in Hf.
    assert (El : render (CArr w es) ++ r = 91%N :: w ++ commas (map (render_item render) es) ++ 93%N :: r) by (cbn [render]; apps; reflexivity).
    cbn [erase pt]. unfold parr. fold (acs es). change (minimal (TArr (map (fun e => match e with Item _ v _ => erase v end) es))) with (minimal (erase (CArr w es))).
    pose proof (lugly_render _ Hc r) as Hlug.
    rewrite El in *. cbn [length] in Hf.
    change (91 =? 34)%N with false. change (((48 <=? 91) && (91 <=? 57)) || (91 =? 45))%N with false.
    change (91 =? 123)%N with false. change (91 =? 91)%N with true. cbv beta iota.
    destruct fuel as [|fuel]; [lia|]. rewrite lpobj_S; cbv zeta.
    destruct (depth + 1 =? MAX_DEPTH) eqn:Ed.
    { rewrite Hlug. eexists. split; [reflexivity|]. auto. }
    cbn [tl]. change (91 =? 91)%N with true. change (91 =? 123)%N with false. rewrite andb_true_r, andb_false_r.
    assert (Hfull : forall nl pretty indent tabs max fuel, 4 * length (w ++ commas (map (render_item render) es) ++ 93%N :: r) + 1 <= fuel ->
      psim max r (lploop width prefix sort_keys fuel (buf ++ [91%N]) (w ++ commas (map (render_item render) es) ++ 93%N :: r) 91 93 pretty indent tabs nl max (depth + 1) [] 0)
        (aloop pretty indent tabs max (depth + 1) (lugly r) (acs es) 0 (buf ++ [91%N]) nl)).
    { intros. apply aloop_start; auto. }
    destruct (0 <? width)%Z eqn:Ew; [|apply Hfull; lia].
    destruct (pretty && (max =? -1)%Z) eqn:Ep; [|apply Hfull; lia].
    destruct (Z.ltb_spec 3 (width - (Z.of_nat (length buf) - nl))) as [Hm|]; [|apply Hfull; lia].
    destruct fuel as [|fuel]; [lia|]. rewrite lpobj_S; cbv zeta. rewrite Ed, Ew. cbn [andb tl].
    change (91 =? 123)%N with false. rewrite andb_false_r.
    set (max1 := (width - (Z.of_nat (length buf) - nl))%Z) in *.
    pose proof (Hfull 0%Z false [] 0%Z max1 fuel ltac:(lia)) as Hatt. unfold psim in Hatt at 1.
    destruct (aloop false [] 0 max1 (depth + 1) (lugly r) (acs es) 0 (buf ++ [91%N]) 0) as [[[b1 nl1] ok1] ended1].
    destruct Hatt as (r1 & -> & Hr1).
    destruct (ok1 && _) eqn:Eok; [|apply Hfull; lia].
    exists r1. split; auto. right. destruct Hr1 as [Hr1|Hr1]; auto.
    apply andb_prop in Eok as [-> _]. unfold stops in Hr1. rewrite andb_false_r in Hr1. discriminate.
  - inversion Hc as [| | | | | |w' ms' Hw Hms]; subst.
    assert (Hsim : Forall (fun e => sim_at (m_val e)) ms).
    { rewrite Forall_forall in *. intros e He. specialize (Hms _ He). inversion Hms; subst. apply (IH _ He). auto. }
    rewrite app_length in Hf.
    assert (El : render (CObj w ms) ++ r = 123%N :: w ++ commas (map (render_memb render) ms) ++ 125%N :: r) by (cbn [render]; apps; reflexivity).
    cbn [erase pt]. unfold pobj. fold (ocs ms).
    change (minimal (TObj (map (fun m => match m with Memb _ k _ _ v _ => (k, erase v) end) ms))) with (minimal (erase (CObj w ms))).
    pose proof (lugly_render _ Hc r) as Hlug.
    rewrite El in *. cbn [length] in Hf.
    change (123 =? 34)%N with false. change (((48 <=? 123) && (123 <=? 57)) || (123 =? 45))%N with false.
    change (123 =? 123)%N with true. cbv beta iota.
    destruct fuel as [|fuel]; [lia|]. rewrite lpobj_S; cbv zeta.
    destruct (depth + 1 =? MAX_DEPTH) eqn:Ed.
    { rewrite Hlug. eexists. split; [reflexivity|]. auto. }
    cbn [tl]. change (123 =? 91)%N with false. change (123 =? 123)%N with true. rewrite andb_true_r, andb_false_r. cbn [andb].
    assert (Hfull : psim max r (lploop width prefix sort_keys fuel (buf ++ [123%N]) (w ++ commas (map (render_memb render) ms) ++ 125%N :: r) 123 125 pretty indent tabs nl max (depth + 1) [] 0)
        (oloop pretty indent tabs max (depth + 1) (lugly r) (ocs ms) [] 0 (buf ++ [123%N]) nl)).
    { apply oloop_members; auto; [apply ws_oskip; auto | lia]. }
    destruct (0 <? width)%Z; cbn [andb]; [|exact Hfull].
    destruct (negb (max =? -1)%Z) eqn:Em; [|exact Hfull].
    eexists. split; [reflexivity|]. left. unfold stops. rewrite Em. reflexivity.
Qed.
End ptree.

Definition tpretty (t : tree) (o : popts) : bytes :=
  let '(buf, _, _, _) := pt (o_width o) (o_prefix o) (o_sort o) t true (o_indent o) 0%Z 0%Z (-1)%Z 0 (o_prefix o) [] in
  match buf with [] => [] | _ => buf ++ [10%N] end.

Lemma pretty_doc c w1 w2 o : wf c -> ws w1 -> ws w2 ->
  pretty_options (w1 ++ render c ++ w2) o = Ok (tpretty (erase c) o).
Proof.
  intros Hc H1 H2. rewrite pretty_options_spec. f_equal. unfold lpretty, tpretty.
  pose proof (pt_sim (o_width o) (o_prefix o) (o_sort o) c Hc (8 + 4 * length (w1 ++ render c ++ w2)) w1 w2
    (o_prefix o) true (o_indent o) 0%Z 0%Z (-1)%Z 0) as H.
  rewrite lugly_ws in H by auto. unfold psim in H.
  destruct (pt _ _ _ _ _ _ _ _ _ _ _ _) as [[[b nl'] ok] ended].
  destruct H as (r' & -> & _); auto.
  - rewrite <- (app_nil_r w2). apply follow_ws; auto. exact I.
  - apply ws_nostart; auto.
  - lia.
Qed.
