(** The pretty printer on texts that need not be JSON. *)
From Verif Require Import P_Base P_Json P_Valid P_ValidSpec P_Str P_Scan P_Each P_Doc P_Path P_Parts P_Head P_Ugly P_Pretty P_Tree P_PTree P_Layout
  P_POut P_Key M_Pretty M_Valid S_Json S_Path S_Tree S_Layout S_Sloppy.

Scheme sloppy_m := Minimality for sloppy Sort Prop
  with elements_m := Minimality for elements Sort Prop
  with members_m := Minimality for members Sort Prop.
Combined Scheme sloppy_all from sloppy_m, elements_m, members_m.

Lemma begins_start c : ~ begins_value c -> starts_value c = false.
Proof. unfold begins_value, starts_value. intros H. lia. Qed.
Lemma begins_start_iff c : starts_value c = true <-> begins_value c.
Proof. unfold begins_value, starts_value. lia. Qed.
Lemma ends_stop c : pnum_stop c = true <-> ends_number c.
Proof. unfold ends_number, pnum_stop. lia. Qed.
Lemma spent_skip n c x r : spent n x r -> skipn (S n) (c :: x ++ r) = r.
Proof.
  intros [<-|[H ->]]; cbn [skipn].
  - apply skipn_length_app.
  - rewrite app_nil_r. apply skipn_all2. lia.
Qed.

Lemma sloppy_shorter :
  (forall s t r, sloppy s t r -> length r < length s) /\
  (forall s es r, elements s es r -> length r < length s) /\
  (forall s ms r, members s ms r -> length r < length s).
Proof.
  apply sloppy_all; intros; unfold quoted in *; cbn [length app] in *; rewrite ?app_length in *; cbn [length] in *; rewrite ?app_length; cbn [length]; try lia.
Qed.

Section sim.
Variables (width : Z) (prefix : bytes) (sort_keys : bool).
Notation any := (lpany width prefix sort_keys).
Notation loop := (lploop width prefix sort_keys).
Notation tr := (pt width prefix sort_keys).

(** Like psim, and the nesting limit is not reached. *)
Definition lsim (max : Z) (r : bytes) (x : bytes * bytes * Z * bool) (y : pres) : Prop :=
  let '(b, nl, ok, ended) := y in
  ended = false /\ exists r', x = (b, r', nl, ok) /\ (stops max ok = true \/ r' = r).

Definition tcs (es : list tree) : list (clos * bytes) := map (fun e => (tr e, minimal e)) es.
Definition tocs (ms : list (bytes * tree)) : list (bytes * clos * bytes) :=
  map (fun m => match m with (k, v) => (k, tr v, minimal v) end) ms.

Definition esize (es : list tree) : nat := fold_right (fun e n => Nat.max (height e) n) 0 es.
Definition msize (ms : list (bytes * tree)) : nat := fold_right (fun m n => Nat.max (match m with (_, v) => height v end) n) 0 ms.

Lemma any_junk fuel buf c s pretty indent tabs nl max depth : starts_value c = false ->
  any (S fuel) buf (c :: s) pretty indent tabs nl max depth = any (S fuel) buf s pretty indent tabs nl max depth.
Proof. intros H. rewrite !lpany_S. cbn [dropw]. rewrite H. reflexivity. Qed.

Lemma sloppy_sim :
  (forall s t r, sloppy s t r -> forall fuel buf pretty indent tabs nl max depth cr,
     depth + height t < 500 -> 4 * length s <= fuel ->
     lsim max r (any fuel buf s pretty indent tabs nl max depth) (tr t pretty indent tabs nl max depth buf cr)) /\
  (forall s es r, elements s es r -> forall fuel buf pretty indent tabs nl max depth cr n,
     depth + esize es < 500 -> 4 * length s + 1 <= fuel ->
     lsim max r (loop fuel buf s 91%N 93%N pretty indent tabs nl max depth [] n)
       (aloop width prefix sort_keys pretty indent tabs max depth cr (tcs es) n buf nl)) /\
  (forall s ms r, members s ms r -> forall fuel buf pretty indent tabs nl max depth cr ps n,
     depth + msize ms < 500 -> 4 * length s + 1 <= fuel ->
     lsim max r (loop fuel buf s 123%N 125%N pretty indent tabs nl max depth ps n)
       (oloop width prefix sort_keys pretty indent tabs max depth cr (tocs ms) ps n buf nl)).
Proof.
  apply sloppy_all.
  - intros c s t r Hc Hs IH fuel buf pretty indent tabs nl max depth cr Hd Hf. cbn [length] in Hf.
    destruct fuel as [|fuel]; [lia|]. rewrite any_junk by (apply begins_start, Hc). apply IH; lia.
  - intros b r Hb fuel buf pretty indent tabs nl max depth cr Hd Hf. unfold quoted in *. cbn [app length] in *. destruct fuel as [|fuel]; [lia|].
    rewrite lpany_S. cbn [dropw]. change (starts_value 34) with true. cbv zeta iota. change (34 =? 34)%N with true. cbv iota.
    rewrite <- app_assoc. cbn [app]. unfold lpstr. rewrite quotable_split by auto. cbn [fst snd pt]. split; auto. eexists. split; [reflexivity|]. right; reflexivity.
  - intros c b r Hc Hb Hr fuel buf pretty indent tabs nl max depth cr Hd Hf. cbn [length] in Hf. destruct fuel as [|fuel]; [lia|].
    rewrite lpany_S. cbn [dropw]. replace (starts_value c) with true by (unfold starts_value; lia). cbv zeta iota.
    replace (c =? 34)%N with false by lia. replace (((48 <=? c) && (c <=? 57)) || (c =? 45))%N with true by lia.
    assert (E : dropw pnum_stop (b ++ r) = r).
    { rewrite dropw_app.
      - apply dropw_stop. destruct r as [|d r']; auto. apply ends_stop. eapply Hr; reflexivity.
      - eapply Forall_impl; [|exact Hb]. intros d H. cbv beta in *. destruct (pnum_stop d) eqn:E; auto. apply ends_stop in E. tauto. }
    rewrite E, upto_app. cbn [pt]. split; auto. eexists. split; [reflexivity|]. right; reflexivity.
  - intros x r Hx fuel buf pretty indent tabs nl max depth cr Hd Hf. cbn [length] in Hf. destruct fuel as [|fuel]; [lia|].
    rewrite lpany_S. cbn [dropw]. change (starts_value 116) with true. cbv zeta iota. cbn [N.eqb Pos.eqb N.leb N.compare Pos.compare Pos.compare_cont andb orb].
    rewrite (spent_skip 3) by auto. split; auto. eexists. split; [reflexivity|]. right; reflexivity.
  - intros x r Hx fuel buf pretty indent tabs nl max depth cr Hd Hf. cbn [length] in Hf. destruct fuel as [|fuel]; [lia|].
    rewrite lpany_S. cbn [dropw]. change (starts_value 102) with true. cbv zeta iota. cbn [N.eqb Pos.eqb N.leb N.compare Pos.compare Pos.compare_cont andb orb].
    rewrite (spent_skip 4) by auto. split; auto. eexists. split; [reflexivity|]. right; reflexivity.
  - intros x r Hx fuel buf pretty indent tabs nl max depth cr Hd Hf. cbn [length] in Hf. destruct fuel as [|fuel]; [lia|].
    rewrite lpany_S. cbn [dropw]. change (starts_value 110) with true. cbv zeta iota. cbn [N.eqb Pos.eqb N.leb N.compare Pos.compare Pos.compare_cont andb orb].
    rewrite (spent_skip 3) by auto. split; auto. eexists. split; [reflexivity|]. right; reflexivity.
  - intros s es r Hs IH fuel buf pretty indent tabs nl max depth cr Hd Hf. cbn [length] in Hf. destruct fuel as [|fuel]; [lia|].
    change (height (TArr es)) with (S (esize es)) in Hd.
    rewrite lpany_S. cbn [dropw]. change (starts_value 91) with true. cbv zeta iota.
    change (91 =? 34)%N with false. change (((48 <=? 91) && (91 <=? 57)) || (91 =? 45))%N with false.
    change (91 =? 123)%N with false. change (91 =? 91)%N with true. cbv beta iota.
    destruct fuel as [|fuel]; [lia|]. rewrite lpobj_S; cbv zeta. cbn [pt]. unfold parr.
    rewrite (deep_eqb _ _ Hd). cbn [tl].
    change (91 =? 91)%N with true. change (91 =? 123)%N with false. rewrite andb_true_r, andb_false_r. fold (tcs es).
    assert (Hfull : forall nl pretty indent tabs max fuel, 4 * length s + 1 <= fuel ->
      lsim max r (lploop width prefix sort_keys fuel (buf ++ [91%N]) s 91 93 pretty indent tabs nl max (depth + 1) [] 0)
        (aloop width prefix sort_keys pretty indent tabs max (depth + 1) cr (tcs es) 0 (buf ++ [91%N]) nl)).
    { intros. apply IH; lia. }
    fold (tcs es).
    destruct (0 <? width)%Z eqn:Ew; [|apply Hfull; lia].
    destruct (pretty && (max =? -1)%Z) eqn:Ep; [|apply Hfull; lia].
    destruct (Z.ltb_spec 3 (width - (Z.of_nat (length buf) - nl))) as [Hm|]; [|apply Hfull; lia].
    destruct fuel as [|fuel]; [lia|]. rewrite lpobj_S; cbv zeta. rewrite (deep_eqb _ _ Hd), Ew. cbn [andb tl].
    change (91 =? 123)%N with false. rewrite andb_false_r.
    set (max1 := (width - (Z.of_nat (length buf) - nl))%Z) in *.
    pose proof (Hfull 0%Z false [] 0%Z max1 fuel ltac:(lia)) as Hatt. unfold lsim in Hatt at 1.
    destruct (aloop width prefix sort_keys false [] 0 max1 (depth + 1) cr (tcs es) 0 (buf ++ [91%N]) 0) as [[[b1 nl1] ok1] ended1].
    destruct Hatt as (-> & r1 & -> & Hr1).
    destruct (ok1 && _) eqn:Eok; [|apply Hfull; lia].
    split; auto. exists r1. split; auto. right. destruct Hr1 as [Hr1|Hr1]; auto.
    apply andb_prop in Eok as [-> _]. unfold stops in Hr1. rewrite andb_false_r in Hr1. discriminate.
  - intros s ms r Hs IH fuel buf pretty indent tabs nl max depth cr Hd Hf. cbn [length] in Hf. destruct fuel as [|fuel]; [lia|].
    change (height (TObj ms)) with (S (msize ms)) in Hd.
    rewrite lpany_S. cbn [dropw]. change (starts_value 123) with true. cbv zeta iota.
    change (123 =? 34)%N with false. change (((48 <=? 123) && (123 <=? 57)) || (123 =? 45))%N with false.
    change (123 =? 123)%N with true. cbv beta iota.
    destruct fuel as [|fuel]; [lia|]. rewrite lpobj_S; cbv zeta. cbn [pt]. unfold pobj.
    rewrite (deep_eqb _ _ Hd). cbn [tl]. change (123 =? 91)%N with false. change (123 =? 123)%N with true. rewrite andb_true_r, andb_false_r. cbn [andb].
    fold (tocs ms).
    assert (Hfull : lsim max r (lploop width prefix sort_keys fuel (buf ++ [123%N]) s 123 125 pretty indent tabs nl max (depth + 1) [] 0)
        (oloop width prefix sort_keys pretty indent tabs max (depth + 1) cr (tocs ms) [] 0 (buf ++ [123%N]) nl)).
    { apply IH; lia. }
    destruct (0 <? width)%Z; cbn [andb]; [|exact Hfull].
    destruct (negb (max =? -1)%Z) eqn:Em; [|exact Hfull].
    split; auto. eexists. split; [reflexivity|]. left. unfold stops. rewrite Em. reflexivity.
  - intros c s es r Hc Hs IH fuel buf pretty indent tabs nl max depth cr n Hd Hf. cbn [length] in Hf. destruct fuel as [|fuel]; [lia|].
    rewrite lploop_S. replace (c <=? 32)%N with true by lia. apply IH; lia.
  - intros r fuel buf pretty indent tabs nl max depth cr n Hd Hf. cbn [length] in Hf. destruct fuel as [|fuel]; [lia|].
    rewrite lploop_S. change (93 <=? 32)%N with false. change (93 =? 93)%N with true. cbv iota. cbn [tcs map aloop].
    destruct (lclose _ _ _ _ _ _ _ _ _ _) as [b1 nl1]. split; auto. eexists. split; [reflexivity|]. right; reflexivity.
  - intros c s t s' es r Hc1 Hc2 Hs IHs He IHe fuel buf pretty indent tabs nl max depth cr n Hd Hf. cbn [length] in Hf. destruct fuel as [|fuel]; [lia|].
    assert (Hh : depth + height t < 500 /\ depth + esize es < 500) by (cbn [esize fold_right] in Hd; fold (esize es) in Hd; lia).
    rewrite lploop_S. replace (c <=? 32)%N with false by lia. replace (c =? 93)%N with false by lia.
    change (91 =? 91)%N with true. cbn [orb]. cbv zeta. cbn [tcs map aloop]. fold (tcs es).
    destruct (lstart_item prefix pretty indent tabs nl (lcomma width 91 n buf)) as [buf2 nl2].
    unfold lkey. change (91 =? 123)%N with false. cbv beta iota.
    pose proof (IHs fuel buf2 pretty indent (tabs + 1)%Z nl2 max depth (atail (tcs es) cr) ltac:(lia) ltac:(cbn [length]; lia)) as Hsim.
    unfold lsim in Hsim at 1.
    destruct (pt width prefix sort_keys t pretty indent (tabs + 1)%Z nl2 max depth buf2 (atail (tcs es) cr)) as [[[b4 nl4] ok4] ended4].
    destruct Hsim as (-> & r4 & -> & Hr4). fold (stops max ok4).
    destruct (stops max ok4) eqn:Est.
    { split; auto. exists r4. split; auto. left. unfold stops in *. rewrite andb_true_r. apply andb_prop in Est. tauto. }
    destruct Hr4 as [Hr4|Hr4]; [discriminate|]. subst r4. rewrite andb_false_r. cbn [andb].
    pose proof (proj1 sloppy_shorter _ _ _ Hs) as Hl. cbn [length] in Hl. apply IHe; lia.
  - intros c s ms r Hc1 Hc2 Hs IH fuel buf pretty indent tabs nl max depth cr ps n Hd Hf. cbn [length] in Hf. destruct fuel as [|fuel]; [lia|].
    rewrite lploop_S. destruct (c <=? 32)%N; [apply IH; lia|]. replace (c =? 125)%N with false by lia.
    change (123 =? 91)%N with false. replace (c =? 34)%N with false by lia. cbn [orb]. apply IH; lia.
  - intros r fuel buf pretty indent tabs nl max depth cr ps n Hd Hf. cbn [length] in Hf. destruct fuel as [|fuel]; [lia|].
    rewrite lploop_S. change (125 <=? 32)%N with false. change (125 =? 125)%N with true. cbv iota. cbn [tocs map oloop].
    destruct (lclose _ _ _ _ _ _ _ _ _ _) as [b1 nl1]. split; auto. eexists. split; [reflexivity|]. right; reflexivity.
  - intros k s t s' ms r Hk Hs IHs Hm IHm fuel buf pretty indent tabs nl max depth cr ps n Hd Hf.
    assert (Hh : depth + height t < 500 /\ depth + msize ms < 500) by (cbn [msize fold_right] in Hd; fold (msize ms) in Hd; lia).
    unfold quoted in *. cbn [app] in *. rewrite <- app_assoc in *. cbn [app length] in *. rewrite app_length in Hf. cbn [length] in Hf.
    destruct fuel as [|fuel]; [lia|]. 
    rewrite lploop_S. change (34 <=? 32)%N with false. change (34 =? 125)%N with false.
    change ((123 =? 91) || (34 =? 34))%N with true. cbv beta iota zeta. cbn [tocs map oloop]. fold (tocs ms).
    destruct (lstart_item prefix pretty indent tabs nl (lcomma width 123 n buf)) as [buf2 nl2].
    unfold lkey. change (123 =? 123)%N with true. cbv beta iota. unfold lpstr, lname. rewrite quotable_split by auto. cbn [fst snd].
    set (buf3 := buf2 ++ _ ++ _ ++ _).
    pose proof (IHs fuel buf3 pretty indent (tabs + 1)%Z nl2 max depth (otail (tocs ms) cr) ltac:(lia) ltac:(lia)) as Hsim.
    unfold lsim in Hsim at 1. change (buf2 ++ quoted k ++ [58%N] ++ (if pretty then [32%N] else [])) with buf3.
    destruct (pt width prefix sort_keys t pretty indent (tabs + 1)%Z nl2 max depth buf3 (otail (tocs ms) cr)) as [[[b4 nl4] ok4] ended4].
    destruct Hsim as (-> & r4 & -> & Hr4). fold (stops max ok4).
    destruct (stops max ok4) eqn:Est.
    { split; auto. exists r4. split; auto. left. unfold stops in *. rewrite andb_true_r. apply andb_prop in Est. tauto. }
    destruct Hr4 as [Hr4|Hr4]; [discriminate|]. subst r4. rewrite andb_true_r.
    pose proof (proj1 sloppy_shorter _ _ _ Hs) as Hl. apply IHm; lia.
Qed.
End sim.

(* ---------- what is printed ---------- *)

Lemma sloppy_lwf :
  (forall s t r, sloppy s t r -> lwf t) /\
  (forall s es r, elements s es r -> Forall lwf es) /\
  (forall s ms r, members s ms r -> Forall (fun m => lwf (snd m)) ms).
Proof.
  apply sloppy_all; intros; auto; try (constructor; auto; fail).
  constructor. split; [discriminate|]. destruct (app_last_case b) as [->|(b' & x & ->)].
  - cbn [last]. lia.
  - rewrite app_comm_cons, last_last. apply Forall_app in H0 as [_ H0]. inversion H0; subst. unfold ends_number in *. lia.
Qed.

Theorem sloppy_layout s t r o : sloppy s t r -> height t < 500 ->
  pretty_options s o = Ok (page (o_width o) (o_prefix o) (o_indent o) (o_sort o) t).
Proof.
  intros Hs Hh. rewrite pretty_options_spec. f_equal. unfold lpretty, page.
  pose proof (proj1 (sloppy_sim (o_width o) (o_prefix o) (o_sort o)) s t r Hs (8 + 4 * length s)
    (o_prefix o) true (o_indent o) 0%Z 0%Z (-1)%Z 0 [] Hh ltac:(lia)) as H. unfold lsim in H.
  pose proof (proj1 sloppy_lwf _ _ _ Hs) as Hw.
  destruct (pt_lay (o_width o) (o_prefix o) (o_sort o) (o_indent o) t Hw 0 0%Z 0 (o_prefix o) [] Hh) as (nl' & ok & E).
  change (Z.of_nat 0) with 0%Z in E. rewrite Z.sub_0_r in E. rewrite E in H. destruct H as (_ & r' & -> & _).
  pose proof (lay_closed (o_width o) (o_prefix o) (o_sort o) (o_indent o) t 0 (Z.of_nat (length (o_prefix o))) Hw) as [Hne _].
  destruct (o_prefix o ++ layout _ _ _ _ _ _ _) eqn:Ea.
  - apply app_eq_nil in Ea as [_ Ea]. destruct (Hne Ea).
  - rewrite <- Ea, <- app_assoc. reflexivity.
Qed.

(* ---------- only one reading ---------- *)

Lemma quoted_split a b r r' : quotable a -> quotable b -> quoted a ++ r = quoted b ++ r' -> a = b /\ r = r'.
Proof.
  intros Ha Hb E. unfold quoted in E. cbn [app] in E. rewrite <- !app_assoc in E. cbn [app] in E. injection E as E.
  pose proof (quotable_split a r Ha) as H1. rewrite E, (quotable_split b r' Hb) in H1. injection H1 as -> ->. auto.
Qed.

Lemma number_split a b r r' : Forall (fun d => ~ ends_number d) a -> Forall (fun d => ~ ends_number d) b ->
  (forall d x, r = d :: x -> ends_number d) -> (forall d x, r' = d :: x -> ends_number d) -> a ++ r = b ++ r' -> a = b /\ r = r'.
Proof.
  intros Ha. revert b. induction Ha as [|x a Hx Ha IH]; intros b Hb H1 H2 E.
  - destruct Hb as [|y b Hy Hb]; [auto|]. cbn [app] in E. destruct Hy. eapply H1. exact E.
  - destruct Hb as [|y b Hy Hb].
    + cbn [app] in E. destruct Hx. eapply H2. symmetry; exact E.
    + cbn [app] in E. injection E as -> E. destruct (IH b Hb H1 H2 E) as [-> ->]. auto.
Qed.
Lemma spent_split n x y r r' : spent n x r -> spent n y r' -> x ++ r = y ++ r' -> r = r'.
Proof.
  intros H1 H2 E. pose proof (spent_skip n 0%N x r H1) as E1. rewrite E in E1. rewrite (spent_skip n 0%N y r' H2) in E1. auto.
Qed.

Ltac nobegin := match goal with H : ~ begins_value ?c |- _ => exfalso; apply H; unfold begins_value; lia end.

Lemma sloppy_once :
  (forall s t r, sloppy s t r -> forall t' r', sloppy s t' r' -> t = t' /\ r = r') /\
  (forall s es r, elements s es r -> forall es' r', elements s es' r' -> es = es' /\ r = r') /\
  (forall s ms r, members s ms r -> forall ms' r', members s ms' r' -> ms = ms' /\ r = r').
Proof.
  apply sloppy_all.
  - intros c s t r Hc Hs IH t' r' H. inversion H; subst; try nobegin. auto.
  - intros b r Hb t' r' H. remember (quoted b ++ r) as s eqn:Es.
    destruct H as [c s t' r' Hc H|b' r' Hb'|c b' r' Hc Hb' Hr'|x r' Hx|x r' Hx|x r' Hx|s es r' H|s ms r' H]; try discriminate Es.
    + injection Es as -> _. nobegin.
    + destruct (quoted_split b' b r' r Hb' Hb Es) as [-> ->]; auto.
    + injection Es as -> _. lia.
  - intros c b r Hc Hb Hr t' r' H. inversion H as [| |c' b' ? Hc' Hb' Hr' E|? ? ? E|? ? ? E|? ? ? E|? ? ? ? E|? ? ? ? E]; subst; try nobegin; try lia.
    destruct (number_split b' b r' r) as [-> ->]; auto.
  - intros x r Hx t' r' H. inversion H as [| |c' b' ? Hc' Hb' Hr' E|x' ? Hx' E| | | |]; subst; try nobegin; try lia.
    rewrite (spent_split 3 x x' r r'); auto.
  - intros x r Hx t' r' H. inversion H as [| |c' b' ? Hc' Hb' Hr' E| |x' ? Hx' E| | |]; subst; try nobegin; try lia.
    rewrite (spent_split 4 x x' r r'); auto.
  - intros x r Hx t' r' H. inversion H as [| |c' b' ? Hc' Hb' Hr' E| | |x' ? Hx' E| |]; subst; try nobegin; try lia.
    rewrite (spent_split 3 x x' r r'); auto.
  - intros s es r Hs IH t' r' H. inversion H as [| |c' b' ? Hc' Hb' Hr' E| | | |? es' ? Hs'|]; subst; try nobegin; try lia.
    destruct (IH _ _ Hs') as [-> ->]; auto.
  - intros s ms r Hs IH t' r' H. inversion H as [| |c' b' ? Hc' Hb' Hr' E| | | | |? ms' ? Hs']; subst; try nobegin; try lia.
    destruct (IH _ _ Hs') as [-> ->]; auto.
  - intros c s es r Hc Hs IH es' r' H. inversion H; subst; try lia. auto.
  - intros r es' r' H. inversion H; subst; try lia. auto.
  - intros c s t s' es r Hc1 Hc2 Hs IHs He IHe es' r' H. inversion H as [|?|? ? t2 s2 es2 ? ? ? Hs2 He2]; subst; try lia.
    destruct (IHs _ _ Hs2) as [-> ->]. destruct (IHe _ _ He2) as [-> ->]. auto.
  - intros c s ms r Hc1 Hc2 Hs IH ms' r' H. inversion H; subst; try congruence. auto.
  - intros r ms' r' H. inversion H; subst; try congruence. auto.
  - intros k s t s' ms r Hk Hs IHs Hm IHm ms' r' H. inversion H as [? ? ? ? Hc1|?|k2 s2 t2 s2' ms2 ? Hk2 Hs2 Hm2 E]; subst; try congruence.
    destruct (quoted_split k2 k s2 s Hk2 Hk) as [-> ->]; [unfold quoted; cbn [app]; rewrite E; reflexivity|]. destruct (IHs _ _ Hs2) as [-> ->]. destruct (IHm _ _ Hm2) as [-> ->]. auto.
Qed.

(* ---------- documents ---------- *)

Lemma sloppy_ws w s t r : ws w -> sloppy s t r -> sloppy (w ++ s) t r.
Proof.
  induction 1 as [|c w Hc _ IH]; auto. intros H. cbn [app]. apply sl_junk; auto. unfold ws_byte in Hc. unfold begins_value. lia.
Qed.
Lemma elements_ws w s es r : ws w -> elements s es r -> elements (w ++ s) es r.
Proof.
  induction 1 as [|c w Hc _ IH]; auto. intros H. cbn [app]. apply el_blank; auto. unfold ws_byte in Hc. lia.
Qed.
Lemma members_ws w s ms r : ws w -> members s ms r -> members (w ++ s) ms r.
Proof.
  induction 1 as [|c w Hc _ IH]; auto. intros H. cbn [app]. apply mb_junk; auto; unfold ws_byte in Hc; lia.
Qed.
Lemma render_start c : wf c -> exists h u, render c = h :: u /\ (32 < h)%N /\ h <> 93%N.
Proof.
  intros Hc. destruct c as [ | | |n|b|w es|w ms]; try (do 2 eexists; split; [reflexivity|]; lia).
  inversion Hc; subst. destruct (number_head n) as (h & t & -> & Hh); auto. exists h, t. cbn [render]. split; auto. lia.
Qed.

Lemma render_sloppy c : wf c -> forall r, follow r -> sloppy (render c ++ r) (erase c) r.
Proof.
  induction c as [ | | |n|b|w es IH|w ms IH] using cst_ind'; intros H r Hr; inversion H; subst; cbn [erase].
  - apply (sl_null [117; 108; 108]%N). left; reflexivity.
  - apply (sl_true [114; 117; 101]%N). left; reflexivity.
  - apply (sl_false [97; 108; 115; 101]%N). left; reflexivity.
  - destruct (number_head n) as (h & t & -> & Hh); auto. cbn [render app].
    pose proof (number_numish _ H1) as Hn. inversion Hn; subst. apply sl_number; auto.
    + revert H4. apply Forall_impl. intros d Hd. unfold numish, numch in Hd. unfold ends_number. lia.
    + intros d r' ->. simpl in Hr. unfold follow_byte, ws_byte in Hr. unfold ends_number. lia.
  - apply sl_string, chars_quotable; auto.
  - cbn [render app]. apply sl_array. rewrite <- !app_assoc. apply elements_ws; auto. cbn [app].
    rename H3 into Hes.
    clear H.
    assert (Hfst : forall es, Forall wf_item es ->
      Forall (fun x => wf (i_val x) -> forall r, follow r -> sloppy (render (i_val x) ++ r) (erase (i_val x)) r) es ->
      elements (match es with [] => [] | _ => 44%N :: commas (map (render_item render) es) end ++ 93%N :: r)
        (map (fun e => match e with Item _ v _ => erase v end) es) r /\
      elements (commas (map (render_item render) es) ++ 93%N :: r)
        (map (fun e => match e with Item _ v _ => erase v end) es) r).
    { clear es Hes IH. intros es Hes IH. induction es as [|[a v b] es IHes]; cbn [map].
      - split; apply el_close.
      - inversion Hes as [|? ? Hi Hes']; subst. inversion Hi as [? ? ? Ha Hv Hb]; subst. inversion IH as [|? ? IHv IH']; subst. cbn [i_val m_val] in IHv.
        destruct (IHes Hes' IH') as [He _].
        set (tl := match es with [] => [] | _ => 44%N :: commas (map (render_item render) es) end ++ 93%N :: r) in *.
        assert (Ec : commas (render_item render (Item a v b) :: map (render_item render) es) ++ 93%N :: r = a ++ render v ++ b ++ tl).
        { unfold tl. destruct es as [|e es]; cbn [map commas render_item app]; rewrite <- ?app_assoc; cbn [app]; reflexivity. }
        assert (Hf : follow tl).
        { unfold tl. destruct es; cbn [app follow]; unfold follow_byte; auto. }
        assert (Hs : sloppy (render v ++ b ++ tl) (erase v) (b ++ tl)) by (apply IHv; auto using follow_ws).
        assert (He' : elements (b ++ tl) (map (fun e => match e with Item _ v _ => erase v end) es) r) by (apply elements_ws; auto).
        split.
        + change ((44%N :: commas (render_item render (Item a v b) :: map (render_item render) es)) ++ 93%N :: r)
            with (44%N :: (commas (render_item render (Item a v b) :: map (render_item render) es) ++ 93%N :: r)).
          rewrite Ec. apply (el_value 44%N _ _ (b ++ tl)); try lia; auto. apply sl_junk; [unfold begins_value; lia|].
          apply sloppy_ws; auto.
        + rewrite Ec. apply elements_ws; auto. destruct (render_start v Hv) as (h & u & E & Hh1 & Hh2). rewrite E in *. cbn [app] in *.
          eapply el_value; eauto. }
    apply (proj2 (Hfst es Hes IH)).
  - cbn [render app]. apply sl_object. rewrite <- !app_assoc. apply members_ws; auto. cbn [app].
    rename H3 into Hms. clear H.
    induction ms as [|[a k b c v d] ms IHms]; cbn [map].
    + apply mb_close.
    + inversion Hms as [|? ? Hi Hms']; subst. inversion Hi as [? ? ? ? ? ? Ha Hk Hb Hc Hv Hd]; subst. inversion IH as [|? ? IHv IH']; subst. cbn [i_val m_val] in IHv.
      pose proof (IHms IH' Hms') as He.
      set (tl := match ms with [] => [] | _ => 44%N :: commas (map (render_memb render) ms) end ++ 125%N :: r).
      assert (Ec : commas (render_memb render (Memb a k b c v d) :: map (render_memb render) ms) ++ 125%N :: r
         = a ++ quoted k ++ b ++ 58%N :: c ++ render v ++ d ++ tl).
      { unfold tl. destruct ms as [|e ms]; cbn [map commas render_memb app]; repeat (rewrite <- ?app_assoc; cbn [app]); reflexivity. }
      rewrite Ec. apply members_ws; auto.
      assert (Hf : follow tl) by (unfold tl; destruct ms; cbn [app follow]; unfold follow_byte; auto).
      apply (mb_member k _ _ (d ++ tl)); [apply chars_quotable; auto | |].
      * apply sloppy_ws; auto. apply sl_junk; [unfold begins_value; lia|]. apply sloppy_ws; auto.
        apply IHv; auto using follow_ws.
      * apply members_ws; auto. unfold tl. destruct ms as [|e ms]; [exact He|]. cbn [app]. apply mb_junk; try lia. exact He.
Qed.

Theorem reads_sloppy s t : reads s t -> exists r, ws r /\ sloppy s t r.
Proof.
  intros (w1 & c & w2 & H1 & Hc & H2 & -> & <-). exists w2. split; auto. apply sloppy_ws; auto. apply render_sloppy; auto.
  rewrite <- (app_nil_r w2). apply follow_ws; auto. exact I.
Qed.

(** No value at all. *)
Theorem nothing_printed s o : Forall (fun c => ~ begins_value c) s ->
  pretty_options s o = Ok (match o_prefix o with [] => [] | p => p ++ [10%N] end).
Proof.
  intros H. rewrite pretty_options_spec. f_equal. unfold lpretty.
  assert (E : dropw starts_value s = []).
  { induction H as [|c s Hc _ IH]; auto. cbn [dropw]. rewrite begins_start; auto. }
  change (8 + 4 * length s) with (S (7 + 4 * length s)). rewrite lpany_S, E. cbn [app]. destruct (o_prefix o); reflexivity.
Qed.
