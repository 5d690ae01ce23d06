(** The modifiers keep what [P_Keep] carries through a path. *)
From Verif Require Import P_Base P_Json P_Valid P_ValidSpec P_Str P_Glob P_Scan P_Each P_Doc P_Path P_LGet P_Parts P_Ext P_Total P_Value P_Num
  P_Key P_Find P_GetDoc P_GetArr P_Stream P_Closed P_Pretty P_Ugly P_Good P_ModDoc P_ModFlat P_Keep M_Util M_Num M_Scan M_Value M_Path M_Get S_Json S_Get S_Path.

(** Between two values only blanks, commas and colons are passed over. *)
Lemma items_gap l x r : items l = x :: r -> exists g, l = g ++ x /\ Forall (fun c => skip_sep c = true) g.
Proof.
  revert x r. induction l as [l IH] using (induction_ltof1 _ (@length N)). unfold ltof in IH.
  intros x r. destruct l as [|c t]; [discriminate|]. rewrite items_cons. destruct (skip_sep c) eqn:Es.
  { intros H. apply IH in H as (g & -> & Hg); [|cbn [length]; lia]. exists (c :: g). split; [reflexivity | constructor; auto]. }
  destruct (end_item c); [discriminate|]. destruct (v_exists (fval (c :: t) (c :: t))) eqn:E.
  - intros H. injection H as <- <-. exists []. split; [reflexivity | constructor].
  - intros H. exfalso. assert (Hr : lrest (c :: t) = []).
    { assert (E' : linfo (c :: t) = 0%N \/ ltext (c :: t) = []).
      { unfold v_exists, fval in E. destruct (linfo (c :: t) =? 0)%N eqn:E0; [left; apply N.eqb_eq, E0|]. right.
        unfold mkslice, v_json in E. cbn [v_owned v_slice] in E. destruct (ltext (c :: t)); auto. discriminate. }
      clear - E'. unfold lrest, linfo, ltext in *. revert E'. unfold lflat.
      destruct (c =? 34)%N.
      { destruct (split_str t) as [[b u]|]; auto. cbn [fst snd]. unfold esc_info. destruct (hasbsl b); intros [H|H]; discriminate. }
      destruct ((c =? 123) || (c =? 91))%N eqn:Ec.
      { destruct (sq false 0 t) as [u|] eqn:Eq; auto. cbn [fst snd]. apply sq_suf in Eq as (z & _ & ->).
        change (c :: z ++ u) with ((c :: z) ++ u). rewrite upto_app. destruct (c =? 123)%N; intros [H|H]; discriminate. }
      destruct (((48 <=? c) && (c <=? 57)) || (c =? 45))%N.
      { cbn [fst snd]. intros [H|H]; [|discriminate]. apply N.lor_eq_0_iff in H as [_ H]. discriminate. }
      assert (Hl : forall n k, k <> 0%N -> snd (fst (llit (S n) k (c :: t))) = 0%N \/ fst (fst (llit (S n) k (c :: t))) = [] ->
        snd (llit (S n) k (c :: t)) = []).
      { intros n k Hk. unfold llit. destruct (length (c :: t) <? S n); auto. cbn [fst snd firstn]. intros [H|H]; [contradiction | discriminate]. }
      destruct (c =? 116)%N; [apply Hl; discriminate|].
      destruct (c =? 102)%N; [apply Hl; discriminate|].
      destruct (c =? 110)%N; [apply Hl; discriminate|]. reflexivity. }
    rewrite Hr in H. discriminate.
Qed.

Lemma items_next l x y : In (x, y) (pair_up (items l)) ->
  exists g, lrest x = g ++ y /\ Forall (fun c => skip_sep c = true) g.
Proof.
  revert x y. induction l as [l IH] using (induction_ltof1 _ (@length N)). unfold ltof in IH. intros x y.
  destruct (items l) as [|a r] eqn:Ea; [contradiction|].
  apply items_tail in Ea as (Ha & Hane & Hae & ->).
  destruct (items (lrest a)) as [|b r] eqn:Eb; [contradiction|].
  pose proof (items_gap _ _ _ Eb) as Hg.
  apply items_tail in Eb as (Hb & Hbne & Hbe & ->). cbn [pair_up].
  destruct (lrest_suf a) as [Hsa Hla]. specialize (Hla Hane).
  destruct (lrest_suf b) as [Hsb Hlb]. specialize (Hlb Hbne).
  pose proof (suf_length _ _ Ha). pose proof (suf_length _ _ Hb).
  intros [H1|H1].
  - injection H1 as <- <-. exact Hg.
  - apply IH in H1; auto. lia.
Qed.

Lemma commas_snoc l x : l <> [] -> commas (l ++ [x]) = commas l ++ 44%N :: x.
Proof.
  induction l as [|a l IH]; [congruence|]. intros _. destruct l as [|b l]; [reflexivity|].
  cbn [app]. change (commas (a :: b :: l ++ [x])) with (a ++ 44%N :: commas ((b :: l) ++ [x])). rewrite IH by discriminate.
  change (commas (a :: b :: l)) with (a ++ 44%N :: commas (b :: l)). rewrite <- app_assoc. reflexivity.
Qed.

(** An element that is an array or an object stands between brackets. *)
Lemma sq_end : forall n q d t r, length t < n -> sq q d t = Some r -> exists a e, t = a ++ e :: r /\ is_close e = true.
Proof.
  induction n as [|n IH]; intros q d t r Hn; [lia|]. destruct t as [|c t]; [discriminate|]. cbn [sq length] in *.
  assert (Hc : forall q' d', sq q' d' t = Some r -> exists a e, c :: t = a ++ e :: r /\ is_close e = true).
  { intros q' d' H. apply IH in H as (a & e & -> & He); [|lia]. exists (c :: a), e. auto. }
  destruct (c =? 92)%N.
  { destruct t as [|b t]; [discriminate|]. intros H. cbn [length] in Hn. apply IH in H as (a & e & -> & He); [|lia]. exists (c :: b :: a), e. auto. }
  destruct (c =? 34)%N; [apply Hc|]. destruct q; [apply Hc|]. destruct (is_open c); [apply Hc|].
  destruct (is_close c) eqn:Ec; [|apply Hc]. destruct d; [|apply Hc]. intros [= ->]. exists [], c. auto.
Qed.

Lemma fval_open s x k : v_exists (fval s x) = true -> v_kind (fval s x) = k -> k = KArray \/ k = KObject ->
  exists q e, ltext x = (if kind_eqb k KArray then 91 else 123)%N :: q ++ [e] /\ (32 < e)%N.
Proof.
  intros He Hk Hor. unfold fval in *. destruct (linfo x =? 0)%N; [discriminate|].
  assert (Hk' : kindmap (N.land (linfo x) 255) = k) by exact Hk. clear Hk.
  assert (Hne : ltext x <> []).
  { unfold v_exists, v_json, mkslice in He. cbn [v_owned v_slice] in He. destruct (ltext x); discriminate. }
  clear He. destruct x as [|c t]; [exfalso; apply Hne; reflexivity|].
  revert Hk' Hne. unfold linfo, ltext, lflat. destruct (c =? 34)%N.
  { intros H. exfalso. destruct (split_str t) as [[b r]|]; cbn [fst snd] in H; [unfold esc_info in H; destruct (hasbsl b)|]; cbn in H; subst k; destruct Hor; discriminate. }
  destruct ((c =? 123) || (c =? 91))%N eqn:Ec.
  { destruct (sq false 0 t) as [r|] eqn:Es; cbn [fst snd]; [|congruence]. apply (sq_end (S (length t))) in Es as (a & e & -> & He); [|lia].
    intros Hk _. replace (c :: a ++ e :: r) with ((c :: a ++ [e]) ++ r) by (cbn [app]; rewrite <- app_assoc; reflexivity).
    rewrite upto_app. exists a, e. split; [|unfold is_close in He; lia]. f_equal.
    destruct (c =? 123)%N eqn:E1; cbn in Hk; subst k;  [change (c = 123%N) | change (c = 91%N)]; lia. }
  destruct (((48 <=? c) && (c <=? 57)) || (c =? 45))%N.
  { cbn [fst snd]. rewrite land_lor_num. rewrite num_info_low; [|unfold sign_info; destruct (c =? 45)%N; reflexivity].
    intros H. exfalso. cbn in H. subst k. destruct Hor; discriminate. }
  assert (Hl : forall (n : nat) i, k = kindmap (N.land i 255) \/ k = KNull -> In i [INFO_TRUE; INFO_FALSE; INFO_NULL] -> False).
  { intros n i [->| ->] Hi; [|destruct Hor; discriminate]. cbn [In] in Hi. destruct Hi as [<-|[<-|[<-|[]]]]; cbn in Hor; destruct Hor; discriminate. }
  unfold llit. intros H. exfalso.
  destruct (c =? 116)%N; [apply (Hl 0 INFO_TRUE); [destruct (_ <? 4); cbn [fst snd] in H; auto | cbn [In]; tauto]|].
  destruct (c =? 102)%N; [apply (Hl 0 INFO_FALSE); [destruct (_ <? 5); cbn [fst snd] in H; auto | cbn [In]; tauto]|].
  destruct (c =? 110)%N; [apply (Hl 0 INFO_NULL); [destruct (_ <? 4); cbn [fst snd] in H; auto | cbn [In]; tauto]|].
  cbn in H. subst k. destruct Hor; discriminate.
Qed.

Lemma in_pair_up {A} (l : list A) x y : In (x, y) (pair_up l) -> In x l /\ In y l.
Proof.
  assert (H : forall n l, length l < n -> In (x, y) (pair_up l) -> In x l /\ In y l).
  { clear l. induction n as [|n IH]; intros l Hn; [lia|]. destruct l as [|a [|b t]]; try contradiction. cbn [length] in Hn.
    cbn [pair_up In]. intros [[= <- <-]|Hi]; auto. apply IH in Hi as [H1 H2]; [auto|lia]. }
  apply (H (S (length l))). lia.
Qed.

Lemma run_kept {S A} (J : S -> Prop) (step : S -> A -> R (S * bool)) l st st' :
  (forall s a s' b, In a l -> J s -> step s a = Ok (s', b) -> J s') -> J st -> run step st l = Ok st' -> J st'.
Proof.
  intros H. revert st. induction l as [|a l IH]; intros st Hi; cbn [run]; [intros [= <-]; exact Hi|].
  intros E. apply bind_ok in E as ([s' b] & E1 & E). assert (Hs : J s') by (eapply H; eauto; left; reflexivity).
  destruct b; [|injection E as <-; exact Hs]. eapply IH; eauto. intros. eapply H; eauto. right; auto.
Qed.
Lemma parse_not_quote json : v_kind (lparse json) = KArray \/ v_kind (lparse json) = KObject ->
  forall c t, v_json (lparse json) = c :: t -> c <> 34%N.
Proof.
  intros Hk c t E ->. unfold lparse in *. cbv zeta in *. destruct (dropw above_sp json) as [|d u]; [discriminate|].
  destruct (d =? 123)%N eqn:E1; [injection E as -> _; discriminate|]. destruct (d =? 91)%N eqn:E2; [injection E as -> _; discriminate|].
  assert (He : v_exists (fval json (d :: u)) = true) by (unfold v_exists; rewrite E; reflexivity).
  destruct (fval_open _ _ _ He eq_refl Hk) as (q & e & E' & _). rewrite (proj1 (fval_json _ _ He)), E' in E.
  destruct (kind_eqb _ _); discriminate.
Qed.

Lemma slice_span s a b c : s = a ++ b ++ c -> slice s (length a) (length a + length b) = Ok b.
Proof.
  intros ->. unfold slice. rewrite !app_length. replace (length a <=? length a + length b) with true by (symmetry; apply Nat.leb_le; lia).
  replace (length a + length b <=? length a + (length b + length c)) with true by (symmetry; apply Nat.leb_le; lia). cbn [andb].
  f_equal. rewrite skipn_app, skipn_all, Nat.sub_diag. cbn [app skipn]. replace (length a + length b - length a) with (length b) by lia.
  rewrite firstn_app, firstn_all, Nat.sub_diag. cbn [firstn]. apply app_nil_r.
Qed.

Section KeepMod.
Context (I : bytes -> Prop).
Context (I_nil : I []).
Context (I_tail : forall c t, c <> 34%N -> I (c :: t) -> I t).
Context (I_flat : forall l, I l -> I (ltext l) /\ I (lrest l)).
Context (I_arr : forall l, Forall I l -> I (91%N :: commas l ++ [93%N])).
Context (I_commas : forall l, Forall I l -> I (commas l)).
Context (I_brace : forall l, Forall I l -> I (123%N :: commas l ++ [125%N])).
Context (I_pair : forall k v, I k -> I v -> I (k ++ 58%N :: v)).
Context (I_inner : forall l c q e, I l -> (c = 91 \/ c = 123)%N -> ltext l = c :: q ++ [e] -> I q).
Context (I_span : forall x g y, I x -> ltext x <> [] -> ltext y <> [] -> lrest x = g ++ y -> Forall (fun c => skip_sep c = true) g ->
  I (ltext x ++ g ++ ltext y)).
Context (I_ugly : forall l, I l -> I (lugly l)).
Notation kept := (kept I).

(** The commas between the pieces, counted. *)
Definition piled (o : N) (st : bytes * nat) : Prop :=
  exists l, Forall I l /\ fst st = o :: commas l /\ snd st = length l.
Lemma piled_start o : piled o ([o], 0).
Proof. exists []. repeat split; auto. Qed.
Lemma piled_push o out n u : I u -> piled o (out, n) -> piled o ((if 0 <? n then out ++ [44%N] else out) ++ u, n + 1).
Proof.
  intros Hu (l & Hl & E1 & E2). cbn [fst snd] in *. subst out n. exists (l ++ [u]). split; [apply Forall_app; auto|].
  cbn [fst snd]. split; [|rewrite app_length; reflexivity]. destruct l as [|a l]; [reflexivity|].
  replace (0 <? length (a :: l)) with true by reflexivity. rewrite commas_snoc by discriminate.
  cbn [app]. rewrite <- app_assoc. reflexivity.
Qed.

Lemma kept_items s : I s -> (forall c t, s = c :: t -> c <> 34%N) -> Forall I (items (tl s)).
Proof.
  intros H Hc. apply (I_items I); auto. destruct s as [|c t]; auto. cbn [tl]. eapply I_tail; eauto.
Qed.

Lemma kept_parse json : I json -> kept (lparse json).
Proof.
  intros H. assert (Hd : I (dropw above_sp json)).
  { apply (I_dropw I); auto. intros c Hc ->. discriminate. }
  unfold lparse. cbv zeta. destruct (dropw above_sp json) as [|c t]; [apply kept_default, I_nil|].
  destruct (c =? 123)%N; [split; [right; reflexivity | exact Hd]|].
  destruct (c =? 91)%N; [split; [right; reflexivity | exact Hd]|]. apply (I_fval I); auto.
Qed.


(** What an element is, in terms of the piece of text it is. *)
Definition at_piece (s : bytes) (v : value) : Prop :=
  exists x, I x /\ suf x s /\ v = fval s x /\ v_exists v = true.
Lemma at_kept s v : at_piece s v -> I (v_json v) /\ v_slice v = v_json v.
Proof.
  intros (x & Hx & _ & -> & He). destruct (fval_json _ _ He) as [-> Hn]. split; [apply I_flat, Hx|]. apply fval_slice, He.
Qed.
Lemma at_open s v : at_piece s v -> v_kind v = KArray \/ v_kind v = KObject ->
  exists q e, v_json v = (if kind_eqb (v_kind v) KArray then 91 else 123)%N :: q ++ [e] /\ (32 < e)%N /\ I q.
Proof.
  intros (x & Hx & _ & -> & He) Hk. destruct (fval_open _ _ _ He eq_refl Hk) as (q & e & E & H32). exists q, e.
  rewrite (proj1 (fval_json _ _ He)). split; [exact E|]. split; [exact H32|]. eapply (I_inner x); [exact Hx | | exact E]. destruct (kind_eqb _ _); auto.
Qed.

Lemma each_kept {S} (J : S -> Prop) v (step : S -> value -> value -> R (S * bool)) st st' :
  (v_kind v = KArray \/ v_kind v = KObject) -> I (v_json v) -> (forall c t, v_json v = c :: t -> c <> 34%N) ->
  (forall st k x st' b, (k = value_default /\ v_kind v = KArray) \/ at_piece (v_json v) k -> at_piece (v_json v) x -> J st ->
    step st k x = Ok (st', b) -> J st') ->
  J st -> v_each v step st = Ok st' -> J st'.
Proof.
  intros Hk Hv Hc H Hi. rewrite v_each_spec. destruct (negb (v_exists v)); [intros [= <-]; auto|].
  pose proof (kept_items _ Hv Hc) as Hit. rewrite Forall_forall in Hit.
  assert (Hs : suf (tl (v_json v)) (v_json v)) by (destruct (v_json v); [apply suf_refl | apply suf_cons]).
  assert (Hin : forall y, In y (items (tl (v_json v))) -> at_piece (v_json v) (fval (v_json v) y)).
  { intros y Hy. exists y. pose proof (items_suf _ _ Hy) as (Hy1 & _ & He). repeat split; auto. eapply suf_trans; eauto. rewrite fval_exists. exact He. }
  destruct Hk as [Ek|Ek]; rewrite Ek.
  - apply run_kept; auto. intros s x s' b Hx. apply in_map_iff in Hx as (y & <- & Hy). apply H; auto.
  - apply run_kept; auto. intros s kv s' b Hx. rewrite pair_up_map in Hx. apply in_map_iff in Hx as ([x y] & <- & Hy). cbn [fst snd].
    apply in_pair_up in Hy as [Hx' Hy']. apply H; auto.
Qed.



Lemma reverse_kept json o : I json -> mod_reverse json = Ok o -> I o.
Proof.
  intros H. unfold mod_reverse. rewrite parse_spec. cbn [bind]. set (res := lparse json).
  destruct (kept_parse json H) as [_ Hr]. fold res in Hr. pose proof (lparse_slice json) as Es. fold res in Es.
  rewrite <- Es. assert (Hq := parse_not_quote json). fold res in Hq.
  assert (Hdone : forall l, Forall I l -> Forall I (rev l)) by (intros; apply Forall_rev; auto).
  destruct (v_kind res) eqn:Ek; try (intros [= <-]; exact Hr).
  - intros E. apply bind_ok in E as (sl & E & Eo). injection Eo as <-. rewrite join_commas_eq. apply I_arr, Hdone.
    revert E. apply (each_kept (Forall I)); [left; exact Ek | exact Hr | apply Hq; left; reflexivity | | constructor].
    intros acc k x acc' b _ (y & Hy & Hs & -> & He) Ha E. rewrite fval_index in E by auto. cbn [unwrap_opt bind] in E.
    destruct (fval_slice _ _ He) as [E1 Hn]. rewrite E1 in E. destruct Hs as [a Hs].
    rewrite (ltext_app y Hn) in Hs.
    replace (pos (v_json res) y) with (length a) in E 
      by (unfold pos; pose proof (f_equal (@length N) Hs) as L1; pose proof (f_equal (@length N) (ltext_app y Hn)) as L2; rewrite !app_length in L1; rewrite !app_length in L2; lia).
    rewrite (slice_span _ _ _ _ Hs) in E. cbn [bind] in E. injection E as <- <-. apply Forall_app. split; [exact Ha|]. constructor; [apply I_flat, Hy | constructor].
  - intros E. apply bind_ok in E as (sl & E & Eo). injection Eo as <-. rewrite join_commas_eq. apply I_brace, Hdone.
    revert E. rewrite v_each_spec, Ek. destruct (negb (v_exists res)); [intros [= <-]; constructor|].
    pose proof (kept_items _ Hr (Hq ltac:(right; reflexivity))) as Hit. rewrite Forall_forall in Hit.
    apply run_kept; [|constructor]. intros acc kv acc' b Hin Ha E. rewrite pair_up_map in Hin. apply in_map_iff in Hin as ([x y] & <- & Hxy). cbn [fst snd] in E.
    pose proof (items_next _ _ _ Hxy) as (g & Eg & Hg). pose proof (in_pair_up _ _ _ Hxy) as [Hx Hy].
    apply items_pairs in Hxy as (Sx & Sy & He & Hf). rewrite <- (fval_exists (v_json res)) in He. rewrite <- (fval_exists (v_json res)) in Hf.
    rewrite !fval_index in E by auto. cbn [unwrap_opt bind] in E.
    destruct (fval_slice _ _ He) as [_ Hn1]. destruct (fval_slice _ _ Hf) as [E2 Hn2]. rewrite E2 in E.
    assert (Hxs : suf x (v_json res)) by (eapply suf_trans; [exact Sx|]; destruct (v_json res); [apply suf_refl | apply suf_cons]).
    destruct Hxs as [a Hs].
    assert (Ex : x = ltext x ++ g ++ ltext y ++ lrest y) by (rewrite (ltext_app x Hn1) at 1; rewrite Eg; rewrite (ltext_app y Hn2) at 1; reflexivity).
    assert (Hs' : v_json res = a ++ (ltext x ++ g ++ ltext y) ++ lrest y) by (rewrite Hs, Ex at 1; rewrite <- !app_assoc; reflexivity).
    replace (pos (v_json res) x) with (length a) in E by (unfold pos; rewrite Hs, app_length; lia).
    replace (pos (v_json res) y + length (ltext y)) with (length a + length (ltext x ++ g ++ ltext y)) in E.
    2: { unfold pos. pose proof (f_equal (@length N) Hs') as L. pose proof (f_equal (@length N) (ltext_app y Hn2)) as L2.
         rewrite !app_length in L; rewrite !app_length in L2; rewrite !app_length. lia. }
    rewrite (slice_span _ _ _ _ Hs') in E. cbn [bind] in E. injection E as <- <-. apply Forall_app. split; [exact Ha|]. constructor; [|constructor].
    apply I_span; auto.
Qed.

Lemma flatten_kept g arg : forall fuel json o, I json -> mod_flatten fuel g json arg = Ok o ->
  I o /\ (v_kind (lparse json) = KArray -> exists l, Forall I l /\ o = 91%N :: commas l ++ [93%N]).
Proof.
  induction fuel as [|fuel IH]; intros json o H; [discriminate|]. cbn [mod_flatten]. rewrite parse_spec. cbn [bind].
  set (res := lparse json). destruct (kept_parse json H) as [_ Hr]. fold res in Hr.
  destruct (negb (kind_eqb (v_kind res) KArray)) eqn:Ek.
  { intros [= <-]. split; auto. intros Hk. rewrite Hk in Ek. discriminate. }
  apply kind_eqb_neg in Ek. intros E. apply bind_ok in E as (dv & _ & E). apply bind_ok in E as (deep & _ & E).
  apply bind_ok in E as ([out n] & E & Eo). injection Eo as <-.
  assert (Hp : piled 91 (out, n)).
  { revert E. apply (each_kept (piled 91)); [left; exact Ek | exact Hr | apply (parse_not_quote json); left; exact Ek | | apply piled_start].
    intros [o m] k x st' b _ Hx Hst E. apply bind_ok in E as (raw & Eraw & E).
    assert (Hraw : I raw).
    { destruct (kind_eqb (v_kind x) KArray) eqn:Ex.
      - apply kind_eqb_eq in Ex. destruct (at_open _ _ Hx (or_introl Ex)) as (q & e & Ej & He & Hq). rewrite Ex in Ej. cbn in Ej.
        destruct deep.
        + apply bind_ok in Eraw as (f & Ef & Eu). apply IH in Ef as [_ Hf]; [|apply (at_kept _ _ Hx)].
          destruct Hf as (l & Hl & ->).
          { rewrite Ej. reflexivity. }
          rewrite unwrap_caps in Eu by (auto; lia). injection Eu as <-. auto.
        + rewrite Ej, unwrap_caps in Eraw by auto. injection Eraw as <-. exact Hq.
      - injection Eraw as <-. destruct (at_kept _ _ Hx) as [H1 ->]. exact H1. }
    destruct raw as [|a u]; injection E as <- <-; [exact Hst|]. apply piled_push; auto. }
  destruct Hp as (l & Hl & E1 & _). cbn [fst] in E1. subst out. split; [apply I_arr, Hl|]. intros _. exists l. auto.
Qed.

Lemma join_out_shape kvals : forall keys first o, join_out first keys kvals = Ok o ->
  exists l, Forall (fun x => exists kj kt v, In (kj, kt) keys /\ map_get kt kvals = Some v /\ x = kj ++ 58%N :: v) l /\
    o = (if first then [] else match l with [] => [] | _ => [44%N] end) ++ commas l.
Proof.
  induction keys as [|[kj kt] keys IH]; intros first o; cbn [join_out].
  - intros [= <-]. exists []. split; [constructor | destruct first; reflexivity].
  - destruct (map_get kt kvals) as [v|] eqn:Ev; [|discriminate]. intros E. apply bind_ok in E as (r & Er & E). injection E as <-.
    apply IH in Er as (l & Hl & ->). exists ((kj ++ 58%N :: v) :: l). split.
    + constructor; [exists kj, kt, v; repeat split; auto; left; reflexivity|].
      eapply Forall_impl; [|exact Hl]. intros x (kj' & kt' & v' & H1 & H2). exists kj', kt', v'. split; auto. right; auto.
    + destruct l as [|y l]; cbn [app]; [rewrite app_nil_r; destruct first; reflexivity|].
      change (commas ((kj ++ 58%N :: v) :: y :: l)) with ((kj ++ 58%N :: v) ++ 44%N :: commas (y :: l)).
      destruct first; cbn [app]; rewrite <- app_assoc; reflexivity.
Qed.

Definition joined (st : list (bytes * bytes) * list (bytes * bytes)) : Prop :=
  Forall (fun x => I (fst x)) (fst st) /\ Forall (fun x => I (snd x)) (snd st).
Lemma map_insert_kept k v m : I v -> Forall (fun x : bytes * bytes => I (snd x)) m -> Forall (fun x => I (snd x)) (map_insert k v m).
Proof.
  intros Hv. induction 1 as [|[k' v'] m H1 H2 IH]; cbn [map_insert]; [constructor; auto|].
  destruct (beq k k'); constructor; auto.
Qed.
Lemma map_get_kept k v m : Forall (fun x : bytes * bytes => I (snd x)) m -> map_get k m = Some v -> I v.
Proof.
  induction 1 as [|[k' v'] m H1 H2 IH]; cbn [map_get]; [discriminate|]. destruct (beq k k'); [intros [= <-]; exact H1 | auto].
Qed.

Lemma join_kept g json arg o : I json -> mod_join g json arg = Ok o -> I o.
Proof.
  intros H. unfold mod_join. rewrite parse_spec. cbn [bind].
  set (res := lparse json). destruct (kept_parse json H) as [_ Hr]. fold res in Hr.
  destruct (negb (kind_eqb (v_kind res) KArray)) eqn:Ek; [intros [= <-]; exact H|].
  apply kind_eqb_neg in Ek. intros E. apply bind_ok in E as (pv & _ & E). apply bind_ok in E as (preserve & _ & E).
  assert (Hq : forall c t, v_json res = c :: t -> c <> 34%N) by (apply (parse_not_quote json); left; exact Ek).
  destruct preserve.
  - apply bind_ok in E as ([out n] & E & Eo). injection Eo as <-.
    assert (Hp : piled 123 (out, n)).
    { revert E. apply (each_kept (piled 123)); [left; exact Ek | exact Hr | exact Hq | | apply piled_start].
      intros [o m] k x st' b _ Hx Hst E. destruct (negb (kind_eqb (v_kind x) KObject)) eqn:Ex; [injection E as <- <-; exact Hst|].
      apply kind_eqb_neg in Ex. destruct (at_open _ _ Hx (or_intror Ex)) as (q & e & Ej & He & Hi). rewrite Ex in Ej. cbn in Ej.
      cbv zeta in E. destruct (at_kept _ _ Hx) as [_ Es]. rewrite Es, Ej, unwrap_caps in E by auto. cbn [bind] in E. injection E as <- <-.
      apply piled_push; auto. }
    destruct Hp as (l & Hl & E1 & _). cbn [fst] in E1. subst out. apply I_brace, Hl.
  - apply bind_ok in E as ([keys kvals] & E & Eo). apply bind_ok in Eo as (out & Eout & Eo). injection Eo as <-.
    assert (Hj : joined (keys, kvals)).
    { revert E. apply (each_kept joined); [left; exact Ek | exact Hr | exact Hq | | split; constructor].
      intros st k x st' b _ Hx Hst E. destruct (negb (kind_eqb (v_kind x) KObject)) eqn:Ex; [injection E as <- <-; exact Hst|].
      apply kind_eqb_neg in Ex. apply bind_ok in E as (st1 & E & Eo). injection Eo as <- <-.
      destruct (at_open _ _ Hx (or_intror Ex)) as (q & e & Ej & _). rewrite Ex in Ej. cbn in Ej. destruct (at_kept _ _ Hx) as [Hxj _].
      revert E. apply (each_kept joined); [right; exact Ex | exact Hxj | rewrite Ej; intros c t [= <- _]; discriminate | | exact Hst].
      intros [ks kv] k1 x1 st2 b1 Hk1 Hx1 [J1 J2] E. unfold join_member in E. apply bind_ok in E as (kt & _ & E). injection E as <- <-.
      destruct Hk1 as [[_ Hk1]|Hk1]; [rewrite Hk1 in Ex; discriminate|]. cbn [fst snd] in *.
      split; cbn [fst snd].
      - destruct (map_get kt kv); auto. apply Forall_app. split; auto. constructor; auto. cbn [fst]. apply (at_kept _ _ Hk1).
      - apply map_insert_kept; auto. apply (at_kept _ _ Hx1). }
    apply join_out_shape in Eout as (l & Hl & ->). cbn [app]. apply I_brace. eapply Forall_impl; [|exact Hl].
    intros y (kj & kt & v & Hin & Hv & ->). destruct Hj as [J1 J2]. cbn [fst snd] in *. apply I_pair.
    + rewrite Forall_forall in J1. apply (J1 _ Hin).
    + eapply map_get_kept; eauto.
Qed.

Lemma apply_kept g name json arg o : (forall o, name = n_pretty -> mod_pretty g json arg = Ok o -> I o) ->
  I json -> mod_apply g name json arg = Ok o -> I o.
Proof.
  intros Hp H. unfold mod_apply. destruct (beq name n_this); [intros [= <-]; exact H|].
  destruct (beq name n_reverse); [apply reverse_kept, H|].
  destruct (beq name n_ugly); [rewrite ugly_spec; intros [= <-]; apply I_ugly, H|].
  destruct (beq name n_pretty) eqn:Ep; [apply Hp, beq_eq, Ep|].
  destruct (beq name n_valid).
  { unfold mod_valid. destruct (valid_total json) as ([|] & ->); cbn [bind]; intros [= <-]; auto. }
  destruct (beq name n_flatten); [intros E; eapply flatten_kept; eauto|].
  destruct (beq name n_join); [apply join_kept, H | intros [= <-]; exact I_nil].
Qed.
End KeepMod.
