(** The list-level recogniser accepts exactly the grammar. *)
From Verif Require Import P_Valid.
From Verif Require Export P_Json M_Valid.

Lemma isspace_spec c : isspace c = true <-> ws_byte c.
Proof.
  unfold isspace, vtable, VSPACE, VSTRING, ws_byte.
  destruct (((c =? 9) || (c =? 10) || (c =? 13) || (c =? 32))%N) eqn:E1;
  destruct (((c <=? 31) || (c =? 34) || (c =? 92))%N) eqn:E; cbn; split; try discriminate;
  try lia; auto.
Qed.

Lemma nspace_ws c : nspace c = false <-> ws_byte c.
Proof. unfold nspace. rewrite <- isspace_spec. destruct (isspace c); simpl; intuition discriminate. Qed.

Lemma ws_nspace w : ws w <-> Forall (fun c => nspace c = false) w.
Proof.
  unfold ws. split; intros H; eapply Forall_impl; try exact H; intros c; apply nspace_ws.
Qed.

Lemma lws_split l : exists w, ws w /\ l = w ++ lws l.
Proof.
  destruct (dropw_split nspace l) as (w & H1 & H2). exists w. split; auto. apply ws_nspace; auto.
Qed.

Lemma lws_app w l : ws w -> lws (w ++ l) = lws l.
Proof. intros. apply dropw_app. apply ws_nspace; auto. Qed.

Lemma lws_stop c l : ~ ws_byte c -> lws (c :: l) = c :: l.
Proof.
  intros. apply dropw_stop. destruct (nspace c) eqn:E; auto. apply nspace_ws in E. tauto.
Qed.

Lemma ishex_spec c : ishexdigit c = true <-> hex c.
Proof. unfold ishexdigit, hex. lia. Qed.
Lemma short_spec c : is_short_escape c = true <-> short_esc c.
Proof. unfold is_short_escape, short_esc. simpl In. lia. Qed.
Lemma vdigit_spec c : vdigit c = true <-> digit c.
Proof. unfold vdigit, digit. lia. Qed.
Lemma ndigit_digit c : ndigit c = false <-> digit c.
Proof. unfold ndigit. rewrite <- vdigit_spec. destruct (vdigit c); simpl; intuition discriminate. Qed.
Lemma digits_ndigit w : Forall digit w <-> Forall (fun c => ndigit c = false) w.
Proof. split; intros H; eapply Forall_impl; try exact H; intros c; apply ndigit_digit. Qed.

(* ---------- strings ---------- *)

Lemma lstr_sound : forall n l r, length l <= n -> lstr l = Some r ->
  exists b, chars b /\ l = b ++ 34%N :: r.
Proof.
  induction n as [|n IH]; intros l r Hn H.
  { destruct l; simpl in *; [discriminate | lia]. }
  destruct l as [|c t]; simpl in H; [discriminate|]. simpl in Hn.
  destruct (c <? 32)%N eqn:E1; [discriminate|].
  destruct (c =? 34)%N eqn:E2.
  { injection H as ->. exists []. split; [constructor|]. simpl. f_equal. lia. }
  destruct (c =? 92)%N eqn:E3.
  - destruct t as [|e t1]; [discriminate|]. simpl in Hn.
    destruct (is_short_escape e) eqn:E4.
    + apply IH in H as (b & Hb & ->); [|lia]. apply short_spec in E4.
      exists (92%N :: e :: b). split; [apply chars_short; auto|]. simpl. f_equal. lia.
    + destruct (e =? 117)%N eqn:E5; [|discriminate].
      destruct t1 as [|x1 [|x2 [|x3 [|x4 t2]]]]; try discriminate. simpl in Hn.
      unfold hex4 in H.
      destruct (ishexdigit x1) eqn:X1; [|discriminate].
      destruct (ishexdigit x2) eqn:X2; [|discriminate].
      destruct (ishexdigit x3) eqn:X3; [|discriminate].
      destruct (ishexdigit x4) eqn:X4; [|discriminate]. simpl in H.
      apply IH in H as (b & Hb & ->); [|lia].
      exists (92%N :: 117%N :: x1 :: x2 :: x3 :: x4 :: b).
      split; [apply chars_uni; auto; apply ishex_spec; auto|]. simpl. f_equal; [lia|]. f_equal. lia.
  - apply IH in H as (b & Hb & ->); [|lia].
    exists (c :: b). split; [apply chars_plain; auto; unfold plain; lia | reflexivity].
Qed.

Lemma lstr_complete b r : chars b -> lstr (b ++ 34%N :: r) = Some r.
Proof.
  induction 1 as [|c t Hc _ IH|e t He _ IH|a b c d t Ha Hb Hc Hd _ IH].
  - reflexivity.
  - simpl. unfold plain in Hc.
    replace (c <? 32)%N with false by lia. replace (c =? 34)%N with false by lia.
    replace (c =? 92)%N with false by lia. auto.
  - simpl. apply short_spec in He. rewrite He. auto.
  - simpl. unfold hex4.
    apply ishex_spec in Ha. apply ishex_spec in Hb. apply ishex_spec in Hc. apply ishex_spec in Hd.
    rewrite Ha, Hb, Hc, Hd. auto.
Qed.

(* ---------- numbers ---------- *)

Lemma ldigits_split l : exists ds, Forall digit ds /\ l = ds ++ ldigits l.
Proof.
  destruct (dropw_split ndigit l) as (w & H1 & H2). exists w. split; auto. apply digits_ndigit; auto.
Qed.

Lemma lexp_sound l r : lexp l = Some r -> exists e, exp_part e /\ l = e ++ r.
Proof.
  unfold lexp. destruct l as [|c t]; [intros [= <-]; exists []; split; [constructor|auto]|].
  destruct ((c =? 101) || (c =? 69))%N eqn:E.
  2:{ intros [= <-]. exists []. split; [constructor|auto]. }
  assert (G : forall l, match l with d :: t' => if vdigit d then Some (ldigits t') else None | [] => None end = Some r
     -> exists ds, digits1 ds /\ l = ds ++ r).
  { intros [|d l]; try discriminate. destruct (vdigit d) eqn:Ed; try discriminate. intros [= <-].
    destruct (ldigits_split l) as (ds & Hds & El). exists (d :: ds). split.
    - split; [discriminate|]. constructor; auto. apply vdigit_spec; auto.
    - simpl. congruence. }
  destruct t as [|s t]; [discriminate|].
  destruct ((s =? 43) || (s =? 45))%N eqn:Es; intros H.
  - apply G in H as (ds & Hds & ->). exists (c :: [s] ++ ds). split; auto.
    apply exp_some; auto; [lia|]. right. assert (s = 43 \/ s = 45)%N as [->| ->] by lia; auto.
  - apply (G (s :: t)) in H as (ds & Hds & ->). exists (c :: [] ++ ds). split; auto.
    apply exp_some; auto. lia.
Qed.

Lemma lfrac_sound l r : lfrac l = Some r ->
  exists f e, frac_part f /\ exp_part e /\ l = f ++ e ++ r.
Proof.
  unfold lfrac. destruct l as [|c t].
  { intros H. apply lexp_sound in H as (e & He & ->). exists [], e. repeat split; auto; constructor. }
  destruct (c =? 46)%N eqn:E.
  2:{ intros H. apply lexp_sound in H as (e & He & ->). exists [], e. repeat split; auto; constructor. }
  destruct t as [|d t]; [discriminate|]. destruct (vdigit d) eqn:Ed; [|discriminate].
  intros H. apply lexp_sound in H as (e & He & H).
  destruct (ldigits_split t) as (ds & Hds & El).
  exists (46%N :: d :: ds), e. repeat split; auto.
  - constructor. split; [discriminate|]. constructor; auto. apply vdigit_spec; auto.
  - simpl. rewrite <- H, <- El. f_equal. lia.
Qed.

Lemma lint_sound c l r : vdigit c = true -> lint (c :: l) = Some r ->
  exists i f e, int_part i /\ frac_part f /\ exp_part e /\ c :: l = i ++ f ++ e ++ r.
Proof.
  intros Hc. unfold lint. destruct (c =? 48)%N eqn:E.
  - intros H. apply lfrac_sound in H as (f & e & Hf & He & ->).
    exists [48%N], f, e. repeat split; auto; [constructor|]. simpl. f_equal. lia.
  - unfold ldigits. cbn [dropw]. unfold ndigit at 1. rewrite Hc. cbn [negb]. intros H.
    apply lfrac_sound in H as (f & e & Hf & He & H).
    destruct (ldigits_split l) as (ds & Hds & El). unfold ldigits in El.
    exists (c :: ds), f, e. repeat split; auto.
    + constructor; auto. apply vdigit_spec in Hc. unfold digit in Hc. lia.
    + simpl. congruence.
Qed.

Lemma lnum_sound c l r : ((c =? 45)%N || vdigit c) = true -> lnum (c :: l) = Some r ->
  exists n, number n /\ c :: l = n ++ r.
Proof.
  intros Hc. unfold lnum. destruct (c =? 45)%N eqn:E.
  - destruct l as [|d t]; [discriminate|]. destruct (vdigit d) eqn:Ed; [|discriminate].
    intros H. apply lint_sound in H as (i & f & e & Hi & Hf & He & ->); auto.
    exists ([45%N] ++ i ++ f ++ e). split; [constructor; auto|].
    simpl. rewrite <- !app_assoc. f_equal. lia.
  - simpl in Hc. intros H. apply lint_sound in H as (i & f & e & Hi & Hf & He & ->); auto.
    exists ([] ++ i ++ f ++ e). split; [constructor; auto|].
    simpl. rewrite <- !app_assoc. auto.
Qed.

(** What may follow a number. *)
Definition follow_byte (c : N) : Prop := ws_byte c \/ c = 44%N \/ c = 93%N \/ c = 125%N.
Definition follow (r : bytes) : Prop :=
  match r with [] => True | c :: _ => follow_byte c end.

Lemma follow_byte_facts c : follow_byte c ->
  vdigit c = false /\ (c =? 101)%N = false /\ (c =? 69)%N = false /\ (c =? 46)%N = false.
Proof. unfold follow_byte, ws_byte, vdigit. lia. Qed.

Lemma ldigits_stop ds r : Forall digit ds -> match r with [] => True | c :: _ => vdigit c = false end ->
  ldigits (ds ++ r) = r.
Proof.
  intros Hd Hr. unfold ldigits. rewrite dropw_app by (apply digits_ndigit; auto).
  apply dropw_stop. destruct r; auto. unfold ndigit. rewrite Hr. auto.
Qed.

Lemma lexp_complete e r : exp_part e -> follow r -> lexp (e ++ r) = Some r.
Proof.
  intros He Hr. inversion He; subst.
  - destruct r as [|c t]; auto. simpl in *. apply follow_byte_facts in Hr as (_ & -> & -> & _). auto.
  - destruct H1 as [Hne Hds]. destruct ds as [|d ds]; [congruence|]. inversion Hds; subst.
    apply vdigit_spec in H3 as H3'.
    assert (Hstop : match r with [] => True | c :: _ => vdigit c = false end).
    { destruct r; auto. simpl in Hr. apply follow_byte_facts in Hr. tauto. }
    cbn [app lexp]. replace ((e0 =? 101) || (e0 =? 69))%N with true by lia.
    unfold digit in H3.
    destruct H0 as [->|[->| ->]]; simpl.
    + replace ((d =? 43) || (d =? 45))%N with false by lia. rewrite H3', ldigits_stop; auto.
    + rewrite H3', ldigits_stop; auto.
    + rewrite H3', ldigits_stop; auto.
Qed.

Lemma exp_no_digit e r : exp_part e -> follow r ->
  match e ++ r with [] => True | c :: _ => vdigit c = false /\ (c =? 46)%N = false end.
Proof.
  intros He Hr. inversion He; subst; simpl.
  - destruct r; auto. simpl in Hr. apply follow_byte_facts in Hr. tauto.
  - destruct H as [->| ->]; auto.
Qed.

Lemma lfrac_complete f e r : frac_part f -> exp_part e -> follow r -> lfrac (f ++ e ++ r) = Some r.
Proof.
  intros Hf He Hr. pose proof (exp_no_digit e r He Hr) as Hx.
  pose proof (lexp_complete e r He Hr) as Hl. inversion Hf; subst.
  - simpl. unfold lfrac. destruct (e ++ r) as [|c t]; auto. destruct Hx as [_ ->]. auto.
  - destruct H as [Hne Hds]. destruct ds as [|d ds]; [congruence|]. inversion Hds; subst.
    apply vdigit_spec in H1. simpl. rewrite H1. rewrite ldigits_stop; auto.
    destruct (e ++ r); tauto.
Qed.

Lemma lnum_complete n r : number n -> follow r ->
  exists c t, n = c :: t /\ ((c =? 45)%N || vdigit c) = true /\ lnum (n ++ r) = Some r.
Proof.
  intros Hn Hr. destruct Hn as [m i f e Hm Hi Hf He].
  assert (G : exists c t, i = c :: t /\ vdigit c = true /\ lint (i ++ f ++ e ++ r) = Some r).
  { pose proof (lfrac_complete f e r Hf He Hr) as Hl.
    assert (Hstop : match f ++ e ++ r with [] => True | c :: _ => vdigit c = false end).
    { pose proof (exp_no_digit e r He Hr) as Hx. inversion Hf; subst; simpl; auto.
      destruct (e ++ r); tauto. }
    inversion Hi; subst.
    - exists 48%N, []. auto.
    - assert (vdigit d = true) as Hd by (unfold vdigit; lia).
      exists d, ds. repeat split; auto. cbn [app lint].
      replace (d =? 48)%N with false by lia.
      change (d :: ds ++ f ++ e ++ r) with ((d :: ds) ++ f ++ e ++ r).
      rewrite ldigits_stop; auto. constructor; auto. apply vdigit_spec; auto. }
  destruct G as (c & t & Ei & Hd & Hl).
  destruct Hm as [->| ->].
  - exists c, (t ++ f ++ e). simpl. rewrite Ei in *. simpl in *. rewrite <- !app_assoc.
    repeat split; auto. { rewrite Hd. lia. }
    replace (c =? 45)%N with false by (unfold vdigit in Hd; lia). auto.
  - exists 45%N, (i ++ f ++ e). repeat split; auto. simpl. rewrite <- !app_assoc.
    rewrite Ei in *. simpl in *. rewrite Hd. auto.
Qed.

(* ---------- values ---------- *)

Lemma lit_sound lit c l r : strip_prefix lit (c :: l) = Some r -> c :: l = lit ++ r.
Proof. apply strip_prefix_some. Qed.

Lemma lany_sound : forall fuel,
  (forall l r, lany fuel l = Some r -> exists w v, ws w /\ json_value v /\ l = w ++ v ++ r) /\
  (forall l r, lobj fuel l = Some r -> exists ms, members ms /\ l = ms ++ 125%N :: r) /\
  (forall l r, larr fuel l = Some r -> exists es, elements es /\ l = es ++ 93%N :: r).
Proof.
  induction fuel as [|fuel (IHany & IHobj & IHarr)].
  { repeat split; intros; discriminate. }
  split; [|split].
  - intros l r H. cbn [lany] in H.
    destruct (lws_split l) as (w & Hw & El). destruct (lws l) as [|c t] eqn:E; [discriminate|].
    cut (exists v, json_value v /\ c :: t = v ++ r).
    { intros (v & Hv & Ev). exists w, v. repeat split; auto. congruence. }
    clear l El E.
    destruct (c =? 123)%N eqn:E1.
    { assert (c = 123)%N as -> by lia.
      destruct (lws_split t) as (w1 & Hw1 & Et). destruct (lws t) as [|d t'] eqn:E; [discriminate|].
      destruct (d =? 125)%N eqn:E2.
      - injection H as ->. assert (d = 125)%N as -> by lia.
        exists ([123%N] ++ w1 ++ [125%N]). split; [apply jv_empty_object; auto|].
        rewrite Et. simpl. rewrite <- app_assoc. reflexivity.
      - apply IHobj in H as (ms & Hms & E3).
        exists ([123%N] ++ (w1 ++ ms) ++ [125%N]).
        split; [apply jv_object, members_prefix; auto|].
        rewrite Et, E3. simpl. rewrite <- !app_assoc. reflexivity. }
    destruct (c =? 91)%N eqn:E2.
    { assert (c = 91)%N as -> by lia.
      destruct (lws_split t) as (w1 & Hw1 & Et). destruct (lws t) as [|d t'] eqn:E; [discriminate|].
      destruct (d =? 93)%N eqn:E3.
      - injection H as ->. assert (d = 93)%N as -> by lia.
        exists ([91%N] ++ w1 ++ [93%N]). split; [apply jv_empty_array; auto|].
        rewrite Et. simpl. rewrite <- app_assoc. reflexivity.
      - apply IHarr in H as (ms & Hms & E4).
        exists ([91%N] ++ (w1 ++ ms) ++ [93%N]).
        split; [apply jv_array, elements_prefix; auto|].
        rewrite Et, E4. simpl. rewrite <- !app_assoc. reflexivity. }
    destruct (c =? 34)%N eqn:E3.
    { assert (c = 34)%N as -> by lia. apply (lstr_sound _ _ _ (Nat.le_refl _)) in H as (b & Hb & ->).
      exists (quoted b). split; [apply jv_string; auto|].
      unfold quoted. simpl. rewrite <- app_assoc. reflexivity. }
    destruct (c =? 116)%N. { apply lit_sound in H. exists t_true. split; [apply jv_true|auto]. }
    destruct (c =? 102)%N. { apply lit_sound in H. exists t_false. split; [apply jv_false|auto]. }
    destruct (c =? 110)%N. { apply lit_sound in H. exists t_null. split; [apply jv_null|auto]. }
    destruct ((c =? 45)%N || vdigit c) eqn:E4; [|discriminate].
    apply lnum_sound in H as (n & Hn & E5); auto. exists n. split; auto. apply jv_number; auto.
  - intros l r H. cbn [lobj] in H. destruct l as [|c t]; [discriminate|].
    destruct (c =? 34)%N eqn:E1; [|discriminate]. assert (c = 34)%N as -> by lia.
    destruct (lstr t) as [t1|] eqn:Es; [|discriminate].
    apply (lstr_sound _ _ _ (Nat.le_refl _)) in Es as (b & Hb & ->).
    destruct (lws_split t1) as (w2 & Hw2 & Et1). destruct (lws t1) as [|d t2]; [discriminate|].
    destruct (d =? 58)%N eqn:E2; [|discriminate]. assert (d = 58)%N as -> by lia.
    destruct (lany fuel t2) as [t3|] eqn:Ea; [|discriminate].
    apply IHany in Ea as (w3 & v & Hw3 & Hv & ->).
    destruct (lws_split t3) as (w4 & Hw4 & Et3). destruct (lws t3) as [|e t4]; [discriminate|].
    destruct (e =? 125)%N eqn:E3.
    + assert (e = 125)%N as -> by lia. injection H as ->.
      exists ([] ++ quoted b ++ w2 ++ [58%N] ++ w3 ++ v ++ w4).
      split; [apply mb_one; auto; constructor|].
      subst t1 t3. unfold quoted. apps. reflexivity.
    + destruct (e =? 44)%N eqn:E4; [|discriminate]. assert (e = 44)%N as -> by lia.
      apply IHobj in H as (ms & Hms & E5). destruct (lws_split t4) as (w5 & Hw5 & Et4).
      exists ([] ++ quoted b ++ w2 ++ [58%N] ++ w3 ++ v ++ w4 ++ [44%N] ++ (w5 ++ ms)).
      split; [apply mb_more; auto; [constructor | apply members_prefix; auto]|].
      rewrite Et1, Et3, Et4, E5. unfold quoted. apps. reflexivity.
  - intros l r H. cbn [larr] in H.
    destruct (lany fuel l) as [t3|] eqn:Ea; [|discriminate].
    apply IHany in Ea as (w3 & v & Hw3 & Hv & ->).
    destruct (lws_split t3) as (w4 & Hw4 & Et3). destruct (lws t3) as [|e t4]; [discriminate|].
    destruct (e =? 93)%N eqn:E3.
    + assert (e = 93)%N as -> by lia. injection H as ->.
      exists (w3 ++ v ++ w4). split; [apply el_one; auto|].
      rewrite Et3. rewrite <- !app_assoc. reflexivity.
    + destruct (e =? 44)%N eqn:E4; [|discriminate]. assert (e = 44)%N as -> by lia.
      apply IHarr in H as (es & Hes & E5).
      exists (w3 ++ v ++ w4 ++ [44%N] ++ es). split; [apply el_more; auto|].
      rewrite Et3, E5. apps. reflexivity.
Qed.

(** First bytes of values are not whitespace and select the right branch. *)
Lemma json_value_head v : json_value v -> exists c t, v = c :: t /\ ~ ws_byte c /\ c <> 93%N /\ c <> 125%N.
Proof.
  intros H. destruct H; try (unfold t_null, t_true, t_false, quoted; simpl;
    do 2 eexists; split; [reflexivity|]; unfold ws_byte; lia).
  destruct (lnum_complete n [] H I) as (c & t & -> & Hc & _).
  exists c, t. split; auto. unfold ws_byte, vdigit in *. lia.
Qed.

Lemma follow_ws_app w r : ws w -> follow r -> follow (w ++ r).
Proof. intros Hw Hr. inversion Hw; subst; simpl; auto. left; auto. Qed.

Lemma quoted_app b r : quoted b ++ r = 34%N :: b ++ 34%N :: r.
Proof. unfold quoted. simpl. rewrite <- app_assoc. reflexivity. Qed.

Lemma lws_ws_then w c t : ws w -> ~ ws_byte c -> lws (w ++ c :: t) = c :: t.
Proof. intros. rewrite lws_app, lws_stop; auto. Qed.

Lemma lany_complete :
  (forall v, json_value v -> forall fuel w r, ws w -> follow r -> 2 * length v <= fuel ->
     lany fuel (w ++ v ++ r) = Some r) /\
  (forall es, elements es -> forall fuel r, 2 * length es + 1 <= fuel ->
     larr fuel (es ++ 93%N :: r) = Some r) /\
  (forall ms, members ms -> forall fuel r, 2 * length ms + 1 <= fuel ->
     lobj fuel (lws (ms ++ 125%N :: r)) = Some r).
Proof.
  assert (NW : forall c, (c = 44 \/ c = 58 \/ c = 93 \/ c = 125 \/ c = 34)%N -> ~ ws_byte c)
    by (unfold ws_byte; lia).
  apply json_mutind.
  - intros fuel w r Hw Hr Hf. destruct fuel; [simpl in Hf; lia|].
    cbn [lany]. unfold t_null. cbn [app]. rewrite lws_ws_then by (auto; unfold ws_byte; lia). reflexivity.
  - intros fuel w r Hw Hr Hf. destruct fuel; [simpl in Hf; lia|].
    cbn [lany]. unfold t_true. cbn [app]. rewrite lws_ws_then by (auto; unfold ws_byte; lia). reflexivity.
  - intros fuel w r Hw Hr Hf. destruct fuel; [simpl in Hf; lia|].
    cbn [lany]. unfold t_false. cbn [app]. rewrite lws_ws_then by (auto; unfold ws_byte; lia). reflexivity.
  - intros n Hn fuel w r Hw Hr Hf.
    destruct (lnum_complete n r Hn Hr) as (c & t & -> & Hc & Hl).
    destruct fuel; [simpl in Hf; lia|]. cbn [lany].
    cbn [app]. rewrite lws_ws_then; auto; [|unfold ws_byte, vdigit in *; lia].
    rewrite Hc. cbn [app] in Hl. unfold vdigit in Hc.
    replace (c =? 123)%N with false by lia. replace (c =? 91)%N with false by lia.
    replace (c =? 34)%N with false by lia. replace (c =? 116)%N with false by lia.
    replace (c =? 102)%N with false by lia. replace (c =? 110)%N with false by lia. auto.
  - intros b Hb fuel w r Hw Hr Hf. destruct fuel; [simpl in Hf; lia|].
    cbn [lany]. rewrite quoted_app. rewrite lws_ws_then by (auto; unfold ws_byte; lia).
    cbn [N.eqb Pos.eqb]. apply lstr_complete; auto.
  - intros w1 Hw1 fuel w r Hw Hr Hf. destruct fuel; [simpl in Hf; lia|].
    cbn [lany]. cbn [app]. rewrite <- app_assoc. cbn [app].
    rewrite lws_ws_then by (auto; unfold ws_byte; lia). cbn [N.eqb Pos.eqb].
    rewrite lws_ws_then by (auto; unfold ws_byte; lia). reflexivity.
  - intros es Hes IH fuel w r Hw Hr Hf. cbn [app length] in Hf.
    rewrite app_length in Hf. cbn [length] in Hf. destruct fuel; [lia|].
    cbn [lany]. cbn [app]. rewrite <- app_assoc. cbn [app].
    rewrite lws_ws_then by (auto; unfold ws_byte; lia). cbn [N.eqb Pos.eqb].
    assert (exists w0 c t, ws w0 /\ es = w0 ++ c :: t /\ ~ ws_byte c /\ c <> 93%N) as
      (w0 & c & t & Hw0 & Ees & Hc & Hc2).
    { destruct Hes as [w1 v w2 H1 Hv H2|w1 v w2 es H1 Hv H2 _];
      destruct (json_value_head v Hv) as (c & t & -> & ? & ? & ?); 
      cbn [app]; eauto 10. }
    specialize (IH fuel r). rewrite Ees in IH |- *. rewrite <- app_assoc in *. cbn [app] in *.
    rewrite lws_ws_then by auto.
    replace (c =? 93)%N with false by lia.
    rewrite <- IH by (rewrite Ees in Hf; lia).
    destruct fuel; [reflexivity|]. cbn [larr].
    replace (lany fuel (w0 ++ c :: t ++ 93%N :: r)) with (lany fuel (c :: t ++ 93%N :: r)); auto.
    destruct fuel; auto. cbn [lany]. rewrite (lws_app w0) by auto. reflexivity.
  - intros w1 Hw1 fuel w r Hw Hr Hf. destruct fuel; [simpl in Hf; lia|].
    cbn [lany]. cbn [app]. rewrite <- app_assoc. cbn [app].
    rewrite lws_ws_then by (auto; unfold ws_byte; lia). cbn [N.eqb Pos.eqb].
    rewrite lws_ws_then by (auto; unfold ws_byte; lia). reflexivity.
  - intros es Hes IH fuel w r Hw Hr Hf. cbn [app length] in Hf.
    rewrite app_length in Hf. cbn [length] in Hf. destruct fuel; [lia|].
    cbn [lany]. cbn [app]. rewrite <- app_assoc. cbn [app].
    rewrite lws_ws_then by (auto; unfold ws_byte; lia). cbn [N.eqb Pos.eqb].
    rewrite <- (IH fuel r) by lia.
    destruct (lws (es ++ 125%N :: r)) as [|c t] eqn:E.
    { destruct fuel; auto. }
    destruct (c =? 125)%N eqn:E2; auto.
    exfalso. destruct Hes; rewrite quoted_app in *; rewrite <- !app_assoc in E; cbn [app] in E;
      rewrite lws_ws_then in E by (auto; unfold ws_byte; lia); injection E; lia.
  - intros w1 v w2 H1 Hv IH H2 fuel r Hf. rewrite !app_length in Hf.
    destruct fuel; [lia|]. cbn [larr]. rewrite <- !app_assoc. rewrite IH; auto; [|apply follow_ws_app; auto; right; auto|lia].
    rewrite lws_ws_then by (auto; unfold ws_byte; lia). reflexivity.
  - intros w1 v w2 es H1 Hv IH H2 Hes IHes fuel r Hf. rewrite !app_length in Hf. cbn [length] in Hf.
    destruct fuel; [lia|]. cbn [larr]. rewrite <- !app_assoc. rewrite IH; auto; [|apply follow_ws_app; auto; right; auto|lia].
    cbn [app]. rewrite lws_ws_then by (auto; unfold ws_byte; lia). cbn [N.eqb Pos.eqb]. apply IHes. lia.
  - intros w1 b w2 w3 v w4 H1 Hb H2 H3 Hv IH H4 fuel r Hf.
    rewrite !app_length in Hf. cbn [length] in Hf. rewrite <- !app_assoc, quoted_app.
    apps. rewrite lws_ws_then by (auto; unfold ws_byte; lia).
    destruct fuel; [lia|]. cbn [lobj N.eqb Pos.eqb]. rewrite lstr_complete; auto.
    cbn [app]. rewrite lws_ws_then by (auto; unfold ws_byte; lia). cbn [N.eqb Pos.eqb].
    apps. rewrite IH; auto; [|apply follow_ws_app; auto; right; auto|lia].
    rewrite lws_ws_then by (auto; unfold ws_byte; lia). reflexivity.
  - intros w1 b w2 w3 v w4 ms H1 Hb H2 H3 Hv IH H4 Hms IHms fuel r Hf.
    rewrite !app_length in Hf. cbn [length] in Hf. rewrite <- !app_assoc, quoted_app.
    apps. rewrite lws_ws_then by (auto; unfold ws_byte; lia).
    destruct fuel; [lia|]. cbn [lobj N.eqb Pos.eqb]. rewrite lstr_complete; auto.
    cbn [app]. rewrite lws_ws_then by (auto; unfold ws_byte; lia). cbn [N.eqb Pos.eqb].
    apps. rewrite IH; auto; [|apply follow_ws_app; auto; right; auto|lia].
    cbn [app]. rewrite lws_ws_then by (auto; unfold ws_byte; lia). cbn [N.eqb Pos.eqb]. apply IHms. lia.
Qed.

(* ---------- valid ---------- *)

Definition lvalid (json : bytes) : bool :=
  match lany (S (S (2 * length json))) json with
  | Some r => match lws r with [] => true | _ => false end
  | None => false
  end.

Lemma valid_eq json : valid json = Ok (lvalid json).
Proof.
  unfold valid, lvalid.
  destruct (vany_spec json (S (S (2 * length json)))) as (H & _ & _).
  specialize (H 0 ltac:(lia) ltac:(lia)). change (skipn 0 json) with json in H.
  destruct (lany (S (S (2 * length json))) json) as [r|]; unfold vres in H.
  2:{ destruct H as (j & ->). reflexivity. }
  destruct H as (j & -> & J1 & J2 & J3). cbn [bind negb].
  destruct (scan_while_spec nspace json (S (length json)) j) as (k & Hk & K1 & K2 & K3); try lia.
  change (fun c => negb (isspace c)) with nspace. rewrite Hk. cbn [bind].
  rewrite J3 in K3. change (dropw nspace r) with (lws r) in K3.
  destruct (lws r) as [|c t].
  - rewrite ltb_skipn_nil by auto. reflexivity.
  - rewrite (ltb_skipn _ _ _ _ K3). reflexivity.
Qed.

Lemma lvalid_spec json : lvalid json = true <-> json_text json.
Proof.
  unfold lvalid. split.
  - destruct (lany (S (S (2 * length json))) json) as [r|] eqn:E; [|discriminate].
    apply lany_sound in E as (w & v & Hw & Hv & E).
    destruct (lws_split r) as (w2 & Hw2 & Er). destruct (lws r); [|discriminate].
    rewrite app_nil_r in Er. intros _. exists w, v, w2. subst. auto.
  - intros (w1 & v & w2 & H1 & Hv & H2 & E).
    assert (Hl : lany (S (S (2 * length json))) json = Some w2).
    { rewrite E at 2. apply lany_complete; auto.
      - rewrite <- (app_nil_r w2). apply follow_ws_app; auto. exact I.
      - rewrite E, !app_length. lia. }
    rewrite Hl. rewrite <- (app_nil_r w2), lws_app; auto.
Qed.

Lemma valid_spec json : exists b, valid json = Ok b /\ (b = true <-> json_text json).
Proof. exists (lvalid json). split; [apply valid_eq | apply lvalid_spec]. Qed.

Lemma valid_true_iff json : valid json = Ok true <-> json_text json.
Proof.
  rewrite valid_eq, <- lvalid_spec. destruct (lvalid json); split; congruence.
Qed.

Lemma valid_exact s :
  (valid s = Ok true <-> json_text s) /\ (valid s = Ok false <-> ~ json_text s).
Proof.
  split; [apply valid_true_iff|].
  rewrite <- valid_true_iff, valid_eq. destruct (lvalid s); split; congruence.
Qed.

Lemma valid_total s : exists b, valid s = Ok b.
Proof. exists (lvalid s). apply valid_eq. Qed.
