(** When [get] and the accessors cannot panic, and invariants of the values that
    [get] and [parse] produce. *)
From Coq Require Import String List Floats.SpecFloat.
From Verif Require Import P_Base P_Json P_Valid P_ValidSpec P_Str P_Glob P_Scan P_Each P_Doc P_Path P_LGet P_Parts
  P_Ugly P_Pretty P_Tree P_POut P_Ext P_Value P_Num P_Ord P_Good
  S_Json S_Get S_Panic M_Util M_Num M_Scan M_Value M_Path M_Valid M_Pretty M_Get.
Import ListNotations.
Open Scope list_scope.

(* ---------- accessors ---------- *)

Definition acc_ok (v : value) : Prop :=
  v_kind v = KString -> has (v_info v) INFO_ESC = true \/ 2 <= length (v_json v).

(** Parsing the text of a value again gives the same text, kind and string. *)
Definition self_text (v : value) : Prop :=
  v_json (lparse (v_json v)) = v_json v /\ v_kind (lparse (v_json v)) = v_kind v /\
  (v_kind v = KString -> has (v_info (lparse (v_json v))) INFO_ESC = has (v_info v) INFO_ESC /\ v_uesc (lparse (v_json v)) = v_uesc v).

Record Wv (v : value) : Prop := mkWv {
  w_acc : v_exists v = true -> acc_ok v;
  w_num : v_kind v = KNumber -> Forall numish (v_json v);
  w_one : v_slice v = [] \/ v_owned v = [];
  w_good : v_exists v = true -> sgood (v_json v);
  w_text : v_exists v = true -> self_text v;
  w_none : v_exists v = false -> has (v_info v) INFO_ESC = false;
}.

Lemma strip_quotes_ok raw : 2 <= length raw -> exists r, strip_quotes raw = Ok r.
Proof.
  intros H. unfold strip_quotes. rewrite usub_ok by lia. cbn [bind].
  unfold slice. replace (1 <=? length raw - 1) with true by lia. replace (length raw - 1 <=? length raw) with true by lia.
  cbn [andb]. eauto.
Qed.

Lemma acc_str v : acc_ok v -> exists s, v_str v = Ok s.
Proof.
  unfold acc_ok, v_str. intros H. destruct (v_kind v); eauto. destruct (has (v_info v) INFO_ESC); eauto.
  destruct (H eq_refl) as [E|E]; [discriminate|]. apply strip_quotes_ok; auto.
Qed.
Lemma acc_text v : acc_ok v -> v_kind v = KString -> exists s, string_text v = Ok s.
Proof.
  unfold acc_ok, string_text. intros H Hk. destruct (has (v_info v) INFO_ESC); [apply unescape_total|].
  destruct (H Hk) as [E|E]; [discriminate|]. apply strip_quotes_ok; auto.
Qed.
Lemma acc_i64 v : acc_ok v -> exists x, v_i64 v = Ok x.
Proof.
  intros H. unfold v_i64. destruct (v_kind v) eqn:E; eauto. destruct (acc_text v H E) as (s & ->). cbn [bind]. eauto.
Qed.
Lemma acc_u64 v : acc_ok v -> exists x, v_u64 v = Ok x.
Proof.
  intros H. unfold v_u64. destruct (v_kind v) eqn:E; eauto. destruct (acc_text v H E) as (s & ->). cbn [bind]. eauto.
Qed.
Lemma acc_f64 v : acc_ok v -> exists x, v_f64 v = Ok x.
Proof.
  intros H. unfold v_f64. destruct (v_kind v) eqn:E; eauto. destruct (acc_text v H E) as (s & ->). cbn [bind]. eauto.
Qed.
Lemma acc_bool v : acc_ok v -> exists b, v_bool v = Ok b.
Proof.
  intros H. unfold v_bool. destruct (existsb _ bool_true_texts); eauto. destruct (existsb _ bool_false_texts); eauto.
  destruct (acc_i64 v H) as (x & ->). cbn [bind]. eauto.
Qed.
Lemma acc_u32 v : acc_ok v -> exists x, v_u32 v = Ok x.
Proof. intros H. unfold v_u32. destruct (acc_u64 v H) as (x & ->). cbn [bind]. eauto. Qed.

Lemma acc_default : acc_ok value_default.
Proof. unfold acc_ok. cbn. discriminate. Qed.
Lemma Wv_default : Wv value_default.
Proof. constructor; cbn; auto; discriminate. Qed.

(* ---------- texts ---------- *)

Lemma upto_numish t : Forall numish (upto t (dropw num_stop t)).
Proof.
  assert (E : forall t, exists a, t = a ++ dropw num_stop t /\ Forall numish a).
  { clear. induction t as [|c t (a & Ea & Ha)]; [exists []; auto|]. cbn [dropw].
    destruct (num_stop c) eqn:Ec; [exists []; auto|]. exists (c :: a). split; [cbn [app]; congruence|].
    constructor; auto. unfold num_stop in Ec. unfold numish. destruct (numch c); auto. }
  destruct (E t) as (a & Ea & Ha). pose proof (upto_suf _ _ (suf_dropw num_stop t)) as H.
  rewrite Ea in H at 1. apply app_inv_tail in H. rewrite <- H. exact Ha.
Qed.

Lemma llit_info n k l : snd (fst (llit n k l)) <> 0%N -> fst (fst (llit n k l)) ++ snd (llit n k l) = l.
Proof. unfold llit. destruct (length l <? n); cbn [fst snd]; [congruence|]. intros _. apply firstn_skipn. Qed.

(** An existing value is a prefix of where it starts. *)
Lemma ltext_app l : ltext l <> [] -> l = ltext l ++ lrest l.
Proof.
  unfold ltext, lrest, lflat. destruct l as [|c t]; [cbn; congruence|].
  destruct (N.eqb_spec c 34) as [->|].
  { destruct (split_str t) as [[b r]|] eqn:E; cbn [fst snd]; [|congruence]. intros _.
    apply split_str_app in E. rewrite E. cbn [app]. rewrite <- app_assoc. reflexivity. }
  destruct ((c =? 123) || (c =? 91))%N.
  { destruct (sq false 0 t) as [r|] eqn:E; cbn [fst snd]; [|congruence]. intros _.
    apply sq_rest in E as [E _]. apply upto_suf. eapply suf_trans; [exact E | apply suf_cons]. }
  destruct (((48 <=? c) && (c <=? 57)) || (c =? 45))%N.
  { cbn [fst snd]. intros _. cbn [app]. f_equal. apply upto_suf, suf_dropw. }
  assert (H : forall m k, fst (fst (llit m k (c :: t))) <> [] ->
     c :: t = fst (fst (llit m k (c :: t))) ++ snd (llit m k (c :: t))).
  { intros m k. unfold llit. destruct (length (c :: t) <? m); cbn [fst snd]; [congruence|]. intros _. symmetry. apply firstn_skipn. }
  destruct (c =? 116)%N; auto. destruct (c =? 102)%N; auto. destruct (c =? 110)%N; auto.
  cbn [fst]. congruence.
Qed.

Lemma fval_json json l : v_exists (fval json l) = true -> v_json (fval json l) = ltext l /\ ltext l <> [].
Proof.
  unfold fval. destruct (linfo l =? 0)%N; [discriminate|]. unfold v_exists. rewrite mkslice_json.
  destruct (ltext l); [discriminate|]. intros _. split; auto. discriminate.
Qed.

Lemma fval_acc json l : v_exists (fval json l) = true -> acc_ok (fval json l).
Proof.
  intros H Hk. destruct (fval_json _ _ H) as [-> Hne].
  unfold fval in *. destruct (linfo l =? 0)%N; [discriminate|]. clear H. unfold v_kind in Hk. cbn [mkslice v_info] in *.
  unfold linfo, ltext, lflat in *. destruct l as [|c t]; [discriminate|].
  destruct (N.eqb_spec c 34) as [->|].
  { destruct (split_str t) as [[b r]|]; cbn [fst snd] in *; [|congruence]. right. cbn [length]. rewrite app_length. cbn [length]. lia. }
  exfalso. destruct ((c =? 123) || (c =? 91))%N.
  { destruct (sq false 0 t); cbn [fst snd] in *; destruct (c =? 123)%N; discriminate. }
  destruct (((48 <=? c) && (c <=? 57)) || (c =? 45))%N.
  { cbn [fst snd] in Hk. rewrite land_lor_num in Hk. rewrite num_info_low in Hk; [discriminate|].
    unfold sign_info. destruct (c =? 45)%N; reflexivity. }
  unfold llit in *. destruct (c =? 116)%N; [destruct (_ <? 4); discriminate|].
  destruct (c =? 102)%N; [destruct (_ <? 5); discriminate|]. destruct (c =? 110)%N; [destruct (_ <? 4); discriminate|].
  discriminate.
Qed.

Lemma fval_num json l : v_kind (fval json l) = KNumber -> Forall numish (v_json (fval json l)).
Proof.
  unfold fval. destruct (linfo l =? 0)%N; [discriminate|]. rewrite mkslice_json. unfold v_kind. cbn [mkslice v_info].
  unfold linfo, ltext, lflat. destruct l as [|c t]; [discriminate|].
  destruct (c =? 34)%N.
  { destruct (split_str t) as [[b r]|]; cbn [fst snd]; [|discriminate]. unfold esc_info.
    destruct (hasbsl b); discriminate. }
  destruct ((c =? 123) || (c =? 91))%N.
  { destruct (sq false 0 t); cbn [fst snd]; destruct (c =? 123)%N; discriminate. }
  destruct (((48 <=? c) && (c <=? 57)) || (c =? 45))%N eqn:E.
  { cbn [fst snd]. intros _. constructor; [unfold numish, numch; lia | apply upto_numish]. }
  unfold llit. destruct (c =? 116)%N; [destruct (_ <? 4); discriminate|].
  destruct (c =? 102)%N; [destruct (_ <? 5); discriminate|]. destruct (c =? 110)%N; [destruct (_ <? 4); discriminate|].
  discriminate.
Qed.

Lemma fval_one json l : v_owned (fval json l) = [].
Proof. unfold fval. destruct (linfo l =? 0)%N; reflexivity. Qed.

Lemma lor_nz x k : k <> 0%N -> N.lor x k <> 0%N.
Proof. intros Hk H. apply N.lor_eq_0_iff in H as [_ H]. auto. Qed.
Lemma self_open c t v : c = 91%N /\ v_kind v = KArray \/ c = 123%N /\ v_kind v = KObject -> v_json v = c :: t -> self_text v.
Proof.
  intros H J. unfold self_text. rewrite J. destruct H as [[-> K]|[-> K]]; (split; [reflexivity|]); (split; [rewrite K; reflexivity|]);
    rewrite K; discriminate.
Qed.
Lemma lparse_flat c t i : (32 < c)%N -> c <> 123%N -> c <> 91%N -> i <> 0%N -> lflat (c :: t) = (c :: t, i, []) ->
  lparse (c :: t) = mkslice (c :: t) i (Some 0).
Proof.
  intros H1 H2 H3 Hi E. unfold lparse. cbn [dropw]. replace (above_sp c) with true by (unfold above_sp; lia). cbv zeta.
  replace (c =? 123)%N with false by lia. replace (c =? 91)%N with false by lia. unfold fval, ltext, linfo. rewrite E. cbn [fst snd].
  replace (i =? 0)%N with false by lia. rewrite pos_refl. reflexivity.
Qed.
Lemma numbers_flat c t : (((48 <=? c) && (c <=? 57)) || (c =? 45))%N = true -> Forall numish t ->
  lflat (c :: t) = (c :: t, N.lor (num_info (sign_info c) t) INFO_NUMBER, []).
Proof.
  intros Hc Ht. unfold lflat. replace (c =? 34)%N with false by lia. replace ((c =? 123) || (c =? 91))%N with false by lia. rewrite Hc.
  rewrite <- (app_nil_r t), (dropw_number t [] Ht I), upto_app, app_nil_r. reflexivity.
Qed.
Lemma literal_flat n k c t : 0 < n -> length (firstn n (c :: t)) = n -> llit n k (firstn n (c :: t)) = (firstn n (c :: t), k, []).
Proof.
  intros Hn Hl. unfold llit. rewrite Hl. replace (n <? n) with false by lia. rewrite firstn_all2 by lia. rewrite skipn_all2 by lia. reflexivity.
Qed.
Lemma self_fval json l : v_exists (fval json l) = true -> self_text (fval json l).
Proof.
  intros H. destruct (fval_json _ _ H) as [J Hne]. revert H J. unfold fval. destruct (linfo l =? 0)%N eqn:Ei; [discriminate|]. intros _ J.
  unfold ltext in Hne. unfold ltext, linfo in *. destruct l as [|c t]; [discriminate|].
  destruct (N.eqb_spec c 34) as [->|Hc].
  { cbn [lflat] in *. change (34 =? 34)%N with true in *. cbv match in *. destruct (split_str t) as [[b r]|] eqn:E; cbn [fst snd] in *; [|congruence].
    assert (F : lflat (34%N :: b ++ [34%N]) = (34%N :: b ++ [34%N], N.lor (esc_info b) INFO_STRING, [])).
    { cbn [lflat]. change (34 =? 34)%N with true. cbv match. rewrite (split_str_stable _ _ _ [] E). reflexivity. }
    unfold self_text. rewrite J. rewrite (lparse_flat 34%N (b ++ [34%N]) _ ltac:(lia) ltac:(lia) ltac:(lia) (lor_nz _ INFO_STRING ltac:(discriminate)) F). repeat split; reflexivity. }
  destruct ((c =? 123) || (c =? 91))%N eqn:Ec.
  { assert (exists x, fst (fst (lflat (c :: t))) = c :: x) as [x Hx].
    { unfold lflat in *. replace (c =? 34)%N with false in * by lia. rewrite Ec in *. destruct (sq false 0 t) as [r|] eqn:E; cbn [fst snd] in *; [|congruence].
      apply sq_rest in E as [(a & ->) _]. exists a. change (c :: a ++ r) with ((c :: a) ++ r). apply upto_app. }
    apply (self_open c x); [|rewrite J; exact Hx]. unfold v_kind, mkslice. cbn [v_info]. unfold lflat.
    replace (c =? 34)%N with false by lia. rewrite Ec. destruct (N.eqb_spec c 123) as [->|]; [right|left]; (split; [lia|]);
      destruct (sq false 0 t); reflexivity. }
  destruct (((48 <=? c) && (c <=? 57)) || (c =? 45))%N eqn:En.
  { assert (L : lflat (c :: t) = (c :: upto t (dropw num_stop t), N.lor (num_info (sign_info c) (upto t (dropw num_stop t))) INFO_NUMBER, dropw num_stop t)).
    { unfold lflat. replace (c =? 34)%N with false by lia. rewrite Ec, En. reflexivity. }
    rewrite L in *. cbn [fst snd] in *. unfold self_text. rewrite J.
    rewrite (lparse_flat c (upto t (dropw num_stop t)) _ ltac:(lia) ltac:(lia) ltac:(lia) (lor_nz _ INFO_NUMBER ltac:(discriminate)) (numbers_flat c _ En (upto_numish t))). repeat split; reflexivity. }
  assert (Q : forall n k, 0 < n -> (32 < c)%N -> k <> 0%N -> (forall x, lflat (c :: x) = llit n k (c :: x)) ->
    kindmap (N.land k 255) <> KString -> fst (fst (llit n k (c :: t))) <> [] ->
    self_text (mkslice (fst (fst (llit n k (c :: t)))) (snd (fst (llit n k (c :: t)))) (Some (pos json (c :: t))))).
  { intros n k Hn H32 Hk Hl Hs Hx. unfold llit in *. destruct (length (c :: t) <? n) eqn:El; cbn [fst snd] in *; [congruence|].
    assert (Hlen : length (firstn n (c :: t)) = n) by (apply firstn_length_le; lia).
    destruct n as [|n]; [lia|]. cbn [firstn] in *. unfold self_text.
    assert (F : lflat (c :: firstn n t) = (c :: firstn n t, k, [])).
    { rewrite Hl. pose proof (literal_flat (S n) k c t) as Z. cbn [firstn] in Z. apply Z; [lia|exact Hlen]. }
    rewrite mkslice_json. rewrite (lparse_flat c (firstn n t) k H32 ltac:(lia) ltac:(lia) Hk F). repeat split; reflexivity. }
  assert (D : forall x, lflat (c :: x) = if (c =? 116)%N then llit 4 INFO_TRUE (c :: x) else if (c =? 102)%N then llit 5 INFO_FALSE (c :: x)
     else if (c =? 110)%N then llit 4 INFO_NULL (c :: x) else lflat (c :: x)).
  { intros x. unfold lflat at 1. replace (c =? 34)%N with false by lia. rewrite Ec, En.
    destruct (c =? 116)%N eqn:E1; auto. destruct (c =? 102)%N eqn:E2; auto. destruct (c =? 110)%N eqn:E3; auto.
    unfold lflat. replace (c =? 34)%N with false by lia. rewrite Ec, En, E1, E2, E3. reflexivity. }
  destruct (c =? 116)%N eqn:E1; [rewrite D in *; apply Q; auto; try lia; discriminate|].
  destruct (c =? 102)%N eqn:E2; [rewrite D in *; apply Q; auto; try lia; discriminate|].
  destruct (c =? 110)%N eqn:E3; [rewrite D in *; apply Q; auto; try lia; discriminate|].
  exfalso. apply Hne. unfold lflat. replace (c =? 34)%N with false by lia. rewrite Ec, En, E1, E2, E3. reflexivity.
Qed.
Lemma fval_none json l : v_exists (fval json l) = false -> has (v_info (fval json l)) INFO_ESC = false.
Proof.
  unfold fval. destruct (linfo l =? 0)%N; [reflexivity|]. unfold v_exists. rewrite mkslice_json. cbn [mkslice v_info].
  unfold linfo, ltext, lflat. destruct l as [|c t]; [reflexivity|].
  destruct (c =? 34)%N; [destruct (split_str t) as [[b r]|]; cbn [fst snd]; [discriminate | reflexivity]|].
  destruct ((c =? 123) || (c =? 91))%N.
  { destruct (sq false 0 t); cbn [fst snd]; destruct (c =? 123)%N; reflexivity. }
  destruct (((48 <=? c) && (c <=? 57)) || (c =? 45))%N; [discriminate|].
  unfold llit. destruct (c =? 116)%N; [destruct (_ <? 4); reflexivity|].
  destruct (c =? 102)%N; [destruct (_ <? 5); reflexivity|]. destruct (c =? 110)%N; [destruct (_ <? 4); reflexivity|]. reflexivity.
Qed.
Lemma Wv_fval json l : Wv (fval json l).
Proof.
  constructor; [apply fval_acc | apply fval_num | right; apply fval_one| |apply self_fval | apply fval_none].
  intros H. rewrite (proj1 (fval_json _ _ H)). apply ltext_good.
Qed.

Lemma Wv_parse json : Wv (lparse json).
Proof.
  unfold lparse. cbv zeta. destruct (dropw above_sp json) as [|c t]; [apply Wv_default|].
  destruct (N.eqb_spec c 123) as [->|].
  { constructor; [intros; discriminate..|cbn; auto|intros _; apply sgood_head; [reflexivity|discriminate]| |discriminate].
    intros _. apply (self_open 123%N t); [right; split; reflexivity|reflexivity]. }
  destruct (N.eqb_spec c 91) as [->|].
  { constructor; [intros; discriminate..|cbn; auto|intros _; apply sgood_head; [reflexivity|discriminate]| |discriminate].
    intros _. apply (self_open 91%N t); [left; split; reflexivity|reflexivity]. }
  apply Wv_fval.
Qed.

Lemma json_into_owned_json v : (v_slice v = [] \/ v_owned v = []) -> v_json (json_into_owned v) = v_json v.
Proof.
  unfold json_into_owned, v_json. cbn [v_owned v_slice]. destruct (v_slice v) as [|a s] eqn:E.
  - intros _. destruct (v_owned v); reflexivity.
  - intros [H|H]; [discriminate|]. rewrite H. reflexivity.
Qed.
Lemma acc_json v w : v_info w = v_info v -> v_json w = v_json v -> acc_ok v -> acc_ok w.
Proof. intros E1 E2. unfold acc_ok, v_kind. rewrite E1, E2. auto. Qed.
Lemma self_json v w : v_info w = v_info v -> v_uesc w = v_uesc v -> v_json w = v_json v -> self_text v -> self_text w.
Proof. intros E1 E2 E3. unfold self_text, v_kind. rewrite E1, E2, E3. auto. Qed.
Lemma Wv_json v w : v_info w = v_info v -> v_uesc w = v_uesc v -> v_json w = v_json v -> (v_slice w = [] \/ v_owned w = []) -> Wv v -> Wv w.
Proof.
  intros E1 E0 E2 E3 [H1 H2 H3 H4 H5 H6]. constructor; auto.
  - unfold v_exists in *. rewrite E2. intros H. eapply acc_json; eauto.
  - unfold v_kind in *. rewrite E1, E2. auto.
  - unfold v_exists in *. rewrite E2. exact H4.
  - unfold v_exists in *. rewrite E2. intros H. eapply self_json; eauto.
  - unfold v_exists in *. rewrite E1, E2. exact H6.
Qed.
Lemma Wv_into v : Wv v -> Wv (json_into_owned v).
Proof. intros H. apply (Wv_json v); auto. apply json_into_owned_json, H. Qed.
Lemma acc_into v : Wv v -> acc_ok v -> acc_ok (json_into_owned v).
Proof. intros H. apply acc_json; auto. apply json_into_owned_json, H. Qed.

Lemma digit_numch n : numish (c0 + N.of_nat (n mod 10))%N.
Proof. pose proof (Nat.mod_upper_bound n 10 ltac:(lia)). unfold numish, numch. lia. Qed.
Lemma dec_of_nat_numish n : Forall numish (dec_of_nat n).
Proof.
  unfold dec_of_nat. assert (H : forall f n acc, Forall numish acc -> Forall numish (dec_of_nat_loop f n acc)).
  { clear. induction f as [|f IH]; intros n acc H; cbn [dec_of_nat_loop]; auto.
    assert (Forall numish ((c0 + N.of_nat (n mod 10))%N :: acc)) by (constructor; [apply digit_numch | auto]).
    cbv zeta. destruct (n / 10 =? 0); auto. }
  apply H. constructor.
Qed.

(* ---------- outcomes ---------- *)

(** Paths for which no panic is possible. *)
Definition pretty_colon : bytes := 64%N :: n_pretty ++ [58%N].
Definition safe (t : bytes) : Prop := ~ escape_in_pretty t.
Definition calm (t : bytes) : Prop := ~ tilde_after_pretty t.
Lemma safe_infix a b : infix a b -> safe b -> safe a.
Proof.
  intros (x & y & ->) H (u & v & -> & Hv). apply H. exists (x ++ u), (v ++ y). rewrite <- !app_assoc. split; auto. apply (spells_app [] v y), Hv.
Qed.
Lemma calm_infix a b : infix a b -> calm b -> calm a.
Proof.
  intros (x & y & ->) H (u & v & c & d & -> & Hv & Hd). apply H. exists (x ++ u), v, c, (d ++ y). rewrite <- !app_assoc. split; auto. split; auto.
  destruct Hd as [Hd|(d1 & d2 & ->)]; [left; apply in_or_app; auto | right]. exists d1, (d2 ++ y). rewrite <- !app_assoc. reflexivity.
Qed.
Lemma safe_no_pretty t : ~ infix pretty_colon t -> safe t.
Proof. intros H (a & b & -> & _). apply H. exists a, b. reflexivity. Qed.
Lemma safe_no_escape t : ~ In 92%N t -> safe t.
Proof. intros H (a & b & -> & Hb). apply spells_esc in Hb. apply H. apply in_or_app. right. apply in_or_app. auto. Qed.
Lemma safe_calm t : safe t -> calm t.
Proof.
  intros H (a & b & c & d & -> & Hc & _). apply H. exists (a ++ bs "#(" ++ b), (c ++ d). rewrite <- !app_assoc. split; auto. apply (spells_app [] c d), Hc.
Qed.
Lemma safe_no_at t : ~ In 64%N t -> safe t.
Proof. intros H. apply safe_no_pretty. intros Hi. apply H. eapply infix_in; [exact Hi|]. left. reflexivity. Qed.

(** A path without a tilde and without the escape that can stand for one. *)
Fixpoint no_u (t : bytes) : bool :=
  match t with [] => true | c :: u => negb ((c =? 92) && (hd 0 u =? 117))%N && no_u u end.
Lemma no_u_infix x y : no_u (x ++ 92%N :: 117%N :: y) = false.
Proof. induction x as [|c x IH]; [reflexivity|]. cbn [app no_u]. rewrite IH. apply andb_false_r. Qed.
Lemma calm_plain t : forallb (fun c => negb (c =? 126)%N) t = true -> no_u t = true -> calm t.
Proof.
  intros H1 H2 (a & b & c & d & E & _ & Hd). assert (Ht : exists p, t = p ++ d) by (exists (a ++ bs "#(" ++ b ++ bs "@pretty:" ++ c); rewrite E, <- !app_assoc; reflexivity).
  destruct Ht as (p & ->). destruct Hd as [Hd|(x & y & ->)].
  - assert (Hx := proj1 (forallb_forall _ _) H1 126%N (in_or_app _ _ _ (or_intror Hd))). discriminate.
  - rewrite app_assoc in H2. change (bs "\u" ++ y) with (92%N :: 117%N :: y) in H2. rewrite no_u_infix in H2. discriminate.
Qed.

(** A path in which no quote is spelled out. *)
Fixpoint no_quote_escape (t : bytes) : bool :=
  match t with [] => true | c :: u => negb ((c =? 92) && ((hd 0 u =? 117) || (hd 0 u =? 34)))%N && no_quote_escape u end.
Lemma calm_unspelled t : no_quote_escape t = true -> calm t.
Proof.
  intros H. apply safe_calm. intros (a & b & -> & x & y & Hb).
  assert (E : forall z, no_quote_escape (z ++ b) = false).
  { assert (G : no_quote_escape b = false).
    { clear H. destruct Hb as [->| ->]; induction x as [|c x IH]; cbn [app no_quote_escape]; try rewrite IH; try reflexivity; apply andb_false_r. }
    induction z as [|c z IH]; [exact G|]. cbn [app no_quote_escape]. rewrite IH. apply andb_false_r. }
  rewrite app_assoc, E in H. discriminate.
Qed.

Definition out {A} (text : bytes) (Q : A -> Prop) (m : R A) : Prop :=
  match m with Ok a => Q a | Err e => e = EPanic /\ ~ calm text end.

Lemma out_bind {A B} text (Q : A -> Prop) (Q' : B -> Prop) m k :
  out text Q m -> (forall a, Q a -> out text Q' (k a)) -> out text Q' (bind m k).
Proof. destruct m as [a|e]; cbn [bind out]; auto. Qed.
Lemma out_weak {A} t text (Q Q' : A -> Prop) m : infix t text -> (forall a, Q a -> Q' a) -> out t Q m -> out text Q' m.
Proof.
  intros Hi HQ. destruct m as [a|e]; cbn [out]; auto. intros [-> H]. split; auto. intros Hs. apply H. eapply calm_infix; eauto.
Qed.
Lemma out_ok {A} text (Q : A -> Prop) m a : m = Ok a -> Q a -> out text Q m.
Proof. intros -> H. exact H. Qed.

Definition Post (j t : bytes) (v : value) : Prop := Wv v /\ (safe t -> sgood j \/ ~ In 64%N t -> acc_ok v).

(** The text a lookup in a value works on. *)
Definition vtext (v : value) : bytes := match v_slice v with [] => v_owned v | s => s end.
Lemma vtext_json v : Wv v -> vtext v = v_json v.
Proof.
  intros [_ _ H _ _]. unfold vtext, v_json. destruct H as [-> | ->]; [destruct (v_owned v); reflexivity|].
  destruct (v_slice v); reflexivity.
Qed.
Lemma vtext_good v : Wv v -> sgood (vtext v).
Proof.
  intros H. rewrite (vtext_json v H). pose proof (w_good _ H) as Hg. unfold v_exists in Hg.
  destruct (v_json v); [apply sgood_nil | apply Hg; reflexivity].
Qed.

Lemma vget_out g v t : (forall j, out t (Post j t) (g j t)) -> out t (Post (vtext v) t) (v_get_with g v t).
Proof.
  intros H. unfold v_get_with.
  assert (Hr : out t (Post (vtext v) t) (match v_slice v with
        | [] => r <- g (v_owned v) t ;; Ok (json_into_owned r)
        | _ => g (v_slice v) t
        end)).
  { unfold vtext. destruct (v_slice v); auto. eapply out_bind; [apply H|]. intros r [Hw Ha]. cbn [out]. split.
    - apply Wv_into; auto.
    - intros Hn Hg. apply acc_into; auto. }
  eapply out_bind; [exact Hr|]. intros r [Hw Ha]. cbn [out]. split.
  - apply (Wv_json r); auto. apply Hw.
  - intros Hn Hg. apply (acc_json r); auto.
Qed.

(* ---------- queries ---------- *)

Definition has_tilde (rpv : bytes) : Prop := In 126%N rpv \/ exists x y, rpv = x ++ bs "\u" ++ y.
Lemma has_tilde_mid a b c : has_tilde b -> has_tilde (a ++ b ++ c).
Proof.
  intros [H|(x & y & ->)]; [left; apply in_or_app; right; apply in_or_app; auto | right]. exists (a ++ x), (y ++ c). rewrite <- !app_assoc. reflexivity.
Qed.
Lemma un_tilde b t : un b = 126%N :: t -> has_tilde b.
Proof.
  unfold un. cbn [lun]. destruct b as [|c u]; [discriminate|]. destruct (c <? 32)%N; [discriminate|]. destruct (N.eqb_spec c 92) as [->|].
  - destruct u as [|e u]; [discriminate|]. destruct (short_escape e) as [x|] eqn:Es.
    + intros H. assert (x = 126%N) as -> by congruence. exfalso. revert Es. unfold short_escape. repeat match goal with |- (if ?b then _ else _) = _ -> _ => destruct b; [discriminate|] end. discriminate.
    + destruct (N.eqb_spec e 117) as [->|]; [|discriminate]. intros _. right. exists [], u. reflexivity.
  - intros H. left. left. congruence.
Qed.
Lemma query_rhs_ok rpv : exists r, query_rhs rpv = Ok r /\ (forall t, r = 126%N :: t -> has_tilde rpv).
Proof.
  assert (Hself : exists r, Ok rpv = Ok r /\ (forall t, r = 126%N :: t -> has_tilde rpv))
    by (exists rpv; split; auto; intros t ->; left; left; reflexivity).
  unfold query_rhs. destruct (2 <? length rpv) eqn:E; [|exact Hself].
  destruct rpv as [|a t]; [discriminate|]. cbn [idx nth_error bind].
  destruct (app_last_case t) as [-> | (m & z & ->)]; [discriminate|].
  rewrite usub_ok by (cbn [length]; lia). cbn [bind].
  change (a :: m ++ [z]) with ((a :: m) ++ [z]). rewrite idx_last. cbn [bind].
  destruct (N.eqb_spec a cQUOTE) as [->|]; [|exact Hself]. destruct (N.eqb_spec z cQUOTE) as [->|]; [|exact Hself]. cbn [andb].
  destruct (existsb (fun c => (c =? cBSL)%N) ((34%N :: m) ++ [34%N])) eqn:Eb.
  - change ((34%N :: m) ++ [34%N]) with (quoted m). rewrite unescape_quoted. eexists. split; [reflexivity|]. intros t Ht. apply un_tilde in Ht.
    exact (has_tilde_mid [34%N] m [34%N] Ht).
  - exists m. split.
    + change ((34%N :: m) ++ [34%N]) with ([34%N] ++ m ++ [34%N]). apply slice_mid; auto. rewrite !app_length. cbn [length]. lia.
    + intros t ->. left. right. left. reflexivity.
Qed.

Lemma pmatch_ok p s : exists b, pmatch p s = Ok b.
Proof. rewrite pm_eq. eauto. Qed.

Lemma query_string_ok v op rpv : acc_ok v -> exists b, query_string v op rpv = Ok b.
Proof.
  intros H. unfold query_string. destruct (acc_str v H) as (s & ->). cbn [bind].
  destruct (pmatch_ok rpv s) as (b & ->). cbn [bind].
  repeat (match goal with |- context [if ?b then _ else _] => destruct b; eauto end).
Qed.
Lemma query_number_ok v op rpv : acc_ok v -> exists b, query_number v op rpv = Ok b.
Proof.
  intros H. unfold query_number. destruct (acc_f64 v H) as (s & ->). cbn [bind].
  repeat (match goal with |- context [if ?b then _ else _] => destruct b; eauto end).
Qed.
Lemma query_compare_ok v op rpv : acc_ok v -> exists b, query_compare v op rpv = Ok b.
Proof.
  intros H. unfold query_compare. destruct (v_kind v); eauto using query_string_ok, query_number_ok.
Qed.

Lemma Wv_true : Wv (mkValue [116; 114; 117; 101]%N [] [] INFO_TRUE None).
Proof.
  constructor; [intros; discriminate..|cbn; auto|intros _; apply sgood_head; [reflexivity|discriminate]| |discriminate].
  intros _. split; [reflexivity|]. split; [reflexivity|]. discriminate.
Qed.
Lemma Wv_false : Wv (mkValue [102; 97; 108; 115; 101]%N [] [] INFO_FALSE None).
Proof.
  constructor; [intros; discriminate..|cbn; auto|intros _; apply sgood_head; [reflexivity|discriminate]| |discriminate].
  intros _. split; [reflexivity|]. split; [reflexivity|]. discriminate.
Qed.

Lemma query_matches_ok v op rh : Wv v -> acc_ok v -> exists b, query_matches v op rh = Ok b.
Proof.
  intros Hw Ha. unfold query_matches. destruct (query_rhs_ok rh) as (r & -> & Hr). cbn [bind].
  assert (Hm : forall v, Wv v -> exists b, (if negb (v_exists v) then Ok false
       else match op with [] => Ok true | _ => query_compare v op r end) = Ok b).
  { intros x Hx. destruct (v_exists x) eqn:Ex; cbn [negb]; eauto. destruct op; eauto.
    apply query_compare_ok. apply Hx. exact Ex. }
  assert (Hm' : forall v r, Wv v -> exists b, (if negb (v_exists v) then Ok false
       else match op with [] => Ok true | _ => query_compare v op r end) = Ok b).
  { intros x r' Hx. destruct (v_exists x) eqn:Ex; cbn [negb]; eauto. destruct op; eauto.
    apply query_compare_ok. apply Hx. exact Ex. }
  destruct r as [|c t]; cbn [bind]; [apply Hm'; auto|].
  destruct (N.eqb_spec c cTILDE) as [->|]; cbn [bind]; [|apply Hm'; auto].
  destruct (acc_bool v Ha) as (b & ->). cbn [bind]. apply Hm'. destruct b; [apply Wv_true | apply Wv_false].
Qed.

(** Errors of the comparisons are panics. *)
Definition panics {A} (m : R A) : Prop := match m with Ok _ => True | Err e => e = EPanic end.
Lemma panics_bind {A B} (m : R A) (k : A -> R B) : panics m -> (forall a, panics (k a)) -> panics (bind m k).
Proof. destruct m; cbn [bind panics]; auto. Qed.
Lemma strip_quotes_panics raw : panics (strip_quotes raw).
Proof.
  unfold strip_quotes. apply panics_bind.
  - unfold usub. match goal with |- panics (if ?b then _ else _) => destruct b; exact I || reflexivity end.
  - intros e. unfold slice. match goal with |- panics (if ?b then _ else _) => destruct b; exact I || reflexivity end.
Qed.
Lemma string_text_panics v : panics (string_text v).
Proof.
  unfold string_text. destruct (has _ _); [destruct (unescape_total (v_json v)) as (t & ->); exact I | apply strip_quotes_panics].
Qed.
Lemma v_str_panics v : panics (v_str v).
Proof. unfold v_str. destruct (v_kind v); cbn [panics]; auto. destruct (has _ _); cbn [panics]; auto using strip_quotes_panics. Qed.
Lemma v_f64_panics v : panics (v_f64 v).
Proof. unfold v_f64. destruct (v_kind v); cbn [panics]; auto. apply panics_bind; [apply string_text_panics | intros; exact I]. Qed.
Lemma v_i64_panics v : panics (v_i64 v).
Proof. unfold v_i64. destruct (v_kind v); cbn [panics]; auto. apply panics_bind; [apply string_text_panics | intros; exact I]. Qed.
Lemma v_bool_panics v : panics (v_bool v).
Proof.
  unfold v_bool. destruct (existsb _ _); [exact I|]. destruct (existsb _ _); [exact I|].
  apply panics_bind; [apply v_i64_panics | intros; exact I].
Qed.
Lemma query_matches_panics v op rh : Wv v -> panics (query_matches v op rh).
Proof.
  intros Hw. unfold query_matches. destruct (query_rhs_ok rh) as (r & -> & _). cbn [bind].
  assert (Hm' : forall v r, Wv v -> panics (if negb (v_exists v) then Ok false
       else match op with [] => Ok true | _ => query_compare v op r end)).
  { intros x r' Hx. destruct (v_exists x) eqn:Ex; cbn [negb]; [|exact I]. destruct op as [|o op']; [exact I|].
    destruct (query_compare_ok x (o :: op') r') as (y & ->); [apply Hx; auto | exact I]. }
  destruct r as [|c t]; cbn [bind]; auto. destruct (c =? cTILDE)%N; cbn [bind]; auto.
  pose proof (v_bool_panics v) as Hb. destruct (v_bool v) as [b|e]; cbn [bind]; auto.
  apply Hm'. destruct b; [apply Wv_true | apply Wv_false].
Qed.

Lemma query_matches_calm v op rh : Wv v -> (has_tilde rh -> acc_ok v) -> exists b, query_matches v op rh = Ok b.
Proof.
  intros Hw Ha. destruct (query_rhs_ok rh) as (r & Er & Hr). destruct r as [|c t].
  2: destruct (N.eqb_spec c 126) as [->|Hc]; [apply query_matches_ok; eauto|].
  all: unfold query_matches; rewrite Er; cbn [bind].
  2: replace (c =? cTILDE)%N with false by (symmetry; apply N.eqb_neq; exact Hc); cbn [bind].
  all: destruct (v_exists v) eqn:Ex; cbn [negb]; eauto; destruct op; eauto; apply query_compare_ok, Hw, Ex.
Qed.

Lemma elem_matches_out g text v lh op rh : Wv v -> v_exists v = true -> infix lh text ->
  (lh = [] \/ (forall j, out lh (Post j lh) (g j lh)) /\ exists x y z w, text = x ++ bs "#(" ++ y ++ lh ++ z ++ rh ++ w) ->
  out text (fun _ => True) (elem_matches g v lh op rh).
Proof.
  intros Hw He Hl Hg. unfold elem_matches. destruct lh as [|c t].
  { destruct (query_matches_ok v op rh Hw) as (b & ->); [apply Hw; auto | exact I]. }
  destruct Hg as [Hg|(Hg & x1 & x2 & x3 & x4 & Et)]; [discriminate|].
  eapply out_bind.
  - eapply out_weak; [exact Hl | intros a Ha; exact Ha | apply vget_out, Hg].
  - intros x [Hx Ha]. pose proof (query_matches_panics x op rh Hx) as Hp.
    destruct (query_matches x op rh) eqn:E; cbn [out panics] in *; auto. split; auto. intros Hs.
    destruct (query_matches_calm x op rh Hx) as (b & Eb); [|congruence].
    intros Ht. apply Ha; [|left; apply vtext_good; auto]. intros (u & w & El & Hw2). apply Hs.
    exists x1, (x2 ++ u), w, (x3 ++ rh ++ x4). rewrite Et, El, <- !app_assoc. split; [reflexivity|]. split; [exact Hw2|]. apply has_tilde_mid, Ht.
Qed.

(* ---------- lookups in arrays and objects ---------- *)

Definition Acc (v : value) : Prop := Wv v /\ acc_ok v.

Lemma Acc_default : Acc value_default.
Proof. split; [apply Wv_default | apply acc_default]. Qed.
Lemma Acc_fval json l : v_exists (fval json l) = true -> Acc (fval json l).
Proof. intros H. split; [apply Wv_fval | apply fval_acc, H]. Qed.
Lemma Acc_array t ix : Acc (mkowned (91%N :: t) INFO_ARRAY ix).
Proof.
  split; [|unfold acc_ok; cbn; discriminate].
  constructor; [intros; discriminate..|cbn; auto|intros _; apply sgood_head; [reflexivity|discriminate]| |discriminate].
  intros _. apply (self_open 91%N t); [left; split; reflexivity|reflexivity].
Qed.
Lemma Acc_object t ix : Acc (mkowned (123%N :: t) INFO_OBJECT ix).
Proof.
  split; [|unfold acc_ok; cbn; discriminate].
  constructor; [intros; discriminate..|cbn; auto|intros _; apply sgood_head; [reflexivity|discriminate]| |discriminate].
  intros _. apply (self_open 123%N t); [right; split; reflexivity|reflexivity].
Qed.
Lemma dec_of_nat_digits n : Forall (fun c => 48 <= c /\ c <= 57)%N (dec_of_nat n).
Proof.
  unfold dec_of_nat. assert (H : forall f n acc, Forall (fun c => 48 <= c /\ c <= 57)%N acc -> Forall (fun c => 48 <= c /\ c <= 57)%N (dec_of_nat_loop f n acc)).
  { clear. induction f as [|f IH]; intros n acc H; cbn [dec_of_nat_loop]; auto.
    assert (Forall (fun c => 48 <= c /\ c <= 57)%N ((c0 + N.of_nat (n mod 10))%N :: acc)).
    { constructor; auto. pose proof (Nat.mod_upper_bound n 10 ltac:(lia)). lia. }
    cbv zeta. destruct (n / 10 =? 0); auto. }
  apply H. constructor.
Qed.
Lemma dec_of_nat_nonempty n : dec_of_nat n <> [].
Proof.
  unfold dec_of_nat. assert (H : forall f n acc, acc <> [] -> dec_of_nat_loop f n acc <> []).
  { clear. induction f as [|f IH]; intros n acc H; cbn [dec_of_nat_loop]; auto. cbv zeta. destruct (n / 10 =? 0); [discriminate|]. apply IH. discriminate. }
  cbn [dec_of_nat_loop]. cbv zeta. destruct (n / 10 =? 0); [discriminate|]. apply H. discriminate.
Qed.
Lemma dec_of_nat_good n : sgood (dec_of_nat n).
Proof.
  pose proof (dec_of_nat_digits n) as H.
  destruct (dec_of_nat n) as [|c t]; [apply sgood_nil|]. inversion H; subst. apply sgood_head; unfold starts_value; lia.
Qed.
Lemma Acc_count n ix : Acc (mkowned (dec_of_nat n) INFO_NUMBER ix).
Proof.
  split; [|unfold acc_ok; cbn; discriminate]. constructor; [intros; discriminate| |cbn; auto| | |reflexivity].
  - intros _. rewrite mkowned_json. apply dec_of_nat_numish.
  - intros _. rewrite mkowned_json. apply dec_of_nat_good.
  - intros _. unfold self_text. rewrite mkowned_json. pose proof (dec_of_nat_digits n) as H.
    destruct (dec_of_nat n) as [|c t] eqn:E; [exfalso; revert E; apply dec_of_nat_nonempty|]. inversion H as [|? ? Hc Ht]; subst.
    rewrite (lparse_flat c t (N.lor (num_info (sign_info c) t) INFO_NUMBER)); try lia; [|apply lor_nz; discriminate|].
    + split; [reflexivity|]. assert (K : v_kind (mkslice (c :: t) (N.lor (num_info (sign_info c) t) INFO_NUMBER) (Some 0)) = KNumber).
      { unfold v_kind, mkslice. cbn [v_info]. rewrite land_lor_num, num_info_low; [reflexivity|]. unfold sign_info. destruct (c =? 45)%N; reflexivity. }
      split; [exact K|discriminate].
    + apply numbers_flat; [lia|]. eapply Forall_impl; [|exact Ht]. cbn beta. intros a Ha. unfold numish, numch. lia.
Qed.
(** The output so far begins with a bracket. *)
Definition opened (c : N) (st : bytes * nat) : Prop := exists t, fst st = c :: t.
Lemma opened_push c st v : opened c st -> opened c (push_elem st v).
Proof.
  intros [t E]. destruct st as [o n]. cbn [fst] in E. subst o. unfold push_elem. destruct (v_exists v); [|exists t; reflexivity].
  destruct (0 <? n); cbn [app]; eexists; reflexivity.
Qed.
Lemma Acc_opened_array st x ix : opened 91%N st -> Acc (mkowned (fst st ++ x) INFO_ARRAY ix).
Proof. intros [t ->]. apply Acc_array. Qed.
Lemma Acc_opened_object st x ix : opened 123%N st -> Acc (mkowned (fst st ++ x) INFO_OBJECT ix).
Proof. intros [t ->]. apply Acc_object. Qed.
Lemma opened_start c : opened c ([c], 0).
Proof. exists []. reflexivity. Qed.
Lemma Acc_elems json lines l v : In v (elems json lines l) -> Acc v /\ v_exists v = true.
Proof.
  intros H. pose proof (elems_exist _ _ _ _ H) as He. unfold elems in H. apply in_map_iff in H as (x & <- & _).
  split; auto. apply Acc_fval; auto.
Qed.

Lemma find_r_out text f l (Q : value -> Prop) : Q value_default ->
  (forall v, In v l -> Q v /\ out text (fun _ => True) (f v)) -> out text Q (find_r f l).
Proof.
  intros Hd. induction l as [|v l IH]; intros H; cbn [find_r]; [exact Hd|].
  destruct (H v ltac:(left; auto)) as [Hq Hf]. eapply out_bind; [exact Hf|]. intros b _.
  destruct b; [exact Hq|]. apply IH. intros x Hx. apply H. right; auto.
Qed.
Lemma push_all_out text f l : (forall v, In v l -> out text (fun _ => True) (f v)) ->
  forall st, opened 91 st -> out text (opened 91) (push_all f l st).
Proof.
  induction l as [|v l IH]; intros H st Hs; cbn [push_all]; [exact Hs|].
  eapply out_bind; [apply H; left; auto|]. intros o _. apply IH.
  - intros x Hx. apply H. right; auto.
  - destruct o; auto using opened_push.
Qed.

Section Out.
Context (g : getter) (text : bytes).
Context (Hrec : forall j t, length t < length text -> out t (Post j t) (g j t)).

Lemma larr_out json lines l p : pin text p -> out text (fun r => Acc (fst r)) (larr g json lines l p).
Proof.
  intros Hp. unfold larr. cbv zeta.
  assert (Hi : out text (fun r => Acc (fst r)) (Ok (if (0 <=? comp_index (p_comp p))%Z
                      then nth (Z.to_nat (comp_index (p_comp p))) (elems json lines l) value_default
                      else value_default, p))).
  { cbn [out fst]. destruct (0 <=? comp_index (p_comp p))%Z; [|apply Acc_default].
    destruct (nth_in_or_default (Z.to_nat (comp_index (p_comp p))) (elems json lines l) value_default) as [H|H].
    - eapply Acc_elems; eauto.
    - rewrite H. apply Acc_default. }
  destruct (p_comp p) as [|c t] eqn:Ec; [exact Hi|]. rewrite <- Ec in Hi |- *.
  destruct (c =? 35)%N; [|exact Hi]. clear Hi.
  destruct (query_parts_ok (p_comp p)) as (lh & op & rh & Eq & Hlh & Hrh & Hlen). rewrite Eq. cbn [bind].
  pose proof (infix_trans _ _ _ Hlh (pin_comp _ _ Hp)) as Hlt.
  assert (Hm : forall v, In v (elems json lines l) -> out text (fun _ => True) (elem_matches g v lh op rh)).
  { intros v Hv. apply Acc_elems in Hv as [[Hw _] He]. apply elem_matches_out; auto.
    destruct Hlen as [H|(H & x & y & z & E)]; auto. right. split; [intros j; apply Hrec; pose proof (infix_length _ _ (pin_comp _ _ Hp)); lia|].
    destruct (pin_comp _ _ Hp) as (x1 & y1 & E1). exists x1, x, y, (z ++ y1). rewrite E1, E. cbn [app]. rewrite <- !app_assoc. reflexivity. }
  rewrite next_group_spec. cbn [bind].
  destruct (p_sep p =? 46)%N eqn:Es.
  - destruct (group (p_extra p)) as [gr rest] eqn:Eg. destruct (pin_group _ _ _ _ Hp Es Eg) as (_ & Hgi & Hgl).
    assert (Hg : forall v, out text (fun _ => True) (x <- v_get_with g v gr ;; Ok (Some x))).
    { intros v. eapply out_bind.
      - eapply out_weak; [exact Hgi | intros a Ha; exact Ha | apply vget_out; auto].
      - intros x _. exact I. }
    destruct t as [|d t'].
    + eapply out_bind; [apply push_all_out; [intros v _; apply Hg | apply opened_start]|]. intros st Hst. cbn [out fst]. apply Acc_opened_array, Hst.
    + destruct (last (d :: t') 0 =? 35)%N.
      * eapply out_bind; [apply push_all_out; [intros v Hv | apply opened_start]|].
        { eapply out_bind; [apply Hm; exact Hv|]. intros b _. destruct b; [apply Hg | exact I]. }
        intros st Hst. cbn [out fst]. apply Acc_opened_array, Hst.
      * eapply out_bind; [apply (find_r_out text _ _ Acc Acc_default); intros v Hv; split; [eapply Acc_elems; eauto | apply Hm; auto]|].
        intros v Hv. exact Hv.
  - destruct t as [|d t']; [cbn [out fst]; apply Acc_count|].
    destruct (last (d :: t') 0 =? 35)%N.
    + eapply out_bind; [apply push_all_out; [intros v Hv | apply opened_start]|].
      { eapply out_bind; [apply Hm; exact Hv|]. intros b _. destruct b; exact I. }
      intros st Hst. cbn [out fst]. apply Acc_opened_array, Hst.
    + eapply out_bind; [apply (find_r_out text _ _ Acc Acc_default); intros v Hv; split; [eapply Acc_elems; eauto | apply Hm; auto]|].
      intros v Hv. exact Hv.
Qed.

Lemma lobj_loop_out lsub json p :
  ((p_sep p =? 46)%N = true -> forall c t, container c = true -> length (c :: t) <= length json ->
     out text (fun d => match d with LReturn v _ => Acc v | _ => True end) (lsub (c :: t))) ->
  forall fuel l, length l < fuel -> length l <= length json -> out text (fun r => Acc (fst r)) (lobj_loop fuel lsub json l p).
Proof.
  intros Hsub. induction fuel as [|fuel IH]; intros l Hl Hj; [lia|]. cbn [lobj_loop].
  assert (Hd : out text (fun r => Acc (fst r)) (Ok (value_default, p))) by (apply Acc_default).
  destruct l as [|c t]; [exact Hd|]. cbn [length] in Hl, Hj. destruct (c =? 125)%N; [exact Hd|].
  destruct (negb (c =? 34)%N); [apply IH; lia|].
  destruct (split_str t) as [[b r0]|] eqn:Es; [|exact Hd]. cbv zeta.
  apply split_rest in Es as [_ Hr0]. pose proof (dropw_length colon_stop r0) as Hrl.
  destruct (dropw colon_stop r0) as [|c' t'] eqn:Er; [exact Hd|].
  assert (Hf : out text (fun r => Acc (fst r)) (if kmatch p b && v_exists (fval json (c' :: t')) then Ok (fval json (c' :: t'), p)
                else lobj_loop fuel lsub json (lrest (c' :: t')) p)).
  { destruct (kmatch p b && v_exists (fval json (c' :: t'))) eqn:E.
    - apply andb_true_iff in E as [_ E]. cbn [out fst]. apply Acc_fval; auto.
    - pose proof (proj2 (lrest_suf (c' :: t')) ltac:(discriminate)). apply IH; lia. }
  destruct (kmatch p b && (p_sep p =? 46)%N && container c') eqn:E; auto.
  apply andb_true_iff in E as [E Hc]. apply andb_true_iff in E as [_ Hs].
  eapply out_bind; [apply Hsub; auto; lia|]. intros d Hdd. destruct d as [v p'| |]; auto.
  apply IH; lia.
Qed.

Lemma lobj_out json : forall fuel l p, pin text p -> length l <= length json ->
  0 < fuel -> ((p_sep p =? 46)%N = true -> length (p_extra p) + 2 <= fuel) ->
  out text (fun r => Acc (fst r)) (lobj fuel g json l p).
Proof.
  induction fuel as [|fuel IH]; intros l p Hp Hl Hf Hs; [lia|]. cbn [lobj].
  destruct l as [|c t]; [apply Acc_default|]. cbn [length] in Hl. destruct (negb (c =? 123)%N); [apply Acc_default|].
  apply lobj_loop_out; [|lia|lia]. intros Es c' t' _ Hl'. cbv zeta. specialize (Hs Es).
  pose proof (pin_next _ _ Hp) as Hq. set (q := pnext (p_extra p)) in *.
  destruct (is_modifier q || is_multipath q); [exact I|].
  eapply out_bind with (Q := fun r => Acc (fst r)).
  - destruct (c' =? 123)%N; [|apply larr_out; auto]. apply IH; auto; [lia|].
    intros Eq. pose proof (shape_extra_short _ _ (pnext_shape (p_extra p)) (sep_dot_more _ Eq)) as H. fold q in H. lia.
  - intros [v p'] Hv. cbn [out]. destruct (v_exists v); auto.
Qed.

Lemma lstart_out json p : pin text p -> out text (fun r => Acc (fst r)) (lstart g json p).
Proof.
  intros Hp. unfold lstart. cbv zeta. pose proof (suf_length _ _ (suf_dropw above_sp json)) as Hl.
  destruct (dropw above_sp json) as [|c t]; [apply Acc_default|].
  destruct (c =? 123)%N; [apply lobj_out; auto; lia|].
  destruct (c =? 91)%N; [apply larr_out; auto | apply Acc_default].
Qed.

(* ---------- multipaths ---------- *)

Lemma multi_arr_out json cs : Forall (fun kp => infix (snd kp) text /\ length (snd kp) < length text) cs ->
  forall st, opened 91 st -> out text (opened 91) (multi_arr g json cs st).
Proof.
  induction 1 as [|[k p] cs [Hi Hl] _ IH]; intros st Hs; cbn [multi_arr]; [exact Hs|].
  eapply out_bind with (Q := fun _ => True); [|intros v _; apply IH, opened_push, Hs].
  eapply out_weak; [exact Hi | intros a Ha; exact I | apply Hrec; auto].
Qed.
Lemma multi_obj_out json cs : Forall (fun kp => infix (snd kp) text /\ length (snd kp) < length text) cs ->
  forall st, opened 123 st -> out text (opened 123) (multi_obj g json cs st).
Proof.
  induction 1 as [|[k p] cs [Hi Hl] _ IH]; intros st Hs; cbn [multi_obj]; [exact Hs|].
  eapply out_bind with (Q := fun _ => True); [|intros v _; destruct st as [o n]; apply IH].
  2: { destruct Hs as [t E]. cbn [fst] in E. subst o. destruct (v_exists v); [|exists t; reflexivity].
       destruct (0 <? n); cbn [app]; eexists; reflexivity. }
  eapply out_weak; [exact Hi | intros a Ha; exact I | apply Hrec; auto].
Qed.

Lemma multi_exec_out json p : pin text p -> is_multipath p = true ->
  out text (fun r => Acc (fst r)) (multi_exec g json p).
Proof.
  intros Hp Hm. unfold is_multipath in Hm. unfold multi_exec. destruct (p_comp p) as [|a t] eqn:Ec; [discriminate|].
  assert (Hcs : forall cs, each_comp (a :: t) = Ok cs -> Forall (fun kp => infix (snd kp) text /\ length (snd kp) < length text) cs).
  { intros cs H. apply each_comp_short in H. eapply Forall_impl; [|exact H]. intros kp [Hi Hl].
    pose proof (pin_comp _ _ Hp) as Hc. rewrite Ec in Hc. split; [eapply infix_trans; eauto|].
    apply infix_length in Hc. lia. }
  cbn [idx nth_error bind]. rewrite usub_ok by (cbn [length]; lia). cbn [bind].
  destruct (app_last_case t) as [-> | (m & z & ->)].
  { cbn [length Nat.sub idx nth_error bind]. change cLBRK with 91%N. change cLBRC with 123%N in *.
    change cRBRK with 93%N. change cRBRC with 125%N.
    destruct (N.eqb_spec a 91) as [->|].
    - cbn. apply Acc_default.
    - destruct (N.eqb_spec a 123) as [->|]; [cbn; apply Acc_default|]. exfalso.
      change cLBRK with 91%N in Hm. lia. }
  rewrite each_comp_spec in *. specialize (Hcs _ eq_refl).
  change (a :: m ++ [z]) with ((a :: m) ++ [z]). rewrite idx_last. cbn [bind].
  destruct (a =? cLBRK)%N.
  - destruct (negb (z =? cRBRK)%N); [cbn; apply Acc_default|]. cbn [bind].
    eapply out_bind; [apply multi_arr_out; auto using opened_start|]. intros [o n] Hst. rewrite json_from_owned_eq. cbn [bind out fst].
    apply (Acc_opened_array (o, n)), Hst.
  - destruct ((a =? cLBRC)%N && negb (z =? cRBRC)%N); [cbn; apply Acc_default|]. cbn [bind].
    eapply out_bind; [apply multi_obj_out; auto using opened_start|]. intros [o n] Hst. rewrite json_from_owned_eq. cbn [bind out fst].
    apply (Acc_opened_object (o, n)), Hst.
Qed.

End Out.

(* ---------- modifiers ---------- *)

Lemma items_tail l x r : items l = x :: r -> suf x l /\ x <> [] /\ v_exists (fval x x) = true /\ r = items (lrest x).
Proof.
  revert x r. induction l as [l IH] using (induction_ltof1 _ (@length N)). unfold ltof in IH.
  intros x r. destruct l as [|c t]; [discriminate|]. rewrite items_cons.
  destruct (lrest_suf (c :: t)) as [Hs Hl]. specialize (Hl ltac:(discriminate)).
  destruct (skip_sep c).
  { intros H. apply IH in H as (H1 & H2 & H3 & H4); [|cbn [length]; lia]. repeat split; auto.
    eapply suf_trans; [exact H1 | apply suf_cons]. }
  destruct (end_item c); [discriminate|].
  destruct (v_exists (fval (c :: t) (c :: t))) eqn:E.
  - intros H. injection H as <- <-. split; [apply suf_refl|]. split; [discriminate|]. auto.
  - intros H. apply IH in H as (H1 & H2 & H3 & H4); auto. repeat split; auto. eapply suf_trans; eauto.
Qed.

Lemma items_pairs l x y : In (x, y) (pair_up (items l)) -> suf x l /\ suf y x /\
  v_exists (fval x x) = true /\ v_exists (fval y y) = true.
Proof.
  revert x y. induction l as [l IH] using (induction_ltof1 _ (@length N)). unfold ltof in IH. intros x y.
  destruct (items l) as [|a r] eqn:Ea; [contradiction|].
  apply items_tail in Ea as (Ha & Hane & Hae & ->).
  destruct (items (lrest a)) as [|b r] eqn:Eb; [contradiction|].
  apply items_tail in Eb as (Hb & Hbne & Hbe & ->). cbn [pair_up].
  destruct (lrest_suf a) as [Hsa Hla]. specialize (Hla Hane).
  destruct (lrest_suf b) as [Hsb Hlb]. specialize (Hlb Hbne).
  pose proof (suf_length _ _ Ha). pose proof (suf_length _ _ Hb).
  intros [H1|H1].
  - injection H1 as <- <-. repeat split; auto. eapply suf_trans; eauto.
  - apply IH in H1 as (H2 & H3 & H4 & H5); [|lia]. repeat split; auto.
    eapply suf_trans; [exact H2|]. eapply suf_trans; [exact Hsb|]. eapply suf_trans; [exact Hb|].
    eapply suf_trans; [exact Hsa|]. exact Ha.
Qed.

Lemma pair_up_map {A B} (f : A -> B) l : pair_up (map f l) = map (fun x => (f (fst x), f (snd x))) (pair_up l).
Proof.
  assert (H : forall n l, length l < n -> pair_up (map f l) = map (fun x => (f (fst x), f (snd x))) (pair_up l)).
  { clear l. induction n as [|n IH]; intros l Hl; [lia|]. destruct l as [|a [|b t]]; auto. cbn [length] in Hl.
    cbn [map pair_up fst snd]. rewrite IH by lia. reflexivity. }
  apply (H (S (length l))). lia.
Qed.

Lemma run_inv {S A} (I : S -> Prop) (step : S -> A -> R (S * bool)) l :
  (forall st a, In a l -> I st -> exists st' b, step st a = Ok (st', b) /\ I st') ->
  forall st, I st -> exists st', run step st l = Ok st' /\ I st'.
Proof.
  induction l as [|a l IH]; intros H st Hi; cbn [run]; eauto.
  destruct (H st a ltac:(left; auto) Hi) as (st' & b & -> & Hi'). cbn [bind]. destruct b; eauto.
  apply IH; auto. intros s x Hx. apply H. right; auto.
Qed.

Lemma fval_index json x : v_exists (fval json x) = true -> v_index (fval json x) = Some (pos json x).
Proof. unfold fval. destruct (linfo x =? 0)%N; [discriminate|]. reflexivity. Qed.
Lemma fval_slice json x : v_exists (fval json x) = true -> v_slice (fval json x) = ltext x /\ ltext x <> [].
Proof.
  intros H. destruct (fval_json _ _ H) as [H1 H2]. split; auto. rewrite <- H1. unfold v_json. rewrite fval_one. reflexivity.
Qed.

Lemma slice_ok l s e : s <= e -> e <= length l -> exists r, slice l s e = Ok r.
Proof. intros H1 H2. unfold slice. replace (s <=? e) with true by lia. replace (e <=? length l) with true by lia. cbn [andb]. eauto. Qed.

Lemma pos_le a b s : suf a b -> suf b s -> pos s b <= pos s a.
Proof. intros H1 H2. unfold pos. apply suf_length in H1. lia. Qed.
Lemma pos_end x s : suf x s -> ltext x <> [] -> pos s x + length (ltext x) <= length s.
Proof.
  intros H Hn. unfold pos. pose proof (suf_length _ _ H). pose proof (f_equal (@length N) (ltext_app x Hn)) as E.
  rewrite app_length in E. lia.
Qed.

Lemma lparse_slice json : v_json (lparse json) = v_slice (lparse json).
Proof.
  unfold lparse. cbv zeta. destruct (dropw above_sp json) as [|c t]; auto.
  destruct (c =? 123)%N; auto. destruct (c =? 91)%N; auto. unfold v_json. rewrite fval_one. reflexivity.
Qed.

Lemma mod_reverse_ok json : exists o, mod_reverse json = Ok o /\ wgood o.
Proof.
  unfold mod_reverse. rewrite parse_spec. cbn [bind]. set (res := lparse json). set (s := v_slice res).
  assert (Es : v_json res = s) by apply lparse_slice.
  assert (Hs : wgood s).
  { rewrite <- Es. destruct (v_exists res) eqn:Ex.
    - apply (w_good _ (Wv_parse json) Ex).
    - unfold v_exists in Ex. destruct (v_json res); [apply sgood_nil | discriminate]. }
  assert (Hb : forall x, wgood (91%N :: x)) by (intros x; apply wgood_head; [reflexivity|discriminate]).
  assert (Hc : forall x, wgood (123%N :: x)) by (intros x; apply wgood_head; [reflexivity|discriminate]).
  destruct (v_kind res) eqn:Ek; eauto.
  - rewrite v_each_spec, Ek, Es. destruct (negb (v_exists res)); [cbn [bind]; eauto|].
    match goal with |- context [run ?f [] ?l] => destruct (run_inv (fun _ => True) f l) with (st := @nil bytes) as (st' & E & _); auto end.
    2: { rewrite E. cbn [bind]. eauto. }
    intros st v Hv _. apply in_map_iff in Hv as (x & <- & Hx). apply items_suf in Hx as (Hx & Hne & He).
    rewrite <- (fval_exists s) in He. rewrite fval_index by auto. cbn [unwrap_opt bind].
    destruct (fval_slice _ _ He) as [-> Hn].
    assert (Hxs : suf x s) by (eapply suf_trans; [exact Hx|]; destruct s; [apply suf_refl | apply suf_cons]).
    destruct (slice_ok s (pos s x) (pos s x + length (ltext x)) ltac:(lia) (pos_end _ _ Hxs Hn)) as (r & ->).
    cbn [bind]. eauto.
  - rewrite v_each_spec, Ek, Es. destruct (negb (v_exists res)); [cbn [bind]; eauto|].
    match goal with |- context [run ?f [] ?l] => destruct (run_inv (fun _ => True) f l) with (st := @nil bytes) as (st' & E & _); auto end.
    2: { rewrite E. cbn [bind]. eauto. }
    intros st kv Hv _. rewrite pair_up_map in Hv. apply in_map_iff in Hv as ([x y] & <- & Hx). cbn [fst snd].
    apply items_pairs in Hx as (Hx & Hy & He & Hf).
    rewrite <- (fval_exists s) in He. rewrite <- (fval_exists s) in Hf. rewrite !fval_index by auto. cbn [unwrap_opt bind].
    destruct (fval_slice _ _ Hf) as [-> Hn].
    assert (Hxs : suf x s) by (eapply suf_trans; [exact Hx|]; destruct s; [apply suf_refl | apply suf_cons]).
    pose proof (suf_trans _ _ _ Hy Hxs) as Hys. pose proof (pos_le _ _ _ Hy Hxs).
    destruct (slice_ok s (pos s x) (pos s y + length (ltext y)) ltac:(lia) (pos_end _ _ Hys Hn)) as (r & ->).
    cbn [bind]. eauto.
Qed.

Lemma unwrap_ok json : exists r, unwrap json = Ok r.
Proof.
  unfold unwrap. cbv zeta. destruct (drop_ws_end (drop_ws json)) as [|c t]; eauto.
  destruct ((2 <=? length (c :: t)) && _) eqn:E; eauto. apply andb_true_iff in E as [E _].
  apply slice_ok; cbn [length] in *; lia.
Qed.

Lemma map_get_insert k v m : map_get k (map_insert k v m) = Some v.
Proof.
  induction m as [|[k' v'] m IH]; cbn [map_insert map_get].
  - rewrite beq_refl. reflexivity.
  - destruct (beq k k') eqn:E; cbn [map_get]; rewrite E; auto.
Qed.
Lemma map_get_keep k v m k' : map_get k' m <> None -> map_get k' (map_insert k v m) <> None.
Proof.
  induction m as [|[k1 v1] m IH]; cbn [map_insert map_get]; [congruence|].
  destruct (beq k k1) eqn:E1; cbn [map_get]; destruct (beq k' k1) eqn:E2; auto; discriminate.
Qed.

Definition join_inv (st : list (bytes * bytes) * list (bytes * bytes)) : Prop :=
  forall kj kt, In (kj, kt) (fst st) -> map_get kt (snd st) <> None.

Lemma join_member_ok st k v : acc_ok k -> join_inv st -> exists st' b, join_member st k v = Ok (st', b) /\ join_inv st'.
Proof.
  intros Hk Hi. destruct st as [keys kvals]. unfold join_member. destruct (acc_str k Hk) as (kt & ->). cbn [bind].
  do 2 eexists. split; [reflexivity|]. intros kj kt' Hin. cbn [fst snd] in *.
  destruct (map_get kt kvals) eqn:E.
  - apply map_get_keep. eapply Hi; eauto.
  - apply in_app_or in Hin as [Hin|[Hin|[]]].
    + apply map_get_keep. eapply Hi; eauto.
    + injection Hin as _ <-. rewrite map_get_insert. discriminate.
Qed.

Lemma join_out_ok kvals : forall keys first, (forall kj kt, In (kj, kt) keys -> map_get kt kvals <> None) ->
  exists o, join_out first keys kvals = Ok o.
Proof.
  induction keys as [|[kj kt] keys IH]; intros first H; cbn [join_out]; eauto.
  destruct (map_get kt kvals) eqn:E; [|exfalso; eapply H; [left; reflexivity | exact E]].
  destruct (IH false) as (o & ->); [intros; eapply H; right; eauto|]. cbn [bind]. eauto.
Qed.

Lemma each_inv {S} (I : S -> Prop) v (step : S -> value -> value -> R (S * bool)) st :
  (v_kind v = KArray \/ v_kind v = KObject) ->
  (forall st k x, Acc k -> Acc x -> I st -> exists st' b, step st k x = Ok (st', b) /\ I st') ->
  I st -> exists st', v_each v step st = Ok st' /\ I st'.
Proof.
  intros Hk H Hi. rewrite v_each_spec. destruct (negb (v_exists v)); eauto.
  destruct Hk as [-> | ->].
  - apply run_inv; auto. intros s x Hx. apply in_map_iff in Hx as (y & <- & Hy).
    apply items_suf in Hy as (_ & _ & He). rewrite <- (fval_exists (v_json v)) in He. apply H; [apply Acc_default | apply Acc_fval; auto].
  - apply run_inv; auto. intros s kv Hx. rewrite pair_up_map in Hx. apply in_map_iff in Hx as ([x y] & <- & Hy). cbn [fst snd].
    apply items_pairs in Hy as (_ & _ & He & Hf). rewrite <- (fval_exists (v_json v)) in He.
    rewrite <- (fval_exists (v_json v)) in Hf. apply H; apply Acc_fval; auto.
Qed.

Lemma kind_eqb_neg a b : negb (kind_eqb a b) = false -> a = b.
Proof. intros H. apply kind_eqb_eq. destruct (kind_eqb a b); auto. Qed.

(** The name and the argument of a modifier. *)
Lemma mod_exec_parts g p extra : path_shape extra p -> is_modifier p = true ->
  exists name arg, ((p_comp p = 64%N :: name /\ arg = []) \/ p_comp p = 64%N :: name ++ 58%N :: arg) /\
    forall json, mod_exec g json p = (o <- mod_apply g name json arg ;; v <- parse o ;; Ok (json_into_owned v, p)).
Proof.
  intros Hs Hm. unfold mod_exec. destruct (ps_marg _ _ Hs) as [E|(a & m & Ec & E)].
  - unfold is_modifier in Hm. destruct (p_comp p) as [|c t] eqn:Ec; [discriminate|]. apply N.eqb_eq in Hm. subst c.
    exists t, []. split; [left; auto|]. intros json. rewrite E. cbn [Nat.eqb]. rewrite slice_from_ok by (cbn [length]; lia). reflexivity.
  - exists a, m. split; [right; auto|]. intros json. rewrite E, Ec. cbn [Nat.eqb].
    assert (E1 : slice (64%N :: a ++ 58%N :: m) 1 (S (length a)) = Ok a).
    { unfold slice. replace ((1 <=? S (length a)) && (S (length a) <=? length (64%N :: a ++ 58%N :: m))) with true
        by (cbn [length]; rewrite app_length; cbn [length]; symmetry; apply andb_true_iff; split; apply Nat.leb_le; lia).
      f_equal. cbn [skipn]. replace (S (length a) - 1) with (length a) by lia.
      rewrite firstn_app, firstn_all, Nat.sub_diag. cbn [firstn]. apply app_nil_r. }
    rewrite E1. cbn [bind]. rewrite slice_from_ok by (cbn [length]; rewrite app_length; cbn [length]; lia).
    replace (S (length a) + 1) with (S (length a + 1)) by lia. cbn [skipn bind].
    replace (skipn (length a + 1) (a ++ 58%N :: m)) with m; [reflexivity|].
    rewrite skipn_app, skipn_all2 by lia. replace (length a + 1 - length a) with 1 by lia. reflexivity.
Qed.

Section Mods.
Context (g : getter).
Context (Hopt : forall j t, In t optnames -> exists v, g j t = Ok v /\ Acc v /\ (v = value_default \/ exists x, suf x j /\ v = fval j x)).
Lemma wgood_arr x : wgood (91%N :: x).
Proof. apply wgood_head; [reflexivity|discriminate]. Qed.
Lemma wgood_obj x : wgood (123%N :: x).
Proof. apply wgood_head; [reflexivity|discriminate]. Qed.

Lemma mod_join_ok json arg : exists o, mod_join g json arg = Ok o /\ (sgood json -> wgood o).
Proof.
  unfold mod_join. rewrite parse_spec. cbn [bind]. set (res := lparse json).
  destruct (negb (kind_eqb (v_kind res) KArray)) eqn:Ek; [exists json; split; auto; intros H; apply H|]. apply kind_eqb_neg in Ek.
  destruct (Hopt arg s_preserve) as (pv & -> & Ha & _); [cbn [optnames In]; tauto|]. cbn [bind].
  destruct (acc_bool pv (proj2 Ha)) as (b & ->). cbn [bind]. destruct b.
  - match goal with |- context [v_each res ?f ?s] => destruct (each_inv (opened 123) res f s) as (st & E & Hst); auto using opened_start end.
    2: { rewrite E. destruct st as [o n]. cbn [bind]. eexists. split; [reflexivity|]. intros _. destruct Hst as [y Hy]. cbn [fst] in Hy.
         subst o. apply wgood_obj. }
    intros [o n] k x _ _ Ho. destruct (negb (kind_eqb (v_kind x) KObject)); eauto.
    destruct (unwrap_ok (v_slice x)) as (u & Eu). cbv zeta. rewrite Eu. cbn [bind]. do 2 eexists. split; [reflexivity|].
    destruct Ho as [y Hy]. cbn [fst] in Hy. subst o. destruct (0 <? n); cbn [app]; eexists; reflexivity.
  - match goal with |- context [v_each res ?f ?s] => destruct (each_inv join_inv res f s) as (st & E & Hi); auto end.
    + intros st k x _ _ Hi. destruct (negb (kind_eqb (v_kind x) KObject)) eqn:Ex; eauto. apply kind_eqb_neg in Ex.
      destruct (each_inv join_inv x join_member st) as (st' & -> & Hi'); auto.
      * intros st1 k1 x1 Hk1 _ Hi1. apply join_member_ok; auto. apply Hk1.
      * cbn [bind]. eauto.
    + intros kj kt [].
    + rewrite E. destruct st as [keys kvals]. cbn [bind]. destruct (join_out_ok kvals keys true Hi) as (o & ->). cbn [bind]. eauto using wgood_obj.
Qed.

Lemma mod_pretty_ok json arg : exists o, mod_pretty g json arg = Ok o /\ (sgood json -> ~ spells_quote arg -> wgood o).
Proof.
  unfold mod_pretty. destruct arg as [|a t].
  { unfold pretty. rewrite pretty_options_spec. eexists. split; [reflexivity|]. intros H _. apply pretty_good; auto. intros t Ht. discriminate. }
  set (arg := a :: t).
  destruct (Hopt arg s_indent) as (v1 & -> & H1 & _); [cbn [optnames In]; tauto|]. cbn [bind].
  destruct (Hopt arg s_prefix) as (v2 & -> & H2 & F2); [cbn [optnames In]; tauto|]. cbn [bind].
  destruct (Hopt arg s_sortKeys) as (v3 & -> & H3 & _); [cbn [optnames In]; tauto|]. cbn [bind].
  destruct (Hopt arg s_width) as (v4 & -> & H4 & _); [cbn [optnames In]; tauto|]. cbn [bind].
  assert (E1 : exists x, (if v_exists v1 then v_str v1 else Ok (o_indent popts_default)) = Ok x)
    by (destruct (v_exists v1); eauto; apply acc_str, H1).
  assert (E2 : exists x, (if v_exists v2 then v_str v2 else Ok (o_prefix popts_default)) = Ok x /\ (~ spells_quote arg -> nq x)).
  { destruct (v_exists v2) eqn:Ee.
    - destruct (acc_str v2 (proj2 H2)) as (x & E). exists x. split; auto. intros Hn. destruct F2 as [->|(y & Hy & ->)]; [discriminate|].
      eapply opt_str_nq; eauto.
    - eexists. split; [reflexivity|]. intros _ y Hy. discriminate. }
  assert (E3 : exists x, (if v_exists v3 then v_bool v3 else Ok (o_sort popts_default)) = Ok x)
    by (destruct (v_exists v3); eauto; apply acc_bool, H3).
  assert (E4 : exists x, (if v_exists v4 then v_u32 v4 else Ok (o_width popts_default)) = Ok x)
    by (destruct (v_exists v4); eauto; apply acc_u32, H4).
  destruct E1 as (x1 & ->), E2 as (x2 & -> & Hq), E3 as (x3 & ->), E4 as (x4 & ->). cbn [bind]. rewrite pretty_options_spec.
  eexists. split; [reflexivity|]. intros H Hn. apply pretty_good; auto.
Qed.

Lemma mod_flatten_ok arg : forall fuel json, length json < fuel -> exists o, mod_flatten fuel g json arg = Ok o /\ (sgood json -> wgood o).
Proof.
  induction fuel as [|fuel IH]; intros json Hf; [lia|]. cbn [mod_flatten]. rewrite parse_spec. cbn [bind].
  set (res := lparse json).
  destruct (negb (kind_eqb (v_kind res) KArray)) eqn:Ek; [exists json; split; auto; intros H; apply H|]. apply kind_eqb_neg in Ek.
  destruct (Hopt arg s_deep) as (pv & -> & Ha & _); [cbn [optnames In]; tauto|]. cbn [bind].
  destruct (acc_bool pv (proj2 Ha)) as (deep & ->). cbn [bind].
  rewrite v_each_spec, Ek. destruct (v_exists res) eqn:Ee; cbn [negb]; [|cbn [bind]; eauto using wgood_arr].
  match goal with |- context [run ?f ?s ?l] => destruct (run_inv (opened 91) f l) with (st := s) as (st' & E & Hst); auto using opened_start end.
  2: { rewrite E. destruct st' as [o n]. cbn [bind]. eexists. split; [reflexivity|]. intros _. destruct Hst as [y Hy]. cbn [fst] in Hy.
       subst o. apply wgood_arr. }
  intros [o n] v Hv Ho. apply in_map_iff in Hv as (x & <- & Hx). apply items_suf in Hx as (Hx & Hne & He).
  rewrite <- (fval_exists (v_json res)) in He. destruct (fval_json _ _ He) as [Ej Hn].
  set (v := fval (v_json res) x) in *.
  assert (Hraw : exists raw, (if kind_eqb (v_kind v) KArray then
                     if deep : bool then f <- mod_flatten fuel g (v_json v) arg ;; unwrap f
                     else unwrap (v_json v) else Ok (v_slice v)) = Ok raw).
  { destruct (kind_eqb (v_kind v) KArray); eauto. destruct deep; [|apply unwrap_ok].
    assert (Hlen : length (v_json v) < fuel).
    { assert (length (v_json res) <= length json).
      { unfold res. rewrite lparse_slice. unfold lparse. cbv zeta. pose proof (suf_length _ _ (suf_dropw above_sp json)) as Hl.
        destruct (dropw above_sp json) as [|c t]; [cbn; lia|]. destruct (c =? 123)%N; [exact Hl|]. destruct (c =? 91)%N; [exact Hl|].
        unfold fval. destruct (linfo (c :: t) =? 0)%N; [cbn; lia|]. cbn [mkslice v_slice].
        destruct (ltext (c :: t)) as [|a u] eqn:El; [cbn; lia|]. rewrite <- El.
        pose proof (ltext_app (c :: t) ltac:(congruence)) as E. apply (f_equal (@length N)) in E. rewrite app_length in E. lia. }
      rewrite Ej. pose proof (suf_length _ _ Hx) as Hxl. pose proof (ltext_app x Hn) as E. apply (f_equal (@length N)) in E. rewrite app_length in E.
      unfold v_exists in Ee. destruct (v_json res); [discriminate|]. cbn [tl length] in *. lia. }
    destruct (IH (v_json v) Hlen) as (f & -> & _). cbn [bind]. apply unwrap_ok. }
  destruct Hraw as (raw & ->). cbn [bind]. destruct raw; [eauto|]. do 2 eexists. split; [reflexivity|].
  destruct Ho as [y Hy]. cbn [fst] in Hy. subst o. destruct (0 <? n); cbn [app]; eexists; reflexivity.
Qed.

Lemma mod_apply_ok name json arg : exists o, mod_apply g name json arg = Ok o /\
  (sgood json -> (name = n_pretty -> ~ spells_quote arg) -> wgood o).
Proof.
  assert (Hin : exists o, Ok json = Ok o /\ (sgood json -> (name = n_pretty -> ~ spells_quote arg) -> wgood o)).
  { exists json. split; auto. intros H _. apply H. }
  assert (Hnil : exists o, Ok [] = Ok o /\ (sgood json -> (name = n_pretty -> ~ spells_quote arg) -> wgood o)).
  { exists []. split; auto. intros _ _. apply sgood_nil. }
  unfold mod_apply. destruct (beq name n_this); auto.
  destruct (beq name n_reverse); [destruct (mod_reverse_ok json) as (o & -> & H); eauto|].
  destruct (beq name n_ugly); [rewrite ugly_spec; eexists; split; [reflexivity|]; intros H _; apply ugly_good, H|].
  destruct (beq name n_pretty) eqn:Ep; [destruct (mod_pretty_ok json arg) as (o & -> & H); exists o; split; auto; intros H1 H2; apply H, H2; auto; apply beq_eq; auto|].
  destruct (beq name n_valid); [unfold mod_valid; destruct (valid_total json) as ([|] & ->); cbn [bind]; auto|].
  destruct (beq name n_flatten); [destruct (mod_flatten_ok arg (S (length json)) json) as (o & -> & H); [lia|]; eauto|].
  destruct (beq name n_join); [destruct (mod_join_ok json arg) as (o & -> & H); eauto | auto].
Qed.

(** A result is only a String if its string ends. *)
Lemma parse_acc o : wgood o -> acc_ok (lparse o).
Proof.
  intros H. unfold lparse. cbv zeta. destruct (dropw above_sp o) as [|c t] eqn:E; [apply acc_default|].
  destruct (c =? 123)%N; [unfold acc_ok; cbn; discriminate|]. destruct (c =? 91)%N; [unfold acc_ok; cbn; discriminate|].
  destruct (v_exists (fval o (c :: t))) eqn:Ee; [apply fval_acc; auto|].
  destruct (N.eqb_spec c 34) as [->|Hc].
  - exfalso. specialize (H t E). unfold fval, linfo, ltext, lflat in Ee. cbn [N.eqb Pos.eqb] in Ee.
    destruct (split_str t) as [[b r]|]; [|congruence]. cbn [fst snd] in Ee. unfold esc_info in Ee. destruct (hasbsl b); discriminate.
  - intros Hk. exfalso. unfold fval in Hk. destruct (linfo (c :: t) =? 0)%N; [discriminate|].
    apply (kind_not_string (c :: t)); auto.
Qed.

Lemma mod_exec_ok json p extra : path_shape extra p -> is_modifier p = true ->
  exists v, mod_exec g json p = Ok (v, p) /\ Wv v /\ (safe (p_comp p) -> sgood json -> acc_ok v).
Proof.
  intros Hs Hm. destruct (mod_exec_parts g p extra Hs Hm) as (name & arg & Hp & ->).
  destruct (mod_apply_ok name json arg) as (o & -> & Ho). cbn [bind].
  rewrite parse_spec. cbn [bind]. eexists. split; [reflexivity|]. split; [apply Wv_into, Wv_parse|].
  intros Hsafe Hj. apply acc_into; [apply Wv_parse|]. apply parse_acc, Ho; auto.
  intros ->. destruct Hp as [[_ ->]|E]; [intros Hi; destruct (spells_esc _ Hi)|]. rewrite E in Hsafe.
  intros Hi. apply Hsafe. exists [], arg. split; [|exact Hi]. reflexivity.
Qed.
End Mods.

(* ---------- get ---------- *)

Lemma get_body_out g json text :
  (forall j t, length t < length text -> out t (Post j t) (g j t)) ->
  (In 64%N text -> forall j t, In t optnames -> exists v, g j t = Ok v /\ Acc v /\ (v = value_default \/ exists x, suf x j /\ v = fval j x)) ->
  out text (Post json text) (get_body g json text).
Proof.
  intros Hrec Hopt. rewrite get_body_spec. destruct (split_lines text) as [lines t] eqn:E.
  apply split_lines_infix in E. pose proof (pin_weak _ _ _ E (pin_pnext t)) as Hp.
  assert (HP : forall v, Acc v -> Post json text v) by (intros v [H1 H2]; split; auto).
  assert (H : out text (fun r => Post json text (fst r)) (lget_first g json lines (pnext t))).
  { unfold lget_first. destruct lines; [eapply out_weak; [apply infix_refl| |apply larr_out; auto]; cbn; auto|].
    destruct (is_modifier (pnext t)) eqn:Em.
    - assert (H64 : In 64%N text).
      { eapply infix_in; [apply (pin_comp _ _ Hp)|]. unfold is_modifier in Em.
        destruct (p_comp (pnext t)) as [|c u]; [discriminate|]. apply N.eqb_eq in Em. left. exact Em. }
      destruct (mod_exec_ok g (Hopt H64) json _ _ (pnext_shape t) Em) as (v & -> & Hv & Ha). cbn [out fst]. split; [exact Hv|].
      intros H [Hj|Hj]; [|contradiction]. apply Ha; auto. eapply safe_infix; [apply (pin_comp _ _ Hp) | exact H].
    - destruct (is_multipath (pnext t)) eqn:Emm.
      + eapply out_weak; [apply infix_refl| |apply multi_exec_out; auto]; cbn; auto.
      + eapply out_weak; [apply infix_refl| |apply lstart_out; auto]; cbn; auto. }
  destruct (lget_first g json lines (pnext t)) as [[res p']|e] eqn:Ef; [|exact H].
  pose proof (lget_first_pin _ _ _ _ _ _ _ Hp Ef) as Hp'. cbn [bind]. cbn [out fst] in H.
  destruct (p_more p') eqn:Em; cbn [negb]; [|exact H].
  eapply out_weak; [apply (pin_extra _ _ Hp') | | apply vget_out; intros j; apply Hrec, Hp', Em].
  intros v [H1 H2]. split; auto. intros Hs _. apply H2; [eapply safe_infix; [apply (pin_extra _ _ Hp') | exact Hs]|].
  left. apply vtext_good, H.
Qed.

Lemma get_opt_ok j t : In t optnames -> exists v, get j t = Ok v /\ Acc v /\ (v = value_default \/ exists x, suf x j /\ v = fval j x).
Proof.
  intros H. pose proof (opt_from j t) as Hf. rewrite get_eq in Hf |- *.
  rewrite (get_body_opt get (fun _ _ => Ok value_default) j t H) in Hf |- *.
  destruct (opt_path t H) as (E1 & E2 & E3 & E4 & E5 & E6 & H64).
  assert (Ho : out t (fun v => Wv v /\ acc_ok v) (get_body (fun _ _ => Ok value_default) j t)).
  { rewrite get_body_spec, E1. unfold lget_first. rewrite E3, E4.
    assert (Hrec : forall j' t', length t' < length t -> out t' (Post j' t') (Ok value_default)).
    { intros j' t' _. cbn [out]. split; [apply Wv_default | intros; apply acc_default]. }
    pose proof (lstart_out (fun _ _ => Ok value_default) t Hrec j (pnext t) (pin_pnext t)) as Hl.
    destruct (lstart _ j (pnext t)) as [[v p]|e]; cbn [bind]; [|exact Hl]. cbn [out fst] in Hl.
    destruct (p_more p); cbn [negb]; [|exact Hl].
    pose proof (vget_out (fun _ _ => Ok value_default) v (p_extra p)) as Hv.
    assert (Hd : forall u, v_info u = 0%N -> acc_ok u) by (intros u Hu Hk; unfold v_kind in Hk; rewrite Hu in Hk; discriminate).
    assert (Hq : exists u, v_get_with (fun _ _ => Ok value_default) v (p_extra p) = Ok u /\ v_info u = 0%N).
    { unfold v_get_with. destruct (v_slice v); cbn [bind]; eexists; split; reflexivity. }
    destruct Hq as (u & Eu & Hu). rewrite Eu in *. cbn [out] in *. split; [|auto]. apply Hv. intros j0.
    split; [apply Wv_default | intros; apply acc_default]. }
  destruct (get_body _ j t) as [v|e]; cbn [out] in Ho.
  - exists v. split; auto.
  - destruct Ho as [_ Ho]. exfalso. apply Ho, safe_calm, safe_no_at, H64.
Qed.

Theorem get_out : forall text json, out text (Post json text) (get json text).
Proof.
  intros text. induction text as [text IH] using (induction_ltof1 _ (@length N)). unfold ltof in IH. intros json.
  rewrite get_eq. apply get_body_out; auto. intros _ j t Ht. apply get_opt_ok; auto.
Qed.

Theorem get_total json text : calm text -> exists v, get json text = Ok v.
Proof. intros H. pose proof (get_out text json) as Ho. destruct (get json text) as [v|e]; eauto. destruct Ho as [_ Ho]. contradiction. Qed.
