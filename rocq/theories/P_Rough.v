(** How a text that need not be JSON is taken apart. *)
From Coq Require Import Arith Lia List NArith Bool Wf_nat.
From Verif Require Import P_Base P_Json P_Valid P_Str P_Scan P_Each P_Doc P_LGet P_Value P_Key P_Bad P_Head M_Util M_Num M_Scan M_Value S_Json S_Path S_Api S_Rough.
Import ListNotations.
Open Scope list_scope.

Lemma numch_ok c : numch c = true <-> num_byte c.
Proof. unfold numch, num_byte. cbn [In]. rewrite !orb_true_iff, andb_true_iff, !N.eqb_eq, !N.leb_le. intuition congruence. Qed.

Lemma dropw_app p a r : Forall (fun c => p c = false) a -> (forall d r', r = d :: r' -> p d = true) -> dropw p (a ++ r) = r.
Proof.
  intros Ha Hr. induction Ha as [|c a Hc _ IH]; cbn [app].
  - destruct r as [|d r']; auto. cbn [dropw]. rewrite (Hr d r' eq_refl). reflexivity.
  - cbn [dropw]. rewrite Hc. exact IH.
Qed.

Definition kd (i : N) : kind := kindmap (N.land i 255).
Lemma kd_num c b : kd (N.lor (num_info (sign_info c) b) INFO_NUMBER) = KNumber.
Proof. unfold kd. rewrite land_lor_num, num_info_low; [reflexivity|]. unfold sign_info. destruct (c =? 45)%N; reflexivity. Qed.
Lemma kd_str b : kd (N.lor (esc_info b) INFO_STRING) = KString.
Proof. unfold kd, esc_info. destruct (hasbsl b); reflexivity. Qed.
Lemma lor_nz a b : b <> 0%N -> N.lor a b <> 0%N.
Proof. intros H E. apply N.lor_eq_0_iff in E. tauto. Qed.

Lemma firstn_all2' {A} (a b : list A) n : length a = n -> firstn n (a ++ b) = a /\ skipn n (a ++ b) = b.
Proof. intros <-. rewrite firstn_app, skipn_app, Nat.sub_diag, firstn_all, skipn_all. cbn. rewrite app_nil_r. auto. Qed.
Lemma llit_app n k t r : length t = n -> llit n k (t ++ r) = (t, k, r).
Proof.
  intros H. unfold llit. rewrite app_length, H. replace (n + length r <? n) with false by (symmetry; apply Nat.ltb_ge; lia).
  destruct (firstn_all2' t r n H) as (-> & ->). reflexivity.
Qed.

Lemma token_flat t k r : token t k r -> exists i, lflat (t ++ r) = (t, i, r) /\ kd i = k /\ i <> 0%N.
Proof.
  intros H. destruct H as [b r Hb|c b r Hc Hb Hr|t r Ht|t r Ht|t r Ht|q c r Hq Hc|q c r Hq Hc].
  - eexists. unfold quoted. cbn [app lflat N.eqb Pos.eqb]. rewrite <- app_assoc. cbn [app]. rewrite quotable_split by auto.
    split; [reflexivity|]. split; [apply kd_str|apply lor_nz; discriminate].
  - eexists. cbn [app lflat]. replace (c =? 34)%N with false by (destruct Hc; lia). replace (c =? 123)%N with false by (destruct Hc; lia).
    replace (c =? 91)%N with false by (destruct Hc; lia). replace (((48 <=? c) && (c <=? 57)) || (c =? 45))%N with true by (destruct Hc; lia). cbn [orb].
    rewrite dropw_app; [rewrite upto_app; split; [reflexivity|split; [apply kd_num|apply lor_nz; discriminate]]| |].
    + eapply Forall_impl; [|exact Hb]. intros d Hd. unfold num_stop. rewrite (proj2 (numch_ok d) Hd). reflexivity.
    + intros d r' E. unfold num_stop. destruct (numch d) eqn:En; auto. exfalso. apply (Hr d r' E), numch_ok, En.
  - exists INFO_TRUE. split; [|split; [reflexivity|discriminate]]. cbn -[llit]. apply (llit_app 4 INFO_TRUE (116%N :: t)). cbn. lia.
  - exists INFO_FALSE. split; [|split; [reflexivity|discriminate]]. cbn -[llit]. apply (llit_app 5 INFO_FALSE (102%N :: t)). cbn. lia.
  - exists INFO_NULL. split; [|split; [reflexivity|discriminate]]. cbn -[llit]. apply (llit_app 4 INFO_NULL (110%N :: t)). cbn. lia.
  - exists INFO_OBJECT. split; [|split; [reflexivity|discriminate]]. cbn [app lflat N.eqb Pos.eqb orb].
    rewrite <- app_assoc. cbn [app]. rewrite sq_close by auto. f_equal. f_equal.
    change (123%N :: q ++ c :: r) with ((123%N :: q) ++ [c] ++ r). rewrite app_assoc, upto_app. reflexivity.
  - exists INFO_ARRAY. split; [|split; [reflexivity|discriminate]]. cbn [app lflat N.eqb Pos.eqb orb].
    rewrite <- app_assoc. cbn [app]. rewrite sq_close by auto. f_equal. f_equal.
    change (91%N :: q ++ c :: r) with ((91%N :: q) ++ [c] ++ r). rewrite app_assoc, upto_app. reflexivity.
Qed.

Lemma llit_inv n k l : let '(t, i, r) := llit n k l in
  (length t = n /\ l = t ++ r /\ i = k) \/ (t = [] /\ r = [] /\ i = 0%N).
Proof.
  unfold llit. destruct (Nat.ltb_spec (length l) n); [right; auto|left].
  rewrite firstn_length_le by lia. rewrite firstn_skipn. auto.
Qed.

Lemma dropw_split p (l : bytes) : exists a, l = a ++ dropw p l /\ Forall (fun c => p c = false) a /\ (forall d r', dropw p l = d :: r' -> p d = true).
Proof.
  induction l as [|c t (a & E & F & G)]; [exists []; repeat split; auto; discriminate|].
  cbn [dropw]. destruct (p c) eqn:Ec.
  - exists []. repeat split; auto. intros d r' [= <- <-]. exact Ec.
  - exists (c :: a). cbn [app]. rewrite <- E. repeat split; auto.
Qed.

Lemma flat_token l : let '(t, i, r) := lflat l in
  (l = t ++ r /\ t <> [] /\ token t (kd i) r /\ i <> 0%N) \/ (t = [] /\ r = []).
Proof.
  destruct l as [|c l]; [right; auto|]. cbn [lflat].
  destruct (N.eqb_spec c 34) as [->|H34].
  { destruct (split_str l) as [(b, r)|] eqn:E; [left|right; auto].
    destruct (split_quotable _ l _ _ (Nat.lt_succ_diag_r _) E) as (Hq & ->).
    split; [cbn; rewrite <- app_assoc; reflexivity|]. split; [discriminate|]. rewrite kd_str. split; [apply (tk_string b r Hq)|apply lor_nz; discriminate]. }
  destruct ((c =? 123) || (c =? 91))%N eqn:Eb.
  { destruct (sq false 0 l) as [r|] eqn:E; [left|right; auto].
    apply sq_some in E as (q & z & Hq & Hz & ->).
    assert (U : upto (c :: q ++ z :: r) r = c :: q ++ [z]).
    { change (c :: q ++ z :: r) with ((c :: q) ++ [z] ++ r). rewrite app_assoc, upto_app. reflexivity. }
    rewrite U. split; [cbn; rewrite <- app_assoc; reflexivity|]. split; [discriminate|].
    apply orb_true_iff in Eb as [Eb|Eb]; apply N.eqb_eq in Eb; subst c.
    - split; [apply tk_object; auto|discriminate].
    - split; [apply tk_array; auto|discriminate]. }
  destruct (((48 <=? c) && (c <=? 57)) || (c =? 45))%N eqn:En.
  { left. destruct (dropw_split num_stop l) as (a & E & F & G).
    assert (U : upto l (dropw num_stop l) = a) by (transitivity (upto (a ++ dropw num_stop l) (dropw num_stop l)); [congruence|apply upto_app]).
    rewrite U. split; [cbn [app]; congruence|]. split; [discriminate|]. rewrite kd_num. split; [|apply lor_nz; discriminate].
    apply tk_number; [lia| |].
    - eapply Forall_impl; [|exact F]. intros d Hd. unfold num_stop in Hd. apply numch_ok. destruct (numch d); auto; discriminate.
    - intros d r' Ed Hd. apply numch_ok in Hd. specialize (G d r' Ed). unfold num_stop in G. rewrite Hd in G. discriminate. }
  destruct (N.eqb_spec c 116) as [->|H1]; [|destruct (N.eqb_spec c 102) as [->|H2]; [|destruct (N.eqb_spec c 110) as [->|H3]; [|right; auto]]].
  all: match goal with |- context [llit ?n ?k ?l] => pose proof (llit_inv n k l) as P; destruct (llit n k l) as ((t, i), r) end.
  all: destruct P as [(P1 & P2 & ->)|(-> & -> & ->)]; [left|right; auto].
  all: destruct t as [|h t]; [discriminate P1|]; injection P2 as <- P2; subst l; injection P1 as P1.
  all: split; [reflexivity|]; split; [discriminate|]; split; [|discriminate]; constructor; exact P1.
Qed.

Lemma skip_sep_ok c : skip_sep c = true <-> filler c.
Proof. unfold skip_sep, filler. rewrite !orb_true_iff, !N.eqb_eq, N.leb_le. tauto. Qed.
Lemma end_item_ok c : end_item c = true <-> ending c.
Proof. unfold end_item, ending. rewrite orb_true_iff, !N.eqb_eq. tauto. Qed.

Lemma token_head t k r : token t k r -> exists c t', t = c :: t' /\ skip_sep c = false /\ end_item c = false.
Proof.
  intros H. destruct H as [b r Hb|c b r Hc Hb Hr|t r Ht|t r Ht|t r Ht|q c r Hq Hc|q c r Hq Hc]; eexists; eexists;
    (split; [reflexivity|]); try (split; reflexivity).
  unfold skip_sep, end_item. destruct Hc; split; lia.
Qed.

Lemma fval_piece json t k r : suf (t ++ r) json -> token t k r -> is_piece (fval json (t ++ r)) (pos json (t ++ r), t, k).
Proof.
  intros Hs H. destruct (token_flat t k r H) as (i & E & Ek & Hi). destruct (token_head t k r H) as (c & t' & Et & _).
  unfold fval, linfo, ltext. rewrite E. cbn [fst snd]. replace (i =? 0)%N with false by (symmetry; apply N.eqb_neq; exact Hi).
  unfold is_piece. rewrite mkslice_json. split; [reflexivity|]. split; [exact Ek|]. split; [reflexivity|].
  unfold v_exists. rewrite mkslice_json, Et. reflexivity.
Qed.
Lemma lrest_token t k r : token t k r -> lrest (t ++ r) = r.
Proof. intros H. destruct (token_flat t k r H) as (i & E & _). unfold lrest. rewrite E. reflexivity. Qed.

Lemma no_token json l : suf l json -> (forall t k r, token t k r -> l <> t ++ r) -> v_exists (fval json l) = false /\ lrest l = [].
Proof.
  intros Hs H. pose proof (flat_token l) as P. unfold fval, lrest, linfo, ltext. destruct (lflat l) as ((t, i), r).
  destruct P as [(-> & _ & P & _)|(-> & ->)]; [exfalso; eapply H; eauto|]. cbn [fst snd]. split; [|reflexivity].
  destruct (i =? 0)%N; reflexivity.
Qed.

Lemma pieces_items json : forall n l ps, pieces n l ps -> suf l json -> n = pos json l ->
  Forall2 is_piece (map (fval json) (items l)) ps.
Proof.
  intros n l ps H. induction H as [n|n c r Hc|n c r l Hc H IH|n t k r l Ht H IH|n s H1 H2]; intros Hs ->.
  - constructor.
  - rewrite items_cons. replace (skip_sep c) with false by (unfold skip_sep; destruct Hc; subst; reflexivity).
    rewrite (proj2 (end_item_ok c) Hc). constructor.
  - rewrite items_cons, (proj2 (skip_sep_ok c) Hc). apply IH; [eapply suf_tail; eauto|].
    rewrite <- (pos_S _ _ _ Hs). lia.
  - destruct (token_head t k r Ht) as (c & t' & -> & E1 & E2). pose proof (fval_piece json _ k r Hs Ht) as P.
    pose proof (lrest_token _ _ _ Ht) as L. cbn [app] in *.
    rewrite items_cons, E1, E2. rewrite <- (fval_exists json). rewrite (proj2 (proj2 (proj2 P))). cbn [map].
    rewrite L. constructor; [exact P|]. apply IH.
    + destruct Hs as [a ->]. exists (a ++ c :: t'). rewrite <- app_assoc. reflexivity.
    + destruct Hs as [a ->]. unfold pos. rewrite !app_length. cbn [length]. rewrite app_length. lia.
  - destruct s as [|c r]; [constructor|]. rewrite items_cons.
    destruct (skip_sep c) eqn:E1; [exfalso; eapply H2; [reflexivity|apply skip_sep_ok, E1]|].
    destruct (end_item c); [constructor|]. destruct (no_token json (c :: r) Hs H1) as (N1 & N2).
    rewrite <- (fval_exists json), N1, N2. constructor.
Qed.

Lemma pieces_any : forall m l n, length l < m -> exists ps, pieces n l ps.
Proof.
  induction m as [|m IH]; intros l n Hm; [lia|]. destruct l as [|c r]; [exists []; constructor|].
  destruct (skip_sep c) eqn:E1.
  { destruct (IH r (S n)) as (ps & P); [cbn in Hm; lia|]. exists ps. apply pc_filler; [apply skip_sep_ok, E1|exact P]. }
  pose proof (flat_token (c :: r)) as P. destruct (lflat (c :: r)) as ((t, i), r') eqn:E.
  destruct P as [(El & Hn & Ht & _)|(-> & ->)].
  - destruct (IH r' (n + length t)) as (ps & P).
    { rewrite El, app_length in Hm. destruct t; [congruence|]. cbn in Hm. lia. }
    exists ((n, t, kd i) :: ps). rewrite El. apply pc_token; auto.
  - exists []. apply pc_stop.
    + intros t k r' Ht El. destruct (token_flat t k r' Ht) as (i' & E' & _). destruct (token_head t k r' Ht) as (c' & t' & -> & _).
      rewrite <- El, E in E'. discriminate.
    + intros d r' [= <- <-] Hf. apply skip_sep_ok in Hf. congruence.
Qed.
Theorem pieces_total n s : exists ps, pieces n s ps.
Proof. apply (pieces_any (S (length s))). lia. Qed.

Theorem pieces_unique n s l l' : pieces n s l -> pieces n s l' -> l = l'.
Proof.
  intros H H'. set (json := repeat 0%N n ++ s).
  assert (Hs : suf s json) by (exists (repeat 0%N n); reflexivity).
  assert (Hn : n = pos json s) by (unfold json, pos; rewrite app_length, repeat_length; lia).
  pose proof (pieces_items json n s l H Hs Hn) as F. pose proof (pieces_items json n s l' H' Hs Hn) as F'.
  revert F'. generalize l'. clear - F. induction F as [|v p vs ps Hp _ IH]; intros l' F'; inversion F' as [|? q ? qs Hq Fq]; subst; auto.
  f_equal; [|auto]. destruct p as ((a, b), c), q as ((a', b'), c'). cbn in Hp, Hq.
  destruct Hp as (<- & <- & A & _), Hq as (<- & <- & B & _). congruence.
Qed.

Theorem pieces_one n s : exists l, pieces n s l /\ forall l', pieces n s l' -> l' = l.
Proof. destruct (pieces_total n s) as (l & H). exists l. split; [exact H|]. intros l' H'. exact (pieces_unique n s l' l H' H). Qed.

Lemma suf_tl (l : bytes) : suf (tl l) l.
Proof. destruct l; [apply suf_refl|apply suf_cons]. Qed.

Theorem array_pieces v c s ps : v_kind v = KArray -> v_json v = c :: s -> pieces 1 s ps ->
  exists xs, v_array v = Ok xs /\ Forall2 is_piece xs ps.
Proof.
  intros Hk Hj H. rewrite v_array_spec, Hk, Hj. eexists. split; [reflexivity|]. cbn [tl].
  apply (pieces_items (c :: s) 1); auto; [apply suf_cons|]. unfold pos. cbn [length]. lia.
Qed.

Lemma run_record l : forall st, run (fun st (kv : value * value) => record_args st (fst kv) (snd kv)) st l = Ok (rev l ++ st).
Proof.
  induction l as [|[k x] l IH]; intros st; [reflexivity|]. cbn [run record_args fst snd bind]. rewrite IH. cbn [rev].
  rewrite <- app_assoc. reflexivity.
Qed.
Lemma run_record1 l : forall st, run (fun st (x : value) => record_args st value_default x) st l = Ok (rev (map (fun x => (value_default, x)) l) ++ st).
Proof.
  induction l as [|x l IH]; intros st; [reflexivity|]. cbn [run record_args bind map]. rewrite IH. cbn [rev].
  rewrite <- app_assoc. reflexivity.
Qed.

Lemma Forall2_two {A B} (P : A -> B -> Prop) : forall n xs ps, length xs < n -> Forall2 P xs ps ->
  Forall2 (fun x p => P (fst x) (fst p) /\ P (snd x) (snd p)) (pair_up xs) (two_by_two ps).
Proof.
  induction n as [|n IH]; intros xs ps Hn H; [lia|]. destruct H as [|a p xs ps H1 H]; [constructor|].
  destruct H as [|b q xs ps H2 H]; [constructor|]. cbn [pair_up two_by_two]. constructor; [split; assumption|].
  apply IH; [cbn in Hn; lia|exact H].
Qed.

Theorem object_pieces v c s ps : v_kind v = KObject -> v_json v = c :: s -> pieces 1 s ps ->
  exists xs, v_each v record_args [] = Ok (rev xs) /\
    Forall2 (fun x p => is_piece (fst x) (fst p) /\ is_piece (snd x) (snd p)) xs (two_by_two ps).
Proof.
  intros Hk Hj H. rewrite v_each_spec, Hk. replace (v_exists v) with true by (unfold v_exists; rewrite Hj; reflexivity).
  cbn [negb]. rewrite run_record, app_nil_r. eexists. split; [reflexivity|].
  eapply Forall2_two; [apply Nat.lt_succ_diag_r|]. rewrite Hj. cbn [tl].
  apply (pieces_items (c :: s) 1); auto; [apply suf_cons|]. unfold pos. cbn [length]. lia.
Qed.

Theorem each_pieces v c s ps : v_kind v = KArray -> v_json v = c :: s -> pieces 1 s ps ->
  exists xs, v_each v record_args [] = Ok (rev xs) /\ Forall (fun kx => fst kx = value_default) xs /\ Forall2 is_piece (map snd xs) ps.
Proof.
  intros Hk Hj H. rewrite v_each_spec, Hk. replace (v_exists v) with true by (unfold v_exists; rewrite Hj; reflexivity).
  cbn [negb]. rewrite run_record1, app_nil_r. eexists. split; [reflexivity|]. split.
  - apply Forall_forall. intros kx Hi. apply in_map_iff in Hi as (x & <- & _). reflexivity.
  - rewrite map_map, map_id, Hj. cbn [tl]. apply (pieces_items (c :: s) 1); auto; [apply suf_cons|]. unfold pos. cbn [length]. lia.
Qed.

(* ---------- parse ---------- *)

Lemma dropw_ws w r : Forall (fun c => (c <= 0x20)%N) w -> (forall c t, r = c :: t -> (0x20 < c)%N) -> dropw above_sp (w ++ r) = r.
Proof.
  intros Hw Hr. apply dropw_app.
  - eapply Forall_impl; [|exact Hw]. intros c Hc. unfold above_sp. cbn beta in Hc. lia.
  - intros d r' E. specialize (Hr d r' E). unfold above_sp. lia.
Qed.

Theorem parse_bracket w c r : Forall (fun c => (c <= 0x20)%N) w -> c = 0x7B%N \/ c = 0x5B%N ->
  exists v, parse (w ++ c :: r) = Ok v /\ is_piece v (length w, c :: r, if (c =? 0x7B)%N then KObject else KArray).
Proof.
  intros Hw Hc. rewrite parse_spec. eexists. split; [reflexivity|]. unfold lparse.
  rewrite dropw_ws; [|exact Hw|intros d t [= <- _]; destruct Hc; lia].
  assert (E : pos (w ++ c :: r) (c :: r) = length w) by (unfold pos; rewrite app_length; lia). rewrite E.
  destruct Hc as [->| ->]; cbn [N.eqb Pos.eqb]; (split; [reflexivity|]); (split; [reflexivity|]); split; reflexivity.
Qed.
Theorem parse_token w t k r : Forall (fun c => (c <= 0x20)%N) w -> token t k r -> k <> KObject -> k <> KArray ->
  exists v, parse (w ++ t ++ r) = Ok v /\ is_piece v (length w, t, k).
Proof.
  intros Hw Ht Ho Ha. rewrite parse_spec. eexists. split; [reflexivity|].
  destruct (token_head t k r Ht) as (c & t' & Et & E1 & _). unfold lparse.
  rewrite dropw_ws; [|exact Hw|].
  2:{ intros d u E. rewrite Et in E. injection E as <- _. unfold skip_sep in E1. lia. }
  assert (E : pos (w ++ t ++ r) (t ++ r) = length w) by (unfold pos; rewrite !app_length; lia).
  assert (Hs : suf (t ++ r) (w ++ t ++ r)) by (exists w; reflexivity).
  pose proof (fval_piece _ t k r Hs Ht) as P. rewrite E in P. rewrite Et in *. cbn [app] in *.
  replace (c =? 123)%N with false. 2:{ symmetry. apply N.eqb_neq. intros ->. inversion Ht; subst; try congruence; lia. }
  replace (c =? 91)%N with false; [exact P|]. symmetry. apply N.eqb_neq. intros ->. inversion Ht; subst; try congruence; lia.
Qed.
Theorem parse_nothing w r : Forall (fun c => (c <= 0x20)%N) w -> (forall c t, r = c :: t -> (0x20 < c)%N /\ c <> 0x7B%N /\ c <> 0x5B%N) ->
  (forall t k r', token t k r' -> r <> t ++ r') -> exists v, parse (w ++ r) = Ok v /\ v_exists v = false.
Proof.
  intros Hw Hr Hn. rewrite parse_spec. eexists. split; [reflexivity|]. unfold lparse.
  rewrite dropw_ws; [|exact Hw|intros c t E; apply (Hr c t E)].
  destruct r as [|c r]; [reflexivity|]. destruct (Hr c r eq_refl) as (_ & H1 & H2).
  rewrite (proj2 (N.eqb_neq c 123) H1), (proj2 (N.eqb_neq c 91) H2).
  apply no_token; [exists w; reflexivity|exact Hn].
Qed.
