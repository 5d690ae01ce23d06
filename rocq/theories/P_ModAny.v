(** What the modifiers and [ugly] make of a text that need not be JSON. *)
From Coq Require Import Arith Lia List NArith ZArith Bool Wf_nat Sorted.
From Verif Require Import P_Base P_Json P_Valid P_Str P_Glob P_Scan P_Each P_Doc P_Path P_LGet P_Parts P_Ext P_Value P_Num P_Key P_Head P_Find
  P_GetDoc P_GetArr P_Pipe P_Follow P_Decode P_Bad P_Rough P_Ugly P_Mod P_ModDoc P_ModFlat P_ModJoin P_Total
  M_Util M_Num M_Scan M_Value M_Path M_Pretty M_Get S_Json S_Str S_Decode S_Path S_Get S_Query S_Mod S_Rough S_Look P_Look S_ModAny.
Import ListNotations.
Open Scope list_scope.

(* ---------- ugly ---------- *)

Lemma bared_lugly s t : bared s t -> lugly s = t.
Proof.
  induction 1 as [|c s t Hc H IH|c s t Hc Hq H IH|b s t Hb H IH|s H].
  - reflexivity.
  - rewrite lugly_cons. replace (32 <? c)%N with false by lia. exact IH.
  - rewrite lugly_cons. replace (32 <? c)%N with true by lia. rewrite (proj2 (N.eqb_neq c 34) Hq), IH. reflexivity.
  - unfold quoted. cbn [app]. rewrite <- !app_assoc. cbn [app]. rewrite lugly_cons. cbn [N.ltb N.compare N.eqb Pos.eqb].
    change (32 <? 34)%N with true. cbv iota. rewrite (quotable_split b s Hb), IH. reflexivity.
  - rewrite lugly_cons. change (32 <? 34)%N with true. change (34 =? 34)%N with true. cbv iota.
    rewrite (none_split s H). reflexivity.
Qed.
Lemma bared_total : forall n s, length s < n -> exists t, bared s t.
Proof.
  induction n as [|n IH]; intros s Hn; [lia|]. destruct s as [|c s]; [exists []; constructor|]. cbn [length] in Hn.
  destruct (N.le_gt_cases c 32) as [Hc|Hc].
  - destruct (IH s ltac:(lia)) as (t & H). exists t. apply ba_blank; auto.
  - destruct (N.eq_dec c 34) as [->|Hq].
    + destruct (split_str s) as [[b r]|] eqn:E.
      * apply (split_quotable (S (length s))) in E as [Hb ->]; [|lia]. rewrite app_length in Hn. cbn [length] in Hn.
        destruct (IH r ltac:(lia)) as (t & H). exists (quoted b ++ t).
        replace (34%N :: b ++ 34%N :: r) with (quoted b ++ r) by (unfold quoted; cbn [app]; rewrite <- app_assoc; reflexivity).
        apply ba_string; auto.
      * exists (34%N :: s). apply ba_open, split_none, E.
    + destruct (IH s ltac:(lia)) as (t & H). exists (c :: t). apply ba_byte; auto.
Qed.
Theorem ugly_bared s t : ugly s = Ok t <-> bared s t.
Proof.
  rewrite ugly_spec. destruct (bared_total (S (length s)) s ltac:(lia)) as (u & H). pose proof (bared_lugly _ _ H) as E.
  split; [intros [= <-]; congruence|]. intros H'. rewrite (bared_lugly _ _ H'). reflexivity.
Qed.
Lemma bared_again s t : bared s t -> bared t t.
Proof.
  induction 1 as [|c s t Hc H IH|c s t Hc Hq H IH|b s t Hb H IH|s H];
    [apply ba_nil|exact IH|apply ba_byte; auto|apply ba_string; auto|apply ba_open, H].
Qed.
Theorem ugly_settles s : exists t, ugly s = Ok t /\ ugly t = Ok t.
Proof.
  destruct (bared_total (S (length s)) s ltac:(lia)) as (t & H). exists t. split; apply ugly_bared; auto. eapply bared_again, H.
Qed.

(* ---------- the pieces a callback sees ---------- *)

Definition is_cut (x : value) (p : piece) : Prop := is_piece x p /\ v_slice x = piece_text p.

Lemma cuts v c s (ps : list piece) : v_json v = c :: s -> pieces 1 s ps ->
  Forall2 is_cut (map (fval (v_json v)) (items (tl (v_json v)))) ps.
Proof.
  intros Hj H. rewrite Hj. cbn [tl]. assert (F : Forall2 is_piece (map (fval (c :: s)) (items s)) ps).
  { apply (pieces_items (c :: s) 1); auto; [apply suf_cons|]. unfold pos. cbn [length]. lia. }
  clear H Hj. revert ps F. generalize (items s) as l. induction l as [|x l IH]; intros ps F; inversion F; subst; cbn [map]; constructor; auto.
  split; auto. destruct y as [[n t] k]. destruct H1 as (E & _). unfold piece_text. cbn [fst snd]. rewrite <- E. apply fval_slice_json.
Qed.
(** The name a piece stands for. *)
Lemma fval_str json t k r n : suf (t ++ r) json -> token t k r -> exists m, v_str (fval json (t ++ r)) = Ok m /\ stands_for (n, t, k) m.
Proof.
  intros Hs Ht. destruct (fval_piece json t k r Hs Ht) as (Ej & Ek & _). unfold v_str. rewrite Ek, Ej.
  inversion Ht; subst; cbv iota; try (eexists; split; [reflexivity|constructor; auto]; fail).
  unfold fval, linfo, ltext, quoted. cbn [app]. rewrite <- app_assoc. cbn [app lflat]. change (34 =? 34)%N with true. cbv iota.
  rewrite (quotable_split b r H). cbn [fst snd].
  replace (N.lor (esc_info b) INFO_STRING =? 0)%N with false by (unfold esc_info; destruct (hasbsl b); reflexivity).
  cbn [mkslice v_info v_uesc].
  replace (has (N.lor (esc_info b) INFO_STRING) INFO_ESC) with (hasbsl b) by (unfold esc_info; destruct (hasbsl b); reflexivity).
  assert (Hd : name_of b (sdec b)) by (apply name_of_sdec; reflexivity). unfold sdec in Hd.
  destruct (hasbsl b) eqn:Eb.
  - eexists. split; [reflexivity|]. apply (sf_string n b); auto. unfold esc_of, esc_info. rewrite Eb. change (has _ _) with true. cbv iota.
    rewrite unesc_quoted. exact Hd.
  - exists b. split; [apply strip_quotes_quoted|]. apply (sf_string n b); auto.
Qed.
Lemma stands_for_one p m m' : stands_for p m -> stands_for p m' -> m = m'.
Proof.
  intros H H'. destruct H as [n b m Hb Hm|n t|n t|n t|n t k Hk]; inversion H'; subst; auto;
    try (destruct Hk as [|[|]]; discriminate); try (match goal with Z : KString = _ \/ _ |- _ => destruct Z as [|[|]]; discriminate | Z : KTrue = _ \/ _ |- _ => destruct Z as [|[|]]; discriminate
      | Z : KFalse = _ \/ _ |- _ => destruct Z as [|[|]]; discriminate | Z : KNull = _ \/ _ |- _ => destruct Z as [|[|]]; discriminate end).
  match goal with E : _ ++ [34%N] = _ ++ [34%N] |- _ => apply app_inj_tail in E as [-> _] | _ => idtac end.
  match goal with Z : name_of _ m' |- _ => apply name_of_sdec in Z end. apply name_of_sdec in Hm. congruence.
Qed.
Lemma stands_for_any n t k r : token t k r -> exists m, stands_for (n, t, k) m.
Proof. intros H. destruct (fval_str (t ++ r) t k r n (suf_refl _) H) as (m & _ & Hm). eauto. Qed.

Definition is_key (x : value) (p : piece) : Prop := is_cut x p /\ exists m, v_str x = Ok m /\ stands_for p m.
Lemma keys v c s (ps : list piece) : v_json v = c :: s -> pieces 1 s ps ->
  Forall2 is_key (map (fval (v_json v)) (items (tl (v_json v)))) ps.
Proof.
  intros Hj H. pose proof (cuts v c s ps Hj H) as F. rewrite Hj in *. cbn [tl] in *.
  assert (Hi : forall x, In x (items s) -> suf x (c :: s)).
  { intros x Hx. eapply suf_trans; [apply (P_Look.items_suf (S (length s)) s x); auto|apply suf_cons]. }
  clear H Hj. revert ps F. induction (items s) as [|x l IH]; intros ps F; inversion F as [|? p ? ps' H1 H2]; subst; cbn [map]; constructor; auto.
  - split; auto. destruct p as [[n t] k]. destruct H1 as ((A & B & _ & D) & _). specialize (Hi x (or_introl eq_refl)).
    destruct (token_dec x) as [(t' & k' & r & -> & T)|T].
    + destruct (fval_piece (c :: s) t' k' r Hi T) as (A' & B' & _). rewrite A in A'. rewrite B in B'. subst t' k'. apply fval_str; auto.
    + destruct (no_token (c :: s) x Hi T) as [Z _]. congruence.
  - apply IH; auto. intros y Hy. apply Hi. right. exact Hy.
Qed.
Lemma array_cuts v c s (ps : list piece) : v_kind v = KArray -> v_json v = c :: s -> pieces 1 s ps ->
  exists xs, Forall2 is_cut xs ps /\ forall S (step : S -> value -> value -> R (S * bool)) st,
    v_each v step st = visit (fun st x => step st value_default x) st xs.
Proof.
  intros Hk Hj H. eexists. split; [exact (cuts v c s ps Hj H)|]. intros S step st. rewrite v_each_spec, Hk.
  rewrite (exists_json v c s Hj). reflexivity.
Qed.
Lemma object_cuts v c s (ps : list piece) : v_kind v = KObject -> v_json v = c :: s -> pieces 1 s ps ->
  exists xs, Forall2 (fun x p => is_key (fst x) (fst p) /\ is_key (snd x) (snd p)) xs (two_by_two ps) /\
    forall S (step : S -> value -> value -> R (S * bool)) st,
      v_each v step st = visit (fun st kv => step st (fst kv) (snd kv)) st xs.
Proof.
  intros Hk Hj H. eexists. split; [eapply Forall2_two; [apply Nat.lt_succ_diag_r|exact (keys v c s ps Hj H)]|].
  intros S step st. rewrite v_each_spec, Hk. rewrite (exists_json v c s Hj). reflexivity.
Qed.

(* ---------- where pieces lie ---------- *)

Lemma pieces_lie n s (ps : list piece) : pieces n s ps ->
  Forall (fun p => n <= fst (fst p) /\ fst (fst p) + length (piece_text p) <= n + length s /\
                   piece_text p = bytes_of s (fst (fst p) - n) (fst (fst p) - n + length (piece_text p))) ps.
Proof.
  induction 1 as [n|n c r Hc|n c r l Hc H IH|n t k r l Ht H IH|n s H1 H2]; try constructor.
  - eapply Forall_impl; [|exact IH]. intros [[m t] k] (A & B & C). unfold piece_text in *. cbn [fst snd length] in *.
    split; [lia|]. split; [lia|]. rewrite C at 1. unfold bytes_of. replace (m - n) with (S (m - S n)) by lia. cbn [skipn]. f_equal; lia.
  - unfold piece_text. cbn [fst snd]. rewrite app_length. split; [lia|]. split; [lia|]. rewrite Nat.sub_diag. unfold bytes_of. cbn [skipn].
    replace (0 + length t - 0) with (length t + 0) by lia. rewrite firstn_app_2. cbn [firstn]. rewrite app_nil_r. reflexivity.
  - eapply Forall_impl; [|exact IH]. intros [[m u] k'] (A & B & C). unfold piece_text in *. cbn [fst snd] in *. rewrite app_length.
    split; [lia|]. split; [lia|]. rewrite C at 1. unfold bytes_of. replace (m - n) with (length t + (m - (n + length t))) by lia.
    rewrite skipn_app. rewrite (skipn_all2 t) by lia. cbn [app]. f_equal; [lia|f_equal; lia].
Qed.
Lemma pieces_sorted n s (ps : list piece) : pieces n s ps -> Sorted (fun p q : piece => fst (fst p) <= fst (fst q)) ps.
Proof.
  induction 1 as [n|n c r Hc|n c r l Hc H IH|n t k r l Ht H IH|n s H1 H2]; try constructor; auto.
  apply pieces_lie in H. destruct H as [|q l (A & _) _]; constructor. cbn [fst]. lia.
Qed.
Lemma sorted_two (ps : list piece) : Sorted (fun p q : piece => fst (fst p) <= fst (fst q)) ps ->
  forall p, In p (two_by_two ps) -> In (fst p) ps /\ In (snd p) ps /\ fst (fst (fst p)) <= fst (fst (snd p)).
Proof.
  remember (length ps) as n eqn:En. revert ps En. induction n as [n IH] using lt_wf_ind. intros ps En H p Hp.
  destruct ps as [|a [|b ps]]; try contradiction. cbn [two_by_two] in Hp. apply Sorted_inv in H as [H1 H2]. inversion H2; subst.
  destruct Hp as [<-|Hp]; [cbn [fst snd In]; auto|]. apply Sorted_inv in H1 as [H1 _].
  destruct (IH (length ps) ltac:(cbn [length]; lia) ps eq_refl H1 p Hp) as (A & B & C). cbn [In]. auto.
Qed.

Lemma visit_collect {A} (h : A -> R bytes) (f : A -> bytes) l : Forall (fun x => h x = Ok (f x)) l -> forall acc,
  visit (fun acc x => s <- h x ;; Ok (acc ++ [s], true)) acc l = Ok (acc ++ map f l).
Proof. intros H acc. rewrite <- visit_run. apply run_collect, H. Qed.
Lemma visit_texts {A B} (P : A -> B -> Prop) (h : A -> R bytes) (f : B -> bytes) l l' : Forall2 P l l' ->
  (forall a b, In b l' -> P a b -> h a = Ok (f b)) -> forall acc,
  visit (fun acc x => s <- h x ;; Ok (acc ++ [s], true)) acc l = Ok (acc ++ map f l').
Proof.
  induction 1 as [|a b l l' H1 H IH]; intros Hh acc; cbn [visit map]; [rewrite app_nil_r; reflexivity|].
  rewrite (Hh a b (or_introl eq_refl) H1). cbn [bind]. rewrite IH; [|intros; apply Hh; [right|]; auto]. rewrite <- app_assoc. reflexivity.
Qed.

(* ---------- reverse ---------- *)

Lemma parse_open w c r : Forall (fun c => (c <= 0x20)%N) w -> c = 0x7B%N \/ c = 0x5B%N ->
  exists v, parse (w ++ c :: r) = Ok v /\ v_json v = c :: r /\ v_slice v = c :: r /\ v_kind v = if (c =? 0x7B)%N then KObject else KArray.
Proof.
  intros Hw Hc. destruct (parse_bracket w c r Hw Hc) as (v & E & P1 & P2 & _). exists v. repeat split; auto.
  rewrite parse_spec in E. injection E as <-. rewrite <- lparse_slice. exact P1.
Qed.

Lemma reverse_array w r (ps : list piece) : Forall (fun c => (c <= 0x20)%N) w -> pieces 1 r ps ->
  mod_reverse (w ++ 0x5B%N :: r) = Ok (0x5B%N :: commas (rev (map piece_text ps)) ++ [0x5D%N]).
Proof.
  intros Hw H. destruct (parse_open w 91 r Hw ltac:(auto)) as (v & E & Ej & Es & Ek). unfold mod_reverse. rewrite E. cbn [bind].
  cbn [N.eqb Pos.eqb] in Ek. rewrite Ek. destruct (array_cuts v _ _ _ Ek Ej H) as (xs & Hx & Ev). rewrite Ev.
  rewrite (visit_ext _ (fun acc x => s <- (vindex <- unwrap_opt (v_index x) ;; slice (v_slice v) vindex (vindex + length (v_slice x))) ;; Ok (acc ++ [s], true))).
  2:{ intros st x. destruct (unwrap_opt (v_index x)) as [i|]; reflexivity. }
  rewrite (visit_texts is_cut _ piece_text xs ps Hx).
  - cbn [bind app]. rewrite join_commas_eq. reflexivity.
  - intros x [[n t] k] Hi ((A & _ & C & _) & D). rewrite C, D, Es. cbn [unwrap_opt bind]. unfold piece_text in *. cbn [fst snd] in *.
    pose proof (pieces_lie _ _ _ H) as L. rewrite Forall_forall in L. destruct (L _ Hi) as (L1 & L2 & L3). unfold piece_text in *. cbn [fst snd] in *.
    unfold slice. replace (n <=? n + length t) with true by (symmetry; apply Nat.leb_le; lia).
    replace (n + length t <=? length (91%N :: r)) with true by (symmetry; apply Nat.leb_le; cbn [length]; lia). cbn [andb].
    f_equal. etransitivity; [|symmetry; exact L3]. unfold bytes_of. destruct n as [|n]; [lia|]. cbn [skipn].
    replace (S n - 1) with n by lia. f_equal; lia.
Qed.
Lemma reverse_object w r (ps : list piece) : Forall (fun c => (c <= 0x20)%N) w -> pieces 1 r ps ->
  mod_reverse (w ++ 0x7B%N :: r) = Ok (0x7B%N :: commas (rev (map (stretch (0x7B%N :: r)) (two_by_two ps))) ++ [0x7D%N]).
Proof.
  intros Hw H. destruct (parse_open w 123 r Hw ltac:(auto)) as (v & E & Ej & Es & Ek). unfold mod_reverse. rewrite E. cbn [bind].
  cbn [N.eqb Pos.eqb] in Ek. rewrite Ek. destruct (object_cuts v _ _ _ Ek Ej H) as (xs & Hx & Ev). rewrite Ev.
  rewrite (visit_ext _ (fun acc x => s <- (kindex <- unwrap_opt (v_index (fst x)) ;; vindex <- unwrap_opt (v_index (snd x)) ;;
      slice (v_slice v) kindex (vindex + length (v_slice (snd x)))) ;; Ok (acc ++ [s], true))).
  2:{ intros st x. destruct (unwrap_opt (v_index (fst x))) as [i|]; [|reflexivity]. cbn [bind]. destruct (unwrap_opt (v_index (snd x))) as [i'|]; reflexivity. }
  rewrite (visit_texts _ _ (stretch (123%N :: r)) xs _ Hx).
  - cbn [bind app]. rewrite join_commas_eq. reflexivity.
  - intros x [p q] Hi [[[HA HA'] _] [[HB HB'] _]]. destruct (sorted_two ps (pieces_sorted _ _ _ H) _ Hi) as (I1 & I2 & L).
    pose proof (pieces_lie _ _ _ H) as Lp. rewrite Forall_forall in Lp. destruct (Lp _ I2) as (L1 & L2 & _).
    destruct p as [[n t] k]. destruct q as [[n' t'] k']. cbn [fst snd] in *. unfold piece_text in *. cbn [fst snd] in *.
    destruct HA as (_ & _ & C & _). destruct HB as (_ & _ & C' & _). rewrite C, C', HB', Es. cbn [unwrap_opt bind].
    unfold slice. replace (n <=? n' + length t') with true by (symmetry; apply Nat.leb_le; lia).
    replace (n' + length t' <=? length (123%N :: r)) with true by (symmetry; apply Nat.leb_le; cbn [length]; lia). reflexivity.
Qed.

Lemma into_out json name arg c out : mod_name name -> arg_ok arg -> c = 0x7B%N \/ c = 0x5B%N ->
  mod_apply get name json (arg_text arg) = Ok (c :: out) ->
  exists v, get json (modifier name arg) = Ok v /\ v_exists v = true /\ v_json v = c :: out /\ v_kind v = if (c =? 0x7B)%N then KObject else KArray.
Proof.
  intros Hn Ha Hc E. destruct (get_mod_out json name arg _ Hn Ha E) as (v & x & E1 & E2 & E3). exists v. split; auto.
  destruct (parse_bracket [] c out ltac:(constructor) Hc) as (x' & F & P1 & P2 & _ & P4). cbn [app] in F. rewrite F in E2. injection E2 as <-.
  rewrite (veq_exists _ _ E3), (veq_kind _ _ E3), (proj1 E3). auto.
Qed.

Theorem any_reverse_array w r (ps : list piece) arg : Forall (fun c => (c <= 0x20)%N) w -> pieces 1 r ps -> arg_ok arg ->
  exists v, get (w ++ 0x5B%N :: r) (modifier n_reverse arg) = Ok v /\ v_exists v = true /\
    v_json v = 0x5B%N :: commas (rev (map piece_text ps)) ++ [0x5D%N] /\ v_kind v = KArray.
Proof. intros Hw H Ha. apply (into_out _ n_reverse _ 91); auto using plain_name. exact (reverse_array w r ps Hw H). Qed.
Theorem any_reverse_object w r (ps : list piece) arg : Forall (fun c => (c <= 0x20)%N) w -> pieces 1 r ps -> arg_ok arg ->
  exists v, get (w ++ 0x7B%N :: r) (modifier n_reverse arg) = Ok v /\ v_exists v = true /\
    v_json v = 0x7B%N :: commas (rev (map (stretch (0x7B%N :: r)) (two_by_two ps))) ++ [0x7D%N] /\ v_kind v = KObject.
Proof. intros Hw H Ha. apply (into_out _ n_reverse _ 123); auto using plain_name. exact (reverse_object w r ps Hw H). Qed.

(* ---------- flatten ---------- *)

Lemma array_token t r : token t KArray r -> exists q c, t = 0x5B%N :: q ++ [c] /\ bracket_close c.
Proof. intros H. inversion H; subst. eauto. Qed.
Lemma object_token t r : token t KObject r -> exists q c, t = 0x7B%N :: q ++ [c] /\ bracket_close c.
Proof. intros H. inversion H; subst. eauto. Qed.
Lemma pieces_tokens n s (ps : list piece) : pieces n s ps ->
  Forall (fun p => (exists r, token (piece_text p) (snd p) r) /\ length (piece_text p) <= length s) ps.
Proof.
  induction 1 as [n|n c r Hc|n c r l Hc H IH|n t k r l Ht H IH|n s H1 H2]; try constructor.
  - eapply Forall_impl; [|exact IH]. cbn [length]. intros p [A B]. split; auto.
  - unfold piece_text. cbn [fst snd]. rewrite app_length. split; [eauto|lia].
  - eapply Forall_impl; [|exact IH]. intros p [A B]. rewrite app_length. split; auto. lia.
Qed.
Lemma close_above c : bracket_close c -> (32 < c)%N.
Proof. intros [->|[->| ->]]; lia. Qed.
Lemma removelast_snoc {A} (l : list A) a : removelast (l ++ [a]) = l.
Proof. rewrite removelast_app by discriminate. cbn [removelast]. apply app_nil_r. Qed.
Lemma unwrap_token t r k : (k = KArray \/ k = KObject) -> token t k r -> unwrap t = Ok (between t).
Proof.
  intros [->| ->] H.
  - destruct (array_token _ _ H) as (q & c & -> & Hc). rewrite unwrap_caps by (auto using close_above). unfold between. cbn [tl]. rewrite removelast_snoc. reflexivity.
  - destruct (object_token _ _ H) as (q & c & -> & Hc). rewrite unwrap_caps by (auto using close_above). unfold between. cbn [tl]. rewrite removelast_snoc. reflexivity.
Qed.
Lemma kind_eqb_eq a b : kind_eqb a b = true <-> a = b.
Proof. destruct a, b; split; intros; try reflexivity; discriminate. Qed.
Lemma kind_eqb_ne a b : a <> b -> kind_eqb a b = false.
Proof. destruct a, b; intros; try reflexivity; congruence. Qed.

Lemma Forall2_in {A B} (P Q : A -> B -> Prop) l l' : Forall2 P l l' -> (forall a b, In b l' -> P a b -> Q a b) -> Forall2 Q l l'.
Proof. induction 1; intros H'; constructor; [apply H'; [left|]; auto|]. apply IHForall2. intros; apply H'; [right|]; auto. Qed.
Lemma Forall2_map_r {A B C} (P : A -> C -> Prop) (f : B -> C) l l' : Forall2 (fun a b => P a (f b)) l l' -> Forall2 P l (map f l').
Proof. induction 1; cbn [map]; constructor; auto. Qed.

Lemma flatten_array g arg dv fuel w r (ps : list piece) : g arg s_deep = Ok dv -> v_bool dv = Ok false ->
  Forall (fun c => (c <= 0x20)%N) w -> pieces 1 r ps ->
  mod_flatten (S fuel) g (w ++ 0x5B%N :: r) arg = Ok (0x5B%N :: commas (filter non_empty (map laid_open ps)) ++ [0x5D%N]).
Proof.
  intros Hg Hb Hw H. cbn [mod_flatten]. destruct (parse_open w 91 r Hw ltac:(auto)) as (v & E & Ej & Es & Ek). rewrite E. cbn [bind].
  cbn [N.eqb Pos.eqb] in Ek. rewrite Ek. change (negb (kind_eqb KArray KArray)) with false. cbv iota. rewrite Hg. cbn [bind]. rewrite Hb. cbn [bind].
  destruct (array_cuts v _ _ _ Ek Ej H) as (xs & Hx & Ev). rewrite Ev.
  destruct (visit_pieces (fun v => if kind_eqb (v_kind v) KArray then unwrap (v_json v) else Ok (v_slice v)) 91%N xs (map laid_open ps))
    with (L := @nil bytes) (n := 0) as (n' & E').
  - apply Forall2_map_r. eapply Forall2_in; [exact Hx|]. intros x [[n t] k] Hi ((A & B & _) & D). cbn beta. unfold piece_text in D. cbn [fst snd] in D. rewrite A, B, D.
    unfold laid_open, piece_text. cbn [fst snd]. pose proof (pieces_tokens _ _ _ H) as T. rewrite Forall_forall in T. destruct (T _ Hi) as ((r' & T1) & _).
    unfold piece_text in T1. cbn [fst snd] in T1. destruct k; try reflexivity. cbn [kind_eqb]. apply (unwrap_token t r' KArray); auto.
  - tauto.
  - cbn [commas app] in E'. rewrite (visit_ext _ (fun '(out, n) x => raw <- (if kind_eqb (v_kind x) KArray then unwrap (v_json x) else Ok (v_slice x)) ;;
           match raw with
           | [] => Ok ((out, n), true)
           | _ => Ok (((if 0 <? n then out ++ [cCOMMA] else out) ++ raw, n + 1), true)
           end)) by (intros [out n] x; reflexivity).
    rewrite E'. cbn [bind app]. reflexivity.
Qed.

(** One list of leaves for each piece. *)
Definition leaf_of (p : piece) (ts : list text) : Prop :=
  match p with (n, t, k) =>
    (k <> KArray /\ ts = [t]) \/ (k = KArray /\ exists r ps', t = 0x5B%N :: r /\ pieces 1 r ps' /\ leaves ps' ts) end.
Lemma leaves_split (ps : list piece) ts : leaves ps ts -> exists tss, ts = concat tss /\ Forall2 leaf_of ps tss.
Proof.
  induction 1 as [|n t k ps ts Hk H IH|n r ps' ts' ps ts Hp H1 IH1 H IH].
  - exists []. split; auto.
  - destruct IH as (tss & -> & F). exists ([t] :: tss). split; auto. constructor; auto. left. auto.
  - destruct IH as (tss & -> & F). exists (ts' :: tss). split; auto. constructor; auto. right. eauto 6.
Qed.
Lemma leaves_ne : forall n s (ps : list piece), pieces n s ps -> forall ts, leaves ps ts -> Forall (fun t => t <> []) ts.
Proof.
  assert (T : forall n s (ps : list piece), pieces n s ps -> Forall (fun p => exists r, token (piece_text p) (snd p) r) ps).
  { intros n s ps Hp. eapply Forall_impl; [|exact (pieces_tokens _ _ _ Hp)]. intros p [A _]. exact A. }
  intros n s ps Hp ts H. apply T in Hp. clear n s. revert Hp.
  induction H as [|m t k ps ts Hk H IH|m r ps' ts' ps ts Hp1 H1 IH1 H IH]; intros Hp; [constructor| |].
  - inversion Hp as [|? ? [r Tk] Hp']; subst. constructor; [|apply IH, Hp']. unfold piece_text in Tk. cbn [fst snd] in Tk.
    destruct (token_head _ _ _ Tk) as (c & t' & E & _). cbn in E. rewrite E. discriminate.
  - inversion Hp as [|? ? _ Hp']; subst. apply Forall_app. split; [|apply IH, Hp']. apply IH1. exact (T _ _ _ Hp1).
Qed.
Lemma leaves_total : forall N n s (ps : list piece), length s < N -> pieces n s ps -> exists ts, leaves ps ts.
Proof.
  induction N as [|N IH]; intros n s ps Hn H; [lia|]. apply pieces_tokens in H. induction H as [|[[m t] k] ps [(r & T) L] H IHl]; [exists []; constructor|].
  destruct IHl as (ts & Hts). unfold piece_text in *. cbn [fst snd] in *. destruct (kind_eqb k KArray) eqn:Ek.
  - apply kind_eqb_eq in Ek. subst k. destruct (array_token _ _ T) as (q & c & -> & _). cbn [length] in L.
    destruct (pieces_total 1 (q ++ [c])) as (ps' & Hps'). destruct (IH 1 (q ++ [c]) ps' ltac:(lia) Hps') as (ts' & Hts').
    exists (ts' ++ ts). econstructor; eauto.
  - exists (t :: ts). constructor; auto. intros ->. discriminate.
Qed.
Theorem leaves_one n s (ps : list piece) : pieces n s ps -> exists ts, leaves ps ts.
Proof. apply (leaves_total (S (length s))). lia. Qed.

Lemma flatten_deep_array g arg dv : g arg s_deep = Ok dv -> v_bool dv = Ok true ->
  forall fuel w r (ps : list piece) ts, length (w ++ 0x5B%N :: r) < fuel -> Forall (fun c => (c <= 0x20)%N) w -> pieces 1 r ps -> leaves ps ts ->
  mod_flatten fuel g (w ++ 0x5B%N :: r) arg = Ok (0x5B%N :: commas ts ++ [0x5D%N]).
Proof.
  intros Hg Hb. induction fuel as [|fuel IH]; intros w r ps ts Hf Hw H Hl; [lia|].
  cbn [mod_flatten]. destruct (parse_open w 91 r Hw ltac:(auto)) as (v & E & Ej & Es & Ek). rewrite E. cbn [bind].
  cbn [N.eqb Pos.eqb] in Ek. rewrite Ek. change (negb (kind_eqb KArray KArray)) with false. cbv iota. rewrite Hg. cbn [bind]. rewrite Hb. cbn [bind].
  destruct (array_cuts v _ _ _ Ek Ej H) as (xs & Hx & Ev). rewrite Ev.
  destruct (leaves_split ps ts Hl) as (tss & -> & Hs).
  pose proof (leaves_ne _ _ _ H _ Hl) as Hne.
  assert (Hf' : length r < fuel) by (rewrite app_length in Hf; cbn [length] in Hf; lia).
  destruct (visit_pieces (fun v => if kind_eqb (v_kind v) KArray then f <- mod_flatten fuel g (v_json v) arg ;; unwrap f else Ok (v_slice v)) 91%N xs (map commas tss))
    with (L := @nil bytes) (n := 0) as (n' & E').
  - apply Forall2_map_r. apply pieces_tokens in H. clear - Hx Hs H IH Hf'. revert tss Hs. induction Hx as [|x [[n t] k] xs ps ((A & B & _) & D) Hx IHx];
      intros tss Hs; inversion Hs as [|? ts' ? tss' Hl' Hs']; subst; constructor.
    + cbn beta. unfold piece_text in D. cbn [fst snd] in D. inversion H as [|? ? [(r' & T) L] H']; subst. unfold piece_text in *. cbn [fst snd] in *.
      destruct Hl' as [(Hk & ->)|(Hk & r1 & ps1 & E1 & P1 & L1)].
      * rewrite (kind_eqb_ne _ _ Hk), D. reflexivity.
      * rewrite Hk, E1. cbn [kind_eqb]. rewrite E1 in L. cbn [length] in L.
        pose proof (IH [] r1 ps1 ts' ltac:(cbn [app length]; lia) ltac:(constructor) P1 L1) as E. cbn [app] in E. rewrite E. cbn [bind].
        apply unwrap_caps; [left; reflexivity|reflexivity].
    + apply IHx; auto. inversion H; auto.
  - tauto.
  - cbn [commas app] in E'. rewrite (visit_ext _ (fun '(out, n) x => raw <- (if kind_eqb (v_kind x) KArray then f <- mod_flatten fuel g (v_json x) arg ;; unwrap f else Ok (v_slice x)) ;;
           match raw with
           | [] => Ok ((out, n), true)
           | _ => Ok (((if 0 <? n then out ++ [cCOMMA] else out) ++ raw, n + 1), true)
           end)) by (intros [out n] x; reflexivity).
    rewrite E'. cbn [bind app]. do 2 f_equal. f_equal. apply commas_concat. clear - Hne. induction tss as [|a tss IH]; constructor.
    + cbn [concat] in Hne. apply Forall_app in Hne as [Hne _]. exact Hne.
    + apply IH. cbn [concat] in Hne. apply Forall_app in Hne as [_ Hne]. exact Hne.
Qed.

Theorem any_flatten w r (ps : list piece) arg dv : Forall (fun c => (c <= 0x20)%N) w -> pieces 1 r ps -> arg_ok arg ->
  get (arg_text arg) s_deep = Ok dv -> v_bool dv = Ok false ->
  exists v, get (w ++ 0x5B%N :: r) (modifier n_flatten arg) = Ok v /\ v_exists v = true /\
    v_json v = 0x5B%N :: commas (filter non_empty (map laid_open ps)) ++ [0x5D%N] /\ v_kind v = KArray.
Proof.
  intros Hw H Ha Hg Hb. apply (into_out _ n_flatten _ 91); auto using plain_name.
  change (mod_apply get n_flatten ?j ?a) with (mod_flatten (S (length j)) get j a). eapply flatten_array; eauto.
Qed.
Theorem any_flatten_deep w r (ps : list piece) ts arg dv : Forall (fun c => (c <= 0x20)%N) w -> pieces 1 r ps -> leaves ps ts -> arg_ok arg ->
  get (arg_text arg) s_deep = Ok dv -> v_bool dv = Ok true ->
  exists v, get (w ++ 0x5B%N :: r) (modifier n_flatten arg) = Ok v /\ v_exists v = true /\
    v_json v = 0x5B%N :: commas ts ++ [0x5D%N] /\ v_kind v = KArray.
Proof.
  intros Hw H Hl Ha Hg Hb. apply (into_out _ n_flatten _ 91); auto using plain_name.
  change (mod_apply get n_flatten ?j ?a) with (mod_flatten (S (length j)) get j a). eapply flatten_deep_array; eauto.
Qed.

(* ---------- join ---------- *)

Lemma visit_unwrap (o : N) xs (ps : list piece) : Forall2 is_cut xs ps -> Forall (fun p => exists r, token (piece_text p) (snd p) r) ps ->
  forall L n, (n = 0 <-> L = []) ->
  exists n', visit (fun '(out, n) v => if negb (kind_eqb (v_kind v) KObject) then Ok ((out, n), true)
         else
           let out := if 0 <? n then out ++ [cCOMMA] else out in
           u <- unwrap (v_slice v) ;;
           Ok ((out ++ u, n + 1), true)) (o :: commas L, n) xs =
    Ok (o :: commas (L ++ map (fun p => between (piece_text p)) (filter is_object ps)), n').
Proof.
  induction 1 as [|x [[m t] k] xs ps ((A & B & _) & D) H IH]; intros Ht L n Hn.
  - exists n. cbn [filter map]. rewrite app_nil_r. reflexivity.
  - inversion Ht as [|? ? (r & T) Ht']; subst. cbn [visit filter]. unfold is_object at 1. unfold piece_text in D, T. cbn [fst snd] in *.
    destruct (kind_eqb (v_kind x) KObject) eqn:Ek.
    + apply kind_eqb_eq in Ek. rewrite Ek in *. cbn [negb map]. cbv zeta. rewrite D. rewrite (unwrap_token _ r KObject); auto. cbn [bind].
      destruct (IH Ht' (L ++ [between (v_json x)]) (n + 1)) as (n' & E).
      { split; [lia|]. intros Z. apply app_eq_nil in Z as [_ Z]. discriminate. }
      exists n'. rewrite <- app_assoc in E. unfold piece_text at 1. cbn [app fst snd] in *. rewrite <- E. f_equal. f_equal.
      destruct L as [|l L].
      * replace n with 0 by (symmetry; apply Hn; reflexivity). reflexivity.
      * replace (0 <? n) with true by (destruct n; [exfalso; assert (l :: L = []) by (apply Hn; reflexivity); discriminate | reflexivity]).
        rewrite (commas_app (l :: L)) by discriminate. cbn [commas app]. rewrite <- app_assoc. reflexivity.
    + cbn [negb]. replace (match v_kind x with KObject => true | _ => false end) with false by (destruct (v_kind x); auto; discriminate).
      apply IH; auto.
Qed.

Lemma token_pieces n s (ps : list piece) : pieces n s ps -> Forall (fun p => exists r, token (piece_text p) (snd p) r) ps.
Proof. intros Hp. eapply Forall_impl; [|exact (pieces_tokens _ _ _ Hp)]. intros p [A _]. exact A. Qed.

Lemma join_kept g arg dv w r (ps : list piece) : g arg s_preserve = Ok dv -> v_bool dv = Ok true ->
  Forall (fun c => (c <= 0x20)%N) w -> pieces 1 r ps ->
  mod_join g (w ++ 0x5B%N :: r) arg = Ok (0x7B%N :: commas (map (fun p => between (piece_text p)) (filter is_object ps)) ++ [0x7D%N]).
Proof.
  intros Hg Hb Hw H. unfold mod_join. destruct (parse_open w 91 r Hw ltac:(auto)) as (v & E & Ej & Es & Ek). rewrite E. cbn [bind].
  cbn [N.eqb Pos.eqb] in Ek. rewrite Ek. change (negb (kind_eqb KArray KArray)) with false. cbv iota. rewrite Hg. cbn [bind]. rewrite Hb. cbn [bind].
  destruct (array_cuts v _ _ _ Ek Ej H) as (xs & Hx & Ev). rewrite Ev.
  destruct (visit_unwrap 123%N xs ps Hx (token_pieces _ _ _ H) [] 0) as (n' & E'); [tauto|]. change (123%N :: commas []) with [123%N] in E'. rewrite app_nil_l in E'.
  rewrite (visit_ext _ (fun '(out, n) v => if negb (kind_eqb (v_kind v) KObject) then Ok ((out, n), true)
         else
           let out := if 0 <? n then out ++ [cCOMMA] else out in
           u <- unwrap (v_slice v) ;;
           Ok ((out ++ u, n + 1), true))) by (intros [out n] x; reflexivity).
  rewrite E'. reflexivity.
Qed.


(* ---------- members put together ---------- *)

Definition f_name (f : field) : text := snd (fst f).
Definition kpart (out : list field) : list (bytes * bytes) := map (fun f => (fst (fst f), f_name f)) out.
Definition vpart (out : list field) : list (bytes * bytes) := map (fun f => (f_name f, snd f)) out.

Lemma beq_ne a b : a <> b -> beq a b = false.
Proof. intros H. destruct (beq a b) eqn:E; auto. apply beq_eq in E. contradiction. Qed.
Lemma beq_same a : beq a a = true.
Proof. apply beq_eq. reflexivity. Qed.

Lemma put_name l f : map f_name (put l f) = if in_dec (list_eq_dec N.eq_dec) (f_name f) (map f_name l) then map f_name l else map f_name l ++ [f_name f].
Proof.
  induction l as [|[[k n] v] l IH]; [reflexivity|]. cbn [put map].
  destruct (list_eq_dec N.eq_dec n (snd (fst f))) as [E|E]; destruct (in_dec _ (f_name f) (f_name (k, n, v) :: map f_name l)) as [I|I]; cbn [map app].
  - reflexivity.
  - exfalso. apply I. left. exact E.
  - rewrite IH. destruct (in_dec _ (f_name f) (map f_name l)) as [I'|I']; auto. exfalso. destruct I as [I|I]; auto.
  - rewrite IH. destruct (in_dec _ (f_name f) (map f_name l)) as [I'|I']; auto. exfalso. apply I. right. exact I'.
Qed.
Lemma put_nodup l f : NoDup (map f_name l) -> NoDup (map f_name (put l f)).
Proof.
  rewrite put_name. destruct (in_dec _ (f_name f) (map f_name l)) as [I|I]; auto. intros H. clear - I H.
  induction (map f_name l) as [|x t IH]; cbn [app]; [repeat constructor; auto|]. inversion H; subst. constructor.
  - intros Z. apply in_app_or in Z as [Z|[Z|[]]]; auto. apply I. left. auto.
  - apply IH; auto. intros Z. apply I. right. exact Z.
Qed.
Lemma vpart_put l f : vpart (put l f) = map_insert (f_name f) (snd f) (vpart l).
Proof.
  induction l as [|[[k n] v] l IH]; [reflexivity|]. change (vpart ((k, n, v) :: l)) with ((n, v) :: vpart l). cbn [put map_insert].
  destruct (list_eq_dec N.eq_dec n (snd (fst f))) as [E|E]; change (f_name f) with (snd (fst f)) in *.
  - rewrite <- E, beq_same. reflexivity.
  - rewrite beq_ne by auto. change (vpart ((k, n, v) :: put l f)) with ((n, v) :: vpart (put l f)). rewrite IH. reflexivity.
Qed.
Lemma get_vpart l k : map_get k (vpart l) = None <-> ~ In k (map f_name l).
Proof.
  induction l as [|[[k' n] v] l IH]; [cbn; tauto|]. cbn [vpart map map_get In]. destruct (beq k (f_name (k', n, v))) eqn:E.
  - apply beq_eq in E. split; [discriminate|]. intros Z. exfalso. apply Z. left. auto.
  - fold (vpart l). rewrite IH. split; [|tauto]. intros Z [W|W]; auto. rewrite W, beq_same in E. discriminate.
Qed.
Lemma kpart_put l f : kpart (put l f) = match map_get (f_name f) (vpart l) with None => kpart l ++ [(fst (fst f), f_name f)] | Some _ => kpart l end.
Proof.
  induction l as [|[[k n] v] l IH]; [reflexivity|]. change (vpart ((k, n, v) :: l)) with ((n, v) :: vpart l). cbn [put map_get].
  change (kpart ((k, n, v) :: l)) with ((k, n) :: kpart l).
  destruct (list_eq_dec N.eq_dec n (snd (fst f))) as [E|E]; change (f_name f) with (snd (fst f)) in *.
  - rewrite <- E, beq_same. reflexivity.
  - rewrite beq_ne by auto. change (kpart ((k, n, v) :: put l f)) with ((k, n) :: kpart (put l f)). rewrite IH.
    destruct (map_get (snd (fst f)) (vpart l)); reflexivity.
Qed.

Lemma join_step out k v p q f : is_key k p -> is_key v q -> is_field (p, q) f ->
  join_member (kpart out, vpart out) k v = Ok ((kpart (put out f), vpart (put out f)), true).
Proof.
  destruct p as [[n t] kd]. destruct q as [[n' t'] kd']. destruct f as [[fk fn] fv].
  intros (((A & _) & _) & m & Em & Hm) (((A' & _) & _) & _) (F1 & F2 & F3). unfold piece_text in *. cbn [fst snd] in *.
  pose proof (stands_for_one _ _ _ Hm F2) as ->. unfold join_member. rewrite Em. cbn [bind]. rewrite kpart_put, vpart_put, A, A', F1, F3. reflexivity.
Qed.
Lemma join_members fs : forall kvs pqs, Forall2 (fun x p => is_key (fst x) (fst p) /\ is_key (snd x) (snd p)) kvs pqs -> Forall2 is_field pqs fs ->
  forall out, visit (fun st kv => join_member st (fst kv) (snd kv)) (kpart out, vpart out) kvs =
    Ok (kpart (fold_left put fs out), vpart (fold_left put fs out)).
Proof.
  induction fs as [|f fs IH]; intros kvs pqs H1 H2 out; inversion H2 as [|[p q] ? ? ? F1 F2]; subst; inversion H1 as [|[k v] ? ? ? [K1 K2] K3]; subst; [reflexivity|].
  cbn [visit fold_left fst snd] in *. rewrite (join_step out k v p q f K1 K2 F1). eapply IH; eauto.
Qed.
Lemma join_elems xs (ps : list piece) : Forall2 is_cut xs ps -> forall fs, fields ps fs -> forall out,
  visit (fun st v => if negb (kind_eqb (v_kind v) KObject) then Ok (st, true)
         else st <- v_each v join_member st ;; Ok (st, true)) (kpart out, vpart out) xs =
    Ok (kpart (fold_left put fs out), vpart (fold_left put fs out)).
Proof.
  induction 1 as [|x [[n t] k] xs ps ((A & B & _) & D) H IH]; intros fs Hf out; inversion Hf as [|? ? ? ? fs1 Hk Hf1|? r ps1 fs' ? fs1 Hp1 Hm Hf1]; subst; [reflexivity| |].
  - cbn [visit]. rewrite (kind_eqb_ne _ _ Hk). cbn [negb]. apply IH, Hf1.
  - cbn [visit]. match goal with Z : KObject = v_kind x |- _ => symmetry in Z; rename Z into Ek end. rewrite Ek. cbn [kind_eqb negb].
    match goal with Z : 123%N :: r = v_json x |- _ => symmetry in Z; rename Z into Ej end.
    destruct (object_cuts x _ _ _ Ek Ej Hp1) as (kvs & Hkv & Ev). rewrite Ev.
    rewrite (join_members fs' kvs _ Hkv Hm out). cbn [bind]. rewrite fold_left_app. apply IH, Hf1.
Qed.

Lemma get_in out f : NoDup (map f_name out) -> In f out -> map_get (f_name f) (vpart out) = Some (snd f).
Proof.
  induction out as [|g out IH]; [contradiction|]. intros Hn Hi. inversion Hn as [|? ? N1 N2]; subst.
  change (vpart (g :: out)) with ((f_name g, snd g) :: vpart out). cbn [map_get]. destruct Hi as [->|Hi]; [rewrite beq_same; reflexivity|].
  rewrite beq_ne; [apply IH; auto|]. intros E. apply N1. rewrite <- E. apply in_map, Hi.
Qed.
Lemma join_write kvals out : Forall (fun f => map_get (f_name f) kvals = Some (snd f)) out ->
  forall first, join_out first (kpart out) kvals =
    Ok (if first : bool then commas (map field_text out) else concat (map (fun f => 44%N :: field_text f) out)).
Proof.
  assert (Ec : forall l, concat (map (fun f => 44%N :: field_text f) l) = match l with [] => [] | _ => 44%N :: commas (map field_text l) end).
  { induction l as [|a l IH]; auto. cbn [map concat]. rewrite IH. destruct l as [|b l]; [rewrite app_nil_r; reflexivity|]. reflexivity. }
  induction 1 as [|f out Hf H IH]; intros first; [destruct first; reflexivity|].
  change (kpart (f :: out)) with ((fst (fst f), f_name f) :: kpart out). cbn [join_out]. rewrite Hf, IH. cbn [bind]. f_equal.
  destruct first.
  - rewrite Ec. unfold field_text at 2. destruct out as [|g out]; cbn [map commas app]; [unfold field_text; cbn [app]; rewrite app_nil_r; reflexivity|].
    unfold field_text at 2. rewrite <- app_assoc. reflexivity.
  - cbn [map concat]. unfold field_text at 2. cbn [app]. rewrite <- app_assoc. reflexivity.
Qed.
Lemma fold_nodup fs : forall out, NoDup (map f_name out) -> NoDup (map f_name (fold_left put fs out)).
Proof. induction fs as [|f fs IH]; intros out H; auto. cbn [fold_left]. apply IH, put_nodup, H. Qed.

Lemma join_merged g arg dv w r (ps : list piece) fs : g arg s_preserve = Ok dv -> v_bool dv = Ok false ->
  Forall (fun c => (c <= 0x20)%N) w -> pieces 1 r ps -> fields ps fs ->
  mod_join g (w ++ 0x5B%N :: r) arg = Ok (0x7B%N :: commas (map field_text (fold_left put fs [])) ++ [0x7D%N]).
Proof.
  intros Hg Hb Hw H Hf. unfold mod_join. destruct (parse_open w 91 r Hw ltac:(auto)) as (v & E & Ej & Es & Ek). rewrite E. cbn [bind].
  cbn [N.eqb Pos.eqb] in Ek. rewrite Ek. change (negb (kind_eqb KArray KArray)) with false. cbv iota. rewrite Hg. cbn [bind]. rewrite Hb. cbn [bind].
  destruct (array_cuts v _ _ _ Ek Ej H) as (xs & Hx & Ev). rewrite Ev.
  pose proof (join_elems xs ps Hx fs Hf []) as E'. change (kpart []) with (@nil (bytes * bytes)) in E'. change (vpart []) with (@nil (bytes * bytes)) in E'. rewrite E'. cbn [bind].
  rewrite join_write; [reflexivity|]. apply Forall_forall. intros f Hi. apply get_in; auto. apply fold_nodup. constructor.
Qed.
Theorem fields_one n s (ps : list piece) : pieces n s ps -> exists fs, fields ps fs /\ forall fs', fields ps fs' -> fs' = fs.
Proof.
  intros H. apply token_pieces in H. induction H as [|[[m t] k] ps (r & T) H IH]; [exists []; split; [constructor|]; intros fs' Z; inversion Z; auto|].
  destruct IH as (fs & F & U). unfold piece_text in T. cbn [fst snd] in T. destruct (kind_eqb k KObject) eqn:Ek.
  - apply kind_eqb_eq in Ek. subst k. destruct (object_token _ _ T) as (q & c & -> & _).
    destruct (pieces_total 1 (q ++ [c])) as (ps' & Hps').
    assert (G : exists fs1, Forall2 is_field (two_by_two ps') fs1 /\ forall fs', Forall2 is_field (two_by_two ps') fs' -> fs' = fs1).
    { pose proof (token_pieces _ _ _ Hps') as T'. assert (TT : Forall (fun pq : piece * piece => exists r, token (piece_text (fst pq)) (snd (fst pq)) r) (two_by_two ps')).
      { apply Forall_forall. intros pq Hpq. destruct (sorted_two ps' (pieces_sorted _ _ _ Hps') _ Hpq) as (I1 & _). rewrite Forall_forall in T'. apply T', I1. }
      clear - TT. induction TT as [|[[[a b] c] p] l (r & T) TT IH]; [exists []; split; [constructor|]; intros fs' Z; inversion Z; auto|].
      destruct IH as (fs1 & F & U). unfold piece_text in T. cbn [fst snd] in T. destruct (stands_for_any a b c r T) as (m & Hm).
      exists ((b, m, piece_text p) :: fs1). split; [constructor; auto; repeat split; auto|].
      intros fs' Z. inversion Z as [|? [[fk fn] fv] ? fs2 (Z1 & Z2 & Z3) Z4]; subst. rewrite (U _ Z4). rewrite (stands_for_one _ _ _ Z2 Hm). reflexivity. }
    destruct G as (fs1 & G1 & G2). exists (fs1 ++ fs). split; [eapply fl_object; eauto|]. intros fs' Z. inversion Z as [|? ? ? ? ? Z1|? r' ps1 fs2 ? fs3 Z1 Z2 Z3]; subst; [congruence|].
    rewrite (pieces_unique _ _ _ _ Z1 Hps') in Z2. rewrite (G2 _ Z2), (U _ Z3). reflexivity.
  - exists fs. split; [apply fl_other; [intros ->; discriminate|exact F]|]. intros fs' Z. inversion Z; subst; [auto|discriminate].
Qed.

Theorem any_join w r (ps : list piece) fs arg dv : Forall (fun c => (c <= 0x20)%N) w -> pieces 1 r ps -> fields ps fs -> arg_ok arg ->
  get (arg_text arg) s_preserve = Ok dv -> v_bool dv = Ok false ->
  exists v, get (w ++ 0x5B%N :: r) (modifier n_join arg) = Ok v /\ v_exists v = true /\
    v_json v = 0x7B%N :: commas (map field_text (fold_left put fs [])) ++ [0x7D%N] /\ v_kind v = KObject.
Proof.
  intros Hw H Hf Ha Hg Hb. apply (into_out _ n_join _ 123); auto using plain_name.
  change (mod_apply get n_join ?j ?a) with (mod_join get j a). eapply join_merged; eauto.
Qed.
Theorem any_join_kept w r (ps : list piece) arg dv : Forall (fun c => (c <= 0x20)%N) w -> pieces 1 r ps -> arg_ok arg ->
  get (arg_text arg) s_preserve = Ok dv -> v_bool dv = Ok true ->
  exists v, get (w ++ 0x5B%N :: r) (modifier n_join arg) = Ok v /\ v_exists v = true /\
    v_json v = 0x7B%N :: commas (map (fun p => between (piece_text p)) (filter is_object ps)) ++ [0x7D%N] /\ v_kind v = KObject.
Proof.
  intros Hw H Ha Hg Hb. apply (into_out _ n_join _ 123); auto using plain_name.
  change (mod_apply get n_join ?j ?a) with (mod_join get j a). eapply join_kept; eauto.
Qed.

(* ---------- anything else ---------- *)

Lemma veq_same a b : veq a b -> same_value a b.
Proof. intros H. split; [apply H|]. split; [apply veq_kind|apply veq_exists]; exact H. Qed.

Theorem any_this s arg : arg_ok arg -> exists v x, get s (modifier n_this arg) = Ok v /\ parse s = Ok x /\ same_value v x.
Proof.
  intros Ha. destruct (get_mod_out s n_this arg s (plain_name n_this eq_refl) Ha eq_refl) as (v & x & E1 & E2 & E3). exists v, x. auto using veq_same.
Qed.
Lemma flat_kind json c r : c <> 91%N -> v_kind (fval json (c :: r)) <> KArray.
Proof.
  intros Hc. unfold fval, linfo, ltext. cbn [lflat].
  assert (L : forall n i l, (kd i <> KArray) -> v_kind (if (snd (fst (llit n i l)) =? 0)%N then value_default
     else mkslice (fst (fst (llit n i l))) (snd (fst (llit n i l))) (Some (pos json (c :: r)))) <> KArray).
  { intros n i l Hi. unfold llit. destruct (length l <? n); cbn [fst snd]; destruct (_ =? 0)%N; try discriminate; exact Hi. }
  destruct (c =? 34)%N.
  { destruct (split_str r) as [[b u]|]; cbn [fst snd]; [|discriminate]. destruct (_ =? 0)%N; [discriminate|].
    change (kd (N.lor (esc_info b) INFO_STRING) <> KArray). rewrite kd_str. discriminate. }
  rewrite (proj2 (N.eqb_neq c 91) Hc). destruct (N.eqb_spec c 123) as [->|H3]; cbn [orb].
  { destruct (sq false 0 r); cbn [fst snd]; discriminate. }
  destruct (((48 <=? c) && (c <=? 57)) || (c =? 45))%N; cbn [fst snd].
  { destruct (_ =? 0)%N; [discriminate|]. match goal with |- v_kind (mkslice _ ?i _) <> _ => change (kd i <> KArray) end. rewrite kd_num. discriminate. }
  destruct (c =? 116)%N; [apply L; discriminate|]. destruct (c =? 102)%N; [apply L; discriminate|]. destruct (c =? 110)%N; [apply L; discriminate|]. discriminate.
Qed.
Lemma flat_kind_o json c r : c <> 123%N -> v_kind (fval json (c :: r)) <> KObject.
Proof.
  intros Hc. unfold fval, linfo, ltext. cbn [lflat].
  assert (L : forall n i l, (kd i <> KObject) -> v_kind (if (snd (fst (llit n i l)) =? 0)%N then value_default
     else mkslice (fst (fst (llit n i l))) (snd (fst (llit n i l))) (Some (pos json (c :: r)))) <> KObject).
  { intros n i l Hi. unfold llit. destruct (length l <? n); cbn [fst snd]; destruct (_ =? 0)%N; try discriminate; exact Hi. }
  destruct (c =? 34)%N.
  { destruct (split_str r) as [[b u]|]; cbn [fst snd]; [|discriminate]. destruct (_ =? 0)%N; [discriminate|].
    change (kd (N.lor (esc_info b) INFO_STRING) <> KObject). rewrite kd_str. discriminate. }
  rewrite (proj2 (N.eqb_neq c 123) Hc). destruct (N.eqb_spec c 91) as [->|H3]; cbn [orb].
  { destruct (sq false 0 r); cbn [fst snd]; discriminate. }
  destruct (((48 <=? c) && (c <=? 57)) || (c =? 45))%N; cbn [fst snd].
  { destruct (_ =? 0)%N; [discriminate|]. match goal with |- v_kind (mkslice _ ?i _) <> _ => change (kd i <> KObject) end. rewrite kd_num. discriminate. }
  destruct (c =? 116)%N; [apply L; discriminate|]. destruct (c =? 102)%N; [apply L; discriminate|]. destruct (c =? 110)%N; [apply L; discriminate|]. discriminate.
Qed.
Lemma not_array s x : parse s = Ok x -> (forall w r, Forall (fun c => (c <= 0x20)%N) w -> s <> w ++ 0x5B%N :: r) -> v_kind x <> KArray.
Proof.
  intros E H. destruct (split_blanks s) as (w & s' & -> & Hw & Hs). rewrite parse_spec in E. injection E as <-. unfold lparse.
  rewrite P_Rough.dropw_ws by auto. destruct s' as [|c r]; [discriminate|].
  destruct (N.eqb_spec c 123) as [->|N2]; [discriminate|]. destruct (N.eqb_spec c 91) as [->|N1]; [exfalso; eapply H; eauto|].
  cbv zeta. apply flat_kind, N1.
Qed.
Theorem any_other s name arg : (forall w r, Forall (fun c => (c <= 0x20)%N) w -> s <> w ++ 0x5B%N :: r) ->
  name = n_flatten \/ name = n_join -> arg_ok arg -> exists v x, get s (modifier name arg) = Ok v /\ parse s = Ok x /\ same_value v x.
Proof.
  intros H Hn Ha. assert (E : mod_apply get name s (arg_text arg) = Ok s).
  { pose proof (parse_spec s) as Ep. pose proof (not_array s _ Ep H) as Hk. destruct Hn as [->| ->].
    - change (mod_apply get n_flatten ?j ?a) with (mod_flatten (S (length j)) get j a). cbn [mod_flatten]. rewrite Ep. cbn [bind]. rewrite (kind_eqb_ne _ _ Hk). reflexivity.
    - change (mod_apply get n_join ?j ?a) with (mod_join get j a). unfold mod_join. rewrite Ep. cbn [bind]. rewrite (kind_eqb_ne _ _ Hk). reflexivity. }
  assert (Hm : mod_name name) by (destruct Hn as [->| ->]; apply plain_name; reflexivity).
  destruct (get_mod_out s name arg s Hm Ha E) as (v & x & E1 & E2 & E3). exists v, x. auto using veq_same.
Qed.

Theorem any_reverse_other s arg : (forall w c r, Forall (fun c => (c <= 0x20)%N) w -> c = 0x7B%N \/ c = 0x5B%N -> s <> w ++ c :: r) -> arg_ok arg ->
  exists v x, get s (modifier n_reverse arg) = Ok v /\ parse s = Ok x /\ v_json v = v_json x /\ v_exists v = v_exists x /\ (v_exists x = true -> v_kind v = v_kind x).
Proof.
  intros H Ha. destruct (split_blanks s) as (w & s' & -> & Hw & Hs).
  assert (Hc : forall c r, s' = c :: r -> (0x20 < c)%N /\ c <> 0x7B%N /\ c <> 0x5B%N).
  { intros c r ->. split; [eapply Hs; reflexivity|]. split; intros ->; [apply (H w 123%N r Hw)|apply (H w 91%N r Hw)]; auto. }
  destruct (token_dec s') as [(t & k & r & -> & T)|T].
  - assert (Nk : k <> KObject /\ k <> KArray).
    { split; intros ->; [destruct (object_token _ _ T) as (q & d & -> & _)|destruct (array_token _ _ T) as (q & d & -> & _)]; destruct (Hc _ _ eq_refl) as (_ & A & B); congruence. }
    destruct (parse_token w t k r Hw T) as (x & E1 & P1 & P2 & _ & P4); try apply Nk.
    assert (Eo : mod_apply get n_reverse (w ++ t ++ r) (arg_text arg) = Ok t).
    { change (mod_apply get n_reverse ?j ?a) with (mod_reverse j). unfold mod_reverse. rewrite E1. cbn [bind]. rewrite P2.
      replace (v_slice x) with t; [destruct Nk, k; try reflexivity; congruence|]. rewrite parse_spec in E1. injection E1 as <-. rewrite <- lparse_slice. auto. }
    destruct (get_mod_out _ n_reverse arg _ (plain_name n_reverse eq_refl) Ha Eo) as (v & y & F1 & F2 & F3).
    assert (T0 : token t k []) by (destruct (token_again t k r [] T ltac:(discriminate)) as (? & _ & _ & _ & T0); exact T0).
    destruct (parse_token [] t k [] ltac:(constructor) T0) as (y' & G1 & Q1 & Q2 & _ & Q4); try apply Nk. cbn [app] in G1. rewrite app_nil_r, F2 in G1. injection G1 as <-.
    exists v, x. rewrite (veq_exists _ _ F3), (veq_kind _ _ F3), (proj1 F3). repeat split; auto; congruence.
  - destruct (parse_nothing w s' Hw Hc T) as (x & E1 & P).
    assert (Ej : v_json x = []) by (unfold v_exists in P; destruct (v_json x); [reflexivity|destruct (v_info x); discriminate]).
    assert (Ek : v_kind x <> KArray /\ v_kind x <> KObject).
    { rewrite parse_spec in E1. injection E1 as <-. unfold lparse in *. rewrite P_Rough.dropw_ws in * by (auto; intros c t Et; apply (Hc c t Et)).
      destruct s' as [|c r]; [split; discriminate|]. destruct (Hc c r eq_refl) as (_ & N1 & N2). rewrite (proj2 (N.eqb_neq c 123) N1), (proj2 (N.eqb_neq c 91) N2) in *.
      cbv zeta in *. split; [apply flat_kind, N2|apply flat_kind_o, N1]. }
    assert (Eo : mod_apply get n_reverse (w ++ s') (arg_text arg) = Ok []).
    { change (mod_apply get n_reverse ?j ?a) with (mod_reverse j). unfold mod_reverse. rewrite E1. cbn [bind].
      replace (v_slice x) with (@nil N); [destruct Ek, (v_kind x); try reflexivity; congruence|]. rewrite parse_spec in E1. injection E1 as <-. rewrite <- lparse_slice. auto. }
    destruct (get_mod_out _ n_reverse arg _ (plain_name n_reverse eq_refl) Ha Eo) as (v & y & F1 & F2 & F3). rewrite parse_spec in F2. injection F2 as <-.
    exists v, x. rewrite (veq_exists _ _ F3), (veq_kind _ _ F3), (proj1 F3), P, Ej. repeat split; auto. discriminate.
Qed.
Theorem any_ugly s t arg : bared s t -> arg_ok arg -> exists v x, get s (modifier n_ugly arg) = Ok v /\ parse t = Ok x /\ same_value v x.
Proof.
  intros H Ha. assert (E : mod_apply get n_ugly s (arg_text arg) = Ok t) by (change (mod_apply get n_ugly ?j ?a) with (ugly j); apply ugly_bared, H).
  destruct (get_mod_out s n_ugly arg t (plain_name n_ugly eq_refl) Ha E) as (v & x & E1 & E2 & E3). exists v, x. auto using veq_same.
Qed.

(** Pieces by computation, for examples. *)
Lemma token_by t i r k : P_Each.lflat (t ++ r) = (t, i, r) -> t <> [] -> kd i = k -> token t k r.
Proof.
  intros E Ht <-. pose proof (flat_token (t ++ r)) as P. rewrite E in P. destruct P as [(_ & _ & P & _)|(Z & _)]; [exact P|contradiction].
Qed.
Lemma stop_by n s : fst (fst (P_Each.lflat s)) = [] -> (forall c r, s = c :: r -> ~ filler c) -> pieces n s [].
Proof.
  intros E H. apply pc_stop; auto. intros t k r Ht Es. destruct (token_flat t k r Ht) as (i & Ei & _). destruct (token_head t k r Ht) as (c & t' & -> & _).
  rewrite <- Es in Ei. rewrite Ei in E. discriminate.
Qed.
