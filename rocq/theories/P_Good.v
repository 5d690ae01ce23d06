(** Texts that do not begin with an unfinished string, and the modifiers' outputs on
    them. *)
From Verif Require Import S_Panic P_Base P_Json P_Valid P_ValidSpec P_Str P_Glob P_Scan P_Each P_Doc P_Path P_LGet P_Parts
  P_Ugly P_Pretty P_Ext P_Value P_Num
  S_Json S_Get M_Util M_Num M_Scan M_Value M_Path M_Valid M_Pretty M_Get.

(** If the first byte above the space is a quote, its string ends. *)
Definition wgood (o : bytes) : Prop := forall t, dropw above_sp o = 34%N :: t -> split_str t <> None.
(** And that byte begins a value. *)
Definition sgood (o : bytes) : Prop := wgood o /\ forall c t, dropw above_sp o = c :: t -> starts_value c = true.

Lemma sgood_nil : sgood [].
Proof. split; [intros t H; discriminate | intros c t H; discriminate]. Qed.
Lemma sgood_head c t : starts_value c = true -> c <> 34%N -> sgood (c :: t).
Proof.
  intros H Hc. assert (E : dropw above_sp (c :: t) = c :: t).
  { cbn [dropw]. unfold above_sp. replace (32 <? c)%N with true; auto. unfold starts_value in H. lia. }
  split; [intros x; rewrite E; congruence|]. intros d x. rewrite E. congruence.
Qed.
Lemma wgood_head c t : (32 <? c)%N = true -> c <> 34%N -> wgood (c :: t).
Proof. intros H Hc x. cbn [dropw]. unfold above_sp. rewrite H. congruence. Qed.

Lemma split_str_stable t b r x : split_str t = Some (b, r) -> split_str (b ++ 34%N :: x) = Some (b, x).
Proof.
  revert b r. induction t as [t IH] using (induction_ltof1 _ (@length N)). unfold ltof in IH. intros b r.
  destruct t as [|c t]; [discriminate|]. cbn [split_str]. destruct (N.eqb_spec c 34) as [->|Hc].
  { intros E. injection E as <- <-. reflexivity. }
  destruct (N.eqb_spec c 92) as [->|Hb].
  - destruct t as [|d t]; [discriminate|]. destruct (split_str t) as [[b' r']|] eqn:Et; [|discriminate].
    intros E. injection E as <- <-. cbn [app split_str N.eqb Pos.eqb]. rewrite (IH t ltac:(cbn [length]; lia) _ _ Et). reflexivity.
  - destruct (split_str t) as [[b' r']|] eqn:Et; [|discriminate].
    intros E. injection E as <- <-. cbn [app split_str]. replace (c =? 34)%N with false by lia. replace (c =? 92)%N with false by lia.
    rewrite (IH t ltac:(cbn [length]; lia) _ _ Et). reflexivity.
Qed.

Lemma wgood_string b x t r : split_str t = Some (b, r) -> wgood (34%N :: b ++ 34%N :: x).
Proof.
  intros E y. cbn [dropw]. change (above_sp 34) with true. cbv match. intros H. injection H as <-.
  rewrite (split_str_stable _ _ _ x E). discriminate.
Qed.

Lemma ltext_good l : sgood (ltext l).
Proof.
  unfold ltext, lflat. destruct l as [|c t]; [apply sgood_nil|].
  destruct (N.eqb_spec c 34) as [->|Hc].
  { destruct (split_str t) as [[b r]|] eqn:E; cbn [fst snd]; [|apply sgood_nil].
    split; [eapply (wgood_string b [] t r), E|]. intros d x. cbn [dropw]. change (above_sp 34) with true. cbv match.
    intros H. injection H as <- _. reflexivity. }
  assert (Hup : forall r, suf r t -> upto (c :: t) r = c :: upto t r).
  { intros r (a & ->). unfold upto. cbn [length]. rewrite app_length.
    replace (S (length a + length r) - length r) with (S (length a)) by lia.
    replace (length a + length r - length r) with (length a) by lia. reflexivity. }
  destruct ((c =? 123) || (c =? 91))%N eqn:Ec.
  { destruct (sq false 0 t) as [r|] eqn:E; cbn [fst snd]; [|apply sgood_nil]. apply sq_rest in E as [E _].
    rewrite (Hup r E). apply sgood_head; auto. unfold starts_value. lia. }
  destruct (((48 <=? c) && (c <=? 57)) || (c =? 45))%N eqn:En.
  { cbn [fst snd]. apply sgood_head; auto. unfold starts_value. lia. }
  assert (H : forall m k, starts_value c = true -> sgood (fst (fst (llit (S m) k (c :: t))))).
  { intros m k Hs. unfold llit. destruct (length (c :: t) <? S m); cbn [fst snd]; [apply sgood_nil|]. cbn [firstn]. apply sgood_head; auto. }
  destruct (N.eqb_spec c 116) as [->|]; [apply H; reflexivity|]. destruct (N.eqb_spec c 102) as [->|]; [apply H; reflexivity|].
  destruct (N.eqb_spec c 110) as [->|]; [apply H; reflexivity|]. apply sgood_nil.
Qed.

Lemma ugly_good j : wgood j -> wgood (lugly j).
Proof.
  induction j as [|c t IH]; intros H; [rewrite lugly_nil; exact H|]. rewrite lugly_cons.
  destruct (32 <? c)%N eqn:Ec.
  - destruct (N.eqb_spec c 34) as [->|Hc]; [|apply wgood_head; auto].
    destruct (split_str t) as [[b r]|] eqn:E; [eapply wgood_string, E|]. exfalso. apply (H t); auto.
  - apply IH. intros x Hx. apply H. cbn [dropw]. unfold above_sp at 1. rewrite Ec. exact Hx.
Qed.

(** Prefixes that do not begin with a quote. *)
Definition nq (s : bytes) : Prop := forall t, dropw above_sp s <> 34%N :: t.
Lemma dropw_app_cases f a b : (dropw f a = [] /\ dropw f (a ++ b) = dropw f b) \/
  (exists c t, dropw f a = c :: t /\ dropw f (a ++ b) = c :: t ++ b).
Proof.
  induction a as [|c t IH]; [left; auto|]. cbn [app dropw]. destruct (f c); [right; exists c, t; auto | exact IH].
Qed.
Lemma wgood_app p x : nq p -> wgood x -> wgood (p ++ x).
Proof.
  intros Hp Hx t. destruct (dropw_app_cases above_sp p x) as [[_ E]|(c & u & E & E')].
  - rewrite E. apply Hx.
  - rewrite E'. intros H. injection H as -> <-. exfalso. eapply Hp, E.
Qed.

Lemma lpobj_head width prefix sk : forall fuel buf l open close pretty indent tabs nl max depth b r nl' ok,
  (open =? 32)%N = false -> depth <> MAX_DEPTH -> fuel <> 0 -> (open = 91%N \/ max = (-1)%Z) -> (pretty = true -> fuel <> 1) ->
  lpobj width prefix sk fuel buf l open close pretty indent tabs nl max depth = (b, r, nl', ok) ->
  exists x, b = buf ++ open :: x.
Proof.
  intros fuel buf l open close pretty. revert fuel.
  assert (Hfull : forall fuel indent tabs nl max depth b r nl' ok, (open =? 32)%N = false ->
    lploop width prefix sk fuel (buf ++ [open]) (tl l) open close pretty indent tabs nl max depth [] 0 = (b, r, nl', ok) ->
    exists x, b = buf ++ open :: x).
  { intros fuel indent tabs nl max depth b r nl' ok Ho H.
    apply (proj2 (proj2 (lp_progress width prefix sk fuel))) with (base := buf ++ [open]) in H.
    - destruct H as [[x ->] _]. exists x. rewrite <- app_assoc. reflexivity.
    - apply ext_refl.
    - constructor.
    - intros _. rewrite last_last. auto. }
  intros fuel. destruct fuel as [|fuel]; [intros; congruence|].
  intros indent tabs nl max depth b r nl' ok Ho Hd _ Hmo Hf2. rewrite lpobj_S.
  replace (depth =? MAX_DEPTH) with false by (symmetry; apply Nat.eqb_neq; auto). cbv zeta.
  destruct (0 <? width)%Z; [|apply Hfull; auto].
  destruct (pretty && (open =? 91)%N && (max =? -1)%Z) eqn:E.
  - apply andb_true_iff in E as [E Em]. apply andb_true_iff in E as [Ep Eo]. apply N.eqb_eq in Eo. subst open.
    destruct (3 <? _)%Z; [|apply Hfull; auto].
    destruct (lpobj width prefix sk fuel buf l 91 93 false [] 0 0 _ depth) as [[[b1 l1] nl1] ok1] eqn:E1.
    destruct (ok1 && _) eqn:Ek; [|apply Hfull; auto]. intros H. injection H as <- <- <- <-.
    destruct fuel as [|fuel]; [exfalso; apply Hf2; auto|]. rewrite lpobj_S in E1.
    replace (depth =? MAX_DEPTH) with false in E1 by (symmetry; apply Nat.eqb_neq; auto). cbv zeta in E1.
    cbn [andb] in E1. rewrite andb_false_r in E1.
    assert (G : lploop width prefix sk fuel (buf ++ [91%N]) (tl l) 91 93 false [] 0 0 (width - (Z.of_nat (length buf) - nl)) depth [] 0 = (b1, l1, nl1, ok1)).
    { destruct (0 <? width)%Z; exact E1. }
    apply (proj2 (proj2 (lp_progress width prefix sk fuel))) with (base := buf ++ [91%N]) in G.
    + destruct G as [[x ->] _]. exists x. rewrite <- app_assoc. reflexivity.
    + apply ext_refl.
    + constructor.
    + intros _. rewrite last_last. reflexivity.
  - destruct (negb (max =? -1)%Z && (open =? 123)%N) eqn:Em; [|apply Hfull; auto].
    apply andb_true_iff in Em as [E1 E2]. apply N.eqb_eq in E2. subst open. destruct Hmo as [Hmo|Hmo]; [discriminate|]. subst max. discriminate.
Qed.

Lemma dropw_starts j : sgood j -> dropw starts_value j = dropw above_sp j.
Proof.
  intros [_ H]. assert (Hs : forall c, starts_value c = true -> above_sp c = true) by (intros c; unfold starts_value, above_sp; lia).
  induction j as [|c t IH]; auto. cbn [dropw] in *. destruct (above_sp c) eqn:E.
  - rewrite (H c t eq_refl). reflexivity.
  - destruct (starts_value c) eqn:E'; [rewrite (Hs _ E') in E; discriminate|]. apply IH. exact H.
Qed.

Lemma pretty_good j o : sgood j -> nq (o_prefix o) -> wgood (lpretty j o).
Proof.
  intros Hj Hp. unfold lpretty. remember (8 + 4 * length j) as fuel eqn:Ef.
  destruct fuel as [|[|[|fuel]]]; [lia..|].
  destruct (lpany (o_width o) (o_prefix o) (o_sort o) (S (S (S fuel))) (o_prefix o) j true (o_indent o) 0 0 (-1) 0) as [[[b r] nl] ok] eqn:E.
  assert (Hb : exists x, b = o_prefix o ++ x /\ wgood (x ++ [10%N])).
  { rewrite lpany_S, (dropw_starts j Hj) in E. cbv zeta in E. pose proof Hj as [Hw Hs].
    destruct (dropw above_sp j) as [|c t] eqn:Ej.
    { injection E as <- <- <- <-. exists []. rewrite app_nil_r. split; auto. intros t. cbn. discriminate. }
    specialize (Hs c t eq_refl).
    destruct (N.eqb_spec c 34) as [->|Hc].
    { injection E as <- <- <- <-. exists (fst (lpstr t)). split; auto. unfold lpstr.
      destruct (split_str t) as [[s q]|] eqn:Et; [|exfalso; apply (Hw t); auto]. cbn [fst app].
      rewrite <- app_assoc. cbn [app]. eapply wgood_string, Et. }
    assert (Hc32 : (32 <? c)%N = true) by (unfold starts_value in Hs; lia).
    destruct (((48 <=? c) && (c <=? 57)) || (c =? 45))%N.
    { injection E as <- <- <- <-. exists (c :: upto t (dropw pnum_stop t)). split; auto. cbn [app]. apply wgood_head; auto. }
    destruct (N.eqb_spec c 123) as [->|H123].
    { apply lpobj_head in E as (x & ->); [| reflexivity | cbn; discriminate | discriminate | auto | discriminate].
      exists (123%N :: x). split; auto. cbn [app]. apply wgood_head; [reflexivity|discriminate]. }
    destruct (N.eqb_spec c 91) as [->|H91].
    { apply lpobj_head in E as (x & ->); [| reflexivity | cbn; discriminate | discriminate | auto | discriminate].
      exists (91%N :: x). split; auto. cbn [app]. apply wgood_head; [reflexivity|discriminate]. }
    destruct (c =? 116)%N; [|destruct (c =? 102)%N];
      (injection E as <- <- <- <-; eexists; split; [reflexivity|]; cbn [app]; apply wgood_head; [reflexivity|discriminate]). }
  destruct Hb as (x & -> & Hx). pose proof (wgood_app _ _ Hp Hx) as H. rewrite app_assoc in H.
  destruct (o_prefix o ++ x); [apply sgood_nil | exact H].
Qed.

(* ---------- option values ---------- *)

Lemma opt_from j t v : In t optnames -> get j t = Ok v -> v = value_default \/ exists x, suf x j /\ v = fval j x.
Proof.
  intros Ht. rewrite get_eq, get_body_spec. destruct (opt_path t Ht) as (E1 & E2 & E3 & E4 & E5 & E6 & _). rewrite E1.
  unfold lget_first. rewrite E3, E4, E2.
  assert (HI : comp_index t = (-1)%Z).
  { clear -Ht. cbn [optnames In] in Ht. repeat (destruct Ht as [<-|Ht]; [vm_compute; reflexivity|]). contradiction. }
  clear E1 E2 E3 E4.
  assert (G : forall v p, lstart get j (mkPath t false false 0 0 []) = Ok (v, p) ->
     p_more p = false /\ (v = value_default \/ exists x, suf x j /\ v = fval j x)).
  { clear v. intros v p Ev. unfold lstart in Ev. cbv zeta in Ev. pose proof (suf_dropw above_sp j) as Hs.
    destruct (dropw above_sp j) as [|c u]; [injection Ev as <- <-; auto|].
    destruct (c =? 123)%N.
    + cbn [lobj] in Ev. destruct (negb (c =? 123)%N); [injection Ev as <- <-; auto|].
      revert Ev. match goal with |- lobj_loop ?f ?s _ _ _ = _ -> _ => generalize f, s end. intros fuel s Ev.
      assert (G : forall fuel l v p, suf l j -> lobj_loop fuel s j l (mkPath t false false 0 0 []) = Ok (v, p) -> 
          p_more p = false /\ (v = value_default \/ exists x, suf x j /\ v = fval j x)).
      { clear. induction fuel as [|fuel IH]; intros l v p Hl; cbn [lobj_loop]; [discriminate|].
        assert (D : Ok (value_default, mkPath t false false 0 0 []) = Ok (v, p) -> p_more p = false /\ (v = value_default \/ exists x, suf x j /\ v = fval j x))
          by (intros E; injection E as <- <-; auto).
        destruct l as [|c l]; [apply D|]. pose proof (suf_tail _ _ _ Hl) as Hl'.
        destruct (c =? 125)%N; [apply D|]. destruct (negb (c =? 34)%N); [apply IH; auto|].
        destruct (split_str l) as [[b r0]|] eqn:Es; [|apply D]. cbv zeta. apply split_rest in Es as [Es _].
        pose proof (suf_trans _ _ _ (suf_dropw colon_stop r0) (suf_trans _ _ _ Es Hl')) as Hr.
        destruct (dropw colon_stop r0) as [|c' t']; [apply D|]. cbn [p_sep N.eqb]. rewrite andb_false_r. cbn [andb].
        destruct (kmatch _ b && v_exists _).
        - intros E. injection E as <- <-. split; auto. right. eauto.
        - apply IH. eapply suf_trans; [apply (proj1 (lrest_suf (c' :: t')))|exact Hr]. }
      eapply G; [|exact Ev]. eapply suf_tail; eauto.
    + destruct (c =? 91)%N; [|injection Ev as <- <-; auto].
      unfold larr in Ev. cbn [p_comp] in Ev. destruct t as [|x y]; [congruence|]. cbn [hd] in E5.
      destruct (N.eqb_spec x 35); [congruence|]. rewrite HI in Ev. injection Ev as <- <-. auto. }
  destruct (lstart get j _) as [[w p]|e] eqn:Es; cbn [bind]; [|discriminate].
  destruct (G w p eq_refl) as [Hm Hw]. rewrite Hm. cbn [negb]. intros E. injection E as <-. exact Hw.
Qed.

Lemma hasbsl_in b : hasbsl b = true -> In 92%N b.
Proof. unfold hasbsl. intros H. apply existsb_exists in H as (x & Hx & E). apply N.eqb_eq in E. subst x. exact Hx. Qed.
Lemma split_noquote t b r : split_str t = Some (b, r) -> ~ In 92%N b -> ~ In 34%N b.
Proof.
  revert b r. induction t as [|c t IH]; intros b r; [discriminate|]. cbn [split_str].
  destruct (N.eqb_spec c 34) as [->|Hc]; [intros E; injection E as <- <-; auto|].
  destruct (N.eqb_spec c 92) as [->|Hb].
  - destruct t as [|d t]; [discriminate|]. destruct (split_str t) as [[b' r']|]; [|discriminate].
    intros E. injection E as <- <-. intros H. exfalso. apply H. left. reflexivity.
  - destruct (split_str t) as [[b' r']|]; [|discriminate].
    intros E. injection E as <- <-. intros H [H1|H1]; [congruence|]. eapply IH; [reflexivity | | exact H1].
    intros Hi. apply H. right. exact Hi.
Qed.

Lemma dropw_in f s c t : dropw f s = c :: t -> In c s.
Proof. intros H. destruct (suf_dropw f s) as (a & E). rewrite E, H. apply in_or_app. right. left. reflexivity. Qed.

Lemma kind_not_string l : hd 0%N l <> 34%N -> kindmap (N.land (linfo l) 255) <> KString.
Proof.
  unfold linfo, lflat. destruct l as [|c t]; [discriminate|]. cbn [hd]. intros Hc. replace (c =? 34)%N with false by lia.
  destruct ((c =? 123) || (c =? 91))%N.
  { destruct (sq false 0 t); cbn [fst snd] in *; destruct (c =? 123)%N; discriminate. }
  destruct (((48 <=? c) && (c <=? 57)) || (c =? 45))%N.
  { cbn [fst snd]. rewrite land_lor_num. rewrite num_info_low; [discriminate|].
    unfold sign_info. destruct (c =? 45)%N; reflexivity. }
  unfold llit in *. destruct (c =? 116)%N; [destruct (_ <? 4); discriminate|].
  destruct (c =? 102)%N; [destruct (_ <? 5); discriminate|]. destruct (c =? 110)%N; [destruct (_ <? 4); discriminate|].
  discriminate.
Qed.

(** Texts in which no quote is spelled out. *)
Lemma spells_app a b c : spells_quote b -> spells_quote (a ++ b ++ c).
Proof.
  intros (x & y & [->| ->]); exists (a ++ x), (y ++ c); [left|right]; rewrite <- !app_assoc; reflexivity.
Qed.
Lemma spells_cons c b : spells_quote b -> spells_quote (c :: b).
Proof. intros H. apply (spells_app [c] b []) in H. rewrite app_nil_r in H. exact H. Qed.
Lemma spells_esc b : spells_quote b -> In 92%N b.
Proof. intros (x & y & [->| ->]); apply in_or_app; right; left; reflexivity. Qed.
Lemma split_unspelled t b r : split_str t = Some (b, r) -> ~ spells_quote b -> ~ In 34%N b.
Proof.
  remember (length t) as n eqn:En. assert (Hn : length t <= n) by lia. clear En. revert t b r Hn.
  induction n as [|n IH]; intros [|c t] b r Hn; cbn [length] in Hn; try discriminate; [lia|]. cbn [split_str].
  destruct (N.eqb_spec c 34) as [->|Hc]; [intros E; injection E as <- <-; auto|].
  destruct (N.eqb_spec c 92) as [->|Hb].
  - destruct t as [|d t]; [discriminate|]. destruct (split_str t) as [[b' r']|] eqn:Es; [|discriminate].
    intros E. injection E as <- <-. intros H [H1|[H1|H1]]; [discriminate | subst d; apply H; exists [], b'; left; reflexivity|].
    cbn [length] in Hn. eapply (IH t b' r'); [lia | exact Es | | exact H1]. intros Hi. apply H. do 2 apply spells_cons. exact Hi.
  - destruct (split_str t) as [[b' r']|] eqn:Es; [|discriminate].
    intros E. injection E as <- <-. intros H [H1|H1]; [congruence|]. eapply (IH t b' r'); [lia | exact Es | | exact H1].
    intros Hi. apply H, spells_cons, Hi.
Qed.
Lemma un_unspelled b : ~ spells_quote b -> ~ In 34%N b -> ~ In 34%N (un b).
Proof.
  unfold un. generalize (S (length b)) as n. intros n. revert b. induction n as [|n IH]; intros b Hs Hq; [intros []|]. cbn [lun].
  destruct b as [|c t]; [intros []|]. destruct (c <? 32)%N; [intros []|].
  assert (Ht : ~ spells_quote t /\ ~ In 34%N t) by (split; [intros H; apply Hs, spells_cons, H | intros H; apply Hq; right; exact H]).
  destruct (N.eqb_spec c 92) as [->|Hb].
  - destruct t as [|e t]; [intros []|].
    assert (Ht' : ~ spells_quote t /\ ~ In 34%N t)
      by (split; [intros H; apply (proj1 Ht), spells_cons, H | intros H; apply (proj2 Ht); right; exact H]).
    destruct (short_escape e) as [x|] eqn:Ee.
    + intros [->|H]; [|eapply IH; [apply Ht' | apply Ht' | exact H]]. unfold short_escape in Ee.
      destruct (N.eqb_spec e cQUOTE) as [->|]; [apply Hq; right; left; reflexivity|].
      repeat (destruct (e =? _)%N; [discriminate|]). discriminate.
    + destruct (N.eqb_spec e 117) as [->|]; [|intros []]. exfalso. apply Hs. exists [], t. right. reflexivity.
  - intros [->|H]; [apply Hq; left; reflexivity|]. eapply IH; [apply Ht | apply Ht | exact H].
Qed.

(** The text of an option value in which no quote is spelled out has no quote at its start. *)
Lemma opt_str_nq j x s : suf x j -> ~ spells_quote j -> v_exists (fval j x) = true -> v_str (fval j x) = Ok s -> nq s.
Proof.
  intros Hx Hn He. unfold v_str, fval, v_exists, v_kind in *. destruct (linfo x =? 0)%N eqn:Ei; [discriminate|].
  rewrite mkslice_json in *. cbn [mkslice v_info v_uesc] in *.
  assert (Hother : forall s, Ok (ltext x) = Ok s -> hd 0%N x <> 34%N -> nq s).
  { intros s0 E Hh. injection E as <-. intros t Hd. destruct (ltext_good x) as [_ Hg]. specialize (Hg _ _ Hd).
    (* the text begins with the first byte *)
    clear Hg. assert (Hne : ltext x <> []) by (intros E; rewrite E in Hd; discriminate).
    destruct x as [|c u]; [cbn in Hne; congruence|]. cbn [hd] in Hh.
    assert (Hc : exists y, ltext (c :: u) = c :: y /\ (32 <? c)%N = true).
    { clear -Hne Hh. unfold ltext, lflat in *. replace (c =? 34)%N with false in * by lia.
      destruct ((c =? 123) || (c =? 91))%N eqn:Ec.
      { destruct (sq false 0 u) as [r|] eqn:E; cbn [fst snd] in *; [|congruence]. apply sq_rest in E as [(a & ->) _].
        exists a. split; [|lia]. unfold upto. cbn [length]. rewrite app_length.
        replace (S (length a + length r) - length r) with (S (length a)) by lia. cbn [firstn]. f_equal. apply firstn_length_app. }
      destruct (((48 <=? c) && (c <=? 57)) || (c =? 45))%N eqn:En; [cbn [fst snd]; eexists; split; [reflexivity | lia]|].
      assert (H : forall m k, fst (fst (llit (S m) k (c :: u))) <> [] -> exists y, fst (fst (llit (S m) k (c :: u))) = c :: y).
      { intros m k. unfold llit. destruct (length (c :: u) <? S m); cbn [fst snd firstn]; [congruence|eauto]. }
      destruct (N.eqb_spec c 116) as [->|]; [destruct (H _ _ Hne) as (y & E); eauto|].
      destruct (N.eqb_spec c 102) as [->|]; [destruct (H _ _ Hne) as (y & E); eauto|].
      destruct (N.eqb_spec c 110) as [->|]; [destruct (H _ _ Hne) as (y & E); eauto|]. cbn [fst] in Hne. congruence. }
    destruct Hc as (y & Ey & H32). rewrite Ey in Hd. cbn [dropw] in Hd. unfold above_sp in Hd. rewrite H32 in Hd. congruence. }
  destruct x as [|c u]; [discriminate|].
  destruct (N.eqb_spec c 34) as [->|Hc].
  - clear Hother. unfold linfo, ltext, lflat in *. cbn [N.eqb Pos.eqb] in *.
    destruct (split_str u) as [[b r]|] eqn:Es; cbn [fst snd] in *; [|discriminate].
    assert (Hb : ~ spells_quote b).
    { intros Hi. apply Hn. destruct Hx as (a & ->). apply split_str_app in Es. rewrite Es.
      change (34%N :: b ++ 34%N :: r) with ([34%N] ++ b ++ 34%N :: r). rewrite app_assoc. apply spells_app, Hi. }
    pose proof (split_unspelled _ _ _ Es Hb) as Hq.
    destruct (hasbsl b) eqn:Hh.
    { unfold esc_info. rewrite Hh. change (N.lor (N.lor 0 INFO_STRING) INFO_ESC) with (N.lor INFO_STRING INFO_ESC).
      change (kindmap (N.land (N.lor INFO_STRING INFO_ESC) 255)) with KString.
      change (has (N.lor INFO_STRING INFO_ESC) INFO_ESC) with true. cbv match. unfold esc_of.
      change (has (N.lor INFO_STRING INFO_ESC) (N.lor INFO_STRING INFO_ESC)) with true. cbv match. rewrite unesc_quoted.
      intros E. injection E as <-. intros t Hd. apply dropw_in in Hd. exact (un_unspelled b Hb Hq Hd). }
    unfold esc_info. rewrite Hh. change (N.lor 0 INFO_STRING) with INFO_STRING.
    change (kindmap (N.land INFO_STRING 255)) with KString. change (has INFO_STRING INFO_ESC) with false. cbv match.
    unfold strip_quotes. cbn [length]. rewrite app_length. cbn [length]. rewrite usub_ok by lia. cbn [bind].
    change (34%N :: b ++ [34%N]) with ([34%N] ++ b ++ [34%N]). rewrite (slice_mid [34%N] b [34%N]); [|auto|cbn [length]; lia].
    intros E. injection E as <-. intros t Hd. apply dropw_in in Hd. exact (Hq Hd).
  - pose proof (kind_not_string (c :: u) Hc) as Hk. cbn [hd] in Hother. specialize (Hother s).
    destruct (kindmap (N.land (linfo (c :: u)) 255)); try congruence; intros E;
      first [solve [apply Hother; [exact E | exact Hc]] | injection E as <-; intros t Ht; discriminate].
Qed.
