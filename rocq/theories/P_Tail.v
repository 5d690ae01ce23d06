(** Two ends of a path that are read in the same way can be exchanged. *)
From Verif Require Import P_Base P_Valid P_Str P_Glob P_Scan P_Each P_Path P_LGet P_Parts P_Ext P_Key P_Find P_GetArr P_Pipe
  M_Util M_Num M_Scan M_Value M_Path M_Get S_Json S_Path.

(** The fuel of [lobj]. *)
Lemma lobj_fuel g json : forall f1 f2 l p, 0 < f1 -> 0 < f2 ->
  ((p_sep p =? 46)%N = true -> length (p_extra p) + 1 < f1 /\ length (p_extra p) + 1 < f2) ->
  lobj f1 g json l p = lobj f2 g json l p.
Proof.
  induction f1 as [|f1 IH]; intros f2 l p H1 H2 Hp; [lia|]. destruct f2 as [|f2]; [lia|]. cbn [lobj].
  destruct l as [|c t]; auto. destruct (negb (c =? 123)%N); auto. apply lobj_loop_ext. intros Hs r.
  destruct (Hp Hs) as [Hp1 Hp2]. cbv zeta. destruct (is_modifier _ || is_multipath _); auto. destruct r as [|c' t']; auto.
  destruct (c' =? 123)%N; auto. rewrite (IH f2); auto; try lia. intros E.
  pose proof (shape_extra_short _ _ (pnext_shape (p_extra p)) (sep_dot_more _ E)). lia.
Qed.

Section Tail.
Context (A B : bytes).
Hypothesis HAB : pnext A = pnext B.

Definition tail (ks : list bytes) (X : bytes) : bytes := dotted (ks ++ [X]).
Lemma tail_cons k ks X : tail (k :: ks) X = k ++ 46%N :: tail ks X.
Proof using. unfold tail. cbn [app]. apply dotted_cons. destruct ks; discriminate. Qed.
Lemma pnext_tail k ks X : any_comp k -> pnext (tail (k :: ks) X) = cpath k 46 (tail ks X).
Proof using. intros H. rewrite tail_cons. apply pnext_any_sep; auto. Qed.
Lemma tail_long ks X : Forall any_comp ks -> length ks <= length (tail ks X).
Proof using. induction 1 as [|k ks Hk Hks IH]; [cbn [length]; lia|]. rewrite tail_cons, app_length. cbn [length]. lia. Qed.

(** Two paths that differ at most in their end. *)
Definition prel (n : nat) (p q : path) : Prop :=
  p = q \/ exists k ks, any_comp k /\ Forall any_comp ks /\ length ks < n /\ p = cpath k 46 (tail ks A) /\ q = cpath k 46 (tail ks B).
Definition rrel (n : nat) (a b : R (value * path)) : Prop :=
  match a, b with
  | Ok (v1, p1), Ok (v2, p2) => v1 = v2 /\ prel n p1 p2
  | Err e1, Err e2 => e1 = e2
  | _, _ => False
  end.
Lemma rrel_refl n a : rrel n a a.
Proof using. destruct a as [[v p]|e]; cbn; auto. split; auto. left; auto. Qed.
Lemma prel_weak n m p q : n <= m -> prel n p q -> prel m p q.
Proof using. intros Hn [H|(k & ks & H1 & H2 & H3 & H4)]; [left; auto|]. right. exists k, ks. repeat split; auto; try lia; apply H4. Qed.
Lemma rrel_weak n m a b : n <= m -> rrel n a b -> rrel m a b.
Proof using. intros Hn. destruct a as [[v p]|], b as [[v' p']|]; cbn; auto. intros [H1 H2]. split; auto. eapply prel_weak; eauto. Qed.

Lemma group_tail ks : Forall any_comp ks -> group (tail ks A) = group (tail ks B).
Proof using HAB.
  induction 1 as [|k ks Hk Hks IH]; rewrite (group_eq (tail _ A)), (group_eq (tail _ B)).
  - unfold tail. cbn [app dotted]. rewrite HAB. reflexivity.
  - rewrite !pnext_tail by auto. cbv zeta. cbn [cpath p_sep p_extra p_comp]. rewrite IH. reflexivity.
Qed.
Lemma next_group_tail n p q : prel n p q -> p_sep p = p_sep q /\ p_comp p = p_comp q /\
  ((p_sep p =? 46)%N = true -> next_group p = next_group q) .
Proof using HAB.
  intros [->|(k & ks & Hk & Hks & _ & -> & ->)]; auto. split; auto. split; auto. intros _.
  rewrite !next_group_spec. cbn [cpath p_sep p_extra]. rewrite group_tail by auto. reflexivity.
Qed.

Lemma larr_tail n g json lines l p q : prel n p q -> rrel n (larr g json lines l p) (larr g json lines l q).
Proof using HAB.
  intros Hr. destruct Hr as [->|Hr]; [apply rrel_refl|]. destruct (next_group_tail n p q (or_intror Hr)) as (Es & Ec & Eg).
  assert (Hl : prel n p q) by (right; exact Hr). destruct Hr as (k & ks & _ & _ & _ & -> & ->). specialize (Eg eq_refl).
  unfold larr. cbv zeta. rewrite Ec, Es, Eg. rewrite next_group_spec. cbn [bind].
  change (p_sep (cpath k 46 (tail ks B)) =? 46)%N with true. cbv match. destruct (group _) as [gr r].
  destruct (p_comp (cpath k 46 (tail ks B))) as [|c [|c2 t]]; try (split; auto; fail); destruct (c =? 35)%N; try (split; auto; fail).
  - apply rrel_refl.
  - destruct (last (c2 :: t) 0 =? 35)%N; [apply rrel_refl|].
    destruct (query_parts (c :: c2 :: t)) as [[[a b] d]|]; cbn [bind]; try reflexivity.
    match goal with |- rrel _ (bind ?m _) _ => destruct m as [st|e']; cbn [bind] end; [split; auto | reflexivity].
Qed.

Definition srel (n : nat) (a b : R ldescent) : Prop :=
  match a, b with
  | Ok (LReturn v1 p1), Ok (LReturn v2 p2) => v1 = v2 /\ prel n p1 p2
  | Ok LSquash, Ok LSquash => True
  | Ok LNone, Ok LNone => True
  | Err e1, Err e2 => e1 = e2
  | _, _ => False
  end.
Lemma lobj_loop_tail n s1 s2 json p q : p_comp p = p_comp q -> p_pat p = p_pat q -> p_esc p = p_esc q -> p_sep p = p_sep q -> prel n p q ->
  (forall r, srel n (s1 r) (s2 r)) ->
  forall fuel l, rrel n (lobj_loop fuel s1 json l p) (lobj_loop fuel s2 json l q).
Proof using.
  intros E1 E2 E3 E4 Hl Hs. assert (Hk : forall b, kmatch p b = kmatch q b) by (intros b; unfold kmatch; rewrite E1, E2, E3; reflexivity).
  induction fuel as [|fuel IH]; intros l; [reflexivity|]. cbn [lobj_loop].
  destruct l as [|c t]; [split; auto|]. destruct (c =? 125)%N; [split; auto|]. destruct (negb (c =? 34)%N); auto.
  destruct (split_str t) as [(b, r0)|]; [|split; auto]. cbv zeta.
  destruct (dropw colon_stop r0) as [|c' t']; [split; auto|]. rewrite Hk, E4.
  specialize (Hs (c' :: t')). unfold srel in Hs.
  destruct (kmatch q b && (p_sep q =? 46)%N && container c').
  - destruct (s1 (c' :: t')) as [[v1 p1| |]|e1]; destruct (s2 (c' :: t')) as [[v2 p2| |]|e2]; cbn [bind]; try contradiction; auto.
    destruct (_ && _); [split; auto | auto].
  - destruct (_ && _); [split; auto | auto].
Qed.

Lemma lobj_tail g json : forall n p q f1 f2 l, prel n p q -> length (p_extra p) + 1 < f1 -> length (p_extra q) + 1 < f2 ->
  rrel n (lobj f1 g json l p) (lobj f2 g json l q).
Proof using HAB.
  induction n as [n IHn] using lt_wf_ind. intros p q f1 f2 l Hr H1 H2. pose proof Hr as Hr'.
  destruct Hr as [->|(k & ks & Hk & Hks & Hn & -> & ->)].
  - rewrite (lobj_fuel g json f1 f2) by (auto; lia). apply rrel_refl.
  - destruct f1 as [|f1]; [lia|]. destruct f2 as [|f2]; [lia|]. cbn [cpath p_extra] in H1, H2. cbn [lobj].
    destruct l as [|c t]; [split; auto|]. destruct (negb (c =? 123)%N); [split; auto|]. apply lobj_loop_tail; auto.
    intros r. cbv zeta. cbn [cpath p_extra].
    assert (Hq : pnext (tail ks A) = pnext (tail ks B) \/
       exists k2 ks2, ks = k2 :: ks2 /\ any_comp k2 /\ Forall any_comp ks2).
    { destruct Hks as [|k2 ks2 Hk2 Hks2]; [left; exact HAB | right; eauto]. }
    assert (Hlen : forall X, length (p_extra (pnext X)) <= length X).
    { intros X. apply suf_length. exact (ps_extra _ _ (pnext_shape X)). }
    destruct Hq as [Hq|(k2 & ks2 & -> & Hk2 & Hks2)].
    + rewrite Hq. destruct (is_modifier _ || is_multipath _); [exact I|]. destruct r as [|c' t']; [reflexivity|].
      assert (E : (if (c' =? 123)%N then lobj f1 g json (c' :: t') (pnext (tail ks B)) else larr g json false (c' :: t') (pnext (tail ks B))) =
                  (if (c' =? 123)%N then lobj f2 g json (c' :: t') (pnext (tail ks B)) else larr g json false (c' :: t') (pnext (tail ks B)))).
      { destruct (c' =? 123)%N; auto. apply lobj_fuel; try lia. intros E.
        pose proof (shape_extra_short _ _ (pnext_shape (tail ks B)) (sep_dot_more _ E)).
        rewrite <- Hq in E. pose proof (shape_extra_short _ _ (pnext_shape (tail ks A)) (sep_dot_more _ E)). rewrite Hq in *. lia. }
      rewrite E. match goal with |- srel _ (bind ?m _) _ => destruct m as [[v p]|e]; cbn [bind]; [|reflexivity] end.
      destruct (v_exists v); [split; auto; left; auto | exact I].
    + rewrite !pnext_tail by auto. destruct (any_not_mod k2 46%N (tail ks2 A) Hk2) as [-> ->]. destruct (any_not_mod k2 46%N (tail ks2 B) Hk2) as [-> ->].
      cbn [orb]. destruct r as [|c' t']; [reflexivity|]. rewrite tail_cons, app_length in H1, H2. cbn [length] in *.
      assert (Hp : prel (S (length ks2)) (cpath k2 46 (tail ks2 A)) (cpath k2 46 (tail ks2 B))).
      { right. exists k2, ks2. repeat split; auto. }
      match goal with |- srel _ (bind ?a _) (bind ?b _) => assert (Hab : rrel n a b) end.
      { apply (rrel_weak (S (length ks2))); [lia|]. destruct (c' =? 123)%N; [apply IHn; auto; cbn [cpath p_extra]; lia | apply larr_tail; auto]. }
      match goal with |- srel _ (bind ?a _) (bind ?b _) => destruct a as [(v1, p1)|], b as [(v2, p2)|] end; cbn [bind rrel] in *; try contradiction; auto.
      destruct Hab as [-> Hab]. destruct (v_exists v2); cbn; auto.
Qed.

Lemma lstart_tail n json p q : prel n p q -> rrel n (lstart get json p) (lstart get json q).
Proof using HAB.
  intros Hr. unfold lstart. cbv zeta. destruct (dropw above_sp json) as [|c t]; [split; auto|].
  destruct (c =? 123)%N; [apply lobj_tail; auto; lia|]. destruct (c =? 91)%N; [apply larr_tail; auto | split; auto].
Qed.

Lemma v_get_ext v t u : (forall j, get j t = get j u) -> v_get v t = v_get v u.
Proof using. intros H. unfold v_get, v_get_with. destruct (v_slice v); rewrite H; reflexivity. Qed.

Hypothesis HA : hd 0%N A <> 46%N.
Hypothesis HB : hd 0%N B <> 46%N.
Lemma split_one X : hd 0%N X <> 46%N -> split_lines X = (false, X).
Proof using. destruct X as [|a [|b X]]; auto. cbn [hd split_lines]. intros H. replace (a =? 46)%N with false by (clear -H; lia). reflexivity. Qed.
Lemma tail_head ks X : Forall any_comp ks -> hd 0%N X <> 46%N -> match ks with [] :: _ => False | _ => True end -> hd 0%N (tail ks X) <> 46%N.
Proof using.
  intros H HX Hk. destruct H as [|k ks Hk' Hks]; [exact HX|]. rewrite tail_cons. pose proof (any_head k Hk') as Hh.
  destruct k as [|c k]; [contradiction|]. exact (Hh ltac:(discriminate)).
Qed.
Lemma split_tail ks : Forall any_comp ks -> exists lines us, Forall any_comp us /\ length us <= length ks /\
  split_lines (tail ks A) = (lines, tail us A) /\ split_lines (tail ks B) = (lines, tail us B).
Proof using HAB HA HB.
  intros H. destruct ks as [|[|c k1] ks].
  - exists false, []. repeat split; auto; apply split_one; auto.
  - destruct ks as [|[|c k2] ks].
    + exists false, [[]]. repeat split; auto.
      * cbn. destruct A as [|a A']; auto. cbn [hd] in HA. replace (a =? 46)%N with false by lia. reflexivity.
      * cbn. destruct B as [|a B']; auto. cbn [hd] in HB. replace (a =? 46)%N with false by lia. reflexivity.
    + exists true, ks. inversion H as [|? ? _ H1]; subst. inversion H1; subst. rewrite !tail_cons. repeat split; auto. cbn [length]; lia.
    + exists false, ([] :: (c :: k2) :: ks). inversion H as [|? ? _ H1]; subst. inversion H1 as [|? ? Hk2 _]; subst.
      pose proof (any_head _ Hk2 ltac:(discriminate)) as Hh. cbn [hd] in Hh.
      rewrite !tail_cons. cbn [app split_lines]. replace (c =? 46)%N with false by lia. rewrite andb_false_r. repeat split; auto.
  - exists false, ((c :: k1) :: ks). split; auto. split; auto. split; apply split_one; apply tail_head; auto.
Qed.

Lemma get_tail_n : forall n ks json, length ks <= n -> Forall any_comp ks -> get json (tail ks A) = get json (tail ks B).
Proof using HAB HA HB.
  induction n as [n IH] using lt_wf_ind. intros ks json Hn Hks. rewrite (get_spec json (tail ks A)), (get_spec json (tail ks B)).
  destruct (split_tail ks Hks) as (lines & us & Hus & Hlen & -> & ->).
  destruct Hus as [|k us Hk Hus].
  - unfold tail. cbn [app dotted]. rewrite HAB. reflexivity.
  - rewrite !pnext_tail by auto. cbn [length] in Hlen.
    assert (Hp : prel (S (length us)) (cpath k 46 (tail us A)) (cpath k 46 (tail us B))) by (right; exists k, us; repeat split; auto).
    assert (H : rrel (S (length us)) (lget_first get json lines (cpath k 46 (tail us A))) (lget_first get json lines (cpath k 46 (tail us B)))).
    { unfold lget_first. destruct lines; [apply larr_tail; auto|].
      destruct (any_not_mod k 46%N (tail us A) Hk) as [-> ->]. destruct (any_not_mod k 46%N (tail us B) Hk) as [-> ->]. apply lstart_tail; auto. }
    unfold rrel in H.
    destruct (lget_first get json lines (cpath k 46 (tail us A))) as [(v1, p1)|e1], (lget_first get json lines (cpath k 46 (tail us B))) as [(v2, p2)|e2];
      cbn [bind]; try contradiction; [|congruence]. destruct H as [-> [->|(k' & vs & _ & Hvs & Hl & -> & ->)]]; auto.
    cbn [cpath p_sep p_extra]. change (p_more (cpath k' 46 (tail vs A))) with true. change (p_more (cpath k' 46 (tail vs B))) with true. cbn [negb].
    apply v_get_ext. intros j. apply (IH (length vs)); auto. lia.
Qed.
End Tail.

Theorem get_tail A B ks json : pnext A = pnext B -> hd 0%N A <> 46%N -> hd 0%N B <> 46%N -> Forall any_comp ks ->
  get json (dotted (ks ++ [A])) = get json (dotted (ks ++ [B])).
Proof. intros H1 H2 H3 H4. exact (get_tail_n A B H1 H2 H3 (length ks) ks json (le_n _) H4). Qed.
