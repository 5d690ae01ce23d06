(** Lookups compose along whole paths: the pipe after any path; the dot after a
    modifier or multipath; the dot before a modifier or multipath. *)
From Verif Require Import P_Base P_Valid P_Str P_Glob P_Scan P_Each P_Path P_LGet P_Parts P_Ext P_Key P_Find P_GetArr P_Pipe P_Mod P_Multi
  M_Util M_Num M_Scan M_Value M_Path M_Get S_Json S_Path S_Mod S_Multi S_Compose.

Definition path3 (B k : bytes) (ks : list bytes) : path :=
  match ks with [] => cpath k 46 B | _ => cpath k 46 (dotted ks ++ 46%N :: B) end.
Lemma one_any k : one_comp k -> any_comp k.
Proof. intros [[H _]|(q & Hq & ->)]; [left; auto|]. right. right. exists q, false. auto. Qed.
Lemma ones_any ks : Forall one_comp ks -> Forall any_comp ks.
Proof. intros H. eapply Forall_impl; [|exact H]. exact one_any. Qed.
Lemma one_nil k : one_comp k -> k <> [].
Proof. intros [[_ H]|(q & _ & ->)]; [auto | discriminate]. Qed.

Lemma pnext_path3 B k ks : any_comp k -> pnext (dotted (k :: ks) ++ 46%N :: B) = path3 B k ks.
Proof.
  intros H. destruct ks as [|k2 ks]; [apply pnext_any_sep; auto|]. rewrite dotted_cons by discriminate.
  rewrite <- app_assoc. apply pnext_any_sep; auto.
Qed.
Lemma path3_comp B k ks : p_comp (path3 B k ks) = k.
Proof. destruct ks; auto. Qed.
Lemma path3_match B k ks b : kmatch (path3 B k ks) b = kmatch (path2 B k ks) b.
Proof. destruct ks; reflexivity. Qed.

Definition left3 (n : nat) (B : bytes) (p q : path) : Prop :=
  p_more p = true /\ p_more q = true /\
  ((p_extra p = B /\ p_extra q = B) \/
   exists ks, Forall one_comp ks /\ ks <> [] /\ length ks < n /\ p_extra p = dotted ks ++ 124%N :: B /\ p_extra q = dotted ks ++ 46%N :: B).
Definition res3 (n : nat) (B : bytes) (a b : R (value * path)) : Prop :=
  match a, b with
  | Ok (v1, p1), Ok (v2, p2) => v1 = v2 /\ left3 n B p1 p2
  | Err e1, Err e2 => e1 = e2
  | _, _ => False
  end.
Lemma left3_path n B k ks : Forall one_comp ks -> length ks < n -> left3 n B (path2 B k ks) (path3 B k ks).
Proof.
  intros H Hn. destruct ks as [|k2 ks]; (split; [reflexivity|]; split; [reflexivity|]); [left; split; reflexivity|]. right.
  exists (k2 :: ks). repeat split; auto. discriminate.
Qed.

Lemma larr3 n g B json lines l k ks : one_comp k -> Forall one_comp ks -> length ks < n ->
  res3 n B (larr g json lines l (path2 B k ks)) (larr g json lines l (path3 B k ks)).
Proof.
  intros Hk Hks Hn. pose proof (left3_path n B k ks Hks Hn) as Hl. unfold larr. cbv zeta.
  destruct (path_comp B k ks) as [_ ->]. rewrite path3_comp.
  destruct k as [|c t]; [split; auto|].
  destruct (N.eqb_spec c 35) as [->|]; [|split; auto].
  destruct Hk as [[[_ H] _]|(q & Hq & E)]; [cbn in H; destruct H as (_ & H & _); congruence|].
  unfold qcomp in E. injection E as ->. destruct (q ++ [41%N]) as [|x y] eqn:E; [destruct q; discriminate|].
  cbn [app]. 
  assert (El : last (40%N :: x :: y) 0%N = 41%N).
  { rewrite <- E. change (40%N :: q ++ [41%N]) with ((40%N :: q) ++ [41%N]). apply last_last. }
  rewrite El. change (41 =? 35)%N with false. cbv iota.
  match goal with |- res3 _ _ (bind ?m _) _ => destruct m as [((lh, op), rh)|]; cbn [bind] end; [|reflexivity].
  match goal with |- res3 _ _ (bind ?m _) _ => destruct m as [st|e]; cbn [bind] end; [split; auto | reflexivity].
Qed.

Definition sub3 (n : nat) (B : bytes) (a b : R ldescent) : Prop :=
  match a, b with
  | Ok (LReturn v1 p1), Ok (LReturn v2 p2) => v1 = v2 /\ left3 n B p1 p2
  | Ok LSquash, Ok LSquash => True
  | Ok LNone, Ok LNone => True
  | Err e1, Err e2 => e1 = e2
  | _, _ => False
  end.

Lemma lobj_loop3_last n B s1 s2 json k : left3 n B (path2 B k []) (path3 B k []) ->
  (forall r, r <> [] -> s2 r = Ok LSquash) ->
  forall fuel l, res3 n B (lobj_loop fuel s1 json l (path2 B k [])) (lobj_loop fuel s2 json l (path3 B k [])).
Proof.
  intros Hl Hs. induction fuel as [|fuel IH]; intros l; [reflexivity|]. cbn [lobj_loop].
  destruct l as [|c t]; [split; auto|]. destruct (c =? 125)%N; [split; auto|]. destruct (negb (c =? 34)%N); auto.
  destruct (split_str t) as [(b, r0)|]; [|split; auto]. cbv zeta.
  destruct (dropw colon_stop r0) as [|c' t']; [split; auto|]. rewrite path3_match.
  change (p_sep (path2 B k []) =? 46)%N with false. change (p_sep (path3 B k []) =? 46)%N with true.
  rewrite andb_false_r, andb_true_r. cbn [andb].
  destruct (kmatch (path2 B k []) b); cbn [andb]; auto.
  rewrite Hs by discriminate. cbn [bind].
  destruct (container c'); destruct (v_exists (fval json (c' :: t'))); auto; split; auto.
Qed.

Lemma lobj_loop3 n B s1 s2 json k k2 ks : left3 n B (path2 B k (k2 :: ks)) (path3 B k (k2 :: ks)) ->
  (forall r, r <> [] -> sub3 n B (s1 r) (s2 r)) ->
  forall fuel l, res3 n B (lobj_loop fuel s1 json l (path2 B k (k2 :: ks))) (lobj_loop fuel s2 json l (path3 B k (k2 :: ks))).
Proof.
  intros Hl Hs. induction fuel as [|fuel IH]; intros l; [reflexivity|]. cbn [lobj_loop].
  destruct l as [|c t]; [split; auto|]. destruct (c =? 125)%N; [split; auto|]. destruct (negb (c =? 34)%N); auto.
  destruct (split_str t) as [(b, r0)|]; [|split; auto]. cbv zeta.
  destruct (dropw colon_stop r0) as [|c' t']; [split; auto|]. rewrite path3_match.
  change (p_sep (path2 B k (k2 :: ks)) =? 46)%N with true. change (p_sep (path3 B k (k2 :: ks)) =? 46)%N with true.
  destruct (kmatch (path2 B k (k2 :: ks)) b); cbn [andb]; auto.
  destruct (container c').
  - specialize (Hs (c' :: t') ltac:(discriminate)). unfold sub3 in Hs.
    destruct (s1 (c' :: t')) as [[v1 p1| |]|e1]; destruct (s2 (c' :: t')) as [[v2 p2| |]|e2]; cbn [bind]; try contradiction; auto.
    destruct (v_exists (fval json (c' :: t'))); [split; auto | auto].
  - destruct (v_exists (fval json (c' :: t'))); [split; auto | auto].
Qed.

(** [B] starts with a modifier or multipath. *)
Definition starts (B : bytes) : Prop := is_modifier (pnext B) || is_multipath (pnext B) = true.

Lemma lobj3 g B json : starts B -> forall ks k f1 f2 l n, one_comp k -> Forall one_comp ks -> length ks < n ->
  length ks < f1 -> length ks < f2 -> res3 n B (lobj f1 g json l (path2 B k ks)) (lobj f2 g json l (path3 B k ks)).
Proof.
  intros HB. induction ks as [|k2 ks IH]; intros k f1 f2 l n Hk Hks Hn H1 H2;
    (destruct f1 as [|f1]; [cbn in H1; lia|]); (destruct f2 as [|f2]; [cbn in H2; lia|]); cbn [lobj];
    pose proof (left3_path n B k _ Hks Hn) as Hl.
  - destruct l as [|c t]; [split; auto|]. destruct (negb (c =? 123)%N); [split; auto|].
    apply lobj_loop3_last; auto. intros r Hr. cbv zeta. change (p_extra (path3 B k [])) with B.
    unfold starts in HB. rewrite HB. reflexivity.
  - destruct l as [|c t]; [split; auto|]. destruct (negb (c =? 123)%N); [split; auto|].
    apply lobj_loop3; auto. intros r Hr. cbv zeta. inversion Hks as [|? ? Hk2 Hks']; subst.
    change (p_extra (path2 B k (k2 :: ks))) with (dotted (k2 :: ks) ++ 124%N :: B).
    change (p_extra (path3 B k (k2 :: ks))) with (dotted (k2 :: ks) ++ 46%N :: B).
    rewrite pnext_path2, pnext_path3 by auto using one_any.
    assert (Hm : forall s x, is_modifier (cpath k2 s x) || is_multipath (cpath k2 s x) = false).
    { intros s x. destruct (any_not_mod k2 s x (one_any _ Hk2)) as [-> ->]. reflexivity. }
    assert (Hm1 : is_modifier (path2 B k2 ks) || is_multipath (path2 B k2 ks) = false) by (destruct ks; apply Hm).
    assert (Hm2 : is_modifier (path3 B k2 ks) || is_multipath (path3 B k2 ks) = false) by (destruct ks; apply Hm).
    rewrite Hm1, Hm2. destruct r as [|c' t']; [congruence|]. cbn [length] in *.
    match goal with |- sub3 _ _ (bind ?a _) (bind ?b _) => assert (Hab : res3 n B a b) end.
    { destruct (c' =? 123)%N; [apply IH; auto; lia|]. apply larr3; auto; lia. }
    unfold res3 in Hab.
    match goal with |- sub3 _ _ (bind ?a _) (bind ?b _) => destruct a as [(v1, p1)|], b as [(v2, p2)|] end; cbn [bind]; try contradiction; auto.
    destruct Hab as [-> Hab]. destruct (v_exists v2); cbn; auto.
Qed.

Lemma dotted_len ks : length ks <= S (length (dotted ks)).
Proof.
  induction ks as [|k2 ks IH]; [cbn; lia|]. destruct ks as [|k3 ks]; [cbn; lia|].
  rewrite dotted_cons by discriminate. rewrite app_length. cbn [length] in *. lia.
Qed.

Lemma lstart3 n B json k ks : starts B -> one_comp k -> Forall one_comp ks -> length ks < n ->
  res3 n B (lstart get json (path2 B k ks)) (lstart get json (path3 B k ks)).
Proof.
  intros HB Hk Hks Hn. pose proof (left3_path n B k ks Hks Hn) as Hl. unfold lstart. cbv zeta.
  destruct (dropw above_sp json) as [|c t]; [split; auto|].
  pose proof (dotted_len ks) as Hd.
  destruct (c =? 123)%N.
  - apply lobj3; auto; destruct ks as [|k2 ks]; try (cbn; lia).
    + change (p_extra (path2 B k (k2 :: ks))) with (dotted (k2 :: ks) ++ 124%N :: B). rewrite app_length. lia.
    + change (p_extra (path3 B k (k2 :: ks))) with (dotted (k2 :: ks) ++ 46%N :: B). rewrite app_length. lia.
  - destruct (c =? 91)%N; [apply larr3; auto | split; auto].
Qed.

Lemma split_one k ks s B : one_comp k -> split_lines (dotted (k :: ks) ++ s :: B) = (false, dotted (k :: ks) ++ s :: B).
Proof.
  intros Hk. pose proof (any_head k (one_any _ Hk) (one_nil _ Hk)) as Hc. pose proof (one_nil _ Hk) as Hn.
  destruct k as [|c k]; [congruence|]. cbn [hd] in Hc.
  assert (E : exists t, dotted ((c :: k) :: ks) = c :: t) by (destruct ks; cbn; eauto).
  destruct E as (t & ->). cbn [app]. rewrite split_lines_cons. replace (c =? 46)%N with false by lia. cbn [andb].
  destruct (t ++ s :: B); auto.
Qed.

Lemma v_get_same v t u : (forall j, get j t = get j u) -> v_get v t = v_get v u.
Proof. intros H. unfold v_get, v_get_with. destruct (v_slice v); rewrite H; reflexivity. Qed.

Lemma dot_pipe_n : forall n ks B json, starts B -> length ks <= n -> ks <> [] -> Forall one_comp ks ->
  get json (dotted ks ++ 46%N :: B) = get json (dotted ks ++ 124%N :: B).
Proof.
  induction n as [n IH] using lt_wf_ind. intros ks B json HB Hn Hne Hks.
  destruct ks as [|k t]; [congruence|]. inversion Hks as [|? ? Hk Ht]; subst. cbn [length] in Hn.
  rewrite (get_spec json (dotted (k :: t) ++ 46%N :: B)), (get_spec json (dotted (k :: t) ++ 124%N :: B)).
  rewrite !split_one by auto. rewrite pnext_path2, pnext_path3 by auto using one_any.
  assert (Hm : forall s x, is_modifier (cpath k s x) = false /\ is_multipath (cpath k s x) = false).
  { intros s x. apply any_not_mod; auto using one_any. }
  assert (H : res3 (S (length t)) B (lget_first get json false (path2 B k t)) (lget_first get json false (path3 B k t))).
  { unfold lget_first.
    assert (Hm1 : is_modifier (path2 B k t) = false /\ is_multipath (path2 B k t) = false) by (destruct t; apply Hm).
    assert (Hm2 : is_modifier (path3 B k t) = false /\ is_multipath (path3 B k t) = false) by (destruct t; apply Hm).
    destruct Hm1 as [-> ->], Hm2 as [-> ->]. apply lstart3; auto. }
  unfold res3 in H.
  destruct (lget_first get json false (path2 B k t)) as [(v1, p1)|e1], (lget_first get json false (path3 B k t)) as [(v2, p2)|e2];
    cbn [bind]; try contradiction; [|congruence].
  destruct H as [-> (E1 & E2 & [(E3 & E4)|(us & U1 & U2 & U3 & U4 & U5)])].
  - rewrite E1, E2, E3, E4. reflexivity.
  - rewrite E1, E2, U4, U5. cbn [negb]. apply v_get_same. intros j. apply (IH (length us)); auto. lia.
Qed.

(* ---------- multipaths and modifiers ---------- *)


Lemma get_multi json o q c : ((o = 91 /\ c = 93) \/ (o = 123 /\ c = 125))%N -> balanced q ->
  exists m, forall tail s rest, rest_end tail s rest -> get json (o :: q ++ c :: tail) = (v <- m ;; if (s =? 0)%N then Ok v else v_get v rest).
Proof.
  intros Hoc Hq.
  set (run := if (o =? 91)%N
    then cs <- each_comp (o :: q ++ [c]) ;; '(out, _) <- multi_arr get json cs ([91%N], 0) ;; json_from_owned (out ++ [93%N]) None INFO_ARRAY
    else cs <- each_comp (o :: q ++ [c]) ;; '(out, _) <- multi_obj get json cs ([123%N], 0) ;; json_from_owned (out ++ [125%N]) None INFO_OBJECT).
  exists run. intros tail s rest Hr.
  assert (Ho : (o = 91 \/ o = 123)%N) by lia.
  assert (Hc : bracket_close c) by (unfold bracket_close; lia).
  rewrite (multi_get json o q c s rest tail) by auto.
  assert (Hs : p_more (mkPath (o :: q ++ [c]) false false s 0 rest) = negb (s =? 0)%N) by reflexivity.
  assert (E : multi_exec get json (mkPath (o :: q ++ [c]) false false s 0 rest) = (v <- run ;; Ok (v, mkPath (o :: q ++ [c]) false false s 0 rest))).
  { unfold multi_exec. set (p := mkPath _ _ _ _ _ _). change (p_comp p) with (o :: q ++ [c]).
    change (idx (o :: q ++ [c]) 0) with (@Ok N o). cbn [bind].
    rewrite usub_ok by (cbn [length]; lia). cbn [bind]. rewrite idx_end. cbn [bind]. unfold run.
    change cLBRK with 91%N. change cLBRC with 123%N. change cRBRK with 93%N. change cRBRC with 125%N.
    destruct Hoc as [[-> ->]|[-> ->]].
    - change (91 =? 91)%N with true. change (93 =? 93)%N with true. cbv iota. cbn [negb].
      destruct (each_comp _) as [cs|e]; [|reflexivity]. cbn [bind].
      destruct (multi_arr get json cs ([91%N], 0)) as [[out m]|e]; reflexivity.
    - change (123 =? 91)%N with false. change (123 =? 123)%N with true. change (125 =? 125)%N with true. cbv iota. cbn [negb andb].
      destruct (each_comp _) as [cs|e]; [|reflexivity]. cbn [bind].
      destruct (multi_obj get json cs ([123%N], 0)) as [[out m]|e]; reflexivity. }
  rewrite E. destruct run as [v|e]; [|reflexivity]. cbn [bind]. rewrite Hs. destruct (s =? 0)%N; reflexivity.
Qed.

Lemma sep_nz s : s = 46%N \/ s = 124%N -> is_sep s = true.
Proof. intros [-> | ->]; reflexivity. Qed.

Theorem get_stage json m s B : stage m -> s = 46%N \/ s = 124%N ->
  get json (m ++ s :: B) = (v <- get json m ;; v_get v B).
Proof.
  intros Hm Hs. apply sep_nz in Hs. destruct Hm as [name arg Hn Ha|q Hq|q Hq].
  - rewrite get_modifier by auto. rewrite get_modifier_end by auto.
    destruct (mod_apply get name json (arg_text arg)) as [out|e]; reflexivity.
  - destruct (get_multi json 91%N q 93%N ltac:(auto) Hq) as (r & H). cbn [app]. rewrite <- app_assoc. cbn [app].
    rewrite (H (s :: B) s B) by (right; auto). rewrite (H [] 0%N []) by (left; auto).
    rewrite (is_sep_nz _ Hs). destruct r; reflexivity.
  - destruct (get_multi json 123%N q 125%N ltac:(auto) Hq) as (r & H). cbn [app]. rewrite <- app_assoc. cbn [app].
    rewrite (H (s :: B) s B) by (right; auto). rewrite (H [] 0%N []) by (left; auto).
    rewrite (is_sep_nz _ Hs). destruct r; reflexivity.
Qed.

Lemma stage_starts m t : stage m -> ended t -> starts (m ++ t).
Proof.
  intros Hm Ht. unfold starts.
  assert (Hr : rest_ok t) by (destruct Ht as [->|(s & u & -> & Hs)]; [exact I | apply sep_nz; auto]).
  assert (He : exists s u, rest_end t s u).
  { destruct Ht as [->|(s & u & -> & Hs)]; [exists 0%N, []; left; auto | exists s, u; right; auto using sep_nz]. }
  destruct He as (s & u & He). destruct Hm as [name arg Hn Ha|q Hq|q Hq].
  - destruct (modifier_pnext name arg t Hn Ha Hr) as (pat & ->). reflexivity.
  - cbn [app]. rewrite <- app_assoc. cbn [app].
    rewrite (pnext_multi 91%N q 93%N t s u) by (auto; right; left; reflexivity). reflexivity.
  - cbn [app]. rewrite <- app_assoc. cbn [app].
    rewrite (pnext_multi 123%N q 125%N t s u) by (auto; right; right; reflexivity). reflexivity.
Qed.

Theorem get_dot_stage json ks B : ks <> [] -> Forall one_comp ks -> staged B ->
  get json (dotted ks ++ 46%N :: B) = (v <- get json (dotted ks) ;; v_get v B).
Proof.
  intros Hn Hks (m & t & Hm & Ht & ->).
  rewrite (dot_pipe_n (length ks)) by auto using stage_starts. apply get_pipe; auto using ones_any.
Qed.

Lemma staged_app B s u : staged B -> s = 46%N \/ s = 124%N -> staged (B ++ s :: u).
Proof.
  intros (m & t & Hm & Ht & ->) Hs. exists m, (t ++ s :: u). rewrite <- app_assoc. repeat split; auto.
  destruct Ht as [->|(s' & u' & -> & Hs')]; right; [exists s, u | exists s', (u' ++ s :: u)]; auto.
Qed.

Lemma bind_bget (m : R value) a B u : (forall v, v_get v a = bget (v_get v B) u) ->
  (v <- m ;; v_get v a) = bget (v <- m ;; v_get v B) u.
Proof. intros H. destruct m; [apply H | reflexivity]. Qed.
