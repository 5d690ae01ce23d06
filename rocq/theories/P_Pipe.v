(** A pipe composes lookups, for every document and every second path. *)
From Verif Require Import P_Base P_Valid P_Str P_Glob P_Scan P_Each P_Path P_LGet P_Parts P_Ext P_Key P_Find P_GetArr
  M_Util M_Num M_Scan M_Value M_Path M_Get S_Json S_Path.

(** The path of the components [k :: ks] alone and followed by a pipe. *)
Definition path1 (k : bytes) (ks : list bytes) : path :=
  match ks with [] => cpath k 0 [] | _ => cpath k 46 (dotted ks) end.
Definition path2 (B k : bytes) (ks : list bytes) : path :=
  match ks with [] => cpath k 124 B | _ => cpath k 46 (dotted ks ++ 124%N :: B) end.
Lemma pnext_path1 k ks : any_comp k -> pnext (dotted (k :: ks)) = path1 k ks.
Proof.
  intros H. destruct ks as [|k2 ks]; [apply pnext_any_end; auto|]. rewrite dotted_cons by discriminate.
  apply pnext_any_sep; auto.
Qed.
Lemma pnext_path2 B k ks : any_comp k -> pnext (dotted (k :: ks) ++ 124%N :: B) = path2 B k ks.
Proof.
  intros H. destruct ks as [|k2 ks]; [apply pnext_any_sep; auto|]. rewrite dotted_cons by discriminate.
  rewrite <- app_assoc. apply pnext_any_sep; auto.
Qed.
Lemma path_comp B k ks : p_comp (path1 k ks) = k /\ p_comp (path2 B k ks) = k.
Proof. destruct ks; auto. Qed.
Lemma path_match B k ks b : kmatch (path2 B k ks) b = kmatch (path1 k ks) b.
Proof. destruct ks; reflexivity. Qed.
Lemma path_sep B k ks : (p_sep (path2 B k ks) =? 46)%N = (p_sep (path1 k ks) =? 46)%N.
Proof. destruct ks; reflexivity. Qed.

(** What is left of the path. *)
Definition left_rel (n : nat) (B : bytes) (p q : path) : Prop :=
  (p_more p = false /\ p_more q = true /\ p_extra q = B) \/
  (p_more p = true /\ p_more q = true /\
   exists ks, Forall any_comp ks /\ ks <> [] /\ length ks < n /\ p_extra p = dotted ks /\ p_extra q = dotted ks ++ 124%N :: B).
Definition res_rel (n : nat) (B : bytes) (a b : R (value * path)) : Prop :=
  match a, b with
  | Ok (v1, p1), Ok (v2, p2) => v1 = v2 /\ left_rel n B p1 p2
  | Err e1, Err e2 => e1 = e2
  | _, _ => False
  end.

Lemma left_rel_weak n m B p q : n <= m -> left_rel n B p q -> left_rel m B p q.
Proof. intros Hn [H|(H1 & H2 & ks & H3 & H4 & H5 & H6)]; [left; auto|]. right. split; auto. split; auto. exists ks. repeat split; auto; try lia; apply H6. Qed.
Lemma res_rel_weak n m B a b : n <= m -> res_rel n B a b -> res_rel m B a b.
Proof.
  intros Hn. unfold res_rel. destruct a as [(v1, p1)|], b as [(v2, p2)|]; auto. intros [H1 H2]. split; auto.
  eapply left_rel_weak; eauto.
Qed.

Lemma left_path n B k ks : Forall any_comp ks -> length ks < n -> left_rel n B (path1 k ks) (path2 B k ks).
Proof.
  intros H Hn. destruct ks as [|k2 ks]; [left; repeat split; reflexivity|]. right. split; [reflexivity|]. split; [reflexivity|].
  exists (k2 :: ks). repeat split; auto. discriminate.
Qed.

Lemma group_rel n B k ks : Forall any_comp ks -> length ks < n -> exists g r1 r2,
  next_group (path1 k ks) = Ok (g, r1) /\ next_group (path2 B k ks) = Ok (g, r2) /\ left_rel n B r1 r2.
Proof.
  intros H Hn. rewrite !next_group_spec. destruct ks as [|k2 ks].
  - do 3 eexists. split; [reflexivity|]. split; [reflexivity|]. left. repeat split; reflexivity.
  - cbn [path1 path2 cpath p_sep N.eqb Pos.eqb p_extra].
    destruct (group_dotted (k2 :: ks) H ltac:(discriminate)) as (r & E & Hr).
    destruct (group_dotted_pipe (k2 :: ks) B H ltac:(discriminate)) as (r' & E' & Hr' & Hx).
    rewrite E, E'. do 3 eexists. split; [reflexivity|]. split; [reflexivity|]. left. unfold p_more.
    rewrite Hr, Hr'. repeat split; auto.
Qed.

Lemma larr_rel n g B json lines l k ks : any_comp k -> Forall any_comp ks -> length ks < n ->
  res_rel n B (larr g json lines l (path1 k ks)) (larr g json lines l (path2 B k ks)).
Proof.
  intros Hk Hks Hn. pose proof (left_path n B k ks Hks Hn) as Hl. unfold larr. cbv zeta.
  destruct (path_comp B k ks) as [-> ->]. rewrite path_sep.
  destruct (group_rel n B k ks Hks Hn) as (gr & r1 & r2 & -> & -> & Hr). cbn [bind].
  destruct k as [|c t]; [split; auto|].
  destruct (c =? 35)%N; [|split; auto].
  destruct t as [|c2 t].
  { destruct (p_sep (path1 (c :: []) ks) =? 46)%N; [|split; auto].
    match goal with |- res_rel _ _ (bind ?m _) _ => destruct m as [st|e]; cbn [bind] end; [split; auto | reflexivity]. }
  destruct (last (c2 :: t) 0 =? 35)%N.
  - destruct (query_parts (c :: c2 :: t)) as [((lh, op), rh)|]; cbn [bind]; [|reflexivity].
    match goal with |- res_rel _ _ (bind ?m _) _ => destruct m as [st|e]; cbn [bind] end; [split; auto | reflexivity].
  - destruct (query_parts (c :: c2 :: t)) as [((lh, op), rh)|]; cbn [bind]; [|reflexivity].
    match goal with |- res_rel _ _ (bind ?m _) _ => destruct m as [st|e]; cbn [bind] end; [split; auto | reflexivity].
Qed.

Definition sub_res (n : nat) (B : bytes) (a b : R ldescent) : Prop :=
  match a, b with
  | Ok (LReturn v1 p1), Ok (LReturn v2 p2) => v1 = v2 /\ left_rel n B p1 p2
  | Ok LSquash, Ok LSquash => True
  | Ok LNone, Ok LNone => True
  | Err e1, Err e2 => e1 = e2
  | _, _ => False
  end.

Lemma lobj_loop_rel n B s1 s2 json k ks : left_rel n B (path1 k ks) (path2 B k ks) ->
  ((p_sep (path1 k ks) =? 46)%N = true -> forall r, r <> [] -> sub_res n B (s1 r) (s2 r)) ->
  forall fuel l, res_rel n B (lobj_loop fuel s1 json l (path1 k ks)) (lobj_loop fuel s2 json l (path2 B k ks)).
Proof.
  intros Hl Hs. induction fuel as [|fuel IH]; intros l; [reflexivity|]. cbn [lobj_loop].
  destruct l as [|c t]; [split; auto|]. destruct (c =? 125)%N; [split; auto|]. destruct (negb (c =? 34)%N); auto.
  destruct (split_str t) as [(b, r0)|]; [|split; auto]. cbv zeta.
  destruct (dropw colon_stop r0) as [|c' t']; [split; auto|]. rewrite path_match, path_sep.
  destruct (p_sep (path1 k ks) =? 46)%N eqn:Esep.
  - destruct (kmatch (path1 k ks) b); cbn [andb]; auto.
    destruct (container c').
    + specialize (Hs eq_refl (c' :: t') ltac:(discriminate)). unfold sub_res in Hs.
      destruct (s1 (c' :: t')) as [[v1 p1| |]|e1]; destruct (s2 (c' :: t')) as [[v2 p2| |]|e2]; cbn [bind]; try contradiction; auto.
      destruct (v_exists (fval json (c' :: t'))); [split; auto | auto].
    + destruct (v_exists (fval json (c' :: t'))); [split; auto | auto].
  - rewrite !andb_false_r. cbn [andb]. destruct (_ && _); [split; auto | auto].
Qed.

Lemma lobj_rel g B json : forall ks k f1 f2 l n, any_comp k -> Forall any_comp ks -> length ks < n ->
  length ks < f1 -> length ks < f2 -> res_rel n B (lobj f1 g json l (path1 k ks)) (lobj f2 g json l (path2 B k ks)).
Proof.
  induction ks as [|k2 ks IH]; intros k f1 f2 l n Hk Hks Hn H1 H2;
    (destruct f1 as [|f1]; [cbn in H1; lia|]); (destruct f2 as [|f2]; [cbn in H2; lia|]); cbn [lobj];
    pose proof (left_path n B k _ Hks Hn) as Hl.
  - destruct l as [|c t]; [split; auto|]. destruct (negb (c =? 123)%N); [split; auto|].
    apply lobj_loop_rel; auto. discriminate.
  - destruct l as [|c t]; [split; auto|]. destruct (negb (c =? 123)%N); [split; auto|].
    apply lobj_loop_rel; auto. intros _ r Hr. cbv zeta. inversion Hks as [|? ? Hk2 Hks']; subst.
    change (p_extra (path1 k (k2 :: ks))) with (dotted (k2 :: ks)).
    change (p_extra (path2 B k (k2 :: ks))) with (dotted (k2 :: ks) ++ 124%N :: B).
    rewrite pnext_path1, pnext_path2 by auto.
    assert (Hm : forall s x, is_modifier (cpath k2 s x) || is_multipath (cpath k2 s x) = false).
    { intros s x. destruct (any_not_mod k2 s x Hk2) as [-> ->]. reflexivity. }
    assert (Hm1 : is_modifier (path1 k2 ks) || is_multipath (path1 k2 ks) = false) by (destruct ks; apply Hm).
    assert (Hm2 : is_modifier (path2 B k2 ks) || is_multipath (path2 B k2 ks) = false) by (destruct ks; apply Hm).
    rewrite Hm1, Hm2. destruct r as [|c' t']; [congruence|]. cbn [length] in *.
    match goal with |- sub_res _ _ (bind ?a _) (bind ?b _) => assert (Hab : res_rel n B a b) end.
    { destruct (c' =? 123)%N; [apply IH; auto; lia|]. apply larr_rel; auto; lia. }
    unfold res_rel in Hab.
    match goal with |- sub_res _ _ (bind ?a _) (bind ?b _) => destruct a as [(v1, p1)|], b as [(v2, p2)|] end; cbn [bind]; try contradiction; auto.
    destruct Hab as [-> Hab]. destruct (v_exists v2); cbn; auto.
Qed.

Lemma lstart_rel n B json k ks : any_comp k -> Forall any_comp ks -> length ks < n ->
  res_rel n B (lstart get json (path1 k ks)) (lstart get json (path2 B k ks)).
Proof.
  intros Hk Hks Hn. pose proof (left_path n B k ks Hks Hn) as Hl. unfold lstart. cbv zeta.
  destruct (dropw above_sp json) as [|c t]; [split; auto|].
  assert (Hd : length ks <= S (length (dotted ks))).
  { clear. induction ks as [|k2 ks IH]; [cbn; lia|]. destruct ks as [|k3 ks]; [cbn; lia|].
    rewrite dotted_cons by discriminate. rewrite app_length. cbn [length] in *. lia. }
  destruct (c =? 123)%N.
  - apply lobj_rel; auto; destruct ks as [|k2 ks]; try (cbn; lia).
    + change (p_extra (path1 k (k2 :: ks))) with (dotted (k2 :: ks)). lia.
    + change (p_extra (path2 B k (k2 :: ks))) with (dotted (k2 :: ks) ++ 124%N :: B). rewrite app_length. lia.
  - destruct (c =? 91)%N; [apply larr_rel; auto | split; auto].
Qed.

(* ---------- composing values ---------- *)

Lemma json_into_owned_idem v : v_slice v = [] \/ v_owned v = [] -> json_into_owned (json_into_owned v) = json_into_owned v.
Proof. reflexivity. Qed.

Lemma add_index_add a b v : add_index a (add_index b v) =
  add_index (match a, b with Some x, Some y => Some (x + y) | _, _ => None end) v.
Proof.
  unfold add_index. cbn [v_slice v_owned v_uesc v_info v_index]. f_equal.
  destruct a, b, (v_index v); auto. f_equal. lia.
Qed.
Lemma into_owned_index a v : json_into_owned (add_index a v) = add_index a (json_into_owned v).
Proof. reflexivity. Qed.

Definition bget (m : R value) (p : bytes) : R value := x <- m ;; v_get x p.

Lemma v_get_owned x p : v_get (json_into_owned x) p = (r <- v_get x p ;; Ok (json_into_owned r)).
Proof.
  unfold v_get, v_get_with. cbn [json_into_owned v_slice v_owned v_index].
  destruct (v_slice x) as [|a t].
  - destruct (get (v_owned x) p) as [r|]; reflexivity.
  - destruct (get (a :: t) p) as [r|]; reflexivity.
Qed.
Lemma v_get_index a x p : v_get (add_index a x) p = (r <- v_get x p ;; Ok (add_index a r)).
Proof.
  unfold v_get, v_get_with. cbn [add_index v_slice v_owned v_index].
  match goal with |- bind ?m _ = _ => destruct m as [r|] end; cbn [bind]; auto.
  rewrite add_index_add. reflexivity.
Qed.

Lemma v_get_compose v t p u : (forall j, get j t = bget (get j p) u) -> v_get v t = bget (v_get v p) u.
Proof.
  intros H. unfold v_get at 1, bget, v_get at 1, v_get_with. destruct (v_slice v) as [|a s].
  - rewrite H. unfold bget. destruct (get (v_owned v) p) as [x|]; cbn [bind]; auto.
    rewrite v_get_index, v_get_owned. destruct (v_get x u) as [r|]; reflexivity.
  - rewrite H. unfold bget. destruct (get (a :: s) p) as [x|]; cbn [bind]; auto.
    rewrite v_get_index. destruct (v_get x u) as [r|]; reflexivity.
Qed.

(* ---------- the theorem ---------- *)

Lemma split_lines_cons a t : split_lines (a :: t) =
  match t with
  | b :: u => if ((a =? 46) && (b =? 46))%N then (true, u) else (false, a :: t)
  | [] => (false, a :: t)
  end.
Proof. destruct t; reflexivity. Qed.
Lemma any_head k : any_comp k -> k <> [] -> hd 0%N k <> 46%N.
Proof.
  intros Hk Hn. destruct Hk as [[H _]|[->|(q & all & _ & ->)]]; try (cbn; discriminate).
  destruct k as [|c k]; [congruence|]. cbn [hd]. inversion H as [|c' t' (H1 & _) Ht|]; subst; [auto | discriminate].
Qed.
Lemma split_dotted B ks : Forall any_comp ks -> ks <> [] ->
  exists lines ks', ks' <> [] /\ Forall any_comp ks' /\ length ks' <= length ks /\
    split_lines (dotted ks) = (lines, dotted ks') /\
    split_lines (dotted ks ++ 124%N :: B) = (lines, dotted ks' ++ 124%N :: B).
Proof.
  intros H Hn. destruct ks as [|k1 ks]; [congruence|]. inversion H as [|? ? Hk1 Hks]; subst.
  destruct k1 as [|c k1].
  - destruct ks as [|k2 ks]; [exists false, [[]]; split; [discriminate|]; repeat split; auto; destruct B; reflexivity|].
    inversion Hks as [|? ? Hk2 Hks']; subst. destruct k2 as [|c2 k2].
    + destruct ks as [|k3 ks].
      * exists false, [[]; []]. split; [discriminate|]; repeat split; auto.
      * exists true, (k3 :: ks). repeat split; auto; try discriminate. cbn; lia.
    + exists false, ([] :: (c2 :: k2) :: ks). split; [discriminate|]. split; auto. split; auto.
      pose proof (any_head _ Hk2 ltac:(discriminate)) as Hc. cbn [hd] in Hc.
      rewrite dotted_cons by discriminate. cbn [app]. rewrite !split_lines_cons.
      assert (E : exists t, dotted ((c2 :: k2) :: ks) = c2 :: t) by (destruct ks; cbn; eauto).
      destruct E as (t & ->). cbn [app]. replace (c2 =? 46)%N with false by lia. auto.
  - exists false, ((c :: k1) :: ks). split; [discriminate|]. split; auto. split; auto.
    pose proof (any_head _ Hk1 ltac:(discriminate)) as Hc. cbn [hd] in Hc.
    assert (E : exists t, dotted ((c :: k1) :: ks) = c :: t) by (destruct ks; cbn; eauto).
    destruct E as (t & ->). cbn [app]. rewrite !split_lines_cons. replace (c =? 46)%N with false by lia. cbn [andb].
    split; [destruct t; auto|]. destruct (t ++ 124%N :: B); auto.
Qed.

Lemma get_pipe_n : forall n ks B json, length ks <= n -> ks <> [] -> Forall any_comp ks ->
  get json (dotted ks ++ 124%N :: B) = (v <- get json (dotted ks) ;; v_get v B).
Proof.
  induction n as [n IH] using lt_wf_ind. intros ks B json Hn Hne Hks. rewrite (get_spec json (dotted ks ++ 124%N :: B)).
  rewrite (get_spec json (dotted ks)).
  destruct (split_dotted B ks Hks Hne) as (lines & ks' & Hne' & Hks' & Hlen & -> & ->).
  destruct ks' as [|k t]; [congruence|]. inversion Hks' as [|? ? Hk Ht]; subst. cbn [length] in Hlen.
  rewrite pnext_path1, pnext_path2 by auto.
  assert (Hm : forall s x, is_modifier (cpath k s x) = false /\ is_multipath (cpath k s x) = false).
  { intros s x. apply any_not_mod; auto. }
  assert (H : res_rel (S (length t)) B (lget_first get json lines (path1 k t)) (lget_first get json lines (path2 B k t))).
  { unfold lget_first. destruct lines; [apply larr_rel; auto|].
    assert (Hm1 : is_modifier (path1 k t) = false /\ is_multipath (path1 k t) = false) by (destruct t; apply Hm).
    assert (Hm2 : is_modifier (path2 B k t) = false /\ is_multipath (path2 B k t) = false) by (destruct t; apply Hm).
    destruct Hm1 as [-> ->], Hm2 as [-> ->]. apply lstart_rel; auto. }
  unfold res_rel in H.
  destruct (lget_first get json lines (path1 k t)) as [(v1, p1)|e1], (lget_first get json lines (path2 B k t)) as [(v2, p2)|e2];
    cbn [bind]; try contradiction; [|congruence]. destruct H as [-> [(E1 & E2 & E3)|(E1 & E2 & us & U1 & U2 & U3 & U4 & U5)]].
  - rewrite E1, E2, E3. reflexivity.
  - rewrite E1, E2, U4, U5. cbn [negb]. change (v_get v2 (dotted us ++ 124%N :: B) = bget (v_get v2 (dotted us)) B).
    apply v_get_compose. intros j. apply (IH (length us)); auto. lia.
Qed.

Theorem get_pipe ks B json : ks <> [] -> Forall any_comp ks ->
  get json (dotted ks ++ 124%N :: B) = (v <- get json (dotted ks) ;; v_get v B).
Proof. intros. apply (get_pipe_n (length ks)); auto. Qed.
(** The same starting from a value. *)
Theorem v_get_pipe ks B v : ks <> [] -> Forall any_comp ks ->
  v_get v (dotted ks ++ 124%N :: B) = (x <- v_get v (dotted ks) ;; v_get x B).
Proof. intros H1 H2. apply (v_get_compose v). intros j. apply get_pipe; auto. Qed.
