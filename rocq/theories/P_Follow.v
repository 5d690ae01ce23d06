(** Following the keys of a dotted path. *)
From Verif Require Import P_Base P_Json P_Valid P_ValidSpec P_Str P_Glob P_Scan P_Each P_Doc P_Path P_LGet P_Parts P_Ext P_Value P_Num P_Key P_Find
  P_GetDoc P_GetArr P_Pipe P_Stream M_Util M_Num M_Scan M_Value M_Path M_Get S_Json S_Str S_Get S_Path S_Query S_Follow.

(** The component [c] stands for the key [k]. *)
Record names (c k : bytes) : Prop := mkNames {
  nm_comp : component c;
  nm_ne : c <> [];
  nm_match : forall s x b, kmatch (cpath c s x) b = true <-> sdec b = k;
  nm_index : comp_index c = comp_index k;
}.

Definition child (c : cst) (k : bytes) : option cst :=
  match c with
  | CObj _ ms => option_map m_val (find (fun m => beq (sdec (m_key m)) k) ms)
  | CArr _ es => if (0 <=? comp_index k)%Z then option_map i_val (nth_error es (Z.to_nat (comp_index k))) else None
  | _ => None
  end.
Fixpoint fol (c : cst) (ks : list bytes) : option cst :=
  match ks with
  | [] => Some c
  | k :: t => match child c k with Some d => fol d t | None => None end
  end.

Lemma find_split {A} (f : A -> bool) l x : find f l = Some x ->
  exists a b, l = a ++ x :: b /\ f x = true /\ Forall (fun y => f y = false) a.
Proof.
  induction l as [|y l IH]; cbn [find]; [discriminate|]. destruct (f y) eqn:E.
  - intros [= ->]. exists [], l. auto.
  - intros H. destruct (IH H) as (a & b & -> & Hx & Ha). exists (y :: a), b. auto.
Qed.

(** The loop up to the first matching member. *)
Lemma lloop_until lsub json p a m b r : Forall wf_memb a -> Forall (fun y => kmatch p (m_key y) = false) a -> follow r ->
  lloop lsub json (commas (map (render_memb render) (a ++ m :: b)) ++ r) p =
  lloop lsub json (render_memb render m ++ obj_tail b r) p.
Proof.
  intros Ha Hn Hr. induction Ha as [|y a Hy Ha IH]; cbn [app]; rewrite commas_tail_m; [reflexivity|].
  inversion Hn as [|? ? Hny Hn']; subst. destruct Hy as [y1 k y2 y3 v y4 H1 Hk H2 H3 Hv H4]. cbn [render_memb m_key] in *. apps.
  rewrite lloop_memb by (auto; apply follow_ws; auto; apply obj_tail_follow; auto). rewrite Hny. cbv zeta.
  rewrite lloop_skips by (apply ws_plain_skip; auto).
  assert (E : obj_tail (a ++ m :: b) r = 44%N :: commas (map (render_memb render) (a ++ m :: b)) ++ r) by (destruct a; reflexivity).
  rewrite E, lloop_skip by discriminate. auto.
Qed.
Lemma lloop_no_memb lsub json p ms r : Forall wf_memb ms -> Forall (fun y => kmatch p (m_key y) = false) ms ->
  lloop lsub json (commas (map (render_memb render) ms) ++ 125%N :: r) p = Ok (value_default, p).
Proof.
  intros Ha Hn. assert (Hr : follow (125%N :: r)) by (right; auto).
  induction Ha as [|y a Hy Ha IH]; [reflexivity|]. rewrite commas_tail_m.
  inversion Hn as [|? ? Hny Hn']; subst. destruct Hy as [y1 k y2 y3 v y4 H1 Hk H2 H3 Hv H4]. cbn [render_memb m_key] in *. apps.
  rewrite lloop_memb by (auto; apply follow_ws; auto; apply obj_tail_follow; auto). rewrite Hny. cbv zeta.
  rewrite lloop_skips by (apply ws_plain_skip; auto).
  destruct a as [|y' a]; [reflexivity|]. cbn [obj_tail]. rewrite lloop_skip by discriminate. auto.
Qed.

(* ---------- strings ---------- *)

Lemma strings_chars c : wf c -> Forall chars (strings c).
Proof.
  induction c as [ | | |n|b|w es IH|w ms IH] using cst_ind'; intros Hc; cbn [strings]; auto; inversion Hc as [| | | | |? ? ? Hes|? ? ? Hms]; subst.
  - constructor; auto.
  - clear Hc. induction Hes as [|e es He Hes IHes]; [constructor|]. inversion IH; subst. cbn [flat_map]. apply Forall_app. split; auto.
    destruct He; auto.
  - clear Hc. induction Hms as [|e es He Hes IHes]; [constructor|]. inversion IH; subst. cbn [flat_map]. apply Forall_app. split; auto.
    destruct He; auto.
Qed.
Lemma dec_strings x : chars x -> unescape (quoted x) = Ok (sdec x).
Proof. apply sdec_chars. Qed.

Lemma once_sub k c d A B : strings c = A ++ strings d ++ B -> at_most_once k c -> at_most_once k d.
Proof.
  intros E H a x b y e E'. apply (H (A ++ a) x b y (e ++ B)). rewrite E, E'. rewrite <- ?app_assoc. cbn [app].
  rewrite <- ?app_assoc. reflexivity.
Qed.
Lemma strings_item w a e b : exists A B, strings (CArr w (a ++ e :: b)) = A ++ strings (i_val e) ++ B.
Proof. cbn [strings]. rewrite flat_map_app. cbn [flat_map]. destruct e as [x v y]. cbn [i_val]. eauto. Qed.
Lemma strings_memb w a m b : exists A B, strings (CObj w (a ++ m :: b)) = A ++ (m_key m :: strings (m_val m) ++ B) /\
  B = strings (CObj w b).
Proof.
  cbn [strings]. rewrite flat_map_app. cbn [flat_map]. destruct m as [x k y z v t]. cbn [m_val m_key]. do 2 eexists. split; reflexivity.
Qed.

(** Wherever the rest of the keys cannot be followed in a container that a member
    name led to, that name does not occur again. *)
Definition is_obj (c : cst) : bool := match c with CObj _ _ => true | _ => false end.
Fixpoint okp (c : cst) (ks : list bytes) : Prop :=
  match ks with
  | [] => True
  | k :: t =>
      match child c k with
      | None => True
      | Some d => okp d t /\ (is_obj c = true -> is_container d = true -> t <> [] -> fol d t = None -> at_most_once k c)
      end
  end.

(* ---------- what the lookup functions return ---------- *)

Definition left_of (p : path) (ds : list bytes) : Prop :=
  match ds with [] => p_more p = false | _ => p_more p = true /\ p_extra p = dotted ds end.
Lemma left_path1 c cs : left_of (path1 c cs) cs.
Proof. destruct cs; [reflexivity | split; reflexivity]. Qed.

Definition outcome (c : cst) (ks : list bytes) (v : value) (p : path) : Prop :=
  (exists d ds rest ix, v = tval d ix /\ wf d /\ Forall2 names ds rest /\ length rest < length ks /\ fol c ks = fol d rest /\
     (okp c ks -> okp d rest) /\ left_of p ds) \/
  (v = value_default /\ fol c ks = None /\ exists ds rest, Forall2 names ds rest /\ left_of p ds).

Lemma scalar_fol d k ks : is_container d = false -> fol d (k :: ks) = None.
Proof. destruct d; try discriminate; reflexivity. Qed.

Lemma larr_fol json lines w es r c0 cs k ks : wf (CArr w es) -> Forall2 names (c0 :: cs) (k :: ks) -> lines = false ->
  exists v p, larr get json lines (render (CArr w es) ++ r) (path1 c0 cs) = Ok (v, p) /\ outcome (CArr w es) (k :: ks) v p.
Proof.
  intros Hc Hn ->. inversion Hn as [|? ? ? ? Hk Hks]; subst.
  pose proof (elems_tval json w es r Hc) as HF.
  assert (E : larr get json false (render (CArr w es) ++ r) (path1 c0 cs) =
    Ok (if (0 <=? comp_index k)%Z then nth (Z.to_nat (comp_index k)) (elems json false (render (CArr w es) ++ r)) value_default
        else value_default, path1 c0 cs)).
  { unfold larr. destruct (path_comp [] c0 cs) as [-> _]. rewrite (nm_index _ _ Hk). cbv zeta.
    destruct c0 as [|x c0]; [reflexivity|]. destruct (nm_comp _ _ Hk) as [_ (_ & Hh & _)]. replace (x =? 35)%N with false by lia. reflexivity. }
  rewrite E. do 2 eexists. split; [reflexivity|].
  assert (Hnone : child (CArr w es) k = None -> outcome (CArr w es) (k :: ks) value_default (path1 c0 cs)).
  { intros Hch. right. split; auto. split; [cbn [fol]; rewrite Hch; auto|]. exists cs, ks. split; auto using left_path1. }
  cbn [child] in Hnone. destruct (0 <=? comp_index k)%Z eqn:Eix; [|apply Hnone; auto].
  destruct (nth_error es (Z.to_nat (comp_index k))) as [e|] eqn:En.
  - left. destruct (Forall2_nth_some _ _ _ _ _ value_default HF En) as (ix & ->).
    exists (i_val e), cs, ks, ix. split; auto.
    assert (Hin : In e es) by (eapply nth_error_In; eauto).
    split; [apply wf_ival; apply (proj1 (Forall_forall _ _) (wf_items _ _ Hc)); auto|]. split; auto. split; [cbn [length]; lia|].
    split; [cbn [fol child]; rewrite Eix, En; reflexivity|]. split; [|apply left_path1].
    intros Hu. cbn [okp child] in Hu. rewrite Eix, En in Hu. apply Hu.
  - rewrite (Forall2_nth_none _ _ _ _ value_default HF); [apply Hnone; auto|]. apply nth_error_None; auto.
Qed.

Lemma closed_no_match p : closed (fun s => kmatch p s = false) (fun c => Forall (fun s => kmatch p s = false) (strings c)).
Proof.
  split; [|split].
  - intros w es e H He. apply in_split in He as (a & b & ->). destruct (strings_item w a e b) as (A & B & E). rewrite E in H.
    apply Forall_app in H as [_ H]. apply Forall_app in H as [H _]. auto.
  - intros w ms m H Hm. apply in_split in Hm as (a & b & ->). destruct (strings_memb w a m b) as (A & B & E & _). rewrite E in H.
    apply Forall_app in H as [_ H]. inversion H as [|? ? Hk Ht]; subst. apply Forall_app in Ht as [Ht _]. auto.
  - intros b H. inversion H; auto.
Qed.

Lemma lobj_fol : forall cs c0 k ks w ms r json f, Forall2 names (c0 :: cs) (k :: ks) -> wf (CObj w ms) ->
  suf (render (CObj w ms) ++ r) json -> length cs < f ->
  okp (CObj w ms) (k :: ks) ->
  exists v p, lobj f get json (render (CObj w ms) ++ r) (path1 c0 cs) = Ok (v, p) /\ outcome (CObj w ms) (k :: ks) v p.
Proof.
  induction cs as [|c1 cs IH]; intros c0 k ks w ms r json f Hn Hc Hsuf Hf Hor;
    (destruct f as [|f]; [lia|]); inversion Hn as [|? ? ? ? Hk Hks]; subst;
    inversion Hc as [| | | | | |? ? Hw Hms]; subst; rewrite lobj_render by auto.
  - inversion Hks; subst.
    assert (Hfm : forall m : memb cst, kmatch (path1 c0 []) (m_key m) = beq (sdec (m_key m)) k).
    { intros m. apply eq_true_iff_eq. rewrite beq_eq. apply (nm_match _ _ Hk). }
    pose proof (lloop_find (lsub_of f get json (path1 c0 [])) json (path1 c0 []) ms (125%N :: r) Hms ltac:(right; auto) ltac:(discriminate)) as H.
    assert (Ef : find (fun m => kmatch (path1 c0 []) (m_key m)) ms = find (fun m => beq (sdec (m_key m)) k) ms).
    { clear -Hfm. induction ms as [|m ms IH]; auto. cbn [find]. rewrite Hfm, IH. reflexivity. }
    rewrite Ef in H. destruct (find _ ms) as [m|] eqn:Em.
    + destruct H as (ix & -> & Hwm). do 2 eexists. split; [reflexivity|]. left. exists (m_val m), [], [], ix.
      repeat split; auto. { cbn [fol child]. rewrite Em. reflexivity. } 
    + rewrite H, lloop_brace. do 2 eexists. split; [reflexivity|]. right. split; auto. split; [cbn [fol child]; rewrite Em; auto|].
      exists [], []. split; auto. reflexivity.
  - destruct ks as [|k1 ks]; [inversion Hks|]. inversion Hks as [|? ? ? ? Hk1 Hks']; subst.
    set (p := path1 c0 (c1 :: cs)) in *.
    assert (Hfm : forall b, kmatch p b = beq (sdec b) k).
    { intros b. apply eq_true_iff_eq. rewrite beq_eq. apply (nm_match _ _ Hk). }
    destruct (find (fun m => beq (sdec (m_key m)) k) ms) as [m|] eqn:Em.
    2:{ rewrite lloop_no_memb; auto.
        - do 2 eexists. split; [reflexivity|]. right. split; auto. split; [cbn [fol child]; rewrite Em; auto|].
          exists (c1 :: cs), (k1 :: ks). split; auto. apply left_path1.
        - apply Forall_forall. intros y Hy. rewrite Hfm. apply (find_none _ _ Em y Hy). }
    apply find_split in Em as (a & b & -> & Hm & Ha).
    assert (Hch : child (CObj w (a ++ m :: b)) k = Some (m_val m)).
    { cbn [child]. rewrite find_first; auto. }
    pose proof (proj1 (Forall_app _ _ _) Hms) as [Hwa Hwb]. inversion Hwb as [|? ? Hwm Hwb']; subst.
    rewrite lloop_until; [|auto| |right; auto].
    2:{ eapply Forall_impl; [|exact Ha]. intros y Hy. cbv beta. rewrite Hfm. exact Hy. }
    assert (Esuf : suf (render_memb render m ++ obj_tail b (125%N :: r)) json).
    { eapply suf_trans; [|exact Hsuf]. cbn [render]. clear. eapply suf_trans; [|rewrite <- app_comm_cons; apply suf_cons]. apps.
      eapply suf_trans; [|apply suf_app]. induction a as [|y a IH].
      - cbn [app]. rewrite commas_tail_m. apply suf_refl.
      - cbn [app]. rewrite commas_tail_m. eapply suf_trans; [exact IH|].
        assert (E : obj_tail (a ++ m :: b) (125%N :: r) = 44%N :: commas (map (render_memb render) (a ++ m :: b)) ++ (125%N :: r)) by (destruct a; reflexivity).
        rewrite E. eapply suf_trans; [apply (suf_cons 44%N)|]. apply suf_app. }
    assert (Hrest : fol (CObj w (a ++ m :: b)) (k :: k1 :: ks) = fol (m_val m) (k1 :: ks)).
    { change (fol (CObj w (a ++ m :: b)) (k :: k1 :: ks)) with
        (match child (CObj w (a ++ m :: b)) k with Some d => fol d (k1 :: ks) | None => None end). rewrite Hch. reflexivity. }
    destruct (strings_memb w a m b) as (A & B & EA & EB).
    assert (Hor' : okp (m_val m) (k1 :: ks) /\ (is_container (m_val m) = true -> fol (m_val m) (k1 :: ks) = None -> at_most_once k (CObj w (a ++ m :: b)))).
    { change (match child (CObj w (a ++ m :: b)) k with None => True | Some d => okp d (k1 :: ks) /\
        (is_obj (CObj w (a ++ m :: b)) = true -> is_container d = true -> k1 :: ks <> [] -> fol d (k1 :: ks) = None -> at_most_once k (CObj w (a ++ m :: b))) end) in Hor.
      rewrite Hch in Hor. destruct Hor as [H1 H2]. split; auto. intros H3 H4. apply H2; auto. discriminate. }
    clear Hor. destruct Hor' as [Hu Hor].
    (* what is known when the loop runs on *)
    assert (Hno : at_most_once k (CObj w (a ++ m :: b)) -> Forall (fun s => kmatch p s = false) (strings (m_val m) ++ B)).
    { intros H. apply Forall_forall. intros x Hx. apply not_true. intros Hx'. rewrite Hfm in Hx'. apply beq_eq in Hx'.
      apply in_split in Hx as (u & v & Ex). apply (H A (m_key m) u x v).
      + rewrite EA, Ex. reflexivity.
      + rewrite dec_strings by (apply memb_chars; auto). apply beq_eq in Hm. congruence.
      + rewrite dec_strings; [congruence|]. apply (proj1 (Forall_forall _ _) (strings_chars _ Hc)). rewrite EA, Ex.
        apply in_or_app. right. right. apply in_or_app. right. left; auto. }
    destruct m as [x1 key x2 x3 mv x4]. cbn [render_memb m_val m_key] in *. inversion Hwm; subst. apps. revert Esuf. apps. intros Esuf.
    assert (Hfo : follow (x4 ++ obj_tail b (125%N :: r))) by (apply follow_ws; auto; apply obj_tail_follow; right; auto).
    rewrite lloop_memb by auto. cbv zeta. rewrite Hfm, Hm.
    change (p_sep p =? 46)%N with true. cbn [andb].
    destruct (is_container mv) eqn:Eco.
    2:{ rewrite fval_render by auto. do 2 eexists. split; [reflexivity|]. left. exists mv, (c1 :: cs), (k1 :: ks). eexists.
        split; [reflexivity|]. split; auto. split; auto. split; [cbn [length]; lia|]. split; [exact Hrest|]. split; auto. apply left_path1. }
    set (R' := x4 ++ obj_tail b (125%N :: r)) in *.
    assert (Hsv : suf (render mv ++ R') json).
    { eapply suf_trans; [|exact Esuf]. rewrite !app_comm_cons, !app_assoc. rewrite <- (app_assoc _ (render mv) R'). apply suf_app. }
    assert (Hsub : exists v p', (match render mv ++ R' with
                 | c :: _ => if (c =? 123)%N then lobj f get json (render mv ++ R') (path1 c1 cs)
                             else larr get json false (render mv ++ R') (path1 c1 cs)
                 | [] => Err EPanic
                 end) = Ok (v, p') /\ outcome mv (k1 :: ks) v p').
    { destruct mv as [ | | |nn|bb|w' es'|w' ms']; try discriminate.
      - exact (larr_fol json false w' es' R' c1 cs k1 ks ltac:(auto) Hks eq_refl).
      - exact (IH c1 k1 ks w' ms' R' json f Hks ltac:(auto) Hsv ltac:(cbn [length] in Hf; lia) Hu). }
    destruct Hsub as (v & p' & Ev & Hout). unfold lsub_of. cbv zeta.
    change (p_extra p) with (dotted (c1 :: cs)). rewrite pnext_path1 by (left; apply (nm_comp _ _ Hk1)).
    assert (Hmod : is_modifier (path1 c1 cs) || is_multipath (path1 c1 cs) = false).
    { assert (Hm1 : forall s x, is_modifier (cpath c1 s x) || is_multipath (cpath c1 s x) = false).
      { intros s x. destruct (any_not_mod c1 s x ltac:(left; apply (nm_comp _ _ Hk1))) as [-> ->]. reflexivity. }
      destruct cs; apply Hm1. }
    rewrite Hmod, Ev. cbn [bind].
    destruct Hout as [(d & ds & rest & ix & -> & Hd & Hds & Hl & Efol & Hud & Hleft)|(-> & Efol & ds & rest & Hds & Hleft)].
    + rewrite tval_exists by auto. do 2 eexists. split; [reflexivity|]. left. exists d, ds, rest, ix. split; auto. split; auto. split; auto.
      split; [cbn [length] in *; lia|]. split; [rewrite Hrest; auto|]. split; auto.
    + change (v_exists value_default) with false. cbv match.
      specialize (Hno (Hor eq_refl Efol)). apply Forall_app in Hno as [Hno1 Hno2].
      assert (Hst : stream (fun s => kmatch p s = false) (fun c => Forall (fun s => kmatch p s = false) (strings c)) (render mv ++ R')).
      { apply stream_render; auto using closed_no_match. unfold R'. apply st_ws; auto.
        apply stream_obj_tail; auto using closed_no_match.
        intros y Hy. apply in_split in Hy as (u & z & ->). destruct (strings_memb w u y z) as (A' & B' & EA' & _).
        rewrite EA' in Hno2. apply Forall_app in Hno2 as [_ Hno2]. inversion Hno2 as [|? ? Hyk Hyt]; subst. apply Forall_app in Hyt as [Hyt _]. auto. }
      rewrite (lloop_stream_none _ _ _ _ p _ ltac:(intros s Hs; exact Hs) Hst). do 2 eexists. split; [reflexivity|]. right.
      split; auto. split; [rewrite Hrest; auto|]. exists (c1 :: cs), (k1 :: ks). split; auto. apply left_path1.
Qed.

(* ---------- get ---------- *)

Lemma names_any c k : names c k -> any_comp c.
Proof. intros H. left. apply (nm_comp _ _ H). Qed.
Lemma names_any_all cs ks : Forall2 names cs ks -> Forall any_comp cs.
Proof. induction 1; constructor; auto. eapply names_any; eauto. Qed.

(** [get] on a path of components standing for names. *)
Lemma get_path1 json c cs ks : Forall2 names (c :: cs) ks ->
  get json (dotted (c :: cs)) =
    ('(res, p) <- lstart get json (path1 c cs) ;; if negb (p_more p) then Ok res else v_get res (p_extra p)).
Proof.
  intros H. inversion H as [|? ? ? ? Hk Hks]; subst. rewrite get_spec.
  assert (El : split_lines (dotted (c :: cs)) = (false, dotted (c :: cs))).
  { destruct cs as [|c1 cs]; [apply any_split_end; eapply names_any; eauto|]. rewrite dotted_cons by discriminate.
    apply any_split; [eapply names_any; eauto | apply (nm_ne _ _ Hk)]. }
  rewrite El. rewrite pnext_path1 by (eapply names_any; eauto). unfold lget_first.
  assert (Hm : is_modifier (path1 c cs) = false /\ is_multipath (path1 c cs) = false).
  { destruct cs; apply any_not_mod; eapply names_any; eauto. }
  destruct Hm as [-> ->]. reflexivity.
Qed.

Lemma not_exists_owned r ix : v_exists r = false -> v_exists (add_index ix (json_into_owned r)) = false.
Proof.
  unfold v_exists, v_json. cbn [add_index json_into_owned v_owned v_slice]. destruct (v_owned r), (v_slice r); auto; discriminate.
Qed.

Lemma get_empty : forall cs ks, Forall2 names cs ks -> cs <> [] -> exists v, get [] (dotted cs) = Ok v /\ v_exists v = false.
Proof.
  induction cs as [|c cs IH]; intros ks H Hne; [congruence|]. rewrite (get_path1 [] c cs ks H). unfold lstart. cbn [dropw bind].
  inversion H as [|? ? ? ? Hk Hks]; subst. destruct cs as [|c1 cs].
  - cbn [path1 p_more cpath p_sep N.eqb negb]. eauto.
  - change (negb (p_more (path1 c (c1 :: cs)))) with false. cbv match. change (p_extra (path1 c (c1 :: cs))) with (dotted (c1 :: cs)).
    unfold v_get, v_get_with. cbn [value_default v_slice v_owned v_index]. destruct (IH _ Hks ltac:(discriminate)) as (v & -> & Hv).
    cbn [bind]. eexists. split; [reflexivity|]. apply not_exists_owned; auto.
Qed.

Lemma shows_index ix v c : shows v c -> shows (add_index ix v) c.
Proof. intros [H1 H2 H3 H4]. constructor; auto. Qed.

Lemma get_fol : forall n cs ks c w1 w2, length ks <= n -> Forall2 names cs ks -> ks <> [] -> ws w1 -> wf c ->
  okp c ks ->
  match fol c ks with
  | Some d => gets (w1 ++ render c ++ w2) (dotted cs) d
  | None => gets_none (w1 ++ render c ++ w2) (dotted cs)
  end.
Proof.
  induction n as [n IH] using lt_wf_ind. intros cs ks c w1 w2 Hn Hnm Hne Hw Hc Hor.
  destruct Hnm as [|c0 k cs ks Hk Hks]; [congruence|]. assert (Hnm : Forall2 names (c0 :: cs) (k :: ks)) by auto.
  fold (doc w1 c w2). unfold gets, gets_none. rewrite (get_path1 (doc w1 c w2) c0 cs (k :: ks) Hnm).
  assert (Hout : exists v p, lstart get (doc w1 c w2) (path1 c0 cs) = Ok (v, p) /\ outcome c (k :: ks) v p).
  { assert (Hd : is_container c = false -> exists v p, lstart get (doc w1 c w2) (path1 c0 cs) = Ok (v, p) /\ outcome c (k :: ks) v p).
    { intros Eco. rewrite lstart_scalar by auto. do 2 eexists. split; [reflexivity|]. right. split; auto.
      split; [apply scalar_fol; auto|]. exists cs, ks. split; auto. apply left_path1. }
    destruct c as [ | | |nn|bb|w es|w ms]; try (apply Hd; reflexivity).
    - rewrite lstart_arr by auto. apply larr_fol; auto.
    - rewrite lstart_obj by auto. apply lobj_fol; auto using suf_doc.
      assert (Hd' : length cs <= S (length (dotted cs))).
      { clear. induction cs as [|k2 ks IH]; [cbn; lia|]. destruct ks as [|k3 ks]; [cbn; lia|].
        rewrite dotted_cons by discriminate. rewrite app_length. cbn [length] in *. lia. }
      destruct cs as [|c1 cs]; [cbn; lia|]. change (p_extra (path1 c0 (c1 :: cs))) with (dotted (c1 :: cs)). lia. }
  destruct Hout as (v & p & -> & Hout). cbn [bind].
  destruct Hout as [(d & ds & rest & ix & -> & Hd & Hds & Hl & Efol & Hud & Hleft)|(-> & Efol & ds & rest & Hds & Hleft)].
  - rewrite Efol. destruct ds as [|d0 ds].
    + inversion Hds; subst. cbn [left_of] in Hleft. rewrite Hleft. cbn [fol negb]. eexists. split; [reflexivity|]. apply tval_shows; auto.
    + destruct Hleft as [Hm He]. rewrite Hm, He. cbn [negb]. unfold v_get. rewrite v_get_tval by auto.
      destruct rest as [|r0 rest]; [inversion Hds|].
      pose proof (IH (length (r0 :: rest)) ltac:(cbn [length] in *; lia) (d0 :: ds) (r0 :: rest) d [] [] (le_n _) Hds ltac:(discriminate) ltac:(constructor) Hd (Hud Hor)) as H.
      cbn [app] in H. rewrite app_nil_r in H. unfold gets, gets_none in H.
      destruct (fol d (r0 :: rest)) as [e|].
      * destruct H as (v & -> & Hv). cbn [bind]. eexists. split; [reflexivity|]. apply shows_index; auto.
      * destruct H as (v & -> & Hv). cbn [bind]. eexists. split; [reflexivity|]. exact Hv.
  - rewrite Efol. destruct ds as [|d0 ds].
    + cbn [left_of] in Hleft. rewrite Hleft. cbn [negb]. eexists. split; reflexivity.
    + destruct Hleft as [Hm He]. rewrite Hm, He. cbn [negb]. unfold v_get, v_get_with. cbn [value_default v_slice v_owned v_index].
      destruct (get_empty _ _ Hds ltac:(discriminate)) as (v & -> & Hv). cbn [bind]. eexists. split; [reflexivity|].
      apply not_exists_owned; auto.
Qed.

(* ---------- the specification ---------- *)

Lemma dec_acc_val : forall b a z, dec_acc a b = Some z -> Forall digit b /\ z = fold_left (fun a d => a * 10 + (Z.of_N d - 48))%Z b a.
Proof.
  induction b as [|c t IH]; intros a z; cbn [dec_acc].
  - intros [= ->]. split; [constructor | reflexivity].
  - destruct (is_digit c) eqn:Ec; [|discriminate]. intros H. apply IH in H as [H1 H2]. split.
    + constructor; auto. apply is_digit_spec; auto.
    + rewrite H2. cbn [fold_left]. f_equal. apply is_digit_spec in Ec. unfold digit in Ec. change c0 with 48%N. lia.
Qed.
Lemma dec_digits_inv b z : dec_digits b = Some z -> digits1 b /\ digits_val b = z.
Proof.
  unfold dec_digits. destruct b as [|c t]; [discriminate|]. intros H. apply dec_acc_val in H as [H1 H2].
  split; [split; [discriminate | auto]|]. symmetry. exact H2.
Qed.
Lemma digits_val_acc_nonneg ds : Forall digit ds -> forall a, (0 <= a)%Z -> (0 <= fold_left (fun a d => a * 10 + (Z.of_N d - 48))%Z ds a)%Z.
Proof. induction 1 as [|c t Hc Ht IH]; intros a Ha; cbn [fold_left]; auto. apply IH. unfold digit in Hc. lia. Qed.
Lemma digits_val_nonneg ds : digits1 ds -> (0 <= digits_val ds)%Z.
Proof. intros [_ H]. apply digits_val_acc_nonneg; auto. lia. Qed.

Lemma index_key_iff k n : index_key k n <-> comp_index k = Z.of_nat n.
Proof.
  split.
  - intros H. destruct H as [ds n Hd Hv Hr|ds n Hd Hv Hr|ds Hd Hv].
    + rewrite (comp_index_digits ds n Hd Hv). replace (Z.of_nat n <? 2 ^ 63)%Z with true by lia. reflexivity.
    + unfold comp_index, parse_i64. change (43 =? cMINUS)%N with false. change (43 =? cPLUS)%N with true. cbv match zeta.
      rewrite dec_digits_val by auto. unfold in_range. rewrite Hv.
      replace ((i64_min <=? Z.of_nat n)%Z && (Z.of_nat n <=? i64_max)%Z) with true by (unfold i64_min, i64_max; lia). reflexivity.
    + unfold comp_index, parse_i64. change (45 =? cMINUS)%N with true. cbv match zeta.
      rewrite dec_digits_val by auto. rewrite Hv. reflexivity.
  - unfold comp_index. destruct (parse_i64 k) as [z|] eqn:E; [|lia]. intros ->. unfold parse_i64 in E.
    destruct k as [|c t]; [discriminate|]. destruct (N.eqb_spec c cMINUS) as [->|Hm].
    + destruct (dec_digits t) as [y|] eqn:Ed; [|discriminate]. cbn [option_map] in E. apply dec_digits_inv in Ed as [H1 H2].
      pose proof (digits_val_nonneg _ H1). unfold in_range in E. destruct (_ && _)%Z; [|discriminate].
      assert (Ey : Z.opp y = Z.of_nat n) by congruence. assert (Hn : n = 0) by lia. subst n. apply ik_minus; auto. lia.
    + destruct (N.eqb_spec c cPLUS) as [->|Hp].
      * destruct (dec_digits t) as [y|] eqn:Ed; [|discriminate]. apply dec_digits_inv in Ed as [H1 H2].
        unfold in_range in E. destruct (_ && _)%Z eqn:Er; [|discriminate].
        assert (Ey : y = Z.of_nat n) by congruence. subst y. apply ik_plus; auto. unfold i64_max in Er. lia.
      * destruct (dec_digits (c :: t)) as [y|] eqn:Ed; [|discriminate]. apply dec_digits_inv in Ed as [H1 H2].
        unfold in_range in E. destruct (_ && _)%Z eqn:Er; [|discriminate].
        assert (Ey : y = Z.of_nat n) by congruence. subst y. apply ik_plain; auto. unfold i64_max in Er. lia.
Qed.

Lemma named_iff m k : wf_memb m -> (named m k <-> sdec (m_key m) = k).
Proof.
  intros H. unfold named. rewrite unescape_sdec by auto. split; [congruence | intros ->; reflexivity].
Qed.

Lemma reaches_fol c ks d : reaches c ks d -> wf c -> fol c ks = Some d.
Proof.
  induction 1 as [c|w a m b k ks d Hm Ha H IH|w a e b k ks d Hk H IH]; intros Hc; auto.
  - pose proof (wf_membs _ _ Hc) as Hms. apply Forall_app in Hms as [Hwa Hwb]. inversion Hwb as [|? ? Hwm _]; subst.
    cbn [fol child]. rewrite (find_first _ a m b).
    + cbn [option_map]. apply IH. apply wf_mval; auto.
    + apply beq_eq. apply named_iff; auto.
    + apply Forall_forall. intros y Hy. apply not_true. intros E. apply beq_eq in E.
      apply (proj1 (Forall_forall _ _) Ha y Hy). apply named_iff; auto. apply (proj1 (Forall_forall _ _) Hwa y Hy).
  - pose proof (wf_items _ _ Hc) as Hes. apply Forall_app in Hes as [Hwa Hwb]. inversion Hwb as [|? ? Hwe _]; subst.
    cbn [fol child]. apply index_key_iff in Hk. rewrite Hk. replace (0 <=? Z.of_nat (length a))%Z with true by lia.
    rewrite Nat2Z.id, nth_error_app2, Nat.sub_diag by lia. cbn [nth_error option_map]. apply IH. apply wf_ival; auto.
Qed.
Lemma fol_reaches ks : forall c d, wf c -> fol c ks = Some d -> reaches c ks d.
Proof.
  induction ks as [|k ks IH]; intros c d Hc H; [injection H as <-; constructor|].
  cbn [fol] in H. destruct (child c k) as [e|] eqn:E; [|discriminate].
  destruct c as [ | | |n|b|w es|w ms]; try discriminate; cbn [child] in E.
  - destruct (0 <=? comp_index k)%Z eqn:Ei; [|discriminate].
    destruct (nth_error es (Z.to_nat (comp_index k))) as [x|] eqn:En; [|discriminate]. injection E as <-.
    pose proof (wf_items _ _ Hc) as Hes. apply nth_error_split in En as (a & b & -> & Hl). apply re_item.
    + apply index_key_iff. rewrite Hl. lia.
    + apply IH; auto. apply Forall_app in Hes as [_ Hes]. inversion Hes; subst. apply wf_ival; auto.
  - destruct (find _ ms) as [m|] eqn:Em; [|discriminate]. injection E as <-.
    pose proof (wf_membs _ _ Hc) as Hms. apply find_split in Em as (a & b & -> & Hm & Ha).
    apply Forall_app in Hms as [Hwa Hwb]. inversion Hwb as [|? ? Hwm _]; subst. apply re_memb.
    + apply named_iff; auto. apply beq_eq; auto.
    + apply Forall_forall. intros y Hy Hn. apply named_iff in Hn; [|apply (proj1 (Forall_forall _ _) Hwa y Hy)].
      pose proof (proj1 (Forall_forall _ _) Ha y Hy) as E. cbv beta in E. apply beq_eq in Hn. congruence.
    + apply IH; auto. apply wf_mval; auto.
Qed.

Lemma okp_some ks : forall c, fol c ks <> None -> okp c ks.
Proof.
  induction ks as [|k ks IH]; intros c H; [exact I|]. cbn [fol okp] in *. destruct (child c k) as [d|]; auto.
  split; auto. intros _ _ _ Hn. congruence.
Qed.
Lemma child_strings c k d : child c k = Some d -> exists A B, strings c = A ++ strings d ++ B.
Proof.
  destruct c as [ | | |n|b|w es|w ms]; try discriminate; cbn [child].
  - destruct (0 <=? comp_index k)%Z; [|discriminate]. destruct (nth_error es _) as [x|] eqn:En; [|discriminate]. intros [= <-].
    apply nth_error_split in En as (a & b & -> & _). apply strings_item.
  - destruct (find _ ms) as [m|] eqn:Em; [|discriminate]. intros [= <-]. apply find_split in Em as (a & b & -> & _).
    destruct (strings_memb w a m b) as (A & B & -> & _). exists (A ++ [m_key m]), B. rewrite <- app_assoc. reflexivity.
Qed.
Lemma okp_once ks : forall c, (forall k, In k (removelast ks) -> at_most_once k c) -> okp c ks.
Proof.
  induction ks as [|k ks IH]; intros c H; [exact I|]. cbn [okp]. destruct (child c k) as [d|] eqn:E; auto. split.
  - apply IH. intros x Hx. destruct (child_strings _ _ _ E) as (A & B & ES). eapply once_sub; [exact ES|]. apply H.
    destruct ks; [contradiction|]. right. exact Hx.
  - intros _ _ Hn _. apply H. destruct ks; [congruence|]. left; auto.
Qed.

(* ---------- components that stand for keys ---------- *)

Lemma names_plain k : plain_key k -> k <> [] -> names k k.
Proof.
  intros Hk Hn. pose proof (plain_comp k Hk) as Hc. split; auto. intros s x b. unfold cpath. rewrite cflags_comp by auto.
  rewrite kmatch_glob by apply Hc. rewrite globm_plain.
  - split; auto.
  - destruct Hk as [Hk _]. clear -Hk. induction Hk as [|c t [Hc Hw] _ IH]; auto. cbn [special existsb].
    unfold comp_byte in Hc. unfold wild_byte in Hw. fold (special t). rewrite IH. lia.
Qed.

Lemma comp_index_bad s c : In c s -> ~ digit c -> c <> 43%N -> c <> 45%N -> comp_index s = (-1)%Z.
Proof.
  intros Hi Hd Hp Hm. unfold comp_index. destruct (parse_i64 s) as [z|] eqn:E; auto. exfalso. unfold parse_i64 in E.
  assert (Hno : forall t y, In c t -> dec_digits t = Some y -> False).
  { intros t y Ht H. apply dec_digits_inv in H as [[_ H] _]. apply Hd. apply (proj1 (Forall_forall _ _) H); auto. }
  destruct s as [|x t]; [destruct Hi|].
  destruct (N.eqb_spec x cMINUS) as [->|Hx].
  { destruct Hi as [Hi|Hi]; [apply Hm; auto|]. destruct (dec_digits t) eqn:Et; [|discriminate]. eapply Hno; eauto. }
  destruct (N.eqb_spec x cPLUS) as [->|Hx'].
  { destruct Hi as [Hi|Hi]; [apply Hp; auto|]. destruct (dec_digits t) eqn:Et; [|discriminate]. eapply Hno; eauto. }
  destruct (dec_digits (x :: t)) eqn:Et; [|discriminate]. eapply Hno; eauto.
Qed.
Lemma escape_same k : existsb special_byte k = false -> path_escape k = k.
Proof.
  induction k as [|c t IH]; auto. cbn [existsb path_escape]. intros H. apply orb_false_iff in H as [-> H]. rewrite IH; auto.
Qed.
Lemma escape_in k c : In c k -> In c (path_escape k).
Proof.
  induction k as [|x t IH]; auto. cbn [path_escape]. intros [->|H]; destruct (special_byte _); cbn [In]; auto.
Qed.
Lemma comp_index_escape k : comp_index (path_escape k) = comp_index k.
Proof.
  destruct (existsb special_byte k) eqn:E; [|rewrite escape_same; auto]. apply existsb_exists in E as (c & Hi & Hc).
  assert (Hd : ~ digit c /\ c <> 43%N /\ c <> 45%N).
  { unfold special_byte in Hc. cbn [existsb] in Hc. unfold digit. lia. }
  destruct Hd as (H1 & H2 & H3). rewrite (comp_index_bad k c), (comp_index_bad (path_escape k) c); auto using escape_in.
Qed.
Lemma names_escape k : k <> [] -> ~ In 63%N k -> names (path_escape k) k.
Proof.
  intros Hn Hq. pose proof (path_escape_comp k) as Hc. split; auto.
  - destruct k as [|c t]; [congruence|]. cbn [path_escape]. destruct (special_byte c); discriminate.
  - intros s x b. unfold cpath. rewrite cflags_comp by auto. rewrite kmatch_glob by apply Hc. rewrite globm_escape by auto. split; auto.
  - apply comp_index_escape.
Qed.

(* ---------- the theorems ---------- *)

Lemma get_reaches cs ks w1 c w2 d : ws w1 -> wf c -> ks <> [] -> Forall2 names cs ks -> reaches c ks d ->
  gets (w1 ++ render c ++ w2) (dotted cs) d.
Proof.
  intros H1 H2 H3 H4 H5. apply reaches_fol in H5; auto.
  pose proof (get_fol (length ks) cs ks c w1 w2 (le_n _) H4 H3 H1 H2) as H. rewrite H5 in H. apply H. apply okp_some. congruence.
Qed.
Lemma get_reaches_none cs ks w1 c w2 : ws w1 -> wf c -> ks <> [] -> Forall2 names cs ks -> (forall d, ~ reaches c ks d) ->
  okp c ks -> gets_none (w1 ++ render c ++ w2) (dotted cs).
Proof.
  intros H1 H2 H3 H4 H5 H6. pose proof (get_fol (length ks) cs ks c w1 w2 (le_n _) H4 H3 H1 H2 H6) as H.
  destruct (fol c ks) as [d|] eqn:E; auto. exfalso. apply (H5 d). apply fol_reaches; auto.
Qed.

Definition key_ok (k : bytes) : Prop := plain_key k /\ k <> [].
Lemma names_refl ks : Forall key_ok ks -> Forall2 names ks ks.
Proof. induction 1 as [|k ks [H1 H2] _ IH]; constructor; auto using names_plain. Qed.
Lemma names_escapes ks : Forall (fun k => k <> [] /\ ~ In 63%N k) ks -> Forall2 names (map path_escape ks) ks.
Proof. induction 1 as [|k ks [H1 H2] _ IH]; constructor; auto using names_escape. Qed.

Theorem get_dotted w1 c w2 ks d : ws w1 -> wf c -> ks <> [] -> Forall (fun k => plain_key k /\ k <> []) ks -> reaches c ks d ->
  gets (w1 ++ render c ++ w2) (dotted ks) d.
Proof. intros H1 H2 H3 H4 H5. apply (get_reaches ks ks); auto. apply names_refl; auto. Qed.
Theorem get_dotted_none w1 c w2 ks : ws w1 -> wf c -> ks <> [] -> Forall (fun k => plain_key k /\ k <> []) ks ->
  (forall k, In k (removelast ks) -> at_most_once k c) -> (forall d, ~ reaches c ks d) ->
  gets_none (w1 ++ render c ++ w2) (dotted ks).
Proof. intros H1 H2 H3 H4 H5 H6. apply (get_reaches_none ks ks); auto; [apply names_refl; auto | apply okp_once; auto]. Qed.
Theorem get_dotted_escaped w1 c w2 ks d : ws w1 -> wf c -> ks <> [] -> Forall (fun k => k <> [] /\ ~ In 63%N k) ks -> reaches c ks d ->
  gets (w1 ++ render c ++ w2) (dotted (map path_escape ks)) d.
Proof. intros H1 H2 H3 H4 H5. apply (get_reaches _ ks); auto. apply names_escapes; auto. Qed.
Theorem get_dotted_escaped_none w1 c w2 ks : ws w1 -> wf c -> ks <> [] -> Forall (fun k => k <> [] /\ ~ In 63%N k) ks ->
  (forall k, In k (removelast ks) -> at_most_once k c) -> (forall d, ~ reaches c ks d) ->
  gets_none (w1 ++ render c ++ w2) (dotted (map path_escape ks)).
Proof. intros H1 H2 H3 H4 H5 H6. apply (get_reaches_none _ ks); auto; [apply names_escapes; auto | apply okp_once; auto]. Qed.

(* ---------- one key after another ---------- *)

Lemma get_one c0 k w1 c w2 : names c0 k -> ws w1 -> wf c ->
  exists v, get (w1 ++ render c ++ w2) c0 = Ok v /\
  ((exists d ix, v = tval d ix /\ wf d /\ fol c [k] = Some d) \/ (v = value_default /\ fol c [k] = None)).
Proof.
  intros Hk Hw Hc. fold (doc w1 c w2). assert (Hn : Forall2 names [c0] [k]) by auto.
  pose proof (get_path1 (doc w1 c w2) c0 [] [k] Hn) as E. cbn [dotted] in E. rewrite E. clear E.
  assert (Hd : is_container c = false -> exists v, lstart get (doc w1 c w2) (path1 c0 []) = Ok (v, path1 c0 []) /\
    ((exists d ix, v = tval d ix /\ wf d /\ fol c [k] = Some d) \/ (v = value_default /\ fol c [k] = None))).
  { intros Eco. rewrite lstart_scalar by auto. eexists. split; [reflexivity|]. right. split; auto. apply scalar_fol; auto. }
  assert (Hout : exists v, lstart get (doc w1 c w2) (path1 c0 []) = Ok (v, path1 c0 []) /\
    ((exists d ix, v = tval d ix /\ wf d /\ fol c [k] = Some d) \/ (v = value_default /\ fol c [k] = None))).
  { destruct c as [ | | |nn|bb|w es|w ms]; try (apply Hd; reflexivity).
    - rewrite lstart_arr by auto. unfold larr. cbn [path1 cpath p_comp]. rewrite (nm_index _ _ Hk). cbv zeta.
      assert (Hh : match c0 with [] => True | x :: _ => (x =? 35)%N = false end).
      { destruct c0 as [|x t]; auto. destruct (nm_comp _ _ Hk) as [_ (_ & Hh & _)]. lia. }
      pose proof (elems_tval (doc w1 (CArr w es) w2) w es w2 Hc) as HF. cbn [fol child].
      assert (Hres : exists v, (if (0 <=? comp_index k)%Z
          then nth (Z.to_nat (comp_index k)) (elems (doc w1 (CArr w es) w2) false (render (CArr w es) ++ w2)) value_default
          else value_default) = v /\
        ((exists d ix, v = tval d ix /\ wf d /\ match (if (0 <=? comp_index k)%Z then option_map i_val (nth_error es (Z.to_nat (comp_index k))) else None) with
           | Some d => Some d | None => None end = Some d) \/
         (v = value_default /\ match (if (0 <=? comp_index k)%Z then option_map i_val (nth_error es (Z.to_nat (comp_index k))) else None) with
           | Some d => Some d | None => None end = None))).
      { eexists. split; [reflexivity|]. destruct (0 <=? comp_index k)%Z; [|right; auto].
        destruct (nth_error es (Z.to_nat (comp_index k))) as [e|] eqn:En.
        - left. destruct (Forall2_nth_some _ _ _ _ _ value_default HF En) as (ix & ->). exists (i_val e), ix. split; auto. split; auto.
          apply wf_ival. apply (proj1 (Forall_forall _ _) (wf_items _ _ Hc)). eapply nth_error_In; eauto.
        - right. split; auto. rewrite (Forall2_nth_none _ _ _ _ value_default HF); auto. apply nth_error_None; auto. }
      destruct Hres as (v & Ev & Hv). exists v. split; [|exact Hv]. rewrite <- Ev.
      destruct c0 as [|x t]; [reflexivity|]. rewrite Hh. reflexivity.
    - rewrite lstart_obj by auto.
      pose proof (lobj_find (S (length (p_extra (path1 c0 [])))) get (doc w1 (CObj w ms) w2) w ms w2 (path1 c0 []) Hc ltac:(discriminate) (suf_doc _ _ _)) as H.
      assert (Ef : find (fun m => kmatch (path1 c0 []) (m_key m)) ms = find (fun m => beq (sdec (m_key m)) k) ms).
      { clear -Hk. induction ms as [|m ms IH]; auto. cbn [find]. rewrite IH.
        assert (E : kmatch (path1 c0 []) (m_key m) = beq (sdec (m_key m)) k).
        { apply eq_true_iff_eq. rewrite beq_eq. apply (nm_match _ _ Hk). }
        rewrite E. reflexivity. }
      rewrite Ef in H. cbn [fol child]. destruct (find _ ms) as [m|].
      + destruct H as (ix & -> & Hm). eexists. split; [reflexivity|]. left. exists (m_val m), ix. auto.
      + rewrite H. eexists. split; [reflexivity|]. right. auto. }
  destruct Hout as (v & -> & Hv). cbn [bind path1 cpath p_more p_sep N.eqb negb]. exists v. split; auto.
Qed.

Lemma get_two a b ka kb w1 c w2 : names a ka -> names b kb -> ws w1 -> wf c -> okp c [ka; kb] ->
  exists v1 v x, get (w1 ++ render c ++ w2) (dotted [a; b]) = Ok v1 /\
    get (w1 ++ render c ++ w2) a = Ok v /\ v_get v b = Ok x /\ agree v1 x.
Proof.
  intros Ha Hb Hw Hc Hok.
  pose proof (get_fol 2 [a; b] [ka; kb] c w1 w2 ltac:(cbn; lia) ltac:(auto) ltac:(discriminate) Hw Hc Hok) as H.
  destruct (get_one a ka w1 c w2 Ha Hw Hc) as (v & Ev & [(d & ix & -> & Hd & Ef)|(-> & Ef)]).
  - destruct (get_one b kb [] d [] Hb ltac:(constructor) Hd) as (x & Ex & Hx). cbn [app] in Ex. rewrite app_nil_r in Ex.
    assert (Eg : v_get (tval d ix) b = Ok (add_index ix x)) by (unfold v_get; rewrite v_get_tval, Ex by auto; reflexivity).
    assert (Ef2 : fol c [ka; kb] = fol d [kb]).
    { cbn [fol] in Ef |- *. destruct (child c ka) as [e|]; [|discriminate]. injection Ef as ->. reflexivity. }
    rewrite Ef2 in H. destruct Hx as [(e & iy & -> & He & Ee)|(-> & Ee)]; rewrite Ee in H; destruct H as (v1 & E1 & H1).
    + exists v1, (tval d ix), (add_index ix (tval e iy)). repeat split; auto. right. exists e. split; auto. apply shows_index, tval_shows; auto.
    + exists v1, (tval d ix), (add_index ix value_default). repeat split; auto. left. auto.
  - assert (Ef2 : fol c [ka; kb] = None).
    { cbn [fol] in Ef |- *. destruct (child c ka); [discriminate | auto]. }
    rewrite Ef2 in H. destruct H as (v1 & E1 & H1).
    destruct (get_empty [b] [kb] ltac:(auto) ltac:(discriminate)) as (x & Ex & Hx). cbn [dotted] in Ex.
    exists v1, value_default, (add_index None (json_into_owned x)). repeat split; auto.
    + unfold v_get, v_get_with. cbn [value_default v_slice v_owned v_index]. rewrite Ex. reflexivity.
    + left. split; auto. apply not_exists_owned; auto.
Qed.

Theorem get_dot w1 c w2 a b : ws w1 -> wf c -> plain_key a -> a <> [] -> plain_key b -> b <> [] ->
  at_most_once a c \/ (exists d, reaches c [a; b] d) \/ (exists d, reaches c [a] d /\ scalar d) \/ (forall d, ~ reaches c [a] d) ->
  exists v1 v x, get (w1 ++ render c ++ w2) (dotted [a; b]) = Ok v1 /\
    get (w1 ++ render c ++ w2) a = Ok v /\ v_get v b = Ok x /\ agree v1 x.
Proof.
  intros Hw Hc Ha1 Ha2 Hb1 Hb2 H. apply (get_two a b a b); auto using names_plain.
  destruct H as [H|[(d & H)|[(d & H & Hs)|H]]].
  - apply okp_once. cbn [removelast In]. intros k [->|[]]. auto.
  - apply okp_some. rewrite (reaches_fol _ _ _ H Hc). discriminate.
  - apply reaches_fol in H; auto. cbn [okp fol] in *. destruct (child c a) as [e|]; [|discriminate]. injection H as ->.
    split.
    + destruct (child d b); auto. split; auto. intros _ _ Hn. congruence.
    + intros _ Hco. destruct d; try discriminate; destruct Hs.
  - cbn [okp]. destruct (child c a) as [e|] eqn:E; auto. exfalso. apply (H e). apply fol_reaches; auto. cbn [fol]. rewrite E. reflexivity.
Qed.
