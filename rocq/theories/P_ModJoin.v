(** The join modifier on documents. *)
From Verif Require Import P_Base P_Json P_Valid P_ValidSpec P_Str P_Glob P_Scan P_Each P_Doc P_Path P_LGet P_Parts P_Ext P_Total P_Value P_Num
  P_Key P_Find P_GetDoc P_GetArr P_Stream P_Closed P_Reach P_Taken P_Pipe P_Mod P_ModDoc P_ModFlat
  M_Util M_Num M_Scan M_Value M_Path M_Valid M_Get S_Json S_Get S_Path S_Api S_Follow S_Taken S_Query S_Mod S_Join.

(* ---------- preserve ---------- *)

Definition leadm (w : text) (ms : list (memb cst)) : list (memb cst) :=
  match ms with Memb a k b c v d :: t => Memb (w ++ a) k b c v d :: t | [] => [] end.
Definition piecem (c : cst) : list (memb cst) := match c with CObj w ms => leadm w ms | _ => [] end.

Lemma leadm_text w ms : ms <> [] -> w ++ commas (map (render_memb render) ms) = commas (map (render_memb render) (leadm w ms)).
Proof.
  destruct ms as [|[a k b c v d] t]; [congruence|]. intros _. cbn [leadm map].
  destruct t as [|y t]; cbn [map commas render_memb]; rewrite <- !app_assoc; reflexivity.
Qed.
Lemma piecem_vals c : map (fun m => (m_key m, m_val m)) (piecem c) = map (fun m => (m_key m, m_val m)) (members_of c).
Proof. destruct c as [ | | |n|b|w es|w ms]; try reflexivity. destruct ms as [|[a k b c v d] t]; reflexivity. Qed.
Lemma piecem_wf c : wf c -> Forall wf_memb (piecem c).
Proof.
  intros H. destruct c as [ | | |n|b|w es|w ms]; cbn [piecem]; try constructor.
  inversion H as [| | | | | |w' ms' Hw Hms]; subst. destruct Hms as [|m ms Hm Hms]; [constructor|].
  destruct Hm as [a k b c v d Ha Hk Hb Hc Hv Hd]. cbn [leadm]. constructor; auto. constructor; auto. apply Forall_app; auto.
Qed.
Lemma render_memb_ne m : render_memb render m <> [].
Proof. destruct m as [a k b c v d]. cbn [render_memb]. destruct a; discriminate. Qed.

Definition is_obj (c : cst) : bool := match c with CObj _ _ => true | _ => false end.
Lemma kind_obj c : kind_eqb (kind_of c) KObject = is_obj c.
Proof. destruct c; reflexivity. Qed.
Definition empty_obj (c : cst) : Prop := match c with CObj _ [] => True | _ => False end.

Lemma visit_preserve (o : N) es vs : Forall2 (fun e x => shows x (i_val e) /\ v_slice x = render (i_val e)) es vs ->
  Forall (fun e => ~ empty_obj (i_val e)) es -> forall L n, (n = 0 <-> L = []) ->
  exists n', visit (fun '(out, n) v => if negb (kind_eqb (v_kind v) KObject) then Ok ((out, n), true)
         else
           let out := if 0 <? n then out ++ [cCOMMA] else out in
           u <- unwrap (v_slice v) ;;
           Ok ((out ++ u, n + 1), true)) (o :: commas L, n) vs =
    Ok (o :: commas (L ++ map (render_memb render) (flat_map (fun e => piecem (i_val e)) es)), n').
Proof.
  induction 1 as [|e x es vs [Hx Hs] H IH]; intros Hne L n Hn.
  - exists n. cbn [flat_map map]. rewrite app_nil_r. reflexivity.
  - cbn [visit flat_map]. inversion Hne as [|? ? He Hne']; subst. rewrite (sh_kind _ _ Hx), kind_obj.
    destruct (i_val e) as [ | | |m|b|w es'|w ms] eqn:Ee; cbn [is_obj negb piecem app]; try (apply IH; auto; fail).
    cbv zeta. rewrite Hs. cbn [render]. rewrite app_assoc. rewrite unwrap_caps by (try reflexivity; right; reflexivity). cbn [bind].
    assert (Hm : ms <> []) by (destruct ms; [exfalso; apply He; exact I | discriminate]).
    destruct (IH Hne' (L ++ map (render_memb render) (leadm w ms)) (n + 1)) as (n' & E).
    { split; [lia|]. intros Z. apply app_eq_nil in Z as [_ Z]. destruct ms as [|[? ? ? ? ? ?] ?]; [congruence|discriminate]. }
    exists n'. rewrite map_app. rewrite <- app_assoc in E. rewrite <- E. f_equal. f_equal. rewrite leadm_text by auto.
    assert (Hl : map (render_memb render) (leadm w ms) <> []) by (destruct ms as [|[? ? ? ? ? ?] ?]; [congruence|discriminate]).
    destruct L as [|l L].
    + replace n with 0 by (symmetry; apply Hn; reflexivity). reflexivity.
    + replace (0 <? n) with true by (destruct n; [exfalso; assert (l :: L = []) by (apply Hn; reflexivity); discriminate | reflexivity]).
      rewrite (commas_app (l :: L)) by (auto; discriminate). cbn [app]. rewrite <- app_assoc. reflexivity.
Qed.

Lemma join_preserve_doc g arg dv w1 w es w2 : g arg s_preserve = Ok dv -> v_bool dv = Ok true ->
  ws w1 -> wf (CArr w es) -> ws w2 -> Forall (fun e => ~ empty_obj (i_val e)) es ->
  mod_join g (w1 ++ render (CArr w es) ++ w2) arg = Ok (render (CObj [] (flat_map (fun e => piecem (i_val e)) es))).
Proof.
  intros Hg Hb H1 Hc H2 Hne. unfold mod_join. rewrite parse_spec. cbn [bind].
  destruct (parse_presents w1 _ w2 H1 Hc H2) as [P1 P2]. set (res := lparse (w1 ++ render (CArr w es) ++ w2)) in *.
  rewrite (pr_kind _ _ P1). change (negb (kind_eqb (kind_of (CArr w es)) KArray)) with false. cbv iota.
  rewrite Hg. cbn [bind]. rewrite Hb. cbn [bind].
  cbn [is_container] in P2. destruct (each_array' res w es w2 Hc (pr_kind _ _ P1) P2) as (vs & Hvs & Ev). rewrite Ev.
  destruct (visit_preserve 123%N es vs Hvs Hne [] 0) as (n' & E); [tauto|]. change (123%N :: commas []) with [123%N] in E. rewrite app_nil_l in E.
  rewrite (visit_ext _ (fun '(out, n) v => if negb (kind_eqb (v_kind v) KObject) then Ok ((out, n), true)
         else
           let out := if 0 <? n then out ++ [cCOMMA] else out in
           u <- unwrap (v_slice v) ;;
           Ok ((out ++ u, n + 1), true))) by (intros [out n] x; reflexivity).
  rewrite E. reflexivity.
Qed.

Lemma get_join_preserve w1 w es w2 arg dv : ws w1 -> wf (CArr w es) -> ws w2 -> arg_ok arg ->
  get (arg_text arg) s_preserve = Ok dv -> v_bool dv = Ok true -> Forall (fun e => ~ empty_obj (i_val e)) es ->
  exists v ms, get (w1 ++ render (CArr w es) ++ w2) (modifier n_join arg) = Ok v /\ shows v (CObj [] ms) /\
    wf (CObj [] ms) /\ map (fun m => (m_key m, m_val m)) ms = map (fun m => (m_key m, m_val m)) (all_members es).
Proof.
  intros H1 Hc H2 Ha Hg Hb Hne. assert (Hw : wf (CObj [] (flat_map (fun e => piecem (i_val e)) es))).
  { constructor; [constructor|]. apply Forall_forall. intros i Hi. apply in_flat_map in Hi as (e & He & Hi).
    pose proof (wf_items _ _ Hc) as Hw. rewrite Forall_forall in Hw. specialize (Hw e He). destruct Hw as [a v b ? Hv ?].
    pose proof (piecem_wf v Hv) as Hf. rewrite Forall_forall in Hf. apply Hf, Hi. } rewrite get_modifier_end by (auto using plain_name).
  change (mod_apply get n_join ?j ?a) with (mod_join get j a).
  rewrite (join_preserve_doc _ _ _ _ _ _ _ Hg Hb) by auto. cbn [bind]. eexists. exists (flat_map (fun e => piecem (i_val e)) es).
  split; [reflexivity|]. split; [|split; [exact Hw|]].
  - eapply veq_shows; [apply veq_sym, into_parse|]. apply parse_shows. exact Hw.
  - unfold all_members. rewrite !flat_map_map. clear. induction es as [|e es IH]; auto. cbn [flat_map]. rewrite IH, piecem_vals. reflexivity.
Qed.

(* ---------- merging ---------- *)

Lemma map_get_insert k v m k' : map_get k' (map_insert k v m) = if beq k' k then Some v else map_get k' m.
Proof.
  induction m as [|[a b] m IH]; cbn [map_insert map_get]; auto.
  destruct (beq k a) eqn:E; cbn [map_get].
  - apply beq_eq in E as ->. destruct (beq k' a); reflexivity.
  - rewrite IH. destruct (beq k' a) eqn:E1; auto. apply beq_eq in E1 as ->.
    rewrite beq_false; auto. intros <-. rewrite (proj2 (beq_eq a a)) in E by reflexivity. discriminate.
Qed.

Notation nm m := (un (m_key m)).
Lemma named_iff m n : named m n <-> n = nm m.
Proof. unfold named. rewrite unescape_quoted. split; [intros E; injection E as <-; auto | intros ->; auto]. Qed.
Lemma same_iff m m' : same_name m m' <-> nm m = nm m'.
Proof.
  unfold same_name. split.
  - intros (n & H1 & H2). apply named_iff in H1. apply named_iff in H2. congruence.
  - intros E. exists (nm m). split; apply named_iff; auto.
Qed.

Fixpoint lastv (k : bytes) (ms : list (memb cst)) : option cst :=
  match ms with
  | [] => None
  | m :: t => match lastv k t with Some v => Some v | None => if beq (nm m) k then Some (m_val m) else None end
  end.
Lemma lastv_snoc k ms m : lastv k (ms ++ [m]) = if beq (nm m) k then Some (m_val m) else lastv k ms.
Proof.
  induction ms as [|x ms IH]; cbn [app lastv]; auto. rewrite IH. destruct (beq (nm m) k); auto.
Qed.
Lemma lastv_none k ms : lastv k ms = None <-> Forall (fun m => nm m <> k) ms.
Proof.
  induction ms as [|x ms IH]; cbn [lastv]; [split; auto|]. destruct (lastv k ms) as [v|] eqn:E.
  - split; [discriminate|]. intros H. inversion H; subst. apply IH in H3. discriminate.
  - destruct (beq (nm x) k) eqn:E1.
    + split; [discriminate|]. intros H. inversion H; subst. apply beq_eq in E1. congruence.
    + split; auto. intros _. constructor; [|apply IH; auto]. intros Z. apply beq_eq in Z. congruence.
Qed.
Lemma lastv_some k ms v : lastv k ms = Some v ->
  exists a l b, ms = a ++ l :: b /\ nm l = k /\ Forall (fun m => nm m <> k) b /\ m_val l = v.
Proof.
  induction ms as [|x ms IH]; cbn [lastv]; [discriminate|]. destruct (lastv k ms) as [u|] eqn:E.
  - intros Z. injection Z as ->. destruct (IH eq_refl) as (a & l & b & -> & H). exists (x :: a), l, b. auto.
  - destruct (beq (nm x) k) eqn:E1; [|discriminate]. intros Z. injection Z as <-. apply beq_eq in E1.
    exists [], x, ms. repeat split; auto. apply lastv_none, E.
Qed.
Lemma lastv_in k ms v : lastv k ms = Some v -> exists m, In m ms /\ m_val m = v.
Proof. intros H. apply lastv_some in H as (a & l & b & -> & _ & _ & H). exists l. split; auto. apply in_or_app. right. left. reflexivity. Qed.

Definition inv (ms : list (memb cst)) (st : list (bytes * bytes) * list (bytes * bytes)) : Prop :=
  exists fs, firsts ms fs /\ fst st = map (fun m => (quoted (m_key m), nm m)) fs /\
    forall k, map_get k (snd st) = option_map render (lastv k ms).

Lemma inv_step ms st m k v : inv ms st -> shows k (CStr (m_key m)) -> shows v (m_val m) ->
  exists st', join_member st k v = Ok (st', true) /\ inv (ms ++ [m]) st'.
Proof.
  intros (fs & Hf & Hk & Hv) Sk Sv. destruct st as [keys kvals]. cbn [fst snd] in *. unfold join_member.
  rewrite (sh_str _ _ Sk). cbn [text_of]. rewrite unescape_quoted. cbn [bind].
  eexists. split; [reflexivity|]. rewrite Hv. rewrite (sh_json _ _ Sk), (sh_json _ _ Sv). cbn [render].
  destruct (lastv (nm m) ms) as [u|] eqn:E; cbn [option_map].
  - exists fs. split; [|split; [exact Hk|]].
    + apply fi_old; auto. apply lastv_some in E as (a & l & b & -> & El & _ & _). apply Exists_exists. exists l.
      split; [apply in_or_app; right; left; reflexivity | apply same_iff, El].
    + intros k'. cbn [snd]. rewrite map_get_insert, lastv_snoc, Hv.
      destruct (beq k' (nm m)) eqn:E1; destruct (beq (nm m) k') eqn:E2; auto.
      * apply beq_eq in E1. symmetry in E1. apply beq_eq in E1. congruence.
      * apply beq_eq in E2. symmetry in E2. apply beq_eq in E2. congruence.
  - exists (fs ++ [m]). split; [|split].
    + apply fi_new; auto. apply lastv_none in E. eapply Forall_impl; [|exact E]. cbn beta. intros x Hx Z. apply same_iff in Z. auto.
    + cbn [fst]. rewrite Hk, map_app. reflexivity.
    + intros k'. cbn [snd]. rewrite map_get_insert, lastv_snoc, Hv.
      destruct (beq k' (nm m)) eqn:E1; destruct (beq (nm m) k') eqn:E2; auto.
      * apply beq_eq in E1. symmetry in E1. apply beq_eq in E1. congruence.
      * apply beq_eq in E2. symmetry in E2. apply beq_eq in E2. congruence.
Qed.

Lemma inv_members ms' kvs : Forall2 (fun m kv => shows (fst kv) (CStr (m_key m)) /\ shows (snd kv) (m_val m)) ms' kvs ->
  forall ms st, inv ms st ->
  exists st', visit (fun st kv => join_member st (fst kv) (snd kv)) st kvs = Ok st' /\ inv (ms ++ ms') st'.
Proof.
  induction 1 as [|m kv ms' kvs [H1 H2] H IH]; intros ms st Hi.
  - exists st. rewrite app_nil_r. auto.
  - destruct (inv_step ms st m (fst kv) (snd kv) Hi H1 H2) as (st1 & E1 & Hi1). cbn [visit]. rewrite E1.
    destruct (IH (ms ++ [m]) st1 Hi1) as (st2 & E2 & Hi2). exists st2. split; auto. rewrite <- app_assoc in Hi2. exact Hi2.
Qed.

Lemma inv_elems es vs : Forall wf_item es -> Forall2 (fun e x => shows x (i_val e) /\ v_slice x = render (i_val e)) es vs ->
  forall ms st, inv ms st ->
  exists st', visit (fun st v => if negb (kind_eqb (v_kind v) KObject) then Ok (st, true)
         else st <- v_each v join_member st ;; Ok (st, true)) st vs = Ok st' /\ inv (ms ++ all_members es) st'.
Proof.
  intros Hw H. induction H as [|e x es vs [Hx _] H IH]; intros ms st Hi.
  - exists st. cbn [all_members flat_map]. rewrite app_nil_r. auto.
  - inversion Hw as [|? ? He Hw']; subst. specialize (IH Hw'). cbn [visit]. rewrite (sh_kind _ _ Hx), kind_obj.
    assert (He' : wf (i_val e)) by (destruct He; auto). unfold all_members in *. cbn [flat_map].
    destruct (i_val e) as [ | | |m|b|w es'|w ms'] eqn:Ee; cbn [is_obj negb members_of app]; try (apply IH; auto; fail).
    destruct (each_object x w ms' [] He' (sh_kind _ _ Hx)) as (kvs & Hk & Ev).
    { rewrite app_nil_r. apply (sh_json _ _ Hx). }
    destruct (inv_members ms' kvs Hk ms st Hi) as (st1 & E1 & Hi1).
    rewrite Ev, E1. cbn [bind]. destruct (IH _ st1 Hi1) as (st2 & E2 & Hi2). exists st2. split; auto. rewrite <- app_assoc in Hi2. exact Hi2.
Qed.

Lemma firsts_in ms fs m : firsts ms fs -> In m fs -> In m ms.
Proof.
  induction 1 as [|ms fs m' H IH Hn|ms fs m' H IH Hn]; auto.
  - intros Hi. apply in_app_or in Hi as [Hi|[<-|[]]]; apply in_or_app; [left; auto | right; left; auto].
  - intros Hi. apply in_or_app. auto.
Qed.

Lemma merge_out ms kvals : (forall k, map_get k kvals = option_map render (lastv k ms)) -> forall fs, incl fs ms ->
  exists out, Forall2 (fun m o => exists v, lastv (nm m) ms = Some v /\ o = Memb [] (m_key m) [] [] v []) fs out /\
    forall first, join_out first (map (fun m => (quoted (m_key m), nm m)) fs) kvals =
      Ok (if first then commas (map (render_memb render) out) else concat (map (fun m => 44%N :: render_memb render m) out)).
Proof.
  intros Hk. induction fs as [|m fs IH]; intros Hi.
  - exists []. split; [constructor|]. intros []; reflexivity.
  - destruct IH as (out & H1 & H2). { intros x Hx. apply Hi. right. auto. }
    destruct (lastv (nm m) ms) as [v|] eqn:E.
    2: { exfalso. apply lastv_none in E. rewrite Forall_forall in E. apply (E m); auto. apply Hi. left. auto. }
    exists (Memb [] (m_key m) [] [] v [] :: out). split; [constructor; eauto|]. intros first. cbn [map join_out].
    rewrite Hk, E. cbn [option_map]. rewrite H2. cbn [bind]. f_equal.
    assert (Ec : forall l, concat (map (fun m => 44%N :: render_memb render m) l) =
       match l with [] => [] | _ => 44%N :: commas (map (render_memb render) l) end).
    { clear. induction l as [|a l IH]; auto. cbn [map concat]. rewrite IH. destruct l as [|b l]; [rewrite app_nil_r; reflexivity|]. reflexivity. }
    destruct first.
    + rewrite Ec. destruct out as [|o out].
      * cbn [map commas render_memb app]. rewrite !app_nil_r. reflexivity.
      * match goal with |- _ = commas (?x :: ?l) => change (x :: l) with ([x] ++ l) end. rewrite commas_app by discriminate.
        cbn [commas render_memb app]. rewrite app_nil_r. apps. reflexivity.
    + cbn [map concat]. cbn [render_memb app]. rewrite app_nil_r. apps. reflexivity.
Qed.

Lemma join_doc g arg dv w1 w es w2 : g arg s_preserve = Ok dv -> v_bool dv = Ok false ->
  ws w1 -> wf (CArr w es) -> ws w2 ->
  exists out, mod_join g (w1 ++ render (CArr w es) ++ w2) arg = Ok (render (CObj [] out)) /\ merged (all_members es) out /\ wf (CObj [] out).
Proof.
  intros Hg Hb H1 Hc H2. unfold mod_join. rewrite parse_spec. cbn [bind].
  destruct (parse_presents w1 _ w2 H1 Hc H2) as [P1 P2]. set (res := lparse (w1 ++ render (CArr w es) ++ w2)) in *.
  rewrite (pr_kind _ _ P1). change (negb (kind_eqb (kind_of (CArr w es)) KArray)) with false. cbv iota.
  rewrite Hg. cbn [bind]. rewrite Hb. cbn [bind].
  cbn [is_container] in P2. destruct (each_array' res w es w2 Hc (pr_kind _ _ P1) P2) as (vs & Hvs & Ev). rewrite Ev.
  destruct (inv_elems es vs (wf_items _ _ Hc) Hvs [] ([], [])) as ([keys kvals] & E & fs & Hf & Hk & Hv).
  { exists []. split; [constructor|]. split; reflexivity. }
  rewrite E. cbn [bind]. cbn [fst snd app] in *.
  destruct (merge_out (all_members es) kvals Hv fs) as (out & O1 & O2). { intros x. apply firsts_in, Hf. }
  rewrite Hk, O2. cbn [bind]. exists out. split; [reflexivity|]. split.
  - exists fs. split; auto. clear - O1. induction O1 as [|m o fs out (v & Ev & ->) H IH]; constructor; auto.
    exists v. split; auto. apply lastv_some in Ev as (a & l & b & -> & E & F & <-). exists a, l, b. repeat split; auto; [apply same_iff, E|].
    eapply Forall_impl; [|exact F]. cbn beta. intros x Hx Z. apply same_iff in Z. auto.
  - constructor; [constructor|]. assert (Hw : Forall wf_memb (all_members es)).
    { apply Forall_forall. intros m Hm. apply in_flat_map in Hm as (e & He & Hm). pose proof (wf_items _ _ Hc) as Hw.
      rewrite Forall_forall in Hw. specialize (Hw e He). destruct Hw as [a v b ? Hv' ?]. cbn [i_val] in Hm.
      destruct v; cbn [members_of] in Hm; try contradiction. pose proof (wf_membs _ _ Hv') as Hms. rewrite Forall_forall in Hms. auto. }
    assert (Hfi : incl fs (all_members es)) by (intros x; apply firsts_in, Hf). clear - O1 Hw Hfi.
    induction O1 as [|m o fs out (v & Ev & ->) H IH]; constructor; [|apply IH; intros x Hx; apply Hfi; right; auto].
    rewrite Forall_forall in Hw. pose proof (Hw m (Hfi m (or_introl eq_refl))) as Hm.
    apply lastv_in in Ev as (l & Hl & <-). apply Hw in Hl. destruct Hm, Hl. constructor; auto; constructor.
Qed.

Lemma get_join w1 w es w2 arg dv : ws w1 -> wf (CArr w es) -> ws w2 -> arg_ok arg ->
  get (arg_text arg) s_preserve = Ok dv -> v_bool dv = Ok false ->
  exists v out, get (w1 ++ render (CArr w es) ++ w2) (modifier n_join arg) = Ok v /\ shows v (CObj [] out) /\
    wf (CObj [] out) /\ merged (all_members es) out.
Proof.
  intros H1 Hc H2 Ha Hg Hb. rewrite get_modifier_end by (auto using plain_name).
  change (mod_apply get n_join ?j ?a) with (mod_join get j a).
  destruct (join_doc _ _ _ w1 w es w2 Hg Hb H1 Hc H2) as (out & E & M & W). rewrite E. cbn [bind]. eexists. exists out.
  split; [reflexivity|]. split; [|split; [exact W|exact M]]. eapply veq_shows; [apply veq_sym, into_parse|]. apply parse_shows, W.
Qed.

Lemma get_join_other w1 c w2 arg : ws w1 -> wf c -> ws w2 -> arg_ok arg -> is_arr c = false ->
  exists v, get (w1 ++ render c ++ w2) (modifier n_join arg) = Ok v /\ presents v c.
Proof.
  intros H1 Hc H2 Ha Hn. rewrite get_modifier_end by (auto using plain_name).
  change (mod_apply get n_join ?j ?a) with (mod_join get j a). unfold mod_join.
  destruct (parse_presents w1 _ w2 H1 Hc H2) as [P1 P2]. rewrite parse_spec. cbn [bind]. rewrite (pr_kind _ _ P1), kind_arr, Hn.
  cbn [negb bind]. eexists. split; [reflexivity|]. eapply veq_presents; [apply veq_sym, into_parse|]. exact P1.
Qed.

(** What merging means for the names. *)
Lemma firsts_nodup ms fs : firsts ms fs -> NoDup (map (fun m => nm m) fs).
Proof.
  induction 1 as [|ms fs m H IH Hn|ms fs m H IH Hn]; auto; [constructor|].
  rewrite map_app. cbn [map]. apply (proj2 (NoDup_Add (Add_app (nm m) (map (fun m => nm m) fs) []))).
  rewrite app_nil_r. split; auto. intros Hi. apply in_map_iff in Hi as (x & E & Hx).
  rewrite Forall_forall in Hn. apply (Hn x); [eapply firsts_in; eauto | apply same_iff, E].
Qed.
Lemma firsts_all ms fs : firsts ms fs -> forall m, In m ms -> exists f, In f fs /\ nm f = nm m.
Proof.
  induction 1 as [|ms fs x H IH Hn|ms fs x H IH Hn]; [intros m []| |]; intros m Hi; apply in_app_or in Hi as [Hi|[<-|[]]].
  - destruct (IH m Hi) as (f & Hf & E). exists f. split; auto. apply in_or_app. auto.
  - exists x. split; auto. apply in_or_app. right. left. auto.
  - auto.
  - apply Exists_exists in Hn as (y & Hy & E). apply same_iff in E. destruct (IH y Hy) as (f & Hf & E'). exists f. split; congruence.
Qed.
Lemma merged_names ms out : merged ms out ->
  (forall a o b o' c, out = a ++ o :: b ++ o' :: c -> ~ same_name o o') /\
  (forall m, In m ms -> exists o, In o out /\ same_name o m) /\
  (forall o, In o out -> exists m, In m ms /\ m_key m = m_key o).
Proof.
  intros (fs & Hf & H). assert (Hk : map m_key out = map m_key fs).
  { clear - H. induction H as [|m o fs out (v & _ & ->) H IH]; auto. cbn [map m_key]. f_equal. exact IH. }
  split; [|split].
  - intros a o b o' c -> E. apply same_iff in E. pose proof (firsts_nodup _ _ Hf) as Hn.
    assert (Hn' : NoDup (map un (map m_key fs))) by (rewrite map_map; exact Hn). rewrite <- Hk in Hn'.
    rewrite map_map, map_app in Hn'. cbn [map] in Hn'. apply NoDup_remove_2 in Hn'. apply Hn'. apply in_or_app. right.
    rewrite E, map_app. apply in_or_app. right. left. reflexivity.
  - intros m Hm. destruct (firsts_all _ _ Hf m Hm) as (f & Hfi & E).
    assert (Hi : In (m_key f) (map m_key out)) by (rewrite Hk; apply in_map, Hfi). apply in_map_iff in Hi as (o & Eo & Ho).
    exists o. split; auto. apply same_iff. congruence.
  - intros o Ho. assert (Hi : In (m_key o) (map m_key fs)) by (rewrite <- Hk; apply in_map, Ho).
    apply in_map_iff in Hi as (m & E & Hm). exists m. split; auto. eapply firsts_in; eauto.
Qed.
