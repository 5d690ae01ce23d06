(** Every path follows the rules of S_Means, and the rules cover every path. *)
From Coq Require Import String List.
From Verif Require Import P_Base P_Json P_Valid P_ValidSpec P_Str P_Glob P_Scan P_Each P_Doc P_Path P_LGet P_Parts P_Ext P_Total P_Value P_Num P_Key P_Find P_Pipe
  P_POut P_Lines P_Tree P_Mod P_ModDoc P_ModFlat P_ModJoin P_Multi P_Follow P_Compose P_Eval P_Closed P_GetDoc P_GetArr P_GetMod P_Taken P_Bad P_Wf P_Head P_Entry P_Then
  P_Run P_First P_Seek M_Util M_Num M_Scan M_Value M_Path M_Valid M_Get M_Pretty
  S_Json S_Str S_Get S_Path S_Query S_Follow S_Mod S_ModText S_Join S_Tree S_Layout S_Multi S_Compose S_Same S_Taken S_Api S_Eval S_Then S_Run
  S_Bad S_Head S_Entry S_PrettyArg S_Means.
Import ListNotations.
Open Scope list_scope.

(* ---------- modifiers ---------- *)

Definition made (name s arg r : bytes) : Prop :=
  exists out, mod_apply get name s arg = Ok out /\ v_json (json_into_owned (lparse out)) = r.
Lemma made_get p name arg s v : head p name arg None -> get s p = Ok v -> made name s arg (v_json v).
Proof.
  intros H E. rewrite (get_head s p name arg None H) in E. apply bind_ok in E as (out & Eo & E). injection E as <-.
  exists out. auto.
Qed.
Lemma get_made p name arg s r : head p name arg None -> made name s arg r -> jget s p r.
Proof. intros H (out & Eo & Er). unfold jget. rewrite (get_head s p name arg None H), Eo. cbn [bind]. eauto. Qed.
Lemma known_name name : In name known_names -> mod_name name.
Proof. cbn [known_names In]. intros H. apply plain_name. repeat (destruct H as [<-|H]; [reflexivity|]). destruct H. Qed.
Lemma arg_head name arg : mod_name name -> mod_arg arg -> head (64%N :: name ++ 58%N :: arg) name arg None.
Proof.
  intros Hn Ha. pose proof (name_word name Hn) as Hw. destruct Ha as [c Hc Hk|a Ha Hh].
  - destruct (render c) as [|h t] eqn:E; [destruct c; try contradiction; discriminate|].
    assert (Ho : opening h).
    { destruct c as [ | | | |b|w es|w ms]; try contradiction; cbn [render] in E; [unfold quoted in E|..]; injection E as <- _; unfold opening; auto. }
    apply hd_group; auto. intros g s r Hg Hs Eg.
    pose proof (lrest_any c [] Hc Hk) as L. rewrite E, app_nil_r, Eg, lrest_group in L by auto. discriminate.
  - apply hd_plain; auto. split.
    + revert Ha. apply Forall_impl. unfold separator. tauto.
    + destruct a as [|c a]; auto. unfold opening. tauto.
Qed.
Lemma modifies_known name arg s r : In name known_names -> arg_ok arg -> modifies name arg s r -> made name s (arg_text arg) r.
Proof.
  intros Hk Ha H. pose proof (known_name name Hk) as Hn. destruct (modifies_get name arg s r Hn Ha H) as (v & E & Hv). rewrite <- Hv.
  eapply made_get; [|exact E]. unfold modifier. destruct arg as [a|]; [apply arg_head; auto|]. rewrite app_nil_r. apply name_head, Hn.
Qed.
Lemma made_nothing name arg s : ~ In name known_names -> made name s arg [].
Proof. intros H. exists []. split; [apply mod_apply_unknown, H | reflexivity]. Qed.
Lemma known_dec name : In name known_names \/ ~ In name known_names.
Proof. destruct (in_dec (list_eq_dec N.eq_dec) name known_names); auto. Qed.
Lemma modifies_made name arg s r : arg_ok arg -> modifies name arg s r -> made name s (arg_text arg) r.
Proof.
  intros Ha H. destruct (known_dec name) as [Hk|Hk]; [apply modifies_known; auto|].
  assert (r = []) as ->; [|apply made_nothing; auto].
  destruct H; auto; exfalso; apply Hk; cbn [known_names In]; tauto.
Qed.
Lemma join_arg b a a' dv dv' json : get a s_preserve = Ok dv -> get a' s_preserve = Ok dv' -> v_bool dv = Ok b -> v_bool dv' = Ok b ->
  mod_join get json a = mod_join get json a'.
Proof.
  intros E1 E2 B1 B2. unfold mod_join. destruct (parse json); [|reflexivity]. cbn [bind]. destruct (negb _); [reflexivity|].
  rewrite E1, E2. cbn [bind]. rewrite B1, B2. reflexivity.
Qed.
Lemma deep_arg : mod_arg (bs "{""deep"":true}").
Proof. change (bs "{""deep"":true}") with (render (CObj [] [Memb [] s_deep [] [] CTrue []])). apply ma_json; [|exact I]. apply wfb_wf. reflexivity. Qed.
Lemma preserve_arg : mod_arg (bs "{""preserve"":true}").
Proof. change (bs "{""preserve"":true}") with (render (CObj [] [Memb [] s_preserve [] [] CTrue []])). apply ma_json; [|exact I]. apply wfb_wf. reflexivity. Qed.

Lemma field_nil {A} name (rd : value -> R A) d x : get [] name = Ok value_default -> field [] name rd d x -> x = d.
Proof. intros E (v & Ev & H). rewrite E in Ev. injection Ev as <-. exact H. Qed.
Lemma pretty_arg_nil o : pretty_arg [] o -> o = popts_default.
Proof.
  intros [H1 H2 H3 H4]. apply field_nil in H1, H2, H3, H4; try (vm_compute; reflexivity). destruct o. cbn in *. subst. reflexivity.
Qed.

Theorem applies_made name arg s r : applies name arg s r -> made name s arg r.
Proof.
  intros [n s0 r0 H|n a s0 r0 Ha H|n a s0 r0 Hn H|a b s0 r0 (v & Ev & Eb) H|a b s0 r0 (v & Ev & Eb) H|a o out v s0 Ho Eo Ev|n a s0 H|n a H].
  - exact (modifies_made n None s0 r0 I H).
  - exact (modifies_made n (Some a) s0 r0 Ha H).
  - destruct (modifies_made n None s0 r0 I H) as (out & Eo & Er). exists out. split; auto. rewrite <- Eo.
    cbn [In] in Hn. destruct Hn as [<-|[<-|[<-|[<-|[]]]]]; reflexivity.
  - assert (Hok : arg_ok (if b then Some (bs "{""deep"":true}") else None)) by (destruct b; [apply deep_arg | exact I]).
    destruct (modifies_made _ _ _ _ Hok H) as (out & Eo & Er). exists out. split; auto. rewrite <- Eo.
    change (mod_apply get (bs "flatten") s0 ?x) with (mod_flatten (S (length s0)) get s0 x).
    destruct b; cbn [arg_text].
    + eapply (flatten_arg true); [exact Ev | vm_compute; reflexivity | exact Eb | vm_compute; reflexivity].
    + eapply (flatten_arg false); [exact Ev | vm_compute; reflexivity | exact Eb | vm_compute; reflexivity].
  - assert (Hok : arg_ok (if b then Some (bs "{""preserve"":true}") else None)) by (destruct b; [apply preserve_arg | exact I]).
    destruct (modifies_made _ _ _ _ Hok H) as (out & Eo & Er). exists out. split; auto. rewrite <- Eo.
    change (mod_apply get (bs "join") s0 ?x) with (mod_join get s0 x).
    destruct b; cbn [arg_text].
    + eapply (join_arg true); [exact Ev | vm_compute; reflexivity | exact Eb | vm_compute; reflexivity].
    + eapply (join_arg false); [exact Ev | vm_compute; reflexivity | exact Eb | vm_compute; reflexivity].
  - exists out. split; [|rewrite parse_spec in Ev; injection Ev as <-; exact (proj1 (into_parse out))].
    change (mod_apply get (bs "pretty") s0 a) with (mod_pretty get s0 a). destruct a as [|x a]; [|rewrite (mod_pretty_arg s0 _ o); auto; discriminate].
    rewrite (pretty_arg_nil o Ho) in Eo. exact Eo.
  - apply made_nothing; auto.
  - destruct (known_dec n) as [Hk|Hk]; [|apply made_nothing; auto]. exists []. split; [|reflexivity].
    cbn [known_names In] in Hk.
    destruct Hk as [<-|[<-|[<-|[<-|[<-|[<-|[<-|[]]]]]]]]; try congruence; reflexivity.
Qed.

(* ---------- the rules are true ---------- *)

Lemma jget_value v x b r : v_slice v = [] -> v_json v = x -> jget x b r -> exists u, v_get v b = Ok u /\ v_json u = r.
Proof.
  intros Hs Hj (u & E & Hu). unfold v_get, v_get_with. rewrite Hs.
  assert (Ho : v_owned v = x) by (rewrite <- Hj; unfold v_json; rewrite Hs; destruct (v_owned v); reflexivity).
  rewrite Ho, E. cbn [bind]. eexists. split; [reflexivity|]. rewrite <- Hu.
  change (v_json (add_index (v_index v) (json_into_owned u))) with (v_json (json_into_owned u)).
  apply json_into_owned_json. exact (P_ModDoc.get_one _ _ _ E).
Qed.
Definition jfollows (b x r : bytes) : Prop :=
  match b with s :: u => if is_sep s then jget x u r else r = x | [] => r = x end.
Lemma follows_continue v b x r : v_slice v = [] -> v_json v = x -> jfollows b x r -> exists u, continue v b = Ok u /\ v_json u = r.
Proof.
  intros Hs Hj H. unfold jfollows, continue in *. destruct b as [|s u]; [subst; eauto|].
  destruct (is_sep s); [eapply jget_value; eauto | subst; eauto].
Qed.

Scheme means_m := Minimality for means Sort Prop
  with inside_m := Minimality for inside Sort Prop
  with goes_m := Minimality for goes Sort Prop
  with follows_m := Minimality for follows Sort Prop
  with means_all_m := Minimality for means_all Sort Prop.
Combined Scheme means_mut from means_m, inside_m, goes_m, follows_m, means_all_m.

Lemma jgets_values s (es : list entry) rs : Forall2 (fun p r => jget s p r) (map snd es) rs ->
  exists vs, Forall2 (fun e v => get s (snd e) = Ok v) es vs /\ Forall2 has_text vs rs.
Proof.
  revert rs. induction es as [|e es IH]; intros rs H; inversion H as [|? r ? rs' (v & E & Hv) H']; subst.
  - exists []. split; constructor.
  - destruct (IH rs' H') as (vs & H1 & H2). exists (v :: vs). split; constructor; auto. reflexivity.
Qed.
Lemma array_text (vs : list value) rs : Forall2 has_text vs rs -> v_json (marr vs) = listed rs.
Proof. intros H. unfold marr. rewrite mkowned_json, (filter_shown vs rs H). reflexivity. Qed.
Lemma object_text_of ks (vs : list value) rs : Forall2 has_text vs rs -> v_json (mobj (combine ks vs)) = object_text ks rs.
Proof. intros H. unfold mobj. rewrite mkowned_json, (filter_pairs ks vs rs H). reflexivity. Qed.

Lemma lines_jget ls p r : Forall wf_item ls -> spaced ls -> array_path p -> jget (render (array_of (map i_val ls))) p r ->
  jget (lines_text ls) (46%N :: 46%N :: p) r.
Proof.
  intros Hls Hs Hp (v & E & Hv).
  assert (Hw : wf (array_of (map i_val ls))).
  { apply wf_mkarr, Forall_map. eapply Forall_impl; [|exact Hls]. apply wf_ival. }
  pose proof (lines_same ls [] [] (map (fun c => Item [] c []) (map i_val ls)) [] p Hls Hs ltac:(constructor) Hw ltac:(constructor)) as L.
  assert (Hi : map i_val (map (fun c => Item [] c []) (map i_val ls)) = map i_val ls) by (rewrite map_map; apply map_id).
  specialize (L Hi Hp). change (CArr [] (map (fun c => Item [] c []) (map i_val ls))) with (array_of (map i_val ls)) in L.
  cbn [app] in L. rewrite app_nil_r, E in L. unfold jget.
  destruct (get (lines_text ls) (46%N :: 46%N :: p)) as [x|e]; [|contradiction]. exists x. split; auto.
  destruct L as [L1 L2 L3 L4]. rewrite <- Hv. congruence.
Qed.
Lemma array_path_first p k o : first p k o -> ~ array_path p -> k = [] \/ exists c t, k = c :: t /\ (c = 64%N \/ c = 91%N \/ c = 123%N).
Proof.
  intros Hf Hp. destruct p as [|c t]; [destruct Hp; exact I|]. cbn [array_path] in Hp.
  destruct (N.eq_dec c 46) as [->|Hc].
  - destruct (first_unique _ _ _ _ _ Hf (first_dots t)) as [-> _]. auto.
  - assert (Hm : c = 64%N \/ multi_start c) by (unfold multi_start; lia).
    destruct (first_head _ _ _ _ _ Hf eq_refl Hm) as (t' & ->). right. exists c, t'. split; auto.
Qed.
Lemma lines_other p k o s r : ~ array_path p -> first p k o -> match o with None => r = [] | Some (_, b) => jget [] b r end ->
  jget s (46%N :: 46%N :: p) r.
Proof.
  intros Hp Hf Hr. destruct (first_next _ _ _ Hf) as [E1 E2]. unfold jget. rewrite get_eq, get_body_spec.
  change (split_lines (46%N :: 46%N :: p)) with (true, p). cbv zeta. unfold lget_first.
  assert (Hl : larr get s true s (pnext p) = Ok (value_default, pnext p)).
  { unfold larr. rewrite E1. destruct (array_path_first _ _ _ Hf Hp) as [->|(c & t & -> & Hc)]; [reflexivity|].
    assert (Hi : (0 <=? comp_index (c :: t))%Z = false) by (destruct Hc as [->|[->| ->]]; reflexivity).
    rewrite Hi. replace (c =? 35)%N with false by lia. reflexivity. }
  rewrite Hl. cbn [bind]. destruct o as [[x b]|].
  - destruct E2 as [E2 E3]. assert (Hx : p_more (pnext p) = true) by (unfold p_more; rewrite E2; destruct (first_sep _ _ _ _ Hf) as [[->| ->] _]; reflexivity). rewrite Hx. cbn [negb]. rewrite E3.
    apply (jget_value value_default []); auto.
  - assert (Hx : p_more (pnext p) = false) by (unfold p_more; rewrite E2; reflexivity). rewrite Hx. cbn [negb]. exists value_default. auto.
Qed.

Theorem means_sound :
  (forall p s r, means p s r -> jget s p r) /\
  (forall t x y, inside t x y -> jinside t x y) /\
  (forall t o r, goes t o r -> jgoes t o r) /\
  (forall b x r, follows b x r -> jfollows b x r) /\
  (forall ps s rs, means_all ps s rs -> Forall2 (fun p r => jget s p r) ps rs).
Proof.
  apply means_mut.
  - intros mt ix hd inner inothing p ss t w1 c w2 r Hp Hm H1 Hc H2 _ Hin _ Hno _ Hg.
    apply (get_seek mt ix hd ss Hm inner inothing (fun e => part_of e c)) with (n := length ss) (ss := ss) (t := t); auto.
    + intros w es H. apply Forall_forall. intros x Hx. eapply part_elem; eauto.
    + intros w ms H. apply Forall_forall. intros x Hx. eapply part_memb; eauto.
    + apply incl_refl.
    + split; auto.
    + apply po_self.
  - intros p ss t r Hp _ Hg. eapply get_nowhere; eauto.
  - intros p name arg s r Hh Ha. eapply get_made; eauto. apply applies_made, Ha.
  - intros p name arg b s x r Hh Ha _ Hb. destruct (applies_made _ _ _ _ Ha) as (out & Eo & Er).
    unfold jget. rewrite (get_head s p name arg (Some b) Hh), Eo. cbn [bind]. eapply jget_value; eauto.
  - intros p o b s Ho Hm. unfold jget. rewrite (multi_nothing s p o b Ho Hm). eexists. split; reflexivity.
  - intros p q b es s rs r Hm He _ Hrs _ Hf. destruct (jgets_values _ _ _ Hrs) as (vs & Hv & Ht).
    unfold jget. rewrite (multi_array_any s p q b es vs Hm He Hv). apply (follows_continue _ _ (listed rs)); auto. apply array_text, Ht.
  - intros p q b es ks s rs r Hm He _ Hrs Hk _ Hf. destruct (jgets_values _ _ _ Hrs) as (vs & Hv & Ht).
    unfold jget. rewrite (multi_object_any s p q b es vs Hm He Hv). apply (follows_continue _ _ (object_text ks rs)); auto.
    rewrite (object_text_of _ _ _ Ht). f_equal. apply (entry_keys_unique es); auto.
    clear. induction es as [|e es IH]; constructor; auto. apply epair_key.
  - intros ls p r Hls Hsp Hp _ H. eapply lines_jget; eauto.
  - intros p k s Hp Hf. eapply (lines_other p k None s []); eauto.
  - intros p k x b s r Hp Hf _ H. eapply (lines_other p k (Some (x, b)) s r); eauto.
  - intros x. reflexivity.
  - intros b x. reflexivity.
  - intros b g r x y Hg _ H. exists g, r. auto.
  - intros o. reflexivity.
  - intros b o r _ H. exact H.
  - intros b o r Ho _ H. cbn [jgoes]. destruct o as [[e|x]|]; auto. destruct (Ho x eq_refl).
  - intros b g x Hg. exists g, None. auto.
  - intros b g u x r Hg _ H. exists g, (Some u). auto.
  - intros b x Hc. unfold jfollows. destruct b as [|s u]; auto. destruct (is_sep s) eqn:E; auto. apply is_sep_iff in E. destruct (Hc s u eq_refl E).
  - intros s b x r Hs _ H. unfold jfollows. rewrite (proj2 (is_sep_iff s) Hs). exact H.
  - intros s. constructor.
  - intros p ps s r rs _ H _ Hs. constructor; auto.
Qed.
Theorem means_get p s r : means p s r -> jget s p r.
Proof. apply means_sound. Qed.
Theorem means_unique p s r r' : means p s r -> means p s r' -> r = r'.
Proof. intros H H'. destruct (means_get _ _ _ H) as (v & E & <-), (means_get _ _ _ H') as (v' & E' & <-). congruence. Qed.

(* ---------- the rules cover every path ---------- *)

Lemma head_split p n a b : head p n a (Some b) -> exists k s, separator s /\ p = k ++ s :: b.
Proof.
  intros H. inversion H as [|n0 s0 r0 Hn Hs0 E| |n0 a0 s0 r0 Hn Ha Hs0 E|n0 g s0 r0 Hn Hg Hs0 E|]; subst.
  - exists (64%N :: n), s0. auto.
  - exists (64%N :: n ++ 58%N :: a), s0. split; auto. cbn [app]. rewrite <- app_assoc. reflexivity.
  - exists (64%N :: n ++ 58%N :: a), s0. split; auto. cbn [app]. rewrite <- app_assoc. reflexivity.
Qed.
Lemma head_infix p n a o : head p n a o -> infix (64%N :: n) p /\ (a <> [] -> infix (64%N :: n ++ [58%N]) p).
Proof.
  assert (G : forall r, infix (64%N :: n) (64%N :: n ++ r)) by (intros r; exists [], r; reflexivity).
  assert (G' : forall r, infix (64%N :: n ++ [58%N]) (64%N :: n ++ 58%N :: r)).
  { intros r. exists [], r. cbn [app]. rewrite <- app_assoc. reflexivity. }
  intros H. destruct H; split; auto; try congruence.
  exists [], []. cbn [app]. rewrite app_nil_r. reflexivity.
Qed.
Lemma entries_infix q es : entries q es -> forall e, In e es -> infix (snd e) q.
Proof.
  assert (Ht : forall e, infix (snd e) (entry_text e)).
  { intros [[n|] p]; [exists (n ++ [58%N]), []; cbn [entry_text fst snd]; rewrite <- app_assoc, app_nil_r; reflexivity |
      exists [], []; cbn [entry_text fst snd app]; rewrite app_nil_r; reflexivity]. }
  assert (Hr : forall x a b, infix x a -> infix x (a ++ b)).
  { intros x a b (u & v & ->). exists u, (v ++ b). rewrite <- !app_assoc. reflexivity. }
  assert (Hl : forall x a b, infix x b -> infix x (a ++ b)).
  { intros x a b (u & v & ->). exists (a ++ u), v. rewrite <- !app_assoc. reflexivity. }
  induction 1 as [e _ _|a _|e t es _ _ _ IH]; intros x Hx.
  - destruct Hx as [<-|[]]. apply Ht.
  - destruct Hx.
  - destruct Hx as [<-|Hx]; [apply Hr, Ht|]. apply Hl. change (infix (snd x) ([44%N] ++ t)). apply Hl, IH, Hx.
Qed.
Lemma infix_len a b : infix a b -> length a <= length b.
Proof. intros (u & v & ->). rewrite !app_length. lia. Qed.
Lemma spelled_query p ss t q al : spelled p ss t -> In (Query q al) ss -> infix (qcomp q false) p.
Proof.
  intros H. assert (G : forall p k o s, first p k o -> comp_step k s -> Query q al = s -> infix (qcomp q false) p).
  { clear. intros p k o s H Hs <-. destruct (first_prefix _ _ _ H) as (t & ->). pose proof (step_comp _ _ Hs) as ->.
    cbn [step_text]. destruct (qcomp_ext q al) as (b & ->). exists [], (b ++ t). rewrite <- app_assoc. reflexivity. }
  induction H as [p k s H Hs|p k s b H Hs|p k s b H Hs Hb|p k s b ss t H Hs Hd Hb IH]; intros [Hin|Hin]; try (destruct Hin; fail);
    try (eapply G; eauto; fail).
  destruct (first_sep _ _ _ _ H) as [_ ->]. eapply infix_trans; [apply IH, Hin|]. exists (k ++ [46%N]), []. rewrite app_nil_r, <- app_assoc. reflexivity.
Qed.
Lemma meaning_calm ss : (forall q al, In (Query q al) ss -> calm (qcomp q false)) -> meaning match0 index0 holds0 ss.
Proof.
  intros Hq. split.
  - intros k n Hin. rewrite <- globm_bare. unfold match0, pm. destruct (pmatch_spec k n) as (r & -> & Hr). exact Hr.
  - intros k n _. rewrite index_key_iff. unfold index0. destruct (Z.leb_spec 0 (comp_index k)); split; intros E; try congruence; try lia.
    + injection E as <-. lia.
    + rewrite E, Nat2Z.id. reflexivity.
  - intros q al e Hin He. destruct (get_total (91%N :: render e ++ [93%N]) (qcomp q false)) as (v & Ev); [eapply Hq; eauto|].
    unfold q_holds, holds0. rewrite Ev. eauto.
Qed.
Lemma spelled_rest p ss t b : spelled p ss t -> t = Pipe b \/ t = Into b -> exists k s, p = k ++ s :: b.
Proof.
  intros H Ht. induction H as [p k s H Hs|p k s b' H Hs|p k s b' H Hs Hb|p k s b' ss t H Hs Hd Hb IH].
  - destruct Ht; discriminate.
  - destruct Ht as [[= ->]|]; [|discriminate]. destruct (first_sep _ _ _ _ H) as [_ ->]. eauto.
  - destruct Ht as [|[= ->]]; [discriminate|]. destruct (first_sep _ _ _ _ H) as [_ ->]. eauto.
  - destruct (IH Ht) as (k' & s' & ->). destruct (first_sep _ _ _ _ H) as [_ ->]. exists (k ++ 46%N :: k'), s'. rewrite <- app_assoc. reflexivity.
Qed.

Section Total.
Context (fl : bool).
Notation Vf := (V (fun _ => True) fl).
Notation dk := (dok (fun _ => True) fl).
Definition plainf (p : bytes) : Prop := tamef fl p /\ ~ infix [46; 46; 46]%N p.

Lemma plain_infix a b : infix a b -> plainf b -> plainf a.
Proof.
  intros H (H1 & H2). split; [eapply tame_infix; eauto|]. intros Hi. apply H2. eapply infix_trans; eauto.
Qed.
Lemma V_part e c : part_of e c -> Vf c -> Vf e.
Proof.
  induction 1 as [|w es x Hx _ IH|w ms x Hx _ IH]; auto; intros HV; apply IH.
  - apply V_items in HV. exact (proj1 (Forall_forall _ _) HV x Hx).
  - apply V_membs in HV. exact (proj2 (proj1 (Forall_forall _ _) HV x Hx)).
Qed.
Lemma jget_dk p s r : plainf p -> dk s -> jget s p r -> dk r.
Proof.
  intros (Ht & _) Hd (v & E & <-). destruct (get_tame fl p s v Ht Hd E) as [_ [[-> _]|(c & w & Hc & HV & Hw & Hs)]]; [left; reflexivity|].
  rewrite (sw_json _ _ _ Hs). right. exists [], c, w. unfold doc. cbn [app]. do 4 (split; [auto; try constructor|]). exact Hw.
Qed.
Lemma means_dk p s r : plainf p -> dk s -> means p s r -> dk r.
Proof. intros Hp Hd H. eapply jget_dk; eauto. apply means_get, H. Qed.

Lemma arr_dec c : (exists w es, c = CArr w es) \/ forall w es, c <> CArr w es.
Proof. destruct c; eauto; right; discriminate. Qed.
Lemma flag_total arg name : In name optnames -> exists b, flag arg name b.
Proof.
  intros Hn. destruct (get_opt_ok arg name Hn) as (v & E & [_ Ha] & _). destruct (acc_bool v Ha) as (b & Eb). exists b, v. auto.
Qed.
Lemma applies_total p n a o s : head p n a o -> plainf p -> dk s -> exists x, applies n a s x.
Proof.
  intros Hh ((T1 & T2 & T3) & _) Hd. destruct (head_infix _ _ _ _ Hh) as [Hi Hc].
  destruct (known_dec n) as [Hk|Hk]; [|exists []; apply ap_unknown; exact Hk].
  destruct (list_eq_dec N.eq_dec n n_pretty) as [->|Hn].
  { assert (a = []) as -> by (destruct a; auto; destruct T1; apply Hc; discriminate).
    destruct (pretty_total s popts_default) as (out & Eo). eexists. eapply ap_pretty; [|exact Eo | apply parse_spec].
    split; (eexists; split; [vm_compute; reflexivity | reflexivity]). }
  destruct Hd as [->|(w1 & c & w2 & -> & H1 & Hw & HV & H2)]; [exists []; apply ap_nothing; exact Hn|]. unfold doc.
  cbn [known_names In] in Hk. destruct Hk as [<-|[<-|[<-|[<-|[<-|[<-|[<-|[]]]]]]]].
  - eexists. apply ap_ignored; [cbn [In]; tauto | apply md_this; auto].
  - eexists. apply ap_ignored; [cbn [In]; tauto | apply md_reverse; auto].
  - eexists. apply ap_ignored; [cbn [In]; tauto|]. apply (md_ugly _ _ (erase c)). exists w1, c, w2. auto.
  - destruct (Hn eq_refl).
  - eexists. apply ap_ignored; [cbn [In]; tauto | apply md_valid; auto].
  - destruct (flag_total a (bs "deep")) as (b & Hb); [cbn [optnames In]; tauto|].
    destruct (arr_dec c) as [(w & es & ->)|Hna].
    + destruct b; eexists; (eapply ap_flatten; [exact Hb|]); [apply md_flatten_deep; auto | apply md_flatten; auto].
    + destruct b; eexists; (eapply ap_flatten; [exact Hb|]); apply md_flatten_other; auto.
  - assert (a = []) as -> by (destruct a; auto; destruct T2; apply Hc; discriminate).
    destruct (arr_dec c) as [(w & es & ->)|Hna]; [|eexists; apply ap_none, md_join_other; auto].
    destruct (join_doc get [] value_default w1 w es w2) as (out & _ & Hm & _); auto; try reflexivity.
    eexists. apply ap_none, md_join with (ms := out); auto.
Qed.

Lemma sep_dec c : separator c \/ ~ separator c.
Proof. unfold separator. lia. Qed.
Lemma follows_total r x : (forall u s, r = s :: u -> separator s -> exists y, means u x y) -> exists y, follows r x y.
Proof.
  intros H. destruct r as [|s u]; [exists x; apply fo_end; intros s u X; discriminate|]. destruct (sep_dec s) as [Hs|Hs].
  - destruct (H u s eq_refl Hs) as (y & Hy). exists y. apply fo_sep; auto.
  - exists x. apply fo_end. intros s' u' X. injection X as <- <-. exact Hs.
Qed.

Theorem means_total : forall p s, plainf p -> dk s -> exists r, means p s r.
Proof.
  intros p. induction p as [p IH] using (induction_ltof1 _ (@length N)). unfold ltof in IH. intros s Hp Hd.
  assert (Hin : forall k x b, p = k ++ x :: b -> forall x, dk x -> exists r, means b x r).
  { intros k x b E y Hy. apply IH; auto.
    - rewrite E, app_length. cbn [length]. lia.
    - eapply plain_infix; [|exact Hp]. exists (k ++ [x]), []. rewrite app_nil_r, <- app_assoc. exact E. }
  assert (Hpre : forall k t, p = k ++ t -> plainf k).
  { intros k t E. eapply plain_infix; [|exact Hp]. exists [], t. exact E. }
  destruct p as [|c0 t0] eqn:Ep.
  { destruct (spelled_total []) as (ss & t & Hs). { intros (c & u & X & _). discriminate. } { intros b X. discriminate. } { intros a b X. destruct a; discriminate. }
    assert (t = Done) as ->.
    { destruct t as [|b|b]; auto; destruct (spelled_rest _ _ _ b Hs) as (k & x & X); auto; destruct k; discriminate. }
    destruct Hd as [->|(w1 & c & w2 & -> & H1 & Hw & HV & H2)]; [eexists; eapply me_absent; [exact Hs | apply go_done]|].
    eexists. unfold doc. eapply (me_seek match0 index0 holds0 render []); eauto.
    - apply meaning_calm. intros q al Hq. eapply calm_infix; [eapply spelled_query; eauto | eapply tame_safe, Hp].
    - intros e _ _. apply in_done.
    - apply in_done.
    - apply go_done. }
  destruct (N.eq_dec c0 64) as [->|N1].
  { destruct (head_total t0) as (n & a & o & Hh). rewrite <- Ep in *. clear Ep.
    destruct (applies_total _ _ _ _ s Hh Hp Hd) as (x & Hx). destruct o as [b|]; [|exists x; eapply me_modifier; eauto].
    destruct (head_split _ _ _ _ Hh) as (k & sp & Hsp & E). rewrite E in Hh. destruct (head_local k sp b n a Hsp Hh) as [Hk _].
    destruct (Hin k sp b E x) as (r & Hr).
    { eapply means_dk; [eapply Hpre; exact E | exact Hd | eapply me_modifier; eauto]. }
    exists r. rewrite <- E in Hh. eapply me_modifier_rest; eauto. }
  assert (D : multi_start c0 \/ ~ multi_start c0) by (unfold multi_start; lia). destruct D as [D|D].
  { destruct (multi_total c0 t0) as (q & r & Hm). rewrite <- Ep in *. destruct q as [q|]; [|eexists; eapply me_wrong; eauto].
    destruct (entries_total q) as (es & He). destruct (multi_shape _ _ _ _ Hm) as (k & E & Hk0 & _ & _ & Ek).
    assert (Hall : exists rs, means_all (map snd es) s rs).
    { assert (Hq : forall e, In e es -> exists y, means (snd e) s y).
      { intros e Hin'. pose proof (entries_infix _ _ He e Hin') as Hi.
        assert (Hq : p = [c0] ++ q ++ closing c0 :: r) by (rewrite E, Ek; cbn [app]; rewrite <- app_assoc; reflexivity).
        apply IH; auto.
        - apply infix_len in Hi. rewrite Hq, !app_length. cbn [length]. lia.
        - eapply plain_infix; [|exact Hp]. eapply infix_trans; [exact Hi|]. exists [c0], (closing c0 :: r). exact Hq. }
      clear - Hq. induction es as [|e es IHe]; [eexists; apply ma_nil|]. destruct (Hq e (or_introl eq_refl)) as (y & Hy).
      destruct IHe as (rs & Hrs); [intros x Hx; apply Hq; right; auto|]. exists (y :: rs). cbn [map]. apply ma_cons; auto. }
    destruct Hall as (rs & Hrs). pose proof Hm as Hm'. rewrite E in Hm'. destruct (multi_local _ _ _ _ Hm') as (q' & Hk & -> & _).
    assert (Hcut : cut []) by (intros ? ? X; discriminate).
    destruct D as [-> | ->].
    - destruct (follows_total r (listed rs)) as (y & Hy).
      { intros u sp -> Hsp. apply (Hin k sp u E). eapply means_dk; [eapply Hpre; exact E | exact Hd|]. eapply me_array; eauto. apply fo_end, Hcut. }
      exists y. eapply me_array; eauto.
    - assert (Hks : Forall2 entry_key es (map (fun e => fst (epair e)) es)) by (clear; induction es; constructor; auto using epair_key).
      destruct (follows_total r (object_text (map (fun e => fst (epair e)) es) rs)) as (y & Hy).
      { intros u sp -> Hsp. apply (Hin k sp u E). eapply means_dk; [eapply Hpre; exact E | exact Hd|]. eapply me_object; eauto. apply fo_end, Hcut. }
      exists y. eapply me_object; eauto. }
  rewrite <- Ep in *.
  assert (D2 : (exists q, p = 46%N :: 46%N :: q) \/ forall q, p <> 46%N :: 46%N :: q).
  { rewrite Ep. destruct (N.eq_dec c0 46) as [->|Hc]; [|right; congruence]. destruct t0 as [|c t]; [right; discriminate|].
    destruct (N.eq_dec c 46) as [->|Hc]; [left; eauto | right; congruence]. }
  destruct D2 as [(q & Eq)|D2].
  { assert (Hd2 : array_path q \/ ~ array_path q).
    { destruct q as [|c t]; [left; exact I|]. cbn [array_path]. lia. }
    destruct Hd2 as [Hd2|Hd2].
    - assert (Hl : exists ls, s = lines_text ls /\ Forall wf_item ls /\ spaced ls /\ dk (render (array_of (map i_val ls)))).
      { destruct Hd as [->|(w1 & c & w2 & -> & H1 & Hw & HV & H2)].
        - exists []. split; [reflexivity|]. split; [constructor|]. split; [exact I|]. apply dok_render; [apply wf_mkarr; constructor|].
          apply V_arr; [constructor | left; reflexivity].
        - exists [Item w1 c w2]. split; [cbn; rewrite app_nil_r; reflexivity|]. split; [constructor; [constructor; auto | constructor]|]. split; [exact I|].
          apply dok_render; [apply wf_mkarr; constructor; [exact Hw | constructor]|]. apply V_arr; [constructor; [exact HV | constructor] | left; reflexivity]. }
      destruct Hl as (ls & -> & L1 & L2 & L3). destruct (Hin [46%N] 46%N q Eq _ L3) as (r & Hr). exists r. rewrite Eq. apply me_lines; auto.
    - destruct (first_total q) as (k & [[x b]|] & Hf).
      + destruct (first_sep _ _ _ _ Hf) as [_ Eb]. assert (Ep2 : p = (46%N :: 46%N :: k) ++ x :: b) by (rewrite Eq, Eb; reflexivity). destruct (Hin _ x b Ep2 [] (or_introl eq_refl)) as (r & Hr).
        exists r. rewrite Eq. eapply me_lines_rest; eauto.
      + exists []. rewrite Eq. eapply me_lines_other; eauto. }
  destruct (spelled_total p) as (ss & t & Hs); auto.
  { rewrite Ep. intros (c & u & X & Y). injection X as <- <-. tauto. }
  { intros a b X. destruct Hp as (_ & Hp). apply Hp. exists a, b. exact X. }
  clear c0 t0 Ep N1 D D2.
  assert (Hmean : meaning match0 index0 holds0 ss).
  { apply meaning_calm. intros q al Hq. eapply calm_infix; [eapply spelled_query; eauto | eapply tame_safe, Hp]. }
  destruct (spelled_grouped _ _ _ Hs) as (gp & ro & t' & Hgp & Hsg & Htg & u & Eu).
  destruct t as [|b|b].
  - destruct Hd as [->|(w1 & c & w2 & -> & H1 & Hw & HV & H2)]; [eexists; eapply me_absent; [exact Hs | apply go_done]|].
    eexists. unfold doc. eapply (me_seek match0 index0 holds0 render []); eauto.
    + intros e _ _. apply in_done.
    + apply in_done.
    + apply go_done.
  - destruct Htg as [-> ->]. destruct (spelled_rest _ _ _ b Hs) as (k & sp & E); auto.
    destruct Hd as [->|(w1 & c & w2 & -> & H1 & Hw & HV & H2)].
    + destruct (Hin k sp b E [] (or_introl eq_refl)) as (r & Hr). exists r. eapply me_absent; [exact Hs | apply go_pipe; exact Hr].
    + set (o := seen (seek match0 index0 holds0 true render [] ss c)). unfold doc.
      destruct (Hin k sp b E (found_text o)) as (r & Hr).
      { eapply means_dk; [eapply Hpre; exact Eu | apply dok_doc; [exact H1|exact Hw|exact HV|exact H2]|].
        eapply (me_seek match0 index0 holds0 render []); eauto; try (intros; apply in_done). apply go_done. }
      exists r. eapply (me_seek match0 index0 holds0 render []); eauto; try (intros; apply in_pipe). apply go_pipe. exact Hr.
  - destruct Htg as (g & Hg & ->). destruct (spelled_rest _ _ _ b Hs) as (k & sp & E); auto.
    destruct (grouped_prefix _ _ _ Hg) as (u' & Eg).
    assert (Hgm : forall x, dk x -> means g x (text_at g x)).
    { intros x Hx. destruct (IH g) with (s := x) as (y & Hy); auto.
      - rewrite E, app_length. cbn [length]. rewrite Eg, app_length. lia.
      - eapply plain_infix; [|exact Hp]. exists (k ++ [sp]), u'. rewrite E, Eg, <- !app_assoc. reflexivity.
      - replace (text_at g x) with y; auto. destruct (means_get _ _ _ Hy) as (v & Ev & <-). unfold text_at. rewrite Ev. reflexivity. }
    destruct Hd as [->|(w1 & c & w2 & -> & H1 & Hw & HV & H2)].
    + destruct (Hin k sp b E [] (or_introl eq_refl)) as (r & Hr). exists r. eapply me_absent; [exact Hs|]. apply go_into; [discriminate | exact Hr].
    + set (o := seen (seek match0 index0 holds0 false (fun e => text_at g (render e)) (text_at g []) ss c)). unfold doc.
      assert (Hins : forall e, wf e -> part_of e c -> means g (render e) (text_at g (render e))).
      { intros e He Hpe. apply Hgm. apply dok_render; auto. eapply V_part; eauto. }
      assert (Hno : means g [] (text_at g [])) by (apply Hgm; left; reflexivity).
      assert (Hgo : exists r, goes (Into b) o r).
      { destruct o as [[e|x]|] eqn:Eo.
        - assert (Hv : wf e /\ part_of e c).
          { assert (X : inval (fun e => part_of e c) o).
            { apply seek_inval; auto; [intros w es X; apply Forall_forall; intros; eapply part_elem; eauto |
                intros w ms X; apply Forall_forall; intros; eapply part_memb; eauto | apply po_self]. }
            rewrite Eo in X. exact X. }
          destruct Hv as [He Hpe]. destruct (Hin k sp b E (render e)) as (r & Hr); [apply dok_render; auto; eapply V_part; eauto|].
          exists r. apply go_into; [discriminate | exact Hr].
        - destruct ro as [v|]; [|exists x; eapply go_list; eauto].
          pose proof (grouped_rest _ _ _ Hg) as Eb. destruct (Hin (k ++ sp :: g) 124%N v) with (x := x) as (r & Hr).
          { rewrite E, Eb, <- app_assoc. reflexivity. }
          { eapply means_dk; [eapply Hpre; exact Eu | apply dok_doc; [exact H1|exact Hw|exact HV|exact H2]|].
            pose proof (grouped_again _ _ _ Hg) as Hgg.
            eapply (me_seek match0 index0 holds0 (fun e => text_at g (render e)) (text_at g [])); eauto.
            - intros e He Hpe. eapply in_into; eauto.
            - eapply in_into; eauto.
            - cbn [counting]. fold o. rewrite Eo. eapply go_list; eauto. }
          exists r. eapply go_list_pipe; eauto.
        - destruct (Hin k sp b E [] (or_introl eq_refl)) as (r & Hr). exists r. apply go_into; [discriminate | exact Hr]. }
      destruct Hgo as (r & Hgo). exists r.
      eapply (me_seek match0 index0 holds0 (fun e => text_at g (render e)) (text_at g [])); eauto.
      * intros e He Hpe. eapply in_into; eauto.
      * eapply in_into; eauto.
Qed.
End Total.

Lemma plain_contains fl p : ~ contains p (bs "@join:") -> ~ contains p (bs "@pretty:") -> ~ contains p (bs "...") ->
  fl = true \/ ~ contains p (bs "@flatten") -> plainf fl p.
Proof. intros H1 H2 H3 H4. split; auto. split; auto. Qed.
Lemma total_valid fl json p : plainf fl p -> dok (fun _ => True) fl json ->
  exists r, means p json r /\ (r = [] \/ valid r = Ok true) /\ exists v, get json p = Ok v /\ v_json v = r.
Proof.
  intros Hp Hd. destruct (means_total fl p json Hp Hd) as (r & Hr). exists r. split; auto. split; [|apply means_get, Hr].
  destruct (means_dk fl p json r Hp Hd Hr) as [->|(w1 & c & w2 & -> & H1 & Hw & HV & H2)]; auto. right.
  apply valid_true_iff, json_text_cst. exists w1, c, w2. auto.
Qed.
Theorem means_total_valid json p : json = [] \/ valid json = Ok true ->
  ~ contains p (bs "@join:") -> ~ contains p (bs "@pretty:") -> ~ contains p (bs "...") -> ~ contains p (bs "@flatten") ->
  exists r, means p json r /\ (r = [] \/ valid r = Ok true) /\ exists v, get json p = Ok v /\ v_json v = r.
Proof.
  intros Hj H1 H2 H3 H4. apply (total_valid false); [apply plain_contains; auto|].
  destruct Hj as [->|Hj]; [left; reflexivity | apply dok_valid, Hj].
Qed.
Theorem means_total_tight w1 c w2 p : ws w1 -> wf c -> ws w2 -> tight c = true ->
  ~ contains p (bs "@join:") -> ~ contains p (bs "@pretty:") -> ~ contains p (bs "...") ->
  exists r, means p (w1 ++ render c ++ w2) r /\ (r = [] \/ valid r = Ok true) /\
    exists v, get (w1 ++ render c ++ w2) p = Ok v /\ v_json v = r.
Proof.
  intros G1 G2 G3 Ht H1 H2 H3. apply (total_valid true); [apply plain_contains; auto|].
  apply dok_doc; auto. split; auto. apply Forall_forall. auto.
Qed.
Theorem means_total_lines ls p : Forall wf_item ls -> spaced ls -> array_path p ->
  ~ contains p (bs "@join:") -> ~ contains p (bs "@pretty:") -> ~ contains p (bs "...") -> ~ contains p (bs "@flatten") ->
  exists r, means (bs ".." ++ p) (lines_text ls) r /\ (r = [] \/ valid r = Ok true) /\
    exists v, get (lines_text ls) (bs ".." ++ p) = Ok v /\ v_json v = r.
Proof.
  intros Hls Hs Ha H1 H2 H3 H4. assert (Hd : dok (fun _ => True) false (render (array_of (map i_val ls)))).
  { apply dok_render; [apply wf_mkarr, Forall_map; eapply Forall_impl; [|exact Hls]; apply wf_ival|]. split; [apply Forall_forall; auto | discriminate]. }
  destruct (total_valid false _ p (plain_contains false p H1 H2 H3 (or_intror H4)) Hd) as (r & Hr & Hv & _). exists r.
  assert (Hm : means (bs ".." ++ p) (lines_text ls) r) by (apply me_lines; auto). split; auto. split; auto. apply means_get, Hm.
Qed.
