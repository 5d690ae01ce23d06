(** The flatten modifier on documents. *)
From Verif Require Import P_Base P_Json P_Valid P_ValidSpec P_Str P_Glob P_Scan P_Each P_Doc P_Path P_LGet P_Parts P_Ext P_Total P_Value P_Num
  P_Key P_Find P_GetDoc P_GetArr P_Stream P_Closed P_Reach P_Taken P_Pipe P_Mod P_ModDoc
  M_Util M_Num M_Scan M_Value M_Path M_Valid M_Get S_Json S_Get S_Path S_Api S_Follow S_Taken S_Mod.

Lemma fval_slice_json J x : v_slice (fval J x) = v_json (fval J x).
Proof. unfold fval. destruct (linfo x =? 0)%N; reflexivity. Qed.
Lemma each_array' v w es r : wf (CArr w es) -> v_kind v = KArray -> v_json v = render (CArr w es) ++ r ->
  exists vs, Forall2 (fun e x => shows x (i_val e) /\ v_slice x = render (i_val e)) es vs /\
    forall S (step : S -> value -> value -> R (S * bool)) st,
      v_each v step st = visit (fun st x => step st value_default x) st vs.
Proof.
  intros H Hk Hj. exists (map (fval (v_json v)) (items (tl (v_json v)))). split.
  - assert (E : Forall2 (fun e x => shows x (i_val e)) es (map (fval (v_json v)) (items (tl (v_json v))))).
    { rewrite Hj at 2. rewrite items_arr by auto. inversion H; subst. apply elements_show; auto.
      simpl. unfold follow_byte. auto. }
    revert E. generalize (items (tl (v_json v))). clear. induction es as [|e es IH]; intros l E; destruct l as [|y l]; inversion E; subst; constructor.
    + split; auto. rewrite <- (sh_json _ _ H2). apply fval_slice_json.
    + apply IH. auto.
  - intros S step st. rewrite v_each_spec, Hk.
    destruct (P_Value.render_ne _ r H) as (h & t & E). rewrite (exists_json v h t) by congruence.
    apply visit_run.
Qed.

(* ---------- unwrap ---------- *)

Lemma unwrap_caps o t c : (o = 91 \/ o = 123)%N -> (32 < c)%N -> unwrap (o :: t ++ [c]) = Ok t.
Proof.
  intros Ho Hc. unfold unwrap. cbv zeta.
  assert (E1 : drop_ws (o :: t ++ [c]) = o :: t ++ [c]).
  { cbn [drop_ws]. replace (o <=? 32)%N with false by lia. reflexivity. }
  rewrite E1. assert (E2 : drop_ws_end (o :: t ++ [c]) = o :: t ++ [c]).
  { unfold drop_ws_end. cbn [rev]. rewrite rev_app_distr. cbn [rev app drop_ws]. replace (c <=? 32)%N with false by lia.
    cbn [rev]. rewrite rev_app_distr. cbn [rev app]. rewrite rev_involutive. reflexivity. }
  rewrite E2. replace (2 <=? length (o :: t ++ [c])) with true by (cbn [length]; rewrite app_length; cbn [length]; lia).
  replace (((o =? 91) || (o =? 123))%N) with true by lia. cbn [andb].
  replace (length (o :: t ++ [c]) - 1) with (1 + length t) by (cbn [length]; rewrite app_length; cbn [length]; lia).
  exact (slice_mid [o] t [c] _ _ eq_refl eq_refl).
Qed.

(* ---------- comma separated pieces ---------- *)

Definition ne (t : bytes) : bool := match t with [] => false | _ => true end.

Lemma commas_app a b : a <> [] -> b <> [] -> commas (a ++ b) = commas a ++ 44%N :: commas b.
Proof.
  intros Ha Hb. induction a as [|x a IH]; [congruence|]. destruct a as [|y a].
  - cbn [app commas]. destruct b; [congruence|]. reflexivity.
  - change (commas ((x :: y :: a) ++ b)) with (x ++ 44%N :: commas ((y :: a) ++ b)). rewrite IH by discriminate.
    cbn [commas]. rewrite <- app_assoc. reflexivity.
Qed.
Lemma commas_ne l : Forall (fun t => t <> []) l -> l <> [] -> commas l <> [].
Proof.
  intros H Hl. destruct H as [|x l Hx H]; [congruence|]. destruct l; cbn [commas]; auto.
  destruct x; [congruence|discriminate].
Qed.
Lemma commas_concat tss : Forall (Forall (fun t => t <> [])) tss ->
  commas (filter ne (map commas tss)) = commas (concat tss).
Proof.
  induction 1 as [|ts tss Hts H IH]; auto. cbn [map filter concat]. destruct ts as [|t ts].
  - cbn [commas ne app]. exact IH.
  - pose proof (commas_ne _ Hts ltac:(discriminate)) as Hn. destruct (commas (t :: ts)) as [|h r] eqn:E; [congruence|]. cbn [ne].
    destruct (concat tss) as [|u us] eqn:Eu.
    + rewrite app_nil_r. assert (Z : filter ne (map commas tss) = []).
      { clear - Eu. induction tss as [|ts tss IH]; auto. cbn [concat] in Eu. apply app_eq_nil in Eu as [-> Eu]. cbn [map filter commas ne]. auto. }
      rewrite Z, E. reflexivity.
    + rewrite commas_app by discriminate. rewrite <- IH, E.
      assert (Z : filter ne (map commas tss) <> []).
      { intros Z. rewrite Z in IH. symmetry in IH. apply (commas_ne (u :: us)) in IH; [exact IH| |discriminate].
        rewrite <- Eu. apply Forall_concat. exact H. }
      destruct (filter ne (map commas tss)); [congruence|]. reflexivity.
Qed.

Lemma commas_le t l : In t l -> length t <= length (commas l).
Proof.
  induction l as [|x l IH]; [contradiction|]. intros [->|H].
  - destruct l; cbn [commas]; rewrite ?app_length; lia.
  - specialize (IH H). destruct l as [|y l]; [contradiction|]. change (commas (x :: y :: l)) with (x ++ 44%N :: commas (y :: l)).
    rewrite app_length. cbn [length]. lia.
Qed.

Lemma visit_ext {S A} (f g : S -> A -> R (S * bool)) l : (forall st x, f st x = g st x) -> forall st, visit f st l = visit g st l.
Proof.
  intros H. induction l as [|a l IH]; intros st; auto. cbn [visit]. rewrite H. destruct (g st a) as [[st' []]|]; auto.
Qed.

Lemma flat_map_map {A B C} (f : B -> C) (g : A -> list B) l : map f (flat_map g l) = flat_map (fun e => map f (g e)) l.
Proof. induction l as [|e l IH]; auto. cbn [flat_map]. rewrite map_app, IH. reflexivity. Qed.
Lemma deep_texts es : map render (flat_map (fun e => match e with Item _ v _ => flat_deep v end) es) =
  flat_map (fun e => map render (flat_deep (i_val e))) es.
Proof. induction es as [|[a v b] es IH]; auto. cbn [flat_map i_val]. rewrite map_app, IH. reflexivity. Qed.

Lemma visit_pieces (f : value -> R bytes) (o : N) vs ts : Forall2 (fun x t => f x = Ok t) vs ts -> forall L n, (n = 0 <-> L = []) ->
  exists n', visit (fun '(out, n) x => raw <- f x ;;
           match raw with
           | [] => Ok ((out, n), true)
           | _ => Ok (((if 0 <? n then out ++ [cCOMMA] else out) ++ raw, n + 1), true)
           end) (o :: commas L, n) vs = Ok (o :: commas (L ++ filter ne ts), n').
Proof.
  induction 1 as [|x t vs ts Hx H IH]; intros L n Hn.
  - exists n. cbn [filter]. rewrite app_nil_r. reflexivity.
  - cbn [visit filter]. rewrite Hx. cbn [bind]. destruct t as [|h t]; [apply IH, Hn|]. cbn [ne].
    destruct (IH (L ++ [h :: t]) (n + 1)) as (n' & E).
    { split; [lia|]. intros Z. apply app_eq_nil in Z as [_ Z]. discriminate. }
    exists n'. rewrite <- app_assoc in E. cbn [app] in E. rewrite <- E. f_equal.
    destruct L as [|l L].
    + replace n with 0 by (symmetry; apply Hn; reflexivity). reflexivity.
    + replace (0 <? n) with true by (destruct n; [exfalso; assert (l :: L = []) by (apply Hn; reflexivity); discriminate | reflexivity]).
      rewrite commas_app by discriminate. cbn [commas app]. rewrite <- app_assoc. reflexivity.
Qed.

(* ---------- flatten ---------- *)

Lemma render_nonempty c : wf c -> render c <> [].
Proof. intros H. destruct (P_Value.render_ne c [] H) as (h & t & E). rewrite app_nil_r in E. congruence. Qed.

Lemma flat_deep_wf c : wf c -> Forall wf (flat_deep c).
Proof.
  induction c as [ | | |n|b|w es IH|w ms IH] using cst_ind'; intros H; cbn [flat_deep]; try (constructor; [exact H | constructor]).
  inversion H as [| | | | |w' es' Hw Hes|]; subst. clear H. induction Hes as [|e es He Hes IH']; cbn [flat_map]; [constructor|].
  inversion IH as [|? ? I1 I2]; subst. apply Forall_app. split; [|apply IH'; auto].
  destruct He as [a v b Ha Hv Hb]. apply I1; auto.
Qed.

Definition is_arr (c : cst) : bool := match c with CArr _ _ => true | _ => false end.
Lemma kind_arr c : kind_eqb (kind_of c) KArray = is_arr c.
Proof. destruct c; reflexivity. Qed.

Lemma flatten_deep_doc g arg dv : g arg s_deep = Ok dv -> v_bool dv = Ok true ->
  forall fuel w1 w es w2, ws w1 -> wf (CArr w es) -> ws w2 -> length (w1 ++ render (CArr w es) ++ w2) < fuel ->
  mod_flatten fuel g (w1 ++ render (CArr w es) ++ w2) arg = Ok (render (mkarr (flat_deep (CArr w es)))).
Proof.
  intros Hg Hb. induction fuel as [|fuel IH]; intros w1 w es w2 H1 Hc H2 Hl; [lia|].
  cbn [mod_flatten]. rewrite parse_spec. cbn [bind].
  destruct (parse_presents w1 _ w2 H1 Hc H2) as [P1 P2]. set (res := lparse (w1 ++ render (CArr w es) ++ w2)) in *.
  rewrite (pr_kind _ _ P1). change (negb (kind_eqb (kind_of (CArr w es)) KArray)) with false. cbv iota. rewrite Hg. cbn [bind]. rewrite Hb. cbn [bind].
  cbn [is_container] in P2. destruct (each_array' res w es w2 Hc (pr_kind _ _ P1) P2) as (vs & Hvs & Ev). rewrite Ev.
  set (tss := map (fun e => map render (flat_deep (i_val e))) es).
  destruct (visit_pieces (fun v => if kind_eqb (v_kind v) KArray then
                       f <- mod_flatten fuel g (v_json v) arg ;; unwrap f
                   else Ok (v_slice v)) 91%N vs (map commas tss)) with (L := @nil bytes) (n := 0) as (n' & E).
  - assert (Hes : Forall (fun e => wf (i_val e) /\ length (render (i_val e)) < fuel) es).
    { pose proof (wf_items _ _ Hc) as Hw. apply Forall_forall. intros e He. rewrite Forall_forall in Hw. specialize (Hw e He).
      destruct Hw as [a v b Ha Hv Hb']. split; auto. cbn [i_val]. revert Hl. cbn [render]. rewrite !app_length. cbn [length].
      rewrite !app_length. cbn [length]. enough (length (render v) <= length (commas (map (render_item render) es))) by lia.
      assert (In (a ++ render v ++ b) (map (render_item render) es)) as Hi by (apply in_map_iff; exists (Item a v b); auto).
      apply commas_le in Hi. rewrite !app_length in Hi. lia. }
    clear - Hvs Hes IH. unfold tss. rewrite map_map. induction Hvs as [|e x es vs [He Hs] H IHv]; cbn [map]; constructor.
    + inversion Hes as [|? ? [W L] Hes']; subst. cbn beta. rewrite (sh_kind _ _ He), kind_arr, (sh_json _ _ He), Hs.
      destruct (i_val e) as [ | | |n|b|w' es'|w' ms']; cbn [is_arr]; try reflexivity.
      pose proof (IH [] w' es' [] ltac:(constructor) W ltac:(constructor)) as E. rewrite app_nil_r in E. cbn [app] in E.
      rewrite E by exact L. cbn [bind]. rewrite render_mkarr. apply unwrap_caps; [left; reflexivity | reflexivity].
    + apply IHv. inversion Hes; auto.
  - split; auto.
  - cbn [commas app] in E. rewrite (visit_ext _ (fun '(out, n) x => raw <- (if kind_eqb (v_kind x) KArray then
                       f <- mod_flatten fuel g (v_json x) arg ;; unwrap f
                   else Ok (v_slice x)) ;;
           match raw with
           | [] => Ok ((out, n), true)
           | _ => Ok (((if 0 <? n then out ++ [cCOMMA] else out) ++ raw, n + 1), true)
           end)) by (intros [out n] x; reflexivity).
    rewrite E. cbn [bind]. rewrite render_mkarr. cbn [flat_deep]. cbn [app]. do 3 f_equal.
    rewrite commas_concat.
    + f_equal. unfold tss. rewrite <- flat_map_concat_map. symmetry. apply deep_texts.
    + unfold tss. apply Forall_forall. intros ts Ht. apply in_map_iff in Ht as (e & <- & He).
      apply Forall_forall. intros t Ht. apply in_map_iff in Ht as (c & <- & Hcin). apply render_nonempty.
      pose proof (wf_items _ _ Hc) as Hw. rewrite Forall_forall in Hw. specialize (Hw e He). destruct Hw as [a v b Ha Hv Hb'].
      pose proof (flat_deep_wf v Hv) as Hf. rewrite Forall_forall in Hf. apply Hf, Hcin.
Qed.

(** One level. *)
Definition lead (w : text) (es : list (item cst)) : list (item cst) :=
  match es with Item a v b :: t => Item (w ++ a) v b :: t | [] => [] end.
Definition piece (c : cst) : list (item cst) := match c with CArr w es => lead w es | _ => [Item [] c []] end.

Lemma lead_text w es : es <> [] -> w ++ commas (map (render_item render) es) = commas (map (render_item render) (lead w es)).
Proof.
  destruct es as [|[a v b] t]; [congruence|]. intros _. cbn [lead map]. destruct t as [|y t]; cbn [map commas render_item]; rewrite <- !app_assoc; reflexivity.
Qed.
Lemma lead_vals w es : map i_val (lead w es) = map i_val es.
Proof. destruct es as [|[a v b] t]; reflexivity. Qed.
Lemma piece_vals c : map i_val (piece c) = match c with CArr _ es => map i_val es | _ => [c] end.
Proof. destruct c; try reflexivity. apply lead_vals. Qed.
Lemma piece_wf c : wf c -> Forall wf_item (piece c).
Proof.
  intros H. destruct c as [ | | |n|b|w es|w ms]; cbn [piece]; try (constructor; [constructor; auto; constructor | constructor]).
  inversion H as [| | | | |w' es' Hw Hes|]; subst. destruct Hes as [|e es He Hes]; [constructor|].
  destruct He as [a v b Ha Hv Hb]. cbn [lead]. constructor; auto. constructor; auto. apply Forall_app; auto.
Qed.
Lemma render_item_ne e : wf_item e -> render_item render e <> [].
Proof. intros [a v b Ha Hv Hb]. cbn [render_item]. pose proof (render_nonempty v Hv) as Hn. destruct a; [|discriminate]. cbn [app]. destruct (render v); [congruence | discriminate]. Qed.

Definition hollow (c : cst) : Prop := match c with CArr w [] => w <> [] | _ => False end.

Lemma flatten_doc g arg dv fuel w1 w es w2 : g arg s_deep = Ok dv -> v_bool dv = Ok false ->
  ws w1 -> wf (CArr w es) -> ws w2 -> Forall (fun e => ~ hollow (i_val e)) es ->
  mod_flatten (S fuel) g (w1 ++ render (CArr w es) ++ w2) arg = Ok (render (CArr [] (flat_map (fun e => piece (i_val e)) es))).
Proof.
  intros Hg Hb H1 Hc H2 Hh.
  cbn [mod_flatten]. rewrite parse_spec. cbn [bind].
  destruct (parse_presents w1 _ w2 H1 Hc H2) as [P1 P2]. set (res := lparse (w1 ++ render (CArr w es) ++ w2)) in *.
  rewrite (pr_kind _ _ P1). change (negb (kind_eqb (kind_of (CArr w es)) KArray)) with false. cbv iota. rewrite Hg. cbn [bind]. rewrite Hb. cbn [bind].
  cbn [is_container] in P2. destruct (each_array' res w es w2 Hc (pr_kind _ _ P1) P2) as (vs & Hvs & Ev). rewrite Ev.
  set (tss := map (fun e => map (render_item render) (piece (i_val e))) es).
  destruct (visit_pieces (fun v => if kind_eqb (v_kind v) KArray then unwrap (v_json v)
                   else Ok (v_slice v)) 91%N vs (map commas tss)) with (L := @nil bytes) (n := 0) as (n' & E).
  - clear - Hvs Hh. unfold tss. rewrite map_map. induction Hvs as [|e x es vs [He Hs] H IHv]; cbn [map]; constructor.
    + inversion Hh as [|? ? Hn Hh']; subst. cbn beta. rewrite (sh_kind _ _ He), kind_arr, (sh_json _ _ He), Hs.
      destruct (i_val e) as [ | | |n|b|w' es'|w' ms'];
        try (cbn [is_arr piece map commas render_item app]; rewrite app_nil_r; reflexivity).
      cbn [is_arr piece]. cbn [render]. rewrite app_assoc. rewrite unwrap_caps by (try reflexivity; left; reflexivity).
      f_equal. destruct es' as [|y es'].
      * cbn [hollow] in Hn. assert (w' = []) by (destruct w'; auto; exfalso; apply Hn; discriminate). subst w'. reflexivity.
      * apply lead_text. discriminate.
    + apply IHv. inversion Hh; auto.
  - split; auto.
  - cbn [commas app] in E. rewrite (visit_ext _ (fun '(out, n) x => raw <- (if kind_eqb (v_kind x) KArray then
                       unwrap (v_json x)
                   else Ok (v_slice x)) ;;
           match raw with
           | [] => Ok ((out, n), true)
           | _ => Ok (((if 0 <? n then out ++ [cCOMMA] else out) ++ raw, n + 1), true)
           end)) by (intros [out n] x; reflexivity).
    rewrite E. cbn [bind]. cbn [render app]. do 3 f_equal.
    rewrite commas_concat.
    + f_equal. unfold tss. rewrite <- flat_map_concat_map. symmetry. apply flat_map_map.
    + unfold tss. apply Forall_forall. intros ts Ht. apply in_map_iff in Ht as (e & <- & He).
      apply Forall_forall. intros t Ht. apply in_map_iff in Ht as (i & <- & Hi). apply render_item_ne.
      pose proof (wf_items _ _ Hc) as Hw. rewrite Forall_forall in Hw. specialize (Hw e He). destruct Hw as [a v b Ha Hv Hb'].
      pose proof (piece_wf v Hv) as Hf. rewrite Forall_forall in Hf. apply Hf, Hi.
Qed.

Lemma get_flatten w1 w es w2 arg dv : ws w1 -> wf (CArr w es) -> ws w2 -> arg_ok arg ->
  get (arg_text arg) s_deep = Ok dv -> v_bool dv = Ok false -> Forall (fun e => ~ hollow (i_val e)) es ->
  exists v es', get (w1 ++ render (CArr w es) ++ w2) (modifier n_flatten arg) = Ok v /\ shows v (CArr [] es') /\
    wf (CArr [] es') /\ map i_val es' = flat_once (map i_val es).
Proof.
  intros H1 Hc H2 Ha Hg Hb Hh. assert (Hw : wf (CArr [] (flat_map (fun e => piece (i_val e)) es))).
  { constructor; [constructor|]. apply Forall_forall. intros i Hi. apply in_flat_map in Hi as (e & He & Hi).
    pose proof (wf_items _ _ Hc) as Hw. rewrite Forall_forall in Hw. specialize (Hw e He). destruct Hw as [a v b ? Hv ?].
    pose proof (piece_wf v Hv) as Hf. rewrite Forall_forall in Hf. apply Hf, Hi. } rewrite get_modifier_end by (auto using plain_name).
  change (mod_apply get n_flatten ?j ?a) with (mod_flatten (S (length j)) get j a).
  rewrite (flatten_doc _ _ _ _ _ _ _ _ Hg Hb) by auto. cbn [bind]. eexists. exists (flat_map (fun e => piece (i_val e)) es).
  split; [reflexivity|]. split; [|split; [exact Hw|]].
  - eapply veq_shows; [apply veq_sym, into_parse|]. apply parse_shows. exact Hw.
  - clear. unfold flat_once. induction es as [|e es IH]; auto. cbn [flat_map map]. rewrite map_app, IH, piece_vals. reflexivity.
Qed.

Lemma get_flatten_deep w1 w es w2 arg dv : ws w1 -> wf (CArr w es) -> ws w2 -> arg_ok arg ->
  get (arg_text arg) s_deep = Ok dv -> v_bool dv = Ok true ->
  exists v, get (w1 ++ render (CArr w es) ++ w2) (modifier n_flatten arg) = Ok v /\ shows v (array_of (flat_deep (CArr w es))).
Proof.
  intros H1 Hc H2 Ha Hg Hb. rewrite get_modifier_end by (auto using plain_name).
  change (mod_apply get n_flatten ?j ?a) with (mod_flatten (S (length j)) get j a).
  rewrite (flatten_deep_doc _ _ _ Hg Hb) by auto. cbn [bind]. eexists.
  split; [reflexivity|].
  eapply veq_shows; [apply veq_sym, into_parse|]. apply (parse_shows (mkarr _)). apply wf_mkarr, flat_deep_wf, Hc.
Qed.

Lemma get_flatten_other w1 c w2 arg : ws w1 -> wf c -> ws w2 -> arg_ok arg -> is_arr c = false ->
  exists v, get (w1 ++ render c ++ w2) (modifier n_flatten arg) = Ok v /\ presents v c.
Proof.
  intros H1 Hc H2 Ha Hn. rewrite get_modifier_end by (auto using plain_name).
  change (mod_apply get n_flatten ?j ?a) with (mod_flatten (S (length j)) get j a). cbn [mod_flatten].
  destruct (parse_presents w1 _ w2 H1 Hc H2) as [P1 P2]. rewrite parse_spec. cbn [bind]. rewrite (pr_kind _ _ P1), kind_arr, Hn.
  cbn [negb bind]. eexists. split; [reflexivity|]. eapply veq_presents; [apply veq_sym, into_parse|]. exact P1.
Qed.
