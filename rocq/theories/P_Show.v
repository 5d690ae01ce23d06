(** What is printed. *)
From Coq Require Import List NArith Lia.
From Verif Require Import M_Base M_Util M_Value M_Get M_Show S_Json S_Path S_Get S_Follow S_Mod S_Decode S_Eval S_Show P_Value P_Eval P_Decode P_Frame P_Run.
Import ListNotations. Open Scope list_scope.

Lemma printed_text c t : printed c t -> text_of c = Ok t.
Proof.
  intros H. destruct H; try reflexivity. cbn [text_of]. destruct (unescape_decodes b) as (t' & _ & U & E). rewrite E, (U t) by assumption. reflexivity.
Qed.
Lemma printed_total c : exists t, printed c t.
Proof.
  destruct c; try (eexists; constructor; fail). match goal with |- exists _, printed (CStr ?b) _ => destruct (decodes_total b) as (t & H) end. exists t. constructor. exact H.
Qed.
Lemma printed_once c t t' : printed c t -> printed c t' -> t = t'.
Proof. intros H H'. apply printed_text in H. apply printed_text in H'. congruence. Qed.

Lemma println_shows cs : forall vs ts, Forall2 (fun c x => shows x c) cs vs -> Forall2 printed cs ts -> println_all vs = Ok (lines ts).
Proof.
  induction cs as [|c cs IH]; intros vs ts H1 H2; inversion H1; inversion H2; subst; [reflexivity|]. cbn [println_all lines flat_map]. unfold v_display.
  match goal with S : shows _ c, P : printed c _ |- _ => rewrite (sh_str _ _ S), (printed_text _ _ P) end. cbn [bind].
  rewrite (IH _ l'0) by assumption. cbn [bind]. unfold lines. rewrite <- app_assoc. reflexivity.
Qed.
Lemma visit_shows cs : forall vs ts out, Forall2 (fun c x => shows x c) cs vs -> Forall2 printed cs ts ->
  visit (fun out x => t <- v_display x ;; Ok (out ++ t ++ [cLF], true)) out vs = Ok (out ++ lines ts).
Proof.
  induction cs as [|c cs IH]; intros vs ts out H1 H2; inversion H1; inversion H2; subst; [cbn; rewrite app_nil_r; reflexivity|]. cbn [visit]. unfold v_display at 1.
  match goal with S : shows _ c, P : printed c _ |- _ => rewrite (sh_str _ _ S), (printed_text _ _ P) end. cbn [bind].
  rewrite (IH _ l'0) by assumption. unfold lines. cbn [flat_map]. rewrite <- !app_assoc. reflexivity.
Qed.
Lemma print_array v w es r ts : wf (CArr w es) -> v_kind v = KArray -> v_json v = render (CArr w es) ++ r ->
  Forall2 printed (map i_val es) ts -> println_array v = Ok (lines ts) /\ println_each v = Ok (lines ts).
Proof.
  intros H Hk Hj Ht. destruct (each_array v w es r H Hk Hj) as (vs & Hs & Ha & He).
  assert (Hs' : Forall2 (fun c x => shows x c) (map i_val es) vs).
  { clear - Hs. induction Hs; constructor; auto. }
  split.
  - unfold println_array. rewrite Ha. cbn [bind]. eapply println_shows; eassumption.
  - unfold println_each. rewrite He. apply (visit_shows _ _ _ [] Hs' Ht).
Qed.
Lemma print_members v w ms r ts : wf (CObj w ms) -> v_kind v = KObject -> v_json v = render (CObj w ms) ++ r ->
  Forall2 printed_member ms ts -> println_members v = Ok (lines ts).
Proof.
  intros H Hk Hj Ht. destruct (each_object v w ms r H Hk Hj) as (kvs & Hs & He). unfold println_members. rewrite He. clear He Hj Hk H.
  assert (G : forall out, visit (fun st kv => n <- v_display (fst kv) ;; t <- v_display (snd kv) ;; Ok (st ++ n ++ [cCOLON; cSP] ++ t ++ [cLF], true)) out kvs = Ok (out ++ lines ts)).
  { revert ts Ht. induction Hs as [|m kv ms kvs [Sk Sv] Hs IH]; intros ts Ht out; inversion Ht; subst; [cbn; rewrite app_nil_r; reflexivity|].
    match goal with P : printed_member _ _ |- _ => destruct P as [w1 k w2 w3 x w4 n t Hd Hp] end. cbn [m_key m_val] in Sk, Sv.
    cbn [visit]. unfold v_display at 1 2. rewrite (sh_str _ _ Sk), (sh_str _ _ Sv), (printed_text _ _ (pr_string _ _ Hd)), (printed_text _ _ Hp). cbn [bind].
    match goal with F : Forall2 _ _ ?l |- _ => rewrite (IH l F) end. unfold lines. cbn [flat_map app]. rewrite <- !app_assoc. cbn [app]. rewrite <- !app_assoc. reflexivity. }
  apply (G []).
Qed.
Lemma printed_member_total m : exists t, printed_member m t.
Proof. destruct m as [w1 k w2 w3 v w4]. destruct (decodes_total k) as (n & Hn). destruct (printed_total v) as (t & Ht). eexists. constructor; eassumption. Qed.

Lemma vals_array_of l : map i_val (match array_of l with CArr _ es => es | _ => [] end) = l.
Proof. unfold array_of. rewrite map_map. apply map_id. Qed.

Section Collect.
Context (mt : text -> text -> bool) (ix : text -> option nat) (hd : text -> cst -> bool).
Notation ev := (eval mt ix hd).
Lemma result_collect k rest w a m b w' es : rest <> [] -> Forall (fun x => mt k (name_of x) = false) a -> mt k (name_of m) = true -> m_val m = CArr w' es ->
  result mt ix hd (Name k :: Hash :: rest) (CObj w (a ++ m :: b)) = Some (array_of (collect (result mt ix hd rest) (map i_val es))).
Proof.
  intros Hr Ha Hm Hv. unfold result at 1.
  change (ev (Name k :: Hash :: rest) (CObj w (a ++ m :: b))) with
    (match scan (hits mt (Name k)) false (ev (Hash :: rest)) (CObj w (a ++ m :: b)) with Found r => Some r | _ => None end).
  rewrite (run_eq mt ix hd (Name k) (Hash :: rest) w (a ++ m :: b)).
  assert (E : run mt ix hd (Name k) (Hash :: rest) (a ++ m :: b) = run mt ix hd (Name k) (Hash :: rest) (m :: b)).
  { induction Ha as [|x a Hx _ IH]; [reflexivity|]. cbn [app]. unfold run; fold run. cbn [hits]. rewrite Hx. exact IH. }
  rewrite E. unfold run; fold run. cbn [hits]. rewrite Hm, Hv.
  change (ev (Hash :: rest) (CArr w' es)) with (if match rest with [] => true | _ => false end then Some (Some (CNum (decimal (length es))))
     else Some (Some (array_of (collect (fun e => flat (ev rest e)) (map i_val es))))).
  destruct rest; [congruence|]. reflexivity.
Qed.
End Collect.

Lemma print_found mt ix hd ss c w r w' es ts : meaning mt ix hd ss -> steps_ok ss -> ss <> [] -> ws w -> wf c ->
  result mt ix hd ss c = Some (CArr w' es) -> Forall2 printed (map i_val es) ts ->
  exists v, get_bytes (w ++ render c ++ r) (dotted (map step_text ss)) = Ok v /\ println_array v = Ok (lines ts) /\ println_each v = Ok (lines ts).
Proof.
  intros Hm Hok Hn Hw Hc Hr Ht. pose proof (result_wf mt ix hd ss c _ Hc Hr) as Hwf. pose proof (get_result mt ix hd ss c w r Hm Hok Hn Hw Hc) as A. rewrite Hr in A. destruct A as (v & E & S).
  exists v. split; [exact E|]. apply (print_array v w' es []); [exact Hwf|exact (sh_kind _ _ S)|rewrite app_nil_r; exact (sh_json _ _ S)|exact Ht].
Qed.

Lemma print_member_lines mt ix hd ss c w r w' ms ts : meaning mt ix hd ss -> steps_ok ss -> ss <> [] -> ws w -> wf c ->
  result mt ix hd ss c = Some (CObj w' ms) -> Forall2 printed_member ms ts ->
  exists v, get_bytes (w ++ render c ++ r) (dotted (map step_text ss)) = Ok v /\ println_members v = Ok (lines ts).
Proof.
  intros Hm Hok Hn Hw Hc Hr Ht. pose proof (result_wf mt ix hd ss c _ Hc Hr) as Hwf.
  pose proof (get_result mt ix hd ss c w r Hm Hok Hn Hw Hc) as A. rewrite Hr in A. destruct A as (v & E & S).
  exists v. split; [exact E|]. apply (print_members v w' ms [] ts); [exact Hwf|exact (sh_kind _ _ S)|rewrite app_nil_r; exact (sh_json _ _ S)|exact Ht].
Qed.
Lemma print_one mt ix hd ss c w r d t : meaning mt ix hd ss -> steps_ok ss -> ss <> [] -> ws w -> wf c ->
  result mt ix hd ss c = Some d -> printed d t ->
  exists v, get_bytes (w ++ render c ++ r) (dotted (map step_text ss)) = Ok v /\ v_display v = Ok t.
Proof.
  intros Hm Hok Hn Hw Hc Hr Ht. pose proof (get_result mt ix hd ss c w r Hm Hok Hn Hw Hc) as A. rewrite Hr in A. destruct A as (v & E & S).
  exists v. split; [exact E|]. unfold v_display. rewrite (sh_str _ _ S). apply printed_text, Ht.
Qed.
Lemma print_collected mt ix hd k rest c0 w a m b w' es ws1 r ts : meaning mt ix hd (Name k :: Hash :: rest) -> steps_ok (Name k :: Hash :: rest) -> ws ws1 ->
  c0 = CObj w (a ++ m :: b) -> wf c0 -> rest <> [] -> Forall (fun x => mt k (name_of x) = false) a -> mt k (name_of m) = true -> m_val m = CArr w' es ->
  Forall2 printed (collect (result mt ix hd rest) (map i_val es)) ts ->
  exists v, get_bytes (ws1 ++ render c0 ++ r) (dotted (map step_text (Name k :: Hash :: rest))) = Ok v /\ println_array v = Ok (lines ts) /\ println_each v = Ok (lines ts).
Proof.
  intros Hm Hok Hw -> Hc Hr Ha Hk Hv Ht. pose proof (result_collect mt ix hd k rest w a m b w' es Hr Ha Hk Hv) as E. unfold array_of in E.
  eapply print_found; [exact Hm|exact Hok|discriminate|exact Hw|exact Hc|exact E|]. rewrite map_map. cbn [i_val]. rewrite map_id. exact Ht.
Qed.
